(** C111: quantities read from a Keck image header (keckUtils.py). *)
From Coq Require Import Reals List Arith ZArith Lia Lra Bool String.
From Verif Require Import Base_Py M_Tools M_Cone M_Keck.
Import ListNotations.
Open Scope R_scope.

(** C111: loop delays. The program numbers 0 to 7 are the only ones with an answer; the high-order delay is at least 0.74 ms and at most 28.04 ms; with
    a natural guide star the tip-tilt loop is 163 microseconds later, with a laser it has a fixed delay of 1 ms. *)
Theorem C111_delay : forall h w d p, h_int h "WSSMPRG" = Some w -> getStagePositionWFS h = Ok (d, p) ->
  ((0 <= w <= 7)%Z -> exists ho tt, estimateLoopDelay h = Ok (ho, tt) /\ 74 / 10 ^ 5 <= ho <= 2804 / 10 ^ 5 /\
      tt = (if p then 1 / 1000 else ho + 163 / 10 ^ 6)) /\
  (~ (0 <= w <= 7)%Z -> estimateLoopDelay h = Err UnboundLocalError).
Proof.
  intros h w d p Hw Hp. unfold estimateLoopDelay, key. rewrite Hw, Hp. cbn [bind snd]. split.
  - intros H. assert (C : (w = 0 \/ w = 1 \/ w = 2 \/ w = 3 \/ w = 4 \/ w = 5 \/ w = 6 \/ w = 7)%Z) by lia.
    repeat (destruct C as [->|C]); try subst w; cbn [t0_of]; cbv zeta; destruct p; eexists; eexists; (split; [reflexivity|]); cbn [pow]; split; lra.
  - intros H. assert (E : t0_of w = None); [|rewrite E; reflexivity].
    unfold t0_of. destruct w as [|q|q]; [lia| |reflexivity].
    destruct q as [[[q|q|]|[q|q|]|]|[[q|q|]|[q|q|]|]|]; try reflexivity; lia.
Qed.
Print Assumptions C111_delay.
Definition ex_header (w : Z) (laser : bool) : header :=
  mkHeader (fun _ => Some 1) (fun _ => Some w) (fun k => Some (if laser then "yes" else "no")%string).
Example ex_delay : exists d p, getStagePositionWFS (ex_header 3 false) = Ok (d, p) /\ p = false.
Proof. eexists. eexists. split; reflexivity. Qed.

(** C111: the mode is LGS exactly when LSPROP is YES in any letter case, the defocus is the distance to the focus of that mode, in mm. *)
Theorem C111_stage : forall h o l, h_num h "OBWF" = Some o -> h_str h "LSPROP" = Some l ->
  (upper l = "YES"%string -> forall f, h_num h "AOFCLGFO" = Some f -> getStagePositionWFS h = Ok (Rabs (o - 1000 * f), true)) /\
  (upper l <> "YES"%string -> forall f, h_num h "AOFCNGFO" = Some f -> getStagePositionWFS h = Ok (Rabs (o - 1000 * f), false)).
Proof.
  intros h o l Ho Hl. unfold getStagePositionWFS, key. rewrite Ho, Hl. cbn [bind]. split; intros Hu f Hf; rewrite Hf; cbn [bind];
    [apply String.eqb_eq in Hu|apply String.eqb_neq in Hu]; rewrite Hu; replace (f * 1000) with (1000 * f) by ring; reflexivity.
Qed.
Print Assumptions C111_stage.
Example ex_upper : upper "Yes" = "YES"%string /\ upper "no" = "NO"%string. Proof. split; reflexivity. Qed.

(** C111: the airmass is the inverse of the sine of the elevation; at least one, and one only at the zenith. *)
Theorem C111_airmass : forall h el, h_num h "EL" = Some el -> 0 < el <= 90 ->
  exists a, getTelescopeAirmass h = Ok (90 - el, a) /\ a * sin (el * PI / 180) = 1 /\ 1 <= a /\ (el = 90 -> a = 1) /\ (el < 90 -> 1 < a).
Proof.
  intros h el Hel He. unfold getTelescopeAirmass, key. rewrite Hel. cbn [bind]. cbv zeta.
  assert (Ec : cos ((90 - el) * PI / 180) = sin (el * PI / 180)) by (rewrite <- cos_shift; f_equal; field).
  rewrite Ec. pose proof PI_RGT_0 as HP.
  assert (Hs : 0 < sin (el * PI / 180)) by (apply sin_gt_0; nra).
  destruct (Req_EM_T (sin (el * PI / 180)) 0) as [|Hne]; [lra|]. eexists. split; [reflexivity|].
  pose proof (SIN_bound (el * PI / 180)) as [_ Hb].
  split; [field; exact Hne|].
  assert (H1 : 1 <= 1 / sin (el * PI / 180)). { apply Rmult_le_reg_r with (sin (el * PI / 180)); [exact Hs|]. replace (1 / sin (el * PI / 180) * sin (el * PI / 180)) with 1 by (field; exact Hne). lra. }
  split; [exact H1|]. split.
  - intros ->. replace (90 * PI / 180) with (PI / 2) by field. rewrite sin_PI2. lra.
  - intros Hlt. assert (sin (el * PI / 180) < 1) by (rewrite <- sin_PI2; apply sin_increasing_1; nra).
    apply Rmult_lt_reg_r with (sin (el * PI / 180)); [exact Hs|]. replace (1 / sin (el * PI / 180) * sin (el * PI / 180)) with 1 by (field; exact Hne). lra.
Qed.
Print Assumptions C111_airmass.

(** C111: the read-out noise falls as the square root of the number of reads (15 for 16 reads), except in the mode 2 where it is 60. *)
Theorem C111_noise : forall m k, 0 < k ->
  readout_noise 2 k = Ok 60 /\ (m <> 2%Z -> exists r, readout_noise m k = Ok r /\ 0 < r /\ r * r * k = 15 * 15 * 16 /\ (k = 16 -> r = 15)).
Proof.
  intros m k Hk. unfold readout_noise. split; [reflexivity|]. intros Hm. apply Z.eqb_neq in Hm. rewrite Hm.
  destruct (Req_EM_T k 0) as [|_]; [lra|]. destruct (Rlt_dec k 0) as [|_]; [lra|]. eexists. split; [reflexivity|].
  assert (H16 : 0 < 16 / k) by (apply Rdiv_lt_0_compat; lra).
  assert (Hs : 0 < sqrt (16 / k)) by (apply sqrt_lt_R0, H16). split; [lra|]. split.
  - replace (15 * sqrt (16 / k) * (15 * sqrt (16 / k)) * k) with (15 * 15 * (sqrt (16 / k) * sqrt (16 / k)) * k) by ring. rewrite sqrt_sqrt by lra. field. lra.
  - intros ->. replace (16 / 16) with 1 by field. rewrite sqrt_1. ring.
Qed.
Print Assumptions C111_noise.

(** ** the filter profile *)
Fixpoint increasing (l : list R) : Prop := match l with x :: ((y :: _) as r) => x < y /\ increasing r | _ => True end.
(** C111: a strictly increasing table is left as it is, and a wavelength given twice is separated when the next one is more than 1e-7 micron away. *)
Fixpoint at_most_twice (l : list R) : Prop :=
  match l with
  | x :: ((y :: r') as r) => (x < y \/ (x = y /\ match r' with z :: _ => y + 1 / 10 ^ 7 < z | [] => True end)) /\ at_most_twice r
  | _ => True
  end.
Lemma fix_increasing l : forall p, increasing (p :: l) -> fix_from p l = l.
Proof.
  induction l as [|x l IH]; intros p H; [reflexivity|]. cbn [fix_from]. destruct H as [H1 H2].
  destruct (Rle_dec (x - p) 0); [lra|]. f_equal. apply IH, H2.
Qed.
Lemma fix_twice l : forall p q, at_most_twice (p :: l) -> (q = p \/ (q = p + 1 / 10 ^ 7 /\ match l with z :: _ => p + 1 / 10 ^ 7 < z | [] => True end)) ->
  increasing (q :: fix_from p l).
Proof.
  induction l as [|x l IH]; intros p q H Hq; [exact I|]. cbn [fix_from].
  assert (He : 0 < 1 / 10 ^ 7) by (apply Rdiv_lt_0_compat; [lra|apply pow_lt; lra]).
  destruct H as [H1 H2].
  destruct (Rle_dec (x - p) 0) as [L|L].
  - assert (E : p = x /\ match l with z :: _ => x + 1 / 10 ^ 7 < z | [] => True end) by (destruct H1 as [H1|H1]; [lra|exact H1]).
    destruct E as [-> E]. split.
    + destruct Hq as [->|[-> Hq]]; lra.
    + apply IH; [exact H2|]. right. split; [reflexivity|exact E].
  - split.
    + destruct Hq as [->|[-> Hq]]; lra.
    + apply IH; [exact H2|]. left. reflexivity.
Qed.
Theorem C111_duplicates : forall l, (increasing l -> fix_wavelengths l = l) /\ (at_most_twice l -> increasing (fix_wavelengths l)).
Proof.
  intros [|x l]; [split; [reflexivity|intros _; exact I]|]. cbn [fix_wavelengths]. split; intros H.
  - f_equal. apply fix_increasing, H.
  - apply fix_twice; [exact H|]. left. reflexivity.
Qed.
(** finding: a wavelength given three times is still there twice *)
Theorem C111_triple_refuted : forall x, fix_wavelengths [x; x; x] = [x; x + 1 / 10 ^ 7; x + 1 / 10 ^ 7].
Proof. intros x. cbn [fix_wavelengths fix_from]. destruct (Rle_dec (x - x) 0) as [_|H]; [reflexivity|exfalso; lra]. Qed.
Print Assumptions C111_duplicates.

(** only the transmissions above one percent are kept, as ratios *)
Theorem C111_profile : forall t w tr, In (w, tr) (filter_profile t) -> 1 / 100 < tr /\ exists p, In p (map snd t) /\ tr = p / 100.
Proof.
  intros t w tr H. unfold filter_profile in H. apply in_map_iff in H. destruct H as ([a b] & E & H). injection E as <- <-.
  apply filter_In in H. cbn [fst snd] in *. destruct H as [H1 H2]. destruct (Rlt_dec 1 b) as [L|]; [|discriminate]. split; [lra|].
  exists b. split; [apply (in_combine_r _ _ _ _ H1)|reflexivity].
Qed.
Print Assumptions C111_profile.

(** ** linear regression *)
Definition sq_error (l : list (R * R)) (a b : R) : R := lsum2 (fun p => (snd p - (a * fst p + b)) ^ 2) l.
Lemma lsum2_ext f g l : (forall p, f p = g p) -> lsum2 f l = lsum2 g l.
Proof. intros H. unfold lsum2. f_equal. apply map_ext. exact H. Qed.
Lemma lsum2_plus f g l : lsum2 (fun p => f p + g p) l = lsum2 f l + lsum2 g l.
Proof. unfold lsum2. induction l as [|x l IH]; cbn; [lra|]. unfold lsum in *. cbn. lra. Qed.
Lemma lsum2_scal c f l : lsum2 (fun p => c * f p) l = c * lsum2 f l.
Proof. unfold lsum2. induction l as [|x l IH]; cbn; [lra|]. unfold lsum in *. cbn. lra. Qed.
Lemma lsum2_const c l : lsum2 (fun _ => c) l = c * INR (List.length l).
Proof.
  unfold lsum2. induction l as [|x l IH]; [cbn; lra|]. change (List.length (x :: l)) with (S (List.length l)). rewrite S_INR.
  unfold lsum in *. cbn [map fold_right]. lra.
Qed.
Lemma lsum2_nonneg f l : (forall p, In p l -> 0 <= f p) -> 0 <= lsum2 f l.
Proof.
  unfold lsum2. induction l as [|x l IH]; intros H; [unfold lsum; cbn; lra|]. unfold lsum in *. cbn [map fold_right].
  assert (0 <= f x) by (apply H; now left). assert (0 <= fold_right Rplus 0 (map f l)) by (apply IH; intros; apply H; now right). lra.
Qed.
Lemma lsum2_pos f l p0 : (forall p, In p l -> 0 <= f p) -> In p0 l -> 0 < f p0 -> 0 < lsum2 f l.
Proof.
  unfold lsum2. induction l as [|x l IH]; intros H Hin Hp; [destruct Hin|]. unfold lsum in *. cbn [map fold_right].
  assert (0 <= f x) by (apply H; now left).
  assert (N : 0 <= fold_right Rplus 0 (map f l)) by (apply (lsum2_nonneg f l); intros; apply H; now right).
  destruct Hin as [->|Hin]; [lra|]. assert (0 < fold_right Rplus 0 (map f l)) by (apply IH; [intros; apply H; now right|exact Hin|exact Hp]). lra.
Qed.
Lemma det_var l : (0 < List.length l)%nat -> let n := INR (List.length l) in let m := lsum2 fst l / n in
  n * lsum2 (fun p => fst p * fst p) l - lsum2 fst l * lsum2 fst l = n * lsum2 (fun p => (fst p - m) ^ 2) l.
Proof.
  intros H n m. assert (Hn : 0 < n) by (apply lt_0_INR, H).
  assert (E : lsum2 (fun p => (fst p - m) ^ 2) l = lsum2 (fun p => fst p * fst p) l + (- 2 * m) * lsum2 fst l + m * m * n).
  { rewrite <- (lsum2_scal (- 2 * m) fst l). unfold n. rewrite <- (lsum2_const (m * m) l). rewrite <- !lsum2_plus. apply lsum2_ext. intros p. ring. }
  rewrite E. unfold m. field. lra.
Qed.

(** C111: the fitted line is the one of least squares, it exists as soon as two wavelengths differ, and it reproduces a linear profile. *)
Theorem C111_regression : forall l,
  ((exists p q, In p l /\ In q l /\ fst p <> fst q) -> exists a b, polyfit1 l = Ok (a, b)) /\
  (forall a b, polyfit1 l = Ok (a, b) ->
     (forall a' b', sq_error l a b <= sq_error l a' b') /\
     (forall a' b', (forall p, In p l -> snd p = a' * fst p + b') -> a = a' /\ b = b')).
Proof.
  intros l. unfold polyfit1. cbv zeta. set (n := INR (List.length l)). set (sx := lsum2 fst l). set (sy := lsum2 snd l).
  set (sxx := lsum2 (fun p => fst p * fst p) l). set (sxy := lsum2 (fun p => fst p * snd p) l). set (det := n * sxx - sx * sx).
  split.
  - intros (p & q & Hp & Hq & Hne). destruct (Req_EM_T det 0) as [E|_]; [|eexists; eexists; reflexivity]. exfalso.
    assert (HL : (0 < List.length l)%nat) by (destruct l; [destruct Hp|cbn; lia]).
    pose proof (det_var l HL) as D. cbv zeta in D. fold n sx sxx in D. fold det in D. rewrite E in D.
    assert (Hn : 0 < n) by (apply lt_0_INR, HL). set (m := sx / n) in *.
    assert (P : 0 < lsum2 (fun p => (fst p - m) ^ 2) l).
    { destruct (Req_EM_T (fst p) m) as [E1|E1].
      - apply (lsum2_pos _ l q); [intros; apply pow2_ge_0|exact Hq|]. assert (fst q - m <> 0) by lra. pose proof (pow2_ge_0 (fst q - m)). pose proof (pow_nonzero (fst q - m) 2 H). lra.
      - apply (lsum2_pos _ l p); [intros; apply pow2_ge_0|exact Hp|]. assert (fst p - m <> 0) by lra. pose proof (pow2_ge_0 (fst p - m)). pose proof (pow_nonzero (fst p - m) 2 H). lra. }
    assert (0 < n * lsum2 (fun p => (fst p - m) ^ 2) l) by (apply Rmult_lt_0_compat; assumption). lra.
  - intros a b. destruct (Req_EM_T det 0) as [|Hd]; [discriminate|]. intros H. apply Ok_inj in H.
    assert (Hn : n <> 0).
    { intros E. apply Hd. unfold det. assert (El : List.length l = 0%nat) by (apply INR_eq; exact E). rewrite E. assert (Z : sx = 0) by (unfold sx; clear - El; destruct l; [reflexivity|discriminate]). rewrite Z. ring. }
    injection H as Ha Hb.
    assert (N1 : sxy - a * sxx - b * sx = 0) by (rewrite <- Hb, Ha; rewrite <- Ha; unfold det in *; field; split; assumption).
    assert (N2 : sy - a * sx - b * n = 0) by (rewrite <- Hb, Ha; field; assumption).
    split.
    + intros a' b'. unfold sq_error.
      assert (E : lsum2 (fun p => (snd p - (a' * fst p + b')) ^ 2) l =
                  lsum2 (fun p => (snd p - (a * fst p + b)) ^ 2) l + lsum2 (fun p => ((a - a') * fst p + (b - b')) ^ 2) l
                  + 2 * (a - a') * (sxy - a * sxx - b * sx) + 2 * (b - b') * (sy - a * sx - b * n)).
      { replace (2 * (a - a') * (sxy - a * sxx - b * sx)) with (2 * (a - a') * sxy + (- (2 * (a - a') * a)) * sxx + (- (2 * (a - a') * b)) * sx) by ring.
        replace (2 * (b - b') * (sy - a * sx - b * n)) with (2 * (b - b') * sy + (- (2 * (b - b') * a)) * sx + (- (2 * (b - b') * b)) * n) by ring.
        unfold sxy, sxx, sx, sy, n. rewrite <- (lsum2_const (- (2 * (b - b') * b)) l). rewrite <- !lsum2_scal, <- !lsum2_plus. apply lsum2_ext. intros p. ring. }
      rewrite E, N1, N2. assert (0 <= lsum2 (fun p => ((a - a') * fst p + (b - b')) ^ 2) l) by (apply lsum2_nonneg; intros; apply pow2_ge_0). lra.
    + intros a' b' Hlin.
      assert (Esy : sy = a' * sx + b' * n).
      { unfold sy, sx, n. rewrite <- (lsum2_const b' l), <- lsum2_scal, <- lsum2_plus. unfold lsum2. f_equal. apply map_ext_in. exact Hlin. }
      assert (Esxy : sxy = a' * sxx + b' * sx).
      { unfold sxy, sxx, sx. rewrite <- !lsum2_scal, <- lsum2_plus. unfold lsum2. f_equal. apply map_ext_in. intros p Hp. rewrite (Hlin p Hp). ring. }
      assert (Ea : a = a') by (rewrite <- Ha, Esy, Esxy; unfold det in *; field; assumption).
      split; [exact Ea|]. rewrite <- Hb, Ha, Ea, Esy. field. assumption.
Qed.
Print Assumptions C111_regression.

(** C111: sampled profile. At least as many wavelengths as asked when the band is wide, spread over the selected band from end to end, with the values of the
    fitted line; a band narrower than the limit is replaced by the central wavelength of the header, without bandwidth. *)
Theorem C111_sampling : forall prof nWvl thr bwMin cen wc bw tr d1 d2,
  samplingFilterProfile prof nWvl thr bwMin cen = Ok (wc, bw, tr, (d1, d2)) ->
  exists a b lo hi, 
    (exists top, In top (map snd prof) /\ (forall y, In y (map snd prof) -> y <= top) /\
       let sel := filter (fun p => if Rlt_dec (thr * top) (snd p) then true else false) prof in
       polyfit1 sel = Ok (a, b) /\ In lo (map fst sel) /\ In hi (map fst sel) /\ (forall x, In x (map fst sel) -> lo <= x <= hi)) /\
    tr = map (fun w => a * w + b) wc /\
    ((2 <= nWvl)%nat -> bwMin < hi - lo ->
       List.length wc = nWvl /\ List.length d1 = nWvl /\ List.length d2 = nWvl /\ bw = hi - lo /\
       forall k, (k < nWvl)%nat -> nth k wc 0 = lo + INR k / INR (nWvl - 1) * (hi - lo)) /\
    ((nWvl = 1%nat \/ hi - lo <= bwMin) -> wc = [cen] /\ bw = 0 /\ d1 = [0] /\ d2 = [0]) /\
    (forall x, In x (d1 ++ d2) -> x = 0).
Proof.
  intros prof nWvl thr bwMin cen wc bw tr d1 d2. unfold samplingFilterProfile.
  destruct (map snd prof) as [|y0 ys] eqn:Ey; [discriminate|]. set (top := fold_left Rmax ys y0). set (sel := filter _ prof).
  destruct (polyfit1 sel) as [[a b]|] eqn:Ep; cbn [bind]; [|discriminate].
  destruct (map fst sel) as [|w ws] eqn:Ew; [discriminate|]. cbv zeta. set (lo := fold_left Rmin ws w). set (hi := fold_left Rmax ws w).
  assert (FM : forall l x, In (fold_left Rmax l x) (x :: l) /\ forall y, In y (x :: l) -> y <= fold_left Rmax l x).
  { induction l as [|z l IH]; intros x; cbn [fold_left]; [split; [now left|intros y [->|[]]; lra]|].
    destruct (IH (Rmax x z)) as [I1 I2]. split.
    - destruct I1 as [I1|I1]; [|right; right; exact I1]. rewrite <- I1. unfold Rmax. destruct (Rle_dec x z); [right; left; reflexivity|left; reflexivity].
    - intros y [->|[->|Hy]]; [pose proof (I2 _ (or_introl eq_refl)); pose proof (Rmax_l y z); lra|pose proof (I2 _ (or_introl eq_refl)); pose proof (Rmax_r x y); lra|apply I2; now right]. }
  assert (Fm : forall l x, In (fold_left Rmin l x) (x :: l) /\ forall y, In y (x :: l) -> fold_left Rmin l x <= y).
  { induction l as [|z l IH]; intros x; cbn [fold_left]; [split; [now left|intros y [->|[]]; lra]|].
    destruct (IH (Rmin x z)) as [I1 I2]. split.
    - destruct I1 as [I1|I1]; [|right; right; exact I1]. rewrite <- I1. unfold Rmin. destruct (Rle_dec x z); [left; reflexivity|right; left; reflexivity].
    - intros y [->|[->|Hy]]; [pose proof (I2 _ (or_introl eq_refl)); pose proof (Rmin_l y z); lra|pose proof (I2 _ (or_introl eq_refl)); pose proof (Rmin_r x y); lra|apply I2; now right]. }
  intros H. apply Ok_inj in H. injection H as H1 H2 H3 H4 H5.
  exists a, b, lo, hi. split.
  { exists top. destruct (FM ys y0) as [T1 T2]. split; [exact T1|]. split; [exact T2|]. fold sel. rewrite Ew. split; [exact Ep|].
    destruct (FM ws w) as [A1 A2]. destruct (Fm ws w) as [B1 B2]. split; [exact B1|]. split; [exact A1|]. intros x Hx. split; [apply B2, Hx|apply A2, Hx]. }
  split; [rewrite <- H3, <- H1; reflexivity|]. split; [|split].
  - intros Hn Hb. destruct (Rle_dec (hi - lo) bwMin) as [|_]; [lra|]. assert (E : (1 <? nWvl)%nat = true) by (apply Nat.ltb_lt; lia). rewrite E in *.
    subst wc bw d1 d2. rewrite !repeat_length. destruct nWvl as [|[|q]]; [lia|lia|]. cbn [linspace]. rewrite map_length, seq_length.
    repeat split; try reflexivity. intros k Hk.
    rewrite (nth_indep _ 0 ((fun k => lo + INR k * ((hi - lo) / INR (S (S q) - 1))) 0%nat)) by (rewrite map_length, seq_length; lia).
    rewrite (map_nth (fun k => lo + INR k * ((hi - lo) / INR (S (S q) - 1)))), seq_nth by lia. rewrite Nat.add_0_l. unfold Rdiv. ring.
  - intros Hc. assert (E : (if Rle_dec (hi - lo) bwMin then 1%nat else nWvl) = 1%nat) by (destruct (Rle_dec (hi - lo) bwMin); [reflexivity|destruct Hc; [assumption|lra]]).
    rewrite E in *. cbn in *. subst. repeat split; reflexivity.
  - subst d1 d2. intros x Hx. apply in_app_or in Hx. destruct Hx as [Hx|Hx]; apply repeat_spec in Hx; exact Hx.
Qed.
Print Assumptions C111_sampling.
Example ex_sampling : is_ok (samplingFilterProfile [(0, 0); (1, 1); (3, 1); (4, 0)] 3 (9 / 10) (1 / 10) 2) = true.
Proof.
  unfold samplingFilterProfile. cbn [map snd fold_left]. 
  assert (E : Rmax (Rmax (Rmax 0 1) 1) 0 = 1) by (unfold Rmax; repeat (destruct (Rle_dec _ _)); lra). rewrite E.
  cbn [filter snd]. destruct (Rlt_dec (9 / 10 * 1) 0) as [|_]; [lra|]. destruct (Rlt_dec (9 / 10 * 1) 1) as [_|]; [|lra].
  unfold polyfit1, lsum2, lsum. cbn [map fst snd fold_right List.length INR].
  destruct (Req_EM_T _ 0) as [H|_]; [lra|]. reflexivity.
Qed.

Print Assumptions C111_triple_refuted.
