(** Complements found by mutation testing: C28 (low-order number), C36 (joined paths), C40 (guess on a bound),
    C60 (polar coordinates), C81 (shapes of the anisoplanatism), C86 (crossing of one mode), C92 (reference segment),
    C97 (modal filter), C98 (accepted FITS paths), C111 (pixel scales). *)
From Coq Require Import Reals List Arith ZArith Bool Lia Lra String Ascii.
From Verif Require Import Base_Py Base_Sum M_Image M_Tools M_Atmo M_Config M_Keck M_Model2 M_Fit M_Diag P_Diag4 M_Map L_Freq L_Atmo P_Atmo.
Import ListNotations.
Open Scope R_scope.

(** C111: the pixel scale in mas of the cameras; another NIRC2 camera is refused, another instrument has no scale. *)
Theorem C111_scale : forall h i, h_str h "CURRINST"%string = Some i ->
  (i = "NIRC2"%string -> forall c, h_str h "CAMNAME"%string = Some c ->
     (upper c = "NARROW"%string -> getScale h = Ok (Some 9.942)) /\ (upper c = "MEDIUM"%string -> getScale h = Ok (Some 19.829)) /\
     (upper c = "WIDE"%string -> getScale h = Ok (Some 39.686)) /\
     (~ In (upper c) ["NARROW"; "MEDIUM"; "WIDE"]%string -> exists e, getScale h = Err e)) /\
  (i = "OSIRIS"%string -> getScale h = Ok (Some 9.95)) /\
  (i <> "NIRC2"%string -> i <> "OSIRIS"%string -> getScale h = Ok None).
Proof.
  intros h i Hi. unfold getScale, key. rewrite Hi. cbn [bind]. split; [|split].
  - intros -> c Hc. rewrite String.eqb_refl, Hc. cbn [bind]. split; [|split; [|split]].
    + intros ->. rewrite String.eqb_refl. apply f_equal, f_equal; lra.
    + intros ->. cbn [String.eqb Ascii.eqb Bool.eqb]. apply f_equal, f_equal; lra.
    + intros ->. cbn [String.eqb Ascii.eqb Bool.eqb]. apply f_equal, f_equal; lra.
    + intros N. cbn [In] in N. destruct (String.eqb_spec (upper c) "NARROW"); [exfalso; apply N; auto|]. destruct (String.eqb_spec (upper c) "MEDIUM"); [exfalso; apply N; auto|]. destruct (String.eqb_spec (upper c) "WIDE"); [exfalso; apply N; auto|]. eauto.
  - intros ->. cbn [String.eqb Ascii.eqb Bool.eqb]. apply f_equal, f_equal; lra.
  - intros N1 N2. destruct (String.eqb_spec i "NIRC2"); [contradiction|]. destruct (String.eqb_spec i "OSIRIS"); [contradiction|reflexivity].
Qed.

(** C36: a path joined to a directory: an absolute path replaces the directory; otherwise exactly one slash separates them
    (none is added after a trailing slash or to an empty directory). *)
Theorem C36_join : forall d p,
  (starts_slash p = true -> join d p = p) /\
  (starts_slash p = false -> join "" p = p /\ (forall u, join (u ++ "/") p = ((u ++ "/") ++ p)%string) /\
     (d <> ""%string -> ends_slash d = false -> join d p = (d ++ "/" ++ p)%string)).
Proof.
  assert (EU : forall u, ends_slash (u ++ "/") = true). { induction u as [|c u IH]; [reflexivity|]. cbn [append ends_slash]. destruct (u ++ "/")%string eqn:E; [destruct u; discriminate|]. exact IH. }
  intros d p. unfold join. split; [intros ->; reflexivity|]. intros ->. split; [reflexivity|]. split.
  - intros u. rewrite EU, orb_true_r. reflexivity.
  - intros N E. rewrite E, orb_false_r. destruct (String.eqb_spec d ""); [contradiction|reflexivity].
Qed.

(** C98: a path is taken for a FITS file when the file exists and its name contains "fits" after at least one character. *)
Lemma prefix_spec p s : prefix p s = true <-> exists v, s = (p ++ v)%string.
Proof.
  revert s. induction p as [|c p IH]; intros s.
  - split; [intros _; exists s; reflexivity|intros _; destruct s; reflexivity].
  - destruct s as [|d s]; cbn [prefix append]; [split; [discriminate|intros (v & E); discriminate]|].
    destruct (ascii_dec c d) as [ ->|N]; [rewrite IH|].
    + split; intros (v & E); exists v; [subst; reflexivity|now injection E].
    + split; [discriminate|]. intros (v & E). injection E as E _. congruence.
Qed.
Theorem C98_fits_path : forall e p, check_path e (PStr p) = true <-> e_isfile e p = true /\ exists c u v, p = (String c u ++ "fits" ++ v)%string.
Proof.
  intros e p. unfold check_path. rewrite andb_true_iff. apply and_iff_compat_l.
  induction p as [|c p IH]; cbn [has_fits]; [split; [discriminate|intros (c & u & v & E); discriminate]|].
  rewrite orb_true_iff, IH, prefix_spec. split.
  - intros [(v & ->)|(d & u & v & ->)]; [exists c, ""%string, v; reflexivity|exists c, (String d u), v; reflexivity].
  - intros (d & u & v & E). injection E as -> E. destruct u as [|d' u]; [left; exists v; exact E|right; exists d', u, v; exact E].
Qed.
Example C98_fits_ex : forall e, e_isfile e "a.fits" = true -> check_path e (PStr "a.fits") = true.
Proof. intros e H. apply C98_fits_path. split; [exact H|]. exists "a"%char, "."%string, ""%string. reflexivity. Qed.

(** C40: the bounds of a fit are accepted with a guess exactly when there is one lower and one upper bound per value,
    each lower bound is strictly below the upper one, and each value is between its bounds, the bounds included. *)
Definition above_lo (l : ext) (x : R) : Prop := match l with NegInf => True | Val a => a <= x | PosInf => False end.
Definition below_hi (u : ext) (x : R) : Prop := match u with PosInf => True | Val b => x <= b | NegInf => False end.
Definition apart (l u : ext) : Prop := match l, u with Val a, Val b => a < b | NegInf, NegInf | PosInf, _ | Val _, NegInf => False | _, _ => True end.
Lemma forallb_combine {A B} (f : A * B -> bool) (a0 : A) (b0 : B) : forall la lb, List.length la = List.length lb ->
  (forallb f (combine la lb) = true <-> forall i, (i < List.length la)%nat -> f (nth i la a0, nth i lb b0) = true).
Proof.
  induction la as [|a la IH]; intros [|b lb] L; try discriminate; cbn [combine forallb List.length].
  - split; [intros _ i Hi; lia|reflexivity].
  - rewrite andb_true_iff, (IH lb) by (injection L; auto). split.
    + intros [H1 H2] [|i] Hi; [exact H1|]. cbn [nth]. apply H2. lia.
    + intros H. split; [apply (H 0%nat); lia|]. intros i Hi. apply (H (S i)). lia.
Qed.
Theorem C40_guess_accepted : forall lo hi y0, bounds_ok (lo, hi) y0 = true <->
  List.length lo = List.length y0 /\ List.length hi = List.length y0 /\
  forall i, (i < List.length y0)%nat -> above_lo (nth i lo NegInf) (nth i y0 0) /\ below_hi (nth i hi PosInf) (nth i y0 0) /\ apart (nth i lo NegInf) (nth i hi PosInf).
Proof.
  intros lo hi y0. unfold bounds_ok, feasible. cbn [fst snd]. rewrite !andb_true_iff, !Nat.eqb_eq.
  split.
  - intros [[[ [L1 L2] F1] F2] F3]. split; [exact L1|]. split; [exact L2|]. intros i Hi.
    rewrite (forallb_combine _ NegInf 0) in F1 by exact L1. rewrite (forallb_combine _ 0 PosInf) in F2 by (symmetry; exact L2). rewrite (forallb_combine _ NegInf PosInf) in F3 by congruence.
    specialize (F1 i ltac:(lia)). specialize (F2 i ltac:(lia)). specialize (F3 i ltac:(lia)). cbn [fst snd] in *.
    destruct (nth i lo NegInf), (nth i hi PosInf); cbn in *; repeat (match goal with H : context [if ?d then _ else _] |- _ => destruct d end); try discriminate; auto.
  - intros (L1 & L2 & F). split; [split; [split; [split; assumption|]|]|].
    + apply (forallb_combine _ NegInf 0); [exact L1|]. intros i Hi. specialize (F i ltac:(lia)). cbn [fst snd]. destruct F as (F & _ & _). destruct (nth i lo NegInf); cbn in *; try contradiction; try reflexivity. destruct (Rle_dec _ _); [reflexivity|contradiction].
    + apply (forallb_combine _ 0 PosInf); [symmetry; exact L2|]. intros i Hi. specialize (F i ltac:(lia)). cbn [fst snd]. destruct F as (_ & F & _). destruct (nth i hi PosInf); cbn in *; try contradiction; try reflexivity. destruct (Rle_dec _ _); [reflexivity|contradiction].
    + apply (forallb_combine _ NegInf PosInf); [congruence|]. intros i Hi. specialize (F i ltac:(lia)). cbn [fst snd]. destruct F as (_ & _ & F). destruct (nth i lo NegInf), (nth i hi PosInf); cbn in *; try contradiction; try reflexivity. destruct (Rlt_dec _ _); [reflexivity|contradiction].
Qed.
Example C40_guess_ex : bounds_ok ([Val 0; NegInf], [Val 1; Val 2]) [0; 2] = true.
Proof. apply C40_guess_accepted. cbn. split; [reflexivity|]. split; [reflexivity|]. intros [|[|i]] Hi; cbn; try lia; repeat split; try lra; auto. Qed.

(** C60: the angle computed from two coordinates is the polar angle of the point, in ]-pi, pi]. *)
Theorem C60_polar : forall y x, - PI < M_Config.arctan2 y x <= PI /\
  (let r := sqrt (x ^ 2 + y ^ 2) in r * cos (M_Config.arctan2 y x) = x /\ r * sin (M_Config.arctan2 y x) = y).
Proof.
  assert (HPI := PI_RGT_0).
  assert (K : forall t, cos (atan t) = / sqrt (1 + t ^ 2) /\ sin (atan t) = t * / sqrt (1 + t ^ 2)).
  { intros t. replace (t ^ 2) with (Rsqr t) by (unfold Rsqr; ring). rewrite cos_atan, sin_atan. unfold Rdiv. split; ring. }
  assert (Q : forall x y, x <> 0 -> sqrt (x ^ 2 + y ^ 2) * / sqrt (1 + (y / x) ^ 2) = Rabs x).
  { intros x y N. replace (x ^ 2 + y ^ 2) with ((x ^ 2) * (1 + (y / x) ^ 2)) by (field; exact N).
    assert (0 < 1 + (y / x) ^ 2) by (pose proof (pow2_ge_0 (y / x)); lra).
    rewrite sqrt_mult by (try apply pow2_ge_0; lra). rewrite Rmult_assoc, Rinv_r by (assert (0 < sqrt (1 + (y / x) ^ 2)) by (apply sqrt_lt_R0; assumption); lra). rewrite Rmult_1_r. rewrite <- (sqrt_Rsqr_abs x). f_equal. unfold Rsqr. ring. }
  intros y x. unfold M_Config.arctan2. destruct (Rlt_dec 0 x) as [P|P]; [|destruct (Rlt_dec x 0) as [N|N]].
  - pose proof (atan_bound (y / x)). split; [lra|]. cbv zeta. destruct (K (y / x)) as [-> ->]. assert (N0 : x <> 0) by lra. pose proof (Q x y N0) as E. rewrite Rabs_right in E by lra.
    split; [exact E|]. replace (sqrt (x ^ 2 + y ^ 2) * (y / x * / sqrt (1 + (y / x) ^ 2))) with (y / x * (sqrt (x ^ 2 + y ^ 2) * / sqrt (1 + (y / x) ^ 2))) by ring. rewrite E. field. exact N0.
  - assert (N0 : x <> 0) by lra. pose proof (Q x y N0) as E. rewrite Rabs_left in E by lra. destruct (K (y / x)) as [Kc Ks].
    assert (C1 : sqrt (x ^ 2 + y ^ 2) * - cos (atan (y / x)) = x) by (rewrite Kc; replace (sqrt (x ^ 2 + y ^ 2) * - / sqrt (1 + (y / x) ^ 2)) with (- (sqrt (x ^ 2 + y ^ 2) * / sqrt (1 + (y / x) ^ 2))) by ring; rewrite E; ring).
    assert (C2 : sqrt (x ^ 2 + y ^ 2) * - sin (atan (y / x)) = y).
    { rewrite Ks. replace (sqrt (x ^ 2 + y ^ 2) * - (y / x * / sqrt (1 + (y / x) ^ 2))) with (- (y / x * (sqrt (x ^ 2 + y ^ 2) * / sqrt (1 + (y / x) ^ 2)))) by ring. rewrite E. field. exact N0. }
    pose proof (atan_bound (y / x)) as B.
    assert (IX : / x < 0) by (apply Rinv_lt_0_compat; exact N).
    destruct (Rle_dec 0 y) as [Y|Y]; cbv zeta.
    + assert (A : atan (y / x) <= 0). { destruct (Req_dec y 0) as [ ->|]; [unfold Rdiv; rewrite Rmult_0_l, atan_0; lra|]. left. rewrite <- atan_0. apply atan_increasing. unfold Rdiv. rewrite <- (Ropp_involutive (y * / x)). assert (0 < y * - / x) by (apply Rmult_lt_0_compat; lra). lra. }
      split; [lra|]. rewrite neg_cos, neg_sin. split; assumption.
    + assert (A : 0 < atan (y / x)). { rewrite <- atan_0. apply atan_increasing. unfold Rdiv. assert (0 < - y * - / x) by (apply Rmult_lt_0_compat; lra). lra. }
      split; [lra|]. replace (atan (y / x) - PI) with (- (PI - atan (y / x))) by ring. rewrite cos_neg, sin_neg.
      rewrite Rtrigo_facts.cos_pi_minus, Rtrigo_facts.sin_pi_minus. split; assumption.
  - assert (x = 0) by lra. subst x. cbv zeta. replace (0 ^ 2 + y ^ 2) with (Rsqr y) by (unfold Rsqr; ring). rewrite sqrt_Rsqr_abs.
    destruct (Rlt_dec 0 y) as [Y|Y]; [|destruct (Rlt_dec y 0) as [Y'|Y']].
    + rewrite cos_PI2, sin_PI2, Rabs_right by lra. repeat split; lra.
    + replace (- PI / 2) with (- (PI / 2)) by lra. rewrite cos_neg, sin_neg, cos_PI2, sin_PI2, Rabs_left by lra. repeat split; lra.
    + assert (y = 0) by lra. subst y. rewrite Rabs_R0. repeat split; lra.
Qed.

(** C86: the decorrelation time of one mode. If the normalised autocorrelation c goes below the threshold for the first time
    at index k and is a straight line a + b i over the window centred on k, the time found is the one at which that line
    crosses the threshold, with no uncertainty. *)
Theorem C86_mode : forall N nWin thres noise t5 fs z vn c k a b, (3 <= nWin)%nat -> 0 < fs -> b <> 0 ->
  norm_cov N z noise vn = Ok c -> (nWin / 2 <= k)%nat -> (k + nWin / 2 < List.length c)%nat ->
  nth k c 0 < thres -> (forall i, (i < k)%nat -> thres <= nth i c 0) ->
  (forall i, (k - nWin / 2 <= i <= k + nWin / 2)%nat -> nth i c 0 = a + b * INR i) ->
  mode_tau N nWin thres noise t5 fs z vn = Ok ((thres - a) / b / fs, 0).
Proof.
  intros N nWin thres noise t5 fs z vn c k a b H3 Hf Nb Hc K1 K2 Hk Hi Hl. unfold mode_tau. rewrite Hc. cbn [bind].
  assert (FB : forall l m j, (m < List.length l)%nat -> nth m l 0 < thres -> (forall i, (i < m)%nat -> thres <= nth i l 0) -> first_below thres l j = Ok (j + m)%nat).
  { induction l as [|x l IH]; intros m j L A B; [cbn in L; lia|]. cbn [first_below]. destruct m as [|m].
    - cbn [nth] in A. destruct (Rlt_dec x thres); [f_equal; lia|contradiction].
    - destruct (Rlt_dec x thres) as [X|X]; [exfalso; specialize (B 0%nat ltac:(lia)); cbn in B; lra|]. rewrite (IH m (S j)); [f_equal; lia|cbn in L; lia|exact A|]. intros i Hi'. apply (B (S i)). lia. }
  rewrite (FB c k 0%nat) by (try assumption; lia). cbn [bind Nat.add]. clear FB.
  destruct (C86_window k nWin ltac:(lia) K1) as (Lw & Iw & Rw).
  set (w := window k nWin) in *.
  assert (EY : mapM (fun i => pyindex c i) w = Ok (map (fun v => a + b * v) (map IZR w))).
  { clear - Rw Hl K1 K2. clearbody w. induction w as [|i w IH]; [reflexivity|]. cbn [mapM map]. pose proof (Rw i (or_introl eq_refl)) as B.
    assert (E : pyindex c i = Ok (a + b * IZR i)).
    { replace i with (Z.of_nat (Z.to_nat i)) by lia. rewrite (pyindex_nth 0) by lia. rewrite Hl by lia. rewrite INR_IZR_INZ. reflexivity. }
    rewrite E. cbn [bind]. rewrite IH by (intros; apply Rw; right; assumption). reflexivity. }
  rewrite EY. cbn [bind].
  destruct (C86_exact (map IZR w) nWin a b thres t5 fs) as (r & Er & _ & _ & Et & _ & Ed); try assumption; [rewrite map_length; exact Lw| |].
  - destruct (nth_error w 0) as [u|] eqn:E0; [|apply nth_error_None in E0; lia]. destruct (nth_error w 1) as [v|] eqn:E1; [|apply nth_error_None in E1; lia].
    exists (IZR u), (IZR v). pose proof (Iw 0%nat u v E0 E1). split; [apply in_map; eapply nth_error_In; eassumption|]. split; [apply in_map; eapply nth_error_In; eassumption|]. intros E. apply eq_IZR in E. lia.
  - rewrite Er. cbn [bind]. rewrite Et, Ed. reflexivity.
Qed.

(** C97: a modal filter equal to the identity changes nothing, a null filter removes the anisoplanatism of every layer, and a
    filter scaled by a factor s scales the maps by s squared. *)
Lemma mapR_ext {A B} (f g : A -> result B) l : (forall a, In a l -> f a = g a) -> mapR f l = mapR g l.
Proof. induction l as [|a l IH]; intros H; [reflexivity|]. cbn [mapR]. rewrite (H a (or_introl eq_refl)). rewrite IH by (intros; apply H; right; assumption). reflexivity. Qed.
Lemma matrix_to_map_scal N t t' s sx sy : (forall a b, (a < N)%nat -> (b < N)%nat -> t' a b = s * t a b) ->
  (forall e, matrix_to_map N t (Some (sx, sy)) = Err e -> exists e', matrix_to_map N t' (Some (sx, sy)) = Err e') /\
  (forall o, matrix_to_map N t (Some (sx, sy)) = Ok o -> exists o', matrix_to_map N t' (Some (sx, sy)) = Ok o' /\ rows o' = rows o /\ cols o' = cols o /\ forall i j, px o' i j = s * px o i j).
Proof.
  intros H. unfold matrix_to_map. cbv zeta. set (n := Nat.sqrt N). destruct (Nat.eqb n 0); [split; [eauto|discriminate]|].
  cbn [fst snd].
  set (P := fun (jy jx a b : nat) => (req (sy a b) (IZR (Z.of_nat jy - Z.of_nat n + 1)) && req (sx a b) (IZR (Z.of_nat jx - Z.of_nat n + 1)))%bool).
  assert (MP : forall jy jx, mask_pick N t' (P jy jx) = map (fun v => s * v) (mask_pick N t (P jy jx))).
  { intros jy jx. unfold mask_pick. assert (Q : forall l m, (forall x, In x l -> (x < N)%nat) -> (forall x, In x m -> (x < N)%nat) ->
      flat_map (fun a => flat_map (fun b => if P jy jx a b then [t' a b] else []) l) m = map (fun v => s * v) (flat_map (fun a => flat_map (fun b => if P jy jx a b then [t a b] else []) l) m)).
    { intros l m Hl. induction m as [|a m IH]; intros Hm; [reflexivity|]. cbn [flat_map]. rewrite map_app. rewrite <- IH by (intros; apply Hm; right; assumption). f_equal.
      clear IH. assert (La := Hm a (or_introl eq_refl)). clear Hm. induction l as [|b l IH]; [reflexivity|]. cbn [flat_map]. rewrite map_app, <- IH by (intros; apply Hl; right; assumption). f_equal. destruct (P jy jx a b); [|reflexivity]. cbn [map]. f_equal. apply H; [exact La|apply Hl; left; reflexivity]. }
    apply Q; intros x Hx; apply in_seq in Hx; lia. }
  assert (LM : forall l, M_Map.lmean (map (fun v => s * v) l) = match M_Map.lmean l with Ok m => Ok (s * m) | Err e => Err e end).
  { intros l. unfold M_Map.lmean. destruct l as [|x l]; [reflexivity|]. cbn [map]. f_equal. rewrite <- (map_cons (fun v => s * v)), map_length.
    assert (Q : forall l, M_Map.lsum (map (fun v => s * v) l) = s * M_Map.lsum l) by (clear; induction l as [|a l IH]; cbn; [ring|rewrite IH; ring]). rewrite Q. unfold Rdiv. ring. }
  assert (MM : forall ly lx, mapR (fun jy => mapR (fun jx => M_Map.lmean (mask_pick N t' (P jy jx))) lx) ly
     = match mapR (fun jy => mapR (fun jx => M_Map.lmean (mask_pick N t (P jy jx))) lx) ly with Ok q => Ok (map (map (fun v => s * v)) q) | Err e => Err e end).
  { intros ly lx. induction ly as [|jy ly IH]; [reflexivity|]. cbn [mapR]. rewrite IH.
    assert (I : mapR (fun jx => M_Map.lmean (mask_pick N t' (P jy jx))) lx = match mapR (fun jx => M_Map.lmean (mask_pick N t (P jy jx))) lx with Ok q => Ok (map (fun v => s * v) q) | Err e => Err e end).
    { clear IH. induction lx as [|jx lx IHx]; [reflexivity|]. cbn [mapR]. rewrite MP, LM, IHx. destruct (M_Map.lmean _); [|reflexivity]. cbn [bind]. destruct (mapR (fun jx => M_Map.lmean (mask_pick N t (P jy jx))) lx); reflexivity. }
    rewrite I. destruct (mapR (fun jx => M_Map.lmean (mask_pick N t (P jy jx))) lx); [|reflexivity]. cbn [bind]. destruct (mapR (fun jy => mapR (fun jx => M_Map.lmean (mask_pick N t (P jy jx))) lx) ly); reflexivity. }
  change (fun jy => mapR (fun jx => M_Map.lmean (mask_pick N t' _)) (seq 0 n)) with (fun jy => mapR (fun jx => M_Map.lmean (mask_pick N t' (P jy jx))) (seq 0 n)).
  change (fun jy => mapR (fun jx => M_Map.lmean (mask_pick N t _)) (seq 0 n)) with (fun jy => mapR (fun jx => M_Map.lmean (mask_pick N t (P jy jx))) (seq 0 n)).
  rewrite MM. destruct (mapR _ (seq 0 n)) as [q|e]; cbn [bind]; [|split; [eauto|discriminate]].
  split; [discriminate|]. intros o Ho. apply Ok_inj in Ho. subst o. eexists. split; [reflexivity|]. cbn [rows cols px]. split; [reflexivity|]. split; [reflexivity|].
  assert (NN : forall i j, nth j (nth i (map (map (fun v => s * v)) q) []) 0 = s * nth j (nth i q []) 0).
  { intros i j. change (@nil R) with (map (fun v => s * v) []) at 1. rewrite (map_nth (map (fun v => s * v))). replace 0 with (s * 0) at 1 by ring. rewrite (map_nth (fun v => s * v)). reflexivity. }
  intros i j. rewrite !NN. repeat (match goal with |- context [if ?b then _ else _] => destruct b end); ring.
Qed.
Lemma matrix_to_map_ext N t t' sx sy : (forall a b, (a < N)%nat -> (b < N)%nat -> t' a b = t a b) -> matrix_to_map N t' (Some (sx, sy)) = matrix_to_map N t (Some (sx, sy)).
Proof.
  intros H. unfold matrix_to_map. cbv zeta. destruct (Nat.eqb (Nat.sqrt N) 0); [reflexivity|]. cbn [fst snd].
  assert (MP : forall P, mask_pick N t' P = mask_pick N t P).
  { intros P. unfold mask_pick. assert (Q : forall l m, (forall x, In x l -> (x < N)%nat) -> (forall x, In x m -> (x < N)%nat) ->
      flat_map (fun a => flat_map (fun b => if P a b then [t' a b] else []) l) m = flat_map (fun a => flat_map (fun b => if P a b then [t a b] else []) l) m).
    { intros l m Hl. induction m as [|a m IH]; intros Hm; [reflexivity|]. cbn [flat_map]. rewrite <- IH by (intros; apply Hm; right; assumption). f_equal.
      clear IH. assert (La := Hm a (or_introl eq_refl)). clear Hm. induction l as [|b l IH]; [reflexivity|]. cbn [flat_map]. rewrite <- IH by (intros; apply Hl; right; assumption). f_equal. destruct (P a b); [|reflexivity]. f_equal. apply H; [exact La|apply Hl; left; reflexivity]. }
    apply Q; intros x Hx; apply in_seq in Hx; lia. }
  match goal with |- bind ?a _ = bind ?b _ => assert (E : a = b) end; [|rewrite E; reflexivity].
  apply mapR_ext. intros jy _. apply mapR_ext. intros jx _. rewrite MP. reflexivity.
Qed.
Theorem C97_filter_identity : forall kv interp D L0 Hgs heights dist nActu nOtf samp h, (forall a b, h a b = if (a =? b)%nat then 1 else 0) ->
  focal_angular_function kv interp D L0 Hgs heights dist nActu nOtf samp (Some h) = focal_angular_function kv interp D L0 Hgs heights dist nActu nOtf samp None.
Proof.
  intros kv interp D L0 Hgs heights dist nActu nOtf samp h Hh. unfold focal_angular_function. cbv zeta.
  apply mapR_ext. intros th _. apply mapR_ext. intros zl _. destruct (Req_EM_T zl 0); [reflexivity|].
  rewrite (matrix_to_map_ext _ (focal_tmp kv (nActu * 2 + 1) (fun k => D / 2 * Rmax 1 samp / 2 / INR (nActu * 2 + 1) * (INR k - INR ((nActu * 2 + 1) / 2))) (2 * PI / L0) (zl / Hgs) zl (fst th) (snd th))); [reflexivity|].
  intros a b Ha Hb. unfold filt.
  rewrite (rsum_ext _ _ (fun k => if (a =? k)%nat then focal_tmp kv (nActu * 2 + 1) (fun k => D / 2 * Rmax 1 samp / 2 / INR (nActu * 2 + 1) * (INR k - INR ((nActu * 2 + 1) / 2))) (2 * PI / L0) (zl / Hgs) zl (fst th) (snd th) k b else 0)).
  - rewrite (rsum_single _ a); [rewrite Nat.eqb_refl; reflexivity|exact Ha|]. intros i Hi Ni. destruct (Nat.eqb_spec a i); [congruence|reflexivity].
  - intros k Hk. rewrite Hh. destruct (Nat.eqb_spec a k); [|ring]. rewrite Rmult_1_l. rewrite (rsum_single _ b); [rewrite Hh, Nat.eqb_refl; ring|exact Hb|]. intros i Hi Ni. rewrite Hh. destruct (Nat.eqb_spec b i); [congruence|ring].
Qed.
Lemma mapR_rel {A B C} (f : A -> result B) (g : A -> result C) (Rl : B -> C -> Prop) l r :
  (forall a b, In a l -> f a = Ok b -> exists c, g a = Ok c /\ Rl b c) -> mapR f l = Ok r -> exists q, mapR g l = Ok q /\ Forall2 Rl r q.
Proof.
  revert r. induction l as [|a l IH]; intros r H E; cbn [mapR] in *.
  - apply Ok_inj in E. subst r. exists []. split; [reflexivity|constructor].
  - destruct (f a) as [b|] eqn:Ef; [|discriminate]. cbn [bind] in E. destruct (mapR f l) as [r'|]; [|discriminate]. cbn [bind] in E. apply Ok_inj in E. subst r.
    destruct (H a b (or_introl eq_refl) Ef) as (c & -> & Rc). destruct (IH r') as (q & -> & Fq); [intros; eapply H; [right; eassumption|assumption]|reflexivity|]. cbn [bind]. eexists. split; [reflexivity|]. constructor; assumption.
Qed.
(** scaling the filter by s scales every map (sampled without interpolation) by s squared: a null filter gives null maps *)
Theorem C97_filter_scale : forall kv interp D L0 Hgs heights dist nActu samp h s maps,
  focal_angular_function kv interp D L0 Hgs heights dist nActu (4 * nActu + 1) samp (Some h) = Ok maps ->
  exists maps', focal_angular_function kv interp D L0 Hgs heights dist nActu (4 * nActu + 1) samp (Some (fun a b => s * h a b)) = Ok maps' /\
    Forall2 (Forall2 (fun o o' => rows o' = rows o /\ cols o' = cols o /\ forall i j, px o' i j = s ^ 2 * px o i j)) maps maps'.
Proof.
  intros kv interp D L0 Hgs heights dist nActu samp h s maps. unfold focal_angular_function. cbv zeta. apply mapR_rel. intros th m _. apply mapR_rel. intros zl o _.
  destruct (Req_EM_T zl 0).
  - intros E. apply Ok_inj in E. subst o. eexists. split; [reflexivity|]. cbn [rows cols px]. repeat split. intros. ring.
  - intros E. set (T := focal_tmp _ _ _ _ _ _ _ _) in *. set (N := ((nActu * 2 + 1) * (nActu * 2 + 1))%nat) in *.
    destruct (matrix_to_map N (filt N h T) (Some (vs_rx (nActu * 2 + 1) INR, vs_ry (nActu * 2 + 1) INR))) as [cm|] eqn:Ec; [|discriminate]. cbn [bind] in E.
    destruct (matrix_to_map_scal N (filt N h T) (filt N (fun a b => s * h a b) T) (s ^ 2) (vs_rx (nActu * 2 + 1) INR) (vs_ry (nActu * 2 + 1) INR)) as [_ M].
    { intros a b Ha Hb. unfold filt. rewrite <- rsum_scal. apply rsum_ext. intros k Hk. rewrite (rsum_ext _ (fun l => T k l * (s * h b l)) (fun l => s * (T k l * h b l))) by (intros; ring). rewrite rsum_scal. ring. }
    destruct (M cm Ec) as (cm' & -> & R' & C' & V). cbn [bind].
    assert (RS : rows cm = (4 * nActu + 1)%nat).
    { unfold matrix_to_map in Ec. cbv zeta in Ec. replace (Nat.sqrt N) with (nActu * 2 + 1)%nat in Ec by (unfold N; symmetry; apply Nat.sqrt_square). destruct (Nat.eqb_spec (nActu * 2 + 1) 0); [discriminate|]. cbn [fst snd] in Ec. destruct (mapR _ _); [|discriminate]. cbn [bind] in Ec. apply Ok_inj in Ec. subst cm. cbn [rows]. lia. }
    rewrite R', RS, Nat.eqb_refl. rewrite RS, Nat.eqb_refl in E. cbn [bind] in *. apply Ok_inj in E. subst o. eexists. split; [reflexivity|]. unfold img_map. cbn [rows cols px]. split; [congruence|]. split; [exact C'|]. intros i j. rewrite V. ring.
Qed.

Print Assumptions C111_scale.
Print Assumptions C36_join.
Print Assumptions C98_fits_path.
Print Assumptions C40_guess_accepted.
Print Assumptions C60_polar.
Print Assumptions C86_mode.
Print Assumptions C97_filter_identity.
Print Assumptions C97_filter_scale.
