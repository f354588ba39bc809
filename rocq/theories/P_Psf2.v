(** C106: PSF of a pupil and of a residual-phase PSD. *)
From Coq Require Import Reals List Arith ZArith Lia Lra Psatz Bool FunctionalExtensionality.
From Coq Require Import ZifyBool ZifyNat.
From Verif Require Import Base_Py Base_Sum Base_DFT M_Image M_Fourier S_Fourier L_Fourier L_Fourier2 L_Fourier3 L_Tools2 L_Otf M_Psf2.
From Coquelicot Require Import Complex.
Import ListNotations.
Open Scope R_scope.

(** ** Specification: far field of an m x m field E sampled on an n x n focal grid whose origin is
    the pixel n/2, the samples being displaced by s pixel. *)
Definition far_field (m n : nat) (E : nat -> nat -> C) (s : R) (a b : nat) : C :=
  csum m (fun c => csum m (fun d => Cmult (E c d)
    (cisr (2 * PI * (INR c * (INR a - INR (n / 2) + s) + INR d * (INR b - INR (n / 2) + s)) / INR n)))).
Definition field (pup phase : img) (c d : nat) : C := Cmult (RtoC (px pup c d)) (cisr (px phase c d)).
Definition intensity (z : C) : R := fst z * fst z + snd z * snd z.

Lemma cisr_add x y : cisr (x + y) = Cmult (cisr x) (cisr y).
Proof. unfold cisr. rewrite cos_plus, sin_plus. apply C_eq; cbn; ring. Qed.
Lemma cisr_opp x : cisr (- x) = Cconj (cisr x).
Proof. unfold cisr, Cconj. rewrite cos_neg, sin_neg. reflexivity. Qed.
Lemma cisr_per x (k : Z) : cisr (x + 2 * IZR k * PI) = cisr x.
Proof. unfold cisr. rewrite cos_period_Z, sin_period_Z. reflexivity. Qed.
Lemma cisr_norm x : intensity (cisr x) = 1.
Proof. unfold intensity, cisr; cbn. assert (H := sin2_cos2 x). unfold Rsqr in H. lra. Qed.
Lemma intensity_mult a b : intensity (Cmult a b) = intensity a * intensity b.
Proof. destruct a, b. unfold intensity; cbn. ring. Qed.
Lemma mult_conj z : Cmult z (Cconj z) = RtoC (intensity z).
Proof. destruct z. unfold intensity. apply C_eq; cbn; ring. Qed.

(** one axis: the correlation seen through the shifted grid is a plain sum, when the lag
    is either unwrapped or irrelevant *)
Lemma unwrap n c (F : nat -> C) (t : R) : (0 < n)%nat -> (c < n)%nat ->
  (forall i, (i < n)%nat -> let c' := ((shift_ix n i + c) mod n)%nat in
     F c' = RtoC 0 \/ cisr (t * (INR i - INR (n / 2))) = cisr (t * (INR c' - INR c))) ->
  csum n (fun i => Cmult (F ((shift_ix n i + c) mod n)%nat) (cisr (t * (INR i - INR (n / 2)))))
  = csum n (fun c' => Cmult (F c') (cisr (t * (INR c' - INR c)))).
Proof.
  intros Hn Hc H.
  rewrite <- (csum_shift_mod n (n - n / 2 + c) (fun c' => Cmult (F c') (cisr (t * (INR c' - INR c)))) Hn).
  apply csum_ext; intros i Hi. specialize (H i Hi). cbv zeta in H.
  assert (E : ((i + (n - n / 2 + c)) mod n)%nat = ((shift_ix n i + c) mod n)%nat).
  { unfold shift_ix. rewrite Nat.add_mod_idemp_l by lia. f_equal. lia. }
  rewrite E. destruct H as [H|H]; rewrite H; [rewrite !Cmult_0_l|]; reflexivity.
Qed.

(** even grid, support of length r <= n/2 : lags never wrap *)
Lemma lag_even n pr r c (F : nat -> C) t : (0 < n)%nat -> Nat.even n = true -> (2 * r <= n)%nat ->
  (forall x, (x < pr)%nat \/ (pr + r <= x)%nat -> F x = RtoC 0) -> (pr <= c < pr + r)%nat -> (c < n)%nat ->
  forall i, (i < n)%nat -> let c' := ((shift_ix n i + c) mod n)%nat in
   F c' = RtoC 0 \/ cisr (t * (INR i - INR (n / 2))) = cisr (t * (INR c' - INR c)).
Proof.
  intros Hn Hev Hr HF Hc Hcn i Hi c'.
  destruct (le_lt_dec pr c') as [L|L]; [|left; apply HF; lia]. destruct (le_lt_dec (pr + r) c') as [L2|L2]; [left; apply HF; lia|].
  right. f_equal. f_equal.
  assert (Hh : (n = 2 * (n / 2))%nat). { assert (Q := Nat.div_mod n 2 ltac:(lia)). apply Nat.even_spec in Hev. destruct Hev as (k & ->). rewrite (Nat.mul_comm 2 k), Nat.div_mul by lia. lia. }
  assert (E : (i + c = n / 2 + c')%nat).
  { unfold c' in *. clear c'. rewrite even_shift in * by exact Hev. unfold ishift_ix in *. rewrite Nat.add_mod_idemp_l in * by lia.
    set (h := (n / 2)%nat) in *. assert (D := Nat.div_mod (i + h + c) n ltac:(lia)). assert (M := Nat.mod_upper_bound (i + h + c) n ltac:(lia)).
    set (k := ((i + h + c) / n)%nat) in *. set (x := ((i + h + c) mod n)%nat) in *. clearbody k x.
    assert (k = 1 \/ k <> 1)%nat by lia. destruct H as [->|Hk]; [lia|]. exfalso. destruct k as [|[|k]]; [|lia|]; nia. }
  assert (Q : INR i + INR c = INR (n / 2) + INR c') by (rewrite <- !plus_INR; f_equal; exact E). lra.
Qed.

(** odd grid: the exponential has the period of the grid *)
Lemma lag_odd n c (a : nat) : (0 < n)%nat -> (c < n)%nat -> forall i, (i < n)%nat -> let c' := ((shift_ix n i + c) mod n)%nat in
  cisr (2 * PI * (INR a - INR (n / 2) + 0) / INR n * (INR i - INR (n / 2))) = cisr (2 * PI * (INR a - INR (n / 2) + 0) / INR n * (INR c' - INR c)).
Proof.
  intros Hn Hc i Hi c'. assert (Hn0 : INR n <> 0) by (apply not_0_INR; lia).
  assert (D := Nat.div_mod (shift_ix n i + c) n ltac:(lia)). fold c' in D. set (k := ((shift_ix n i + c) / n)%nat) in *.
  destruct (shift_ix_cong n i Hn) as (u & Eu).
  assert (E : (Z.of_nat c' - Z.of_nat c = Z.of_nat i - Z.of_nat (n / 2) + Z.of_nat n * (u - Z.of_nat k))%Z) by nia.
  assert (ER : INR c' - INR c = INR i - INR (n / 2) + INR n * IZR (u - Z.of_nat k)).
  { rewrite !INR_IZR_INZ, <- !minus_IZR, E, plus_IZR, mult_IZR, minus_IZR. reflexivity. }
  rewrite ER.
  replace (2 * PI * (INR a - INR (n / 2) + 0) / INR n * (INR i - INR (n / 2) + INR n * IZR (u - Z.of_nat k)))
    with (2 * PI * (INR a - INR (n / 2) + 0) / INR n * (INR i - INR (n / 2)) + 2 * IZR ((Z.of_nat a - Z.of_nat (n / 2)) * (u - Z.of_nat k)) * PI).
  - rewrite cisr_per. reflexivity.
  - rewrite mult_IZR, (minus_IZR (Z.of_nat a)), <- !INR_IZR_INZ. field. exact Hn0.
Qed.

(** the field padded into an n x n array *)
Definition padded (n m p : nat) (E : nat -> nat -> C) : nat -> nat -> C := padf (RtoC 0) m m p p E.

Lemma padded_out_r n m p E x y : (x < p)%nat \/ (p + m <= x)%nat -> padded n m p E x y = RtoC 0.
Proof. intros H. unfold padded, padf. destruct ((p <=? x) && (x <? p + m) && (p <=? y) && (y <? p + m))%nat%bool eqn:Q; [lia|reflexivity]. Qed.
Lemma padded_out_c n m p E x y : (y < p)%nat \/ (p + m <= y)%nat -> padded n m p E x y = RtoC 0.
Proof. intros H. unfold padded, padf. destruct ((p <=? x) && (x <? p + m) && (p <=? y) && (y <? p + m))%nat%bool eqn:Q; [lia|reflexivity]. Qed.
Lemma padded_in n m p E c d : (c < m)%nat -> (d < m)%nat -> padded n m p E (p + c) (p + d) = E c d.
Proof.
  intros Hc Hd. unfold padded, padf. replace ((p <=? p + c) && (p + c <? p + m) && (p <=? p + d) && (p + d <? p + m))%nat%bool with true by lia.
  f_equal; lia.
Qed.

Lemma csum_window n p m f : (p + m <= n)%nat -> (forall i, (i < p)%nat \/ (p + m <= i)%nat -> f i = RtoC 0) -> csum n f = csum m (fun i => f (p + i)%nat).
Proof.
  intros Hn H. apply C_eq; rewrite ?csum_Re, ?csum_Im.
  - rewrite (rsum_window n p m); [reflexivity|exact Hn|]. intros i _ Ho. rewrite H by lia. reflexivity.
  - rewrite (rsum_window n p m); [reflexivity|exact Hn|]. intros i _ Ho. rewrite H by lia. reflexivity.
Qed.

(** the double sum over the grid of the correlation is the squared far field *)
Lemma corr_far n m p E s a b : (0 < m)%nat -> (p + m <= n)%nat ->
  (Nat.even n = true /\ (2 * m <= n)%nat) \/ s = 0 ->
  csum n (fun i => csum n (fun j => Cmult (ccorr n n (padded n m p E) (padded n m p E) (shift_ix n i) (shift_ix n j))
     (cisr (2 * PI * ((INR i - INR (n / 2)) * (INR a - INR (n / 2) + s) + (INR j - INR (n / 2)) * (INR b - INR (n / 2) + s)) / INR n))))
  = RtoC (intensity (far_field m n E s a b)).
Proof.
  intros Hm Hp Hcase. assert (Hn : (0 < n)%nat) by lia. assert (Hn0 : INR n <> 0) by (apply not_0_INR; lia).
  set (al := 2 * PI * (INR a - INR (n / 2) + s) / INR n). set (be := 2 * PI * (INR b - INR (n / 2) + s) / INR n).
  set (P := padded n m p E).
  assert (Lag : forall (F : nat -> C) x c, (forall x, (x < p)%nat \/ (p + m <= x)%nat -> F x = RtoC 0) -> (p <= c < p + m)%nat ->
     csum n (fun i => Cmult (F ((shift_ix n i + c) mod n)%nat) (cisr (2 * PI * (INR x - INR (n / 2) + s) / INR n * (INR i - INR (n / 2)))))
     = csum n (fun c' => Cmult (F c') (cisr (2 * PI * (INR x - INR (n / 2) + s) / INR n * (INR c' - INR c))))).
  { intros F x c HF Hc. apply unwrap; [exact Hn|lia|]. intros i Hi c'. destruct Hcase as [(Hev & H2)|H0].
    - apply (lag_even n p m c F _ Hn Hev H2 HF Hc ltac:(lia) i Hi).
    - right. subst s. apply lag_odd; [exact Hn|lia|exact Hi]. }
  (* expand, swap *)
  transitivity (csum n (fun c => csum n (fun d => Cmult (Cconj (P c d))
     (csum n (fun i => Cmult (csum n (fun j => Cmult (P ((shift_ix n i + c) mod n)%nat ((shift_ix n j + d) mod n)%nat) (cisr (be * (INR j - INR (n / 2))))))
                             (cisr (al * (INR i - INR (n / 2))))))))).
  { transitivity (csum n (fun i => csum n (fun j => csum n (fun c => csum n (fun d =>
       Cmult (Cconj (P c d)) (Cmult (Cmult (P ((shift_ix n i + c) mod n)%nat ((shift_ix n j + d) mod n)%nat) (cisr (be * (INR j - INR (n / 2))))) (cisr (al * (INR i - INR (n / 2)))))))))).
    - apply csum_ext; intros i _. apply csum_ext; intros j _. unfold ccorr. rewrite <- csum_scal_r. apply csum_ext; intros c _. rewrite <- csum_scal_r.
      apply csum_ext; intros d _.
      replace (2 * PI * ((INR i - INR (n / 2)) * (INR a - INR (n / 2) + s) + (INR j - INR (n / 2)) * (INR b - INR (n / 2) + s)) / INR n)
        with (be * (INR j - INR (n / 2)) + al * (INR i - INR (n / 2))) by (unfold al, be; field; exact Hn0).
      rewrite cisr_add. fold P. ring.
    - rewrite csum4_swap. apply csum_ext; intros c _. apply csum_ext; intros d _.
      rewrite <- csum_scal. apply csum_ext; intros i _. rewrite <- csum_scal_r, <- csum_scal. apply csum_ext; intros j _. ring. }
  (* unwrap both axes *)
  transitivity (csum n (fun c => csum n (fun d => Cmult (Cconj (P c d))
     (csum n (fun c' => csum n (fun d' => Cmult (P c' d') (Cmult (cisr (be * (INR d' - INR d))) (cisr (al * (INR c' - INR c)))))))))).
  { apply csum_ext; intros c Hc. apply csum_ext; intros d Hd.
    destruct (le_lt_dec p c) as [L1|L1]; [|unfold P at 1 3; rewrite !padded_out_r by lia; rewrite Cconj_RtoC, !Cmult_0_l; reflexivity].
    destruct (le_lt_dec (p + m) c) as [L2|L2]; [unfold P at 1 3; rewrite !padded_out_r by lia; rewrite Cconj_RtoC, !Cmult_0_l; reflexivity|].
    destruct (le_lt_dec p d) as [L3|L3]; [|unfold P at 1 3; rewrite !padded_out_c by lia; rewrite Cconj_RtoC, !Cmult_0_l; reflexivity].
    destruct (le_lt_dec (p + m) d) as [L4|L4]; [unfold P at 1 3; rewrite !padded_out_c by lia; rewrite Cconj_RtoC, !Cmult_0_l; reflexivity|].
    f_equal.
    rewrite (csum_ext n _ (fun i => Cmult (csum n (fun d' => Cmult (P ((shift_ix n i + c) mod n)%nat d') (cisr (be * (INR d' - INR d))))) (cisr (al * (INR i - INR (n / 2)))))).
    2:{ intros i Hi. f_equal. apply (Lag (fun y => P ((shift_ix n i + c) mod n)%nat y) b d); [|lia]. intros x Hx. apply padded_out_c. exact Hx. }
    unfold al. rewrite (Lag (fun x => csum n (fun d' => Cmult (P x d') (cisr (be * (INR d' - INR d))))) a c); [|intros x Hx|lia].
    - fold al. apply csum_ext; intros c' _. rewrite <- csum_scal_r. apply csum_ext; intros d' _. ring.
    - apply csum_zero. intros d' _. unfold P. rewrite padded_out_r by exact Hx. apply Cmult_0_l. }
  (* factor *)
  set (G := csum n (fun c' => csum n (fun d' => Cmult (P c' d') (Cmult (cisr (be * INR d')) (cisr (al * INR c')))))).
  transitivity (Cmult G (Cconj G)).
  { transitivity (csum n (fun c => csum n (fun d => Cmult G (Cconj (Cmult (P c d) (Cmult (cisr (be * INR d)) (cisr (al * INR c)))))))).
    - apply csum_ext; intros c _. apply csum_ext; intros d _. unfold G.
      rewrite !Cconj_mult, <- !cisr_opp, <- csum_scal, <- csum_scal_r. apply csum_ext; intros c' _. rewrite <- csum_scal, <- csum_scal_r. apply csum_ext; intros d' _.
      replace (be * (INR d' - INR d)) with (be * INR d' + - (be * INR d)) by ring. replace (al * (INR c' - INR c)) with (al * INR c' + - (al * INR c)) by ring.
      rewrite !cisr_add. ring.
    - rewrite <- csum2_scal. f_equal. unfold G. rewrite csum_conj. apply csum_ext; intros c _. rewrite csum_conj. reflexivity. }
  rewrite mult_conj. f_equal.
  (* remove the offset of the window *)
  assert (EG : G = Cmult (cisr (be * INR p + al * INR p)) (far_field m n E s a b)).
  { unfold G. rewrite (csum_window n p m) by (try exact Hp; intros x Hx; apply csum_zero; intros y _; unfold P; rewrite padded_out_r by exact Hx; apply Cmult_0_l).
    unfold far_field. rewrite <- csum_scal. apply csum_ext; intros c Hc.
    rewrite (csum_window n p m) by (try exact Hp; intros y Hy; unfold P; rewrite padded_out_c by exact Hy; apply Cmult_0_l).
    rewrite <- csum_scal. apply csum_ext; intros d Hd. unfold P. rewrite padded_in by assumption.
    replace (2 * PI * (INR c * (INR a - INR (n / 2) + s) + INR d * (INR b - INR (n / 2) + s)) / INR n) with (al * INR c + be * INR d) by (unfold al, be; field; exact Hn0).
    rewrite !plus_INR. rewrite !Rmult_plus_distr_l, !cisr_add. ring. }
  rewrite EG, intensity_mult, cisr_norm. ring.
Qed.

Lemma enlarge_sq (m : nat) p q : (0 < q)%Z -> (q <= p)%Z ->
  let d := Z.to_nat (Z.quot ((p - q) * Z.of_nat m) (2 * q)) in
  forall f, exists o, enlargeSupport (mkImg m m f) p q = Ok o /\ rows o = (m + 2 * d)%nat /\ cols o = (m + 2 * d)%nat /\ px o = padf 0 m m d d f.
Proof.
  intros Hq Hp d f. unfold enlargeSupport; cbn [rows cols].
  assert (H1 : (0 <= Z.quot ((p - q) * Z.of_nat m) (2 * q))%Z) by (apply Z.quot_pos; [apply Z.mul_nonneg_nonneg|]; lia).
  subst d. set (u := Z.quot _ _) in *. clearbody u.
  unfold pad2. destruct (Z.ltb_spec u 0); [lia|]. cbn [orb]. eexists. split; [reflexivity|]. cbn [rows cols px]. repeat split; reflexivity.
Qed.

Lemma pupil2otf_exact pup phase m p q : (0 < q)%Z -> (q <= p)%Z -> (0 < m)%nat -> rows pup = m -> cols pup = m -> rows phase = m -> cols phase = m ->
  (forall i j, (i < m)%nat -> (j < m)%nat -> 0 <= px pup i j) ->
  let d := Z.to_nat (Z.quot ((p - q) * Z.of_nat m) (2 * q)) in let n := (m + 2 * d)%nat in
  exists o, pupil2otf pup phase p q = Ok o /\ crows o = n /\ ccols o = n /\
   forall i j, cpx o i j = Cdiv (ccorr n n (padded n m d (field pup phase)) (padded n m d (field pup phase)) (shift_ix n i) (shift_ix n j)) (RtoC (INR n * INR n)).
Proof.
  intros Hq Hp Hm Er Ec Fr Fc Hpos d n. assert (Hn : (0 < n)%nat) by (unfold n; lia).
  assert (Hnn : INR n * INR n <> 0) by (assert (0 < INR n) by (apply lt_0_INR; exact Hn); nra).
  unfold pupil2otf. rewrite Er, Ec, Fr, Fc, Nat.eqb_refl. cbn [andb negb].
  destruct (all_zero phase) eqn:Az.
  - destruct (enlarge_sq m p q Hq Hp (fun i j => Rabs (px pup i j))) as (E & HE & Hro & Hco & Hpx). fold d in Hro, Hco, Hpx. fold n in Hro, Hco.
    unfold img_map at 1. rewrite Er, Ec, HE. cbn [bind].
    destruct (fftCorrel_val (to_c E) (to_c E)) as (c & Hcor & Hcr & Hcc & Hcv); cbn [to_c crows ccols]; try lia; try reflexivity.
    rewrite Hcor. cbn [bind]. eexists. split; [reflexivity|]. cbn [cmap fftshift crows ccols cpx]. rewrite Hcr, Hcc. cbn [to_c crows ccols]. rewrite Hro, Hco.
    split; [reflexivity|]. split; [reflexivity|]. intros i j. rewrite Hcv. cbn [to_c crows ccols cpx]. rewrite Hro, Hco.
    assert (EP : forall x y, padded n m d (field pup phase) x y = RtoC (px E x y)).
    { intros x y. rewrite Hpx. unfold padded, padf. destruct (_ && _)%bool eqn:Q; [|reflexivity].
      assert (Hx : (x - d < m)%nat) by lia. assert (Hy : (y - d < m)%nat) by lia.
      unfold field. rewrite (proj1 (all_zero_spec phase) Az) by (rewrite ?Fr, ?Fc; assumption). rewrite cisr_0, Cmult_1_r, Rabs_pos_eq by (apply Hpos; assumption). reflexivity. }
    assert (EP' : padded n m d (field pup phase) = (fun x y => RtoC (px E x y))) by (extensionality x; extensionality y; apply EP).
    rewrite EP'. rewrite ccorr_real, <- RtoC_div by exact Hnn. reflexivity.
  - set (z := fun i j => Cmult (RtoC (px pup i j)) (cos (px phase i j), sin (px phase i j))).
    destruct (enlarge_sq m p q Hq Hp (fun i j => fst (z i j))) as (Re & HEr & Hrr & Hcr & Hpr).
    destruct (enlarge_sq m p q Hq Hp (fun i j => snd (z i j))) as (Im & HEi & Hri & Hci & Hpi). fold d in Hrr, Hcr, Hpr, Hri, Hci, Hpi. fold n in Hrr, Hcr, Hri, Hci.
    set (E := mkC (rows Re) (cols Re) (fun i j => (px Re i j, px Im i j))).
    assert (HE : cenlarge (mkC m m z) p q = Ok E).
    { unfold cenlarge, re_img; cbn [crows ccols cpx]. rewrite HEr. cbn [bind]. rewrite HEi. reflexivity. }
    rewrite HE. cbn [bind].
    destruct (fftCorrel_val E E) as (c & Hcor & Hcr' & Hcc' & Hcv); [cbn; lia|cbn; lia|reflexivity|reflexivity|].
    rewrite Hcor. cbn [bind]. eexists. split; [reflexivity|]. cbn [fftshift crows ccols cpx]. rewrite Hcr', Hcc'. change (crows E) with (rows Re). change (ccols E) with (cols Re). rewrite Hrr, Hcr.
    split; [reflexivity|]. split; [reflexivity|]. intros i j. rewrite Hcv. unfold E; cbn [crows ccols cpx]. rewrite Hrr, Hcr.
    assert (EP : padded n m d (field pup phase) = (fun i j => (px Re i j, px Im i j))).
    { extensionality x; extensionality y. rewrite Hpr, Hpi. unfold padded, padf. destruct (_ && _)%bool; [|reflexivity]. unfold field, cisr. fold (z (x - d)%nat (y - d)%nat).
      destruct (z (x - d)%nat (y - d)%nat); reflexivity. }
    rewrite EP. reflexivity.
Qed.

Lemma ccorr_00 n m p E : (p + m <= n)%nat -> ccorr n n (padded n m p E) (padded n m p E) 0 0 = RtoC (rsum m (fun i => rsum m (fun j => intensity (E i j)))).
Proof.
  intros Hp. unfold ccorr.
  transitivity (csum n (fun c => csum n (fun d => RtoC (intensity (padded n m p E c d))))).
  - apply csum_ext; intros c Hc. apply csum_ext; intros d Hd. rewrite !Nat.add_0_l, !Nat.mod_small by assumption. apply mult_conj.
  - rewrite (csum_window n p m) by (try exact Hp; intros x Hx; apply csum_zero; intros y _; rewrite padded_out_r by exact Hx; unfold intensity; cbn; f_equal; ring).
    rewrite <- csum_RtoC. apply csum_ext; intros c Hc.
    rewrite (csum_window n p m) by (try exact Hp; intros y Hy; rewrite padded_out_c by exact Hy; unfold intensity; cbn; f_equal; ring).
    rewrite csum_RtoC. f_equal. apply rsum_ext; intros d Hd. rewrite padded_in by assumption. reflexivity.
Qed.

Lemma field_intensity pup phase i j : intensity (field pup phase i j) = px pup i j * px pup i j.
Proof. unfold field. rewrite intensity_mult, cisr_norm. unfold intensity; cbn. ring. Qed.

(** C106: at an oversampling of 2 or more, the PSF of an m x m pupil with any phase is the
    normalised squared modulus of its far field, sampled half a pixel off centre on an even grid:
    no other light, no aliasing. *)
Theorem C106_fraunhofer : forall pup phase m p q, (0 < q)%Z -> (2 * q <= p)%Z -> (0 < m)%nat ->
  rows pup = m -> cols pup = m -> rows phase = m -> cols phase = m ->
  (forall i j, (i < m)%nat -> (j < m)%nat -> 0 <= px pup i j) -> energy pup <> 0 ->
  exists psf n, pupil2psf pup phase p q = Ok psf /\ rows psf = n /\ cols psf = n /\ (m <= n)%nat /\
   forall a b, (a < n)%nat -> (b < n)%nat ->
    px psf a b = intensity (far_field m n (field pup phase) (if Nat.even n then / 2 else 0) a b) / (INR n * INR n * energy pup).
Proof.
  intros pup phase m p q Hq Hp Hm Er Ec Fr Fc Hpos He.
  destruct (pupil2otf_exact pup phase m p q Hq ltac:(lia) Hm Er Ec Fr Fc Hpos) as (o & Eo & Or & Oc & Ov).
  set (d := Z.to_nat (Z.quot ((p - q) * Z.of_nat m) (2 * q))) in *. set (n := (m + 2 * d)%nat) in *.
  assert (Hn : (0 < n)%nat) by (unfold n; lia). assert (Hn0 : 0 < INR n) by (apply lt_0_INR; exact Hn).
  assert (Hd : (m - 1 <= 2 * d)%nat).
  { unfold d. rewrite Z.quot_div_nonneg by nia. assert ((Z.of_nat m / 2 <= (p - q) * Z.of_nat m / (2 * q))%Z).
    { apply Z.div_le_lower_bound; [lia|]. assert (2 * (Z.of_nat m / 2) <= Z.of_nat m)%Z by (apply Z.mul_div_le; lia). nia. }
    assert (Z.of_nat m - 1 <= 2 * (Z.of_nat m / 2))%Z by (assert (Q := Z.div_mod (Z.of_nat m) 2 ltac:(lia)); assert (R := Z.mod_pos_bound (Z.of_nat m) 2 ltac:(lia)); lia). lia. }
  assert (Een : rsum m (fun i => rsum m (fun j => intensity (field pup phase i j))) = energy pup).
  { unfold energy. rewrite Er, Ec. apply rsum_ext; intros. apply rsum_ext; intros. apply field_intensity. }
  assert (Ecen : cpx o (n / 2)%nat (n / 2)%nat = RtoC (energy pup / (INR n * INR n))).
  { rewrite Ov, !shift_half by exact Hn. rewrite ccorr_00 by (unfold n; lia). rewrite Een, <- RtoC_div by nra. reflexivity. }
  destruct (otf2psf_val n o false Or Oc Hn) as (psf & Ep & Pr & Pc & Pv).
  { rewrite Ecen. cbn [fst RtoC]. apply Rmult_integral_contrapositive_currified; [exact He|]. apply Rinv_neq_0_compat. nra. }
  exists psf, n. split; [unfold pupil2psf; rewrite Eo; cbn [bind]; exact Ep|]. split; [exact Pr|]. split; [exact Pc|]. split; [unfold n; lia|].
  intros a b Ha Hb. rewrite Pv by assumption. rewrite Ecen. cbn [fst RtoC].
  assert (Hs : half_off n false = if Nat.even n then / 2 else 0) by (unfold half_off; destruct (Nat.even n); reflexivity).
  rewrite Hs. set (s := if Nat.even n then / 2 else 0).
  assert (Raw : psf_raw o n s a b = / (INR n * INR n) * (intensity (far_field m n (field pup phase) s a b) / (INR n * INR n))).
  { unfold psf_raw. f_equal.
    rewrite (rsum_ext n _ (fun i => fst (csum n (fun j => Cmult (RtoC (/ (INR n * INR n))) (Cmult (ccorr n n (padded n m d (field pup phase)) (padded n m d (field pup phase)) (shift_ix n i) (shift_ix n j))
       (cisr (2 * PI * ((INR i - INR (n / 2)) * (INR a - INR (n / 2) + s) + (INR j - INR (n / 2)) * (INR b - INR (n / 2) + s)) / INR n))))))).
    2:{ intros i _. rewrite csum_Re. apply rsum_ext; intros j _. f_equal. rewrite Ov. unfold Cdiv. rewrite <- RtoC_inv by nra. ring. }
    rewrite <- csum_Re. rewrite <- csum2_scal. rewrite (corr_far n m d (field pup phase) s a b Hm ltac:(unfold n; lia)).
    - rewrite fst_scal. cbn [fst RtoC]. unfold Rdiv. ring.
    - unfold s. destruct (Nat.even n) eqn:Ev; [left|right; reflexivity]. split; [reflexivity|]. apply Nat.even_spec in Ev. destruct Ev as (k & Ek). unfold n in *. lia. }
  rewrite Raw. field. split; [exact He|]. lra.
Qed.

(** C106: hence the PSF is non-negative and of unit sum. *)
Theorem C106_pupil_psf : forall pup phase m p q, (0 < q)%Z -> (2 * q <= p)%Z -> (0 < m)%nat ->
  rows pup = m -> cols pup = m -> rows phase = m -> cols phase = m ->
  (forall i j, (i < m)%nat -> (j < m)%nat -> 0 <= px pup i j) -> energy pup <> 0 ->
  exists psf, pupil2psf pup phase p q = Ok psf /\ img_sum psf = 1 /\ nonneg psf.
Proof.
  intros pup phase m p q Hq Hp Hm Er Ec Fr Fc Hpos He.
  destruct (C106_fraunhofer pup phase m p q Hq Hp Hm Er Ec Fr Fc Hpos He) as (psf & n & E & R1 & R2 & Hmn & V).
  exists psf. split; [exact E|]. split.
  - unfold pupil2psf in E. apply bindOk in E. destruct E as (o & _ & E). apply (otf2psf_sum _ _ _ E).
  - intros i j Hi Hj. rewrite R1 in Hi. rewrite R2 in Hj. rewrite V by assumption.
    assert (0 < energy pup). { assert (0 <= energy pup); [|lra]. unfold energy. apply rsum_nonneg; intros; apply rsum_nonneg; intros. apply Rle_0_sqr. }
    assert (0 < INR n) by (apply lt_0_INR; lia). apply Rmult_le_pos; [unfold intensity; nra|]. left. apply Rinv_0_lt_compat. apply Rmult_lt_0_compat; nra.
Qed.

(** C106: a uniform piston on the whole pupil changes nothing. *)
Theorem C106_piston : forall pup phase m p q c, (0 < q)%Z -> (2 * q <= p)%Z -> (0 < m)%nat ->
  rows pup = m -> cols pup = m -> rows phase = m -> cols phase = m ->
  (forall i j, (i < m)%nat -> (j < m)%nat -> 0 <= px pup i j) -> energy pup <> 0 ->
  exists psf psf', pupil2psf pup phase p q = Ok psf /\ pupil2psf pup (img_map (fun v => v + c) phase) p q = Ok psf' /\ img_eq psf psf'.
Proof.
  intros pup phase m p q c Hq Hp Hm Er Ec Fr Fc Hpos He.
  assert (Sz : forall ph, rows ph = m -> cols ph = m -> forall psf, pupil2psf pup ph p q = Ok psf -> rows psf = (m + 2 * Z.to_nat (Z.quot ((p - q) * Z.of_nat m) (2 * q)))%nat).
  { intros ph F1 F2 psf E. destruct (pupil2otf_exact pup ph m p q Hq ltac:(lia) Hm Er Ec F1 F2 Hpos) as (o & Eo & Or & Oc & _).
    unfold pupil2psf in E. rewrite Eo in E. cbn [bind] in E. unfold otf2psf in E. destruct (cis_empty o); [discriminate|]. rewrite <- Or.
    apply bindOk in E. destruct E as (x & Ex & E). unfold img_div in E. destruct (Req_EM_T _ 0); [discriminate|]. apply Ok_inj in E. subst psf. cbn [img_map rows].
    destruct (Nat.even (crows o)); [destruct (negb (crows o =? ccols o)%nat); [discriminate|]|]; apply Ok_inj in Ex; subst x; reflexivity. }
  destruct (C106_fraunhofer pup phase m p q Hq Hp Hm Er Ec Fr Fc Hpos He) as (psf & n & E & R1 & R2 & Hmn & V).
  destruct (C106_fraunhofer pup (img_map (fun v => v + c) phase) m p q Hq Hp Hm Er Ec Fr Fc Hpos He) as (psf' & n' & E' & R1' & R2' & Hmn' & V').
  assert (n' = n) by (rewrite <- R1, <- R1'; rewrite (Sz _ Fr Fc psf E), (Sz (img_map (fun v => v + c) phase) Fr Fc psf' E'); reflexivity). rewrite H in *.
  exists psf, psf'. split; [exact E|]. split; [exact E'|]. unfold img_eq. split; [congruence|]. split; [congruence|].
  intros i j Hi Hj. assert (Hi' : (i < n)%nat) by lia. assert (Hj' : (j < n)%nat) by lia. rewrite V, V' by assumption. f_equal.
  set (s := if Nat.even n then / 2 else 0).
  replace (far_field m n (field pup (img_map (fun v => v + c) phase)) s i j) with (Cmult (cisr c) (far_field m n (field pup phase) s i j)).
  { rewrite intensity_mult, cisr_norm. ring. }
  unfold far_field. rewrite csum2_scal. apply csum_ext; intros a _. apply csum_ext; intros b _. unfold field. cbn [img_map px]. rewrite cisr_add. ring.
Qed.

(** ** a constant transfer function on an even grid *)
(** geometric sum over the lags -h..h-1 *)
Lemma geom_sym (h : nat) (x : R) :
  Cmult (csum (2 * h) (fun i => cisr (x * (INR i - INR h)))) (Cminus (RtoC 1) (cisr x)) = Cminus (cisr (- (x * INR h))) (cisr (x * INR h)).
Proof.
  assert (G : forall k, Cmult (csum k (fun i => cisr (x * (INR i - INR h)))) (Cminus (RtoC 1) (cisr x)) = Cminus (cisr (- (x * INR h))) (cisr (x * (INR k - INR h)))).
  { induction k as [|k IH].
    - cbn [csum]. rewrite Cmult_0_l. replace (x * (INR 0 - INR h)) with (- (x * INR h)) by (cbn; ring). ring.
    - cbn [csum]. rewrite Cmult_plus_distr_r, IH, S_INR. replace (x * (INR k + 1 - INR h)) with (x * (INR k - INR h) + x) by ring. rewrite cisr_add. ring. }
  rewrite G. do 2 f_equal. rewrite mult_INR. cbn [INR]. ring.
Qed.

Lemma const_otf_negative h (o : carr) k : (2 <= h)%nat -> 0 < k -> crows o = (2 * h)%nat -> ccols o = (2 * h)%nat ->
  (forall i j, (i < 2 * h)%nat -> (j < 2 * h)%nat -> cpx o i j = RtoC k) ->
  exists psf, otf2psf o false = Ok psf /\ rows psf = (2 * h)%nat /\ cols psf = (2 * h)%nat /\ px psf h (h - 2) < 0.
Proof.
  intros Hh Hk Hr Hc Hv. set (n := (2 * h)%nat) in *. assert (Hn : (0 < n)%nat) by (unfold n; lia).
  assert (Hn2 : (n / 2 = h)%nat) by (unfold n; rewrite Nat.mul_comm; apply Nat.div_mul; lia).
  destruct (otf2psf_val n o false Hr Hc Hn) as (psf & Ep & Pr & Pc & Pv).
  { rewrite Hn2, Hv by (unfold n; lia). cbn. lra. }
  exists psf. split; [exact Ep|]. split; [exact Pr|]. split; [exact Pc|].
  rewrite Pv by (unfold n; lia). rewrite Hn2, (Hv h h) by (unfold n; lia). cbn [fst RtoC].
  assert (Hn0 : 0 < INR n) by (apply lt_0_INR; exact Hn).
  assert (Ho : half_off n false = / 2). { unfold half_off. replace (Nat.even n) with true by (unfold n; rewrite Nat.even_mul; reflexivity). reflexivity. }
  rewrite Ho. set (t := PI / INR n).
  assert (EhR : INR (h - 2) = INR h - 2) by (rewrite minus_INR by lia; cbn; ring).
  set (A := csum n (fun i => cisr (t * (INR i - INR h)))). set (B := csum n (fun i => cisr (- (3 * t) * (INR i - INR h)))).
  assert (Raw : psf_raw o n (/ 2) h (h - 2) = / (INR n * INR n) * (k * fst (Cmult A B))).
  { unfold psf_raw. f_equal. rewrite Hn2.
    transitivity (fst (csum n (fun i => csum n (fun j => Cmult (RtoC k) (Cmult (cisr (t * (INR i - INR h))) (cisr (- (3 * t) * (INR j - INR h)))))))).
    - rewrite csum_Re. apply rsum_ext; intros i Hi. rewrite csum_Re. apply rsum_ext; intros j Hj. rewrite Hv by assumption. rewrite <- cisr_add. do 3 f_equal.
      unfold t. rewrite EhR. field. lra.
    - rewrite <- fst_scal. f_equal. rewrite <- csum2_scal. f_equal. unfold A, B. rewrite <- csum_scal_r. apply csum_ext; intros i _. rewrite csum_scal. reflexivity. }
  rewrite Raw.
  assert (GA := geom_sym h t). assert (GB := geom_sym h (- (3 * t))). fold n in GA, GB. fold A in GA. fold B in GB.
  assert (Hth : t * INR h = PI / 2). { unfold t, n. rewrite mult_INR. cbn [INR]. field. apply not_0_INR. lia. }
  assert (Hth3 : - (3 * t) * INR h = - (3 * (PI / 2))). { replace (- (3 * t) * INR h) with (- (3 * (t * INR h))) by ring. rewrite Hth. reflexivity. }
  rewrite Hth in GA. rewrite Hth3 in GB.
  assert (RA : Cminus (cisr (- (PI / 2))) (cisr (PI / 2)) = (0, -2)).
  { unfold cisr. rewrite cos_neg, sin_neg, cos_PI2, sin_PI2. apply C_eq; cbn; ring. }
  assert (RB : Cminus (cisr (- - (3 * (PI / 2)))) (cisr (- (3 * (PI / 2)))) = (0, -2)).
  { rewrite Ropp_involutive. unfold cisr. rewrite cos_neg, sin_neg. rewrite cos_3PI2, sin_3PI2. apply C_eq; cbn; ring. }
  rewrite RA in GA. rewrite RB in GB.
  set (U := Cminus (RtoC 1) (cisr t)) in *. set (V := Cminus (RtoC 1) (cisr (- (3 * t)))) in *.
  assert (Prod : Cmult (Cmult A B) (Cmult U V) = RtoC (-4)).
  { transitivity (Cmult (Cmult A U) (Cmult B V)); [ring|]. rewrite GA, GB. apply C_eq; cbn; ring. }
  assert (Ht : 0 < t <= PI / 4).
  { unfold t. assert (Hpi := PI_RGT_0). split; [apply Rdiv_lt_0_compat; lra|]. apply Rmult_le_compat_l; [lra|]. apply Rinv_le_contravar; [lra|].
    replace 4 with (INR 4) by (cbn; ring). apply le_INR. unfold n. lia. }
  assert (ReUV : 0 < fst (Cmult U V)).
  { assert (E : fst (Cmult U V) = 1 - cos t - cos (3 * t) + cos (2 * t)).
    { transitivity (fst (Cplus (Cminus (Cminus (RtoC 1) (cisr t)) (cisr (- (3 * t)))) (cisr (t + - (3 * t))))).
      - f_equal. rewrite cisr_add. unfold U, V. ring.
      - unfold cisr. cbn. replace (t + - (3 * t)) with (- (2 * t)) by ring. rewrite !cos_neg. ring. }
    rewrite E. replace (3 * t) with (2 * t + t) by ring. rewrite cos_plus, sin_2a, cos_2a_cos.
    assert (S2 := sin2_cos2 t). unfold Rsqr in S2. assert (Hpi := PI_RGT_0).
    assert (C0 : 0 < cos t) by (apply cos_gt_0; lra). assert (S0 : 0 < sin t) by (apply sin_gt_0; lra).
    replace (1 - cos t - ((2 * cos t * cos t - 1) * cos t - 2 * sin t * cos t * sin t) + (2 * cos t * cos t - 1))
      with (2 * cos t * (cos t - cos t * cos t) + 2 * cos t * (sin t * sin t)) by ring.
    assert (cos t < 1) by nra. nra. }
  assert (ReAB : fst (Cmult A B) < 0).
  { set (Q := Cmult A B) in *. set (Z := Cmult U V) in *. clearbody Q Z. destruct Q as [qr qi], Z as [zr zi]. cbn in *.
    assert (E1 := f_equal fst Prod). assert (E2 := f_equal snd Prod). cbn in E1, E2.
    assert (E3 : qr * (zr * zr + zi * zi) = -4 * zr). { transitivity ((qr * zr - qi * zi) * zr + (qr * zi + qi * zr) * zi); [ring|]. rewrite E1, E2. ring. }
    destruct (Rlt_dec qr 0); [assumption|exfalso]. nra. }
  assert (0 < / (INR n * INR n)) by (apply Rinv_0_lt_compat; nra).
  unfold Rdiv. assert (0 < / k) by (apply Rinv_0_lt_compat; exact Hk).
  replace (/ (INR n * INR n) * (k * fst (Cmult A B)) * / k) with (/ (INR n * INR n) * fst (Cmult A B)) by (field; split; lra). nra.
Qed.

(** C106: the PSF of a residual phase of unit sum ... *)
Theorem C106_psd_sum : forall psd ps psf, psd2psf psd ps = Ok psf -> img_sum psf = 1.
Proof. intros psd ps psf H. unfold psd2psf in H. apply bindOk in H. destruct H as (o & _ & H). apply (otf2psf_sum _ _ _ H). Qed.

(** otf of psd2psf, re-centred *)
Lemma psd_otf_shifted psd ps : (0 < rows psd)%nat -> (0 < cols psd)%nat -> nonneg psd ->
  exists o, psd2otf psd ps = Ok o /\ crows (fftshift o) = rows psd /\ ccols (fftshift o) = cols psd /\
   forall i j, cpx (fftshift o) i j = RtoC (exp (- / 2 * (ps * ps * structure_function psd (hup (rows psd)) (hup (cols psd)) (Z.of_nat (shift_ix (rows psd) i)) (Z.of_nat (shift_ix (cols psd) j))))).
Proof.
  intros Hr Hc Hnn. destruct (psd_sf_val psd ps Hr Hc Hnn) as (cov & sf & E1 & _ & E2 & R1 & R2 & V).
  exists (sf2otf sf). split; [unfold psd2otf; rewrite E1; cbn [bind]; rewrite E2; reflexivity|].
  cbn [fftshift sf2otf cmap crows ccols cpx]. split; [exact R1|]. split; [exact R2|]. intros i j. rewrite R1, R2, V.
  unfold cexp. set (r := ps * ps * _). apply C_eq; cbn [fst snd Cmult RtoC].
  - replace (- / 2 * 0 + 0 * r) with 0 by ring. rewrite cos_0. replace (- / 2 * r - 0 * 0) with (- / 2 * r) by ring. ring.
  - replace (- / 2 * 0 + 0 * r) with 0 by ring. rewrite sin_0. ring.
Qed.

(** C106: on an even n x n grid the PSF of a residual-phase PSD is the inverse transform of
    exp(-D/2), D the structure function of that PSD, sampled half a pixel off centre. *)
Theorem C106_psd_value : forall psd ps n, (0 < n)%nat -> Nat.even n = true -> rows psd = n -> cols psd = n -> nonneg psd ->
  exists psf, psd2psf psd ps = Ok psf /\ rows psf = n /\ cols psf = n /\
   forall a b, (a < n)%nat -> (b < n)%nat ->
    px psf a b = / (INR n * INR n) * rsum n (fun i => rsum n (fun j =>
       exp (- / 2 * (ps * ps * structure_function psd (n / 2) (n / 2) (Z.of_nat i - Z.of_nat (n / 2)) (Z.of_nat j - Z.of_nat (n / 2)))) *
       cos (2 * PI * ((INR i - INR (n / 2)) * (INR a - INR (n / 2) + / 2) + (INR j - INR (n / 2)) * (INR b - INR (n / 2) + / 2)) / INR n))).
Proof.
  intros psd ps n Hn Hev Hr Hc Hnn.
  destruct (psd_otf_shifted psd ps ltac:(lia) ltac:(lia) Hnn) as (o & Eo & R1 & R2 & V). rewrite Hr, Hc in *. rewrite hup_even in V by exact Hev.
  assert (SF : forall i j, (i < n)%nat -> (j < n)%nat -> structure_function psd (n / 2) (n / 2) (Z.of_nat (shift_ix n i)) (Z.of_nat (shift_ix n j))
     = structure_function psd (n / 2) (n / 2) (Z.of_nat i - Z.of_nat (n / 2)) (Z.of_nat j - Z.of_nat (n / 2))).
  { intros i j Hi Hj. assert (Hn0 : INR n <> 0) by (apply not_0_INR; lia). unfold structure_function. f_equal. rewrite Hr, Hc. apply rsum_ext; intros x _. apply rsum_ext; intros y _. f_equal. f_equal.
    destruct (shift_ix_cong n i Hn) as (u & ->). destruct (shift_ix_cong n j Hn) as (v & ->). unfold wave.
    rewrite <- (cos_period_Z _ (- ((Z.of_nat x - Z.of_nat (n / 2)) * u + (Z.of_nat y - Z.of_nat (n / 2)) * v))). f_equal.
    rewrite opp_IZR, !plus_IZR, !mult_IZR, <- (INR_IZR_INZ n). field. exact Hn0. }
  assert (V' : forall i j, (i < n)%nat -> (j < n)%nat -> cpx (fftshift o) i j = RtoC (exp (- / 2 * (ps * ps * structure_function psd (n / 2) (n / 2) (Z.of_nat i - Z.of_nat (n / 2)) (Z.of_nat j - Z.of_nat (n / 2)))))).
  { intros i j Hi Hj. rewrite V, SF by assumption. reflexivity. }
  assert (Hh := half_lt n Hn).
  assert (C0 : cpx (fftshift o) (n / 2) (n / 2) = RtoC 1).
  { rewrite V' by exact Hh. rewrite !Z.sub_diag, sf_zero, !Rmult_0_r, exp_0. reflexivity. }
  destruct (otf2psf_val n (fftshift o) false R1 R2 Hn) as (psf & Ep & Pr & Pc & Pv).
  { rewrite C0. cbn. lra. }
  exists psf. split; [unfold psd2psf; rewrite Eo; cbn [bind]; exact Ep|]. split; [exact Pr|]. split; [exact Pc|].
  intros a b Ha Hb. rewrite Pv by assumption. rewrite C0. cbn [fst RtoC]. unfold half_off. rewrite Hev. cbn [andb negb]. unfold psf_raw.
  unfold Rdiv at 1. rewrite Rinv_1, Rmult_1_r. f_equal. apply rsum_ext; intros i Hi. apply rsum_ext; intros j Hj. rewrite V' by assumption. rewrite fst_scal. reflexivity.
Qed.

(** ... is NOT always positive: with no residual phase at all, every even grid of at least 4 pixels gives a
    negative pixel two columns from the centre. *)
Theorem C106_psd_negative_refuted : forall psd ps h, (2 <= h)%nat -> rows psd = (2 * h)%nat -> cols psd = (2 * h)%nat -> (forall i j, px psd i j = 0) ->
  exists psf, psd2psf psd ps = Ok psf /\ img_sum psf = 1 /\ rows psf = (2 * h)%nat /\ cols psf = (2 * h)%nat /\ px psf h (h - 2) < 0.
Proof.
  intros psd ps h Hh Hr Hc Hz.
  assert (Hnn : nonneg psd) by (intros i j _ _; rewrite Hz; lra).
  destruct (psd_otf_shifted psd ps ltac:(lia) ltac:(lia) Hnn) as (o & Eo & R1 & R2 & V).
  assert (SF : forall s t a0 b0, structure_function psd a0 b0 s t = 0).
  { intros s t a0 b0. unfold structure_function. rewrite rsum_zero; [ring|]. intros x _. apply rsum_zero. intros y _. rewrite Hz. ring. }
  destruct (const_otf_negative h (fftshift o) 1 Hh ltac:(lra)) as (psf & E & Q1 & Q2 & Q3); [lia|lia| |].
  - intros i j _ _. rewrite V, SF, !Rmult_0_r, exp_0. reflexivity.
  - exists psf. assert (E' : psd2psf psd ps = Ok psf) by (unfold psd2psf; rewrite Eo; cbn [bind]; exact E).
    split; [exact E'|]. split; [exact (C106_psd_sum _ _ _ E')|]. auto.
Qed.

(** C106: below an oversampling of 2 the PSF of a pupil is aliased: at oversampling 1 a fully
    open even pupil without phase gives a negative pixel. *)
Theorem C106_undersampled_refuted : forall pup phase h p, (2 <= h)%nat -> (0 < p)%Z -> rows pup = (2 * h)%nat -> cols pup = (2 * h)%nat ->
  rows phase = (2 * h)%nat -> cols phase = (2 * h)%nat -> (forall i j, px pup i j = 1) -> (forall i j, px phase i j = 0) ->
  exists psf, pupil2psf pup phase p p = Ok psf /\ img_sum psf = 1 /\ rows psf = (2 * h)%nat /\ cols psf = (2 * h)%nat /\ px psf h (h - 2) < 0.
Proof.
  intros pup phase h p Hh Hp Er Ec Fr Fc H1 H0. set (n := (2 * h)%nat) in *. assert (Hn : (0 < n)%nat) by (unfold n; lia).
  assert (Hn0 : 0 < INR n) by (apply lt_0_INR; exact Hn).
  destruct (pupil2otf_exact pup phase n p p Hp ltac:(lia) Hn Er Ec Fr Fc) as (o & Eo & Or & Oc & Ov).
  { intros i j _ _. rewrite H1. lra. }
  assert (Ed : Z.to_nat (Z.quot ((p - p) * Z.of_nat n) (2 * p)) = 0%nat) by (rewrite Z.sub_diag, Z.mul_0_l, Z.quot_0_l by lia; reflexivity).
  rewrite Ed in *. replace (n + 2 * 0)%nat with n in * by lia.
  assert (Cv : forall u v, ccorr n n (padded n n 0 (field pup phase)) (padded n n 0 (field pup phase)) u v = RtoC (INR n * INR n)).
  { intros u v. unfold ccorr. transitivity (csum n (fun _ => csum n (fun _ => RtoC 1))).
    - apply csum_ext; intros c Hc. apply csum_ext; intros d Hd.
      assert (P1 : forall x y, (x < n)%nat -> (y < n)%nat -> padded n n 0 (field pup phase) x y = RtoC 1).
      { intros x y Hx Hy. change x with (0 + x)%nat. change y with (0 + y)%nat. rewrite padded_in by assumption. unfold field. rewrite H1, H0, cisr_0. ring. }
      rewrite !P1 by (try apply Nat.mod_upper_bound; lia). rewrite Cconj_RtoC. ring.
    - rewrite (csum_ext n _ (fun _ => RtoC (INR n))); [|intros; rewrite csum_RtoC; f_equal; rewrite rsum_const; ring]. rewrite csum_RtoC. f_equal. rewrite rsum_const. ring. }
  destruct (const_otf_negative h o 1 Hh ltac:(lra) Or Oc) as (psf & E & Q1 & Q2 & Q3).
  - intros i j _ _. rewrite Ov, Cv, <- RtoC_div by nra. f_equal. field. lra.
  - exists psf. assert (E' : pupil2psf pup phase p p = Ok psf) by (unfold pupil2psf; rewrite Eo; cbn [bind]; exact E).
    split; [exact E'|]. split; [exact (otf2psf_sum _ _ _ E)|]. auto.
Qed.

Definition ex_pup : img := mkImg 3 3 (fun i j => if ((i =? 1)%nat && (j =? 1)%nat)%bool then 0 else 1).
Definition ex_ph : img := mkImg 3 3 (fun i j => INR i - INR j).
Example C106_nonvacuous : exists psf, pupil2psf ex_pup ex_ph 5 2 = Ok psf /\ img_sum psf = 1 /\ nonneg psf.
Proof.
  apply (C106_pupil_psf ex_pup ex_ph 3 5 2); try reflexivity; try lia.
  - intros i j _ _. unfold ex_pup; cbn [px]. destruct (_ && _)%bool; lra.
  - unfold energy, ex_pup. cbn. lra.
Qed.

Print Assumptions C106_fraunhofer.
Print Assumptions C106_pupil_psf.
Print Assumptions C106_piston.
Print Assumptions C106_psd_sum.
Print Assumptions C106_psd_value.
Print Assumptions C106_psd_negative_refuted.
Print Assumptions C106_undersampled_refuted.
