(** C95: the diffraction-limited OTF of the telescope. *)
From Coq Require Import Reals List Arith ZArith Lia Lra Psatz Bool.
From Coq Require Import ZifyBool ZifyNat.
From Verif Require Import Base_Py Base_Sum Base_DFT M_Image S_Image L_Image L_Image2 M_Fourier S_Fourier L_Fourier L_Fourier2 L_Fourier3 S_Metric3 M_Metric3 L_Strehl.
From Coquelicot Require Import Complex.
Import ListNotations.
Open Scope R_scope.

Lemma padf_sum r c pr pc (f : nat -> nat -> R) :
  rsum (r + 2 * pr) (fun i => rsum (c + 2 * pc) (fun j => padf 0 r c pr pc f i j)) =
  rsum r (fun i => rsum c (fun j => f i j)).
Proof.
  rewrite (rsum_window (r + 2 * pr) pr r).
  - apply rsum_ext; intros i Hi. rewrite (rsum_window (c + 2 * pc) pc c).
    + apply rsum_ext; intros j Hj. unfold padf.
      replace ((pr <=? pr + i) && (pr + i <? pr + r) && (pc <=? pc + j) && (pc + j <? pc + c))%nat%bool with true by lia.
      replace (pr + i - pr)%nat with i by lia. replace (pc + j - pc)%nat with j by lia. reflexivity.
    + lia.
    + intros j Hj Ho. unfold padf.
      replace ((pr <=? pr + i) && (pr + i <? pr + r) && (pc <=? j) && (j <? pc + c))%nat%bool with false by lia. lra.
  - lia.
  - intros i Hi Ho. apply rsum_zero; intros j Hj. unfold padf.
    replace ((pr <=? i) && (i <? pr + r) && (pc <=? j) && (j <? pc + c))%nat%bool with false by lia. lra.
Qed.

Lemma padf_padded (a : img) pr pc : zero_padded a pr pc (padf 0 (rows a) (cols a) pr pc (px a)).
Proof.
  split; intros i j; intros.
  - unfold padf. replace ((pr <=? pr + i) && (pr + i <? pr + rows a) && (pc <=? pc + j) && (pc + j <? pc + cols a))%nat%bool with true by lia.
    f_equal; lia.
  - unfold padf. replace ((pr <=? i) && (i <? pr + rows a) && (pc <=? j) && (j <? pc + cols a))%nat%bool with false by lia. reflexivity.
Qed.

Lemma enlarge_pads (a : img) p q : (0 < q)%Z -> (q < p)%Z -> (0 < rows a)%nat -> (0 < cols a)%nat ->
  exists pr pc o, enlargeSupport a p q = Ok o /\ rows o = (rows a + 2 * pr)%nat /\ cols o = (cols a + 2 * pc)%nat /\
    zero_padded a pr pc (px o) /\ img_sum o = img_sum a /\
    (2 * q * Z.of_nat pr <= (p - q) * Z.of_nat (rows a) < 2 * q * (Z.of_nat pr + 1))%Z /\
    (2 * q * Z.of_nat pc <= (p - q) * Z.of_nat (cols a) < 2 * q * (Z.of_nat pc + 1))%Z.
Proof.
  intros Hq Hp Hr Hc.
  assert (QP : forall n : nat, (0 <= Z.quot ((p - q) * Z.of_nat n) (2 * q))%Z /\
     (2 * q * Z.quot ((p - q) * Z.of_nat n) (2 * q) <= (p - q) * Z.of_nat n < 2 * q * (Z.quot ((p - q) * Z.of_nat n) (2 * q) + 1))%Z).
  { intros n. assert (0 <= (p - q) * Z.of_nat n)%Z by (apply Z.mul_nonneg_nonneg; lia).
    rewrite Z.quot_div_nonneg by lia. split; [apply Z.div_pos; lia|].
    assert (D := Z.div_mod ((p - q) * Z.of_nat n) (2 * q) ltac:(lia)).
    assert (M := Z.mod_pos_bound ((p - q) * Z.of_nat n) (2 * q) ltac:(lia)). nia. }
  destruct (QP (rows a)) as [P1 B1]. destruct (QP (cols a)) as [P2 B2].
  unfold enlargeSupport. set (u := Z.quot _ _) in *. set (v := Z.quot ((p - q) * Z.of_nat (cols a)) _) in *. clearbody u v.
  unfold pad2. destruct (Z.ltb_spec u 0); [lia|]. destruct (Z.ltb_spec v 0); [lia|]. cbn [orb].
  exists (Z.to_nat u), (Z.to_nat v). eexists. split; [reflexivity|]. cbn [rows cols px].
  split; [reflexivity|]. split; [reflexivity|].
  split; [exact (padf_padded a (Z.to_nat u) (Z.to_nat v))|].
  split; [unfold img_sum; cbn [rows cols px]; exact (padf_sum (rows a) (cols a) (Z.to_nat u) (Z.to_nat v) (px a))|].
  rewrite !Z2Nat.id by assumption. split; assumption.
Qed.

Lemma padded_nonneg a pr pc e : nonneg a -> zero_padded a pr pc e -> forall i j, 0 <= e i j.
Proof.
  intros H [H1 H2] i j.
  destruct (le_lt_dec pr i) as [A|A]; [|rewrite H2 by lia; lra].
  destruct (le_lt_dec (pr + rows a) i) as [B|B]; [rewrite H2 by lia; lra|].
  destruct (le_lt_dec pc j) as [C|C]; [|rewrite H2 by lia; lra].
  destruct (le_lt_dec (pc + cols a) j) as [D|D]; [rewrite H2 by lia; lra|].
  replace i with (pr + (i - pr))%nat by lia. replace j with (pc + (j - pc))%nat by lia.
  rewrite H1 by lia. apply H; lia.
Qed.

Lemma conv_nonneg n m e s t : (forall i j, 0 <= e i j) -> 0 <= self_convolution n m e s t.
Proof. intros H. unfold self_convolution. apply rsum_nonneg; intros a _. apply rsum_nonneg; intros b _. apply Rmult_le_pos; apply H. Qed.

(** The OTF of a non-negative pupil with sampling p/q > 1: its array is the pupil with
    zeros around it, its values are real, between 0 and 1, reach 1, are the
    self-convolution of the padded pupil, and add up to the square of the pupil's total
    divided by the peak of the convolution. *)
Theorem C95_otf interp pup p q :
  (0 < q < p)%Z -> (0 < rows pup)%nat -> (0 < cols pup)%nat -> nonneg pup -> 0 < img_sum pup ->
  exists pr pc e o peak, telescopeOtf interp pup p q = Ok o /\
    zero_padded pup pr pc e /\ crows o = (rows pup + 2 * pr)%nat /\ ccols o = (cols pup + 2 * pc)%nat /\
    (2 * q * Z.of_nat pr <= (p - q) * Z.of_nat (rows pup) < 2 * q * (Z.of_nat pr + 1))%Z /\
    (2 * q * Z.of_nat pc <= (p - q) * Z.of_nat (cols pup) < 2 * q * (Z.of_nat pc + 1))%Z /\
    0 < peak /\
    (forall i j, (i < crows o)%nat -> (j < ccols o)%nat ->
       let s := (i + 3 * (crows o - crows o / 2))%nat in let t := (j + 3 * (ccols o - ccols o / 2))%nat in
       cpx o i j = RtoC (self_convolution (crows o) (ccols o) e s t / peak) /\
       0 <= self_convolution (crows o) (ccols o) e s t <= peak) /\
    (exists i j, (i < crows o)%nat /\ (j < ccols o)%nat /\ cpx o i j = RtoC 1) /\
    csum (crows o) (fun i => csum (ccols o) (fun j => cpx o i j)) = RtoC (img_sum pup * img_sum pup / peak).
Proof.
  intros [Hq Hp] Hr Hc Hn Hs.
  destruct (enlarge_pads pup p q Hq Hp Hr Hc) as (pr & pc & E & HE & Er & Ec & HP & HS & B1 & B2).
  destruct (otf_of_pad_val E) as (o & Ho & Or & Oc & Ov & Os); [lia|lia|].
  set (f := fun i j => self_convolution (rows E) (cols E) (px E) (i + 3 * (rows E - rows E / 2)) (j + 3 * (cols E - cols E / 2))) in *.
  destruct (carr_max_real o f) as (i0 & j0 & Hi0 & Hj0 & Hmx & Hcm); [lia|lia|intros; apply Ov|].
  assert (PE := padded_nonneg _ _ _ _ Hn HP).
  assert (Pos : 0 < f i0 j0).
  { destruct (Rlt_dec 0 (f i0 j0)) as [L|L]; [exact L|exfalso].
    assert (Z : csum_arr o = RtoC 0).
    { unfold csum_arr. apply csum_zero; intros i Hi. apply csum_zero; intros j Hj. rewrite Ov. f_equal.
      assert (0 <= f i j) by (apply conv_nonneg; exact PE). specialize (Hmx i j Hi Hj). unfold f in *. lra. }
    rewrite Z in Os. apply RtoC_inj in Os. rewrite HS in Os. nra. }
  assert (NZ : RtoC (f i0 j0) <> RtoC 0) by (intros Q; apply RtoC_inj in Q; lra).
  exists pr, pc, (px E), (cmap (fun w => Cdiv w (RtoC (f i0 j0))) o), (f i0 j0).
  split.
  { unfold telescopeOtf. replace (q <? p)%Z with true by lia. rewrite HE. cbn [bind]. rewrite Ho. cbn [bind]. rewrite Hcm. cbn [bind].
    unfold cdiv_arr. destruct (Ceq_dec _ _); [contradiction|reflexivity]. }
  split; [exact HP|]. cbn [cmap crows ccols cpx]. rewrite Or, Oc.
  split; [exact Er|]. split; [exact Ec|]. split; [exact B1|]. split; [exact B2|]. split; [exact Pos|].
  split; [|split].
  - intros i j Hi Hj. cbv zeta. rewrite Ov. split; [rewrite RtoC_div by lra; reflexivity|].
    split; [apply conv_nonneg; exact PE|]. apply Hmx; lia.
  - exists i0, j0. split; [lia|]. split; [lia|]. rewrite Ov. rewrite <- RtoC_div by lra. f_equal. apply Rinv_r. lra.
  - transitivity (Cdiv (csum_arr o) (RtoC (f i0 j0))).
    + unfold csum_arr, Cdiv. rewrite Or, Oc. rewrite <- csum_scal_r. apply csum_ext; intros i _. rewrite csum_scal_r. reflexivity.
    + rewrite Os, HS, <- RtoC_div by lra. reflexivity.
Qed.

(** self-convolution of a symmetric map = autocorrelation, displaced *)
Lemma ix_sym n s a : (0 < n)%nat -> (a < n)%nat ->
  (n - 1 - (s + (n - a)) mod n = (a + ((n - 1 - s mod n))) mod n)%nat.
Proof.
  intros Hn Ha. assert (Hs : (s mod n < n)%nat) by (apply Nat.mod_upper_bound; lia).
  rewrite <- Nat.add_mod_idemp_l by lia. set (r := (s mod n)%nat) in *. clearbody r.
  destruct (le_lt_dec a r) as [L|L].
  - replace (r + (n - a))%nat with ((r - a) + 1 * n)%nat by lia. rewrite Nat.mod_add, Nat.mod_small by lia.
    rewrite Nat.mod_small by lia. lia.
  - rewrite (Nat.mod_small (r + (n - a))) by lia.
    replace (a + (n - 1 - r))%nat with ((a - 1 - r) + 1 * n)%nat by lia. rewrite Nat.mod_add, Nat.mod_small by lia. lia.
Qed.

Lemma autocorr_neg n m e s t : (0 < n)%nat -> (0 < m)%nat ->
  autocorrelation n m e s t = autocorrelation n m e (n - s mod n) (m - t mod m).
Proof.
  intros Hn Hm. unfold autocorrelation.
  assert (X : forall k q a, (0 < k)%nat -> (a < k)%nat -> (((a + q) mod k + (k - q mod k)) mod k = a)%nat).
  { intros k q a Hk Ha. rewrite Nat.add_mod_idemp_l by lia.
    replace (a + q + (k - q mod k))%nat with (a + (q - q mod k) + k)%nat by (assert (q mod k <= q)%nat by (apply Nat.mod_le; lia); assert (q mod k < k)%nat by (apply Nat.mod_upper_bound; lia); lia).
    assert (D := Nat.div_mod q k ltac:(lia)). replace (a + (q - q mod k) + k)%nat with (a + (q / k + 1) * k)%nat
      by (rewrite D at 2; set (dd := (q / k)%nat); set (rr := (q mod k)%nat); rewrite Nat.mul_add_distr_r, (Nat.mul_comm dd k); lia).
    rewrite Nat.mod_add by lia. apply Nat.mod_small; exact Ha. }
  rewrite <- (rsum_shift_mod n s (fun a => rsum m (fun b => e a b * e ((a + (n - s mod n)) mod n)%nat ((b + (m - t mod m)) mod m)%nat)) Hn).
  apply rsum_ext; intros a Ha.
  rewrite <- (rsum_shift_mod m t (fun b => e ((a + s) mod n)%nat b * e (((a + s) mod n + (n - s mod n)) mod n)%nat ((b + (m - t mod m)) mod m)%nat) Hm).
  apply rsum_ext; intros b Hb. rewrite !X by assumption. apply Rmult_comm.
Qed.
Lemma autocorr_mod n m e s t : (0 < n)%nat -> (0 < m)%nat -> autocorrelation n m e s t = autocorrelation n m e (s mod n) (t mod m).
Proof.
  intros Hn Hm. unfold autocorrelation. apply rsum_ext; intros a _. apply rsum_ext; intros b _.
  rewrite !Nat.add_mod_idemp_r by lia. reflexivity.
Qed.
Lemma autocorr_rcorr n m e s t : autocorrelation n m e s t = rcorr n m e s t.
Proof.
  unfold autocorrelation, rcorr. apply rsum_ext; intros a _. apply rsum_ext; intros b _.
  rewrite (Nat.add_comm s), (Nat.add_comm t). apply Rmult_comm.
Qed.

Lemma conv_sym n m e s t : (0 < n)%nat -> (0 < m)%nat ->
  (forall a b, (a < n)%nat -> (b < m)%nat -> e (n - 1 - a)%nat (m - 1 - b)%nat = e a b) ->
  self_convolution n m e s t = autocorrelation n m e (s + 1) (t + 1).
Proof.
  intros Hn Hm H.
  transitivity (autocorrelation n m e (n - 1 - s mod n) (m - 1 - t mod m)).
  - unfold self_convolution, autocorrelation. apply rsum_ext; intros a Ha. apply rsum_ext; intros b Hb. f_equal.
    rewrite <- H by (apply Nat.mod_upper_bound; lia). rewrite !ix_sym by assumption. reflexivity.
  - rewrite (autocorr_neg n m e (s + 1) (t + 1)) by assumption.
    rewrite (autocorr_mod n m e (n - 1 - s mod n)), (autocorr_mod n m e (n - (s + 1) mod n)) by assumption.
    assert (X : forall k q, (0 < k)%nat -> ((k - 1 - q mod k) mod k = (k - (q + 1) mod k) mod k)%nat).
    { intros k q Hk. assert (q mod k < k)%nat by (apply Nat.mod_upper_bound; lia).
      rewrite <- (Nat.add_mod_idemp_l q 1) by lia. set (r := (q mod k)%nat) in *. clearbody r.
      destruct (Nat.eq_dec (r + 1) k) as [E|E].
      - rewrite E, Nat.mod_same, Nat.sub_0_r, Nat.mod_same by lia. replace (k - 1 - r)%nat with 0%nat by lia. apply Nat.mod_0_l. lia.
      - rewrite (Nat.mod_small (r + 1)) by lia. f_equal. lia. }
    rewrite !X by assumption. reflexivity.
Qed.

(** For a pupil that is its own mirror image through its centre, on an even padded grid,
    the OTF is the autocorrelation of the pupil divided by its energy, but stored one
    pixel too low on both axes: the value 1 is at (n/2-1, m/2-1) instead of (n/2, m/2). *)
Theorem C95_symmetric interp pup p q :
  (0 < q < p)%Z -> (0 < rows pup)%nat -> (0 < cols pup)%nat -> nonneg pup -> 0 < img_sum pup ->
  centrally_symmetric pup -> Nat.even (rows pup) = true -> Nat.even (cols pup) = true ->
  exists pr pc e o, telescopeOtf interp pup p q = Ok o /\
    zero_padded pup pr pc e /\ crows o = (rows pup + 2 * pr)%nat /\ ccols o = (cols pup + 2 * pc)%nat /\
    (forall i j, (i < crows o)%nat -> (j < ccols o)%nat ->
       cpx o i j = RtoC (autocorrelation (crows o) (ccols o) e ((i + 1 + crows o / 2) mod crows o) ((j + 1 + ccols o / 2) mod ccols o)
                         / autocorrelation (crows o) (ccols o) e 0 0)) /\
    cpx o (crows o / 2 - 1) (ccols o / 2 - 1) = RtoC 1.
Proof.
  intros HQ Hr Hc Hn Hs Hsym Ev1 Ev2.
  destruct (C95_otf interp pup p q HQ Hr Hc Hn Hs) as (pr & pc & e & o & peak & Ho & HP & Er & Ec & _ & _ & Pos & Hv & (i0 & j0 & Hi0 & Hj0 & H1) & _).
  exists pr, pc, e, o. split; [exact Ho|]. split; [exact HP|]. split; [exact Er|]. split; [exact Ec|].
  set (n := crows o) in *. set (m := ccols o) in *.
  assert (En : Nat.even n = true) by (rewrite Er, Nat.even_add, Nat.even_mul, Ev1; reflexivity).
  assert (Em : Nat.even m = true) by (rewrite Ec, Nat.even_add, Nat.even_mul, Ev2; reflexivity).
  apply Nat.even_spec in En. destruct En as [kn En]. apply Nat.even_spec in Em. destruct Em as [km Em].
  assert (Dn : (n / 2 = kn)%nat) by (rewrite En, Nat.mul_comm; apply Nat.div_mul; lia).
  assert (Dm : (m / 2 = km)%nat) by (rewrite Em, Nat.mul_comm; apply Nat.div_mul; lia).
  assert (Hsy : forall a b, (a < n)%nat -> (b < m)%nat -> e (n - 1 - a)%nat (m - 1 - b)%nat = e a b).
  { destruct HP as [P1 P2]. intros a b Ha Hb.
    destruct (le_lt_dec pr a) as [A|A]; [|rewrite !P2 by lia; reflexivity].
    destruct (le_lt_dec (pr + rows pup) a) as [B|B]; [rewrite !P2 by lia; reflexivity|].
    destruct (le_lt_dec pc b) as [C|C]; [|rewrite !P2 by lia; reflexivity].
    destruct (le_lt_dec (pc + cols pup) b) as [D|D]; [rewrite !P2 by lia; reflexivity|].
    replace a with (pr + (a - pr))%nat at 2 by lia. replace b with (pc + (b - pc))%nat at 2 by lia.
    rewrite P1 by lia. rewrite <- Hsym by lia. rewrite <- P1 by lia. f_equal; lia. }
  assert (Val : forall i j, self_convolution n m e (i + 3 * (n - n / 2)) (j + 3 * (m - m / 2)) =
     autocorrelation n m e ((i + 1 + n / 2) mod n) ((j + 1 + m / 2) mod m)).
  { intros i j. rewrite conv_sym by (try exact Hsy; lia). rewrite autocorr_mod by lia. f_equal.
    - rewrite Dn. replace (i + 3 * (n - kn) + 1)%nat with (i + 1 + kn + 1 * n)%nat by lia. apply Nat.mod_add. lia.
    - rewrite Dm. replace (j + 3 * (m - km) + 1)%nat with (j + 1 + km + 1 * m)%nat by lia. apply Nat.mod_add. lia. }
  assert (ZZ : ((n / 2 - 1 + 1 + n / 2) mod n = 0)%nat /\ ((m / 2 - 1 + 1 + m / 2) mod m = 0)%nat).
  { rewrite Dn, Dm. replace (kn - 1 + 1 + kn)%nat with n by lia. replace (km - 1 + 1 + km)%nat with m by lia. rewrite !Nat.mod_same by lia. split; reflexivity. }
  assert (PeakV : peak = autocorrelation n m e 0 0).
  { apply Rle_antisym.
    - destruct (Hv i0 j0 Hi0 Hj0) as [V B]. rewrite H1 in V. apply RtoC_inj in V.
      assert (self_convolution n m e (i0 + 3 * (n - n / 2)) (j0 + 3 * (m - m / 2)) = peak) by (apply (f_equal (fun x => x * peak)) in V; field_simplify in V; lra).
      rewrite <- H, Val. rewrite (autocorr_rcorr n m e 0 0), rcorr_0, autocorr_rcorr. apply rcorr_le; lia.
    - destruct (Hv (n / 2 - 1)%nat (m / 2 - 1)%nat) as [V B]; [lia|lia|]. rewrite Val in B. destruct ZZ as [Z1 Z2]. rewrite Z1, Z2 in B. lra. }
  split.
  - intros i j Hi Hj. destruct (Hv i j Hi Hj) as [V _]. rewrite V, Val, PeakV. reflexivity.
  - destruct (Hv (n / 2 - 1)%nat (m / 2 - 1)%nat) as [V B]; [lia|lia|]. rewrite V, Val. destruct ZZ as [Z1 Z2]. rewrite Z1, Z2, <- PeakV. f_equal. apply Rinv_r. lra.
Qed.

Print Assumptions C95_otf.
Print Assumptions C95_symmetric.
