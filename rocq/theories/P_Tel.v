(** C98: the telescope object: annular pupil, non-common path aberrations, static modes. *)
From Coq Require Import Reals List Arith ZArith Lia Lra Psatz Bool.
From Coq Require Import ZifyBool ZifyNat.
From Verif Require Import Base_Py Base_Sum M_Image M_Zernike M_Tel L_Fit.
Import ListNotations.
Open Scope R_scope.

(** Specification. The pupil plane is sampled by n x n points whose outermost rows and columns lie on the
    edge of the D x D square; a point is transmitting when its distance to the centre is at most D/2 and
    larger than the radius of the central obstruction. *)
Definition point (D : R) (n i : nat) : R := D * (INR i / INR (n - 1) - / 2).
Definition distance (D : R) (n i j : nat) : R := sqrt (point D n i ^ 2 + point D n j ^ 2).
Definition transmits (D obs : R) (n i j : nat) : Prop := obs * (D / 2) < distance D n i j <= D / 2.

Lemma grid1_point D n i : (2 <= n)%nat -> grid1 D n i = point D n i.
Proof.
  intros Hn. unfold grid1, point. destruct (Nat.eqb_spec n 1); [lia|].
  assert (0 < INR (n - 1)) by (apply lt_0_INR; lia). field. lra.
Qed.
Lemma rot_hypot x y t : hypot (x * cos t + y * sin t) (y * cos t - x * sin t) = sqrt (x ^ 2 + y ^ 2).
Proof.
  unfold hypot. f_equal. pose proof (sin2_cos2 t) as H. unfold Rsqr in H.
  transitivity ((x ^ 2 + y ^ 2) * (sin t * sin t + cos t * cos t)); [ring|rewrite H; ring].
Qed.
Lemma annular_val D obs angle n i j : (2 <= n)%nat ->
  px (annular D obs angle n) i j = b2r (rle (distance D n i j) (D / 2) && rgt (distance D n i j) (D / 2 * obs)).
Proof.
  intros Hn. unfold annular; cbn [px]. rewrite rot_hypot, !grid1_point by assumption.
  unfold tel_R, distance. rewrite (Rplus_comm (point D n j ^ 2)). reflexivity.
Qed.
Theorem C98_pupil : forall D obs angle n i j, (2 <= n)%nat -> (i < n)%nat -> (j < n)%nat ->
  rows (annular D obs angle n) = n /\ cols (annular D obs angle n) = n /\
  (transmits D obs n i j -> px (annular D obs angle n) i j = 1) /\
  (~ transmits D obs n i j -> px (annular D obs angle n) i j = 0).
Proof.
  intros D obs angle n i j Hn Hi Hj. split; [reflexivity|]. split; [reflexivity|].
  rewrite annular_val by assumption. unfold b2r, rle, rgt, transmits.
  destruct (Rle_dec (distance D n i j) (D / 2)); destruct (Rlt_dec (D / 2 * obs) (distance D n i j)); cbn [andb]; split; intros H; try reflexivity; exfalso; lra.
Qed.
(** The pupil angle has no effect on the annular pupil; the pupil is unchanged by the symmetries of the square. *)
Theorem C98_symmetric : forall D obs a1 a2 n i j, (2 <= n)%nat -> (i < n)%nat -> (j < n)%nat ->
  px (annular D obs a1 n) i j = px (annular D obs a2 n) i j /\
  px (annular D obs a1 n) (n - 1 - i) j = px (annular D obs a1 n) i j /\
  px (annular D obs a1 n) i (n - 1 - j) = px (annular D obs a1 n) i j /\
  px (annular D obs a1 n) j i = px (annular D obs a1 n) i j.
Proof.
  intros D obs a1 a2 n i j Hn Hi Hj. rewrite !annular_val by assumption. split; [reflexivity|].
  assert (M : forall k, (k < n)%nat -> point D n (n - 1 - k) = - point D n k).
  { intros k Hk. unfold point. rewrite (minus_INR (n - 1) k) by lia.
    assert (0 < INR (n - 1)) by (apply lt_0_INR; lia). field. lra. }
  unfold distance. rewrite !M by assumption.
  replace ((- point D n i) ^ 2) with (point D n i ^ 2) by ring. replace ((- point D n j) ^ 2) with (point D n j ^ 2) by ring.
  rewrite (Rplus_comm (point D n j ^ 2)). repeat split; reflexivity.
Qed.
Theorem C98_obstruction : forall D o1 o2 angle n i j, 0 < D -> (2 <= n)%nat -> (i < n)%nat -> (j < n)%nat -> o1 <= o2 ->
  px (annular D o2 angle n) i j <= px (annular D o1 angle n) i j.
Proof.
  intros D o1 o2 angle n i j HD Hn Hi Hj H. rewrite !annular_val by assumption. unfold b2r, rle, rgt.
  assert (D / 2 * o1 <= D / 2 * o2) by (apply Rmult_le_compat_l; lra).
  destruct (Rle_dec (distance D n i j) (D / 2)); destruct (Rlt_dec (D / 2 * o1) (distance D n i j)); destruct (Rlt_dec (D / 2 * o2) (distance D n i j)); cbn [andb]; lra.
Qed.
Lemma distance_pos D n i j : 0 < D -> (2 <= n)%nat -> (2 * i <> n - 1 \/ 2 * j <> n - 1)%nat -> 0 < distance D n i j.
Proof.
  intros HD Hn H. unfold distance. apply sqrt_lt_R0.
  assert (Hp : 0 < INR (n - 1)) by (apply lt_0_INR; lia).
  assert (Q : forall k, (2 * k <> n - 1)%nat -> point D n k <> 0).
  { intros k Hk E. unfold point in E. apply Rmult_integral in E. destruct E as [E|E]; [lra|].
    assert (2 * INR k = INR (n - 1)).
    { apply (Rmult_eq_reg_r (/ INR (n - 1))); [|apply Rinv_neq_0_compat; lra]. rewrite Rinv_r by lra. unfold Rdiv in E. lra. }
    apply Hk. apply INR_eq. rewrite mult_INR. cbn [INR]. lra. }
  destruct H as [H|H]; apply Q in H.
  - assert (0 < point D n i ^ 2) by (rewrite <- Rsqr_pow2; apply Rsqr_pos_lt; assumption). assert (0 <= point D n j ^ 2) by (apply pow2_ge_0). lra.
  - assert (0 < point D n j ^ 2) by (rewrite <- Rsqr_pow2; apply Rsqr_pos_lt; assumption). assert (0 <= point D n i ^ 2) by (apply pow2_ge_0). lra.
Qed.
(** Without obstruction the pupil is the full disc, except that for an odd number of pixels the central pixel is dark. *)
Theorem C98_full_disc : forall D angle n i j, 0 < D -> (2 <= n)%nat -> (i < n)%nat -> (j < n)%nat ->
  (2 * i <> n - 1 \/ 2 * j <> n - 1)%nat ->
  (px (annular D 0 angle n) i j = 1 <-> distance D n i j <= D / 2).
Proof.
  intros D angle n i j HD Hn Hi Hj H. rewrite annular_val by assumption. unfold b2r, rle, rgt.
  assert (0 < distance D n i j) by (apply distance_pos; assumption). rewrite Rmult_0_r.
  destruct (Rle_dec (distance D n i j) (D / 2)); destruct (Rlt_dec 0 (distance D n i j)); cbn [andb]; split; intros; lra.
Qed.
Theorem C98_odd_centre_refuted : forall D angle m, 0 < D -> (1 <= m)%nat ->
  px (annular D 0 angle (2 * m + 1)) m m = 0 /\ px (annular D 0 angle (2 * m + 1)) m (m + 1) = 1.
Proof.
  intros D angle m HD Hm.
  assert (Hp : 0 < INR m) by (apply lt_0_INR; lia). assert (1 <= INR m) by (apply (le_INR 1); lia).
  assert (E0 : point D (2 * m + 1) m = 0).
  { unfold point. replace (2 * m + 1 - 1)%nat with (2 * m)%nat by lia. rewrite mult_INR. cbn [INR]. field. lra. }
  assert (E1 : point D (2 * m + 1) (m + 1) = D / (2 * INR m)).
  { unfold point. replace (2 * m + 1 - 1)%nat with (2 * m)%nat by lia. rewrite mult_INR, plus_INR. cbn [INR]. field. lra. }
  rewrite !annular_val by lia. unfold distance. rewrite E0, E1.
  replace (0 ^ 2 + 0 ^ 2) with 0 by ring. replace (0 ^ 2 + (D / (2 * INR m)) ^ 2) with (Rsqr (D / (2 * INR m))) by (unfold Rsqr; ring).
  assert (0 < D / (2 * INR m)) by (apply Rdiv_lt_0_compat; lra).
  assert (D / (2 * INR m) <= D / 2).
  { unfold Rdiv. apply Rmult_le_compat_l; [lra|]. apply Rinv_le_contravar; lra. }
  rewrite sqrt_0, sqrt_Rsqr by lra. rewrite Rmult_0_r. unfold rle, rgt, b2r.
  split.
  - destruct (Rlt_dec 0 0); [lra|]. rewrite Bool.andb_false_r. reflexivity.
  - destruct (Rle_dec (D / (2 * INR m)) (D / 2)); [|lra]. destruct (Rlt_dec 0 (D / (2 * INR m))); [reflexivity|lra].
Qed.
(** Degenerate telescopes are accepted: an obstruction of the whole pupil, or at most 2 x 2 pixels, gives a pupil without light. *)
Theorem C98_empty_pupil_refuted : forall D obs angle n i j, 0 < D -> (i < n)%nat -> (j < n)%nat -> (1 <= obs \/ (n <= 2)%nat) ->
  px (annular D obs angle n) i j = 0 /\ (1 <= obs -> tel_area D obs <= 0).
Proof.
  intros D obs angle n i j HD Hi Hj H. split.
  - destruct (le_lt_dec n 1) as [H1|H1].
    + assert (n = 1)%nat by lia. subst n. unfold annular; cbn [px]. rewrite rot_hypot. unfold grid1. cbn [Nat.eqb].
      unfold rle, rgt, b2r, tel_R. destruct (Rle_dec _ (D / 2)) as [L|L]; [|reflexivity]. exfalso.
      assert (D / 2 < sqrt ((- D / 2) ^ 2 + (- D / 2) ^ 2)).
      { rewrite <- (sqrt_Rsqr (D / 2)) at 1 by lra. apply sqrt_lt_1; unfold Rsqr; nra. }
      lra.
    + rewrite annular_val by lia. unfold rle, rgt, b2r. destruct H as [H|H].
      * destruct (Rle_dec (distance D n i j) (D / 2)); [|reflexivity]. destruct (Rlt_dec (D / 2 * obs) (distance D n i j)); [|reflexivity].
        exfalso. assert (D / 2 * 1 <= D / 2 * obs) by (apply Rmult_le_compat_l; lra). lra.
      * assert (n = 2)%nat by lia. subst n. destruct (Rle_dec (distance D 2 i j) (D / 2)) as [L|L]; [|reflexivity]. exfalso.
        assert (P : forall k, (k < 2)%nat -> point D 2 k ^ 2 = (D / 2) ^ 2).
        { intros k Hk. destruct k as [|[|k]]; [| |lia]; unfold point; cbn [Nat.sub INR]; field. }
        unfold distance in L. rewrite !P in L by assumption.
        assert (D / 2 < sqrt ((D / 2) ^ 2 + (D / 2) ^ 2)).
        { rewrite <- (sqrt_Rsqr (D / 2)) at 1 by lra. apply sqrt_lt_1; unfold Rsqr; nra. }
        lra.
  - intros Ho. unfold tel_area, tel_R. assert (1 <= obs ^ 2) by nra. assert (0 < PI) by apply PI_RGT_0.
    assert (0 <= PI * (D / 2) ^ 2) by (apply Rmult_le_pos; [lra|apply pow2_ge_0]). nra.
Qed.
Example C98_ex : px (annular 2 0 30 4) 1 1 = 1 /\ px (annular 2 0 30 4) 0 0 = 0 /\ tel_area 2 0 = PI.
Proof.
  assert (A : transmits 2 0 4 1 1).
  { unfold transmits, distance, point. cbn [Nat.sub INR]. split.
    - rewrite Rmult_0_l. apply sqrt_lt_R0. nra.
    - rewrite <- (sqrt_Rsqr (2 / 2)) by lra. apply sqrt_le_1; unfold Rsqr; nra. }
  assert (B : ~ transmits 2 0 4 0 0).
  { unfold transmits, distance, point. cbn [Nat.sub INR]. intros [_ B].
    assert (2 / 2 < sqrt ((2 * (0 / (1 + 1 + 1) - / 2)) ^ 2 + (2 * (0 / (1 + 1 + 1) - / 2)) ^ 2)).
    { rewrite <- (sqrt_Rsqr (2 / 2)) at 1 by lra. apply sqrt_lt_1; unfold Rsqr; nra. }
    lra. }
  split; [apply (proj1 (proj2 (proj2 (C98_pupil 2 0 30 4 1 1 ltac:(lia) ltac:(lia) ltac:(lia)))) A)|].
  split; [apply (proj2 (proj2 (proj2 (C98_pupil 2 0 30 4 0 0 ltac:(lia) ltac:(lia) ltac:(lia)))) B)|].
  unfold tel_area, tel_R. field.
Qed.

Print Assumptions C98_pupil.
Print Assumptions C98_symmetric.
Print Assumptions C98_obstruction.
Print Assumptions C98_full_disc.
Print Assumptions C98_odd_centre_refuted.
Print Assumptions C98_empty_pupil_refuted.
