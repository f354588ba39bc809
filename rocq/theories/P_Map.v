(** C96: covariance matrix to covariance map. *)
From Coq Require Import Reals List Arith ZArith Lia Lra Psatz Bool.
From Coq Require Import ZifyBool ZifyNat.
From Verif Require Import Base_Py Base_Sum M_Image M_Map S_Map L_Map.
Import ListNotations.
Open Scope R_scope.

Lemma lag_mean_ext n p q F G : (forall x y, (x < n - p)%nat -> (y < n - q)%nat -> F x (x + p)%nat y (y + q)%nat = G x (x + p)%nat y (y + q)%nat) ->
  lag_mean n p q F = lag_mean n p q G.
Proof. intros H. unfold lag_mean. f_equal. apply rsum_ext; intros x Hx. apply rsum_ext; intros y Hy. apply H; assumption. Qed.
Lemma lag_mean_const n p q F c : (p < n)%nat -> (q < n)%nat ->
  (forall x y, (x < n - p)%nat -> (y < n - q)%nat -> F x (x + p)%nat y (y + q)%nat = c) -> lag_mean n p q F = c.
Proof.
  intros Hp Hq H. unfold lag_mean.
  rewrite (rsum_ext _ _ (fun _ => INR (n - q) * c)).
  2:{ intros x Hx. rewrite (rsum_ext _ _ (fun _ => c)) by (intros; apply H; assumption). apply rsum_const. }
  rewrite rsum_const. assert (0 < INR (n - p)) by (apply lt_0_INR; lia). assert (0 < INR (n - q)) by (apply lt_0_INR; lia). field. lra.
Qed.
Lemma lag_lt n i : (i < 2 * n - 1)%nat -> (lag n i < n)%nat.
Proof. unfold lag. lia. Qed.

(** The map of an n^2 x n^2 matrix has 2n-1 points per axis; each value is the mean of the
    matrix over the pairs of grid points with the corresponding separation (in absolute value on
    each axis), rows being numbered x2*n+y1 and columns x1*n+y2. *)
Theorem C96_map n mat : (0 < n)%nat ->
  exists o, matrix_to_map (n * n) mat None = Ok o /\ rows o = (2 * n - 1)%nat /\ cols o = (2 * n - 1)%nat /\
    (forall i j, (i < 2 * n - 1)%nat -> (j < 2 * n - 1)%nat ->
      px o i j = lag_mean n (lag n j) (lag n i) (fun x1 x2 y1 y2 => mat (x2 * n + y1)%nat (x1 * n + y2)%nat) /\
      px o (2 * n - 2 - i)%nat j = px o i j /\ px o i (2 * n - 2 - j)%nat = px o i j) /\
    INR (n * n) * px o (n - 1) (n - 1) = rsum (n * n) (fun a => mat a a).
Proof.
  intros Hn. destruct (map_val n mat None Hn ltac:(left; reflexivity)) as (o & H & Hr & Hc & Hv).
  exists o. split; [exact H|]. split; [exact Hr|]. split; [exact Hc|]. split.
  - intros i j Hi Hj. rewrite !Hv by lia. split; [reflexivity|]. split; f_equal; unfold lag; lia.
  - rewrite Hv by lia. replace (lag n (n - 1)) with 0%nat by (unfold lag; lia). unfold lag_mean.
    rewrite rsum_blocks, !Nat.sub_0_r, mult_INR.
    assert (0 < INR n) by (apply lt_0_INR; exact Hn).
    rewrite (rsum_ext n (fun x => rsum n (fun y => mat ((x + 0) * n + y)%nat (x * n + (y + 0))%nat)) (fun a => rsum n (fun b => mat (a * n + b)%nat (a * n + b)%nat))).
    + field. lra.
    + intros x _. apply rsum_ext; intros y _. rewrite !Nat.add_0_r. reflexivity.
Qed.

(** Values stay between the smallest and the largest entry of the matrix. *)
Theorem C96_range n mat lo hi : (0 < n)%nat ->
  (forall a b, (a < n * n)%nat -> (b < n * n)%nat -> lo <= mat a b <= hi) ->
  exists o, matrix_to_map (n * n) mat None = Ok o /\
    forall i j, (i < 2 * n - 1)%nat -> (j < 2 * n - 1)%nat -> lo <= px o i j <= hi.
Proof.
  intros Hn H. destruct (C96_map n mat Hn) as (o & Ho & Hr & Hc & Hv & _). exists o. split; [exact Ho|].
  intros i j Hi Hj. destruct (Hv i j Hi Hj) as [-> _]. unfold lag_mean.
  assert (Lj := lag_lt n j Hj). assert (Li := lag_lt n i Hi).
  set (p := lag n j) in *. set (q := lag n i) in *.
  assert (P1 : 0 < INR (n - p)) by (apply lt_0_INR; lia). assert (P2 : 0 < INR (n - q)) by (apply lt_0_INR; lia).
  assert (P : 0 < INR (n - p) * INR (n - q)) by (apply Rmult_lt_0_compat; assumption).
  set (S := rsum _ _).
  assert (B : INR (n - p) * (INR (n - q) * lo) <= S <= INR (n - p) * (INR (n - q) * hi)).
  { unfold S. split.
    - rewrite <- rsum_const. apply rsum_le; intros x Hx. rewrite <- rsum_const. apply rsum_le; intros y Hy. apply H; nia.
    - rewrite <- rsum_const. apply rsum_le; intros x Hx. rewrite <- rsum_const. apply rsum_le; intros y Hy. apply H; nia. }
  split.
  - apply (Rmult_le_reg_r (INR (n - p) * INR (n - q))); [exact P|]. unfold Rdiv. rewrite Rmult_assoc, Rinv_l by lra. lra.
  - apply (Rmult_le_reg_r (INR (n - p) * INR (n - q))); [exact P|]. unfold Rdiv. rewrite Rmult_assoc, Rinv_l by lra. lra.
Qed.

(** absolute difference of two indices *)
Definition gap (a b : nat) : nat := ((a - b) + (b - a))%nat.

(** A stationary covariance, even on each axis, is recovered exactly. *)
Theorem C96_stationary n mat c : (0 < n)%nat ->
  (forall a b, (a < n * n)%nat -> (b < n * n)%nat -> mat a b = c (gap (a / n) (b / n)) (gap (a mod n) (b mod n))) ->
  exists o, matrix_to_map (n * n) mat None = Ok o /\ rows o = (2 * n - 1)%nat /\ cols o = (2 * n - 1)%nat /\
    forall i j, (i < 2 * n - 1)%nat -> (j < 2 * n - 1)%nat -> px o i j = c (gap j (n - 1)) (gap i (n - 1)).
Proof.
  intros Hn H. destruct (C96_map n mat Hn) as (o & Ho & Hr & Hc & Hv & _). exists o. split; [exact Ho|]. split; [exact Hr|]. split; [exact Hc|].
  intros i j Hi Hj. destruct (Hv i j Hi Hj) as [-> _].
  assert (Lj := lag_lt n j Hj). assert (Li := lag_lt n i Hi).
  apply lag_mean_const; try assumption.
  intros x y Hx Hy. rewrite H by nia.
  destruct (div_block n (x + lag n j) y ltac:(lia)) as [A1 A2]. destruct (div_block n x (y + lag n i) ltac:(lia)) as [B1 B2].
  rewrite A1, A2, B1, B2. f_equal; unfold gap, lag; lia.
Qed.
Example C96_ex : exists o, matrix_to_map (2 * 2) (fun a b => 4 - INR (gap (a / 2) (b / 2)) - 2 * INR (gap (a mod 2) (b mod 2))) None = Ok o /\
  px o 0 0 = 1 /\ px o 0 1 = 2 /\ px o 1 0 = 3 /\ px o 1 1 = 4.
Proof.
  destruct (C96_stationary 2 (fun a b => 4 - INR (gap (a / 2) (b / 2)) - 2 * INR (gap (a mod 2) (b mod 2))) (fun p q => 4 - INR p - 2 * INR q)) as (o & H & _ & _ & V).
  - lia.
  - intros. reflexivity.
  - exists o. split; [exact H|]. rewrite !V by lia. cbn. lra.
Qed.

(** Finding: a stationary covariance which is only symmetric through the origin (as every
    covariance is) is not: the values of one pair of quadrants are copied to the other. *)
Theorem C96_quadrant_refuted : exists mat o,
  (forall a b, (a < 4)%nat -> (b < 4)%nat -> mat a b =
     (if ((a / 2 =? b / 2) && (a mod 2 =? b mod 2))%nat%bool then 1 else
      if Z.eqb ((Z.of_nat (b / 2) - Z.of_nat (a / 2)) * (Z.of_nat (b mod 2) - Z.of_nat (a mod 2))) 1 then / 2 else 0)) /\
  (forall a b, mat a b = mat b a) /\
  matrix_to_map 4 mat None = Ok o /\ px o 0 0 = 0 /\ px o 2 2 = 0 /\ px o 0 2 = 0 /\ px o 2 0 = 0 /\ mat 0%nat 3%nat = / 2.
Proof.
  set (mat := fun a b : nat => if ((a / 2 =? b / 2) && (a mod 2 =? b mod 2))%nat%bool then 1 else
      if Z.eqb ((Z.of_nat (b / 2) - Z.of_nat (a / 2)) * (Z.of_nat (b mod 2) - Z.of_nat (a mod 2))) 1 then / 2 else 0).
  destruct (C96_map 2 mat ltac:(lia)) as (o & Ho & _ & _ & V & _).
  exists mat, o. split; [intros; reflexivity|]. split.
  { intros a b. unfold mat. rewrite (Nat.eqb_sym (a / 2)), (Nat.eqb_sym (a mod 2)).
    replace ((Z.of_nat (b / 2) - Z.of_nat (a / 2)) * (Z.of_nat (b mod 2) - Z.of_nat (a mod 2)))%Z
      with ((Z.of_nat (a / 2) - Z.of_nat (b / 2)) * (Z.of_nat (a mod 2) - Z.of_nat (b mod 2)))%Z by ring. reflexivity. }
  split; [exact Ho|].
  destruct (V 0%nat 0%nat ltac:(lia) ltac:(lia)) as [V0 [V1 V2]]. destruct (V 2%nat 0%nat ltac:(lia) ltac:(lia)) as [_ [_ V3]].
  cbn [Nat.mul Nat.add Nat.sub] in V1, V2, V3.
  assert (Z0 : px o 0 0 = 0) by (rewrite V0; unfold lag_mean, lag, mat; cbn; lra).
  rewrite V3, V1, V2, Z0. repeat split; try reflexivity.
Qed.

(** A matrix whose size is not a perfect square is refused. *)
Theorem C96_size n N mat : (n * n < N < (n + 1) * (n + 1))%nat -> (0 < n)%nat -> matrix_to_map N mat None = Err IndexError.
Proof.
  intros H Hn. unfold matrix_to_map.
  assert (E : Nat.sqrt N = n) by (apply Nat.sqrt_unique; lia). rewrite E.
  replace (Nat.eqb n 0) with false by lia. cbv zeta. replace (negb (Nat.eqb (n * n) N)) with true by lia. reflexivity.
Qed.

(** Diagonals: for a square matrix constant along its upper diagonals, get_diags gives the
    first row and toeplitz the first row weighted by the number of entries. *)
Lemma lsum_const l (c : R) : (forall x, In x l -> x = c) -> lsum l = INR (length l) * c.
Proof.
  induction l as [|x l IH]; intros H; [cbn; lra|]. cbn [lsum length]. rewrite S_INR, IH by (intros; apply H; right; assumption).
  rewrite (H x) by (left; reflexivity). lra.
Qed.
Theorem C96_diags a n : (0 < n)%nat -> rows a = n -> cols a = n ->
  (forall i k, (i + k < n)%nat -> px a i (i + k)%nat = px a 0 k) ->
  get_diags a = Ok (map (fun k => px a 0 k) (seq 0 n)) /\
  toeplitz a = map (fun k => INR (n - k) * px a 0 k) (seq 0 n).
Proof.
  intros Hn Hr Hc H.
  assert (D : forall k, (k < n)%nat -> length (diagonal a k) = (n - k)%nat /\ lsum (diagonal a k) = INR (n - k) * px a 0 k).
  { intros k Hk. unfold diagonal. rewrite Hr, Hc. replace (Nat.min n (n - k)) with (n - k)%nat by lia.
    assert (L : length (map (fun i => px a i (i + k)%nat) (seq 0 (n - k))) = (n - k)%nat) by (rewrite map_length, seq_length; reflexivity).
    split; [exact L|]. rewrite <- L at 2. apply lsum_const. intros x Hx. apply in_map_iff in Hx. destruct Hx as (i & <- & Hi).
    apply in_seq in Hi. apply H. lia. }
  split.
  - unfold get_diags. rewrite Hc. apply mapR_ok. intros k Hk. apply in_seq in Hk. destruct (D k ltac:(lia)) as [D1 D2].
    unfold lmean. destruct (diagonal a k) as [|v l] eqn:E; [cbn in D1; lia|]. rewrite <- E in *. rewrite D1, D2. f_equal.
    assert (0 < INR (n - k)) by (apply lt_0_INR; lia). field. lra.
  - unfold toeplitz. rewrite Hc. apply map_ext_in. intros k Hk. apply in_seq in Hk. apply D. lia.
Qed.
Example C96_diags_ex : get_diags (mkImg 3 3 (fun i j => INR (gap i j))) = Ok [0; 1; 2].
Proof.
  destruct (C96_diags (mkImg 3 3 (fun i j => INR (gap i j))) 3) as [H _]; try reflexivity; try lia.
  - intros i k H. cbn [px]. f_equal. unfold gap. lia.
  - rewrite H. cbn. reflexivity.
Qed.

Print Assumptions C96_map.
Print Assumptions C96_range.
Print Assumptions C96_stationary.
Print Assumptions C96_quadrant_refuted.
Print Assumptions C96_size.
Print Assumptions C96_diags.
