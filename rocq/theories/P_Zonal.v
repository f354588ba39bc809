(** C112: OTF from the covariance of the phase at the actuators (psfrUtils.zonalCovarianceToOtf). *)
From Coq Require Import Reals List Arith ZArith Lia Lra Bool Sorted ZifyBool ZifyNat.
From Flocq Require Import Core.
From Verif Require Import Base_Py Base_Sum Base_DFT M_Image L_Image2 L_Fourier4 M_Fourier M_Tools L_Model3 M_Atmo L_Psf M_Psf M_Psfr M_Zonal.
Import ListNotations.
Open Scope R_scope.

(** ** Specification. The valid actuators of an n x n grid in row-major order; [position k] is the (row, column) of the k-th one. *)
Definition actuators (n : nat) (valid : nat -> nat -> bool) : list (nat * nat) :=
  filter (fun p => valid (fst p) (snd p)) (map (fun k => (k / n, k mod n)%nat) (seq 0 (n * n))).
Definition position (n : nat) (valid : nat -> nat -> bool) (k : nat) : nat * nat := nth k (actuators n valid) (0, 0)%nat.
(** the second actuator is [a] rows and [b] columns further than the first *)
Definition apart (p q : nat * nat) (a b : Z) : bool :=
  ((Z.of_nat (fst q) =? Z.of_nat (fst p) + a) && (Z.of_nat (snd q) =? Z.of_nat (snd p) + b))%Z%bool.
(** phase structure function between two actuators *)
Definition Dphi (C : img) (k l : nat) : R := px C k k + px C l l - 2 * px C k l.
(** mean over the actuators of exp(-D/2) with the actuator at the given lag, 0 when there is none *)
Definition mean_otf (n : nat) (valid : nat -> nat -> bool) (C : img) (a b : Z) : R :=
  let N := length (actuators n valid) in
  rsum N (fun k => rsum N (fun l => if apart (position n valid k) (position n valid l) a b then exp (- Dphi C k l / 2) else 0)) / INR N.

(** ** lemmas on increasing lists *)
Lemma incr_eq : forall l1 l2 : list nat, StronglySorted lt l1 -> StronglySorted lt l2 -> (forall x, In x l1 <-> In x l2) -> l1 = l2.
Proof.
  induction l1 as [|a l1 IH]; intros l2 S1 S2 H.
  - destruct l2 as [|b l2]; [reflexivity|]. destruct (proj2 (H b) (or_introl eq_refl)).
  - destruct l2 as [|b l2]; [destruct (proj1 (H a) (or_introl eq_refl))|].
    inversion S1 as [|? ? S1' F1]; subst. inversion S2 as [|? ? S2' F2]; subst. rewrite Forall_forall in F1, F2.
    assert (a = b).
    { destruct (proj1 (H a) (or_introl eq_refl)) as [->|Ha]; [reflexivity|]. destruct (proj2 (H b) (or_introl eq_refl)) as [->|Hb]; [reflexivity|].
      specialize (F1 b Hb). specialize (F2 a Ha). lia. }
    subst b. f_equal. apply IH; [assumption|assumption|]. intros x. split; intros Hx.
    + destruct (proj1 (H x) (or_intror Hx)) as [->|]; [specialize (F1 x Hx); lia|assumption].
    + destruct (proj2 (H x) (or_intror Hx)) as [->|]; [specialize (F2 x Hx); lia|assumption].
Qed.
Lemma seq_incr n : forall s, StronglySorted lt (seq s n).
Proof. induction n as [|n IH]; intros s; cbn; constructor; [apply IH|]. apply Forall_forall. intros x Hx. apply in_seq in Hx. lia. Qed.
Lemma filter_incr (P : nat -> bool) l : StronglySorted lt l -> StronglySorted lt (filter P l).
Proof.
  induction l as [|a l IH]; intros S; cbn; [constructor|]. inversion S as [|? ? S' F]; subst. specialize (IH S').
  destruct (P a); [|exact IH]. constructor; [exact IH|]. rewrite Forall_forall in *. intros x Hx. apply filter_In in Hx. apply F, Hx.
Qed.
Lemma map_incr (g : nat -> nat) l : StronglySorted lt l -> (forall x y, In x l -> In y l -> (x < y)%nat -> (g x < g y)%nat) -> StronglySorted lt (map g l).
Proof.
  induction l as [|a l IH]; intros S H; cbn; [constructor|]. inversion S as [|? ? S' F]; subst. rewrite Forall_forall in F. constructor.
  - apply IH; [exact S'|]. intros; apply H; try (now right); assumption.
  - apply Forall_forall. intros x Hx. apply in_map_iff in Hx. destruct Hx as (y & <- & Hy). apply H; [now left|now right|apply F, Hy].
Qed.
Lemma incr_nth l i j : StronglySorted lt l -> (i < length l)%nat -> (j < length l)%nat -> (nth i l 0 < nth j l 0 <-> i < j)%nat.
Proof.
  intros S. assert (M : forall l, StronglySorted lt l -> forall i j, (i < j)%nat -> (j < length l)%nat -> (nth i l 0 < nth j l 0)%nat).
  { clear. induction 1 as [|a l S IH F]; intros i j Hij Hj; [cbn in Hj; lia|]. rewrite Forall_forall in F. destruct j as [|j]; [lia|]. cbn in Hj.
    destruct i as [|i]; cbn [nth]; [apply F, nth_In; lia|apply IH; lia]. }
  intros Hi Hj. split; intros H.
  - destruct (lt_eq_lt_dec i j) as [[L|E]|L]; [exact L|subst; lia|pose proof (M l S j i L Hi); lia].
  - apply M; assumption.
Qed.
Lemma fold_min_spec : forall l x, In (fold_left Rmin l x) (x :: l) /\ forall y, In y (x :: l) -> fold_left Rmin l x <= y.
Proof.
  induction l as [|z l IH]; intros x; cbn [fold_left]; [split; [now left|intros y [->|[]]; lra]|].
  destruct (IH (Rmin x z)) as [I1 I2]. split.
  - destruct I1 as [I1|I1]; [|right; right; exact I1]. rewrite <- I1. unfold Rmin. destruct (Rle_dec x z); [left; reflexivity|right; left; reflexivity].
  - intros y [->|[->|Hy]]; [pose proof (I2 _ (or_introl eq_refl)); pose proof (Rmin_l y z); lra|pose proof (I2 _ (or_introl eq_refl)); pose proof (Rmin_r x y); lra|apply I2; now right].
Qed.

Lemma lsum_filter_if (P : nat -> bool) (g : nat -> R) L : lsum (map g (filter P L)) = lsum (map (fun k => if P k then g k else 0) L).
Proof. induction L as [|x L IH]; [reflexivity|]. cbn [filter map]. unfold lsum in *. destruct (P x); cbn [map fold_right]; rewrite IH; ring. Qed.

(** ** the grid *)
Lemma npts_grid n dp : (1 <= n)%nat -> 0 < dp -> npts (INR (n - 1) * dp) dp = n.
Proof.
  intros Hn Hd. unfold npts. replace (INR (n - 1) * dp / dp + 1) with (INR n) by (rewrite minus_INR by lia; cbn; field; lra).
  rewrite INR_IZR_INZ, Zceil_IZR. lia.
Qed.
Lemma nPh_grid n dp : (1 <= n)%nat -> 0 < dp -> ZnearestE (INR (n - 1) * dp / dp + 1) = Z.of_nat n.
Proof.
  intros Hn Hd. replace (INR (n - 1) * dp / dp + 1) with (INR n) by (rewrite minus_INR by lia; cbn; field; lra).
  rewrite INR_IZR_INZ. apply Zrnd_IZR. apply valid_rnd_N.
Qed.
Lemma n1_val n : n1_of (Z.of_nat n) = (Z.of_nat n + 1 + Z.of_nat n mod 2)%Z.
Proof.
  unfold n1_of. replace ((2 * Z.of_nat n) mod 2)%Z with 0%Z by (rewrite Z.mul_comm, Z_mod_mult; reflexivity).
  rewrite Z.sub_0_r, Z.mul_comm, Z.quot_mul by lia. reflexivity.
Qed.
Lemma actuators_flat n valid : actuators n valid = map (fun k => (k / n, k mod n)%nat) (valid_flat n valid).
Proof. unfold actuators, valid_flat. induction (seq 0 (n * n)) as [|k l IH]; cbn; [reflexivity|]. rewrite IH. now destruct (valid (k / n)%nat (k mod n)%nat). Qed.
Lemma actuators_len n valid : length (actuators n valid) = length (valid_flat n valid).
Proof. rewrite actuators_flat, map_length. reflexivity. Qed.
Lemma position_flat n valid k : (k < length (valid_flat n valid))%nat -> position n valid k = (nth k (valid_flat n valid) 0 / n, nth k (valid_flat n valid) 0 mod n)%nat.
Proof.
  intros H. unfold position. rewrite actuators_flat. rewrite (nth_indep _ _ ((fun k => (k / n, k mod n)%nat) 0%nat)) by (rewrite map_length; exact H).
  rewrite (map_nth (fun k => (k / n, k mod n)%nat)). reflexivity.
Qed.
Lemma valid_flat_in n valid k : In k (valid_flat n valid) -> (1 <= n)%nat /\ (k / n < n)%nat /\ (k mod n < n)%nat.
Proof.
  intros H. apply filter_In in H. destruct H as [H _]. apply in_seq in H. assert (1 <= n)%nat by (destruct n; [cbn in H; lia|lia]).
  split; [assumption|]. split; [apply Nat.div_lt_upper_bound; lia|apply Nat.mod_upper_bound; lia].
Qed.
(** the embedded positions: row and column counted from the smallest ones *)
Lemma embed_grid n dp valid : (1 <= n)%nat -> 0 < dp -> valid_flat n valid <> [] ->
  exists i0 j0, (forall k, In k (valid_flat n valid) -> (i0 <= k / n < n)%nat /\ (j0 <= k mod n < n)%nat) /\
    embed (Z.of_nat n) dp (pointWiseLocation (INR (n - 1) * dp) dp (Some valid)) =
    Ok (map (fun k => (Z.of_nat (k / n) - Z.of_nat i0 + n1_of (Z.of_nat n), Z.of_nat (k mod n) - Z.of_nat j0 + n1_of (Z.of_nat n))%Z) (valid_flat n valid)).
Proof.
  intros Hn Hd HV. set (D := INR (n - 1) * dp). set (V := valid_flat n valid) in *.
  assert (EL : pointWiseLocation D dp (Some valid) = map (fun k => (xloc D dp (k / n), xloc D dp (k mod n))) V).
  { unfold pointWiseLocation, D, V. rewrite npts_grid by assumption. reflexivity. }
  rewrite EL. assert (HB : forall k, In k V -> (k / n < n)%nat /\ (k mod n < n)%nat) by (intros k Hk; apply (valid_flat_in n valid k Hk)).
  destruct V as [|v0 V']; [congruence|]. cbn [map embed].
  assert (Ex : forall (g : nat -> nat), (forall k, In k (v0 :: V') -> (g k < n)%nat) -> exists i0, (forall k, In k (v0 :: V') -> (i0 <= g k)%nat) /\
     lmin (xloc D dp (g v0) / dp) (map (fun k => xloc D dp (g k) / dp) V') = xloc D dp i0 / dp).
  { intros g Hg. unfold lmin. destruct (fold_min_spec (map (fun k => xloc D dp (g k) / dp) V') (xloc D dp (g v0) / dp)) as [I1 I2].
    assert (E : exists k0, In k0 (v0 :: V') /\ fold_left Rmin (map (fun k => xloc D dp (g k) / dp) V') (xloc D dp (g v0) / dp) = xloc D dp (g k0) / dp).
    { destruct I1 as [I1|I1]; [exists v0; split; [now left|symmetry; exact I1]|]. apply in_map_iff in I1. destruct I1 as (k0 & E & Hk0). exists k0. split; [now right|symmetry; exact E]. }
    destruct E as (k0 & Hk0 & E). exists (g k0). split; [|exact E]. intros k Hk. rewrite E in I2.
    assert (L : xloc D dp (g k0) / dp <= xloc D dp (g k) / dp).
    { apply I2. destruct Hk as [->|Hk]; [now left|right]. apply in_map_iff. exists k. split; [reflexivity|exact Hk]. }
    unfold xloc in L. apply INR_le. assert (INR (g k0) * dp <= INR (g k) * dp).
    { apply Rmult_le_reg_r with (/ dp); [apply Rinv_0_lt_compat, Hd|]. unfold Rdiv in L. lra. }
    apply Rmult_le_reg_r with dp; assumption. }
  destruct (Ex (fun k => k / n)%nat) as (i0 & Hi0 & Ei); [intros k Hk; apply HB, Hk|].
  destruct (Ex (fun k => k mod n)%nat) as (j0 & Hj0 & Ej); [intros k Hk; apply HB, Hk|].
  exists i0, j0. split; [intros k Hk; specialize (Hi0 k Hk); specialize (Hj0 k Hk); destruct (HB k Hk); split; split; assumption|].
  f_equal. rewrite !map_map. cbn [fst snd]. rewrite Ei, Ej.
  assert (P : forall i i0, ZnearestE (xloc D dp i / dp - (xloc D dp i0 / dp - IZR (n1_of (Z.of_nat n) - 1)) + 1) = (Z.of_nat i - Z.of_nat i0 + n1_of (Z.of_nat n))%Z).
  { intros i i1. replace (xloc D dp i / dp - (xloc D dp i1 / dp - IZR (n1_of (Z.of_nat n) - 1)) + 1) with (IZR (Z.of_nat i - Z.of_nat i1 + n1_of (Z.of_nat n))).
    - apply Zrnd_IZR. apply valid_rnd_N.
    - rewrite plus_IZR, !minus_IZR, <- !INR_IZR_INZ. unfold xloc. field. lra. }
  rewrite !P. f_equal. apply map_ext. intros k. rewrite !P. reflexivity.
Qed.

(** ** the two lists of indices *)
Section PAIRS.
Variables (n : nat) (valid : nat -> nat -> bool) (a b : Z).
Hypothesis Hn : (1 <= n)%nat.
Hypothesis Ha : (- Z.of_nat n <= a < Z.of_nat n)%Z.
Hypothesis Hb : (- Z.of_nat n <= b < Z.of_nat n)%Z.
Let V := valid_flat n valid.
Let N := length V.
Let pr k := (nth k V 0 / n)%nat.
Let pc k := (nth k V 0 mod n)%nat.
Let far k l := ((Z.of_nat (pr l) =? Z.of_nat (pr k) + a) && (Z.of_nat (pc l) =? Z.of_nat (pc k) + b))%Z%bool.
Lemma V_incr : StronglySorted lt V. Proof. apply filter_incr, seq_incr. Qed.
Lemma pos_order k l : (k < N)%nat -> (l < N)%nat -> (k < l <-> pr k < pr l \/ (pr k = pr l /\ pc k < pc l))%nat.
Proof.
  intros Hk Hl. rewrite <- (incr_nth V k l V_incr Hk Hl). unfold pr, pc.
  pose proof (Nat.div_mod (nth k V 0%nat) n ltac:(lia)) as E1. pose proof (Nat.div_mod (nth l V 0%nat) n ltac:(lia)) as E2.
  pose proof (Nat.mod_upper_bound (nth k V 0%nat) n ltac:(lia)). pose proof (Nat.mod_upper_bound (nth l V 0%nat) n ltac:(lia)).
  set (x := nth k V 0%nat) in *. set (y := nth l V 0%nat) in *. set (x1 := (x / n)%nat) in *. set (y1 := (y / n)%nat) in *. set (x2 := (x mod n)%nat) in *. set (y2 := (y mod n)%nat) in *.
  split; intros C.
  - destruct (lt_eq_lt_dec x1 y1) as [[L|E]|L]; [left; exact L|right; split; [exact E|rewrite E in E1; lia]|]. exfalso. nia.
  - destruct C as [L|[E L]]; [nia|]. rewrite E in E1. lia.
Qed.
Lemma far_unique k k' l l' : (k < N)%nat -> (k' < N)%nat -> (l < N)%nat -> (l' < N)%nat -> far k l = true -> far k' l' = true -> ((k < k' <-> l < l') /\ (k = k' <-> l = l'))%nat.
Proof.
  intros Hk Hk' Hl Hl' F F'. unfold far in *. apply andb_true_iff in F, F'. rewrite !Z.eqb_eq in F, F'.
  pose proof (pos_order k k' Hk Hk'). pose proof (pos_order l l' Hl Hl'). pose proof (pos_order k' k Hk' Hk). pose proof (pos_order l' l Hl' Hl). lia.
Qed.
Definition first_list := filter (fun k => existsb (fun l => far k l) (seq 0 N)) (seq 0 N).
Definition second_list := filter (fun l => existsb (fun k => far k l) (seq 0 N)) (seq 0 N).
Definition partner (k : nat) : nat := match find (fun l => far k l) (seq 0 N) with Some l => l | None => 0%nat end.
Lemma partner_spec k : In k first_list -> (k < N)%nat /\ (partner k < N)%nat /\ far k (partner k) = true.
Proof.
  intros H. apply filter_In in H. destruct H as [H1 H2]. apply in_seq in H1. split; [lia|]. unfold partner.
  destruct (find (fun l => far k l) (seq 0 N)) as [l|] eqn:E.
  - apply find_some in E. destruct E as [E1 E2]. apply in_seq in E1. split; [lia|exact E2].
  - apply existsb_exists in H2. destruct H2 as (l & Hl & F). rewrite (find_none _ _ E l Hl) in F. discriminate.
Qed.
Lemma second_partner : second_list = map partner first_list.
Proof.
  apply incr_eq.
  - apply filter_incr, seq_incr.
  - apply map_incr; [apply filter_incr, seq_incr|]. intros x y Hx Hy L. destruct (partner_spec x Hx) as (A1 & A2 & A3). destruct (partner_spec y Hy) as (B1 & B2 & B3).
    apply (far_unique x y (partner x) (partner y)); assumption.
  - intros l. split; intros H.
    + apply filter_In in H. destruct H as [H1 H2]. apply existsb_exists in H2. destruct H2 as (k & Hk & F). apply in_seq in H1, Hk.
      assert (Hf : In k first_list). { apply filter_In. split; [apply in_seq; lia|]. apply existsb_exists. exists l. split; [apply in_seq; lia|exact F]. }
      destruct (partner_spec k Hf) as (A1 & A2 & A3). apply in_map_iff. exists k. split; [|exact Hf].
      apply (far_unique k k (partner k) l); try assumption; try lia.
    + apply in_map_iff in H. destruct H as (k & <- & Hk). destruct (partner_spec k Hk) as (A1 & A2 & A3). apply filter_In. split; [apply in_seq; lia|].
      apply existsb_exists. exists k. split; [apply in_seq; lia|exact A3].
Qed.
Lemma pair_sum (f : nat -> nat -> R) :
  lsum (map (fun p => f (fst p) (snd p)) (combine first_list second_list)) = rsum N (fun k => rsum N (fun l => if far k l then f k l else 0)).
Proof.
  rewrite second_partner.
  assert (E : forall l, map (fun p => f (fst p) (snd p)) (combine l (map partner l)) = map (fun k => f k (partner k)) l).
  { induction l as [|x l IH]; cbn; [reflexivity|]. now rewrite IH. }
  rewrite E. transitivity (rsum N (fun k => if existsb (fun l => far k l) (seq 0 N) then f k (partner k) else 0)).
  - unfold first_list. rewrite <- lsum_seq. apply lsum_filter_if.
  - apply rsum_ext. intros k Hk. destruct (existsb (fun l => far k l) (seq 0 N)) eqn:Ee.
    + assert (Hf : In k first_list) by (apply filter_In; split; [apply in_seq; lia|exact Ee]). destruct (partner_spec k Hf) as (A1 & A2 & A3).
      rewrite (rsum_single N (partner k)); [rewrite A3; reflexivity|exact A2|]. intros l Hl Hne. destruct (far k l) eqn:F; [|reflexivity].
      exfalso. apply Hne. apply (far_unique k k l (partner k)); try assumption; reflexivity.
    + symmetry. apply rsum_zero. intros l Hl. destruct (far k l) eqn:F; [|reflexivity]. assert (existsb (fun l => far k l) (seq 0 N) = true); [|congruence].
      apply existsb_exists. exists l. split; [apply in_seq; lia|exact F].
Qed.
Lemma first_nil : first_list = [] -> rsum N (fun k => rsum N (fun l => if far k l then 1 else 0)) = 0.
Proof. intros H. rewrite <- (pair_sum (fun _ _ => 1)), H. reflexivity. Qed.

(** the lists of the code are these two *)
Lemma indpts_lists i0 j0 : (forall k, In k V -> (i0 <= k / n < n)%nat /\ (j0 <= k mod n < n)%nat) ->
  indpts (Z.of_nat n) (map (fun k => (Z.of_nat (k / n) - Z.of_nat i0 + n1_of (Z.of_nat n), Z.of_nat (k mod n) - Z.of_nat j0 + n1_of (Z.of_nat n))%Z) V) a b = Ok (first_list, second_list).
Proof.
  intros HB. set (nc := (3 * Z.of_nat n)%Z). set (e := fun k => (Z.of_nat (k / n) - Z.of_nat i0 + n1_of (Z.of_nat n), Z.of_nat (k mod n) - Z.of_nat j0 + n1_of (Z.of_nat n))%Z).
  assert (R1 : forall k, In k V -> (1 <= fst (e k) <= nc /\ 1 <= snd (e k) <= nc /\ 1 <= fst (e k) + a <= nc /\ 1 <= snd (e k) + b <= nc)%Z).
  { intros k Hk. destruct (HB k Hk) as [B1 B2]. unfold e, nc. cbn [fst snd]. rewrite n1_val. pose proof (Z.mod_pos_bound (Z.of_nat n) 2 ltac:(lia)). lia. }
  assert (RF : forall x y, (1 <= x <= nc -> 1 <= y <= nc -> 0 <= flat nc (x, y) < nc * nc)%Z).
  { intros x y Hx Hy. unfold flat. cbn [fst snd]. nia. }
  assert (INJ : forall x y x' y', (1 <= x <= nc -> 1 <= y <= nc -> 1 <= x' <= nc -> 1 <= y' <= nc -> (flat nc (x, y) = flat nc (x', y') <-> x = x' /\ y = y'))%Z).
  { intros x y x' y' Hx Hy Hx' Hy'. unfold flat. cbn [fst snd]. split; [|intros [-> ->]; reflexivity]. intros E. assert (y = y')%Z by nia. subst. lia. }
  unfold indpts. fold nc. unfold flats.
  assert (F1 : forallb (fun p => (0 <=? flat nc p) && (flat nc p <? nc * nc))%Z%bool (map e V) = true).
  { apply forallb_forall. intros p Hp. apply in_map_iff in Hp. destruct Hp as (k & <- & Hk). destruct (R1 k Hk) as (A1 & A2 & _).
    rewrite (surjective_pairing (e k)). pose proof (RF _ _ A1 A2). lia. }
  rewrite F1. cbn [bind]. rewrite map_map.
  assert (F2 : forallb (fun p => (0 <=? flat nc p) && (flat nc p <? nc * nc))%Z%bool (map (fun x => (fst (e x) + a, snd (e x) + b)%Z) V) = true).
  { apply forallb_forall. intros p Hp. apply in_map_iff in Hp. destruct Hp as (k & <- & Hk). destruct (R1 k Hk) as (_ & _ & A1 & A2).
    pose proof (RF _ _ A1 A2). lia. }
  rewrite F2. cbn [bind]. rewrite !map_map.
  assert (NE : forall (g : nat -> Z) k, (k < N)%nat -> nth k (map g V) 0%Z = g (nth k V 0%nat)).
  { intros g k Hk. rewrite (nth_indep _ 0%Z (g 0%nat)) by (rewrite map_length; exact Hk). apply map_nth. }
  assert (FAR : forall k l, (k < N)%nat -> (l < N)%nat -> (flat nc (fst (e (nth k V 0%nat)) + a, snd (e (nth k V 0%nat)) + b) = flat nc (e (nth l V 0%nat)))%Z <-> far k l = true).
  { intros k l Hk Hl. destruct (R1 _ (nth_In V 0%nat Hk)) as (_ & _ & A1 & A2). destruct (R1 _ (nth_In V 0%nat Hl)) as (B1 & B2 & _).
    rewrite (surjective_pairing (e (nth l V 0%nat))). rewrite INJ by assumption. unfold far, pr, pc, e. cbn [fst snd]. lia. }
  assert (EX : forall P Q, (forall k, (k < N)%nat -> P k = Q k) -> filter P (seq 0 N) = filter Q (seq 0 N)).
  { intros P Q H. apply filter_ext_in. intros k Hk. apply in_seq in Hk. apply H. lia. }
  unfold hits. rewrite !map_length. fold N. f_equal. f_equal.
  - apply EX. intros k Hk. apply eq_true_iff_eq. rewrite !existsb_exists. rewrite NE by exact Hk. split.
    + intros (z & Hz & Ez). apply Z.eqb_eq in Ez. apply in_map_iff in Hz. destruct Hz as (v & <- & Hv). apply (In_nth V v 0%nat) in Hv. destruct Hv as (l & Hl & <-).
      exists l. split; [apply in_seq; unfold N; lia|]. apply FAR; assumption.
    + intros (l & Hl & F). apply in_seq in Hl. exists (flat nc (e (nth l V 0%nat))). split; [apply in_map_iff; exists (nth l V 0%nat); split; [reflexivity|apply nth_In; unfold N in *; lia]|].
      apply Z.eqb_eq. apply FAR; [exact Hk|lia|exact F].
  - apply EX. intros l Hl. apply eq_true_iff_eq. rewrite !existsb_exists. rewrite NE by exact Hl. split.
    + intros (z & Hz & Ez). apply Z.eqb_eq in Ez. apply in_map_iff in Hz. destruct Hz as (v & <- & Hv). apply (In_nth V v 0%nat) in Hv. destruct Hv as (k & Hk & <-).
      exists k. split; [apply in_seq; unfold N; lia|]. apply FAR; [exact Hk|exact Hl|symmetry; exact Ez].
    + intros (k & Hk & F). apply in_seq in Hk. exists (flat nc (fst (e (nth k V 0%nat)) + a, snd (e (nth k V 0%nat)) + b)%Z). split; [apply in_map_iff; exists (nth k V 0%nat); split; [reflexivity|apply nth_In; unfold N in *; lia]|].
      apply Z.eqb_eq. symmetry. apply FAR; [lia|exact Hl|exact F].
Qed.

Lemma mkotf_pairs C ampl dp : 0 < dp -> (N <= rows C)%nat -> (N <= cols C)%nat -> ampl = repeat 1 N -> (0 < N)%nat ->
  mkotf_val (fun k => k) C ampl dp (first_list, second_list) =
  Ok (rsum N (fun k => rsum N (fun l => if far k l then exp (px C l l + px C k k - 2 * px C k l) else 0)) / INR N).
Proof.
  intros Hdp Hr Hc -> HN. unfold mkotf_val. cbn [fst snd]. rewrite !map_id.
  assert (EA : lsum (map (fun x => Rabs x ^ 2) (repeat 1 N)) = INR N).
  { clear. induction N as [|q IH]; [reflexivity|]. rewrite S_INR. cbn [repeat map lsum fold_right]. unfold lsum in IH. rewrite IH, Rabs_R1. ring. }
  assert (HK : (match first_list with
    | [] => Ok 0
    | _ => if negb (length first_list =? length second_list)%nat then Err ValueError
           else if negb (forallb (fun k => (k <? rows C)%nat && (k <? cols C)%nat && (k <? length (repeat 1%R N))%nat) (first_list ++ second_list))%bool then Err IndexError
           else Ok (lsum (map (fun p => exp (px C (snd p) (snd p)) * exp (px C (fst p) (fst p)) * exp (- 2 * px C (fst p) (snd p))
                                   * (nth (snd p) (repeat 1 N) 0 * nth (fst p) (repeat 1 N) 0)) (combine first_list second_list)))
    end : result R) = Ok (rsum N (fun k => rsum N (fun l => if far k l then exp (px C l l + px C k k - 2 * px C k l) else 0)))).
  { assert (EL : length first_list = length second_list) by (rewrite second_partner, map_length; reflexivity).
    assert (EF : forallb (fun k => (k <? rows C)%nat && (k <? cols C)%nat && (k <? length (repeat 1%R N))%nat)%bool (first_list ++ second_list) = true).
    { apply forallb_forall. intros k Hk. assert (k < N)%nat by (apply in_app_or in Hk; destruct Hk as [Hk|Hk]; apply filter_In in Hk; destruct Hk as [Hk _]; apply in_seq in Hk; lia).
      rewrite repeat_length. lia. }
    assert (ES : lsum (map (fun p => exp (px C (snd p) (snd p)) * exp (px C (fst p) (fst p)) * exp (- 2 * px C (fst p) (snd p))
                                   * (nth (snd p) (repeat 1 N) 0 * nth (fst p) (repeat 1 N) 0)) (combine first_list second_list)) =
                 rsum N (fun k => rsum N (fun l => if far k l then exp (px C l l + px C k k - 2 * px C k l) else 0))).
    { rewrite (pair_sum (fun k l => exp (px C l l) * exp (px C k k) * exp (- 2 * px C k l) * (nth l (repeat 1 N) 0 * nth k (repeat 1 N) 0))).
      apply rsum_ext. intros k Hk. apply rsum_ext. intros l Hl. destruct (far k l); [|reflexivity].
      assert (R1 : forall q, (q < N)%nat -> nth q (repeat 1 N) 0 = 1).
      { intros q Hq. assert (In (nth q (repeat 1 N) 0) (repeat 1 N)) by (apply nth_In; rewrite repeat_length; exact Hq). apply repeat_spec in H. exact H. }
      rewrite !R1 by assumption. rewrite <- !exp_plus. rewrite !Rmult_1_r. f_equal. ring. }
    rewrite EL, Nat.eqb_refl, EF, ES. cbn [negb].
    destruct first_list eqn:E1; [|reflexivity]. f_equal. rewrite <- ES. cbn. reflexivity. }
  rewrite HK. cbn [bind]. rewrite EA. unfold rdiv.
  assert (HNR : 0 < INR N) by (apply lt_0_INR, HN). assert (Hd2 : 0 < dp ^ 2) by (apply pow_lt, Hdp).
  destruct (Req_EM_T (INR N * dp ^ 2) 0) as [E|_]; [assert (0 < INR N * dp ^ 2) by (apply Rmult_lt_0_compat; assumption); lra|].
  f_equal. field. split; lra.
Qed.
End PAIRS.

(** ** the OTF *)
Lemma mapM_tab {A} (f : nat -> result A) (g : nat -> A) n : (forall k, (k < n)%nat -> f k = Ok (g k)) -> mapM_seq f n = Ok (map g (seq 0 n)).
Proof.
  intros H. unfold mapM_seq. assert (G : forall m s, (s + m <= n)%nat -> M_Psf.mapM f (seq s m) = Ok (map g (seq s m))); [|apply G; lia].
  induction m as [|m IH]; intros s Hs; [reflexivity|]. cbn [seq M_Psf.mapM map]. rewrite H by lia. cbn [bind]. rewrite IH by lia. reflexivity.
Qed.
Lemma nth_tab {A} (g : nat -> A) n k d : (k < n)%nat -> nth k (map g (seq 0 n)) d = g k.
Proof. intros H. rewrite (nth_indep _ d (g 0%nat)) by (rewrite map_length, seq_length; exact H). rewrite map_nth, seq_nth by exact H. reflexivity. Qed.

(** C112: each value is the mean over the actuators of exp(-D/2) between the actuators at that lag; the array is 2n x 2n with the zero lag at (n, n).
    The lag along the rows of actuators varies along the COLUMNS of the OTF (the OTF is transposed). *)
Theorem C112_value : forall n dp valid C, (1 <= n)%nat -> 0 < dp -> (0 < length (actuators n valid))%nat ->
  (length (actuators n valid) <= rows C)%nat -> (length (actuators n valid) <= cols C)%nat ->
  exists g, zonal_grid C (INR (n - 1) * dp) dp (Some valid) = Ok g /\ rows g = (2 * n)%nat /\ cols g = (2 * n)%nat /\
    forall r c, (r < 2 * n)%nat -> (c < 2 * n)%nat -> px g r c = mean_otf n valid C (Z.of_nat c - Z.of_nat n) (Z.of_nat r - Z.of_nat n).
Proof.
  intros n dp valid C Hn Hd HN Hr Hc. rewrite actuators_len in HN, Hr, Hc. set (V := valid_flat n valid) in *. set (N := length V) in *.
  assert (HV : valid_flat n valid <> []) by (fold V; destruct V; [cbn in HN; unfold N in HN; cbn in HN; lia|discriminate]).
  destruct (embed_grid n dp valid Hn Hd HV) as (i0 & j0 & HB & HE).
  set (D := INR (n - 1) * dp) in *. set (val := fun a b => mean_otf n valid C a b).
  unfold zonal_grid. cbv zeta. assert (EPh : ZnearestE (D / dp + 1) = Z.of_nat n) by apply (nPh_grid n dp Hn Hd). rewrite EPh. rewrite HE. cbn [bind].
  replace (Z.to_nat (2 * Z.of_nat n)) with (2 * n)%nat by lia.
  assert (EL : length (pointWiseLocation D dp (Some valid)) = N).
  { unfold pointWiseLocation, D. rewrite npts_grid by assumption. rewrite map_length. reflexivity. }
  rewrite EL.
  rewrite (mapM_tab _ (fun r => map (fun c => val (Z.of_nat c - Z.of_nat n)%Z (Z.of_nat r - Z.of_nat n)%Z) (seq 0 (2 * n)))).
  2:{ intros r Hr'. apply mapM_tab. intros c Hc'. rewrite (indpts_lists n valid); [|exact Hn|lia|lia|exact HB]. cbn [bind].
      rewrite (mkotf_pairs n valid (Z.of_nat c - Z.of_nat n) (Z.of_nat r - Z.of_nat n) Hn); [|lia|exact Hd|exact Hr|exact Hc|reflexivity|exact HN].
      unfold val, mean_otf. cbv zeta. rewrite actuators_len. fold V N. do 2 f_equal. apply rsum_ext. intros k Hk. apply rsum_ext. intros l Hl.
      rewrite !position_flat by assumption. unfold apart. cbn [fst snd]. fold V. destruct (_ && _)%bool; [|reflexivity]. f_equal. cbn [img_map px]. unfold Dphi. field. }
  cbn [bind]. eexists. split; [reflexivity|]. cbn [rows cols px]. split; [reflexivity|]. split; [reflexivity|]. intros r c Hr' Hc'.
  rewrite nth_tab by exact Hr'. rewrite nth_tab by exact Hc'. reflexivity.
Qed.
Print Assumptions C112_value.

(** consequences on the specification *)
Lemma apart_zero n valid k l : (k < length (actuators n valid))%nat -> (l < length (actuators n valid))%nat ->
  apart (position n valid k) (position n valid l) 0 0 = true <-> k = l.
Proof.
  rewrite actuators_len. intros Hk Hl. rewrite !position_flat by assumption. unfold apart. cbn [fst snd]. split.
  - intros H. apply andb_true_iff in H. rewrite !Z.eqb_eq in H. 
    assert (Hin : In (nth k (valid_flat n valid) 0%nat) (valid_flat n valid)) by (apply nth_In, Hk). destruct (valid_flat_in _ _ _ Hin) as (Hn & _ & _).
    assert (E : nth k (valid_flat n valid) 0%nat = nth l (valid_flat n valid) 0%nat).
    { rewrite (Nat.div_mod (nth k (valid_flat n valid) 0%nat) n) by lia. rewrite (Nat.div_mod (nth l (valid_flat n valid) 0%nat) n) by lia.
      assert (E1 : (nth k (valid_flat n valid) 0 / n = nth l (valid_flat n valid) 0 / n)%nat) by lia.
      assert (E2 : (nth k (valid_flat n valid) 0 mod n = nth l (valid_flat n valid) 0 mod n)%nat) by lia. rewrite E1, E2. reflexivity. }
    pose proof (V_incr n valid) as S. pose proof (incr_nth _ k l S Hk Hl). pose proof (incr_nth _ l k S Hl Hk). lia.
  - intros ->. rewrite !Z.add_0_r, !Z.eqb_refl. reflexivity.
Qed.
Lemma apart_unique n valid k l l' a b : (k < length (actuators n valid))%nat -> (l < length (actuators n valid))%nat -> (l' < length (actuators n valid))%nat ->
  apart (position n valid k) (position n valid l) a b = true -> apart (position n valid k) (position n valid l') a b = true -> l = l'.
Proof.
  intros Hk Hl Hl' H H'. apply (apart_zero n valid l l' Hl Hl'). unfold apart in *. apply andb_true_iff in H, H'. rewrite !Z.eqb_eq in H, H'. lia.
Qed.
Lemma mean_zero n valid C : (0 < length (actuators n valid))%nat -> mean_otf n valid C 0 0 = 1.
Proof.
  intros HN. unfold mean_otf. cbv zeta. set (N := length (actuators n valid)) in *. 
  rewrite (rsum_ext N _ (fun _ => 1)).
  - rewrite rsum_const. field. apply not_0_INR. lia.
  - intros k Hk. rewrite (rsum_single N k); [|exact Hk|].
    + destruct (apart _ _ 0 0) eqn:E; [|rewrite (proj2 (apart_zero n valid k k Hk Hk) eq_refl) in E; discriminate].
      unfold Dphi. replace (- (px C k k + px C k k - 2 * px C k k) / 2) with 0 by field. apply exp_0.
    + intros l Hl Hne. destruct (apart _ _ 0 0) eqn:E; [|reflexivity]. apply (apart_zero n valid k l Hk Hl) in E. congruence.
Qed.
Lemma mean_nonneg n valid C a b : 0 <= mean_otf n valid C a b.
Proof.
  unfold mean_otf. cbv zeta. unfold Rdiv. apply Rmult_le_pos.
  - apply rsum_nonneg. intros k _. apply rsum_nonneg. intros l _. destruct (apart _ _ a b); [left; apply exp_pos|lra].
  - destruct (Nat.eq_dec (length (actuators n valid)) 0) as [->|H]; [cbn; rewrite Rinv_0; lra|]. left. apply Rinv_0_lt_compat, lt_0_INR. lia.
Qed.
Lemma mean_le1 n valid C a b : (0 < length (actuators n valid))%nat -> 
  (forall k l, (k < length (actuators n valid))%nat -> (l < length (actuators n valid))%nat -> 0 <= Dphi C k l) -> mean_otf n valid C a b <= 1.
Proof.
  intros HN HD. unfold mean_otf. cbv zeta. set (N := length (actuators n valid)) in *. assert (HR : 0 < INR N) by (apply lt_0_INR, HN).
  apply Rmult_le_reg_r with (INR N); [exact HR|]. unfold Rdiv. rewrite Rmult_assoc, Rinv_l by lra. rewrite Rmult_1_r, Rmult_1_l.
  rewrite <- (Rmult_1_r (INR N)). rewrite <- rsum_const. apply rsum_le. intros k Hk.
  destruct (existsb (fun l => apart (position n valid k) (position n valid l) a b) (seq 0 N)) eqn:Ee.
  - apply existsb_exists in Ee. destruct Ee as (l & Hl & E). apply in_seq in Hl. rewrite (rsum_single N l); [|lia|].
    + cbv beta; rewrite E; cbv beta iota. assert (P : 0 <= Dphi C k l) by (apply HD; [exact Hk|lia]). assert (X : - Dphi C k l / 2 <= 0) by lra. pose proof exp_0 as E0. destruct X as [X|X]; [apply exp_increasing in X; rewrite E0 in X; apply Rlt_le, X|unfold Rdiv in X; rewrite X, E0; lra].
    + intros l' Hl' Hne. destruct (apart (position n valid k) (position n valid l') a b) eqn:E'; [|reflexivity]. exfalso. apply Hne.
      apply (apart_unique n valid k l' l a b); try assumption. fold N. lia.
  - rewrite rsum_zero; [lra|]. intros l Hl. destruct (apart _ _ a b) eqn:E'; [|reflexivity].
    assert (existsb (fun l => apart (position n valid k) (position n valid l) a b) (seq 0 N) = true); [|congruence].
    apply existsb_exists. exists l. split; [apply in_seq; lia|exact E'].
Qed.

(** C112: when the structure function is non-negative (any covariance matrix), the returned OTF of 2n x 2n points is these values, lies in [0,1], is 1 at
    the zero lag; it is 0 on its first row and column. *)
Theorem C112_otf : forall interp n dp valid C, (1 <= n)%nat -> 0 < dp -> (0 < length (actuators n valid))%nat ->
  (length (actuators n valid) <= rows C)%nat -> (length (actuators n valid) <= cols C)%nat ->
  (forall k l, (k < length (actuators n valid))%nat -> (l < length (actuators n valid))%nat -> 0 <= Dphi C k l) ->
  exists o, zonalCovarianceToOtf interp C (2 * n) (INR (n - 1) * dp) dp (Some valid) = Ok o /\ rows o = (2 * n)%nat /\ cols o = (2 * n)%nat /\
    (forall r c, (r < 2 * n)%nat -> (c < 2 * n)%nat -> px o r c = mean_otf n valid C (Z.of_nat c - Z.of_nat n) (Z.of_nat r - Z.of_nat n) /\ 0 <= px o r c <= 1) /\
    px o n n = 1 /\ (forall r c, (r < 2 * n)%nat -> (c < 2 * n)%nat -> r = 0%nat \/ c = 0%nat -> px o r c = 0).
Proof.
  intros interp n dp valid C Hn Hd HN Hr Hc HD. destruct (C112_value n dp valid C Hn Hd HN Hr Hc) as (g & Hg & G1 & G2 & G3).
  unfold zonalCovarianceToOtf. rewrite Hg. cbn [bind]. unfold interpolateTo. rewrite G1, G2, Nat.eqb_refl. cbn [andb].
  assert (GC : px g n n = 1). { rewrite G3 by lia. rewrite !Z.sub_diag. apply mean_zero, HN. }
  assert (GM : img_max g = Ok 1).
  { apply (img_max_at g 1 n n); [lia|lia|exact GC|]. intros i j Hi Hj. rewrite G1 in Hi. rewrite G2 in Hj. rewrite G3 by assumption. apply mean_le1; assumption. }
  rewrite GM. cbn [bind]. destruct (Req_EM_T 1 0) as [|_]; [lra|]. eexists. split; [reflexivity|]. cbn [img_map rows cols px].
  split; [exact G1|]. split; [exact G2|]. split; [|split].
  - intros r c Hr' Hc'. unfold Rdiv. rewrite Rinv_1, Rmult_1_r, G3 by assumption. split; [reflexivity|]. split; [apply mean_nonneg|apply mean_le1; assumption].
  - rewrite GC. field.
  - intros r c Hr' Hc' Hz. unfold Rdiv. rewrite Rinv_1, Rmult_1_r, G3 by assumption. unfold mean_otf. cbv zeta. unfold Rdiv. apply Rmult_eq_0_compat_r.
    apply rsum_zero. intros k Hk. apply rsum_zero. intros l Hl. destruct (apart _ _ _ _) eqn:E; [|reflexivity]. exfalso.
    rewrite actuators_len in Hk, Hl. rewrite !position_flat in E by assumption. unfold apart in E. apply andb_true_iff in E. rewrite !Z.eqb_eq in E. cbn [fst snd] in E.
    destruct (valid_flat_in n valid _ (nth_In _ 0%nat Hk)) as (_ & A1 & A2). revert E A1 A2 Hz; generalize (nth k (valid_flat n valid) 0 / n)%nat (nth k (valid_flat n valid) 0 mod n)%nat (nth l (valid_flat n valid) 0 / n)%nat (nth l (valid_flat n valid) 0 mod n)%nat; clear; intros; lia.
Qed.
Print Assumptions C112_otf.

(** C112: central symmetry for a symmetric covariance, and no effect of piston (a constant added to the covariance). *)
Theorem C112_symmetric : forall n valid C a b, (forall k l, px C k l = px C l k) -> mean_otf n valid C (- a) (- b) = mean_otf n valid C a b.
Proof.
  intros n valid C a b HS. unfold mean_otf. cbv zeta. f_equal. rewrite rsum_swap. apply rsum_ext. intros k _. apply rsum_ext. intros l _.
  replace (apart (position n valid l) (position n valid k) (- a) (- b)) with (apart (position n valid k) (position n valid l) a b).
  - destruct (apart _ _ a b); [|reflexivity]. unfold Dphi. rewrite (HS l k). do 2 f_equal. ring.
  - unfold apart. apply eq_true_iff_eq. rewrite !andb_true_iff, !Z.eqb_eq. lia.
Qed.
Theorem C112_piston : forall n valid C p a b, mean_otf n valid (img_map (fun x => x + p) C) a b = mean_otf n valid C a b.
Proof.
  intros. unfold mean_otf. cbv zeta. f_equal. apply rsum_ext. intros k _. apply rsum_ext. intros l _. destruct (apart _ _ a b); [|reflexivity].
  unfold Dphi. cbn [img_map px]. do 2 f_equal. ring.
Qed.
Example ex_zonal : forall interp, exists o, zonalCovarianceToOtf interp (mkImg 3 3 (fun i j => if (i =? j)%nat then 1 else 0)) 4 (INR (2 - 1) * 2) 2 (Some (fun i j => negb (i + j =? 2)%nat)) = Ok o /\ px o 2 3 = / 3 * exp (-1).
Proof.
  intros interp. 
  destruct (C112_otf interp 2 2 (fun i j => negb (i + j =? 2)%nat) (mkImg 3 3 (fun i j => if (i =? j)%nat then 1 else 0))) as (o & H1 & H2 & H3 & H4 & H5 & _); try (cbn; lia); try lra.
  - intros k l _ _. unfold Dphi. cbn [px]. rewrite !Nat.eqb_refl. destruct (k =? l)%nat; lra.
  - exists o. split; [exact H1|]. rewrite (proj1 (H4 2%nat 3%nat ltac:(lia) ltac:(lia))). unfold mean_otf. cbv zeta.
    change (length (actuators 2 (fun i j => negb (i + j =? 2)%nat))) with 3%nat. cbn -[Dphi exp]. unfold Dphi. cbn -[exp].
    replace (- (1 + 1 - 2 * 0) / 2) with (-1) by field. unfold position. cbn -[exp]. field_simplify; try lra.
Qed.

(** Finding: without a mask the arrays of positions are two-dimensional and only the row of each point is used: the covariances of all actuators beyond the
    n first ones (n: actuators across) have no effect on the OTF. *)
Theorem C112_no_mask_refuted : forall n dp C C', (1 <= n)%nat -> 0 < dp -> rows C = rows C' -> cols C = cols C' ->
  (forall k l, (k < n)%nat -> (l < n)%nat -> px C k l = px C' k l) ->
  forall interp npsf, zonalCovarianceToOtf interp C npsf (INR (n - 1) * dp) dp None = zonalCovarianceToOtf interp C' npsf (INR (n - 1) * dp) dp None.
Proof.
  intros n dp C C' Hn Hd ER EC HP interp npsf. unfold zonalCovarianceToOtf.
  assert (E : zonal_grid C (INR (n - 1) * dp) dp None = zonal_grid C' (INR (n - 1) * dp) dp None); [|rewrite E; reflexivity].
  unfold zonal_grid. cbv zeta. rewrite ER. rewrite (npts_grid n dp Hn Hd). set (loc := pointWiseLocation _ _ None).
  assert (LL : (length loc = n * n)%nat).
  { unfold loc, pointWiseLocation. rewrite (npts_grid n dp Hn Hd), map_length. unfold valid_flat.
    assert (FT : forall l : list nat, filter (fun _ => true) l = l) by (induction l as [|x l IH]; cbn; [reflexivity|now rewrite IH]). rewrite FT. apply seq_length. }
  destruct (embed _ dp loc) as [loc2|] eqn:EE; cbn [bind]; [|reflexivity].
  assert (L2 : length loc2 = (n * n)%nat). { unfold embed in EE. destruct loc as [|p r]; [discriminate|]. apply Ok_inj in EE. subst loc2. rewrite map_length. exact LL. }
  assert (MV : forall ij, (forall k, In k (fst ij) -> (k < n * n)%nat) -> (forall k, In k (snd ij) -> (k < n * n)%nat) -> forall ampl,
     mkotf_val (fun k => (k / n)%nat) (img_map (fun x => - (1 / 2) * x) C) ampl dp ij = mkotf_val (fun k => (k / n)%nat) (img_map (fun x => - (1 / 2) * x) C') ampl dp ij).
  { intros [i1 i2] H1 H2 ampl. cbn [fst snd] in *. unfold mkotf_val. cbn [fst snd img_map rows cols px]. rewrite ER, EC.
    set (m1 := map (fun k => (k / n)%nat) i1). set (m2 := map (fun k => (k / n)%nat) i2).
    assert (B1 : forall k, In k m1 -> (k < n)%nat). { intros k Hk. apply in_map_iff in Hk. destruct Hk as (q & <- & Hq). apply Nat.div_lt_upper_bound; [lia|]. apply H1, Hq. }
    assert (B2 : forall k, In k m2 -> (k < n)%nat). { intros k Hk. apply in_map_iff in Hk. destruct Hk as (q & <- & Hq). apply Nat.div_lt_upper_bound; [lia|]. apply H2, Hq. }
    f_equal. destruct m1 as [|x m1']; [reflexivity|]. destruct (negb (length (x :: m1') =? length m2)%nat); [reflexivity|]. destruct (negb _); [reflexivity|]. do 2 f_equal.
    apply map_ext_in. intros [k l] Hkl. cbn [fst snd]. assert (k < n)%nat by (apply B1; apply (in_combine_l _ _ _ _ Hkl)). assert (l < n)%nat by (apply B2; apply (in_combine_r _ _ _ _ Hkl)).
    rewrite !HP by assumption. reflexivity. }
  assert (EX : forall r c, (do ij <- indpts (ZnearestE (INR (n - 1) * dp / dp + 1)) loc2 (Z.of_nat c - ZnearestE (INR (n - 1) * dp / dp + 1)) (Z.of_nat r - ZnearestE (INR (n - 1) * dp / dp + 1));
       mkotf_val (fun k => (k / n)%nat) (img_map (fun x => - (1 / 2) * x) C) (repeat 1 (rows C')) dp ij) =
     (do ij <- indpts (ZnearestE (INR (n - 1) * dp / dp + 1)) loc2 (Z.of_nat c - ZnearestE (INR (n - 1) * dp / dp + 1)) (Z.of_nat r - ZnearestE (INR (n - 1) * dp / dp + 1));
       mkotf_val (fun k => (k / n)%nat) (img_map (fun x => - (1 / 2) * x) C') (repeat 1 (rows C')) dp ij)).
  { intros r c. unfold indpts. unfold flats. destruct (forallb _ loc2); cbn [bind]; [|reflexivity]. destruct (forallb _ (map _ loc2)); cbn [bind]; [|reflexivity].
    apply MV; cbn [fst snd]; intros k Hk; unfold hits in Hk; apply filter_In in Hk; destruct Hk as [Hk _]; apply in_seq in Hk; rewrite !map_length, L2 in Hk; lia. }
  f_equal. unfold mapM_seq.
  assert (EXT : forall (A : Type) (f g : nat -> result A) l, (forall x, f x = g x) -> M_Psf.mapM f l = M_Psf.mapM g l).
  { intros A f g l H. induction l as [|x l IH]; cbn; [reflexivity|]. rewrite H, IH. reflexivity. }
  apply EXT. intros r. apply EXT. intros c. apply EX.
Qed.
Print Assumptions C112_no_mask_refuted.

Print Assumptions C112_symmetric.
Print Assumptions C112_piston.
