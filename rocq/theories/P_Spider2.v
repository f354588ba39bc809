(** C99 (continued): corollaries, refused and surprising uses of the spider mask. *)
From Coq Require Import Reals List Arith ZArith Lia Lra Psatz Bool.
From Coq Require Import ZifyBool ZifyNat.
From Verif Require Import Base_Py Base_Sum M_Image M_Pupil M_Tel M_Spider L_Fit P_Spider.
Import ListNotations.
Open Scope R_scope.

Lemma point_bound D n i : 0 < D -> (2 <= n)%nat -> (i < n)%nat -> - (D / 2) <= point D n i <= D / 2.
Proof.
  intros HD Hn Hi. unfold point. assert (Hp : 0 < INR (n - 1)) by (apply lt_0_INR; lia).
  assert (0 <= INR i / INR (n - 1)) by (apply Rmult_le_pos; [apply pos_INR|left; apply Rinv_0_lt_compat; assumption]).
  assert (INR i / INR (n - 1) <= 1).
  { apply (Rmult_le_reg_r (INR (n - 1))); [assumption|]. unfold Rdiv. rewrite Rmult_assoc, Rinv_l, Rmult_1_r, Rmult_1_l by lra. apply le_INR; lia. }
  nra.
Qed.
Lemma shrink_wide D w : 0 < D -> 0 < w < 2 * D -> / 2 < shrink D w ^ 2 /\ shrink D w < 1.
Proof.
  intros HD Hw. unfold shrink. assert (Q : 0 < w / (2 * D) < 1).
  { split; [apply Rdiv_lt_0_compat; lra|]. apply (Rmult_lt_reg_r (2 * D)); [lra|]. unfold Rdiv. rewrite Rmult_assoc, Rinv_l by lra. lra. }
  set (t := w / (2 * D)) in *. assert (0 < t ^ 2 < 1) by nra.
  assert (S : sqrt (1 + t ^ 2) ^ 2 = 1 + t ^ 2) by (rewrite <- Rsqr_pow2; apply Rsqr_sqrt; lra).
  assert (1 < sqrt (1 + t ^ 2)) by (rewrite <- sqrt_1 at 1; apply sqrt_lt_1; lra).
  split.
  - replace ((/ sqrt (1 + t ^ 2)) ^ 2) with (/ (sqrt (1 + t ^ 2) ^ 2)) by (field; lra). rewrite S. apply Rinv_lt_contravar; lra.
  - apply Rlt_le_trans with (/ 1); [apply Rinv_lt_contravar; lra|rewrite Rinv_1; lra].
Qed.
Lemma along_bound a x y D : 0 < D -> - (D / 2) <= x <= D / 2 -> - (D / 2) <= y <= D / 2 -> along a 0 0 x y ^ 2 <= D ^ 2 / 2.
Proof.
  intros HD Hx Hy. pose proof (sc2 a) as S. assert (along a 0 0 x y ^ 2 + across a 0 0 x y ^ 2 = x ^ 2 + y ^ 2).
  { unfold along, across. transitivity ((x ^ 2 + y ^ 2) * (cos a * cos a + sin a * sin a)); [ring|rewrite S; ring]. }
  assert (0 <= across a 0 0 x y ^ 2) by apply pow2_ge_0. assert (x ^ 2 <= (D / 2) ^ 2) by nra. assert (y ^ 2 <= (D / 2) ^ 2) by nra. lra.
Qed.
(** Spiders through the centre (symmetric, no origins): the whole band of pixels closer to one of the axes than the half
    width is dark over the whole array; with no pupil mask, every other pixel (off the edges of the bands) is transmitting. *)
Theorem C99_symmetric : forall poly angles w D cobs n, polygon_test poly -> 0 < D -> (2 <= n)%nat -> D / INR n <= w < 2 * D ->
  exists s m, new_spider poly angles w (CoorList []) D cobs false true n = Ok s /\ sp_matrix s = Some m /\
  forall i j, (i < n)%nat -> (j < n)%nat ->
    let dist a := Rabs (point D n i * cos (a * PI / 180) - point D n j * sin (a * PI / 180)) in
    ((exists a, In a angles /\ dist a < half_width D w) -> px m i j = 0) /\
    ((forall a, In a angles -> half_width D w < dist a) -> px m i j = 1).
Proof.
  intros poly angles w D cobs n HP HD Hn [Hw1 Hw2]. assert (HN : 0 < INR n) by (apply lt_0_INR; lia).
  assert (Hr : 0 < D / INR n) by (apply Rdiv_lt_0_compat; lra).
  destruct (C99_mask poly angles w [] D cobs false true n HP HD Hn Hw1 (or_introl eq_refl)) as (s & m & E1 & E2 & _ & _ & F).
  exists s, m. split; [exact E1|]. split; [exact E2|]. intros i j Hi Hj dist. destruct (F i j Hi Hj) as [_ [F1 F2]].
  assert (O : forall k, nth k (origins angles []) (0, 0) = (0, 0)).
  { intros k. cbn [origins]. change (0, 0) with ((fun _ : R => (0, 0)) 0) at 2. rewrite map_nth. reflexivity. }
  assert (AC : forall a, across (a * PI / 180) 0 0 (point D n j) (point D n i) = point D n i * cos (a * PI / 180) - point D n j * sin (a * PI / 180)) by (intros a; unfold across; ring).
  destruct (shrink_wide D w HD ltac:(lra)) as [S1 S2]. pose proof (shrink_pos D w) as S0.
  assert (AL : forall a, - D * shrink D w < along a 0 0 (point D n j) (point D n i) < D * shrink D w).
  { intros a. pose proof (along_bound a (point D n j) (point D n i) D HD (point_bound D n j HD Hn Hj) (point_bound D n i HD Hn Hi)) as B.
    set (al := along a 0 0 (point D n j) (point D n i)) in *.
    assert (al ^ 2 < (D * shrink D w) ^ 2).
    { replace ((D * shrink D w) ^ 2) with (D ^ 2 * shrink D w ^ 2) by ring. assert (0 < D ^ 2) by (apply pow_lt; assumption).
      assert (D ^ 2 * / 2 < D ^ 2 * shrink D w ^ 2) by (apply Rmult_lt_compat_l; lra). lra. }
    assert (0 < D * shrink D w) by (apply Rmult_lt_0_compat; lra). split; nra. }
  split.
  - intros [a [Ha Hd]]. apply F1. destruct (In_nth _ _ 0 Ha) as [k [Hk Ek]]. exists k. split; [exact Hk|]. rewrite O, Ek. unfold covered. cbn [fst snd reach].
    rewrite AC. split; [exact Hd|]. apply AL.
  - intros H. apply F2; [|discriminate]. intros k Hk. rewrite O. left. cbn [fst snd]. rewrite AC. apply H. apply nth_In. exact Hk.
Qed.
(** Spiders that are not symmetric extend from their origin AWAY from their direction: no pixel in front of the origin, in the
    half plane of the direction asked for, is dark. *)
Theorem C99_direction_refuted : forall poly a w c D cobs n, polygon_test poly -> 0 < D -> (2 <= n)%nat -> D / INR n <= w < 2 * D ->
  exists s m, new_spider poly [a] w (CoorList [c]) D cobs false false n = Ok s /\ sp_matrix s = Some m /\
  forall i j, (i < n)%nat -> (j < n)%nat ->
    let fwd := (point D n j - fst c) * cos (a * PI / 180) + (point D n i - snd c) * sin (a * PI / 180) in
    let off := (point D n i - snd c) * cos (a * PI / 180) - (point D n j - fst c) * sin (a * PI / 180) in
    (0 <= fwd -> px m i j = 1) /\ (- D < fwd < - (D - D * shrink D w) -> Rabs off < half_width D w -> px m i j = 0).
Proof.
  intros poly a w c D cobs n HP HD Hn [Hw1 Hw2]. assert (HN : 0 < INR n) by (apply lt_0_INR; lia).
  assert (Hr : 0 < D / INR n) by (apply Rdiv_lt_0_compat; lra).
  destruct (C99_mask poly [a] w [c] D cobs false false n HP HD Hn Hw1 (or_intror eq_refl)) as (s & m & E1 & E2 & _ & _ & F).
  exists s, m. split; [exact E1|]. split; [exact E2|]. intros i j Hi Hj fwd off. destruct (F i j Hi Hj) as [_ [F1 F2]].
  destruct (shrink_wide D w HD ltac:(lra)) as [S1 S2]. pose proof (shrink_pos D w) as S0.
  assert (D * shrink D w < D * 1) by (apply Rmult_lt_compat_l; lra). assert (0 < D * shrink D w) by (apply Rmult_lt_0_compat; lra).
  split.
  - intros H1. apply F2; [|discriminate]. intros k Hk. cbn [length] in Hk. assert (k = 0)%nat by lia. subst k. cbn [nth origins]. right. right. unfold along. fold fwd. cbn [reach snd]. lra.
  - intros H1 H2. apply F1. exists 0%nat. split; [cbn; lia|]. cbn [nth origins]. unfold covered, across, along. fold fwd off. split; [exact H2|]. cbn [reach fst snd]. lra.
Qed.
(** Spiders thinner than a pixel: the mask is transparent everywhere, even if the pupil mask was requested. *)
Theorem C99_thin : forall poly angles w l D cobs msk sym n, 0 < D -> (1 <= n)%nat -> w < D / INR n ->
  (l = [] \/ length l = length angles) ->
  exists s m, new_spider poly angles w (CoorList l) D cobs msk sym n = Ok s /\ sp_matrix s = Some m /\ rows m = n /\ cols m = n /\ forall i j, px m i j = 1.
Proof.
  intros poly angles w l D cobs msk sym n HD Hn Hw Hl. assert (HN : 0 < INR n) by (apply lt_0_INR; lia).
  assert (Hr : 0 < D / INR n) by (apply Rdiv_lt_0_compat; lra).
  pose proof (origins_length angles l Hl) as HO. unfold new_spider. cbv zeta. rewrite map_length.
  assert (OE : length (match l with [] => map (fun _ => (0, 0)) (map (fun a => a * PI / 180) angles) | _ => l end) = length angles).
  { rewrite <- HO. unfold origins. destruct l; [rewrite !map_length; reflexivity|reflexivity]. }
  rewrite OE, Nat.eqb_refl. cbn [negb]. destruct (Nat.eqb_spec n 0); [lia|].
  unfold make_spider. cbn [sp_n sp_angles sp_width sp_coor sp_D sp_cobs sp_msk sp_sym]. cbv zeta.
  destruct (Nat.eqb_spec n 0); [lia|]. destruct (Req_EM_T (D / INR n) 0); [lra|].
  destruct (Rlt_dec (w / (D / INR n)) 1) as [Hlt|Hlt].
  - eexists. eexists. split; [reflexivity|]. repeat split; reflexivity.
  - exfalso. apply Hlt. apply (Rmult_lt_reg_r (D / INR n)); [assumption|]. replace (w / (D / INR n) * (D / INR n)) with w by (field; lra). lra.
Qed.
(** The number of origins must be that of the angles: otherwise there is no mask. *)
Theorem C99_mismatch : forall poly angles w l D cobs msk sym n, l <> [] -> length l <> length angles ->
  exists s, new_spider poly angles w (CoorList l) D cobs msk sym n = Ok s /\ sp_matrix s = None.
Proof.
  intros poly angles w l D cobs msk sym n Hl Hn. unfold new_spider. cbv zeta. rewrite map_length. destruct l as [|x l]; [congruence|].
  destruct (Nat.eqb_spec (length (x :: l)) (length angles)); [congruence|]. cbn [negb]. eexists. split; reflexivity.
Qed.
(** Deferred resolution, the way the segmented pupil uses the object: built without a resolution, then asked for n pixels.
    Without origins the result is that of the direct construction; with explicit origins the mask has NO spider. *)
Theorem C99_deferred : forall poly angles w D cobs msk sym n, (1 <= n)%nat ->
  exists s0, new_spider poly angles w (CoorList []) D cobs msk sym 0 = Ok s0 /\
  make_spider poly s0 n = new_spider poly angles w (CoorList []) D cobs msk sym n.
Proof.
  intros poly angles w D cobs msk sym n Hn. unfold new_spider. cbv zeta. rewrite !map_length, Nat.eqb_refl. cbn [negb Nat.eqb].
  destruct (Nat.eqb_spec n 0); [lia|]. eexists. split; [reflexivity|]. reflexivity.
Qed.
Theorem C99_deferred_refuted : forall poly angles w l D cobs sym n, 0 < D -> (1 <= n)%nat -> l <> [] -> length l = length angles ->
  exists s0 s m, new_spider poly angles w (CoorList l) D cobs false sym 0 = Ok s0 /\ sp_matrix s0 = None /\
  make_spider poly s0 n = Ok s /\ sp_matrix s = Some m /\ forall i j, px m i j = 1.
Proof.
  intros poly angles w l D cobs sym n HD Hn Hl Hlen. assert (HN : 0 < INR n) by (apply lt_0_INR; lia).
  assert (Hr : 0 < D / INR n) by (apply Rdiv_lt_0_compat; lra).
  unfold new_spider. cbv zeta. rewrite map_length. destruct l as [|x l]; [congruence|]. rewrite Hlen, Nat.eqb_refl. cbn [negb Nat.eqb].
  match goal with |- exists s0 s m, Ok ?t = Ok s0 /\ _ => exists t end.
  unfold make_spider. cbn [sp_n sp_angles sp_width sp_coor sp_D sp_cobs sp_msk sp_sym]. cbv zeta.
  destruct (Nat.eqb_spec n 0); [lia|]. destruct (Req_EM_T (D / INR n) 0); [lra|].
  replace (length (x :: l) <? 0)%nat with false by (symmetry; apply Nat.ltb_ge; lia). replace (length (map (fun a : R => (a * PI / 180)%R) angles) <? 0)%nat with false by (symmetry; apply Nat.ltb_ge; lia). cbn [orb seq fold_left].
  destruct (Rlt_dec (w / (D / INR n)) 1) as [Hlt|Hlt]; eexists; eexists; (split; [reflexivity|]; split; [reflexivity|]; split; [reflexivity|]; split; [reflexivity|]); reflexivity.
Qed.
(** The example function for the Keck telescope does not work. *)
Theorem C99_keck_refuted : forall poly, keckSpiderMask poly = Err TypeError.
Proof. reflexivity. Qed.
(** Petals: when the labelling numbers the transmitting pixels 1..nPetal (and the dark ones 0), the petals are masks of 0 and 1
    which add up to the mask. *)
Theorem C99_petals : forall (a : nat -> nat -> nat) (m : nat -> nat -> R) nP i j,
  (m i j = 0 /\ a i j = 0%nat) \/ (m i j = 1 /\ (1 <= a i j <= nP)%nat) ->
  (forall k, petal a k i j = if (a i j =? k + 1)%nat then 1 else 0) /\ rsum nP (fun k => petal a k i j) = m i j.
Proof.
  intros a m nP i j H.
  assert (P : forall k, petal a k i j = if (a i j =? k + 1)%nat then 1 else 0).
  { intros k. unfold petal. destruct (Nat.eqb_spec (a i j) (k + 1)) as [E|E].
    - rewrite E. field. apply not_0_INR. lia.
    - unfold Rdiv. ring. }
  split; [exact P|]. rewrite (rsum_ext nP _ (fun k => if (a i j =? k + 1)%nat then 1 else 0)) by (intros; apply P).
  destruct H as [[ -> ->]|[ -> H]].
  - apply rsum_zero. intros k Hk. destruct (Nat.eqb_spec 0 (k + 1)); [lia|reflexivity].
  - rewrite (rsum_single nP (a i j - 1)%nat).
    + destruct (Nat.eqb_spec (a i j) (a i j - 1 + 1)); [reflexivity|lia].
    + lia.
    + intros k Hk Hne. destruct (Nat.eqb_spec (a i j) (k + 1)); [lia|reflexivity].
Qed.
(** A case: 5 pixels over 10 m, one symmetric spider of 2 m along the horizontal: the central row is dark, the others are not. *)
Example C99_ex : exists s m, new_spider ref_test [0] 2 (CoorList []) 10 0 false true 5 = Ok s /\ sp_matrix s = Some m /\
  (forall j, (j < 5)%nat -> px m 2 j = 0) /\ (forall j, (j < 5)%nat -> px m 0 j = 1).
Proof.
  destruct (C99_symmetric ref_test [0] 2 10 0 5 ref_test_ok) as (s & m & E1 & E2 & F); [lra|lia|cbn [INR]; lra|].
  exists s, m. split; [exact E1|]. split; [exact E2|].
  assert (H0 : half_width 10 2 <= 1) by (unfold half_width; pose proof (shrink_pos 10 2); lra).
  assert (H1 : 0 < half_width 10 2) by (unfold half_width; pose proof (shrink_pos 10 2); lra).
  assert (Z : 0 * PI / 180 = 0) by field.
  split; intros j Hj.
  - apply (proj1 (F 2%nat j ltac:(lia) Hj)). exists 0. split; [left; reflexivity|]. cbv beta. rewrite Z, cos_0, sin_0. replace (point 10 5 2) with 0 by (unfold point; cbn [Nat.sub INR]; field). rewrite Rmult_0_l, Rmult_0_r, Rminus_0_r, Rabs_R0. exact H1.
  - apply (proj2 (F 0%nat j ltac:(lia) Hj)). intros a [ <-|[]]. cbv beta. rewrite Z, cos_0, sin_0. replace (point 10 5 0) with (-5) by (unfold point; cbn [Nat.sub INR]; field). rewrite Rmult_0_r, Rminus_0_r, Rmult_1_r, Rabs_left by lra. lra.
Qed.

Print Assumptions C99_symmetric.
Print Assumptions C99_direction_refuted.
Print Assumptions C99_thin.
Print Assumptions C99_mismatch.
Print Assumptions C99_deferred.
Print Assumptions C99_deferred_refuted.
Print Assumptions C99_keck_refuted.
Print Assumptions C99_petals.
