(** C98 (end): the Zernike maps are not what the comments of the code announce. *)
From Coq Require Import Reals List Arith ZArith Lia Lra Psatz Bool.
From Coq Require Import ZifyBool ZifyNat.
From Verif Require Import Base_Py Base_Sum M_Image M_Zernike M_Tel L_Fit P_Zernike P_Zernike2 P_Tel P_Tel2.
Import ListNotations.
Open Scope R_scope.

Lemma norm_ok n f m s : (0 < n)%nat -> avg n f = m -> avg n (fun i j => (f i j - m) ^ 2) = s ^ 2 -> 0 < s ->
  exists g, norm_mode n f = Ok g /\ forall i j, g i j = (f i j - m) / s.
Proof.
  intros Hn Hm Hs Hs0. unfold norm_mode. destruct (Nat.eqb_spec n 0); [lia|]. cbv zeta.
  rewrite !mean2_avg, Hm, Hs. rewrite <- Rsqr_pow2, sqrt_Rsqr by lra. destruct (Req_EM_T s 0); [lra|]. eexists. split; reflexivity.
Qed.
Lemma add_modes_cons n c f l acc g : norm_mode n f = Ok g -> add_modes n ((c, f) :: l) acc = add_modes n l (fun i j => acc i j + c * g i j).
Proof. intros H. cbn [add_modes]. rewrite H. reflexivity. Qed.

(** The modes of a map are "masked and orthonormalised" in intention only: on a pupil made of two opposite pixels
    the tip and the tilt profiles coincide, so that opposite coefficients cancel and equal ones add linearly. *)
Definition diag_pupil : img := mkImg 2 2 (fun i j => if Nat.eqb i j then 1 else 0).
Lemma diag_modes : exists z, make_zernike (Some (zern_idx 2)) 2 None false CDefault 0 = Ok z /\
  forall a b, (a < 2)%nat -> (b < 2)%nat -> mv (z_modes z) 0 a b = 2 * cx 2 b /\ mv (z_modes z) 1 a b = 2 * cx 2 a.
Proof.
  destruct (C61_modes (zern_idx 2) 2 None 0) as (z & E & _ & _ & _ & F).
  - cbn. discriminate.
  - intros j Hj. cbn in Hj. lia.
  - exists z. split; [exact E|]. intros a b Ha Hb.
    assert (P : the_pupil 0 2 None a b).
    { cbn [the_pupil]. unfold in_annulus. assert (Q : forall k, (k < 2)%nat -> cx 2 k ^ 2 = / 4).
      { intros [|[|k]] Hk; [| |lia]; unfold cx; cbn [INR]; field. }
      rewrite !Q by assumption. split; [apply sqrt_pos|]. apply Rle_trans with (sqrt 1); [apply sqrt_le_1; lra|rewrite sqrt_1; lra]. }
    split.
    + apply (proj2 (F 0%nat 2%Z a b eq_refl) P). reflexivity.
    + apply (proj2 (F 1%nat 3%Z a b eq_refl) P). reflexivity.
Qed.
Theorem C98_orthonormal_refuted : forall c d, exists m, zernike_map diag_pupil 2 [c; d] None = Ok (Some m) /\
  (forall i, (i < 2)%nat -> px m i i ^ 2 = 2 * (c + d) ^ 2) /\ avg 2 (fun i j => px m i j ^ 2) = (c + d) ^ 2.
Proof.
  intros c d. destruct diag_modes as [z [Ez Mz]]. unfold zernike_map. cbn [length]. rewrite Ez. cbn [bind diag_pupil rows cols Nat.eqb andb negb].
  cbn [seq map combine].
  set (f0 := fun a b => mv (z_modes z) 0 a b * px diag_pupil a b). set (f1 := fun a b => mv (z_modes z) 1 a b * px diag_pupil a b).
  assert (V : forall a b, (a < 2)%nat -> (b < 2)%nat -> f0 a b = (if Nat.eqb a b then (if Nat.eqb b 0 then -1 else 1) else 0) /\ f1 a b = f0 a b).
  { intros a b Ha Hb. destruct (Mz a b Ha Hb) as [M0 M1]. unfold f0, f1. rewrite M0, M1. cbn [diag_pupil px].
    destruct a as [|[|a]]; [| |lia]; destruct b as [|[|b]]; try lia; cbn [Nat.eqb]; unfold cx; cbn [INR]; split; field. }
  assert (Hs : 0 < sqrt (/ 2)) by (apply sqrt_lt_R0; lra).
  assert (Hq : sqrt (/ 2) ^ 2 = / 2) by (rewrite <- Rsqr_pow2; apply Rsqr_sqrt; lra).
  assert (E0 : forall f, (forall a b, (a < 2)%nat -> (b < 2)%nat -> f a b = (if Nat.eqb a b then (if Nat.eqb b 0 then -1 else 1) else 0)) ->
     exists g, norm_mode 2 f = Ok g /\ forall i j, g i j = (f i j - 0) / sqrt (/ 2)).
  { intros f Hf. apply norm_ok; [lia| | |exact Hs].
    - unfold avg. cbn [rsum INR]. rewrite !Hf by lia. cbn [Nat.eqb]. field.
    - rewrite Hq. unfold avg. cbn [rsum INR]. rewrite !Hf by lia. cbn [Nat.eqb]. field. }
  destruct (E0 f0) as [g0 [G0 V0]]; [intros a b Ha Hb; apply (V a b Ha Hb)|].
  destruct (E0 f1) as [g1 [G1 V1]]; [intros a b Ha Hb; destruct (V a b Ha Hb) as [A B]; rewrite B; exact A|].
  rewrite (add_modes_cons _ _ _ _ _ _ G0), (add_modes_cons _ _ _ _ _ _ G1). cbn [add_modes bind].
  eexists. split; [reflexivity|]. cbn [px].
  assert (X : forall a b, (a < 2)%nat -> (b < 2)%nat -> (0 + c * g0 a b + d * g1 a b) ^ 2 = if Nat.eqb a b then 2 * (c + d) ^ 2 else 0).
  { intros a b Ha Hb. rewrite V0, V1. destruct (V a b Ha Hb) as [A B]. rewrite B, A.
    destruct (Nat.eqb a b).
    - transitivity ((c + d) ^ 2 * / (sqrt (/ 2) ^ 2)); [destruct (Nat.eqb b 0); field; lra|]. rewrite Hq. field.
    - field. lra. }
  split.
  - intros i Hi. rewrite X by assumption. rewrite Nat.eqb_refl. reflexivity.
  - unfold avg. cbn [rsum INR]. rewrite !X by lia. cbn [Nat.eqb]. field.
Qed.

(** 4 x 4 pixels: only the four central ones are in the telescope pupil. *)
Definition central (i j : nat) : bool := ((i =? 1) || (i =? 2)) && ((j =? 1) || (j =? 2)).
Lemma annular4 D angle i j : 0 < D -> (i < 4)%nat -> (j < 4)%nat -> px (annular D 0 angle 4) i j = if central i j then 1 else 0.
Proof.
  intros HD Hi Hj.
  assert (V : forall k, (k < 4)%nat -> point D 4 k ^ 2 = if ((k =? 1) || (k =? 2))%bool%nat then D ^ 2 / 36 else D ^ 2 / 4).
  { intros [|[|[|[|k]]]] Hk; try lia; unfold point; cbn [Nat.sub INR Nat.eqb orb]; field. }
  assert (HD2 : 0 < D ^ 2) by (apply pow_lt; assumption).
  assert (K : px (annular D 0 angle 4) i j = 1 <-> distance D 4 i j <= D / 2) by (apply C98_full_disc; try assumption; lia).
  assert (B : px (annular D 0 angle 4) i j = 1 \/ px (annular D 0 angle 4) i j = 0).
  { unfold annular; cbn [px]. unfold b2r. destruct (_ && _)%bool; auto. }
  assert (W : distance D 4 i j <= D / 2 <-> point D 4 i ^ 2 + point D 4 j ^ 2 <= D ^ 2 / 4).
  { unfold distance. split; intros H.
    - assert (S : sqrt (point D 4 i ^ 2 + point D 4 j ^ 2) ^ 2 <= (D / 2) ^ 2) by (apply pow_incr; split; [apply sqrt_pos|exact H]).
      rewrite polar_sq in S. lra.
    - rewrite <- (sqrt_Rsqr (D / 2)) by lra. apply sqrt_le_1; unfold Rsqr; [|lra|lra]. assert (0 <= point D 4 i ^ 2) by apply pow2_ge_0. assert (0 <= point D 4 j ^ 2) by apply pow2_ge_0. lra. }
  rewrite (V i Hi), (V j Hj) in W. unfold central. destruct ((i =? 1) || (i =? 2))%bool%nat, ((j =? 1) || (j =? 2))%bool%nat; cbn [andb]; try (apply K, W; lra);
  (destruct B as [B|B]; [exfalso; apply K, W in B; lra|exact B]).
Qed.
Lemma modes4 : forall q, (1 <= q <= 3)%nat -> exists z, make_zernike (Some (zern_idx q)) 4 None false CDefault 0 = Ok z /\
  forall a b, central a b = true ->
   mv (z_modes z) 0 a b = 2 * cx 4 b /\
   ((2 <= q)%nat -> mv (z_modes z) 1 a b = 2 * cx 4 a) /\ ((3 <= q)%nat -> mv (z_modes z) 2 a b = sqrt 3 * - (3 / 4)).
Proof.
  intros q Hq. destruct (C61_modes (zern_idx q) 4 None 0) as (z & E & _ & _ & _ & F).
  - destruct q; [lia|]. cbn. discriminate.
  - intros j Hj. unfold zern_idx in Hj. apply in_map_iff in Hj. destruct Hj as [x [<- _]]. lia.
  - exists z. split; [exact E|]. intros a b Hab.
    assert (Q : forall k, ((k =? 1) || (k =? 2))%bool%nat = true -> cx 4 k ^ 2 = / 16).
    { intros [|[|[|k]]] Hk; try discriminate; unfold cx; cbn [INR]; field. }
    unfold central in Hab. apply andb_prop in Hab. destruct Hab as [Ha Hb].
    assert (P : the_pupil 0 4 None a b).
    { cbn [the_pupil]. unfold in_annulus. rewrite !Q by assumption. split; [apply sqrt_pos|]. apply Rle_trans with (sqrt 1); [apply sqrt_le_1; lra|rewrite sqrt_1; lra]. }
    assert (N : forall i, (i < q)%nat -> nth_error (zern_idx q) i = Some (2 + Z.of_nat i)%Z).
    { intros i Hi. unfold zern_idx. rewrite nth_error_map, (nth_error_nth' _ 0%nat) by (rewrite seq_length; lia). rewrite seq_nth by lia. reflexivity. }
    split; [|split].
    + apply (proj2 (F 0%nat 2%Z a b (N 0%nat ltac:(lia))) P). reflexivity.
    + intros H. apply (proj2 (F 1%nat 3%Z a b (N 1%nat ltac:(lia))) P). reflexivity.
    + intros H. rewrite (proj2 (proj2 (proj2 (proj2 (F 2%nat 4%Z a b (N 2%nat ltac:(lia))) P)))) by reflexivity. rewrite !Q by assumption. field.
Qed.
(** A coefficient c gives a wavefront error of 2 |c| over the pupil, not |c|. *)
Theorem C98_pupil_rms_refuted : forall D angle c, 0 < D -> exists m,
  zernike_map (annular D 0 angle 4) 4 [c] None = Ok (Some m) /\
  forall i j, (i < 4)%nat -> (j < 4)%nat -> px (annular D 0 angle 4) i j = 1 -> px m i j ^ 2 = (2 * c) ^ 2.
Proof.
  intros D angle c HD. destruct (modes4 1 ltac:(lia)) as [z [Ez Mz]]. unfold zernike_map. cbn [length]. rewrite Ez. cbn [bind rows cols annular Nat.eqb andb negb].
  cbn [seq map combine]. fold (annular D 0 angle 4).
  set (f := fun a b => mv (z_modes z) 0 a b * px (annular D 0 angle 4) a b).
  assert (V : forall a b, (a < 4)%nat -> (b < 4)%nat -> f a b = if central a b then (if Nat.eqb b 1 then - / 2 else / 2) else 0).
  { intros a b Ha Hb. unfold f. rewrite annular4 by assumption. destruct (central a b) eqn:E; [|ring].
    rewrite (proj1 (Mz a b E)). unfold central in E. destruct b as [|[|[|b]]]; cbn [Nat.eqb orb] in E; rewrite ?Bool.andb_false_r in E; try discriminate; unfold cx; cbn [INR Nat.eqb]; field. }
  destruct (norm_ok 4 f 0 (/ 4)) as [g [G1 G2]]; [lia| | |lra|].
  - unfold avg. cbn [rsum INR]. rewrite !V by lia. cbn [central Nat.eqb orb andb]. field.
  - unfold avg. cbn [rsum INR]. rewrite !V by lia. cbn [central Nat.eqb orb andb]. field.
  - rewrite (add_modes_cons _ _ _ _ _ _ G1). cbn [add_modes bind]. eexists. split; [reflexivity|]. intros i j Hi Hj H1. cbn [px]. rewrite G2, V by assumption.
    rewrite annular4 in H1 by assumption. destruct (central i j); [|lra]. destruct (Nat.eqb j 1); field.
Qed.
(** A defocus coefficient leaves an offset outside of the pupil. *)
Theorem C98_outside_refuted : forall D angle c, 0 < D -> exists m,
  zernike_map (annular D 0 angle 4) 4 [0; 0; c] None = Ok (Some m) /\
  px (annular D 0 angle 4) 0 0 = 0 /\ px m 0 0 = c * (sqrt 3 / 3).
Proof.
  intros D angle c HD. destruct (modes4 3 ltac:(lia)) as [z [Ez Mz]]. unfold zernike_map. cbn [length]. rewrite Ez. cbn [bind rows cols annular Nat.eqb andb negb].
  cbn [seq map combine]. fold (annular D 0 angle 4).
  set (f0 := fun a b => mv (z_modes z) 0 a b * px (annular D 0 angle 4) a b).
  set (f1 := fun a b => mv (z_modes z) 1 a b * px (annular D 0 angle 4) a b).
  set (f2 := fun a b => mv (z_modes z) 2 a b * px (annular D 0 angle 4) a b).
  assert (V0 : forall a b, (a < 4)%nat -> (b < 4)%nat -> f0 a b = if central a b then (if Nat.eqb b 1 then - / 2 else / 2) else 0).
  { intros a b Ha Hb. unfold f0. rewrite annular4 by assumption. destruct (central a b) eqn:E; [|ring].
    rewrite (proj1 (Mz a b E)). unfold central in E. destruct b as [|[|[|b]]]; cbn [Nat.eqb orb] in E; rewrite ?Bool.andb_false_r in E; try discriminate; unfold cx; cbn [INR Nat.eqb]; field. }
  assert (V1 : forall a b, (a < 4)%nat -> (b < 4)%nat -> f1 a b = if central a b then (if Nat.eqb a 1 then - / 2 else / 2) else 0).
  { intros a b Ha Hb. unfold f1. rewrite annular4 by assumption. destruct (central a b) eqn:E; [|ring].
    rewrite (proj1 (proj2 (Mz a b E))) by lia. unfold central in E. destruct a as [|[|[|a]]]; cbn [Nat.eqb orb andb] in E; try discriminate; unfold cx; cbn [INR Nat.eqb]; field. }
  assert (V2 : forall a b, (a < 4)%nat -> (b < 4)%nat -> f2 a b = if central a b then sqrt 3 * - (3 / 4) else 0).
  { intros a b Ha Hb. unfold f2. rewrite annular4 by assumption. destruct (central a b) eqn:E; [|ring].
    rewrite (proj2 (proj2 (Mz a b E))) by lia. ring. }
  assert (S3 : sqrt 3 ^ 2 = 3) by (rewrite <- Rsqr_pow2; apply Rsqr_sqrt; lra).
  destruct (norm_ok 4 f0 0 (/ 4)) as [g0 [A1 A2]]; [lia| | |lra|].
  - unfold avg. cbn [rsum INR]. rewrite !V0 by lia. cbn [central Nat.eqb orb andb]. field.
  - unfold avg. cbn [rsum INR]. rewrite !V0 by lia. cbn [central Nat.eqb orb andb]. field.
  - destruct (norm_ok 4 f1 0 (/ 4)) as [g1 [B1 B2]]; [lia| | |lra|].
    + unfold avg. cbn [rsum INR]. rewrite !V1 by lia. cbn [central Nat.eqb orb andb]. field.
    + unfold avg. cbn [rsum INR]. rewrite !V1 by lia. cbn [central Nat.eqb orb andb]. field.
    + destruct (norm_ok 4 f2 (sqrt 3 * - (3 / 16)) (9 / 16)) as [g2 [C1 C2]]; [lia| | |lra|].
      * unfold avg. cbn [rsum INR]. rewrite !V2 by lia. cbn [central Nat.eqb orb andb]. field.
      * unfold avg. cbn [rsum INR]. rewrite !V2 by lia. cbn [central Nat.eqb orb andb].
        transitivity (sqrt 3 ^ 2 * (27 / 256)); [field|rewrite S3; field].
      * rewrite (add_modes_cons _ _ _ _ _ _ A1), (add_modes_cons _ _ _ _ _ _ B1), (add_modes_cons _ _ _ _ _ _ C1). cbn [add_modes bind].
        eexists. split; [reflexivity|]. split; [rewrite annular4 by (assumption || lia); reflexivity|]. cbn [px]. rewrite C2, V2 by lia. cbn [central Nat.eqb orb andb]. field.
Qed.
(** Hypotheses of C98_ncpa: a case where the map exists is given by the previous theorems. *)
Example C98_ncpa_ex : exists z m, make_zernike (Some (zern_idx (length [1]))) 4 None false CDefault 0 = Ok z /\
  zernike_map (annular 8 0 0 4) 4 [1] None = Ok (Some m).
Proof.
  destruct (modes4 1 ltac:(lia)) as [z [Ez _]]. destruct (C98_pupil_rms_refuted 8 0 1 ltac:(lra)) as [m [Hm _]]. exists z, m. split; assumption.
Qed.

Print Assumptions C98_orthonormal_refuted.
Print Assumptions C98_pupil_rms_refuted.
Print Assumptions C98_outside_refuted.
