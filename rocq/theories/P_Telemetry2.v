(** C132 (continued): image, atmosphere, influence functions. C133: simulated telemetry. *)
From Coq Require Import Reals List Arith ZArith Bool String Lia Lra.
From Flocq Require Import Core.Raux.
From Verif Require Import Base_Py Base_Sum M_Image M_Atmo L_Atmo M_Source M_Telemetry P_Telemetry.
Import ListNotations.
Local Open Scope R_scope.

(** * The image *)
Lemma Ztrunc_range x z : 0 <= x -> IZR z <= x < IZR z + 1 -> Ztrunc x = z.
Proof. intros P H. rewrite Ztrunc_floor by exact P. apply Zfloor_imp. rewrite plus_IZR. exact H. Qed.
(** C132: when the maximum lies at least half the field away from the borders the image is cropped to the requested square, and the
    maximum is at the pixel fov/2 (integer part) or one after; a field not smaller than the image: no cropping. *)
Theorem C132_crop : forall ny nx y0 x0 fov, (0 < fov)%Z ->
  ((fov < Z.min (Z.of_nat ny) (Z.of_nat nx))%Z -> (fov <= 2 * Z.of_nat y0)%Z -> (2 * Z.of_nat y0 + fov <= 2 * Z.of_nat ny)%Z -> (fov <= 2 * Z.of_nat x0)%Z -> (2 * Z.of_nat x0 + fov <= 2 * Z.of_nat nx)%Z ->
   crop_shape ny nx y0 x0 fov = (fov, fov) /\ (Z.of_nat y0 - fst (crop_bounds y0 fov) = (fov + 1) / 2)%Z) /\
  ((Z.min (Z.of_nat ny) (Z.of_nat nx) <= fov)%Z -> crop_shape ny nx y0 x0 fov = (Z.of_nat ny, Z.of_nat nx)).
Proof.
  intros ny nx y0 x0 fov Hf.
  assert (CB : forall c, (fov <= 2 * Z.of_nat c)%Z -> crop_bounds c fov = (Z.of_nat c - (fov + 1) / 2, Z.of_nat c + fov / 2)%Z).
  { intros c Hc. unfold crop_bounds. rewrite INR_IZR_INZ. assert (E1 : (fov = 2 * (fov / 2) + fov mod 2)%Z) by (apply Z.div_mod; lia). assert (E2 : (0 <= fov mod 2 < 2)%Z) by (apply Z.mod_pos_bound; lia).
    assert (E3 : ((fov + 1) / 2 = fov / 2 + fov mod 2)%Z). { rewrite E1 at 1. assert (M : (fov mod 2 = 0 \/ fov mod 2 = 1)%Z) by lia. destruct M as [M|M]; rewrite M.
      - replace (2 * (fov / 2) + 0 + 1)%Z with (1 + (fov / 2) * 2)%Z by lia. rewrite Z.div_add by lia. cbn. lia.
      - replace (2 * (fov / 2) + 1 + 1)%Z with (0 + (fov / 2 + 1) * 2)%Z by lia. rewrite Z.div_add by lia. cbn. lia. }
    assert (RF : IZR fov = 2 * IZR (fov / 2) + IZR (fov mod 2)) by (rewrite E1 at 1; rewrite plus_IZR, mult_IZR; reflexivity).
    assert (RM : 0 <= IZR (fov mod 2) <= 1) by (split; apply IZR_le; lia). apply IZR_le in Hc. rewrite mult_IZR in Hc.
    f_equal; apply Ztrunc_range; try lra.
    - rewrite minus_IZR, E3, plus_IZR. assert (M : (fov mod 2 = 0 \/ fov mod 2 = 1)%Z) by lia. destruct M as [M|M]; rewrite M in *; cbn in *; lra.
    - assert (0 < IZR fov) by (apply IZR_lt; lia). lra.
    - rewrite plus_IZR. assert (M : (fov mod 2 = 0 \/ fov mod 2 = 1)%Z) by lia. destruct M as [M|M]; rewrite M in *; cbn in *; lra. }
  split.
  - intros H1 H2 H3 H4 H5. assert (D1 : (fov = 2 * (fov / 2) + fov mod 2)%Z) by (apply Z.div_mod; lia). assert (D2 : (0 <= fov mod 2 < 2)%Z) by (apply Z.mod_pos_bound; lia).
    assert (D3 : (fov + 1 = 2 * ((fov + 1) / 2) + (fov + 1) mod 2)%Z) by (apply Z.div_mod; lia). assert (D4 : (0 <= (fov + 1) mod 2 < 2)%Z) by (apply Z.mod_pos_bound; lia).
    split; [|rewrite CB by exact H2; cbn [fst]; lia]. unfold crop_shape. rewrite (CB y0 H2), (CB x0 H4). destruct (Z.eqb_spec fov 0); [lia|]. destruct (Z.ltb_spec fov (Z.min (Z.of_nat ny) (Z.of_nat nx))); [|lia]. cbn [orb negb].
    unfold slice_len, slice_bound. repeat match goal with |- context [Z.ltb ?a ?b] => destruct (Z.ltb_spec a b); [lia|] end. f_equal; lia.
  - intros H. unfold crop_shape. destruct (Z.eqb_spec fov 0); [reflexivity|]. destruct (Z.ltb_spec fov (Z.min (Z.of_nat ny) (Z.of_nat nx))); [lia|]. reflexivity.
Qed.
(** C132 refuted: a star closer than half the field to the lower borders leaves an empty image (the negative index counts from the
    other side), near the upper borders a smaller one. *)
Theorem C132_crop_edge_refuted : crop_shape 1024 1024 60 512 150 = (0, 150)%Z /\ crop_shape 1024 1024 1000 512 150 = (99, 150)%Z.
Proof.
  assert (T : forall c, crop_bounds c 150 = (Z.of_nat c - 75, Z.of_nat c + 75)%Z). { intros c. unfold crop_bounds. rewrite INR_IZR_INZ. replace (IZR (Z.of_nat c) - 150 / 2) with (IZR (Z.of_nat c - 75)) by (rewrite minus_IZR; lra). replace (IZR (Z.of_nat c) + 150 / 2) with (IZR (Z.of_nat c + 75)) by (rewrite plus_IZR; lra). rewrite !Ztrunc_IZR. reflexivity. }
  unfold crop_shape. rewrite !T. split; reflexivity.
Qed.
(** C132: an image is declared saturated exactly when its maximum exceeds the level of one exposure times the number of coadds. *)
Theorem C132_saturation : forall mx coadds s, (is_saturated mx coadds (Some s) = true <-> s * coadds < mx) /\ is_saturated mx coadds None = false.
Proof. intros. split; [|reflexivity]. unfold is_saturated. destruct (Rlt_dec (s * coadds) mx); split; intros; (lra || congruence). Qed.

(** * The atmosphere *)
(** C132: the weights are positive and of sum one, with the median profile or with any measured one of positive values; the profile
    in proportion of the measures. *)
Theorem C132_weights : fold_right Rplus 0 median_weights = 1 /\ Forall (fun w => 0 < w) median_weights /\
  forall cn2, cn2 <> [] -> Forall (fun c => 0 < c) cn2 ->
    exists w, profile_weights cn2 = Ok w /\ fold_right Rplus 0 w = 1 /\ Forall (fun x => 0 < x) w /\ List.length w = List.length cn2 /\ forall i j, nth i w 0 * nth j cn2 0 = nth j w 0 * nth i cn2 0.
Proof.
  split; [unfold median_weights; cbn; lra|]. split; [unfold median_weights; repeat constructor; lra|]. intros cn2 Hne Hp. set (s := fold_right Rplus 0 cn2).
  assert (Hs : 0 < s). { unfold s. destruct Hp as [|c l Hc Hl]; [contradiction|]. cbn. assert (0 <= fold_right Rplus 0 l) by (clear -Hl; induction Hl; cbn; lra). lra. }
  exists (map (fun c => c / s) cn2). unfold profile_weights. cbn [bind]. fold s. destruct (Req_EM_T s 0); [lra|]. split; [reflexivity|]. split.
  - assert (Q : forall l, fold_right Rplus 0 (map (fun c => c / s) l) = fold_right Rplus 0 l / s) by (intros l; induction l as [|x l IH]; cbn; [unfold Rdiv; ring|rewrite IH; unfold Rdiv; ring]). rewrite Q. fold s. field. lra.
  - split; [rewrite Forall_map; eapply Forall_impl; [|exact Hp]; intros c Hc; apply Rdiv_lt_0_compat; assumption|]. split; [apply map_length|].
    assert (N : forall i, nth i (map (fun c => c / s) cn2) 0 = nth i cn2 0 / s). { intros i. replace 0 with (0 / s) at 1 by (unfold Rdiv; ring). apply (map_nth (fun c => c / s)). } intros i j. rewrite !N. unfold Rdiv. ring.
Qed.
(** C132: the decimal hour is in [0, 24) for a time of the day and two times are in the order of their decimal hours. *)
Theorem C132_hours : forall h m s h' m' s' : Z, (0 <= h < 24)%Z -> (0 <= m < 60)%Z -> (0 <= s < 60)%Z ->
  0 <= decimal_hours (IZR h) (IZR m) (IZR s) < 24 /\
  (decimal_hours (IZR h) (IZR m) (IZR s) < decimal_hours (IZR h') (IZR m') (IZR s') <-> (3600 * h + 60 * m + s < 3600 * h' + 60 * m' + s')%Z).
Proof.
  intros h m s h' m' s' H1 H2 H3.
  assert (D : forall a b c : Z, decimal_hours (IZR a) (IZR b) (IZR c) = IZR (3600 * a + 60 * b + c) / 3600). { intros. unfold decimal_hours. rewrite !plus_IZR, !mult_IZR. lra. }
  rewrite !D. split; [split|].
  - assert (0 <= IZR (3600 * h + 60 * m + s)) by (apply IZR_le; lia). lra.
  - assert (IZR (3600 * h + 60 * m + s) < IZR 86400) by (apply IZR_lt; lia). lra.
  - split; intros H; [apply lt_IZR; lra|apply IZR_lt in H; lra].
Qed.

(** * Influence functions *)
(** C132 refuted: the influence functions cannot be computed for any mirror: the number of actuators is stored as a float and is
    refused by np.linspace; a mirror built with a resolution fails, and so does any telemetry object given a telemetry file. *)
Theorem C132_influence_refuted : forall nAct pitch h coupling optdir optw modes r,
  (forall d k, dm_init nAct pitch h coupling optdir optw = Ok d -> is_ok (setInfluenceFunction d modes k) = false) /\
  is_ok (dm_init_res nAct pitch h coupling optdir optw modes (Some r)) = false /\
  (forall A (instr : result A) rest f, is_ok (telemetryKeck (Some f) instr nAct pitch h coupling modes rest) = false) /\
  (forall A (i : A) rest, telemetryKeck None (Ok i) nAct pitch h coupling modes rest = Ok i).
Proof.
  intros nAct pitch h coupling optdir optw modes r.
  assert (K : forall d k, is_ok (setInfluenceFunction d modes k) = false).
  { intros d k. unfold setInfluenceFunction. destruct (pyindex (nActu1D d) k) as [n|] eqn:E; [|reflexivity]. cbn [bind].
    assert (F : exists x, n = PyFloat x). { unfold pyindex in E. destruct (_ || _)%bool in E; [discriminate|]. destruct (nth_error (nActu1D d) _) as [q|] eqn:N in E; [|discriminate]. apply Ok_inj in E. subst q. apply nth_error_In in N. unfold nActu1D in N. apply in_map_iff in N. destruct N as (z & <- & _). eexists. reflexivity. }
    destruct F as (x & ->). destruct (pyindex (dm_coupling d) k); [cbn [bind]|reflexivity]. destruct ((modes =? "gaussian") || (modes =? "xinetics"))%string; [cbn [bind]|reflexivity]. destruct (_ || _)%bool; reflexivity. }
  split; [intros; apply K|]. split.
  - unfold dm_init_res. destruct (dm_init nAct pitch h coupling optdir optw) as [d|]; [cbn [bind]|reflexivity]. specialize (K d 0%Z). destruct (setInfluenceFunction d modes 0); [discriminate|reflexivity].
  - split; [|reflexivity]. intros A instr rest f. unfold telemetryKeck. destruct instr as [i|]; [cbn [bind]|reflexivity]. destruct (dm_init nAct pitch h coupling ([0], [0]) [1]) as [d|]; [cbn [bind]|reflexivity]. specialize (K d 0%Z). destruct (setInfluenceFunction d modes 0); [discriminate|reflexivity].
Qed.

(** * Simulated telemetry *)
(** covariance of two channels of a series *)
Definition covariance (a : series) (i j : nat) : R := average (s_n a) (fun t => (s_at a t i - average (s_n a) (fun u => s_at a u i)) * (s_at a t j - average (s_n a) (fun u => s_at a u j))).
Lemma rsum_0mean a j : (0 < s_n a)%nat -> rsum (s_n a) (fun t => s_at (demean a) t j) = 0.
Proof. intros H. pose proof (C132_zero_mean a j H) as Q. unfold average in Q. pose proof (INR_pos _ H). apply (Rmult_eq_compat_r (INR (s_n a))) in Q. rewrite Rmult_0_l in Q. rewrite <- Q. field. lra. Qed.
Lemma res_mean R0 m sl k : (0 < s_n sl)%nat -> cmean (mkSeries (s_n sl) m (fun t k => rsum (s_m sl) (fun j => s_at (demean sl) t j * R0 j k))) k = 0.
Proof.
  intros H. unfold cmean. cbn [s_n s_at]. rewrite rsum_swap. rewrite rsum_zero; [unfold Rdiv; ring|]. intros j Hj. rewrite rsum_scal_r. rewrite rsum_0mean by exact H. ring.
Qed.
(** C133: the residual wavefront of a simulation is the reconstruction of the slopes without their means; removing the mean again
    changes nothing, and constant slopes offsets have no effect. *)
Theorem C133_residual : forall R0 m sl t k, (0 < s_n sl)%nat ->
  s_at (kasp_residual R0 m sl) t k = rsum (s_m sl) (fun j => (s_at sl t j - average (s_n sl) (fun u => s_at sl u j)) * R0 j k).
Proof. intros R0 m sl t k H. unfold kasp_residual. cbv zeta. cbn [demean s_at s_n s_m]. change (mkSeries (s_n sl) (s_m sl) _) with (demean sl). rewrite res_mean by exact H. rewrite Rminus_0_r. reflexivity. Qed.
Theorem C133_offset : forall R0 m sl c t k, (0 < s_n sl)%nat ->
  s_at (kasp_residual R0 m (mkSeries (s_n sl) (s_m sl) (fun t j => s_at sl t j + c j))) t k = s_at (kasp_residual R0 m sl) t k.
Proof. intros R0 m sl c t k H. rewrite !C133_residual by exact H. cbn [s_n s_m s_at]. apply rsum_ext. intros j Hj. rewrite (average_shift _ (fun u => s_at sl u j)) by exact H. ring. Qed.
(** C133: the error is 1e9 times the square root of the trace of R' C R over the number of commands, C being the covariance matrix of
    the slopes: it depends on the slopes only through C. *)
Theorem C133_wfe : forall R0 m nCom sl, (0 < s_n sl)%nat -> (0 < nCom)%nat ->
  kasp_wfe nCom (kasp_residual R0 m sl) =
  1000000000 * sqrt (rsum m (fun k => rsum (s_m sl) (fun i => rsum (s_m sl) (fun j => R0 i k * covariance sl i j * R0 j k))) / INR nCom).
Proof.
  intros R0 m nCom sl H Hn. unfold kasp_wfe. f_equal. f_equal. f_equal. change (s_m (kasp_residual R0 m sl)) with m. apply rsum_ext. intros k Hk.
  unfold cstd. rewrite sqrt_sqrt by (apply cvar_nonneg; exact H).
  assert (MZ : cmean (kasp_residual R0 m sl) k = 0) by (unfold kasp_residual; cbv zeta; rewrite cmean_demean; [reflexivity|exact H]).
  unfold cvar. rewrite MZ. change (s_n (kasp_residual R0 m sl)) with (s_n sl).
  rewrite (rsum_ext (s_n sl) _ (fun t => rsum (s_m sl) (fun i => rsum (s_m sl) (fun j => R0 i k * ((s_at sl t i - average (s_n sl) (fun u => s_at sl u i)) * (s_at sl t j - average (s_n sl) (fun u => s_at sl u j))) * R0 j k)))).
  2:{ intros t Ht. rewrite Rminus_0_r, !C133_residual by exact H. rewrite <- rsum_scal_r. apply rsum_ext. intros i Hi. rewrite <- rsum_scal. apply rsum_ext. intros j Hj. ring. }
  rewrite rsum_swap. unfold Rdiv. rewrite <- rsum_scal_r. apply rsum_ext. intros i Hi. rewrite rsum_swap, <- rsum_scal_r. apply rsum_ext. intros j Hj. rewrite rsum_scal_r.
  rewrite (rsum_scal (s_n sl) (R0 i k) (fun t => (s_at sl t i - average (s_n sl) (fun u => s_at sl u i)) * (s_at sl t j - average (s_n sl) (fun u => s_at sl u j)))). unfold covariance, average at 1 2 3 4, Rdiv. unfold average. unfold Rdiv. ring.
Qed.
(** C133: the Cn2 profile sums to r0^(-5/3) for weights of sum one; the seeing times r0 is the same at every r0. *)
Theorem C133_atmosphere : forall w r0 r0' wvl, 0 < r0 -> 0 < r0' ->
  fold_right Rplus 0 (kasp_cn2 w r0) = fold_right Rplus 0 w * Rpower r0 (- (5 / 3)) /\ kasp_seeing wvl r0 * r0 = kasp_seeing wvl r0' * r0'.
Proof.
  intros w r0 r0' wvl H H'. split; [unfold kasp_cn2; induction w as [|x w IH]; cbn; [ring|rewrite IH; ring]|]. unfold kasp_seeing. pose proof PI_RGT_0. field. repeat split; lra.
Qed.

Print Assumptions C132_crop.
Print Assumptions C132_crop_edge_refuted.
Print Assumptions C132_saturation.
Print Assumptions C132_weights.
Print Assumptions C132_hours.
Print Assumptions C132_influence_refuted.
Print Assumptions C133_residual.
Print Assumptions C133_offset.
Print Assumptions C133_wfe.
Print Assumptions C133_atmosphere.
