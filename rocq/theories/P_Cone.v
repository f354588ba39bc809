(** C52: the error due to the reduced volume sensed by several laser guide stars. *)
From Coq Require Import Reals List Arith ZArith Bool Lia Lra.
From Verif Require Import Base_Py Base_Sum M_Tools S_Tools M_Freq M_Atmo S_Atmo L_Atmo M_Sensor M_Model S_Model L_Model P_Model M_Model2.
From Coquelicot Require Import Complex.
Import ListNotations.
Open Scope R_scope.

Lemma Cmod_cis t : Cmod (cis t) = 1.
Proof. unfold cis, Cmod. cbn [fst snd]. replace (cos t ^ 2 + sin t ^ 2) with 1; [apply sqrt_1|]. assert (H := sin2_cos2 t). unfold Rsqr in H. lra. Qed.
Lemma lp_bound D eqD fCut fs k : 0 < D -> 0 < eqD <= D -> 0 < fCut -> 0 < fs -> 0 <= lp2 D eqD fCut fs k <= 1.
Proof.
  intros HD HE Hf Hs. unfold lp2. cbv zeta. set (z := cis _). set (zp := exp _). assert (PP := PI_RGT_0).
  assert (ZP : 1 < zp). { assert (Q : 0 < 2 * PI * fCut / fs). { apply Rdiv_lt_0_compat; [|exact Hs]. apply Rmult_lt_0_compat; [lra|exact Hf]. } apply exp_increasing in Q. rewrite exp_0 in Q. exact Q. }
  assert (NZ : zp - 1 <= Cmod (Cminus z (RtoC zp))).
  { assert (T := Cmod_triangle (Cminus (RtoC zp) z) z). replace (Cplus (Cminus (RtoC zp) z) z) with (RtoC zp) in T by (apply pair_eq; cbn; ring).
    unfold z in T at 2. rewrite Cmod_cis, Cmod_R, Rabs_right in T by lra. replace (Cminus (RtoC zp) z) with (Copp (Cminus z (RtoC zp))) in T by (apply pair_eq; cbn; ring). rewrite Cmod_opp in T. lra. }
  set (lp := Cdiv _ _).
  assert (LB : 0 <= Cmod lp <= 1).
  { split; [apply Cmod_ge_0|]. unfold lp. rewrite Cmod_div by (intros E; rewrite E, Cmod_0 in NZ; lra). rewrite Cmod_mult. unfold z at 1. rewrite Cmod_cis, Rmult_1_l.
    replace (Cminus (RtoC 1) (RtoC zp)) with (RtoC (1 - zp)) by (apply pair_eq; cbn; ring). rewrite Cmod_R, Rabs_left by lra.
    apply (Rmult_le_reg_r (Cmod (Cminus z (RtoC zp)))); [lra|]. unfold Rdiv. rewrite Rmult_assoc, Rinv_l by lra. lra. }
  assert (RB : 0 <= (eqD / D) ^ 2 <= 1).
  { assert (0 <= eqD / D <= 1); [|nra]. split; [apply Rmult_le_pos; [lra|left; apply Rinv_0_lt_compat; exact HD]|]. apply (Rmult_le_reg_r D); [exact HD|]. unfold Rdiv. rewrite Rmult_assoc, Rinv_l by lra. lra. }
  assert (Q : 0 <= (1 - Cmod lp ^ 2) * (eqD / D) ^ 2 <= 1) by (assert (0 <= 1 - Cmod lp ^ 2 <= 1) by nra; nra).
  rewrite Rmax_left by lra. exact Q.
Qed.
Lemma cone_layer_bound gz D hg sz kcMax fs k w h : 0 < D -> 0 < fs -> 0 <= w -> 0 <= cone_layer gz D hg sz kcMax fs k w h <= w.
Proof.
  intros HD Hs Hw. unfold cone_layer. cbv zeta. destruct (Rlt_dec 0 h) as [Ph|]; [|lra]. destruct (Rlt_dec 0 (deltaE gz D hg sz)) as [Pe|]; [|lra].
  destruct (Rlt_dec _ kcMax); [|lra]. destruct (Rlt_dec 0 _) as [Pq|]; [|lra].
  assert (B := lp_bound D _ (rad2arc / (deltaE gz D hg sz * h)) fs k HD (conj Pq (Rmin_r _ _))).
  destruct B as (B1 & B2); [|exact Hs|nra]. apply Rdiv_lt_0_compat; [|apply Rmult_lt_0_compat; assumption]. unfold rad2arc. assert (PP := PI_RGT_0). apply Rdiv_lt_0_compat; lra.
Qed.
(** C52: the error is non-negative and never exceeds the part of the turbulence that
    the correction removed: the residual with it never exceeds the larger of the
    residual without it and the turbulence. *)
Theorem C52_cone_between_residual_and_turbulence :
  forall (gz D hg sz kcMax fs k : R) (layers : list (R * R)) (atm res pf : R), 0 < D -> 0 < fs ->
  (forall wh, In wh layers -> 0 <= fst wh) -> total (map fst layers) <= 1 -> 0 <= pf <= 1 ->
  let cone := mcaoCone gz D hg sz kcMax fs k layers atm res pf in
  0 <= cone /\ cone <= Rmax (atm - res) 0 /\ res + cone <= Rmax res atm.
Proof.
  intros gz D hg sz kcMax fs k layers atm res pf HD Hs Hw Ht Hp cone.
  assert (PM := Rmax_r (atm - res) 0). set (m := Rmax (atm - res) 0) in *. assert (PMP : 0 <= m * pf <= m) by nra.
  assert (B : 0 <= cone <= total (map fst layers) * (m * pf)).
  { unfold cone, mcaoCone. fold m. clear Ht. induction layers as [|wh l IH]; [cbn; lra|]. cbn [map lsum total fold_right] in *.
    assert (C := cone_layer_bound gz D hg sz kcMax fs k (fst wh) (snd wh) HD Hs (Hw wh (or_introl eq_refl))).
    assert (I := IH (fun x Hx => Hw x (or_intror Hx))). unfold lsum in I. nra. }
  assert (T0 : 0 <= total (map fst layers)) by (apply total_map_nonneg; exact Hw).
  assert (M2 : cone <= m) by nra. split; [lra|]. split; [exact M2|].
  unfold m in *. unfold Rmax in *. destruct (Rle_dec (atm - res) 0), (Rle_dec res atm); lra.
Qed.
Print Assumptions C52_cone_between_residual_and_turbulence.
(** C52: it vanishes without turbulence above the ground, for sources seen by the
    full volume, and at frequencies that are not corrected at all. *)
Theorem C52_cone_vanishes :
  forall (gz D hg sz kcMax fs k : R) (layers : list (R * R)) (atm res pf : R),
  (forall wh, In wh layers -> snd wh <= 0) \/ (0 < 2 * gz * (1 / rad2arc) - D * (1 / hg) /\ sz <= (2 * gz * (1 / rad2arc) - D * (1 / hg)) * rad2arc / 2) \/ atm <= res ->
  mcaoCone gz D hg sz kcMax fs k layers atm res pf = 0.
Proof.
  intros gz D hg sz kcMax fs k layers atm res pf H. assert (PP := PI_RGT_0). assert (RA : 0 < rad2arc) by (unfold rad2arc; apply Rdiv_lt_0_compat; lra).
  unfold mcaoCone. induction layers as [|wh l IH]; [reflexivity|]. cbn [map lsum fold_right]. unfold lsum in IH. rewrite IH by (destruct H as [H|H]; [left; intros; apply H; right; assumption|right; exact H]).
  rewrite Rplus_0_r. destruct H as [H|[(H1 & H2)|H]].
  - unfold cone_layer. cbv zeta. assert (X := H wh (or_introl eq_refl)). destruct (Rlt_dec 0 (snd wh)); [lra|]. ring.
  - unfold cone_layer, deltaE. cbv zeta. destruct (Rlt_dec 0 (snd wh)); [|ring]. set (E := (2 * gz * (1 / rad2arc) - D * (1 / hg)) * rad2arc) in *.
    assert (PE : 0 < E) by (apply Rmult_lt_0_compat; assumption). destruct (Rlt_dec 0 E) as [_|N]; [|lra].
    assert (M := Rmin_l sz gz). destruct (Rlt_dec 0 (Rmin sz gz - E / 2)); [lra|ring].
  - rewrite (Rmax_right (atm - res) 0) by lra. ring.
Qed.
Print Assumptions C52_cone_vanishes.
(** C52 is not vacuous: the error is positive in an ordinary case (8 m telescope,
    sodium stars on a circle of one arcmin, a source on that circle, turbulence at 10 km). *)
Example C52_ex : 0 < mcaoCone 60 8 90000 60 10 20 10 [(1 / 2, 0); (1 / 2, 10000)] 2 1 1.
Proof.
  assert (P3 : 3 < PI) by (assert (H := PI2_3_2); unfold PI2 in H; lra). assert (P4 := PI_4).
  assert (RA : 162000 <= rad2arc <= 216000).
  { unfold rad2arc. split; [apply (Rmult_le_reg_r PI); [lra|]|apply (Rmult_le_reg_r PI); [lra|]]; unfold Rdiv; rewrite Rmult_assoc, Rinv_l by lra; lra. }
  assert (DE : 7 <= deltaE 60 8 90000 60 <= 10).
  { unfold deltaE. cbv zeta. replace ((2 * 60 * (1 / rad2arc) - 8 * (1 / 90000)) * rad2arc) with (120 - rad2arc / 11250) by (field; lra). destruct (Rlt_dec 0 _) as [Q|Q]; [|lra]. rewrite Rmin_left by lra. lra. }
  unfold mcaoCone. cbn [map lsum fold_right fst snd]. rewrite (Rmax_left (2 - 1) 0) by lra.
  unfold cone_layer. cbv zeta. destruct (Rlt_dec 0 0); [lra|]. destruct (Rlt_dec 0 10000); [|lra]. set (dE := deltaE _ _ _ _) in *. destruct (Rlt_dec 0 dE); [|lra].
  assert (FC : 0 < rad2arc / (dE * 10000) < 10).
  { split; [apply Rdiv_lt_0_compat; lra|]. apply (Rmult_lt_reg_r (dE * 10000)); [lra|]. unfold Rdiv. rewrite Rmult_assoc, Rinv_l by lra. lra. }
  set (fc := rad2arc / (dE * 10000)) in *. destruct (Rlt_dec fc 10); [|lra].
  assert (EQ : Rmin (8 - deltaL 60 60 * 10000 * (1 / rad2arc)) 8 = 8). { unfold deltaL. rewrite Rmax_left by lra. replace (60 - 2 * 60 / 2) with 0 by lra. apply Rmin_right. lra. }
  rewrite EQ. destruct (Rlt_dec 0 8); [|lra].
  assert (L : 0 < lp2 8 8 fc 20 10); [|lra]. unfold lp2. cbv zeta. replace (10 / (20 / 2) * PI) with PI by lra. set (zp := exp _).
  assert (ZP : 1 < zp). { assert (Q : 0 < 2 * PI * fc / 20). { apply Rdiv_lt_0_compat; [|lra]. apply Rmult_lt_0_compat; lra. } apply exp_increasing in Q. rewrite exp_0 in Q. exact Q. }
  assert (EZ : cis PI = RtoC (-1)). { unfold cis. rewrite cos_PI, sin_PI. reflexivity. } rewrite EZ.
  rewrite <- !RtoC_minus, <- RtoC_mult, <- RtoC_div by lra. rewrite Cmod_R. rewrite RPow_abs, Rabs_right by (apply Rle_ge, pow2_ge_0).
  assert (E : (-1 * (1 - zp) / (-1 - zp)) ^ 2 < 1).
  { replace ((-1 * (1 - zp) / (-1 - zp)) ^ 2) with ((zp - 1) ^ 2 / (zp + 1) ^ 2) by (field; lra). apply (Rmult_lt_reg_r ((zp + 1) ^ 2)); [nra|]. unfold Rdiv. rewrite Rmult_assoc, Rinv_l by nra. nra. }
  replace ((8 / 8) ^ 2) with 1 by field. rewrite Rmax_left by lra. lra.
Qed.
