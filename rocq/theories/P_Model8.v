(** C129: bounds and symmetries of the anisoplanatism and of the differential refraction. *)
From Coq Require Import Reals List Arith ZArith Bool String Lia Lra.
From Flocq Require Import Core.Raux.
From Verif Require Import Base_Py Base_Sum M_Tools L_Tools M_Freq L_Freq M_Atmo S_Atmo L_Atmo M_Sensor M_Model S_Tools S_Model L_Model L_Model2 P_Model P_Model2.
From Coquelicot Require Import Complex.
Import ListNotations.
Open Scope R_scope.

(** second moment of the altitudes of the turbulence *)
Definition height2 (y : fsys) : R := total (map (fun l => l_w l * l_h l ^ 2) (y_layers y)).
(** the system with every altitude multiplied by s *)
Definition stretch (s : R) (y : fsys) : fsys :=
  mkSys (y_res y) (y_step y) (y_off y) (y_kcMax y) (y_circle y) (y_D y) (y_j1 y) (y_sp y) (y_atm y)
        (map (fun l => mkLay (l_w l) (s * l_h l) (l_vx l) (l_vy l)) (y_layers y))
        (y_type y) (y_dsub y) (y_nL y) (y_mod y) (y_bin y) (y_clock y) (y_noise y) (y_gswvl y) (y_gain y) (y_rate y) (y_delay y).

Lemma one_cos_sq t : 0 <= 2 * (1 - cos t) <= t ^ 2.
Proof.
  assert (S2 : 1 - cos t = 2 * sin (t / 2) ^ 2). { replace t with (2 * (t / 2)) at 1 by field. rewrite cos_2a_sin. ring. }
  assert (B : sin (t / 2) ^ 2 <= (t / 2) ^ 2).
  { assert (P : forall x, 0 <= x -> sin x ^ 2 <= x ^ 2).
    { intros x [Hx|Hx]; [|subst x; rewrite sin_0; lra]. destruct (Rle_lt_dec x 1) as [L|L].
      - assert (0 <= sin x) by (apply sin_ge_0; pose proof PI2_3_2; lra). assert (sin x < x) by (apply sin_lt_x; exact Hx). apply pow_incr. lra.
      - pose proof (SIN_bound x). assert (sin x ^ 2 <= 1) by nra. nra. }
    destruct (Rle_lt_dec 0 (t / 2)) as [H|H]; [apply P; exact H|]. replace (sin (t / 2) ^ 2) with (sin (- (t / 2)) ^ 2) by (rewrite sin_neg; ring). replace ((t / 2) ^ 2) with ((- (t / 2)) ^ 2) by ring. apply P. lra. }
  pose proof (pow2_ge_0 (sin (t / 2))). rewrite S2. split; [lra|]. replace (t ^ 2) with (4 * (t / 2) ^ 2) by field. lra.
Qed.
Lemma lsum_total l : lsum l = total l.
Proof. induction l as [|a l IH]; [reflexivity|]. unfold lsum in *. cbn [fold_right total]. rewrite IH. reflexivity. Qed.
Lemma total_le {A} (f g : A -> R) l : (forall x, In x l -> f x <= g x) -> total (map f l) <= total (map g l).
Proof. induction l as [|a l IH]; intros H; [apply Rle_refl|]. cbn [map total]. apply Rplus_le_compat; [apply H; left; reflexivity|apply IH; intros; apply H; right; assumption]. Qed.
Lemma total_scal {A} (f : A -> R) c l : total (map (fun x => c * f x) l) = c * total (map f l).
Proof. induction l as [|a l IH]; cbn [map total]; [ring|rewrite IH; ring]. Qed.
Lemma total_nonneg {A} (f : A -> R) l : (forall x, In x l -> 0 <= f x) -> 0 <= total (map f l).
Proof. induction l as [|a l IH]; intros H; [apply Rle_refl|]. cbn [map total]. apply Rplus_le_le_0_compat; [apply H; left; reflexivity|apply IH; intros; apply H; right; assumption]. Qed.
(** a layer sum of decorrelated phases *)
Definition decorr (ls : list lay) (q : R) : R := lsum (map (fun l => 2 * l_w l * (1 - cos (2 * PI * l_h l * q))) ls).
Lemma decorr_bounds ls q : (forall l, In l ls -> 0 <= l_w l) ->
  0 <= decorr ls q /\ decorr ls q <= 4 * total (map l_w ls) /\ decorr ls q <= (2 * PI * q) ^ 2 * total (map (fun l => l_w l * l_h l ^ 2) ls).
Proof.
  intros Hw. unfold decorr. rewrite lsum_total. split; [|split].
  - apply total_nonneg. intros l Hl. pose proof (one_cos_sq (2 * PI * l_h l * q)). pose proof (Hw l Hl). nra.
  - rewrite <- total_scal. apply total_le. intros l Hl. pose proof (COS_bound (2 * PI * l_h l * q)). pose proof (Hw l Hl). nra.
  - rewrite <- total_scal. apply total_le. intros l Hl. pose proof (one_cos_sq (2 * PI * l_h l * q)) as [_ B]. pose proof (Hw l Hl) as P. replace ((2 * PI * q) ^ 2 * (l_w l * l_h l ^ 2)) with (l_w l * (2 * PI * l_h l * q) ^ 2) by ring. nra.
Qed.
Lemma aniso_val y tx ty i j w : Watm y i j = Ok w -> (tx <> 0 \/ ty <> 0) -> anisoplanatismPSD y tx ty i j = Ok (maskAO y i j * decorr (y_layers y) (kxAO y i j * ty + kyAO y i j * tx) * w).
Proof.
  intros E N. unfold anisoplanatismPSD. rewrite E. cbn [bind]. destruct (Req_EM_T tx 0), (Req_EM_T ty 0); try reflexivity. exfalso. destruct N; contradiction.
Qed.
Lemma Watm_val y i j : valid_sys y -> exists w, Watm y i j = Ok w /\ 0 <= w.
Proof.
  intros HV. destruct (Wphi_pos y i j HV) as (p & E & P). unfold Watm. rewrite E. cbn [bind]. eexists. split; [reflexivity|]. pose proof (piston_range y i j). apply Rmult_le_pos; lra.
Qed.

(** C129: the anisoplanatism spectrum of a source at angle theta = (tx, ty) from the guide star lies between zero and four times
    the turbulence, and below (2 pi |k| |theta|)^2 times the second moment of the altitudes times the turbulence: it vanishes
    with the angle, and with the height of the turbulence. *)
Theorem C129_bound : forall y tx ty i j, valid_sys y -> weight_sum y = 1 ->
  exists v w, anisoplanatismPSD y tx ty i j = Ok v /\ Watm y i j = Ok w /\ 0 <= v /\ v <= 4 * w /\
   v <= (2 * PI) ^ 2 * k2AO y i j * (tx ^ 2 + ty ^ 2) * height2 y * w.
Proof.
  intros y tx ty i j HV HW. destruct (Watm_val y i j HV) as (w & Ew & Pw). assert (Hl : forall l, In l (y_layers y) -> 0 <= l_w l) by apply HV.
  assert (HH : 0 <= height2 y). { apply total_nonneg. intros l Hi. apply Rmult_le_pos; [apply Hl; exact Hi|apply pow2_ge_0]. }
  assert (HP : 0 <= (2 * PI) ^ 2 * k2AO y i j * (tx ^ 2 + ty ^ 2) * height2 y * w).
  { apply Rmult_le_pos; [|exact Pw]. apply Rmult_le_pos; [|exact HH]. apply Rmult_le_pos; [apply Rmult_le_pos; [apply pow2_ge_0|]|]; [unfold k2AO; pose proof (pow2_ge_0 (kxAO y i j)); pose proof (pow2_ge_0 (kyAO y i j)); lra|pose proof (pow2_ge_0 tx); pose proof (pow2_ge_0 ty); lra]. }
  destruct (Req_EM_T tx 0) as [Ex|Nx]; [destruct (Req_EM_T ty 0) as [Ey|Ny]|].
  1: { exists 0, w. unfold anisoplanatismPSD. rewrite Ew. cbn [bind]. destruct (Req_EM_T tx 0); [|contradiction]. destruct (Req_EM_T ty 0); [|contradiction]. split; [reflexivity|]. split; [reflexivity|]. repeat split; [lra|lra|exact HP]. }
  all: rewrite (aniso_val y tx ty i j w Ew) by tauto; set (q := kxAO y i j * ty + kyAO y i j * tx); exists (maskAO y i j * decorr (y_layers y) q * w), w; (split; [reflexivity|]); (split; [exact Ew|]);
    destruct (decorr_bounds (y_layers y) q Hl) as (B1 & B2 & B3); fold (weight_sum y) in B2; rewrite HW in B2; fold (height2 y) in B3;
    assert (CS : q ^ 2 <= k2AO y i j * (tx ^ 2 + ty ^ 2)) by (unfold q, k2AO; pose proof (pow2_ge_0 (kxAO y i j * tx - kyAO y i j * ty)); nra);
    assert (B4 : decorr (y_layers y) q <= (2 * PI) ^ 2 * k2AO y i j * (tx ^ 2 + ty ^ 2) * height2 y) by (eapply Rle_trans; [exact B3|]; apply Rmult_le_compat_r; [exact HH|]; rewrite Rpow_mult_distr, Rmult_assoc; apply Rmult_le_compat_l; [apply pow2_ge_0|exact CS]);
    destruct (mask_01 y i j) as [ ->| ->]; rewrite ?Rmult_0_l, ?Rmult_1_l; (split; [nra|]); (split; [nra|]); [exact HP|apply Rmult_le_compat_r; lra].
Qed.
(** C129: it is the same on either side of the guide star; a source shifted along the iso-phase direction of a frequency sees no
    error at that frequency; turbulence at the ground gives none at all; and altitudes s times higher seen s times closer give
    the same spectrum. *)
Theorem C129_invariance : forall y tx ty i j,
  anisoplanatismPSD y (- tx) (- ty) i j = anisoplanatismPSD y tx ty i j /\
  (forall v, kxAO y i j * ty + kyAO y i j * tx = 0 -> anisoplanatismPSD y tx ty i j = Ok v -> v = 0) /\
  (forall v, (forall l, In l (y_layers y) -> l_h l = 0) -> anisoplanatismPSD y tx ty i j = Ok v -> v = 0) /\
  (forall s, s <> 0 -> anisoplanatismPSD (stretch s y) (tx / s) (ty / s) i j = anisoplanatismPSD y tx ty i j).
Proof.
  intros y tx ty i j. split; [|split; [|split]].
  - unfold anisoplanatismPSD. destruct (Watm y i j) as [w|]; [|reflexivity]. cbn [bind]. destruct (Req_EM_T (- tx) 0), (Req_EM_T tx 0); try lra; destruct (Req_EM_T (- ty) 0), (Req_EM_T ty 0); try lra; try reflexivity;
      do 4 f_equal; apply map_ext; intros l; do 2 f_equal; rewrite <- cos_neg; f_equal; ring.
  - intros v Hq. unfold anisoplanatismPSD. destruct (Watm y i j) as [w|]; [|discriminate]. cbn [bind]. destruct (if Req_EM_T tx 0 then _ else _); intros H; apply Ok_inj in H; subst v; [reflexivity|]. rewrite Hq.
    assert (Z : lsum (map (fun l => 2 * l_w l * (1 - cos (2 * PI * l_h l * 0))) (y_layers y)) = 0). { rewrite lsum_total. induction (y_layers y) as [|l ls IH]; cbn [map total]; [reflexivity|]. rewrite IH, Rmult_0_r, cos_0. ring. } rewrite Z. ring.
  - intros v Hh. unfold anisoplanatismPSD. destruct (Watm y i j) as [w|]; [|discriminate]. cbn [bind]. destruct (if Req_EM_T tx 0 then _ else _); intros H; apply Ok_inj in H; subst v; [reflexivity|].
    assert (Z : lsum (map (fun l => 2 * l_w l * (1 - cos (2 * PI * l_h l * (kxAO y i j * ty + kyAO y i j * tx)))) (y_layers y)) = 0). { rewrite lsum_total. revert Hh. induction (y_layers y) as [|l ls IH]; intros Hh; cbn [map total]; [reflexivity|]. rewrite IH by (intros; apply Hh; right; assumption). rewrite (Hh l (or_introl eq_refl)). replace (2 * PI * 0 * (kxAO y i j * ty + kyAO y i j * tx)) with 0 by ring. rewrite cos_0. ring. } rewrite Z. ring.
  - intros s Ns. unfold anisoplanatismPSD. change (Watm (stretch s y) i j) with (Watm y i j). destruct (Watm y i j) as [w|]; [|reflexivity]. cbn [bind]. change (kxAO (stretch s y) i j) with (kxAO y i j). change (kyAO (stretch s y) i j) with (kyAO y i j). change (maskAO (stretch s y) i j) with (maskAO y i j).
    assert (D : forall t, t / s = 0 <-> t = 0). { intros t. split; intros H; [|rewrite H; unfold Rdiv; ring]. apply (Rmult_eq_reg_r (/ s)); [rewrite Rmult_0_l; exact H|apply Rinv_neq_0_compat; exact Ns]. }
    pose proof (D tx) as [D1 D2]. pose proof (D ty) as [D3 D4].
    destruct (Req_EM_T (tx / s) 0) as [Q|Q], (Req_EM_T tx 0) as [Q'|Q']; try tauto; destruct (Req_EM_T (ty / s) 0) as [P|P], (Req_EM_T ty 0) as [P'|P']; try tauto;
      do 4 f_equal; cbn [stretch y_layers]; rewrite map_map; apply map_ext; intros l; cbn [l_w l_h]; do 3 f_equal; field; exact Ns.
Qed.
(** C129: the differential refraction is the anisoplanatism of an angle of tangent tan(theta), seen under the angle between the
    frequency and the direction of the refraction: same bounds, and nothing at zenith or across that direction. *)
Theorem C129_refraction : forall y zen theta az arg i j, valid_sys y -> weight_sum y = 1 ->
  exists v w, differentialRefractionPSD y zen theta az arg i j = Ok v /\ Watm y i j = Ok w /\ 0 <= v /\ v <= 4 * w /\
   v <= (2 * PI) ^ 2 * k2AO y i j * (tan theta) ^ 2 * height2 y * w /\
   (zen = 0 \/ tan theta = 0 \/ cos (arg i j - az) = 0 -> v = 0).
Proof.
  intros y zen theta az arg i j HV HW. destruct (Watm_val y i j HV) as (w & Ew & Pw). assert (Hl : forall l, In l (y_layers y) -> 0 <= l_w l) by apply HV.
  assert (HH : 0 <= height2 y). { apply total_nonneg. intros l Hi. apply Rmult_le_pos; [apply Hl; exact Hi|apply pow2_ge_0]. }
  assert (HK : 0 <= k2AO y i j) by (unfold k2AO; pose proof (pow2_ge_0 (kxAO y i j)); pose proof (pow2_ge_0 (kyAO y i j)); lra).
  assert (HP : 0 <= (2 * PI) ^ 2 * k2AO y i j * tan theta ^ 2 * height2 y * w).
  { apply Rmult_le_pos; [|exact Pw]. apply Rmult_le_pos; [|exact HH]. apply Rmult_le_pos; [apply Rmult_le_pos; [apply pow2_ge_0|exact HK]|apply pow2_ge_0]. }
  unfold differentialRefractionPSD. rewrite Ew. cbn [bind]. destruct (Req_EM_T zen 0) as [Z|Z].
  - exists 0, w. split; [reflexivity|]. split; [reflexivity|]. repeat split; try lra; exact HP.
  - set (q := sqrt (k2AO y i j) * tan theta * cos (arg i j - az)).
    assert (EQ : lsum (map (fun l => 2 * l_w l * (1 - cos (2 * PI * l_h l * sqrt (k2AO y i j) * tan theta * cos (arg i j - az)))) (y_layers y)) = decorr (y_layers y) q) by (unfold decorr, q; f_equal; apply map_ext; intros l; do 3 f_equal; ring).
    rewrite EQ. exists (maskAO y i j * decorr (y_layers y) q * w), w. split; [reflexivity|]. split; [reflexivity|].
    destruct (decorr_bounds (y_layers y) q Hl) as (B1 & B2 & B3). fold (weight_sum y) in B2. rewrite HW in B2. fold (height2 y) in B3.
    assert (CS : q ^ 2 <= k2AO y i j * tan theta ^ 2). { unfold q. rewrite !Rpow_mult_distr, pow2_sqrt by exact HK. pose proof (COS_bound (arg i j - az)). assert (cos (arg i j - az) ^ 2 <= 1) by nra. rewrite <- (Rmult_1_r (k2AO y i j * tan theta ^ 2)) at 2. apply Rmult_le_compat_l; [apply Rmult_le_pos; [exact HK|apply pow2_ge_0]|assumption]. }
    assert (B4 : decorr (y_layers y) q <= (2 * PI) ^ 2 * k2AO y i j * tan theta ^ 2 * height2 y) by (eapply Rle_trans; [exact B3|]; apply Rmult_le_compat_r; [exact HH|]; rewrite Rpow_mult_distr, Rmult_assoc; apply Rmult_le_compat_l; [apply pow2_ge_0|exact CS]).
    assert (Z0 : tan theta = 0 \/ cos (arg i j - az) = 0 -> decorr (y_layers y) q = 0).
    { intros H. assert (q = 0) as -> by (unfold q; destruct H as [ ->| ->]; ring). unfold decorr. rewrite lsum_total. clear. induction (y_layers y) as [|l ls IH]; cbn [map total]; [reflexivity|]. rewrite IH, Rmult_0_r, cos_0. ring. }
    destruct (mask_01 y i j) as [ ->| ->]; rewrite ?Rmult_0_l, ?Rmult_1_l; (split; [nra|]); (split; [nra|]); (split; [first [exact HP|apply Rmult_le_compat_r; lra]|]); intros [H|H]; try contradiction; try reflexivity; rewrite (Z0 H); ring.
Qed.
(** C129: the hypotheses hold for a two-layer system. *)
Example C129_nonvacuous : let y := ex_sys ex_layers in valid_sys y /\ weight_sum y = 1 /\ height2 y = 750000.
Proof. intros y. split; [apply ex_valid, ex_w; left; reflexivity|]. split; [unfold weight_sum, total; cbn; lra|unfold height2; cbn; lra]. Qed.

Print Assumptions C129_bound.
Print Assumptions C129_invariance.
Print Assumptions C129_refraction.
