(** Properties C25, C26 (first part), C29, C50: reconstructor, controller and PSD
    contributions with one guide star. *)
From Coq Require Import Reals List Arith ZArith Lia Lra Psatz String.
From Flocq Require Import Core.Raux.
From Verif Require Import Base_Py Base_Sum M_Tools S_Tools L_Tools L_Tools2 M_Freq L_Freq M_Atmo S_Atmo L_Atmo P_Atmo M_Sensor L_Sensor S_Sensor M_Model S_Model L_Fourier2 L_Model L_Model2.
From Coquelicot Require Import Complex.
Import ListNotations.
Open Scope R_scope.

(** C25: for every frequency of the corrected area, sensor type and regularisation
    the reconstructed fraction of the phase is a real number between 0 and 1; it is
    exactly 1 without regularisation, and 0 at the piston frequency. *)
Theorem C25_filter_between_0_and_1 :
  forall (y : fsys) (MV : R) (i j : nat) (F : C), valid_sys y -> 0 <= MV -> filterF y MV i j = Ok F ->
  snd F = 0 /\ 0 <= fst F <= 1 /\
  ((i, j) = (y_res y / 2, y_res y / 2)%nat -> F = RtoC 0) /\
  ((i, j) <> (y_res y / 2, y_res y / 2)%nat -> MV = 0 -> F = RtoC 1).
Proof.
  intros y MV i j F HV HM HF. destruct (centre y i j) eqn:HC.
  - rewrite (filterF_centre _ _ _ _ _ HC HF). cbn. split; [reflexivity|]. split; [lra|]. split; [reflexivity|].
    intros H. unfold centre in HC. apply andb_prop in HC. destruct HC as (C1 & C2). apply Nat.eqb_eq in C1. apply Nat.eqb_eq in C2. exfalso. apply H. rewrite C1, C2. reflexivity.
  - destruct (filterF_off _ _ _ _ _ HC HF) as (sx & sy & m & _ & _ & HR & N & ->). destruct (reg_nonneg _ _ _ _ _ HV HM HR) as (M0 & M1 & _).
    assert (X := cnorm2_nonneg sx). assert (Y := cnorm2_nonneg sy). set (s := cnorm2 sx + cnorm2 sy) in *.
    assert (P : 0 < s + m) by (unfold s in *; lra). assert (PI' : 0 < / (s + m)) by (apply Rinv_0_lt_compat; exact P). cbn.
    split; [reflexivity|]. split; [split|split].
    + apply Rmult_le_pos; [unfold s; lra|lra].
    + apply (Rmult_le_reg_r (s + m)); [exact P|]. unfold Rdiv. rewrite Rmult_assoc, Rinv_l by lra. lra.
    + intros E. exfalso. unfold centre in HC. injection E as -> ->. rewrite !Nat.eqb_refl in HC. discriminate.
    + intros _ E. rewrite (M1 E). f_equal. rewrite Rplus_0_r. rewrite (M1 E), Rplus_0_r in P. field. lra.
Qed.
Print Assumptions C25_filter_between_0_and_1.

Lemma pow2_gt_0 x : x <> 0 -> 0 < x ^ 2.
Proof. intros H. destruct (Rdichotomy _ _ H); nra. Qed.
Lemma sinc_nz x : Rabs x < 1 -> sinc x <> 0.
Proof.
  intros H. unfold sinc. destruct (Req_EM_T x 0) as [|N]; [lra|]. assert (HP := PI_RGT_0).
  assert (S : sin (PI * x) <> 0).
  { destruct (Rlt_or_le 0 x) as [Hp|Hn].
    - rewrite Rabs_right in H by lra. assert (0 < sin (PI * x)) by (apply sin_gt_0; nra). lra.
    - rewrite Rabs_left1 in H by lra. assert (0 < sin (PI * - x)) by (apply sin_gt_0; nra).
      replace (PI * - x) with (- (PI * x)) in H0 by ring. rewrite sin_neg in H0. lra. }
  intros E. apply S. unfold Rdiv in E. apply Rmult_integral in E. destruct E as [E|E]; [exact E|]. exfalso. apply Rinv_neq_0_compat in E; [exact E|]. nra.
Qed.
Lemma freq_nz (z : Z) s o : 0 < o < s -> IZR z * s + o <> 0.
Proof.
  intros H E. destruct (Z_lt_le_dec z 0) as [L|L].
  - assert (IZR z <= -1) by (apply IZR_le; lia). nra.
  - assert (0 <= IZR z) by (apply IZR_le; lia). nra.
Qed.
(** C25: with a Shack-Hartmann sensor the reconstructor is defined at every
    frequency below 1/sub-aperture. *)
Theorem C25_defined :
  forall (y : fsys) (MV : R) (i j : nat), valid_sys y -> 0 <= MV -> upper (y_type y) = "SHACK-HARTMANN"%string ->
  0 < y_dsub y -> 0 < y_off y < y_step y -> Rabs (y_dsub y * kxAO y i j) < 1 -> Rabs (y_dsub y * kyAO y i j) < 1 ->
  exists F, filterF y MV i j = Ok F.
Proof.
  intros y MV i j HV HM HT Hd Ho Hx Hy. 
  assert (Ex : SxAv y i j = Ok (Cmult (imag (2 * PI * kxAO y i j * y_dsub y)) (Av y i j))) by (unfold SxAv, Sx; rewrite HT; reflexivity).
  assert (Ey : SyAv y i j = Ok (Cmult (imag (2 * PI * kyAO y i j * y_dsub y)) (Av y i j))) by (unfold SyAv, Sy; rewrite HT; reflexivity).
  assert (NA : 0 < cnorm2 (Av y i j)).
  { unfold Av. rewrite HT. cbn [String.eqb Ascii.eqb Bool.eqb]. rewrite cnorm2_mult, cnorm2_cis, cnorm2_RtoC. assert (A := sinc_nz _ Hx). assert (B := sinc_nz _ Hy).
    assert (P : sinc (y_dsub y * kxAO y i j) * sinc (y_dsub y * kyAO y i j) <> 0) by (apply Rmult_integral_contrapositive_currified; assumption).
    rewrite Rmult_1_r. apply pow2_gt_0. exact P. }
  assert (Nk : kxAO y i j <> 0) by (unfold kxAO, freq_x; apply freq_nz; exact Ho).
  destruct (Wphi_pos y i j HV) as (p & Ep & Pp). destruct (Wn_nonneg y HV) as (wn & Ew & Pw).
  assert (HR : exists r, recon y MV i j = Ok r).
  { unfold recon. rewrite Ex, Ey, Ep, Ew. cbn [bind]. pose proof HV as (_ & _ & _ & Hwv & Hg & _).
    rewrite rdiv_ok by lra. cbn [bind]. assert (Pq : 0 < a_wvl (y_atm y) / y_gswvl y) by (apply Rdiv_lt_0_compat; assumption).
    assert (PQ : 0 < p * (a_wvl (y_atm y) / y_gswvl y) ^ 2) by (apply Rmult_lt_0_compat; [exact Pp|apply pow_lt; exact Pq]).
    rewrite rdiv_ok by lra. cbn [bind]. rewrite !cmod2, !cnorm2_mult. set (m := MV * wn / _).
    assert (Pm : 0 <= m) by (unfold m; apply Rmult_le_pos; [nra|left; apply Rinv_0_lt_compat; exact PQ]).
    assert (PX : 0 < cnorm2 (imag (2 * PI * kxAO y i j * y_dsub y))).
    { unfold cnorm2, imag. cbn [fst snd]. assert (HP := PI_RGT_0). assert (0 < (2 * PI * kxAO y i j * y_dsub y) ^ 2); [|lra].
      apply pow2_gt_0. apply Rmult_integral_contrapositive_currified; [|lra]. apply Rmult_integral_contrapositive_currified; [lra|exact Nk]. }
    assert (PY := cnorm2_nonneg (imag (2 * PI * kyAO y i j * y_dsub y))).
    unfold cdivr. destruct (Req_EM_T _ 0) as [E|_]; [nra|]. cbn [bind].
    destruct (centre y i j); eexists; reflexivity. }
  destruct HR as (r & Er). unfold filterF. rewrite Er, Ex, Ey. eexists. reflexivity.
Qed.
Print Assumptions C25_defined.

(** C25: the regularised reconstructor (MV = 1) is optimal: among all linear
    reconstructors it minimises, at each frequency, the phase error plus the
    propagated noise. [W] is the phase spectrum at the guide star wavelength. *)
Theorem C25_optimal :
  forall (y : fsys) (i j : nat) (r : C * C) (sx sy rx ry : C) (p N : R), valid_sys y ->
  (i, j) <> (y_res y / 2, y_res y / 2)%nat -> recon y 1 i j = Ok r -> SxAv y i j = Ok sx -> SyAv y i j = Ok sy ->
  Wphi y i j = Ok p -> Wn y = Ok N ->
  let W := p * (a_wvl (y_atm y) / y_gswvl y) ^ 2 in
  mse sx sy (fst r) (snd r) W N <= mse sx sy rx ry W N.
Proof.
  intros y i j r sx sy rx ry p N HV Hne Er Ex Ey Ep EN W.
  assert (HC : centre y i j = false).
  { unfold centre. apply Bool.not_true_is_false. intros C. apply andb_prop in C. destruct C as (C1 & C2). apply Nat.eqb_eq in C1. apply Nat.eqb_eq in C2. apply Hne. rewrite C1, C2. reflexivity. }
  destruct (recon_off _ _ _ _ _ HC Er) as (sx' & sy' & m & Ex' & Ey' & HR & Nz & ->). rewrite Ex in Ex'. rewrite Ey in Ey'. apply Ok_inj in Ex'. apply Ok_inj in Ey'. subst sx' sy'.
  destruct (reg_nonneg _ _ _ _ _ HV Rle_0_1 HR) as (M0 & _ & _).
  assert (HWN : m * W = N /\ 0 < W /\ 0 <= N).
  { destruct HR as (q & p' & n' & Eq & Ep' & En' & Em). rewrite Ep in Ep'. rewrite EN in En'. apply Ok_inj in Ep'. apply Ok_inj in En'. subst p' n'.
    destruct (Wphi_pos y i j HV) as (p' & Ep' & Pp). rewrite Ep in Ep'. apply Ok_inj in Ep'. subst p'.
    destruct (Wn_nonneg y HV) as (n' & En' & Pn). rewrite EN in En'. apply Ok_inj in En'. subst n'.
    destruct HV as (_ & _ & _ & Hw & Hg & _). rewrite rdiv_ok in Eq by lra. apply Ok_inj in Eq. subst q.
    assert (PW : 0 < W) by (unfold W; apply Rmult_lt_0_compat; [exact Pp|apply pow_lt; apply Rdiv_lt_0_compat; assumption]).
    fold W in Em. rewrite rdiv_ok in Em by lra. apply Ok_inj in Em. subst m. split; [field; lra|]. split; [exact PW|exact Pn]. }
  destruct HWN as (E & PW & PN). clear HR Er Ep EN Ex Ey. clearbody W.
  set (g := cnorm2 sx + cnorm2 sy + m) in *.
  assert (X := cnorm2_nonneg sx). assert (Y := cnorm2_nonneg sy). assert (Pg : 0 < g) by (unfold g in *; lra).
  unfold mse. cbn [fst snd].
  destruct sx as [a b], sy as [c d], rx as [u v], ry as [w z]. unfold cnorm2, Cminus, Cplus, Copp, Cmult, Cconj, RtoC in *. cbn [fst snd] in *.
  set (A := a / g). set (B := - b / g). set (Cc := c / g). set (D := - d / g).
  assert (EA : a = A * g) by (unfold A; field; lra). assert (EB : b = - B * g) by (unfold B; field; lra).
  assert (EC : c = Cc * g) by (unfold Cc; field; lra). assert (ED : d = - D * g) by (unfold D; field; lra).
  (* difference of the two costs as a sum of squares *)
  match goal with |- ?L <= ?R =>
    assert (K : R - L = W * (((u - A) * a - (v - B) * b + ((w - Cc) * c - (z - D) * d)) ^ 2 + ((u - A) * b + (v - B) * a + ((w - Cc) * d + (z - D) * c)) ^ 2)
                 + N * ((u - A) ^ 2 + (v - B) ^ 2 + ((w - Cc) ^ 2 + (z - D) ^ 2))) end.
  { rewrite <- E. assert (EG : m = g - (a * (a * 1) + b * (b * 1) + (c * (c * 1) + d * (d * 1)))) by (unfold g; ring). rewrite EG. unfold A, B, Cc, D. field. lra. }
  assert (0 <= W * (((u - A) * a - (v - B) * b + ((w - Cc) * c - (z - D) * d)) ^ 2 + ((u - A) * b + (v - B) * a + ((w - Cc) * d + (z - D) * c)) ^ 2)).
  { apply Rmult_le_pos; [lra|]. apply Rplus_le_le_0_compat; apply pow2_ge_0. }
  assert (0 <= N * ((u - A) ^ 2 + (v - B) ^ 2 + ((w - Cc) ^ 2 + (z - D) ^ 2))).
  { apply Rmult_le_pos; [exact PN|]. repeat apply Rplus_le_le_0_compat; apply pow2_ge_0. }
  lra.
Qed.
Print Assumptions C25_optimal.

(** C25: the noise propagation |Rx^2 + Ry^2| used by the noise PSD is the expected
    |Rx|^2 + |Ry|^2 for both sensor types. *)
Theorem C25_noise_propagation :
  forall (y : fsys) (MV : R) (i j : nat) (r : C * C), recon y MV i j = Ok r ->
  Cmod (Cplus (Cmult (fst r) (fst r)) (Cmult (snd r) (snd r))) = cnorm2 (fst r) + cnorm2 (snd r).
Proof.
  intros y MV i j r Er.
  assert (K : forall (p q g : R) (a : C), g <> 0 -> 
     let z1 := (fst (Cconj (Cmult (imag p) a)) / g, snd (Cconj (Cmult (imag p) a)) / g) in
     let z2 := (fst (Cconj (Cmult (imag q) a)) / g, snd (Cconj (Cmult (imag q) a)) / g) in
     Cmod (Cplus (Cmult z1 z1) (Cmult z2 z2)) = cnorm2 z1 + cnorm2 z2).
  { intros p q g [a b] Hg z1 z2.
    assert (E : cnorm2 (Cplus (Cmult z1 z1) (Cmult z2 z2)) = (cnorm2 z1 + cnorm2 z2) ^ 2).
    { unfold z1, z2, cnorm2. cbn [Cplus Cmult Cconj imag fst snd]. field. exact Hg. }
    assert (X := cmod2 (Cplus (Cmult z1 z1) (Cmult z2 z2))). rewrite E in X. assert (P := Cmod_ge_0 (Cplus (Cmult z1 z1) (Cmult z2 z2))).
    assert (N1 := cnorm2_nonneg z1). assert (N2 := cnorm2_nonneg z2). nra. }
  destruct (centre y i j) eqn:HC.
  - assert (R : r = (RtoC 0, RtoC 0)). { unfold recon in Er. rewrite HC in Er. destruct (bind _ _) as [|[]]; try discriminate; apply Ok_inj in Er; symmetry; exact Er. }
    subst r. cbn [fst snd]. replace (Cplus _ _) with (RtoC 0) by (apply pair_eq; cbn; ring). rewrite Cmod_0, !cnorm2_RtoC. ring.
  - destruct (recon_off _ _ _ _ _ HC Er) as (sx & sy & m & Ex & Ey & _ & N & ->). cbn [fst snd].
    assert (Im : forall k l s, Sx y k l = Ok s -> exists p, s = imag p).
    { intros k l s. unfold Sx. destruct (String.eqb _ _); [intros H; apply Ok_inj in H; eexists; symmetry; exact H|]. destruct (String.eqb _ _); [|discriminate].
      intros H. apply bindOk in H. destruct H as (a & _ & H). apply bindOk in H. destruct H as (b & _ & H). cbv zeta in H. destruct (Rlt_dec _ _).
      - apply Ok_inj in H. eexists; symmetry; exact H.
      - apply bindOk in H. destruct H as (q & _ & H). apply Ok_inj in H. eexists; symmetry; exact H. }
    unfold SxAv in Ex. apply bindOk in Ex. destruct Ex as (s1 & E1 & Ex). apply Ok_inj in Ex. destruct (Im _ _ _ E1) as (p & ->).
    unfold SyAv in Ey. apply bindOk in Ey. destruct Ey as (s2 & E2 & Ey). apply Ok_inj in Ey.
    assert (I2 : exists q, s2 = imag q). { unfold Sy in E2. destruct (String.eqb _ _); [apply Ok_inj in E2; eexists; symmetry; exact E2|apply (Im j i); exact E2]. }
    destruct I2 as (q & ->). subst sx sy. apply K. exact N.
Qed.
Print Assumptions C25_noise_propagation.

(** C50: rejection and correction transfer functions are complementary as long as
    the loop is not exactly at its instability point. *)
Theorem C50_rejection_plus_correction :
  forall g delay t, eps <= Cmod (Cplus (RtoC 1) (Cmult (hInt g t) (zpow t (- delay)))) ->
  Cplus (rtfInt g delay t) (atfInt g delay t) = RtoC 1.
Proof.
  intros g delay t H. unfold atfInt, rtfInt. rewrite guard_big by exact H. set (u := Cmult (hInt g t) (zpow t (- delay))) in *.
  assert (N : Cplus (RtoC 1) u <> RtoC 0). { intros E. rewrite E, Cmod_0 in H. assert (P := eps_pos). lra. }
  field. exact N.
Qed.
Print Assumptions C50_rejection_plus_correction.
(** C50: the squared mean transfer function never exceeds the mean squared one
    (times the total weight), and the noise transfer equals the signal transfer. *)
Theorem C50_mean_transfer :
  forall y n i j, (1 <= n)%nat -> (forall l, In l (y_layers y) -> 0 <= l_w l) ->
  cnorm2 (h1 y n i j) <= weight_sum y * h2 y n i j /\ 0 <= h2 y n i j /\ hn y n i j = h2 y n i j.
Proof.
  intros y n i j Hn Hw. destruct (h1_h2 y n i j Hn Hw) as (A & B). split; [exact A|]. split; [exact B|].
  unfold hn, h2. rewrite !lsum_map. apply total_ext. intros l _. f_equal. rewrite !lsum_map. apply total_ext. intros th _. rewrite ntf_atf. reflexivity.
Qed.
Print Assumptions C50_mean_transfer.
(** C50: static turbulence is corrected up to eps/gain, whatever the delay. *)
Theorem C50_static_turbulence :
  forall y n i j, (1 <= n)%nat -> 0 < y_gain y -> weight_sum y = 1 -> (forall l, In l (y_layers y) -> l_vx l = 0 /\ l_vy l = 0) ->
  exists a, h1 y n i j = RtoC a /\ h2 y n i j = a ^ 2 /\ 1 - eps / y_gain y <= a < 1.
Proof.
  intros y n i j Hn Hg Hw Hv. destruct (static_h y n i j Hn Hg Hv) as (E1 & E2). rewrite Hw, Rmult_1_l in E1, E2.
  exists (y_gain y / (y_gain y + eps)). split; [exact E1|]. split; [exact E2|]. assert (P := eps_pos). split.
  - apply (Rmult_le_reg_r (y_gain y * (y_gain y + eps))); [nra|]. 
    replace ((1 - eps / y_gain y) * (y_gain y * (y_gain y + eps))) with ((y_gain y - eps) * (y_gain y + eps)) by (field; lra).
    replace (y_gain y / (y_gain y + eps) * (y_gain y * (y_gain y + eps))) with (y_gain y * y_gain y) by (field; lra). nra.
  - apply (Rmult_lt_reg_r (y_gain y + eps)); [lra|]. unfold Rdiv. rewrite Rmult_assoc, Rinv_l by lra. lra.
Qed.
Print Assumptions C50_static_turbulence.
(** C50: the frame rate must be positive; a null gain leaves no transfer function,
    so that the noise and aliasing PSDs cannot be computed in open loop. *)
Theorem C50_rate_checked :
  forall y nTh nF, y_gain y <> 0 ->
  (y_rate y = 0 -> controller y nTh nF = Err ZeroDivisionError) /\ (y_rate y < 0 -> controller y nTh nF = Err ValueError) /\
  (0 < y_rate y -> exists c, controller y nTh nF = Ok (Some c)).
Proof.
  intros y nTh nF Hg. unfold controller. destruct (Req_EM_T (y_gain y) 0); [contradiction|]. repeat split; intros H.
  - destruct (Req_EM_T (y_rate y) 0); [reflexivity|contradiction].
  - destruct (Req_EM_T (y_rate y) 0); [lra|]. destruct (Rlt_dec (y_rate y) 0); [reflexivity|lra].
  - destruct (Req_EM_T (y_rate y) 0); [lra|]. destruct (Rlt_dec (y_rate y) 0); [lra|]. eexists. reflexivity.
Qed.
Print Assumptions C50_rate_checked.
Theorem C50_open_loop_refuted :
  forall y MV nTh nF nT ch i j, y_gain y = 0 -> valid_sys y -> (exists v, pyindex (y_noise y) 0 = Ok v /\ 0 < v) ->
  (exists r, recon y MV i j = Ok r) -> 0 < y_rate y -> y_clock y <> [] ->
  noisePSD y MV nTh nF i j = Err AttributeError /\ aliasingPSD y MV ch nTh nF nT i j = Err AttributeError.
Proof.
  intros y MV nTh nF nT ch i j Hg HV (v & Ev & Pv) (r & Er) Hr Hc.
  assert (Ec : controller y nTh nF = Ok None) by (unfold controller; destruct (Req_EM_T (y_gain y) 0); [reflexivity|contradiction]).
  pose proof HV as (_ & _ & _ & _ & _ & _ & _ & Hn & Hv). destruct (mean_nonneg _ Hn Hv) as (m & Em & _). split.
  - unfold noisePSD. rewrite Em, Ev, Er, Ec. cbn [bind]. destruct (Rlt_dec 0 v); [reflexivity|contradiction].
  - unfold aliasingPSD. rewrite (mapM_map _ (fun c => c / y_rate y)) by (intros c _; apply rdiv_ok; lra). cbn [bind].
    unfold mean at 1. rewrite map_length. destruct (y_clock y); [congruence|]. cbn [length Nat.eqb bind]. rewrite Er, Ec. reflexivity.
Qed.
Print Assumptions C50_open_loop_refuted.

(** C26: every contribution is non-negative, at every frequency, for every valid
    system whose layer weights do not exceed one in total. *)
Theorem C26_contributions_nonnegative :
  forall (y : fsys) (MV : R) (nTh nF nT ch i j : nat) (v : R), valid_sys y -> weight_sum y <= 1 -> (1 <= nTh)%nat -> / 500 <= y_rate y -> 0 <= MV ->
  (noisePSD y MV nTh nF i j = Ok v \/
   aliasingPSD y MV ch nTh nF nT i j = Ok v \/
   (exists tx ty, spatioTemporalPSD y MV nTh nF tx ty i j = Ok v) \/
   servoLagPSD y MV nTh nF i j = Ok v \/
   reconstructionPSD y MV i j = Ok v \/
   (exists tx ty, anisoplanatismPSD y tx ty i j = Ok v) \/
   (exists ze th az ak, differentialRefractionPSD y ze th az ak i j = Ok v) \/
   (exists n1 n2, chromatismPSD y n1 n2 i j = Ok v) \/
   (exists kx ky, fittingPSD y kx ky = Ok v)) ->
  0 <= v.
Proof.
  intros y MV nTh nF nT ch i j v HV HW Hn Hr HM H. pose proof HV as (Hk & HS & Hr0 & Hwv & Hg & (L & HL & EL) & Hw & Hne & Hv).
  assert (Pm := mask_nonneg y i j). assert (Pp := piston_range y i j). destruct (Wphi_pos y i j HV) as (p & Ep & PW).
  assert (WA : Watm y i j = Ok (p * pistonAO y i j)) by (unfold Watm; rewrite Ep; reflexivity). assert (PA : 0 <= p * pistonAO y i j) by (apply Rmult_le_pos; lra).
  assert (SP : forall k, 0 <= k -> exists s, spectrum (y_sp y) (y_atm y) k = Ok s /\ 0 < s).
  { intros k H0. destruct (C17_spectrum_finite_L0 (y_sp y) (y_atm y) L HS EL HL Hr0 k (k + 1)) as (s1 & s2 & s0 & E & _ & _ & P1 & P2 & _); [exact H0|lra|]. exists s1. split; [exact E|lra]. }
  assert (CL : forall (f : lay -> R), (forall l, In l (y_layers y) -> 0 <= lsum (map (fun l => 2 * l_w l * (1 - cos (f l))) (y_layers y))) -> True) by auto. clear CL.
  assert (CS : forall (f : lay -> R), 0 <= lsum (map (fun l => 2 * l_w l * (1 - cos (f l))) (y_layers y))).
  { intros f. rewrite lsum_map. apply total_map_nonneg. intros l Hl. assert (X := Hw l Hl). assert (B := COS_bound (f l)). apply Rmult_le_pos; lra. }
  destruct H as [H|[H|[(tx & ty & H)|[H|[H|[(tx & ty & H)|[(ze & th & az & ak & H)|[(n1 & n2 & H)|(kx & ky & H)]]]]]]]].
  - unfold noisePSD in H. destruct (mean_nonneg _ Hne Hv) as (m & Em & Pmn). rewrite Em in H. cbn [bind] in H. apply bindOk in H. destruct H as (v0 & _ & H).
    destruct (Rlt_dec 0 v0) as [Pv0|]; [|apply Ok_inj in H; lra]. apply bindOk in H. destruct H as (r & _ & H). apply bindOk in H. destruct H as (c & Ec & H).
    destruct c as [[[a b] ng]|]; [|discriminate]. unfold controller in Ec. destruct (Req_EM_T _ 0); [discriminate|]. destruct (Req_EM_T _ 0); [discriminate|]. destruct (Rlt_dec _ 0); [discriminate|].
    apply Ok_inj in Ec. assert (EN : ng = noiseGain y nF) by (apply (f_equal (fun o => match o with Some (_, _, g) => g | None => 0 end)) in Ec; symmetry; exact Ec).
    rewrite rdiv_ok in H by nra. cbn [bind] in H. apply Ok_inj in H. subst v.
    assert (G := noiseGain_nonneg y nF Hr). rewrite <- EN in G.
    assert (Q : 0 <= Cmod (Cplus (Cmult (fst r) (fst r)) (Cmult (snd r) (snd r))) / (2 * y_kcMax y) ^ 2).
    { apply Rmult_le_pos; [apply Cmod_ge_0|left; apply Rinv_0_lt_compat; nra]. }
    apply Rmult_le_pos; [|exact Pmn]. apply Rmult_le_pos; [|exact G]. apply Rmult_le_pos; [|lra]. apply Rmult_le_pos; assumption.
  - unfold aliasingPSD in H. apply bindOk in H. destruct H as (cs & _ & H). apply bindOk in H. destruct H as (T & _ & H). cbv zeta in H.
    apply bindOk in H. destruct H as (r & _ & H). apply bindOk in H. destruct H as (c & _ & H). destruct c as [[[a b] ng]|]; [|discriminate].
    apply bindOk in H. destruct H as (ts & Et & H). rewrite rpow_pos in H by exact Hr0. cbn [bind] in H. apply Ok_inj in H. subst v.
    assert (PT : 0 <= lsum ts).
    { apply lsum_nonneg. intros x Hx. clear - Hx Et. revert ts Et Hx. generalize (flat_map (fun m => map (fun n => (m, n)) (shifts nT)) (shifts nT)).
      induction l as [|mn l IH]; intros ts Et Hx; cbn [mapM] in Et; [apply Ok_inj in Et; subst ts; destruct Hx|].
      apply bindOk in Et. destruct Et as (b0 & Eb & Et). apply bindOk in Et. destruct Et as (s & Es & Et). apply Ok_inj in Et. subst ts.
      destruct Hx as [ <-|Hx]; [|exact (IH s Es Hx)]. unfold alias_term in Eb. cbv zeta in Eb.
      apply bindOk in Eb. destruct Eb as (km & _ & Eb). apply bindOk in Eb. destruct Eb as (kn & _ & Eb). apply bindOk in Eb. destruct Eb as (l0 & _ & Eb).
      apply bindOk in Eb. destruct Eb as (W & EW & Eb). apply bindOk in Eb. destruct Eb as (sm & _ & Eb). apply Ok_inj in Eb. subst b0.
      assert (PW : 0 <= W). { unfold rpow in EW. destruct (Rlt_dec _ 0); [discriminate|]. destruct (Req_EM_T _ 0); [destruct (Rlt_dec _ _); [apply Ok_inj in EW; lra|discriminate]|]. apply Ok_inj in EW. subst W. left. apply Rpower_pos. }
      destruct (pistonFilter_range (y_j1 y) (y_D y) (hypot km kn)) as (P1 & _).
      apply Rmult_le_pos; [|unfold b2R; destruct (negb _); lra]. apply Rmult_le_pos; [|apply pow2_ge_0]. apply Rmult_le_pos; assumption. }
    apply Rmult_le_pos; [|lra]. apply Rmult_le_pos; [|left; apply Rpower_pos]. apply Rmult_le_pos; assumption.
  - unfold spatioTemporalPSD in H. rewrite WA in H. cbn [bind] in H. apply bindOk in H. destruct H as (F & EF & H). apply bindOk in H. destruct H as (c & Ec & H).
    destruct (C25_filter_between_0_and_1 y MV i j F HV HM EF) as (HF & _).
    destruct c as [[[a b] ng]|]; apply Ok_inj in H; subst v; [|apply Rmult_le_pos; [apply pow2_ge_0|exact PA]].
    unfold controller in Ec. destruct (Req_EM_T _ 0); [discriminate|]. destruct (Req_EM_T _ 0); [discriminate|]. destruct (Rlt_dec _ 0); [discriminate|].
    apply Ok_inj in Ec. assert (EA : a = h1 y nTh) by congruence. assert (EB : b = h2 y nTh) by congruence. subst a b.
    destruct (h1_h2 y nTh i j Hn Hw) as (J1 & J2). apply Rmult_le_pos; [|exact PA]. apply Rmult_le_pos; [exact Pm|]. rewrite cmod2.
    apply residual_nonneg; [exact HF| |apply aniso_A_bound; assumption]. nra.
  - unfold servoLagPSD in H. apply bindOk in H. destruct H as (F & EF & H). rewrite WA in H. cbn [bind] in H. apply bindOk in H. destruct H as (c & Ec & H).
    apply Ok_inj in H. subst v. apply Rmult_le_pos; [exact Pm|apply Rabs_pos].
  - unfold reconstructionPSD in H. apply bindOk in H. destruct H as (F & _ & H). rewrite Ep in H. cbn [bind] in H. apply Ok_inj in H. subst v.
    apply Rmult_le_pos; [|lra]. apply Rmult_le_pos; [|lra]. apply Rmult_le_pos; [apply pow2_ge_0|exact Pm].
  - unfold anisoplanatismPSD in H. rewrite WA in H. cbn [bind] in H. destruct (if Req_EM_T tx 0 then _ else _); apply Ok_inj in H; subst v; [lra|].
    apply Rmult_le_pos; [|exact PA]. apply Rmult_le_pos; [exact Pm|apply CS].
  - unfold differentialRefractionPSD in H. rewrite WA in H. cbn [bind] in H. destruct (Req_EM_T ze 0); apply Ok_inj in H; subst v; [lra|].
    apply Rmult_le_pos; [|exact PA]. apply Rmult_le_pos; [exact Pm|apply CS].
  - unfold chromatismPSD in H. rewrite WA in H. cbn [bind] in H. apply bindOk in H. destruct H as (q & _ & H). apply Ok_inj in H. subst v.
    apply Rmult_le_pos; [apply pow2_ge_0|exact PA].
  - unfold fittingPSD in H. destruct (mskOut _ _ _ _); [|apply Ok_inj in H; lra]. destruct (SP (sqrt (kx ^ 2 + ky ^ 2)) (sqrt_pos _)) as (s & Es & Ps). rewrite Es in H. apply Ok_inj in H. lra.
Qed.
Print Assumptions C26_contributions_nonnegative.

(** C26 refuted: weights summing to slightly more than one (accepted by the
    configuration check up to 1.001) give a negative spatio-temporal PSD: here for
    every system without wind, at every corrected frequency, on axis. *)
Theorem C26_weight_excess_refuted :
  forall (y : fsys) (nTh nF i j : nat) (v : R), valid_sys y -> 1 + / 10 ^ 6 <= weight_sum y -> (1 <= nTh)%nat -> 0 < y_rate y -> / 1000 <= y_gain y ->
  (forall l, In l (y_layers y) -> l_vx l = 0 /\ l_vy l = 0) ->
  (i, j) <> (y_res y / 2, y_res y / 2)%nat -> maskAO y i j = 1 -> 0 < pistonAO y i j ->
  spatioTemporalPSD y 0 nTh nF 0 0 i j = Ok v -> v < 0.
Proof.
  intros y nTh nF i j v HV HW Hn Hr Hg Hv Hc Hm Hp H. destruct (Wphi_pos y i j HV) as (p & Ep & PW).
  unfold spatioTemporalPSD, Watm in H. rewrite Ep in H. cbn [bind] in H. apply bindOk in H. destruct H as (F & EF & H).
  destruct (C25_filter_between_0_and_1 y 0 i j F HV (Rle_refl 0) EF) as (_ & _ & _ & HF). rewrite (HF Hc eq_refl) in H. clear EF HF F.
  destruct (C50_rate_checked y nTh nF ltac:(lra)) as (_ & _ & EC). destruct (EC Hr) as (c & Ec). rewrite Ec in H. cbn [bind] in H.
  unfold controller in Ec. destruct (Req_EM_T _ 0); [discriminate|]. destruct (Req_EM_T _ 0); [discriminate|]. destruct (Rlt_dec _ 0); [discriminate|].
  apply Ok_inj in Ec. destruct c as [[a b] ng]. assert (EA : a = h1 y nTh) by congruence. assert (EB : b = h2 y nTh) by congruence. subst a b.
  destruct (static_h y nTh i j Hn ltac:(lra) Hv) as (E1 & E2). set (a := y_gain y / (y_gain y + eps)) in *. rewrite E1, E2 in H. clear E1 E2.
  assert (EA : aniso_A y 0 0 i j = RtoC 1). { unfold aniso_A. destruct (Req_EM_T 0 0); [reflexivity|congruence]. } rewrite EA, Hm, cmod2, cnorm2_RtoC in H.
  rewrite <- !RtoC_mult in H. cbn [RtoC fst] in H. apply Ok_inj in H. subst v.
  set (W := weight_sum y) in *. clearbody W. assert (P := eps_pos). assert (ES := eps_small).
  assert (B : 0 <= 1 - a <= / 10 ^ 12).
  { unfold a. replace (1 - y_gain y / (y_gain y + eps)) with (eps / (y_gain y + eps)) by (field; lra). split.
    - apply Rmult_le_pos; [lra|left; apply Rinv_0_lt_compat; lra].
    - apply (Rmult_le_reg_r (y_gain y + eps)); [lra|]. unfold Rdiv. rewrite Rmult_assoc, Rinv_l by lra. nra. }
  clearbody a. assert (N : 1 + 1 ^ 2 * (W * a ^ 2) - 2 * (1 * (W * a) * 1) < 0).
  { replace (1 + 1 ^ 2 * (W * a ^ 2) - 2 * (1 * (W * a) * 1)) with (1 - W + W * (1 - a) ^ 2) by ring.
    assert ((1 - a) ^ 2 <= / 10 ^ 24) by nra. assert (W * (1 - a) ^ 2 <= W * / 10 ^ 24) by (apply Rmult_le_compat_l; lra). lra. }
  assert (0 < p * pistonAO y i j) by (apply Rmult_lt_0_compat; assumption). rewrite Rmult_1_l. nra.
Qed.
Print Assumptions C26_weight_excess_refuted.
