(** C135: what improves the correction and what degrades it: actuator pitch, outer scale, regularisation, noise. *)
From Coq Require Import Reals List Arith ZArith Bool String Lia Lra.
From Flocq Require Import Core.Raux.
From Verif Require Import Base_Py Base_Sum M_Tools L_Tools L_Tools2 M_Freq L_Freq M_Atmo S_Atmo L_Atmo P_Atmo M_Sensor M_Model S_Tools S_Model L_Model L_Model2 P_Model P_Model2.
From Coquelicot Require Import Complex.
Import ListNotations.
Open Scope R_scope.

(** Specification: the same system with another cut-off frequency (actuator pitch), shape of the corrected area, or list of
    noise variances. *)
Definition with_cutoff (y : fsys) (circle : bool) (kc : R) : fsys :=
  mkSys (y_res y) (y_step y) (y_off y) kc circle (y_D y) (y_j1 y) (y_sp y) (y_atm y) (y_layers y)
        (y_type y) (y_dsub y) (y_nL y) (y_mod y) (y_bin y) (y_clock y) (y_noise y) (y_gswvl y) (y_gain y) (y_rate y) (y_delay y).
Definition with_noise (y : fsys) (ns : list R) : fsys :=
  mkSys (y_res y) (y_step y) (y_off y) (y_kcMax y) (y_circle y) (y_D y) (y_j1 y) (y_sp y) (y_atm y) (y_layers y)
        (y_type y) (y_dsub y) (y_nL y) (y_mod y) (y_bin y) (y_clock y) ns (y_gswvl y) (y_gain y) (y_rate y) (y_delay y).

Lemma mskOut_le circle kc kc' kx ky : 0 <= kc -> kc <= kc' -> mskOut circle kc' kx ky = true -> mskOut circle kc kx ky = true.
Proof.
  intros H0 H. unfold mskOut. destruct circle.
  - destruct (Rge_dec (kx ^ 2 + ky ^ 2) (kc' ^ 2)) as [G|G]; [|discriminate]. intros _. destruct (Rge_dec (kx ^ 2 + ky ^ 2) (kc ^ 2)) as [G'|G']; [reflexivity|].
    exfalso. apply G'. apply Rle_ge. apply Rge_le in G. apply Rle_trans with (kc' ^ 2); [apply pow_incr; lra|exact G].
  - destruct (Rge_dec (Rabs kx) kc'), (Rge_dec (Rabs ky) kc'), (Rge_dec (Rabs kx) kc), (Rge_dec (Rabs ky) kc); cbn; intros; try reflexivity; try discriminate; exfalso; lra.
Qed.

Lemma square_out_circle_out kc kx ky : 0 <= kc -> mskOut false kc kx ky = true -> mskOut true kc kx ky = true.
Proof.
  intros Hk H. pose proof (mskIn_circle_square kc kx ky Hk) as I. pose proof (mskIn_Out true kc kx ky) as A. pose proof (mskIn_Out false kc kx ky) as B.
  rewrite H in B. destruct (mskOut true kc kx ky); [reflexivity|]. rewrite A in I. specialize (I eq_refl). rewrite B in I. discriminate.
Qed.
(** C135: a finer pitch of the deformable mirror (a higher cut-off) removes power from the fitting error and never adds any, at
    every frequency; and so does a square corrected area rather than the disc inscribed in it. *)
Theorem C135_fitting : forall y circle kc circle' kc' kx ky v v', valid_sys y -> 0 <= kc -> kc <= kc' ->
  (circle' = circle \/ circle' = false) ->
  fittingPSD (with_cutoff y circle kc) kx ky = Ok v -> fittingPSD (with_cutoff y circle' kc') kx ky = Ok v' ->
  0 <= v' <= v /\ (v' = v \/ v' = 0).
Proof.
  intros y circle kc circle' kc' kx ky v v' (_ & HS & Hr & _ & _ & (L & HL & EL) & _) H0 Hk Hc. unfold fittingPSD. cbn [with_cutoff y_circle y_kcMax y_sp y_atm].
  destruct (C17_spectrum_finite_L0 (y_sp y) (y_atm y) L HS EL HL Hr (sqrt (kx ^ 2 + ky ^ 2)) (sqrt (kx ^ 2 + ky ^ 2) + 1)) as (s1 & s2 & s0 & E & _ & _ & P1 & P2 & _);
    [apply sqrt_pos|lra|]. rewrite E.
  assert (M : mskOut circle' kc' kx ky = true -> mskOut circle kc kx ky = true).
  { intros H. destruct Hc as [ ->| ->]; [apply (mskOut_le circle kc kc'); assumption|].
    apply (mskOut_le false kc kc' kx ky H0 Hk) in H. destruct circle; [|exact H].
    apply square_out_circle_out; assumption. }
  destruct (mskOut circle' kc' kx ky); [rewrite M by reflexivity|].
  - intros A B. apply Ok_inj in A. apply Ok_inj in B. subst v v'. split; [lra|left; reflexivity].
  - intros A B. apply Ok_inj in B. subst v'. destruct (mskOut circle kc kx ky); apply Ok_inj in A; subst v; split; try (right; reflexivity); lra.
Qed.
Print Assumptions C135_fitting.

(** C135: at the same r0 a larger outer scale means more turbulence at every frequency; an infinite one, the most. *)
Theorem C135_outer_scale : forall sp a b k L, special_pos sp -> 0 < a_r0 a -> a_r0 b = a_r0 a -> 0 < k -> a_L0 a = LNum (Fin L) -> 0 < L ->
  ((exists L', L < L' /\ a_L0 b = LNum (Fin L')) \/ a_L0 b = LNum Inf) ->
  exists s t, spectrum sp a k = Ok s /\ spectrum sp b k = Ok t /\ 0 < s < t.
Proof.
  intros sp a b k L HS Hr Er Hk EL HL H. rewrite (spectrum_fin sp a L) by assumption.
  assert (C := cte_pos sp HS). assert (P := Rpower_pos (a_r0 a) (- 5 / 3)).
  assert (K2 : 0 < k ^ 2) by (apply pow_lt; exact Hk).
  assert (I : 0 < 1 / L ^ 2) by (apply Rdiv_lt_0_compat; [lra|apply pow_lt; exact HL]).
  assert (HK : 0 < Rpower (a_r0 a) (- 5 / 3) * (c1 sp * (g116 sp ^ 2 / (2 * Rpower PI (11 / 3))))) by (apply Rmult_lt_0_compat; assumption).
  destruct H as [(L' & HLL & EL')|EI].
  - rewrite (spectrum_fin sp b L') by (try assumption; rewrite ?Er; lra). rewrite Er.
    do 2 eexists. split; [reflexivity|]. split; [reflexivity|].
    assert (I' : 0 < 1 / L' ^ 2) by (apply Rdiv_lt_0_compat; [lra|apply pow_lt; lra]).
    assert (II : 1 / L' ^ 2 < 1 / L ^ 2).
    { apply Rmult_lt_compat_l; [lra|]. apply Rinv_lt_contravar; [apply Rmult_lt_0_compat; apply pow_lt; lra|].
      replace (L ^ 2) with (L * L) by ring. replace (L' ^ 2) with (L' * L') by ring. apply Rmult_le_0_lt_compat; lra. }
    split; [apply Rmult_lt_0_compat; [exact HK|apply Rpower_pos]|]. apply Rmult_lt_compat_l; [exact HK|]. apply Rpower_neg_lt; lra.
  - rewrite (spectrum_inf sp b) by (try assumption; rewrite ?Er; lra). rewrite Er.
    do 2 eexists. split; [reflexivity|]. split; [reflexivity|].
    split; [apply Rmult_lt_0_compat; [exact HK|apply Rpower_pos]|]. apply Rmult_lt_compat_l; [exact HK|]. apply Rpower_neg_lt; lra.
Qed.
Print Assumptions C135_outer_scale.

Lemma resid_mono g m m' : 0 <= g -> 0 <= m -> m <= m' -> g + m <> 0 -> g + m' <> 0 ->
  Cmod (Cminus (RtoC 1) (RtoC (g / (g + m)))) ^ 2 <= Cmod (Cminus (RtoC 1) (RtoC (g / (g + m')))) ^ 2.
Proof.
  intros Hg Hm Hmm N N'. rewrite <- !RtoC_minus, !Cmod_R.
  replace (1 - g / (g + m)) with (m / (g + m)) by (field; exact N). replace (1 - g / (g + m')) with (m' / (g + m')) by (field; exact N').
  assert (P : 0 < g + m) by lra. assert (P' : 0 < g + m') by lra.
  assert (A : 0 <= m / (g + m)) by (apply Rmult_le_pos; [exact Hm|left; apply Rinv_0_lt_compat; exact P]).
  assert (B : m / (g + m) <= m' / (g + m')).
  { apply (Rmult_le_reg_r ((g + m) * (g + m'))); [apply Rmult_lt_0_compat; assumption|].
    replace (m / (g + m) * ((g + m) * (g + m'))) with (m * (g + m')) by (field; exact N).
    replace (m' / (g + m') * ((g + m) * (g + m'))) with (m' * (g + m)) by (field; exact N'). nra. }
  apply pow_incr. rewrite !Rabs_right by lra. lra.
Qed.

Lemma recon_psd_mono y y' MV MV' i j v v' :
  centre y' i j = centre y i j -> pistonAO y' i j = pistonAO y i j -> maskAO y' i j = maskAO y i j -> Wphi y' i j = Wphi y i j ->
  SxAv y' i j = SxAv y i j -> SyAv y' i j = SyAv y i j -> valid_sys y -> valid_sys y' -> 0 <= MV -> 0 <= MV' ->
  (forall m m', reg y MV i j m -> reg y' MV' i j m' -> m <= m') ->
  reconstructionPSD y MV i j = Ok v -> reconstructionPSD y' MV' i j = Ok v' -> v <= v'.
Proof.
  intros Ec Ep Em Ew Ex Ey HV HV' HM HM' Hreg. unfold reconstructionPSD.
  intros H H'. apply bindOk in H. destruct H as (F & EF & H). apply bindOk in H'. destruct H' as (F' & EF' & H').
  rewrite Ew in H'. destruct (Wphi_pos y i j HV) as (p & EP & PP). rewrite EP in H, H'. cbn [bind] in H, H'. apply Ok_inj in H. apply Ok_inj in H'. subst v v'.
  rewrite Ep, Em. destruct (centre y i j) eqn:C.
  - unfold pistonAO. rewrite C. rewrite !Rmult_0_r. lra.
  - destruct (filterF_off y MV i j F C EF) as (sx & sy & m & E1 & E2 & R1 & N1 & ->).
    destruct (filterF_off y' MV' i j F' Ec EF') as (sx' & sy' & m' & E1' & E2' & R1' & N1' & ->).
    rewrite Ex, E1 in E1'. apply Ok_inj in E1'. subst sx'. rewrite Ey, E2 in E2'. apply Ok_inj in E2'. subst sy'.
    pose proof (Hreg _ _ R1 R1') as L. destruct (reg_nonneg y MV i j m HV HM R1) as (M0 & _).
    assert (G : 0 <= cnorm2 sx + cnorm2 sy) by (pose proof (cnorm2_nonneg sx); pose proof (cnorm2_nonneg sy); lra).
    pose proof (resid_mono _ m m' G M0 L N1 N1') as X.
    apply Rmult_le_compat_r; [apply piston_range|]. apply Rmult_le_compat_r; [lra|]. apply Rmult_le_compat_r; [apply mask_nonneg|exact X].
Qed.

Lemma reg_val y MV i j m : reg y MV i j m -> valid_sys y -> exists c wn, 0 < c /\ Wn y = Ok wn /\ 0 <= wn /\ m = MV * wn * c /\
  (forall y', a_wvl (y_atm y') = a_wvl (y_atm y) -> y_gswvl y' = y_gswvl y -> Wphi y' i j = Wphi y i j -> forall MV' m', reg y' MV' i j m' -> exists wn', Wn y' = Ok wn' /\ m' = MV' * wn' * c).
Proof.
  intros (q & p & wn & Eq & Ep & Ew & Em) HV. destruct (Wphi_pos y i j HV) as (p' & Ep' & Pp). rewrite Ep in Ep'. apply Ok_inj in Ep'. subst p'.
  destruct (Wn_nonneg y HV) as (w' & Ew' & Pw). rewrite Ew in Ew'. apply Ok_inj in Ew'. subst w'.
  destruct HV as (_ & _ & _ & Hw & Hg & _). pose proof Eq as Eq0. rewrite rdiv_ok in Eq by lra. apply Ok_inj in Eq.
  assert (Pq : 0 < q) by (subst q; apply Rdiv_lt_0_compat; assumption). assert (PQ : 0 < p * q ^ 2) by (apply Rmult_lt_0_compat; [exact Pp|apply pow_lt; exact Pq]).
  rewrite rdiv_ok in Em by lra. apply Ok_inj in Em.
  exists (/ (p * q ^ 2)), wn. split; [apply Rinv_0_lt_compat; exact PQ|]. split; [exact Ew|]. split; [exact Pw|]. split; [rewrite <- Em; reflexivity|].
  intros y' Ea Eg EW MV' m' (q' & p' & wn' & A & B & D & E). rewrite Ea, Eg, Eq0 in A. apply Ok_inj in A. subst q'. rewrite EW, Ep in B. apply Ok_inj in B. subst p'.
  exists wn'. split; [exact D|]. rewrite rdiv_ok in E by lra. apply Ok_inj in E. rewrite <- E. reflexivity.
Qed.
(** C135: a stronger regularisation of the reconstructor filters more turbulence out of the measurements: the reconstruction
    error grows, at every frequency. *)
Theorem C135_regularisation_bias : forall y MV MV' i j v v', valid_sys y -> 0 <= MV -> MV <= MV' ->
  reconstructionPSD y MV i j = Ok v -> reconstructionPSD y MV' i j = Ok v' -> 0 <= v <= v'.
Proof.
  intros y MV MV' i j v v' HV HM HMM H H'. split.
  - revert H. unfold reconstructionPSD. intros H. apply bindOk in H. destruct H as (F & _ & H). destruct (Wphi_pos y i j HV) as (p & EP & PP). rewrite EP in H. cbn [bind] in H. apply Ok_inj in H. subst v.
    apply Rmult_le_pos; [|apply piston_range]. apply Rmult_le_pos; [|lra]. apply Rmult_le_pos; [apply pow2_ge_0|apply mask_nonneg].
  - apply (recon_psd_mono y y MV MV' i j v v'); try reflexivity; try assumption; [lra|]. intros m m' R R'.
    destruct (reg_val y MV i j m R HV) as (c & wn & Pc & Ew & Pw & -> & G). destruct (G y eq_refl eq_refl eq_refl MV' m' R') as (wn' & Ew' & ->).
    rewrite Ew in Ew'. apply Ok_inj in Ew'. subst wn'. apply Rmult_le_compat_r; [lra|]. apply Rmult_le_compat_r; assumption.
Qed.
Print Assumptions C135_regularisation_bias.

(** C135: at a given regularisation a noisier sensor (a larger mean noise variance) has a larger reconstruction error. *)
Theorem C135_noise_bias : forall y ns MV i j v v' m m', valid_sys y -> valid_sys (with_noise y ns) -> 0 <= MV ->
  mean (y_noise y) = Ok m -> mean ns = Ok m' -> m <= m' ->
  reconstructionPSD y MV i j = Ok v -> reconstructionPSD (with_noise y ns) MV i j = Ok v' -> v <= v'.
Proof.
  intros y ns MV i j v v' m m' HV HV' HM Em Em' Hm H H'.
  apply (recon_psd_mono y (with_noise y ns) MV MV i j v v'); try reflexivity; try assumption. intros r r' R R'.
  destruct (reg_val y MV i j r R HV) as (c & wn & Pc & Ew & Pw & -> & G). destruct (G (with_noise y ns) eq_refl eq_refl eq_refl MV r' R') as (wn' & Ew' & ->).
  destruct HV as (Hk & _). unfold Wn in Ew, Ew'. cbn [with_noise y_noise y_kcMax] in Ew'. rewrite Em in Ew. rewrite Em' in Ew'. cbn [bind] in Ew, Ew'.
  assert (K : 0 < (2 * y_kcMax y) ^ 2) by (apply pow_lt; lra). rewrite rdiv_ok in Ew, Ew' by lra. apply Ok_inj in Ew. apply Ok_inj in Ew'. subst wn wn'.
  apply Rmult_le_compat_r; [lra|]. apply Rmult_le_compat_l; [exact HM|]. apply Rmult_le_compat_r; [left; apply Rinv_0_lt_compat; exact K|exact Hm].
Qed.
Print Assumptions C135_noise_bias.

Lemma cmod_scaled (sx sy : C) G : 0 < G ->
  Cmod (Cplus (Cmult (fst (Cconj sx) / G, snd (Cconj sx) / G) (fst (Cconj sx) / G, snd (Cconj sx) / G)) (Cmult (fst (Cconj sy) / G, snd (Cconj sy) / G) (fst (Cconj sy) / G, snd (Cconj sy) / G)))
  = Cmod (Cplus (Cmult (Cconj sx) (Cconj sx)) (Cmult (Cconj sy) (Cconj sy))) / G ^ 2.
Proof.
  intros HG. assert (P : 0 < / G ^ 2) by (apply Rinv_0_lt_compat, pow_lt; exact HG).
  transitivity (Cmod (Cmult (Cplus (Cmult (Cconj sx) (Cconj sx)) (Cmult (Cconj sy) (Cconj sy))) (RtoC (/ G ^ 2)))).
  - f_equal. apply pair_eq; cbn; field; lra.
  - rewrite Cmod_mult, Cmod_R, Rabs_right by lra. reflexivity.
Qed.

(** C135: a stronger regularisation lets less measurement noise through, at every frequency. *)
Theorem C135_regularisation_noise : forall y MV MV' nTh nF i j v v', valid_sys y -> / 500 <= y_rate y -> 0 <= MV -> MV <= MV' ->
  noisePSD y MV nTh nF i j = Ok v -> noisePSD y MV' nTh nF i j = Ok v' -> 0 <= v' <= v.
Proof.
  intros y MV MV' nTh nF i j v v' HV Hr HM HMM. pose proof HV as (Hk & _ & _ & _ & _ & _ & _ & Hne & Hv).
  unfold noisePSD. destruct (mean_nonneg _ Hne Hv) as (m & Em & Pmn). rewrite Em. cbn [bind].
  destruct (pyindex (y_noise y) 0) as [v0|]; cbn [bind]; [|discriminate]. destruct (Rlt_dec 0 v0) as [Pv0|]; [|intros A B; apply Ok_inj in A; apply Ok_inj in B; lra].
  intros H H'. apply bindOk in H. destruct H as (r & Er & H). apply bindOk in H'. destruct H' as (r' & Er' & H').
  destruct (controller y nTh nF) as [[[[a b] ng]|]|] eqn:Ec; cbn [bind] in H, H'; try discriminate.
  assert (EN : ng = noiseGain y nF).
  { unfold controller in Ec. destruct (Req_EM_T _ 0); [discriminate|]. destruct (Req_EM_T _ 0); [discriminate|]. destruct (Rlt_dec _ 0); [discriminate|].
    apply Ok_inj in Ec. apply (f_equal (fun o => match o with Some (_, _, g) => g | None => 0 end)) in Ec. symmetry. exact Ec. }
  assert (G := noiseGain_nonneg y nF Hr). rewrite <- EN in G.
  assert (K : 0 < (2 * y_kcMax y) ^ 2) by (apply pow_lt; lra). rewrite rdiv_ok in H, H' by lra. cbn [bind] in H, H'. apply Ok_inj in H. apply Ok_inj in H'. subst v v'.
  assert (KI : 0 < / (2 * y_kcMax y) ^ 2) by (apply Rinv_0_lt_compat; exact K).
  pose proof (piston_range y i j) as PP. pose proof (mask_nonneg y i j) as PM.
  assert (MONO : forall q q', 0 <= q' <= q -> 0 <= maskAO y i j * q' * pistonAO y i j * ng * m <= maskAO y i j * q * pistonAO y i j * ng * m).
  { intros q q' [Q0 Q1]. split.
    - apply Rmult_le_pos; [|exact Pmn]. apply Rmult_le_pos; [|exact G]. apply Rmult_le_pos; [|lra]. apply Rmult_le_pos; assumption.
    - apply Rmult_le_compat_r; [exact Pmn|]. apply Rmult_le_compat_r; [exact G|]. apply Rmult_le_compat_r; [lra|]. apply Rmult_le_compat_l; assumption. }
  apply MONO. split; [apply Rmult_le_pos; [apply Cmod_ge_0|lra]|]. apply Rmult_le_compat_r; [lra|].
  destruct (centre y i j) eqn:C.
  - assert (Z : forall M x, recon y M i j = Ok x -> x = (RtoC 0, RtoC 0)).
    { intros M x E. unfold recon in E. rewrite C in E. destruct (bind _ _) as [|[]]; try discriminate; apply Ok_inj in E; symmetry; exact E. }
    rewrite (Z _ _ Er), (Z _ _ Er'). lra.
  - destruct (recon_off y MV i j r C Er) as (sx & sy & g & E1 & E2 & R1 & N1 & ->).
    destruct (recon_off y MV' i j r' C Er') as (sx' & sy' & g' & E1' & E2' & R1' & N1' & ->).
    rewrite E1 in E1'. apply Ok_inj in E1'. subst sx'. rewrite E2 in E2'. apply Ok_inj in E2'. subst sy'.
    destruct (reg_nonneg y MV i j g HV HM R1) as (M0 & _).
    destruct (reg_val y MV i j g R1 HV) as (c & wn & Pc & Ew & Pw & Eg & Gv). destruct (Gv y eq_refl eq_refl eq_refl MV' g' R1') as (wn' & Ew' & Eg').
    rewrite Ew in Ew'. apply Ok_inj in Ew'. subst wn'.
    assert (L : g <= g') by (rewrite Eg, Eg'; apply Rmult_le_compat_r; [lra|]; apply Rmult_le_compat_r; assumption).
    assert (S0 : 0 <= cnorm2 sx + cnorm2 sy) by (pose proof (cnorm2_nonneg sx); pose proof (cnorm2_nonneg sy); lra).
    cbn [fst snd]. rewrite !cmod_scaled by lra. apply Rmult_le_compat_l; [apply Cmod_ge_0|].
    apply Rinv_le_contravar; [apply pow_lt; lra|]. apply pow_incr. lra.
Qed.
Print Assumptions C135_regularisation_noise.

(** The hypotheses of C135 are met at every pixel of a concrete system, for two regularisations and two noise levels. *)
Example C135_nonvacuous : let y := ex_sys ex_layers in valid_sys y /\ valid_sys (with_noise y [1]) /\ / 500 <= y_rate y /\
  mean (y_noise y) = Ok (1 / 2 / 1) /\ mean [1] = Ok (1 / 1) /\
  forall i j, (i < 8)%nat -> (j < 8)%nat -> (exists v, reconstructionPSD y 1 i j = Ok v) /\ (exists v, reconstructionPSD y 2 i j = Ok v) /\
    (exists v, reconstructionPSD (with_noise y [1]) 1 i j = Ok v) /\ (exists v, noisePSD y 1 1 1000 i j = Ok v) /\ (exists v, noisePSD y 2 1 1000 i j = Ok v).
Proof.
  intros y. assert (HV : valid_sys y) by (apply ex_valid, ex_w; left; reflexivity).
  assert (HV' : valid_sys (with_noise y [1])).
  { destruct HV as (V1 & V2 & V3 & V4 & V5 & V6 & V7 & _). split; [exact V1|]. split; [exact V2|]. split; [exact V3|]. split; [exact V4|]. split; [exact V5|]. split; [exact V6|]. split; [exact V7|].
    split; [discriminate|]. intros v [ <-|[]]. lra. }
  split; [exact HV|]. split; [exact HV'|]. split; [cbn; lra|]. split; [unfold mean; cbn; f_equal; field|]. split; [unfold mean; cbn; f_equal; field|].
  intros i j Hi Hj. destruct (ex_freq ex_layers i j Hi Hj) as (F1 & F2).
  assert (A1 : 0 < y_dsub y) by (cbn; lra). assert (A2 : 0 < y_off y < y_step y) by (cbn; lra).
  assert (A3 : y_gain y <> 0) by (cbn; lra). assert (A4 : 0 < y_rate y) by (cbn; lra). assert (A5 : (1:R) <> 0) by lra.
  assert (RD : forall z M, valid_sys z -> (exists F, filterF z M i j = Ok F) -> exists v, reconstructionPSD z M i j = Ok v).
  { intros z M HZ [F EF]. unfold reconstructionPSD. rewrite EF. destruct (Wphi_pos z i j HZ) as (p & -> & _). cbn [bind]. eauto. }
  assert (B : 0 <= 2) by lra.
  split; [apply RD; [exact HV|exact (C25_defined y 1 i j HV Rle_0_1 eq_refl A1 A2 F1 F2)]|].
  split; [apply RD; [exact HV|exact (C25_defined y 2 i j HV B eq_refl A1 A2 F1 F2)]|].
  split; [apply RD; [exact HV'|exact (C25_defined (with_noise y [1]) 1 i j HV' Rle_0_1 eq_refl A1 A2 F1 F2)]|].
  split.
  - destruct (C26_contributions_defined y 1 5 1 1000 2 i j 1 2 0 0 0 1 0 (fun _ _ => 0) HV Rle_0_1 eq_refl A1 A2 F1 F2 A3 A4 ltac:(discriminate) ltac:(discriminate) A5 ltac:(lia)) as (N & _). exact N.
  - destruct (C26_contributions_defined y 2 5 1 1000 2 i j 1 2 0 0 0 1 0 (fun _ _ => 0) HV B eq_refl A1 A2 F1 F2 A3 A4 ltac:(discriminate) ltac:(discriminate) A5 ltac:(lia)) as (N & _). exact N.
Qed.
