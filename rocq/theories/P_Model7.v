(** C128: scaling of the residual spectrum with the turbulence strength. C129: bounds of the anisoplanatism. *)
From Coq Require Import Reals List Arith ZArith Bool String Lia Lra.
From Flocq Require Import Core.Raux.
From Verif Require Import Base_Py Base_Sum M_Tools L_Tools M_Freq L_Freq M_Atmo S_Atmo L_Atmo M_Sensor M_Model M_Model2 S_Model L_Model L_Model2 P_Model P_Model2 S_Scale.
From Coquelicot Require Import Complex.
Import ListNotations.
Open Scope R_scope.

Section Scale.
  Variable y : fsys.
  Variables r k : R.
  Hypothesis Hr0 : 0 < a_r0 (y_atm y).
  Hypothesis Hr : 0 < r.
  Hypothesis Hk : 0 < k.
  Let y' := with_strength r k y.
  Let c := strength y r.
  Lemma sc_c : 0 < c. Proof. apply exp_pos. Qed.
  Lemma sc_pow : Rpower r (- 5 / 3) = c * Rpower (a_r0 (y_atm y)) (- 5 / 3).
  Proof.
    unfold c, strength. rewrite Rpower_mult_distr; [|apply Rdiv_lt_0_compat; assumption|exact Hr0]. f_equal. field. lra.
  Qed.
  Lemma sc_spectrum f : scaled c (spectrum (y_sp y) (y_atm y) f) (spectrum (y_sp y) (y_atm y') f).
  Proof.
    unfold scaled, spectrum. cbn [y' with_strength y_atm a_r0 a_L0]. rewrite !rpow_pos by assumption. cbn [bind]. destruct (match a_L0 (y_atm y) with LNum (Fin L) => _ | _ => _ end) as [q|]; [|reflexivity]. cbn [bind]. destruct (rpow _ _) as [s|]; [|reflexivity]. cbn [bind]. f_equal. rewrite sc_pow. ring.
  Qed.
  Lemma sc_Wphi i j : scaled c (Wphi y i j) (Wphi y' i j).
  Proof. apply sc_spectrum. Qed.
  Lemma sc_Watm i j : scaled c (Watm y i j) (Watm y' i j).
  Proof. unfold scaled, Watm. rewrite (sc_Wphi i j). destruct (Wphi y i j) as [p|]; [|reflexivity]. cbn [bind]. change (pistonAO y' i j) with (pistonAO y i j). f_equal. ring. Qed.
  Lemma lsum_scal2 l : lsum (map (fun v => k * v) l) = k * lsum l.
  Proof. induction l as [|a l IH]; cbn [map]; [unfold lsum; cbn; ring|]. unfold lsum in *. cbn [fold_right]. rewrite IH. ring. Qed.
  Lemma sc_mean : scaled k (mean (y_noise y)) (mean (y_noise y')).
  Proof. unfold scaled, mean. cbn [y' with_strength y_noise]. rewrite map_length. destruct (_ =? _)%nat; [reflexivity|]. f_equal. rewrite lsum_scal2. unfold Rdiv. ring. Qed.
  Lemma sc_Wn : scaled k (Wn y) (Wn y').
  Proof. unfold scaled, Wn. rewrite sc_mean. change (y_kcMax y') with (y_kcMax y). destruct (mean (y_noise y)) as [m|]; [|reflexivity]. cbn [bind]. unfold rdiv. destruct (Req_EM_T _ 0); [reflexivity|]. f_equal. unfold Rdiv. ring. Qed.
  Lemma sc_recon MV i j : MV = 0 \/ k = c -> recon y' MV i j = recon y MV i j.
  Proof.
    intros HM. pose proof sc_c as PC. unfold recon. change (SxAv y' i j) with (SxAv y i j). change (SyAv y' i j) with (SyAv y i j). change (y_gswvl y') with (y_gswvl y). change (a_wvl (y_atm y')) with (a_wvl (y_atm y)). change (centre y' i j) with (centre y i j). rewrite sc_Wn, (sc_Wphi i j).
    match goal with |- (if _ then match ?a with _ => _ end else _) = (if _ then match ?b with _ => _ end else _) => assert (E : a = b); [|rewrite E; reflexivity] end.
    destruct (SxAv y i j) as [sx|]; [|reflexivity]. cbn [bind]. destruct (SyAv y i j) as [sy|]; [|reflexivity]. cbn [bind]. destruct (rdiv (a_wvl _) _) as [q|]; [|reflexivity]. cbn [bind]. destruct (Wphi y i j) as [p|]; [|reflexivity]. cbn [bind]. destruct (Wn y) as [wn|]; [|reflexivity]. cbn [bind].
    assert (ED : rdiv (MV * (k * wn)) (c * p * q ^ 2) = rdiv (MV * wn) (p * q ^ 2)).
    { unfold rdiv. destruct (Req_EM_T (c * p * q ^ 2) 0) as [Z|Z], (Req_EM_T (p * q ^ 2) 0) as [Z'|Z']; [reflexivity| | |].
      - exfalso. rewrite Rmult_assoc in Z. apply Rmult_integral in Z. destruct Z as [Z|Z]; [lra|contradiction].
      - exfalso. apply Z. rewrite Rmult_assoc, Z'. ring.
      - f_equal. destruct HM as [ ->|HM]; [unfold Rdiv; ring|]. rewrite HM. field. split; [intros Q; apply Z'; rewrite Q; ring|]. split; [intros Q; apply Z'; rewrite Q; ring|lra]. }
    rewrite ED. reflexivity.
  Qed.
  Lemma sc_filterF MV i j : MV = 0 \/ k = c -> filterF y' MV i j = filterF y MV i j.
  Proof. intros HM. unfold filterF. rewrite (sc_recon MV i j HM). reflexivity. Qed.

  Lemma sc_controller nTh nF : controller y' nTh nF = controller y nTh nF.
  Proof. reflexivity. Qed.
  Lemma sc_term ch rr a T td i j m n : alias_term y' ch rr a T td i j m n = alias_term y ch rr a T td i j m n.
  Proof. reflexivity. Qed.
  Lemma sc_all MV nTh nF ch nT tx ty i j : MV = 0 \/ k = c ->
    scaled k (noisePSD y MV nTh nF i j) (noisePSD y' MV nTh nF i j) /\
    scaled c (reconstructionPSD y MV i j) (reconstructionPSD y' MV i j) /\
    scaled c (servoLagPSD y MV nTh nF i j) (servoLagPSD y' MV nTh nF i j) /\
    scaled c (spatioTemporalPSD y MV nTh nF tx ty i j) (spatioTemporalPSD y' MV nTh nF tx ty i j) /\
    scaled c (anisoplanatismPSD y tx ty i j) (anisoplanatismPSD y' tx ty i j) /\
    (forall zen theta az arg, scaled c (differentialRefractionPSD y zen theta az arg i j) (differentialRefractionPSD y' zen theta az arg i j)) /\
    (forall n1 n2, scaled c (chromatismPSD y n1 n2 i j) (chromatismPSD y' n1 n2 i j)) /\
    (forall kx ky, scaled c (fittingPSD y kx ky) (fittingPSD y' kx ky)) /\
    scaled c (aliasingPSD y MV ch nTh nF nT i j) (aliasingPSD y' MV ch nTh nF nT i j).
  Proof.
    intros HM. pose proof sc_c as PC. split; [|split; [|split; [|split; [|split; [|split; [|split; [|split]]]]]]].
    - unfold scaled, noisePSD. rewrite sc_mean, (sc_recon MV i j HM), sc_controller. destruct (mean (y_noise y)) as [m|]; [|reflexivity]. cbn [bind].
      assert (EI : pyindex (y_noise y') 0 = match pyindex (y_noise y) 0 with Ok v => Ok (k * v) | Err e => Err e end).
      { cbn [y' with_strength y_noise]. destruct (y_noise y) as [|v l]; reflexivity. }
      rewrite EI. destruct (pyindex (y_noise y) 0) as [v0|]; [|reflexivity]. cbn [bind]. destruct (Rlt_dec 0 v0) as [P|P], (Rlt_dec 0 (k * v0)) as [P'|P']; [| | |f_equal; ring].
      + destruct (recon y MV i j) as [rr|]; [|reflexivity]. cbn [bind]. destruct (controller y nTh nF) as [[[[a b] g]|]|]; [|reflexivity|reflexivity]. cbn [bind]. change (y_kcMax y') with (y_kcMax y). destruct (rdiv _ _) as [q|]; [|reflexivity]. cbn [bind]. change (maskAO y' i j) with (maskAO y i j). change (pistonAO y' i j) with (pistonAO y i j). f_equal. ring.
      + exfalso. apply P'. apply Rmult_lt_0_compat; assumption.
      + exfalso. apply P. apply (Rmult_lt_reg_l k); [exact Hk|]. rewrite Rmult_0_r. exact P'.
    - unfold scaled, reconstructionPSD. rewrite (sc_filterF MV i j HM), (sc_Wphi i j). destruct (filterF y MV i j) as [f|]; [|reflexivity]. cbn [bind]. destruct (Wphi y i j) as [p|]; [|reflexivity]. cbn [bind]. change (maskAO y' i j) with (maskAO y i j). change (pistonAO y' i j) with (pistonAO y i j). f_equal. ring.
    - unfold scaled, servoLagPSD. rewrite (sc_filterF MV i j HM), (sc_Watm i j), sc_controller. destruct (filterF y MV i j) as [f|]; [|reflexivity]. cbn [bind]. destruct (Watm y i j) as [w|]; [|reflexivity]. cbn [bind]. change (maskAO y' i j) with (maskAO y i j).
      destruct (controller y nTh nF) as [[[[a b] g]|]|]; [| |reflexivity]; cbn [bind]; f_equal; rewrite !Rabs_mult, (Rabs_right c) by lra; ring.
    - unfold scaled, spatioTemporalPSD. rewrite (sc_filterF MV i j HM), (sc_Watm i j), sc_controller. destruct (Watm y i j) as [w|]; [|reflexivity]. cbn [bind]. destruct (filterF y MV i j) as [f|]; [|reflexivity]. cbn [bind]. change (maskAO y' i j) with (maskAO y i j). change (aniso_A y' tx ty i j) with (aniso_A y tx ty i j).
      destruct (controller y nTh nF) as [[[[a b] g]|]|]; [| |reflexivity]; cbn [bind]; f_equal; ring.
    - unfold scaled, anisoplanatismPSD. rewrite (sc_Watm i j). destruct (Watm y i j) as [w|]; [|reflexivity]. cbn [bind]. change (maskAO y' i j) with (maskAO y i j). destruct (if Req_EM_T tx 0 then _ else _); f_equal; [ring|]. change (y_layers y') with (y_layers y). change (kxAO y' i j) with (kxAO y i j). change (kyAO y' i j) with (kyAO y i j). ring.
    - intros zen theta az arg. unfold scaled, differentialRefractionPSD. rewrite (sc_Watm i j). destruct (Watm y i j) as [w|]; [|reflexivity]. cbn [bind]. change (maskAO y' i j) with (maskAO y i j). destruct (Req_EM_T zen 0); f_equal; [ring|]. change (y_layers y') with (y_layers y). change (k2AO y' i j) with (k2AO y i j). ring.
    - intros n1 n2. unfold scaled, chromatismPSD. rewrite (sc_Watm i j). destruct (Watm y i j) as [w|]; [|reflexivity]. cbn [bind]. destruct (rdiv _ _) as [q|]; [|reflexivity]. cbn [bind]. f_equal. ring.
    - intros kx ky. unfold scaled, fittingPSD. change (y_circle y') with (y_circle y). change (y_kcMax y') with (y_kcMax y). destruct (mskOut _ _ _ _); [apply sc_spectrum|f_equal; ring].
    - unfold scaled, aliasingPSD. change (y_clock y') with (y_clock y). change (y_rate y') with (y_rate y). change (y_delay y') with (y_delay y). destruct (mapM _ (y_clock y)) as [cs|]; [|reflexivity]. cbn [bind]. destruct (mean cs) as [T|]; [|reflexivity]. cbn [bind]. cbv zeta. rewrite (sc_recon MV i j HM), sc_controller. destruct (recon y MV i j) as [rr|]; [|reflexivity]. cbn [bind].
      destruct (controller y nTh nF) as [[[[a b] g]|]|]; [|reflexivity|reflexivity]. cbn [bind].
      change (mapM (fun mn => alias_term y' ch rr (a i j) T (T * y_delay y) i j (fst mn) (snd mn))) with (mapM (fun mn => alias_term y ch rr (a i j) T (T * y_delay y) i j (fst mn) (snd mn))).
      destruct (mapM _ _) as [ts|]; [|reflexivity]. cbn [bind]. change (a_r0 (y_atm y')) with r. rewrite !rpow_pos by assumption. cbn [bind]. change (maskAO y' i j) with (maskAO y i j). f_equal. rewrite sc_pow. ring.
  Qed.
End Scale.

(** C128: with a least-squares reconstructor (no regularisation), changing the Fried parameter from r0 to r multiplies the
    reconstruction, servo-lag, spatio-temporal, anisoplanatism, differential refraction, chromatic, fitting and aliasing spectra
    by (r/r0)^(-5/3) and leaves the noise spectrum unchanged. *)
Theorem C128_r0 : forall y r nTh nF ch nT tx ty i j, 0 < a_r0 (y_atm y) -> 0 < r ->
  let y' := with_strength r 1 y in let c := strength y r in
  noisePSD y' 0 nTh nF i j = noisePSD y 0 nTh nF i j /\
  scaled c (reconstructionPSD y 0 i j) (reconstructionPSD y' 0 i j) /\
  scaled c (servoLagPSD y 0 nTh nF i j) (servoLagPSD y' 0 nTh nF i j) /\
  scaled c (spatioTemporalPSD y 0 nTh nF tx ty i j) (spatioTemporalPSD y' 0 nTh nF tx ty i j) /\
  scaled c (anisoplanatismPSD y tx ty i j) (anisoplanatismPSD y' tx ty i j) /\
  (forall zen theta az arg, scaled c (differentialRefractionPSD y zen theta az arg i j) (differentialRefractionPSD y' zen theta az arg i j)) /\
  (forall n1 n2, scaled c (chromatismPSD y n1 n2 i j) (chromatismPSD y' n1 n2 i j)) /\
  (forall kx ky, scaled c (fittingPSD y kx ky) (fittingPSD y' kx ky)) /\
  scaled c (aliasingPSD y 0 ch nTh nF nT i j) (aliasingPSD y' 0 ch nTh nF nT i j).
Proof.
  intros y r nTh nF ch nT tx ty i j H0 Hr y' c. destruct (sc_all y r 1 H0 Hr Rlt_0_1 0 nTh nF ch nT tx ty i j (or_introl eq_refl)) as (A & B). split; [|exact B].
  unfold scaled in A. fold y' in A. rewrite A. destruct (noisePSD y 0 nTh nF i j); [f_equal; ring|reflexivity].
Qed.
(** C128: with any regularisation the correction depends on the ratio of noise to turbulence only: when the noise variances are
    multiplied by the same factor as the turbulence, every contribution, noise included, is multiplied by that factor. *)
Theorem C128_ratio : forall y r MV nTh nF ch nT tx ty i j, 0 < a_r0 (y_atm y) -> 0 < r ->
  let c := strength y r in let y' := with_strength r c y in
  recon y' MV i j = recon y MV i j /\
  scaled c (noisePSD y MV nTh nF i j) (noisePSD y' MV nTh nF i j) /\
  scaled c (reconstructionPSD y MV i j) (reconstructionPSD y' MV i j) /\
  scaled c (servoLagPSD y MV nTh nF i j) (servoLagPSD y' MV nTh nF i j) /\
  scaled c (spatioTemporalPSD y MV nTh nF tx ty i j) (spatioTemporalPSD y' MV nTh nF tx ty i j) /\
  scaled c (anisoplanatismPSD y tx ty i j) (anisoplanatismPSD y' tx ty i j) /\
  (forall zen theta az arg, scaled c (differentialRefractionPSD y zen theta az arg i j) (differentialRefractionPSD y' zen theta az arg i j)) /\
  (forall n1 n2, scaled c (chromatismPSD y n1 n2 i j) (chromatismPSD y' n1 n2 i j)) /\
  (forall kx ky, scaled c (fittingPSD y kx ky) (fittingPSD y' kx ky)) /\
  scaled c (aliasingPSD y MV ch nTh nF nT i j) (aliasingPSD y' MV ch nTh nF nT i j).
Proof.
  intros y r MV nTh nF ch nT tx ty i j H0 Hr c y'. assert (PC : 0 < c) by apply exp_pos. split; [exact (sc_recon y r c H0 Hr PC MV i j (or_intror eq_refl))|]. exact (sc_all y r c H0 Hr PC MV nTh nF ch nT tx ty i j (or_intror eq_refl)).
Qed.
(** C128: the same for the uncorrected turbulence of an open loop, and for the wavefront errors of the breakdown: summed spectra
    multiplied by (r/r0)^(-5/3) give wavefront errors multiplied by (r/r0)^(-5/6). *)
Theorem C128_open_loop : forall (cfg : psdcfg) y r k fk a b, 0 < a_r0 (y_atm y) -> 0 < r ->
  scaled (strength y r) (openLoopPSD cfg (y_sp y) (y_atm y) (y_j1 y) (y_D y) fk a b) (openLoopPSD cfg (y_sp y) (y_atm (with_strength r k y)) (y_j1 y) (y_D y) fk a b).
Proof.
  intros cfg y r k fk a b H0 Hr. unfold scaled, openLoopPSD. rewrite (sc_spectrum y r k H0 Hr). destruct (spectrum _ _ _) as [w|]; [|reflexivity]. cbn [bind]. f_equal. ring.
Qed.
Definition scale_sums (c : R) (s : sums) : sums :=
  let f := option_map (fun v => c * v) in
  mkSums (f (b_fit s)) (f (b_alias s)) (f (b_noise s)) (f (b_st s)) (f (b_diff s)) (f (b_chrom s)) (f (b_mcao s)) (f (b_vib s)).
Theorem C128_wavefront_error : forall gain am wi ti rad2nm wvl s y r, 0 < a_r0 (y_atm y) -> 0 < r -> forall b,
  errorBreakDown gain am wi ti rad2nm 0 0 0 wvl s = Ok (Some b) ->
  exists b', errorBreakDown gain am wi ti rad2nm 0 0 0 wvl (scale_sums (strength y r) s) = Ok (Some b') /\
   let g := Rpower (r / a_r0 (y_atm y)) (- 5 / 6) in
   e_fit b' = g * e_fit b /\ e_al b' = g * e_al b /\ e_n b' = g * e_n b /\ e_st b' = g * e_st b /\ e_diff b' = g * e_diff b /\ e_chrom b' = g * e_chrom b /\ e_tot b' = g * e_tot b.
Proof.
  intros gain am wi ti rad2nm wvl s y r H0 Hr b. set (c := strength y r). set (g := Rpower (r / a_r0 (y_atm y)) (- 5 / 6)). assert (PC : 0 < c) by apply exp_pos. assert (PG : 0 < g) by apply exp_pos.
  assert (CG : c = g * g). { unfold c, strength, g. rewrite <- Rpower_plus. f_equal. lra. }
  assert (SG : forall v, 0 <= v -> sqrt (c * v) = g * sqrt v) by (intros v Hv; rewrite sqrt_mult by lra; rewrite CG, sqrt_square by lra; reflexivity).
  assert (SW : forall o v, wfe_of o rad2nm = Ok v -> wfe_of (option_map (fun v => c * v) o) rad2nm = Ok (g * v)).
  { intros [q|] v; unfold wfe_of, rsqrt; cbn [option_map]; [|discriminate]. destruct (Rlt_dec q 0) as [|N]; [discriminate|]. cbn [bind]. intros E. apply Ok_inj in E. subst v. destruct (Rlt_dec (c * q) 0) as [M|M]; [exfalso; apply N; apply (Rmult_lt_reg_l c); [exact PC|]; lra|]. cbn [bind]. f_equal. rewrite SG by lra. ring. }
  unfold errorBreakDown. destruct (Req_EM_T gain 0); [discriminate|]. cbn [scale_sums b_fit b_alias b_noise b_st b_diff b_chrom b_mcao b_vib].
  destruct (wfe_of (b_fit s) rad2nm) as [f|] eqn:E1; [|discriminate]. cbn [bind]. destruct (wfe_of (b_alias s) rad2nm) as [al|] eqn:E2; [|discriminate]. cbn [bind]. destruct (wfe_of (b_noise s) rad2nm) as [n0|] eqn:E3; [|discriminate]. cbn [bind]. destruct (wfe_of (b_st s) rad2nm) as [st|] eqn:E4; [|discriminate]. cbn [bind]. destruct (wfe_of (b_diff s) rad2nm) as [df|] eqn:E5; [|discriminate]. cbn [bind]. destruct (wfe_of (b_chrom s) rad2nm) as [ch|] eqn:E6; [|discriminate]. cbn [bind].
  destruct (if am then wfe_of (b_mcao s) rad2nm else Ok 0) as [mc|] eqn:E7; [|discriminate]. cbn [bind]. destruct (if negb ti && wi then wfe_of (b_vib s) rad2nm else Ok 0) as [wn|] eqn:E8; [|discriminate]. cbn [bind].
  rewrite (SW _ _ E1), (SW _ _ E2), (SW _ _ E3), (SW _ _ E4), (SW _ _ E5), (SW _ _ E6). cbn [bind].
  assert (E7' : (if am then wfe_of (option_map (fun v => c * v) (b_mcao s)) rad2nm else Ok 0) = Ok (g * mc)). { destruct am; [apply SW; exact E7|]. apply Ok_inj in E7. subst mc. f_equal. ring. }
  assert (E8' : (if negb ti && wi then wfe_of (option_map (fun v => c * v) (b_vib s)) rad2nm else Ok 0) = Ok (g * wn)). { destruct (negb ti && wi)%bool; [apply SW; exact E8|]. apply Ok_inj in E8. subst wn. f_equal. ring. }
  rewrite E7', E8'. cbn [bind].
  set (Q := 0 ^ 2 + f ^ 2 + al ^ 2 + st ^ 2 + n0 ^ 2 + df ^ 2 + ch ^ 2 + 0 ^ 2 + mc ^ 2 + wn ^ 2 + 0 ^ 2). replace (0 ^ 2 + (g * f) ^ 2 + (g * al) ^ 2 + (g * st) ^ 2 + (g * n0) ^ 2 + (g * df) ^ 2 + (g * ch) ^ 2 + 0 ^ 2 + (g * mc) ^ 2 + (g * wn) ^ 2 + 0 ^ 2) with (c * Q) by (unfold Q; rewrite CG; ring).
  unfold rsqrt. destruct (Rlt_dec Q 0) as [|N]; [discriminate|]. cbn [bind]. destruct (Rlt_dec (c * Q) 0) as [M|M]; [exfalso; apply N; apply (Rmult_lt_reg_l c); [exact PC|]; lra|]. cbn [bind]. unfold rdiv. destruct (Req_EM_T wvl 0); [discriminate|]. cbn [bind]. intros H. apply Ok_inj in H. injection H as <-.
  eexists. split; [reflexivity|]. cbn. rewrite SG by lra. repeat split; reflexivity.
Qed.
(** C128: the hypotheses hold for a system whose spectra are defined. *)
Example C128_nonvacuous : let y := ex_sys ex_layers in 0 < a_r0 (y_atm y) /\ strength y (1 / 20) = Rpower (1 / 2) (- 5 / 3) /\ (exists v, noisePSD y 1 1 1000 5 4 = Ok v) /\ (exists v, aliasingPSD y 1 5 1 1000 2 5 4 = Ok v).
Proof.
  intros y. split; [cbn; lra|]. split; [unfold strength; f_equal; cbn; lra|]. destruct C26_nonvacuous as (_ & _ & H). destruct (H 5%nat 4%nat ltac:(lia) ltac:(lia)) as (_ & A & B & _). split; [exact A|exact B].
Qed.

Print Assumptions C128_r0.
Print Assumptions C128_ratio.
Print Assumptions C128_open_loop.
Print Assumptions C128_wavefront_error.
