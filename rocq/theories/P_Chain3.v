(** C138: the error budget of the composed computation: which system the contributions are
    evaluated for, and that the PSD of each source is their sum. *)
From Coq Require Import Reals List Arith ZArith Lia Lra Bool String.
From Flocq Require Import Core.Raux.
From Verif Require Import Base_Py Base_Sum M_Image M_Fourier S_Fourier M_Tools S_Tools L_Tools2 M_Atmo S_Atmo L_Atmo M_Sensor M_Source M_Freq L_Freq M_Model S_Model M_Model2 S_Model2 L_Model3.
From Verif Require Import M_Psf L_Psf3 M_Call M_Driver M_Config M_Chain.
From Verif Require Import P_Freq P_Sensor P_Model2 P_Model3 P_Fourier P_Driver P_Driver2 P_Call P_Chain.
Import ListNotations.
Open Scope R_scope.

(** ** Specification *)
(** The system the errors are evaluated for, at the reference wavelength [lam], with the
    guide star [g]: every quantity read from the AO system object. *)
Record evaluated (x : scao) (g : source) (lam : R) (y : fsys) : Prop := {
  ev_D : y_D y = x_D x;
  ev_cut : (exists p, In p (x_pitch x) /\ y_kcMax y = / (2 * p)) /\ forall p, In p (x_pitch x) -> / (2 * p) <= y_kcMax y;
  ev_shape : y_circle y = x_circle x;
  ev_r0 : a_r0 (y_atm y) = a_r0 (ao_atm (x_ao x)) * Rpower (lam / a_wvl (ao_atm (x_ao x))) (6 / 5) /\ a_wvl (y_atm y) = lam;
  ev_L0 : a_L0 (y_atm y) = a_L0 (ao_atm (x_ao x));
  ev_layers : forall i, (i < List.length (a_w (ao_atm (x_ao x))))%nat ->
     exists wt h v d vs ds, a_v (ao_atm (x_ao x)) = Lst vs /\ a_d (ao_atm (x_ao x)) = Lst ds /\
       nth_error (a_w (ao_atm (x_ao x))) i = Some wt /\ nth_error (a_h (ao_atm (x_ao x))) i = Some h /\ nth_error vs i = Some v /\ nth_error ds i = Some d /\
       nth_error (y_layers y) i = Some (mkLay wt h (v * cos (d * (PI / 180))) (v * sin (d * (PI / 180))));
  ev_nlayers : List.length (y_layers y) = List.length (a_w (ao_atm (x_ao x)));
  ev_wfs : y_type y = s_type (ao_wfs (x_ao x)) /\ y_mod y = x_modul x /\ y_bin y = x_bin x /\ y_clock y = map d_clock (s_det (ao_wfs (x_ao x))) /\
     exists o os, s_opt (ao_wfs (x_ao x)) = o :: os /\ y_dsub y = o_dsub o /\ y_nL y = IZR (o_nL o);
  ev_noise : (forall l, ao_noise (x_ao x) = NoiseList l -> y_noise y = l) /\
     (ao_noise (x_ao x) = NoiseNone -> exists vn, M_Sensor.NoiseVariance (ao_wfs (x_ao x)) (a_r0 (ao_atm (x_ao x)) * Rpower (y_gswvl y / (500 * / 10 ^ 9)) (6 / 5)) (y_gswvl y) = Ok vn /\
         y_noise y = map (fun v => v * (y_gswvl y / lam) ^ 2) vn);
  ev_gs : exists ws, so_wvl g = y_gswvl y :: ws;
  ev_loop : y_gain y = lp_gain (x_loop x) /\ y_rate y = lp_rate (x_loop x) /\ y_delay y = lp_delay (x_loop x) }.

Lemma kc_max pitch k : rlist_max (cutoffs None pitch) = Ok k -> (forall p, In p pitch -> 0 < p) ->
  (exists p, In p pitch /\ k = / (2 * p)) /\ forall p, In p pitch -> / (2 * p) <= k.
Proof.
  intros H Hp. destruct (rlist_max_spec _ _ H) as [I M]. cbn [cutoffs] in I, M. split.
  - apply in_map_iff in I. destruct I as (p & <- & Ip). exists p. split; [exact Ip|]. unfold Rdiv. ring.
  - intros p Ip. replace (/ (2 * p)) with (1 / (2 * p)) by (unfold Rdiv; ring). apply M. apply in_map_iff. exists p. split; [reflexivity|exact Ip].
Qed.
Lemma nth_combine {A B} (a : list A) (b : list B) i u v : nth_error a i = Some u -> nth_error b i = Some v -> nth_error (combine a b) i = Some (u, v).
Proof.
  revert b i. induction a as [|a0 a IH]; intros [|b0 b] [|i] Ha Hb; cbn in *; try discriminate; [injection Ha as <-; injection Hb as <-; reflexivity|apply IH; assumption].
Qed.
Lemma layers_all a ls vs ds : a_v a = Lst vs -> a_d a = Lst ds -> List.length (a_h a) = List.length (a_w a) -> List.length vs = List.length (a_w a) -> List.length ds = List.length (a_w a) ->
  layers_of a (Scal 1) = Ok ls -> List.length ls = List.length (a_w a) /\
  forall i, (i < List.length (a_w a))%nat -> exists wt h v d, nth_error (a_w a) i = Some wt /\ nth_error (a_h a) i = Some h /\ nth_error vs i = Some v /\ nth_error ds i = Some d /\
    nth_error ls i = Some (mkLay wt h (v * cos (d * (PI / 180))) (v * sin (d * (PI / 180)))).
Proof.
  intros Ev Ed Lh Lv Ld H. assert (HL := layers_weights _ _ _ H). split; [rewrite <- HL, map_length; reflexivity|].
  unfold layers_of in H. cbn [stretched bind] in H. rewrite Ev, Ed in H. cbn [spread] in H. destruct (_ && _ && _)%bool; [|discriminate]. apply Ok_inj in H. intros i Hi.
  assert (G : forall A (l : list A), List.length l = List.length (a_w a) -> exists u, nth_error l i = Some u).
  { intros A l Hl. destruct (nth_error l i) eqn:E; [eauto|]. apply nth_error_None in E. lia. }
  destruct (G _ (a_w a) eq_refl) as (wt & E1). destruct (G _ _ Lh) as (h & E2). destruct (G _ _ Lv) as (v & E3). destruct (G _ _ Ld) as (d & E4).
  exists wt, h, v, d. repeat (split; [assumption|]). subst ls. rewrite nth_error_map.
  rewrite (nth_combine _ _ i (wt, h * 1) (v, d)).
  - cbn [option_map fst snd]. do 2 f_equal; [ring|f_equal; f_equal; unfold Rdiv; ring|f_equal; f_equal; unfold Rdiv; ring].
  - apply nth_combine; [exact E1|]. rewrite nth_error_map, E2. reflexivity.
  - apply nth_combine; assumption.
Qed.

Lemma step_spec src nB bw nyq ex ps D np fd : make_fdomain src nB bw nyq ex ps D np = Ok fd ->
  exists v, In v (fd_wvl fd) /\ fd_PSDstep fd = pix_scale nyq ps D v / (v * M_Freq.rad2mas * IZR (oversampling (samp0 nyq ps D v))).
Proof.
  intros H. unfold make_fdomain in H. apply bind_Ok in H; destruct H as (w & Ew & H). apply bind_Ok in H; destruct H as (iW & EW & H).
  apply bind_Ok in H; destruct H as (wRef & ER & H). cbv zeta in H. apply bind_Ok in H; destruct H as (iP & EP & H). apply bind_Ok in H; destruct H as (st & ES & H).
  apply bind_Ok in H; destruct H as (kR & EK & H). apply Ok_inj in H. subst fd. cbn [fd_wvl fd_PSDstep].
  apply pyindex_of_nat in ES. apply nth_error_In in ES. apply in_map_iff in ES. destruct ES as (v & <- & Iv). exists v. split; [exact Iv|reflexivity].
Qed.

(** C138: for each source, outside of the corrected area (of side [r_res] pixels, centred) the PSD is
    the uncorrected spectrum; inside it is the sum of this spectrum (zero inside the cut-off) and of
    noise, aliasing, differential refraction, chromatism and servo-lag/anisoplanatism, computed for
    the system [y], the direction of the source from the guide star, the refractive indices at the
    guide star and the reference wavelengths; everything times the same factor (rad^2 to nm^2). *)
Theorem C138_budget : forall w op tp x r, physical w op x -> chain w op tp x = Ok r ->
  exists y g lam n_ref n_gs ds dg o nT,
    In lam (r_wvl r) /\ (forall v, In v (r_wvl r) -> lam <= v) /\
    ao_ngs (x_ao x) = Some g /\ evaluated x g lam y /\ y_res y = r_res r /\
    (exists v, In v (r_wvl r) /\ y_step y = x_ps x / (v * M_Freq.rad2mas * IZR (oversampling (v * M_Freq.rad2mas / (x_ps x * x_D x))))) /\
    IZR (Z.of_nat (r_res r)) <= 2 * y_kcMax y / y_step y < IZR (Z.of_nat (r_res r)) + 1 /\
    wd_nair w lam = Ok n_ref /\ wd_nair w (y_gswvl y) = Ok n_gs /\
    direction (x_src x) = Ok ds /\ direction g = Ok dg /\ centred_at (r_n r) (r_res r) o /\
    forall s a b, (s < so_nSrc (x_src x))%nat -> (a < r_n r)%nat -> (b < r_n r)%nat ->
      let c := 2 * y_kcMax y / INR (r_res r) * (lam * 10 ^ 9 / 2 / PI) in
      exists fit, fittingPSD y (freq_x (r_n r) (y_step y) (y_off y) a b) (freq_y (r_n r) (y_step y) (y_off y) a b) = Ok fit /\
        (inside o (r_res r) a b = false -> psd_at r s a b = fit * c ^ 2) /\
        (inside o (r_res r) a b = true -> exists noise alias diff chrom st,
           let i := (a - o)%nat in let j := (b - o)%nat in
           noisePSD y (op_MV op) 1 1000 i j = Ok noise /\ aliasingPSD y (op_MV op) 5 1 1000 nT i j = Ok alias /\
           (exists az, nth_error (so_az (x_src x)) s = Some az /\
              differentialRefractionPSD y (x_zenith x) ((n_ref - n_gs) * tan (x_zenith x * PI / 180)) az (fun a b => arctan2 (kyAO y a b) (kxAO y a b)) i j = Ok diff) /\
           chromatismPSD y n_gs n_ref i j = Ok chrom /\
           (exists sx sy gx gy, nth_error (fst ds) s = Some sx /\ nth_error (snd ds) s = Some sy /\ nth_error (fst dg) 0 = Some gx /\ nth_error (snd dg) 0 = Some gy /\
              spatioTemporalPSD y (op_MV op) 1 1000 (sx - gx) (sy - gy) i j = Ok st) /\
           psd_at r s a b = (noise + alias + diff + chrom + st + fit) * c ^ 2).
Proof.
  intros w op tp x r PH H. destruct (C138_psd _ _ _ _ _ PH H) as (_ & _ & _ & _ & _ & PN).
  destruct (chain_inv _ _ _ _ _ H) as (fd & kcMax & res & dr & y & p & c & st & Efd & Ekc & Eres & Ei & Ey & Ep & Ec & Epsd & Esf & Eout & Ewv & En & Er).
  destruct PH as [Plg (g & Pg & Pg1 & Pgne & Pgw) Patm (L & PL & EL) Psum Pnoise (PD & Pps & Pnp) (Pbw & Pband) Ppitch (Pgain & Prate) PMV Pex Psp].
  destruct (wave_agree _ _ _ _ _ _ _ _ _ Efd) as (_ & Wne & Wpos). specialize (Wpos Pbw Pband).
  destruct (fdomain_spec _ _ _ _ _ _ _ _ _ Efd Pps PD Wpos) as (Wr & Wm & _ & _ & _ & Wst & K1 & Kn & _).
  assert (WR : 0 < fd_wvlRef fd) by (apply Wpos; exact Wr). assert (KP := cut_pos _ _ Ppitch Ekc).
  destruct (init_inv _ _ _ _ _ Ei) as (_ & g' & sc & m & sm & nv & a' & m' & w0 & Hg & Hw0 & Hn1 & Hn2 & _ & _ & Hnv & Ha & _ & Hne & _ & Eao & Edg & _ & Est & _ & _).
  assert (Eg : g' = g /\ sc = Scal 1). { unfold guide in Hg. rewrite Plg, Pg in Hg. apply Ok_inj in Hg. injection Hg as <- <-. split; reflexivity. } destruct Eg as [-> ->].
  destruct Patm as (vs & ds & L' & Ev & Ed & EL' & (Vw & Vr & Vn & Vp & Vh & Vv & Vd) & Vh0). cbn [f_wvlRef] in *.
  rewrite set_wvl_val in Ha by assumption. apply Ok_inj in Ha. subst a'.
  unfold cfg_of in Ec. apply bindOk in Ec. destruct Ec as (dk & Edk & Ec). apply Ok_inj in Ec.
  assert (Rdk := Edk). unfold dk_step in Rdk. destruct (Z.eqb_spec (Z.of_nat (r_res r)) 0) as [|Rnz]; [discriminate|]. apply Ok_inj in Rdk.
  assert (R1 : (1 <= r_res r)%nat) by lia.
  assert (Nn : (0 <= fd_nOtf fd)%Z) by (rewrite Kn; nia).
  unfold fsys_of in Ey. apply bindOk in Ey. destruct Ey as (ls & Els & Ey). apply bindOk in Ey. destruct Ey as (op0 & Eo & Ey). apply bindOk in Ey. destruct Ey as (gw & Egw & Ey). apply Ok_inj in Ey.
  rewrite Edg in Egw. rewrite Est in Els. rewrite Eao in Els, Eo. cbn [ao_atm ao_wfs] in Els, Eo.
  set (a' := mkAtmo _ _ _ _ _ _ _ _) in Els.
  destruct (layers_all a' ls vs ds) as (LL & LI); try assumption; cbn [a' a_v a_d a_h a_w] in *.
  assert (Egw0 : gw = w0) by congruence. apply pyindex_of_nat with (i := 0%nat) in Egw. apply pyindex_of_nat with (i := 0%nat) in Eo.
  assert (Ws : exists ws, so_wvl g = gw :: ws). { destruct (so_wvl g) as [|u l]; [discriminate|]. injection Egw as ->. eauto. }
  assert (Os : exists os, s_opt (ao_wfs (x_ao x)) = op0 :: os). { destruct (s_opt _) as [|u l]; [discriminate|]. injection Eo as ->. eauto. }
  assert (PGW : 0 < gw) by (apply Pgw; destruct Ws as (ws & ->); left; reflexivity).
  unfold parts_of in Ep. cbv zeta in Ep. apply bindOk in Ep. destruct Ep as (noise & E1 & Ep). apply bindOk in Ep. destruct Ep as (alias & E2 & Ep). apply bindOk in Ep. destruct Ep as (diff & E3 & Ep).
  apply bindOk in Ep. destruct Ep as (chrom & E4 & Ep). apply bindOk in Ep. destruct Ep as (dds & Eds & Ep). apply bindOk in Ep. destruct Ep as (ddg & Edg' & Ep). apply bindOk in Ep. destruct Ep as (stp & E5 & Ep). apply bindOk in Ep. destruct Ep as (fit & E6 & Ep). apply Ok_inj in Ep.
  destruct (grid_res_spec _ _ _ E1) as (_ & _ & S1). destruct (grid_res_spec _ _ _ E2) as (_ & _ & S2). destruct (grid_res_spec _ _ _ E4) as (_ & _ & S4). destruct (grid_res_spec _ _ _ E6) as (_ & _ & S6).
  rewrite Edg in Edg'.
  assert (Yr : y_res y = r_res r) by (subst y; reflexivity).
  assert (Hr2 : r_res r = 0%nat -> False) by lia.
  assert (NS : (1 <= so_nSrc (x_src x))%nat \/ so_nSrc (x_src x) = 0%nat) by lia.
  assert (TOT : exists o, centred_at (r_n r) (r_res r) o /\ ((1 <= so_nSrc (x_src x))%nat -> forall s a b x, psd_extra c p s a b = Ok x ->
    powerSpectrumDensity c p s a b = Ok (all_errors c p o (r_res r) s a b x * (k_dk c * k_rad2nm c) ^ 2))).
  { destruct NS as [NS|NS].
    - destruct (PN 0%nat NS) as (RN & _). destruct (C26_total_is_the_sum c p (r_n r) (r_res r)) as (o & Ho & Tot); [subst c; cbn; rewrite En, Z2Nat.id by exact Nn; reflexivity|subst c; reflexivity|exact R1|exact RN|subst c; reflexivity|subst c; reflexivity|].
      exists o. split; [exact Ho|]. intros _. exact Tot.
    - exists (area_off (r_n r) (r_res r)). split; [apply area_off_centred|]. intros Q. lia. }
  destruct TOT as (o & Ho & Tot).
  exists y, g, (fd_wvlRef fd), (dr_n_ref dr), (dr_n_gs dr), dds, ddg, o, (Z.to_nat (nTimes (fd_nOtf fd) res)).
  rewrite Ewv. split; [exact Wr|]. split; [exact Wm|]. split; [exact Pg|]. split.
  { split; subst y; cbn.
    - reflexivity.
    - apply (kc_max _ _ Ekc Ppitch).
    - reflexivity.
    - rewrite Eao. cbn. split; [do 2 f_equal; lra|reflexivity].
    - rewrite Eao. reflexivity.
    - intros i Hi. destruct (LI i Hi) as (wt & h & v & d & Q1 & Q2 & Q3 & Q4 & Q5). exists wt, h, v, d, vs, ds. repeat (split; [assumption|]). exact Q5.
    - exact LL.
    - rewrite Eao. cbn. repeat (split; [reflexivity|]). destruct Os as (os & ->). eauto.
    - rewrite Eao. cbn [ao_noise noise_list]. unfold M_Driver.noise_of in Hnv. split.
      + intros l El. rewrite El in Hnv. apply Ok_inj in Hnv. congruence.
      + intros El. rewrite El in Hnv. rewrite Hw0 in Hnv. cbn [bind] in Hnv. rewrite <- Egw0 in Hnv. unfold noise_at_wavelength in Hnv.
        rewrite rpow_pos in Hnv by (apply Rdiv_lt_0_compat; lra). cbn [bind] in Hnv. apply bindOk in Hnv. destruct Hnv as (vn & Evn & Hnv). rewrite rdiv_ok in Hnv by lra. cbn [bind] in Hnv. apply Ok_inj in Hnv.
        exists vn. split; [exact Evn|]. symmetry. exact Hnv.
    - exact Ws.
    - repeat split. }
  split; [exact Yr|]. split.
  { destruct (step_spec _ _ _ _ _ _ _ _ _ Efd) as (v & Iv & E). exists v. split; [exact Iv|]. subst y. cbn [y_step]. exact E. }
  split.
  { destruct (C24_integration_step _ _ _ _ (2 * kcMax / IZR res) Ekc (proj1 Wst) KP Eres) as (_ & _ & B).
    { unfold dk_step. destruct (Z.eqb_spec res 0) as [E0|_]; [exfalso; rewrite Er, E0 in R1; cbn in R1; lia|reflexivity]. }
    rewrite Er, Z2Nat.id by lia. subst y. cbn [y_kcMax y_step]. exact B. }
  split; [exact Hn1|]. split; [subst y; cbn [y_gswvl]; rewrite Egw0; exact Hn2|]. split; [exact Eds|]. split; [exact Edg'|]. split; [exact Ho|].
  intros s a b Hs Ha Hb. set (cc := 2 * y_kcMax y / INR (r_res r) * (fd_wvlRef fd * 10 ^ 9 / 2 / PI)). destruct (PN s Hs) as (RN & _ & _ & _).
  exists (grid_at fit a b). split; [apply S6; assumption|].
  destruct (src_map_inv _ _ _ Epsd) as (Lp & Ip). specialize (Ip s Hs). destruct (grid_res_spec _ _ _ Ip) as (_ & _ & Gp). specialize (Gp a b Ha Hb).
  rewrite (Tot ltac:(lia) s a b 0) in Gp.
  2:{ unfold psd_extra, nLO_. subst c. cbn [k_ngsPos k_src k_loSum k_extra andb Nat.ltb Nat.leb]. destruct (Rlt_dec 0 (x_extraNm x)); [lra|reflexivity]. }
  apply Ok_inj in Gp. unfold psd_at. rewrite <- Gp. clear Gp.
  assert (CC : (k_dk c * k_rad2nm c) ^ 2 = cc ^ 2). { unfold cc. subst c. cbn [k_dk k_rad2nm]. rewrite <- Rdk. subst y. cbn [y_kcMax]. rewrite INR_IZR_INZ. reflexivity. }
  rewrite CC. unfold all_errors, correction_errors, one_laser, many_lasers.
  assert (W0 : k_wind c = false /\ k_addMcao c = false /\ Req_bool (k_h c) 0 = true). { subst c. cbn. repeat split. apply Req_bool_true. reflexivity. }
  destruct W0 as (W1 & W2 & W3). rewrite W1, W2, W3. cbn [negb andb when]. rewrite Bool.andb_false_r. cbn [when].
  split.
  - intros I. rewrite I. cbn [when]. subst p. cbn [p_fit]. ring.
  - intros I. rewrite I. cbn [when]. apply inside_spec in I. set (i := (a - o)%nat) in *. set (j := (b - o)%nat) in *.
    assert (Hi : (i < r_res r)%nat) by (unfold i; lia). assert (Hj : (j < r_res r)%nat) by (unfold j; lia). rewrite Yr in *.
    destruct (src_map_inv _ _ _ E3) as (_ & S3). specialize (S3 s Hs). apply bindOk in S3. destruct S3 as (az & Eaz & S3). destruct (grid_res_spec _ _ _ S3) as (_ & _ & T3).
    destruct (src_map_inv _ _ _ E5) as (_ & S5). specialize (S5 s Hs). apply bindOk in S5. destruct S5 as (t & Et & S5). destruct (grid_res_spec _ _ _ S5) as (_ & _ & T5).
    unfold dir_diff in Et. apply bindOk in Et. destruct Et as (sx & X1 & Et). apply bindOk in Et. destruct Et as (sy & X2 & Et). apply bindOk in Et. destruct Et as (gx & X3 & Et). apply bindOk in Et. destruct Et as (gy & X4 & Et). apply Ok_inj in Et. subst t. cbn [fst snd] in T5.
    exists (grid_at noise i j), (grid_at alias i j), (at_src diff s i j), (grid_at chrom i j), (at_src stp s i j). cbv zeta.
    split; [apply S1; assumption|]. split; [apply S2; assumption|]. split; [exists az; split; [apply pyindex_of_nat; exact Eaz|apply T3; assumption]|]. split; [apply S4; assumption|].
    split. { exists sx, sy, gx, gy. split; [apply pyindex_of_nat; exact X1|]. split; [apply pyindex_of_nat; exact X2|]. split; [apply pyindex_of_nat with (i := 0%nat); exact X3|]. split; [apply pyindex_of_nat with (i := 0%nat); exact X4|]. apply T5; assumption. }
    subst p. cbn [p_noise p_alias p_diff p_chrom p_st p_fit]. ring.
Qed.
Print Assumptions C138_budget.
