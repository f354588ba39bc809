(** Properties C26 (continued), C29, C51: aliasing by chunks, consistency of the
    contributions, independence of the description of the layers. *)
From Coq Require Import Reals List Arith ZArith Lia Lra Psatz String.
From Flocq Require Import Core.Raux.
From Verif Require Import Base_Py Base_Sum M_Tools S_Tools L_Tools L_Tools2 M_Freq L_Freq M_Atmo S_Atmo L_Atmo P_Atmo M_Sensor L_Sensor S_Sensor M_Model S_Model L_Fourier2 L_Model L_Model2 P_Model.
From Coquelicot Require Import Complex.
Import ListNotations.
Open Scope R_scope.

(** ** C29 *)
(** C29: the aliasing PSD does not depend on the number of layers processed at
    once: it is the value obtained with the whole sum over the layers. *)
Theorem C29_chunk_independent :
  forall (y : fsys) (MV : R) (c : nat) (nTh nF nT i j : nat), y_layers y <> [] -> (1 <= c)%nat ->
  aliasingPSD y MV c nTh nF nT i j = aliasingPSD y MV (length (y_layers y)) nTh nF nT i j.
Proof.
  intros y MV c nTh nF nT i j HL Hc. unfold aliasingPSD.
  assert (E : forall r tf T td m n, alias_term y c r tf T td i j m n = alias_term y (length (y_layers y)) r tf T td i j m n).
  { intros r tf T td m n. unfold alias_term. destruct (y_layers y) as [|a ls] eqn:EL; [congruence|].
    destruct (bind (rdiv (IZR m) (y_dsub y)) _) as [km|]; [|reflexivity]. cbn [bind]. destruct (bind (rdiv (IZR n) (y_dsub y)) _) as [kn|]; [|reflexivity]. cbn [bind].
    destruct (inv_L0_2 _) as [l0|]; [|reflexivity]. cbn [bind]. destruct (rpow _ _) as [W|]; [|reflexivity]. cbn [bind].
    rewrite !avr_sum_val by (try exact HL; try exact Hc; cbn [length]; lia). reflexivity. }
  assert (EM : forall r tf T td l, mapM (fun mn => alias_term y c r tf T td i j (fst mn) (snd mn)) l
             = mapM (fun mn => alias_term y (length (y_layers y)) r tf T td i j (fst mn) (snd mn)) l).
  { induction l as [|a l IH]; [reflexivity|]. cbn [mapM]. rewrite E, IH. reflexivity. }
  destruct (mapM _ (y_clock y)) as [cs|]; [|reflexivity]. cbn [bind]. destruct (mean cs) as [T|]; [|reflexivity]. cbn [bind].
  destruct (recon y MV i j) as [r|]; [|reflexivity]. cbn [bind]. destruct (controller y nTh nF) as [[[[a b] g]|]|]; try reflexivity. cbn [bind].
  rewrite EM. reflexivity.
Qed.
Print Assumptions C29_chunk_independent.
(** C29: without any layer the chunk size is zero, which Python's range refuses. *)
Theorem C29_no_layer :
  forall c T td tf km kn, avr_sum c T td tf km kn [] = Err ValueError.
Proof. intros. unfold avr_sum. cbn [length]. rewrite Nat.min_0_r. reflexivity. Qed.

(** ** C51: the description of the layers *)
Lemma turb_sum (f : R -> R -> R -> R) ls ls' : same_turbulence ls ls' ->
  total (map (fun l => l_w l * f (l_h l) (l_vx l) (l_vy l)) ls) = total (map (fun l => l_w l * f (l_h l) (l_vx l) (l_vy l)) ls').
Proof. induction 1; cbn [map total fold_right l_w l_h l_vx l_vy] in *; unfold total in *; cbn [fold_right] in *; lra. Qed.
Lemma turb_csum (f : R -> R -> R -> C) ls ls' : same_turbulence ls ls' ->
  clsum (map (fun l => Cmult (RtoC (l_w l)) (f (l_h l) (l_vx l) (l_vy l))) ls) = clsum (map (fun l => Cmult (RtoC (l_w l)) (f (l_h l) (l_vx l) (l_vy l))) ls').
Proof.
  intros H. apply pair_eq; [rewrite !clsum_Re|rewrite !clsum_Im]; rewrite !map_map; cbn [Cmult RtoC fst snd].
  - rewrite (total_ext _ (fun l => l_w l * fst (f (l_h l) (l_vx l) (l_vy l)))) by (intros; ring). rewrite (turb_sum (fun a b c => fst (f a b c)) _ _ H). apply total_ext. intros; ring.
  - rewrite (total_ext _ (fun l => l_w l * snd (f (l_h l) (l_vx l) (l_vy l)))) by (intros; ring). rewrite (turb_sum (fun a b c => snd (f a b c)) _ _ H). apply total_ext. intros; ring.
Qed.
Lemma turb_h1 y ls ls' n i j : same_turbulence ls ls' -> h1 (with_layers y ls) n i j = h1 (with_layers y ls') n i j.
Proof.
  intros H. unfold h1.
  set (g := fun (h vx vy : R) => Cmult (RtoC (/ INR n)) (clsum (map (fun th => atfInt (y_gain y) (y_delay y) (zarg y (mkLay 0 h vx vy) th i j)) (thetas n)))).
  assert (E : forall ls0, map (fun l => Cmult (RtoC (l_w l / INR n)) (clsum (map (fun th => atfInt (y_gain (with_layers y ls0)) (y_delay (with_layers y ls0)) (zarg (with_layers y ls0) l th i j)) (thetas n)))) (y_layers (with_layers y ls0))
     = map (fun l => Cmult (RtoC (l_w l)) (g (l_h l) (l_vx l) (l_vy l))) ls0).
  { intros ls0. apply map_ext. intros l. unfold g, Rdiv. rewrite RtoC_mult, Cmult_assoc. reflexivity. }
  rewrite !E. apply turb_csum. exact H.
Qed.
Lemma turb_h2 y ls ls' n i j : same_turbulence ls ls' -> h2 (with_layers y ls) n i j = h2 (with_layers y ls') n i j.
Proof.
  intros H. unfold h2. rewrite !lsum_map.
  set (g := fun (h vx vy : R) => / INR n * lsum (map (fun th => Cmod (atfInt (y_gain y) (y_delay y) (zarg y (mkLay 0 h vx vy) th i j)) ^ 2) (thetas n))).
  rewrite (total_ext _ (fun l => l_w l * g (l_h l) (l_vx l) (l_vy l))) by (intros l _; unfold g, Rdiv; rewrite Rmult_assoc; reflexivity).
  change (y_layers (with_layers y ls)) with ls. rewrite (turb_sum g _ _ H). apply total_ext. intros l _. unfold g, Rdiv. rewrite Rmult_assoc. reflexivity.
Qed.
Lemma turb_A y ls ls' tx ty i j : same_turbulence ls ls' -> aniso_A (with_layers y ls) tx ty i j = aniso_A (with_layers y ls') tx ty i j.
Proof.
  intros H. unfold aniso_A. destruct (if Req_EM_T tx 0 then _ else _); [reflexivity|]. 
  exact (turb_csum (fun h _ _ => cis (2 * PI * h * (kxAO y i j * ty + kyAO y i j * tx))) _ _ H).
Qed.
Lemma turb_cos (f : R -> R) ls ls' : same_turbulence ls ls' ->
  lsum (map (fun l => 2 * l_w l * (1 - cos (f (l_h l)))) ls) = lsum (map (fun l => 2 * l_w l * (1 - cos (f (l_h l)))) ls').
Proof.
  intros H. rewrite !lsum_map. assert (K := turb_sum (fun h _ _ => 2 * (1 - cos (f h))) _ _ H). cbv beta in K.
  rewrite (total_ext _ (fun l => l_w l * (2 * (1 - cos (f (l_h l)))))) by (intros; ring). rewrite K. apply total_ext. intros; ring.
Qed.
(** C51: no contribution depends on the order of the layers, on a layer being
    given in several pieces, or on layers of null weight. *)
Theorem C51_layer_description :
  forall (y : fsys) (ls ls' : list lay) (MV : R) (c nTh nF nT i j : nat) (tx ty ze th az : R) ak,
  same_turbulence ls ls' -> ls <> [] -> ls' <> [] -> (1 <= c)%nat ->
  let y1 := with_layers y ls in let y2 := with_layers y ls' in
  noisePSD y1 MV nTh nF i j = noisePSD y2 MV nTh nF i j /\
  servoLagPSD y1 MV nTh nF i j = servoLagPSD y2 MV nTh nF i j /\
  spatioTemporalPSD y1 MV nTh nF tx ty i j = spatioTemporalPSD y2 MV nTh nF tx ty i j /\
  anisoplanatismPSD y1 tx ty i j = anisoplanatismPSD y2 tx ty i j /\
  differentialRefractionPSD y1 ze th az ak i j = differentialRefractionPSD y2 ze th az ak i j /\
  aliasingPSD y1 MV c nTh nF nT i j = aliasingPSD y2 MV c nTh nF nT i j.
Proof.
  intros y ls ls' MV c nTh nF nT i j tx ty ze th az ak H N1 N2 Hc y1 y2.
  assert (ER : recon y1 MV i j = recon y2 MV i j) by reflexivity. assert (EF : filterF y1 MV i j = filterF y2 MV i j) by reflexivity.
  assert (EW : Watm y1 i j = Watm y2 i j) by reflexivity.
  assert (H1 := turb_h1 y ls ls' nTh i j H). assert (H2 := turb_h2 y ls ls' nTh i j H). fold y1 in H1, H2. fold y2 in H1, H2.
  assert (EC : (controller y1 nTh nF = Ok None /\ controller y2 nTh nF = Ok None) \/ (exists e, controller y1 nTh nF = Err e /\ controller y2 nTh nF = Err e) \/
     (controller y1 nTh nF = Ok (Some (h1 y1 nTh, h2 y1 nTh, noiseGain y1 nF)) /\ controller y2 nTh nF = Ok (Some (h1 y2 nTh, h2 y2 nTh, noiseGain y2 nF)))).
  { unfold controller. change (y_gain y2) with (y_gain y1). change (y_rate y2) with (y_rate y1).
    destruct (Req_EM_T (y_gain y1) 0); [left; split; reflexivity|]. right. destruct (Req_EM_T (y_rate y1) 0); [left; eexists; split; reflexivity|].
    destruct (Rlt_dec (y_rate y1) 0); [left; eexists; split; reflexivity|right; split; reflexivity]. }
  assert (NG : noiseGain y1 nF = noiseGain y2 nF) by reflexivity.
  repeat split.
  - unfold noisePSD. rewrite ER. change (y_noise y2) with (y_noise y1). destruct (mean _); [|reflexivity]. cbn [bind]. destruct (pyindex _ _); [|reflexivity]. cbn [bind].
    destruct (Rlt_dec 0 _); [|reflexivity]. destruct (recon y2 MV i j); [|reflexivity]. cbn [bind].
    destruct EC as [(-> & ->)|[(e & -> & ->)|(-> & ->)]]; reflexivity.
  - unfold servoLagPSD. rewrite EF, EW. destruct (filterF _ _ _ _); [|reflexivity]. cbn [bind]. destruct (Watm _ _ _); [|reflexivity]. cbn [bind].
    destruct EC as [(-> & ->)|[(e & -> & ->)|(-> & ->)]]; try reflexivity. cbn [bind]. cbv zeta. rewrite H1, H2. reflexivity.
  - unfold spatioTemporalPSD. rewrite EF, EW. destruct (Watm _ _ _); [|reflexivity]. cbn [bind]. destruct (filterF _ _ _ _); [|reflexivity]. cbn [bind].
    destruct EC as [(-> & ->)|[(e & -> & ->)|(-> & ->)]]; try reflexivity. cbn [bind]. rewrite H1, H2. unfold y1 at 2. rewrite (turb_A y ls ls' tx ty i j H). reflexivity.
  - unfold anisoplanatismPSD. rewrite EW. destruct (Watm _ _ _); [|reflexivity]. cbn [bind]. destruct (if Req_EM_T tx 0 then _ else _); [reflexivity|]. do 3 f_equal.
    exact (turb_cos (fun h => 2 * PI * h * (kxAO y i j * ty + kyAO y i j * tx)) _ _ H).
  - unfold differentialRefractionPSD. rewrite EW. destruct (Watm _ _ _); [|reflexivity]. cbn [bind]. destruct (Req_EM_T ze 0); [reflexivity|]. do 3 f_equal.
    exact (turb_cos (fun h => 2 * PI * h * sqrt (k2AO y i j) * tan th * cos (ak i j - az)) _ _ H).
  - unfold aliasingPSD. rewrite ER. change (y_clock y2) with (y_clock y1). change (y_rate y2) with (y_rate y1). destruct (mapM _ (y_clock y1)); [|reflexivity]. cbn [bind].
    destruct (mean _) as [T|]; [|reflexivity]. cbn [bind]. cbv zeta. destruct (recon y2 MV i j) as [r|]; [|reflexivity]. cbn [bind].
    destruct EC as [(-> & ->)|[(e & -> & ->)|(-> & ->)]]; try reflexivity. cbn [bind].
    assert (EM : forall l, mapM (fun mn => alias_term y1 c r (h1 y1 nTh i j) T (T * y_delay y1) i j (fst mn) (snd mn)) l
       = mapM (fun mn => alias_term y2 c r (h1 y2 nTh i j) T (T * y_delay y2) i j (fst mn) (snd mn)) l).
    { induction l as [|mn l IH]; [reflexivity|]. cbn [mapM]. rewrite IH. f_equal. unfold alias_term. change (y_dsub y2) with (y_dsub y1).
      change (kxAO y2 i j) with (kxAO y1 i j). change (kyAO y2 i j) with (kyAO y1 i j). 
      destruct (bind (rdiv (IZR (fst mn)) _) _) as [km|]; [|reflexivity]. cbn [bind]. destruct (bind (rdiv (IZR (snd mn)) _) _) as [kn|]; [|reflexivity]. cbn [bind].
      change (y_atm y2) with (y_atm y1). destruct (inv_L0_2 _) as [l0|]; [|reflexivity]. cbn [bind]. destruct (rpow _ _) as [W|]; [|reflexivity]. cbn [bind].
      rewrite !avr_sum_val by (first [exact N1|exact N2|exact Hc]). cbn [bind]. rewrite H1.
      assert (K := turb_csum (fun _ vx vy => avr T (T * y_delay y1) (h1 y2 nTh i j) km kn (mkLay 0 0 vx vy)) _ _ H). unfold avr in K at 1 2. cbn [l_vx l_vy] in K. 
      change (y_layers y1) with ls. change (y_layers y2) with ls'. unfold avr. change (y_delay y2) with (y_delay y1). cbv beta in K. rewrite K. reflexivity. }
    rewrite EM. reflexivity.
Qed.
Print Assumptions C51_layer_description.

(** ** C26 continued *)
Lemma controller_on y nTh nF : y_gain y <> 0 -> 0 < y_rate y -> controller y nTh nF = Ok (Some (h1 y nTh, h2 y nTh, noiseGain y nF)).
Proof. intros Hg Hr. unfold controller. destruct (Req_EM_T _ 0); [contradiction|]. destruct (Req_EM_T _ 0); [lra|]. destruct (Rlt_dec _ 0); [lra|reflexivity]. Qed.
Lemma filterF_ok y MV i j F : filterF y MV i j = Ok F -> exists r, recon y MV i j = Ok r.
Proof. intros H. unfold filterF in H. apply bindOk in H. destruct H as (r & E & _). exists r. exact E. Qed.
Lemma mapM_ok {A B} (f : A -> result B) l : (forall x, In x l -> exists v, f x = Ok v) -> exists vs, mapM f l = Ok vs.
Proof.
  induction l as [|a l IH]; intros H; [exists []; reflexivity|]. destruct (H a (or_introl eq_refl)) as (v & E). destruct IH as (vs & Es); [intros x Hx; apply H; right; exact Hx|].
  exists (v :: vs). cbn [mapM]. rewrite E, Es. reflexivity.
Qed.
(** C26: with a Shack-Hartmann sensor every contribution is defined (a finite
    number) at every frequency of the corrected area. *)
Theorem C26_contributions_defined :
  forall (y : fsys) (MV : R) (c nTh nF nT i j : nat) (tx ty ze th az n1 n2 : R) ak, valid_sys y -> 0 <= MV ->
  upper (y_type y) = "SHACK-HARTMANN"%string -> 0 < y_dsub y -> 0 < y_off y < y_step y ->
  Rabs (y_dsub y * kxAO y i j) < 1 -> Rabs (y_dsub y * kyAO y i j) < 1 ->
  y_gain y <> 0 -> 0 < y_rate y -> y_layers y <> [] -> y_clock y <> [] -> n1 <> 0 -> (1 <= c)%nat ->
  (exists v, noisePSD y MV nTh nF i j = Ok v) /\ (exists v, aliasingPSD y MV c nTh nF nT i j = Ok v) /\
  (exists v, spatioTemporalPSD y MV nTh nF tx ty i j = Ok v) /\ (exists v, servoLagPSD y MV nTh nF i j = Ok v) /\
  (exists v, reconstructionPSD y MV i j = Ok v) /\ (exists v, anisoplanatismPSD y tx ty i j = Ok v) /\
  (exists v, differentialRefractionPSD y ze th az ak i j = Ok v) /\ (exists v, chromatismPSD y n1 n2 i j = Ok v).
Proof.
  intros y MV c nTh nF nT i j tx ty ze th az n1 n2 ak HV HM HT Hd Ho Hx Hy Hg Hr HL Hck Hn1 Hc.
  destruct (C25_defined y MV i j HV HM HT Hd Ho Hx Hy) as (F & EF). destruct (filterF_ok _ _ _ _ _ EF) as (r & Er).
  destruct (Wphi_pos y i j HV) as (p & Ep & Pp). pose proof HV as (Hk & HS & Hr0 & Hwv & Hgs & (L & HLp & EL) & Hw & Hne & Hv).
  assert (WA : Watm y i j = Ok (p * pistonAO y i j)) by (unfold Watm; rewrite Ep; reflexivity).
  assert (EC := controller_on y nTh nF Hg Hr). destruct (mean_nonneg _ Hne Hv) as (m & Em & _).
  repeat split.
  - unfold noisePSD. rewrite Em. cbn [bind]. destruct (y_noise y) as [|v0 vs]; [congruence|]. cbn [pyindex]. unfold pyindex. cbn. destruct (Rlt_dec 0 v0); [|eexists; reflexivity].
    rewrite Er, EC. cbn [bind]. rewrite rdiv_ok by nra. eexists. reflexivity.
  - unfold aliasingPSD. rewrite (mapM_map _ (fun c => c / y_rate y)) by (intros c0 _; apply rdiv_ok; lra). cbn [bind].
    assert (ET : exists T, mean (map (fun c0 => c0 / y_rate y) (y_clock y)) = Ok T).
    { unfold mean. rewrite map_length. destruct (y_clock y); [congruence|]. eexists; reflexivity. }
    destruct ET as (T & ET). rewrite ET, Er, EC. cbn [bind]. cbv zeta.
    destruct (mapM_ok (fun mn => alias_term y c r (h1 y nTh i j) T (T * y_delay y) i j (fst mn) (snd mn)) (flat_map (fun m0 => map (fun n => (m0, n)) (shifts nT)) (shifts nT))) as (ts & Ets).
    { intros mn _. unfold alias_term. rewrite !rdiv_ok by lra. cbn [bind]. unfold inv_L0_2. rewrite EL. rewrite rdiv_ok by nra. cbn [bind].
      rewrite rpow_pos. 2: { match goal with |- 0 < ?a ^ 2 + ?b ^ 2 + _ => assert (A := pow2_ge_0 a); assert (B := pow2_ge_0 b); assert (0 < 1 / L ^ 2) by (apply Rdiv_lt_0_compat; [lra|nra]); lra end. }
      cbn [bind]. rewrite avr_sum_val by assumption. cbn [bind]. eexists. reflexivity. }
    rewrite Ets. cbn [bind]. rewrite rpow_pos by exact Hr0. eexists. reflexivity.
  - unfold spatioTemporalPSD. rewrite WA, EF, EC. eexists. reflexivity.
  - unfold servoLagPSD. rewrite WA, EF, EC. eexists. reflexivity.
  - unfold reconstructionPSD. rewrite EF, Ep. eexists. reflexivity.
  - unfold anisoplanatismPSD. rewrite WA. cbn [bind]. destruct (if Req_EM_T tx 0 then _ else _); eexists; reflexivity.
  - unfold differentialRefractionPSD. rewrite WA. cbn [bind]. destruct (Req_EM_T ze 0); eexists; reflexivity.
  - unfold chromatismPSD. rewrite WA. cbn [bind]. rewrite rdiv_ok by assumption. eexists. reflexivity.
Qed.
Print Assumptions C26_contributions_defined.

(** C26: the "sole servo-lag" PSD is the on-axis spatio-temporal PSD whenever the
    layer weights do not exceed one in total (only an excess makes the
    spatio-temporal one negative, see C26_weight_excess_refuted). *)
Theorem C26_servo_lag_is_on_axis :
  forall (y : fsys) (MV : R) (nTh nF i j : nat) (v : R), valid_sys y -> weight_sum y <= 1 -> (1 <= nTh)%nat -> / 500 <= y_rate y -> 0 <= MV -> y_gain y <> 0 ->
  spatioTemporalPSD y MV nTh nF 0 0 i j = Ok v -> servoLagPSD y MV nTh nF i j = Ok v.
Proof.
  intros y MV nTh nF i j v HV HW Hn Hr HM Hg H.
  destruct (Wphi_pos y i j HV) as (p & Ep & PW). assert (Pp := piston_range y i j).
  assert (WA : Watm y i j = Ok (p * pistonAO y i j)) by (unfold Watm; rewrite Ep; reflexivity). assert (PA : 0 <= p * pistonAO y i j) by (apply Rmult_le_pos; lra).
  unfold spatioTemporalPSD in H. rewrite WA in H. cbn [bind] in H. apply bindOk in H. destruct H as (F & EF & H).
  destruct (C25_filter_between_0_and_1 y MV i j F HV HM EF) as (HF & _).
  unfold servoLagPSD. rewrite EF, WA. cbn [bind].
  rewrite controller_on in H |- * by (try exact Hg; lra). cbn [bind] in H |- *. cbv zeta.
  assert (EA : aniso_A y 0 0 i j = RtoC 1). { unfold aniso_A. destruct (Req_EM_T 0 0); [reflexivity|congruence]. } rewrite EA, Cmult_1_r in H.
  apply Ok_inj in H. subst v. f_equal. rewrite Rmult_assoc. f_equal. apply Rabs_right. apply Rle_ge. apply Rmult_le_pos; [|exact PA].
  pose proof HV as (_ & _ & _ & _ & _ & _ & Hw & _). destruct (h1_h2 y nTh i j Hn Hw) as (J1 & J2).
  assert (K := residual_nonneg F (h1 y nTh i j) (RtoC 1) (h2 y nTh i j) HF ltac:(nra) ltac:(rewrite cnorm2_RtoC; lra)). rewrite Cmult_1_r in K. rewrite cmod2. exact K.
Qed.
Print Assumptions C26_servo_lag_is_on_axis.

(** C26: for static turbulence and an unregularised reconstructor, the error off
    axis is the error on axis plus the anisoplanatism error, up to eps/gain. *)
Theorem C26_off_axis_error :
  forall (y : fsys) (nTh nF i j : nat) (tx ty v0 va v : R), valid_sys y -> weight_sum y = 1 -> (1 <= nTh)%nat -> 0 < y_rate y -> 0 < y_gain y ->
  (forall l, In l (y_layers y) -> l_vx l = 0 /\ l_vy l = 0) -> (i, j) <> (y_res y / 2, y_res y / 2)%nat ->
  spatioTemporalPSD y 0 nTh nF 0 0 i j = Ok v0 -> anisoplanatismPSD y tx ty i j = Ok va -> spatioTemporalPSD y 0 nTh nF tx ty i j = Ok v ->
  exists a, v = v0 + a * va /\ 1 - eps / y_gain y <= a < 1.
Proof.
  intros y nTh nF i j tx ty v0 va v HV HW Hn Hr Hg Hv Hc H0 Ha H.
  destruct (C50_static_turbulence y nTh i j Hn Hg HW Hv) as (a & E1 & E2 & B). exists a. split; [|exact B].
  destruct (Wphi_pos y i j HV) as (p & Ep & PW). assert (WA : Watm y i j = Ok (p * pistonAO y i j)) by (unfold Watm; rewrite Ep; reflexivity).
  unfold spatioTemporalPSD in H0, H. unfold anisoplanatismPSD in Ha. rewrite WA in H0, H, Ha. cbn [bind] in H0, H, Ha.
  apply bindOk in H. destruct H as (F & EF & H). rewrite EF in H0. cbn [bind] in H0.
  destruct (C25_filter_between_0_and_1 y 0 i j F HV (Rle_refl 0) EF) as (_ & _ & _ & HF). rewrite (HF Hc eq_refl) in H, H0.
  rewrite controller_on in H, H0 by lra. cbn [bind] in H, H0. rewrite E1, E2 in H, H0. rewrite cmod2, cnorm2_RtoC in H, H0.
  assert (EA : aniso_A y 0 0 i j = RtoC 1). { unfold aniso_A. destruct (Req_EM_T 0 0); [reflexivity|congruence]. } rewrite EA in H0.
  apply Ok_inj in H0. apply Ok_inj in H. subst v v0. unfold aniso_A.
  destruct (if Req_EM_T tx 0 then _ else _) eqn:EX; apply Ok_inj in Ha; subst va.
  - cbn [Cmult RtoC fst snd]. ring.
  - rewrite lsum_map.
    rewrite (total_ext _ (fun l => 2 * l_w l - 2 * (l_w l * cos (2 * PI * l_h l * (kxAO y i j * ty + kyAO y i j * tx))))) by (intros; ring).
    set (A := clsum _). assert (RA : fst A = total (map (fun l => l_w l * cos (2 * PI * l_h l * (kxAO y i j * ty + kyAO y i j * tx))) (y_layers y))).
    { unfold A. rewrite clsum_Re, map_map. apply total_ext. intros l _. cbn [Cmult RtoC cis fst snd]. ring. }
    assert (ES : forall f g : lay -> R, total (map (fun l => f l - g l) (y_layers y)) = total (map f (y_layers y)) - total (map g (y_layers y))).
    { intros f g. rewrite (total_ext _ (fun l => f l + (-1) * g l)) by (intros; ring). rewrite total_plus, total_mul. ring. }
    rewrite ES, !total_mul. unfold weight_sum in HW. rewrite HW, <- RA. clearbody A. destruct A as [u w]. cbn [Cmult RtoC fst snd]. ring.
Qed.
Print Assumptions C26_off_axis_error.

(** C26: outside of the corrected area every contribution of the correction
    vanishes (closed loop) while the fitting error is the whole turbulence, except
    the chromatic error, which is not masked. *)
Theorem C26_outside_area :
  forall (y : fsys) (MV : R) (c nTh nF nT i j : nat) (v : R), y_gain y <> 0 -> 0 < y_rate y -> maskAO y i j = 0 ->
  (noisePSD y MV nTh nF i j = Ok v \/ aliasingPSD y MV c nTh nF nT i j = Ok v \/ (exists tx ty, spatioTemporalPSD y MV nTh nF tx ty i j = Ok v) \/
   servoLagPSD y MV nTh nF i j = Ok v \/ reconstructionPSD y MV i j = Ok v \/ (exists tx ty, anisoplanatismPSD y tx ty i j = Ok v) \/
   (exists ze th az ak, differentialRefractionPSD y ze th az ak i j = Ok v)) -> v = 0.
Proof.
  intros y MV c nTh nF nT i j v Hg Hr Hm H.
  destruct H as [H|[H|[(tx & ty & H)|[H|[H|[(tx & ty & H)|(ze & th & az & ak & H)]]]]]].
  - unfold noisePSD in H. apply bindOk in H. destruct H as (m & _ & H). apply bindOk in H. destruct H as (v0 & _ & H). destruct (Rlt_dec 0 v0) as [P|]; [|apply Ok_inj in H; lra].
    apply bindOk in H. destruct H as (rr & _ & H). rewrite controller_on in H by assumption. cbn [bind] in H. apply bindOk in H. destruct H as (q & _ & H). apply Ok_inj in H. subst v. rewrite Hm. ring.
  - unfold aliasingPSD in H. apply bindOk in H. destruct H as (cs & _ & H). apply bindOk in H. destruct H as (T & _ & H). cbv zeta in H. apply bindOk in H. destruct H as (rr & _ & H).
    rewrite controller_on in H by assumption. cbn [bind] in H. apply bindOk in H. destruct H as (ts & _ & H). apply bindOk in H. destruct H as (p & _ & H). apply Ok_inj in H. subst v. rewrite Hm. ring.
  - unfold spatioTemporalPSD in H. apply bindOk in H. destruct H as (w & _ & H). apply bindOk in H. destruct H as (F & _ & H). rewrite controller_on in H by assumption. cbn [bind] in H. apply Ok_inj in H. subst v. rewrite Hm. ring.
  - unfold servoLagPSD in H. apply bindOk in H. destruct H as (w & _ & H). apply bindOk in H. destruct H as (F & _ & H). rewrite controller_on in H by assumption. cbn [bind] in H. cbv zeta in H. apply Ok_inj in H. subst v. rewrite Hm. ring.
  - unfold reconstructionPSD in H. apply bindOk in H. destruct H as (w & _ & H). apply bindOk in H. destruct H as (F & _ & H). apply Ok_inj in H. subst v. rewrite Hm. ring.
  - unfold anisoplanatismPSD in H. apply bindOk in H. destruct H as (w & _ & H). destruct (if Req_EM_T tx 0 then _ else _); apply Ok_inj in H; subst v; [reflexivity|]. rewrite Hm. ring.
  - unfold differentialRefractionPSD in H. apply bindOk in H. destruct H as (w & _ & H). destruct (Req_EM_T ze 0); apply Ok_inj in H; subst v; [reflexivity|]. rewrite Hm. ring.
Qed.
Print Assumptions C26_outside_area.
Theorem C26_chromatism_unmasked_refuted :
  forall (y : fsys) (n_gs n_ref : R) (i j : nat), valid_sys y -> n_gs <> 0 -> n_gs <> n_ref -> 0 < pistonAO y i j ->
  exists v, chromatismPSD y n_gs n_ref i j = Ok v /\ 0 < v.
Proof.
  intros y n1 n2 i j HV H1 H2 Hp. destruct (Wphi_pos y i j HV) as (p & Ep & PW). unfold chromatismPSD, Watm. rewrite Ep. cbn [bind]. rewrite rdiv_ok by exact H1. cbn [bind].
  eexists. split; [reflexivity|]. apply Rmult_lt_0_compat; [|apply Rmult_lt_0_compat; assumption]. apply pow2_gt_0. unfold Rdiv. apply Rmult_integral_contrapositive_currified; [lra|]. apply Rinv_neq_0_compat. exact H1.
Qed.
Print Assumptions C26_chromatism_unmasked_refuted.

(** ** A concrete system: the hypotheses above are met. *)
Definition ex_atm : atmo := mkAtmo (/ 10 ^ 6) (1 / 10) [1 / 4; 3 / 4] [0; 1000] (Scal 0) (Scal 0) (LNum (Fin 25)) [].
Definition ex_layers : list lay := [mkLay (1 / 4) 0 5 0; mkLay (3 / 4) 1000 0 10].
Definition ex_still (w : R) : list lay := [mkLay (1 / 4) 0 0 0; mkLay w 1000 0 0].
Definition ex_sys (ls : list lay) : fsys :=
  mkSys 8 (1 / 4) (/ 10 ^ 10) 1 true 8 (fun _ => 0) (mkSpecial 1 1 1 (fun x => x)) ex_atm ls
    "Shack-Hartmann" (1 / 2) 16 0 1 [1] [1 / 2] (/ 10 ^ 6) (1 / 2) 500 2.
Lemma ex_valid ls : (forall l, In l ls -> 0 <= l_w l) -> valid_sys (ex_sys ls).
Proof.
  intros H. unfold valid_sys. cbn [ex_sys y_kcMax y_sp y_atm y_gswvl y_layers y_noise ex_atm a_r0 a_wvl a_L0]. split; [lra|]. split; [repeat split; cbn; lra|]. split; [lra|]. split; [lra|]. split; [lra|].
  split; [exists 25; split; [lra|reflexivity]|]. split; [exact H|]. split; [discriminate|]. intros v [ <-|[]]. lra.
Qed.
Lemma ex_w ls : ls = ex_layers \/ (exists w, 0 <= w /\ ls = ex_still w) -> forall l, In l ls -> 0 <= l_w l.
Proof. intros [ ->|(w & Hw & ->)] l [ <-|[ <-|[]]]; cbn [l_w]; lra. Qed.
Lemma ex_freq ls i j : (i < 8)%nat -> (j < 8)%nat -> Rabs (y_dsub (ex_sys ls) * kxAO (ex_sys ls) i j) < 1 /\ Rabs (y_dsub (ex_sys ls) * kyAO (ex_sys ls) i j) < 1.
Proof.
  assert (K : forall k, (k < 8)%nat -> Rabs (1 / 2 * (IZR (Z.of_nat k - Z.of_nat 8 / 2) * (1 / 4) + / 10 ^ 10)) < 1).
  { intros k Hk. change (Z.of_nat 8 / 2)%Z with 4%Z. assert (A : (-4 <= Z.of_nat k - 4 <= 3)%Z) by lia. destruct A as (A & B). apply IZR_le in A. apply IZR_le in B. apply Rabs_def1; lra. }
  intros Hi Hj. split; [exact (K i Hi)|exact (K j Hj)].
Qed.
(** C25, C26, C29, C50: the system is valid, its filter and its contributions are
    defined at every frequency, and its layer weights sum to one. *)
Example C26_nonvacuous : let y := ex_sys ex_layers in valid_sys y /\ weight_sum y = 1 /\
  forall i j, (i < 8)%nat -> (j < 8)%nat -> (exists F, filterF y 1 i j = Ok F) /\
   (exists v, noisePSD y 1 1 1000 i j = Ok v) /\ (exists v, aliasingPSD y 1 5 1 1000 2 i j = Ok v) /\ (exists v, spatioTemporalPSD y 1 1 1000 1 2 i j = Ok v).
Proof.
  intros y. assert (HV : valid_sys y) by (apply ex_valid, ex_w; left; reflexivity). split; [exact HV|]. split; [unfold weight_sum, total; cbn; lra|]. intros i j Hi Hj.
  destruct (ex_freq ex_layers i j Hi Hj) as (F1 & F2).
  assert (A1 : 0 < y_dsub y) by (cbn; lra). assert (A2 : 0 < y_off y < y_step y) by (cbn; lra).
  assert (A3 : y_gain y <> 0) by (cbn; lra). assert (A4 : 0 < y_rate y) by (cbn; lra). assert (A5 : (1:R) <> 0) by lra.
  split; [exact (C25_defined y 1 i j HV Rle_0_1 eq_refl A1 A2 F1 F2)|].
  destruct (C26_contributions_defined y 1 5 1 1000 2 i j 1 2 0 0 0 1 0 (fun _ _ => 0) HV Rle_0_1 eq_refl A1 A2 F1 F2 A3 A4 ltac:(discriminate) ltac:(discriminate) A5 ltac:(lia)) as (N & AL & S & _). split; [exact N|]. split; [exact AL|exact S].
Qed.
Lemma ex_mask ls i j : (i, j) = (4, 4)%nat \/ (i, j) = (4, 5)%nat -> maskAO (ex_sys ls) i j = 1.
Proof.
  intros H. unfold maskAO, mskIn, kxAO, kyAO, freq_x, freq_y. cbn [ex_sys y_circle y_kcMax y_res y_step y_off].
  destruct H as [H|H]; injection H as -> ->; (destruct (Rlt_dec _ _) as [|N]; [reflexivity|]); exfalso; apply N; cbn [Z.of_nat Pos.of_succ_nat Pos.succ]; cbn [Z.sub Z.div Z.div_eucl Z.pos_div_eucl Z.leb Z.ltb Z.compare Pos.compare Pos.compare_cont Z.add Z.mul Z.opp Z.pos_sub Pos.add Pos.mul Pos.succ Pos.pred_double Z.double Z.succ_double Z.pred_double fst]; lra.
Qed.
Lemma ex_piston ls i j : (i, j) <> (4, 4)%nat -> pistonAO (ex_sys ls) i j = 1.
Proof.
  intros H. unfold pistonAO, centre. cbn [ex_sys y_res y_j1 y_D]. change (8 / 2)%nat with 4%nat.
  destruct ((i =? 4)%nat && (j =? 4)%nat)%bool eqn:E.
  - exfalso. apply andb_prop in E. destruct E as (E1 & E2). apply Nat.eqb_eq in E1. apply Nat.eqb_eq in E2. subst. apply H. reflexivity.
  - unfold pistonFilter, sombrero1. set (f' := if Req_EM_T (sqrt _) 0 then _ else _). assert (N : f' <> 0). { unfold f'. destruct (Req_EM_T (sqrt _) 0); [assert (0 < / 10 ^ 10) by (apply Rinv_0_lt_compat, pow_lt; lra); apply Rgt_not_eq; exact H0|assumption]. }
    destruct (Req_EM_T (PI * 8 * f') 0) as [E0|_]. { exfalso. assert (HP := PI_RGT_0). apply Rmult_integral in E0. destruct E0 as [E0|E0]; [lra|contradiction]. }
    replace (0 / (PI * 8 * f')) with 0 by (unfold Rdiv; ring). destruct (Rlt_dec _ 0); [lra|]. ring.
Qed.
Example C26_refuted_nonvacuous : let y := ex_sys (ex_still (3 / 4 + / 1000)) in exists v, spatioTemporalPSD y 0 1 1000 0 0 4 5 = Ok v /\ v < 0.
Proof.
  intros y. assert (HV : valid_sys y) by (apply ex_valid, ex_w; right; eexists; split; [|reflexivity]; lra).
  destruct (ex_freq (ex_still (3 / 4 + / 1000)) 4 5 ltac:(lia) ltac:(lia)) as (F1 & F2).
  assert (A1 : 0 < y_dsub y) by (cbn; lra). assert (A2 : 0 < y_off y < y_step y) by (cbn; lra).
  assert (A3 : y_gain y <> 0) by (cbn; lra). assert (A4 : 0 < y_rate y) by (cbn; lra). assert (A5 : (1:R) <> 0) by lra.
  destruct (C26_contributions_defined y 0 5 1 1000 2 4 5 0 0 0 0 0 1 0 (fun _ _ => 0) HV (Rle_refl 0) eq_refl A1 A2 F1 F2 A3 A4 ltac:(discriminate) ltac:(discriminate) A5 ltac:(lia)) as (_ & _ & (v & E) & _).
  exists v. split; [exact E|]. eapply (C26_weight_excess_refuted y 1 1000 4 5 v HV); [ |lia|exact A4| | | | | |exact E].
  - unfold weight_sum, total. cbn [y ex_sys y_layers ex_still map fold_right l_w]. lra.
  - cbn. lra.
  - intros l [ <-|[ <-|[]]]; split; reflexivity.
  - cbn [y ex_sys y_res]. change (8 / 2)%nat with 4%nat. discriminate.
  - apply ex_mask. right. reflexivity.
  - unfold y. rewrite ex_piston by discriminate. lra.
Qed.
Example C50_nonvacuous : let y := ex_sys (ex_still (3 / 4)) in weight_sum y = 1 /\ 0 < y_gain y /\ (forall l, In l (y_layers y) -> l_vx l = 0 /\ l_vy l = 0) /\
  eps <= Cmod (Cplus (RtoC 1) (Cmult (hInt (1 / 2) 0) (zpow 0 (-2)))).
Proof.
  intros y. split; [unfold weight_sum, total; cbn; lra|]. split; [cbn; lra|]. split; [intros l [ <-|[ <-|[]]]; split; reflexivity|].
  rewrite hInt_0, zpow_0, Cmult_1_r, <- RtoC_plus, Cmod_R. assert (P := eps_pos). assert (S := eps_small). assert (0 < 1 / 2 / eps) by (apply Rdiv_lt_0_compat; lra). rewrite Rabs_right by lra. lra.
Qed.
Example C51_nonvacuous : same_turbulence ex_layers [mkLay (1 / 2) 1000 0 10; mkLay (1 / 4) 0 5 0; mkLay (1 / 4) 1000 0 10].
Proof.
  unfold ex_layers. eapply st_trans; [apply st_swap|]. replace (3 / 4) with (1 / 2 + 1 / 4) by lra. eapply st_trans; [apply st_split|]. apply st_cons. apply st_swap.
Qed.

Print Assumptions C29_no_layer.
