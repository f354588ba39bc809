(** C139: from the parameter file to the images. *)
From Coq Require Import Reals List Arith ZArith Lia Lra Bool String.
From Flocq Require Import Core.Raux.
From Verif Require Import Base_Py Base_Sum M_Image M_Fourier S_Fourier M_Tools S_Tools L_Tools2 M_Atmo S_Atmo L_Atmo M_Sensor S_Sensor M_Source M_Freq L_Freq M_Model S_Model M_Model2 S_Model2 L_Model3.
From Verif Require Import M_Psf L_Psf3 M_Call M_Driver M_Config S_Config L_Config L_Config2 P_Config P_Config4 P_Config5 P_Config6 P_Config7 M_Chain M_Chain2.
From Verif Require Import P_Freq P_Sensor P_Model2 P_Model3 P_Fourier P_Driver P_Driver2 P_Call P_Chain P_Chain2 P_Chain3.
Import ListNotations.
Open Scope R_scope.
Open Scope string_scope.

(** ** Specification: the values of the parameter file *)
(** every number given for key [k] of section [s] (or its default [d]) satisfies [P] *)
Definition num_is (c : cfg) (s k : string) (d : pval) (P : R -> Prop) : Prop := forall v x, value c s k d v -> number v x -> P x.
Definition nums_are (c : cfg) (s k : string) (d : pval) (P : list R -> Prop) : Prop := forall v l, value c s k d v -> numbers v l -> P l.
(** a mandatory key: as above, without a default *)
Definition given_is (c : cfg) (s k : string) (P : R -> Prop) : Prop := forall v x, entry c s k v -> number v x -> P x.
(** a number or a list of numbers, all satisfying [P] *)
Definition each_is (c : cfg) (s k : string) (P : R -> Prop) : Prop :=
  (forall v x, entry c s k v -> number v x -> P x) /\ (forall v l, entry c s k v -> numbers v l -> l <> [] /\ forall x, In x l -> P x).
Record physical_file (c : cfg) (bw : R) : Prop := {
  pf_D : given_is c "telescope" "TelescopeDiameter" (fun x => 0 < x);
  pf_zen : num_is c "telescope" "ZenithAngle" (PNum 0) (fun x => -90 < x);
  pf_extra : num_is c "telescope" "extraErrorNm" (PInt 0) (fun x => x <= 0);
  pf_wvl : num_is c "atmosphere" "Wavelength" (PNum (500 / 10 ^ 9)) (fun x => 0 < x);
  pf_seeing : given_is c "atmosphere" "Seeing" (fun x => 0 < x);
  pf_r0 : given_is c "atmosphere" "r0_value" (fun x => 0 < x);
  pf_L0 : exists v L, value c "atmosphere" "L0" (PInt 25) v /\ number v L /\ 0 < L;
  pf_w : nums_are c "atmosphere" "Cn2Weights" (PList [PNum 1]) (fun l => (forall x, In x l -> 0 < x) /\ total l <= 1);
  pf_h : nums_are c "atmosphere" "Cn2Heights" (PList [PNum 0]) (fun l => forall x, In x l -> 0 <= x);
  (* one natural guide star *)
  pf_lo : ~ section_present c "sources_LO";
  pf_height : num_is c "sources_HO" "Height" (PNum 0) (fun x => x = 0);
  pf_one : nums_are c "sources_HO" "Zenith" (PList [PNum 0]) (fun l => List.length l = 1%nat);
  pf_gs : each_is c "sources_HO" "Wavelength" (fun x => 0 < x);
  (* noise variances given *)
  pf_noise : exists v l, value c "sensor_HO" "NoiseVariance" (PList [PNone]) v /\ numbers v l /\ l <> [] /\ forall x, In x l -> 0 <= x;
  pf_gain : num_is c "RTC" "LoopGain_HO" (PNum (1 / 2)) (fun x => x <> 0);
  pf_rate : num_is c "RTC" "SensorFrameRate_HO" (PNum 500) (fun x => / 500 <= x);
  pf_pitch : forall v l, entry c "DM" "DmPitchs" v -> numbers v l -> forall x, In x l -> 0 < x;
  pf_ps : given_is c "sensor_science" "PixelScale" (fun x => 0 < x);
  pf_bw : 0 <= bw /\ num_is c "sensor_science" "SpectralBandwidth" (PNum 0) (fun x => x = bw);
  pf_src : each_is c "sources_science" "Wavelength" (fun x => bw / 2 < x) }.

Lemma each_wvl c s k P v l : each_is c s k P -> entry c s k v -> atleast_1d v = Ok l -> l <> [] /\ forall x, In x l -> P x.
Proof.
  intros [H1 H2] He H. unfold atleast_1d in H. apply bindOk in H. destruct H as (so & Es & H). apply Ok_inj in H. subst l. destruct so as [x|l]; cbn [vec].
  - assert (N : number v x). { apply as_num_ok. destruct v; cbn in Es |- *; try discriminate; try (apply Ok_inj in Es; injection Es as <-; reflexivity). apply bindOk in Es. destruct Es as (q & _ & Es). discriminate. }
    split; [discriminate|]. intros y [ <-|[]]. exact (H1 v x He N).
  - apply (H2 v l He). apply as_nums_ok, as_sol_lst. exact Es.
Qed.
Lemma source_wvls wvl zen az h g : source_init (Lst wvl) (Lst zen) (Lst az) h = Ok g ->
  (so_nSrc g = 1%nat -> wvl <> [] -> so_wvl g <> []) /\ forall x, In x (so_wvl g) -> In x wvl.
Proof.
  intros H. unfold source_init in H. cbn [vec] in H. apply bindOk in H. destruct H as (hh & _ & H). apply Ok_inj in H. subst g. cbn [so_wvl so_nSrc].
  set (r := if test1 zen && test1 az && test1 wvl then _ else _). destruct (test1 wvl && (1 <? fst (fst r))%nat)%bool eqn:E; cbn [fst]; split.
  - intros H1. apply andb_prop in E. destruct E as [_ E]. apply Nat.ltb_lt in E. lia.
  - intros x Hx. apply repeat_spec in Hx. subst x. apply andb_prop in E. destruct E as [E _]. unfold test1 in E. apply Nat.eqb_eq in E. destruct wvl as [|a [|b l]]; try discriminate. left. reflexivity.
  - intros _ Q. exact Q.
  - intros x Hx. exact Hx.
Qed.
Lemma total_lsum l : total l = lsum l.
Proof. induction l as [|a l IH]; [reflexivity|]. cbn. unfold total in IH. cbn in IH. rewrite ?IH. reflexivity. Qed.

(** C139: a parameter file accepted by the constructor whose values are physical gives a system
    for which the whole computation is meaningful (C138). *)
Theorem C139_file_is_physical : forall e ar c y c' w op x bw, aoSystem e ar c = (Ok y, c') -> read_system c' y = Ok x ->
  physical_file c bw -> special_pos (wd_sp w) -> 0 <= op_MV op -> physical w op x.
Proof.
  intros e ar c y c' w op x bw HA HR PF HSp HMV.
  destruct (C32_line_of_sight _ _ _ _ _ HA) as (vD & D & vz & zen & am & vw & wvl & r0z & ww & wl & hh & h & sv & v & A1 & A2 & A3 & A4 & A5 & A6 & A7 & A8 & A9 & A10 & A11 & A12 & A13 & A14 & A15 & A16 & A17 & A18 & A19 & A20 & A21 & A22 & A23).
  destruct (ao_inv _ _ _ _ _ HA) as [Hk Hc]. apply core_inv in Hk. destruct Hk as (S1 & S2 & S3 & Ht & Ham & Ha & g & Hg & Hlo).
  assert (Hc0 := Hc). apply conf_inv in Hc. destruct Hc as (swvl & sHO & hw & sLO & Hs & S4 & Hw & Ew & Htt & Hr & S5 & tf & Htf & Hd & sS & Hcam & Ec' & _ & _).
  destruct PF as [PD Pzen Pex Pw0 Psee Pr0 (vL & L & PL1 & PL2 & PL3) Pw Ph Plo Phe Pone Pgs (vN & lN & PN1 & PN2 & PN3 & PN4) Pg Prt Ppi Pps (Pbw0 & Pbw) Psrc].
  (* atmosphere *)
  assert (Zc : zen < 90). { apply tel_inv in Ht. destruct Ht as (vD' & D' & zen' & am' & _ & _ & T3 & T4 & _ & _ & _ & T8 & _). congruence. }
  assert (AM : 0 < am) by (rewrite A7; apply C32_airmass_positive; split; [exact (Pzen _ _ A4 A5)|exact Zc]).
  assert (PIp := PI_RGT_0). assert (W0 : 0 < wvl) by exact (Pw0 _ _ A9 A10).
  assert (R0 : 0 < r0z). { destruct A12 as [(vs & s & B1 & B2 & B3)|(_ & vr & B1 & B2)]; [|exact (Pr0 _ _ B1 B2)].
    assert (Sp : 0 < s) by exact (Psee _ _ B1 B2). apply Rmult_lt_reg_r with s; [exact Sp|]. rewrite B3, Rmult_0_l. apply Rmult_lt_0_compat; [lra|]. apply Rdiv_lt_0_compat; lra. }
  assert (R0' : 0 < a_r0 (c_atm (M_Config.y_core y))). { specialize (A13 AM). pose proof (exp_pos (3 / 5 * ln am)) as Q. change (exp (3 / 5 * ln am)) with (Rpower am (3 / 5)) in Q. apply Rmult_lt_reg_r with (Rpower am (3 / 5)); [exact Q|]. lra. }
  apply atm_inv in Ha. destruct Ha as (wv' & r0' & L0' & w' & h' & v' & d' & f' & I1 & I2 & I3 & I4 & I5 & I6 & I7 & I8 & I9 & I10 & I11 & I12 & I13).
  assert (FD := atmosphere_fields _ _ _ _ _ _ _ _ I13). destruct FD as (F1 & F2 & F3 & F4 & F5 & F6).
  assert (EL0 : a_L0 (c_atm (M_Config.y_core y)) = LNum (Fin L)).
  { apply value_opt in PL1. subst vL. assert (as_xsol (opt (sec c "atmosphere") "L0" (PInt 25)) = Ok (Scal (Fin L))).
    { apply as_num_ok in PL2. unfold as_xsol, as_xnum. destruct (opt _ _ _); cbn in PL2 |- *; try discriminate; apply Ok_inj in PL2; subst L; reflexivity. }
    rewrite H in I3. apply Ok_inj in I3. subst L0'. unfold atmosphere in I13. cbn [parse_L0 bind snd fst] in I13. apply bindOk in I13. destruct I13 as (ls & _ & I13). apply Ok_inj in I13. rewrite <- I13. reflexivity. }
  destruct (Pw _ _ A14 A15) as [PwP PwS]. assert (PhP := Ph _ _ A17 A18).
  (* guide star *)
  assert (NLO : has_sec c "sources_LO" = false). { destruct (has_sec c "sources_LO") eqn:E; [|reflexivity]. exfalso. apply Plo. apply section_has. exact E. }
  destruct (lo_inv _ _ _ Hlo) as [(_ & Eg)|(Q & _)]; [|congruence].
  apply ho_inv in Hg. destruct Hg as (gv & gw & gz & ga & gx & so & G1 & G2 & G3 & G4 & G5 & G6 & G7).
  assert (Gx : gx = 0). { apply (Phe (opt (sec c "sources_HO") "Height" (PNum 0)) gx); [now apply value_opt|exact G6]. }
  rewrite NLO in G7. destruct (Req_EM_T gx 0); [|congruence]. cbn [andb negb] in G7. destruct G7 as [G7 Eg2]. rewrite Eg2 in Eg. 
  assert (Gn : so_nSrc so = 1%nat). { rewrite (source_nsrc _ _ _ _ _ G5 G7). apply (Pone (opt (sec c "sources_HO") "Zenith" (PList [PNum 0]))); [now apply value_opt|exact G3]. }
  destruct (each_wvl _ _ _ _ gv gw Pgs) as [Gne Gpos]; [apply entry_sec; exact G1|exact G2|]. destruct (source_wvls _ _ _ _ _ G7) as [Sw1 Sw2].
  (* science *)
  assert (Hs0 := Hs). apply science_inv in Hs. destruct Hs as (sv' & zn & az & X1 & X2 & X3 & X6 & _).
  destruct (each_wvl _ _ _ _ sv' swvl Psrc) as [_ Sbw]; [apply entry_sec; exact X2|exact X3|]. destruct (source_wvls _ _ _ _ _ X6) as [_ Sx].
  (* mirrors, loop, camera *)
  apply dm_inv in Hd. destruct Hd as (pv & pitch & dh & na & ic & ow & oa & oz & nrec & D1 & D2 & _ & _ & _ & _ & _ & _ & _ & _ & _ & _ & D11 & D12).
  apply dm_init_lens in D11. destruct D11 as (_ & _ & _ & D11 & _ & _).
  unfold rtc_stage in Hr. apply bindOk in Hr. destruct Hr as (rg & R1 & Hr). apply bindOk in Hr. destruct Hr as (rf & R2 & Hr). apply bindOk in Hr. destruct Hr as (rd & R3 & Hr).
  apply bindOk in Hr. destruct Hr as (g1 & _ & Hr). apply bindOk in Hr. destruct Hr as (g2 & _ & Hr). apply bindOk in Hr. destruct Hr as (g3 & _ & Hr). apply Ok_inj in Hr. injection Hr as Hr _.
  apply as_num_ok in R1, R2.
  apply cam_inv in Hcam. destruct Hcam as (ps & psn & f0 & f & ntr & C1 & C2 & C3 & C4 & C5 & C6 & C7 & C8 & C9).
  assert (Fp : (1 <= f)%Z).
  { assert (Q : (0 < k_fov (s_cam (y_sci y)))%Z) by (eapply conf_fov_pos; [exact Hc0|exact Hs0|]; right; right; intros u Hu; specialize (Sbw u Hu); cbv beta in Sbw; lra).
    rewrite C8 in Q. cbn [k_fov] in Q. lia. }
  apply ho_sensor_inv in Hw. destruct Hw as (wps & psn' & wfv & fvn & spot & nph & ron & exc & nt & ndi & ty & nL & dsub & alg & wr & thr & nv & W1 & W2 & W3 & W4 & W5 & W6 & W7 & W8 & W9 & W10 & W11 & W12 & W13 & W14 & W15 & W16 & W17 & _ & W19 & W20).
  apply tel_inv in Ht. destruct Ht as (vD' & D' & zen' & am' & T1 & T2 & T3 & T4 & T5 & T6 & T7 & T8 & T9 & T10 & T11 & _).
  (* the attributes read *)
  unfold read_system in HR. cbv zeta in HR.
  apply bindOk in HR. destruct HR as (xv & Y1 & HR). apply bindOk in HR. destruct HR as (xnm & Y2 & HR). apply bindOk in HR. destruct HR as (nvv & Y3 & HR). apply bindOk in HR. destruct HR as (noise & Y4 & HR).
  apply bindOk in HR. destruct HR as (mv & Y5 & HR). apply bindOk in HR. destruct HR as (md & Y6 & HR). apply bindOk in HR. destruct HR as (bv & Y7 & HR). apply bindOk in HR. destruct HR as (bin & Y8 & HR).
  apply bindOk in HR. destruct HR as (av & Y9 & HR). apply bindOk in HR. destruct HR as (area & Y10 & HR). apply bindOk in HR. destruct HR as (bwv & Y11 & HR). apply bindOk in HR. destruct HR as (bw' & Y12 & HR).
  apply bindOk in HR. destruct HR as (pvv & Y13 & HR). apply bindOk in HR. destruct HR as (spt & Y14 & HR). apply bindOk in HR. destruct HR as (trans & Y15 & HR). apply bindOk in HR. destruct HR as (dx & Y16 & HR).
  apply bindOk in HR. destruct HR as (dy & Y17 & HR). apply bindOk in HR. destruct HR as (psv & Y18 & HR). apply Ok_inj in HR.
  apply as_num_ok in Y2, Y12.
  assert (EX : xv = opt (sec c "telescope") "extraErrorNm" (PInt 0)). { unfold attr in Y1. rewrite (T10 "extraErrorNm" (PInt 0)) in Y1 by (cbn; tauto). apply Ok_inj in Y1. congruence. }
  assert (EB : bw' = bw). { apply (Pbw bwv bw'); [|exact Y12]. apply value_opt. unfold attr in Y11. rewrite C8 in Y11. cbn in Y11. apply Ok_inj in Y11. congruence. }
  assert (EN : noise = NoiseList lN).
  { unfold attr in Y3. rewrite Ew, W20 in Y3. apply Ok_inj in Y3. apply value_opt in PN1. subst vN. rewrite Y3 in PN2. assert (Q := PN2). apply as_nums_ok in Q.
    unfold noise_value in Y4. rewrite Q in Y4. cbn [bind] in Y4. destruct PN2 as (m & -> & F2'). destruct m as [|p0 [|p1 m]]; try (apply Ok_inj in Y4; congruence); [|destruct p0; apply Ok_inj in Y4; congruence].
    destruct p0; try (apply Ok_inj in Y4; congruence). inversion F2'; subst. match goal with H : number PNone _ |- _ => inversion H end. }
  assert (EPs : 0 < psv). { rewrite C8 in Y18. cbn [k_ps] in Y18. unfold scale_value in Y18. destruct psn as [q|]; [|discriminate]. apply Ok_inj in Y18. subst q. apply (Pps ps psv); [apply entry_sec; exact C2|].
    apply as_num_ok. destruct ps; cbn in C3 |- *; try discriminate; try (apply Ok_inj in C3; injection C3 as <-; reflexivity). apply bindOk in C3. destruct C3 as (q & _ & C3). discriminate. }
  subst x. split; cbn [x_ao ao_lgs ao_ngs ao_atm ao_noise ao_wfs x_D x_ps x_nPix x_bw x_src x_pitch x_loop x_extraNm].
  - rewrite Eg. reflexivity.
  - rewrite Eg. cbn [g_ngs]. exists so. split; [reflexivity|]. split; [exact Gn|]. split; [exact (Sw1 Gn Gne)|]. intros u Hu. apply Gpos, Sw2, Hu.
  - exists v', d', (Fin L). cbn [x_ao ao_atm]. split; [exact F5|]. split; [exact F6|]. split; [exact EL0|].
    split; [|intros u Hu; rewrite A19 in Hu; apply in_map_iff in Hu; destruct Hu as (q & <- & Hq); apply Rmult_le_pos; [exact (PhP q Hq)|lra]].
    rewrite A11, A16. unfold valid_profile. assert (EW : w' = wl) by congruence. subst w'. rewrite F4, map_length.
    split; [exact W0|]. split; [exact R0'|]. split. { intros Qe. rewrite A16, Qe in I5. cbn in I5. rewrite Rabs_left in I5 by lra. lra. }
    split; [exact PwP|]. repeat split; congruence.
  - exists L. split; [exact PL3|exact EL0].
  - rewrite A16. exact PwS.
  - rewrite EN. exact PN4.
  - rewrite A3. split; [exact (PD _ _ A1 A2)|]. split; [exact EPs|]. rewrite C8. exact Fp.
  - rewrite EB. split; [exact Pbw0|]. intros u Hu. apply Sbw, Sx, Hu.
  - rewrite D11. intros u Hu. apply (Ppi pv pitch); [apply entry_sec; exact D1|exact D2|exact Hu].
  - rewrite <- Hr. cbn. split; [apply (Pg (opt (sec c "RTC") "LoopGain_HO" (PNum (1 / 2)))); [now apply value_opt|exact R1]|apply (Prt (opt (sec c "RTC") "SensorFrameRate_HO" (PNum 500))); [now apply value_opt|exact R2]].
  - exact HMV.
  - apply (Pex xv xnm); [now apply value_opt|exact Y2].
  - exact HSp.
Qed.

(** The attributes read by the computation are the values of the file. *)
Theorem C139_read : forall e ar c y c' xnm noise md bin area bw spot trans dx dy ps psx, aoSystem e ar c = (Ok y, c') ->
  as_num (opt (sec c "telescope") "extraErrorNm" (PInt 0)) = Ok xnm ->
  noise_value (opt (sec c "sensor_HO") "NoiseVariance" (PList [PNone])) = Ok noise ->
  as_onum (opt (sec c "sensor_HO") "Modulation" PNone) = Ok md -> as_num (opt (sec c "sensor_HO") "Binning" (PInt 1)) = Ok bin ->
  as_str (opt (sec c "DM") "AoArea" (PStr "circle")) = Ok area ->
  as_num (opt (sec c "sensor_science") "SpectralBandwidth" (PNum 0)) = Ok bw ->
  row_of (opt (sec c "sensor_science") "SpotFWHM" (PList [PList [PNum 0; PNum 0; PNum 0]])) 0 = Ok spot ->
  as_nums (opt (sec c "sensor_science") "Transmittance" (PList [PNum 1])) = Ok trans ->
  row_of (opt (sec c "sensor_science") "Dispersion" (PList [PList [PNum 0]; PList [PNum 0]])) 0 = Ok dx ->
  row_of (opt (sec c "sensor_science") "Dispersion" (PList [PList [PNum 0]; PList [PNum 0]])) 1 = Ok dy ->
  entry c "sensor_science" "PixelScale" psx -> number psx ps ->
  exists x D zen vz, read_system c' y = Ok x /\
    (exists vD, entry c "telescope" "TelescopeDiameter" vD /\ number vD D) /\ x_D x = D /\
    value c "telescope" "ZenithAngle" (PNum 0) vz /\ number vz zen /\ x_zenith x = zen /\
    x_extraNm x = xnm /\ ao_noise (x_ao x) = noise /\ ao_atm (x_ao x) = c_atm (M_Config.y_core y) /\ x_src x = s_src (y_sci y) /\
    x_modul x = match md with Some m => m | None => 0 end /\ x_bin x = bin /\ x_circle x = String.eqb area "circle" /\ x_bw x = bw /\
    x_spot x = spot /\ x_trans x = trans /\ x_dispx x = dx /\ x_dispy x = dy /\ x_ps x = ps /\ x_nPix x = k_fov (s_cam (y_sci y)) /\ x_nBin x = k_ntr (s_cam (y_sci y)).
Proof.
  intros e ar c y c' xnm noise md bin area bw spot trans dx dy ps psx HA R1 R2 R3 R4 R5 R6 R7 R8 R9 R10 R11 R12.
  destruct (ao_inv _ _ _ _ _ HA) as [Hk Hc]. apply core_inv in Hk. destruct Hk as (S1 & S2 & S3 & Ht & _).
  apply tel_inv in Ht. destruct Ht as (vD' & D' & zen' & am' & T1 & T2 & T3 & T4 & T5 & T6 & T7 & T8 & T9 & T10 & _).
  apply conf_inv in Hc. destruct Hc as (swvl & sHO & hw & sLO & Hs & S4 & Hw & Ew & Htt & Hr & S5 & tf & Htf & Hd & sS & Hcam & Ec' & _ & _).
  apply dm_inv in Hd. destruct Hd as (pv & pitch & dh & na & ic & ow & oa & oz & nrec & _ & _ & _ & _ & _ & _ & _ & _ & _ & _ & _ & _ & _ & D12).
  apply cam_inv in Hcam. destruct Hcam as (q & psn & f0 & f & ntr & C1 & C2 & C3 & C4 & C5 & C6 & C7 & C8 & C9).
  apply ho_sensor_inv in Hw. destruct Hw as (wps & psn' & wfv & fvn & spot' & nph & ron & exc & nt & ndi & ty & nL & dsub & alg & wr & thr & nv & W1 & W2 & W3 & W4 & W5 & W6 & W7 & W8 & W9 & W10 & W11 & W12 & W13 & W14 & W15 & W16 & W17 & _ & W19 & W20).
  assert (EQ : sec c' "sensor_science" = assign (sec c "sensor_science") "FieldOfView" (PInt f)).
  { rewrite Ec', sec_assign. cbn [String.eqb Ascii.eqb Bool.eqb]. exact C9. }
  assert (OP : forall k d, String.eqb "FieldOfView" k = false -> opt (sec c' "sensor_science") k d = opt (sec c "sensor_science") k d).
  { intros k d N. rewrite EQ, opt_assign, N. reflexivity. }
  apply entry_sec in R11. assert (q = psx) by congruence. subst q.
  assert (PS : k_ps (s_cam (y_sci y)) = Scal ps). { rewrite C8. cbn [k_ps]. apply as_num_ok in R12. destruct psx; cbn in C3, R12; try discriminate; try (apply Ok_inj in C3; apply Ok_inj in R12; congruence). }
  eassert (G : read_system c' y = Ok _).
  { unfold read_system. cbv zeta. unfold attr.
    rewrite (T10 "extraErrorNm" (PInt 0)) by (cbn; tauto). cbn [bind]. rewrite R1. cbn [bind].
    rewrite Ew, W20. cbn [bind]. rewrite R2. cbn [bind]. rewrite (W19 "Modulation" PNone) by (cbn; tauto). cbn [bind]. rewrite R3. cbn [bind].
    rewrite (W19 "Binning" (PInt 1)) by (cbn; tauto). cbn [bind]. rewrite R4. cbn [bind]. rewrite (D12 "AoArea" (PStr "circle")) by (cbn; tauto). cbn [bind]. rewrite R5. cbn [bind].
    rewrite !(OP "Transmittance"), !(OP "Dispersion") by reflexivity. rewrite PS. rewrite C8. cbn [k_attr]. 
    change (lookup (plain (sec c "sensor_science") cam_plain) "SpectralBandwidth") with (Some (opt (sec c "sensor_science") "SpectralBandwidth" (PNum 0))).
    change (lookup (plain (sec c "sensor_science") cam_plain) "SpotFWHM") with (Some (opt (sec c "sensor_science") "SpotFWHM" (PList [PList [PNum 0; PNum 0; PNum 0]]))).
    cbn [bind]. rewrite R6. cbn [bind]. rewrite R7. cbn [bind]. rewrite R8. cbn [bind]. rewrite R9. cbn [bind]. rewrite R10. cbn [bind scale_value]. reflexivity. }
  eexists; exists D', zen', (opt (sec c "telescope") "ZenithAngle" (PNum 0)). split; [exact G|].
  split; [exists vD'; split; [apply entry_sec; exact T1|exact T2]|]. cbn [x_ao x_D x_zenith x_extraNm ao_noise ao_atm x_src x_modul x_bin x_circle x_bw x_spot x_trans x_dispx x_dispy x_ps x_nPix x_nBin].
  split; [exact T7|]. split; [now apply value_opt|]. split; [exact T3|]. split; [exact T8|]. rewrite C8. repeat split.
Qed.

(** C139: a run from a physical parameter file: positive wavelengths, one square array of
    nonnegative residual power per science source. *)
Theorem C139_psd : forall e ar w op tp c bw r, simulate e ar w op tp c = Ok r -> physical_file c bw -> special_pos (wd_sp w) -> 0 <= op_MV op ->
  exists y c', aoSystem e ar c = (Ok y, c') /\
  (forall v, In v (r_wvl r) -> 0 < v) /\ (1 <= r_res r <= r_n r \/ so_nSrc (s_src (y_sci y)) = 0)%nat /\
  (exists k, (1 <= k)%nat /\ r_n r = (Z.to_nat (k_fov (s_cam (y_sci y))) * k)%nat) /\
  List.length (r_psd r) = so_nSrc (s_src (y_sci y)) /\
  forall s, (s < so_nSrc (s_src (y_sci y)))%nat ->
    List.length (nth s (r_psd r) []) = r_n r /\ (forall a, (a < r_n r)%nat -> List.length (nth a (nth s (r_psd r) []) []) = r_n r) /\
    forall a b, (a < r_n r)%nat -> (b < r_n r)%nat -> 0 <= psd_at r s a b.
Proof.
  intros e ar w op tp c bw r H PF HS HM. unfold simulate in H. destruct (aoSystem e ar c) as [[y|er] c'] eqn:HA; [|discriminate].
  apply bindOk in H. destruct H as (x & HR & H). assert (PH := C139_file_is_physical _ _ _ _ _ w op _ _ HA HR PF HS HM).
  destruct (C138_psd _ _ _ _ _ PH H) as (_ & P1 & (k & K1 & K2) & P3 & P4 & P5). exists y, c'. split; [reflexivity|].
  assert (XS : x_src x = s_src (y_sci y) /\ x_nPix x = k_fov (s_cam (y_sci y))).
  { unfold read_system in HR. cbv zeta in HR. repeat (apply bindOk in HR; let v := fresh in let E := fresh in destruct HR as (v & E & HR)). apply Ok_inj in HR. subst x. split; reflexivity. }
  destruct XS as [X1 X2]. rewrite X1 in *. rewrite X2 in *. split; [exact P1|]. split. { destruct (so_nSrc (s_src (y_sci y))) eqn:E; [right; reflexivity|left]. destruct (P5 0%nat ltac:(lia)) as [Q _]. lia. }
  split; [exists k; split; assumption|]. split; [exact P4|]. intros s Hs. destruct (P5 s Hs) as (_ & Q1 & Q2 & Q3). auto.
Qed.
(** ... and, with a plain detector and a static pupil, as many images as wavelengths and
    sources, whose flux is the transmittance, with Strehl ratios between 0 and 100 per cent. *)
Theorem C139_images : forall e ar w op tp c bw r, simulate e ar w op tp c = Ok r -> physical_file c bw -> special_pos (wd_sp w) -> 0 <= op_MV op ->
  exists y c' x, aoSystem e ar c = (Ok y, c') /\ read_system c' y = Ok x /\
  (camera_ok x (List.length (r_wvl r)) -> optics_ok tp (r_n r) ->
   List.length (r_psf r) = List.length (r_wvl r) /\
   forall j imgs srs t, nth_error (r_psf r) j = Some (imgs, srs) -> nth_error (x_trans x) j = Some t ->
    List.length imgs = so_nSrc (s_src (y_sci y)) /\ List.length srs = so_nSrc (s_src (y_sci y)) /\
    (forall s sr, nth_error srs s = Some sr -> 0 <= sr <= 100) /\
    (forall s im, nth_error imgs s = Some im -> rows im = Z.to_nat (k_fov (s_cam (y_sci y))) /\ cols im = Z.to_nat (k_fov (s_cam (y_sci y))) /\ img_sum im = t)).
Proof.
  intros e ar w op tp c bw r H PF HS HM. unfold simulate in H. destruct (aoSystem e ar c) as [[y|er] c'] eqn:HA; [|discriminate].
  apply bindOk in H. destruct H as (x & HR & H). assert (PH := C139_file_is_physical _ _ _ _ _ w op _ _ HA HR PF HS HM).
  exists y, c', x. split; [reflexivity|]. split; [exact HR|]. intros CO OO. destruct (C138_images _ _ _ _ _ PH H CO OO) as [L I]. split; [exact L|].
  assert (XS : x_src x = s_src (y_sci y) /\ x_nPix x = k_fov (s_cam (y_sci y))).
  { unfold read_system in HR. cbv zeta in HR. repeat (apply bindOk in HR; let v := fresh in let E := fresh in destruct HR as (v & E & HR)). apply Ok_inj in HR. subst x. split; reflexivity. }
  destruct XS as [X1 X2]. rewrite X1, X2 in I. exact I.
Qed.

(** Non-vacuity: the file of P_Config7 is accepted, read and physical. *)
Lemma in1 {A} (P : A -> Prop) a : P a -> forall x, In x [a] -> P x. Proof. intros H x [<-|[]]; exact H. Qed.
Example C139_nonvacuous : physical_file file0 0 /\ exists y c' x, aoSystem e0 (ar0 false) file0 = (Ok y, c') /\ read_system c' y = Ok x /\
  x_D x = 8 /\ x_ps x = 10 /\ x_nPix x = 201%Z /\ ao_noise (x_ao x) = NoiseList [1 / 2].
Proof.
  assert (NE : forall v x z, number v x -> as_num v = Ok z -> x = z) by (intros v x z N E; apply as_num_ok in N; congruence).
  assert (NS : forall v x z, numbers v x -> as_nums v = Ok z -> x = z) by (intros v x z N E; apply as_nums_ok in N; congruence).
  split.
  - split.
    + intros v x He N. apply entry_sec in He. injection He as <-. rewrite (NE _ _ 8 N eq_refl). lra.
    + intros v x He N. apply value_opt in He. subst v. rewrite (NE _ _ 0 N eq_refl). lra.
    + intros v x He N. apply value_opt in He. subst v. rewrite (NE _ _ 0 N eq_refl). lra.
    + intros v x He N. apply value_opt in He. subst v. rewrite (NE _ _ _ N eq_refl). lra.
    + intros v x He N. apply entry_sec in He. discriminate.
    + intros v x He N. apply entry_sec in He. injection He as <-. rewrite (NE _ _ _ N eq_refl). lra.
    + eexists _, 25. split; [now apply value_opt|]. split; [apply as_num_ok; reflexivity|lra].
    + intros v x He N. apply value_opt in He. subst v. rewrite (NS _ _ [1] N eq_refl). split; [apply in1; lra|unfold total; cbn; lra].
    + intros v x He N. apply value_opt in He. subst v. rewrite (NS _ _ [0] N eq_refl). apply in1; lra.
    + intros Q. apply section_has in Q. discriminate.
    + intros v x He N. apply value_opt in He. subst v. exact (NE _ _ 0 N eq_refl).
    + intros v x He N. apply value_opt in He. subst v. rewrite (NS _ _ [0] N eq_refl). reflexivity.
    + split; intros v x He N; apply entry_sec in He; injection He as <-.
      * rewrite (NE _ _ _ N eq_refl). lra.
      * apply as_nums_ok in N. discriminate.
    + eexists _, [1 / 2]. split; [now apply value_opt|]. split; [apply as_nums_ok; reflexivity|]. split; [discriminate|apply in1; lra].
    + intros v x He N. apply value_opt in He. subst v. rewrite (NE _ _ _ N eq_refl). lra.
    + intros v x He N. apply value_opt in He. subst v. rewrite (NE _ _ _ N eq_refl). lra.
    + intros v l He N. apply entry_sec in He. injection He as <-. rewrite (NS _ _ [4 / 10] N eq_refl). apply in1; lra.
    + intros v x He N. apply entry_sec in He. injection He as <-. rewrite (NE _ _ _ N eq_refl). lra.
    + split; [lra|]. intros v x He N. apply value_opt in He. subst v. exact (NE _ _ 0 N eq_refl).
    + split; intros v x He N; apply entry_sec in He; injection He as <-.
      * apply as_num_ok in N. discriminate.
      * rewrite (NS _ _ [1 / 10 ^ 6; 25 / 10 ^ 7] N eq_refl). split; [discriminate|]. intros z [<-|[<-|[]]]; lra.
  - destruct (C32_file0_accepted false) as (y & c' & H & _ & Hf & _). exists y, c'.
    destruct (C139_read _ _ _ _ _ 0 (NoiseList [1 / 2]) None 1 "circle" 0 [0; 0; 0] [1] [0] [0] 10 (PNum 10) H) as (x & D & zen & vz & HR & (vD & D1 & D2) & XD & _ & _ & _ & _ & Xn & _ & _ & _ & _ & _ & _ & _ & _ & _ & _ & Xp & Xf & _);
      try reflexivity; [now apply entry_sec|now apply as_num_ok|].
    exists x. split; [exact H|]. split; [exact HR|]. split; [|split; [exact Xp|split; [congruence|exact Xn]]].
    rewrite XD. apply entry_sec in D1. injection D1 as <-. exact (NE _ _ 8 D2 eq_refl).
Qed.
Print Assumptions C139_file_is_physical.
Print Assumptions C139_read.
Print Assumptions C139_psd.
Print Assumptions C139_images.
Print Assumptions C139_nonvacuous.
