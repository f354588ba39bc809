(** C32: validation of the parameter file. *)
From Coq Require Import Reals List Arith ZArith String Bool Lra Lia.
From Flocq Require Import Core.Raux Core.Generic_fmt Core.Round_NE.
From Verif Require Import Base_Py M_Tools M_Atmo M_Sensor M_Source M_Config S_Config L_Tools2 L_Config L_Config2.
Import ListNotations.
Open Scope R_scope.
Open Scope string_scope.

Lemma numbers_len v l : numbers v l -> exists m, v = PList m /\ length m = length l.
Proof. intros H. apply as_nums_len, as_nums_ok, H. Qed.
Lemma list_length_opt c s k d l n : numbers (opt (sec c s) k d) l -> length l = n -> list_length c s k d n.
Proof.
  intros H L. apply numbers_len in H. destruct H as (m & E & Hm). exists m. split; [|congruence].
  apply value_opt. now rewrite E.
Qed.

(** An accepted file is valid. *)
Theorem C32_accepted_is_valid : forall e ar c y c', aoSystem e ar c = (Ok y, c') -> valid e c.
Proof.
  intros e ar c y c' H. apply ao_inv in H. destruct H as [Hk Hc].
  apply core_inv in Hk. destruct Hk as (S1 & S2 & S3 & Ht & Ham & Ha & g & Hho & Hlo).
  apply conf_inv in Hc. destruct Hc as (wvl & sHO & hw & sLO & Hs & S4 & Hw & _ & Htt & Hr & S5 & tf & Htf & Hd & sS & Hcam & _ & _ & _).
  apply tel_inv in Ht. destruct Ht as (vD & D & zen & am & T1 & T2 & T3 & T4 & T5 & T6 & T7 & T8 & T9 & _ & _ & _ & Tp).
  apply atm_inv in Ha. destruct Ha as (wv & r0 & L0 & w & h & v & d & f & A1 & A2 & A3 & A4 & A5 & A6 & A7 & A8 & A9 & A10 & A11 & _).
  apply ho_inv in Hho. destruct Hho as (hwv & hwvl & hz & ha & hx & hso & H1 & H2 & H3 & H4 & H5 & _).
  apply lo_inv in Hlo.
  apply science_inv in Hs. destruct Hs as (swv & szen & saz & S6 & S7 & _).
  apply ho_sensor_inv in Hw. destruct Hw as (ps & psn & fv & fvn & spot & nph & ron & exc & ntr & ndi & ty & nL & dsub & alg & wr & thr & nv &
     W1 & W2 & W3 & W4 & W5 & W6 & W7 & W8 & W9 & W10 & W11 & W12 & W13 & W14 & W15 & W16 & W17 & (W18 & _) & _).
  apply dm_inv in Hd. destruct Hd as (p & pitch & dh & na & ic & ow & oa & oz & nrec & D1 & D2 & D3 & D4 & D5 & D6 & D7 & D8 & D9 & D10 & _ & _ & D11 & _).
  apply dm_init_lens in D11. destruct D11 as (Dl1 & Dl2 & Dl3 & _).
  apply cam_inv in Hcam. destruct Hcam as (cps & cpsn & f0 & ff & cntr & C1 & C2 & C3 & C4 & C5 & C6 & C7 & _).
  split.
  - intros s Hin. apply section_has. cbn [In mandatory_sections] in Hin.
    repeat (destruct Hin as [Hin|Hin]; [subst s; assumption|]). contradiction.
  - intros s k Hin. cbn [In mandatory] in Hin.
    unfold get_fov in C4. bnext C4 raw C8. apply req_ok in C8.
    repeat (destruct Hin as [Hin|Hin]; [injection Hin as <- <-; eexists; apply entry_sec; eassumption|]). contradiction.
  - intros s k Hin Hp. apply section_has in Hp. cbn [In mandatory_if_section] in Hin.
    destruct Hin as [Hin|Hin]; [injection Hin as <- <-|].
    { destruct Hlo as [[? _]|(_ & ? & ? & ? & ? & ? & ? & ? & L1 & _)]; [congruence|]. eexists; apply entry_sec; eassumption. }
    assert (Hl : section_present c "sensor_LO" -> present c "sensor_LO" "PixelScale" /\ present c "sensor_LO" "FieldOfView").
    { intros Hp'. apply section_has in Hp'. rewrite Hp' in Htt. destruct Htt as (tw & Hl & _). apply lo_sensor_inv in Hl.
      destruct Hl as (? & ? & ? & ? & ? & ? & ? & ? & ? & ? & ? & ? & ? & ? & ? & ? & L1 & _ & L2 & _).
      split; eexists; apply entry_sec; eassumption. }
    destruct Hin as [Hin|Hin]; [injection Hin as <- <-; apply Hl; now apply section_has|].
    destruct Hin as [Hin|Hin]; [injection Hin as <- <-; apply Hl; now apply section_has|]. contradiction.
  - destruct A2 as [(u & x & B1 & _)|(_ & u & B1 & _)]; [left|right]; eexists; apply entry_sec; eassumption.
  - intros u Hu. apply value_opt in Hu. subst u. eauto.
  - exists vD, D. split; [now apply entry_sec|assumption].
  - exists (opt (sec c "atmosphere") "Cn2Weights" (PList [PNum 1])), w. split; [now apply value_opt|]. split; [assumption|exact A5].
  - exists (length w). split; [eapply list_length_opt; eauto|]. split; [eapply list_length_opt; eauto; congruence|].
    split; [eapply list_length_opt; eauto; congruence|].
    intros u Hu. apply entry_sec in Hu. rewrite Hu in A8. apply numbers_len in A8. destruct A8 as (m & -> & Hm). exists m. split; [reflexivity|congruence].
  - exists (length hz). split; eapply list_length_opt; eauto.
  - intros Hp. apply section_has in Hp. destruct Hlo as [[? _]|(_ & ? & ? & z & a & lz & la & ? & _ & _ & L3 & L4 & L5 & L6 & L7 & _)]; [congruence|].
    apply numbers_len in L5, L6. destruct L5 as (m & -> & Hm), L6 as (m' & -> & Hm').
    exists (length lz). split; [exists m|exists m']; (split; [now apply entry_sec|congruence]).
  - exists (length pitch). apply numbers_len in D2. destruct D2 as (m & -> & Hm). split; [exists m; split; [now apply entry_sec|assumption]|].
    split; [|split].
    + intros u Hu. apply entry_sec in Hu. rewrite Hu in D3. apply numbers_len in D3. destruct D3 as (m' & -> & Hm'). exists m'. split; [reflexivity|congruence].
    + intros Hu. apply absent_sec in Hu. rewrite Hu in D3. destruct D3 as [Hle ->]. cbn [length] in Dl2. lia.
    + intros u Hu. apply entry_sec in Hu. rewrite Hu in D4. apply as_ints_len in D4. destruct D4 as (m' & -> & Hm'). exists m'. split; [reflexivity|congruence].
  - exists (length oz). split; [eapply list_length_opt; eauto|]. split; eapply list_length_opt; eauto; congruence.
  - intros u Hu. apply entry_sec in Hu. unfold precision_of in T6. rewrite Hu in T6.
    destruct u; try (destruct T6; discriminate). eauto.
  - intros k q Hin Hq. apply entry_sec in Hq.
    assert (exists dd w, path_key e (sec c "telescope") k dd = Ok w) as (dd & ww & Hpk).
    { match type of Tp with forall k d, In (k, d) ?L -> _ => change (In k (map fst L)) in Hin end.
      apply in_map_iff in Hin. destruct Hin as ([k' dd] & <- & Hin). apply Tp in Hin. destruct Hin as (ww & Hw1 & _). eexists; eexists; exact Hw1. }
    eapply path_key_file; eassumption.
  - intros s Hin Hp HL. apply section_has in Hp. cbn [In] in Hin.
    destruct Hin as [Hin|[Hin|[Hin|[]]]]; subst s.
    + destruct HL as [HL|(x & l & HL)]; [discriminate|]. cbn [String.eqb Ascii.eqb Bool.eqb] in HL. apply value_opt in HL.
      rewrite <- HL in W12. apply as_ints_len in W12. destruct W12 as (m & Em & Lm). injection Em as <-.
      assert (EQ : ndi = ntr).
      { apply sensor_detectors in W18; [exact W18|]. cbn [sa_nL]. destruct nL; [discriminate|congruence]. }
      apply len_val_ok in W9. destruct W9 as (m1 & F1 & F2). apply disp_len_ok in W10. destruct W10 as (d1 & r1 & F3 & F4).
      exists ntr, d1, r1. split; [exists m1; split; [now apply value_opt|assumption]|]. split; [now apply value_opt|congruence].
    + destruct HL as [HL|(x & l & HL)]; [discriminate|]. cbn [String.eqb Ascii.eqb Bool.eqb] in HL. apply value_opt in HL.
      rewrite Hp in Htt. destruct Htt as (tw & Hl & _). apply lo_sensor_inv in Hl.
      destruct Hl as (? & ? & ? & ? & ? & ? & ? & ? & lntr & lndi & lnL & ? & ? & ? & ? & ? & _ & _ & _ & _ & _ & _ & _ & _ & L9 & L10 & L11 & _ & _ & _ & _ & _ & (L12 & _) & _).
      rewrite <- HL in L11. apply as_ints_len in L11. destruct L11 as (m & Em & Lm). injection Em as <-.
      assert (EQ : lndi = lntr).
      { apply sensor_detectors in L12; [exact L12|]. cbn [sa_nL]. destruct lnL; [discriminate|congruence]. }
      apply len_val_ok in L9. destruct L9 as (m1 & F1 & F2). apply disp_len_ok in L10. destruct L10 as (d1 & r1 & F3 & F4).
      exists lntr, d1, r1. split; [exists m1; split; [now apply value_opt|assumption]|]. split; [now apply value_opt|congruence].
    + apply len_val_ok in C6. destruct C6 as (m1 & F1 & F2). apply disp_len_ok in C7. destruct C7 as (d1 & r1 & F3 & F4).
      exists cntr, d1, r1. split; [exists m1; split; [now apply value_opt|assumption]|]. split; [now apply value_opt|congruence].
Qed.

(** ** Removing something mandatory from an accepted file gives ValueError *)
Definition core_sections : list string := ["COMPUTATION"; "telescope"; "atmosphere"; "sources_HO"; "sources_LO"].
Lemma core_ext e c c' : (forall s, In s core_sections -> sec c s = sec c' s /\ has_sec c s = has_sec c' s) -> core_of e c = core_of e c'.
Proof.
  intros H. unfold core_of, precision_of, lo_stage, req_sec.
  destruct (H "COMPUTATION") as [E1 E2]; [cbn; auto 12|]. destruct (H "telescope") as [E3 E4]; [cbn; auto 12|].
  destruct (H "atmosphere") as [E5 E6]; [cbn; auto 12|]. destruct (H "sources_HO") as [E7 E8]; [cbn; auto 12|]. destruct (H "sources_LO") as [E9 E10]; [cbn; auto 12|].
  now rewrite E1, E3, E4, E5, E6, E7, E8, E9, E10.
Qed.
Lemma science_ext ar c c' : sec c "sources_science" = sec c' "sources_science" -> has_sec c "sources_science" = has_sec c' "sources_science" ->
  sec c "sources_LO" = sec c' "sources_LO" -> science_stage ar c = science_stage ar c'.
Proof. intros H1 H2 H3. unfold science_stage, req_sec. now rewrite H1, H2, H3. Qed.

Ltac seqb := cbn [String.eqb Ascii.eqb Bool.eqb orb andb negb].
Ltac seqbin H := cbn [String.eqb Ascii.eqb Bool.eqb orb andb negb] in H.
Ltac same_secs := intros ?s ?Hin; cbn [In core_sections] in Hin;
  repeat (destruct Hin as [Hin|Hin]; [subst s; rewrite ?sec_without, ?has_without, ?sec_without_section, ?has_without_section; split; reflexivity|]); contradiction.

Section Remove.
  Variables (e : env) (ar : args) (c : cfg) (y : system) (c' : cfg).
  Hypothesis Hacc : aoSystem e ar c = (Ok y, c').

  (** a changed file [d] on which the core part is unchanged: run the rest *)
  Lemma run_rest d : core_of e d = core_of e c -> fst (aoSystem e ar d) = bind (fst (configLO_SC e ar (y_core y) d)) (fun s => Ok (mkSystem (y_core y) s)).
  Proof. intros H. destruct (ao_inv _ _ _ _ _ Hacc) as [Hk _]. unfold aoSystem. rewrite H, Hk. reflexivity. Qed.

  Lemma rm_core s k r : fst (aoSystem e ar (without_key c s k)) = r ->
    core_of e (without_key c s k) = Err ValueError -> r = Err ValueError.
  Proof. intros <- H. unfold aoSystem. rewrite H. reflexivity. Qed.

  Theorem missing_diameter : fst (aoSystem e ar (without_key c "telescope" "TelescopeDiameter")) = Err ValueError.
  Proof.
    eapply rm_core; [reflexivity|]. destruct (ao_inv _ _ _ _ _ Hacc) as [Hk _]. apply core_inv in Hk. destruct Hk as (S1 & _).
    unfold core_of, req_sec. rewrite has_without, S1, sec_without. seqb. cbn [bind]. unfold tel_stage. rewrite req_rm. reflexivity.
  Qed.
  Lemma core_prefix d : precision_of d = precision_of c -> has_sec d "telescope" = has_sec c "telescope" -> sec d "telescope" = sec c "telescope" ->
    core_of e d = (do sa <- req_sec d "atmosphere"; do a <- atm_stage (c_am (y_core y)) sa; do sh <- req_sec d "sources_HO";
                   do g <- ho_stage (c_am (y_core y)) (has_sec d "sources_LO") sh; do g' <- lo_stage d g; Ok (mkCore (c_tel (y_core y)) (c_am (y_core y)) a g')).
  Proof.
    intros H1 H2 H3. destruct (ao_inv _ _ _ _ _ Hacc) as [Hk _]. apply core_inv in Hk. destruct Hk as (S1 & _ & _ & Ht & Ham & _).
    unfold core_of. unfold req_sec at 1. rewrite H1, H2, H3, S1. cbn [bind]. rewrite Ht. cbn [bind]. rewrite Ham. reflexivity.
  Qed.
  Theorem C32_missing_strength : fst (aoSystem e ar (without_key (without_key c "atmosphere" "Seeing") "atmosphere" "r0_value")) = Err ValueError.
  Proof.
    set (d := without_key (without_key c "atmosphere" "Seeing") "atmosphere" "r0_value").
    assert (H : core_of e d = Err ValueError).
    { rewrite core_prefix; [|unfold d, precision_of; rewrite !sec_without; reflexivity|unfold d; now rewrite !has_without|unfold d; rewrite !sec_without; reflexivity].
      destruct (ao_inv _ _ _ _ _ Hacc) as [Hk _]. apply core_inv in Hk. destruct Hk as (_ & S2 & _ & _ & _ & Ha & _).
      unfold req_sec at 1. unfold d. rewrite !has_without, S2. cbn [bind]. rewrite !sec_without. seqb.
      unfold atm_stage in *. bnext Ha wvl E1. rewrite !opt_rm, !lookup_rm, req_rm. seqb. rewrite E1. reflexivity. }
    unfold aoSystem. rewrite H. reflexivity.
  Qed.
  Theorem missing_ho_wavelength : fst (aoSystem e ar (without_key c "sources_HO" "Wavelength")) = Err ValueError.
  Proof.
    set (d := without_key c "sources_HO" "Wavelength").
    assert (H : core_of e d = Err ValueError).
    { rewrite core_prefix; [|unfold d, precision_of; rewrite !sec_without; reflexivity|unfold d; now rewrite !has_without|unfold d; rewrite !sec_without; reflexivity].
      destruct (ao_inv _ _ _ _ _ Hacc) as [Hk _]. apply core_inv in Hk. destruct Hk as (_ & S2 & S3 & _ & _ & Ha & _).
      unfold req_sec. unfold d. rewrite !has_without, S2, S3. cbn [bind]. rewrite !sec_without. seqb. rewrite Ha. cbn [bind].
      unfold ho_stage. rewrite req_rm. reflexivity. }
    unfold aoSystem. rewrite H. reflexivity.
  Qed.
  Theorem missing_lo_wavelength : has_sec c "sources_LO" = true -> fst (aoSystem e ar (without_key c "sources_LO" "Wavelength")) = Err ValueError.
  Proof.
    intros HL. set (d := without_key c "sources_LO" "Wavelength").
    assert (H : core_of e d = Err ValueError).
    { rewrite core_prefix; [|unfold d, precision_of; rewrite !sec_without; reflexivity|unfold d; now rewrite !has_without|unfold d; rewrite !sec_without; reflexivity].
      destruct (ao_inv _ _ _ _ _ Hacc) as [Hk _]. apply core_inv in Hk. destruct Hk as (_ & S2 & S3 & _ & _ & Ha & g & Hg & _).
      unfold req_sec, lo_stage. unfold d. rewrite !has_without, S2, S3. cbn [bind]. rewrite !sec_without. seqb. rewrite Ha. cbn [bind].
      rewrite Hg, HL. cbn [bind negb]. rewrite req_rm. reflexivity. }
    unfold aoSystem. rewrite H. reflexivity.
  Qed.
  (** the positions of the low-order stars are read unchecked: KeyError, not the
      documented ValueError *)
  Theorem C32_missing_lo_zenith_is_KeyError : has_sec c "sources_LO" = true ->
    fst (aoSystem e ar (without_key c "sources_LO" "Zenith")) = Err KeyError /\ fst (aoSystem e ar (without_key c "sources_LO" "Azimuth")) = Err KeyError.
  Proof.
    intros HL.
    assert (H : forall k, k = "Zenith" \/ k = "Azimuth" -> core_of e (without_key c "sources_LO" k) = Err KeyError).
    { intros k Hk0. rewrite core_prefix; [|unfold precision_of; rewrite !sec_without; reflexivity|now rewrite !has_without|rewrite !sec_without; reflexivity].
      destruct (ao_inv _ _ _ _ _ Hacc) as [Hk _]. apply core_inv in Hk. destruct Hk as (_ & S2 & S3 & _ & _ & Ha & g & Hg & Hlo).
      unfold req_sec, lo_stage. rewrite !has_without, S2, S3. cbn [bind]. rewrite !sec_without. seqb. rewrite Ha. cbn [bind].
      rewrite Hg, HL. cbn [bind negb].
      apply lo_inv in Hlo. destruct Hlo as [[? _]|(_ & wv & wvl & z & a & lz & la & ? & L1 & L2 & L3 & L4 & _)]; [congruence|].
      unfold req, get_raw. rewrite !lookup_rm.
      destruct Hk0; subst k; seqb; rewrite L1; cbn [bind]; rewrite L2; cbn [bind]; [reflexivity|]. rewrite L3. reflexivity. }
    split; unfold aoSystem; rewrite H; auto.
  Qed.
  Lemma rest_err d : core_of e d = core_of e c -> fst (configLO_SC e ar (y_core y) d) = Err ValueError -> fst (aoSystem e ar d) = Err ValueError.
  Proof. intros H1 H2. rewrite run_rest by assumption. now rewrite H2. Qed.

  Theorem missing_science_wavelength : fst (aoSystem e ar (without_key c "sources_science" "Wavelength")) = Err ValueError.
  Proof.
    apply rest_err; [apply core_ext; same_secs|]. destruct (ao_inv _ _ _ _ _ Hacc) as [_ Hc]. apply conf_inv in Hc.
    destruct Hc as (wvl & sHO & hw & sLO & Hs & _). apply science_inv in Hs. destruct Hs as (? & ? & ? & S6 & _).
    unfold configLO_SC, science_stage, req_sec. rewrite has_without, S6, !sec_without. seqb. cbn [bind]. rewrite req_rm. reflexivity.
  Qed.
  (** configLO_SC up to the high-order sensor, on a file with the same sources *)
  Lemma conf_upto_ho d wvl src : science_stage ar d = Ok (wvl, src) -> has_sec d "sensor_HO" = true ->
    fst (ho_sensor (t_D (c_tel (y_core y))) (sec d "sensor_HO")) = Err ValueError -> fst (configLO_SC e ar (y_core y) d) = Err ValueError.
  Proof.
    intros H1 H2 H3. unfold configLO_SC. rewrite H1. unfold req_sec. rewrite H2. cbv zeta.
    destruct (ho_sensor _ _) as [r s]. cbn [fst snd] in *. subst r. reflexivity.
  Qed.
  Theorem missing_ho_pixelscale : fst (aoSystem e ar (without_key c "sensor_HO" "PixelScale")) = Err ValueError.
  Proof.
    apply rest_err; [apply core_ext; same_secs|]. destruct (ao_inv _ _ _ _ _ Hacc) as [_ Hc]. apply conf_inv in Hc.
    destruct Hc as (wvl & sHO & hw & sLO & Hs & S4 & _).
    eapply conf_upto_ho; [rewrite (science_ext ar _ c); [exact Hs|rewrite ?sec_without; reflexivity|now rewrite has_without|rewrite ?sec_without; reflexivity]|now rewrite has_without|].
    rewrite sec_without. seqb. unfold ho_sensor. rewrite req_rm. reflexivity.
  Qed.
  Theorem missing_ho_fieldofview : fst (aoSystem e ar (without_key c "sensor_HO" "FieldOfView")) = Err ValueError.
  Proof.
    apply rest_err; [apply core_ext; same_secs|]. destruct (ao_inv _ _ _ _ _ Hacc) as [_ Hc]. apply conf_inv in Hc.
    destruct Hc as (wvl & sHO & hw & sLO & Hs & S4 & Hw & _).
    eapply conf_upto_ho; [rewrite (science_ext ar _ c); [exact Hs|rewrite ?sec_without; reflexivity|now rewrite has_without|rewrite ?sec_without; reflexivity]|now rewrite has_without|].
    apply ho_sensor_inv in Hw. destruct Hw as (ps & psn & W). destruct W as (? & ? & ? & ? & ? & ? & ? & ? & ? & ? & ? & ? & ? & ? & ? & W1 & W2 & _).
    rewrite sec_without. seqb. unfold ho_sensor. rewrite !req_rm. seqb.
    unfold req at 1. rewrite W1. cbn [bind]. apply as_num_ok in W2. rewrite W2. reflexivity.
  Qed.
  (** and up to the low-order sensor *)
  Lemma conf_upto_lo d wvl src hw : science_stage ar d = Ok (wvl, src) -> has_sec d "sensor_HO" = true ->
    fst (ho_sensor (t_D (c_tel (y_core y))) (sec d "sensor_HO")) = Ok hw -> has_sec d "sensor_LO" = true ->
    fst (lo_sensor (t_D (c_tel (y_core y))) (sec d "sensor_LO")) = Err ValueError -> fst (configLO_SC e ar (y_core y) d) = Err ValueError.
  Proof.
    intros H1 H2 H3 H4 H5. unfold configLO_SC. rewrite H1. unfold req_sec at 1. rewrite H2. cbv zeta.
    destruct (ho_sensor _ _) as [r s]. cbn [fst snd] in *. subst r.
    rewrite has_sec_assign, sec_assign, H4. seqb. cbn [fst snd].
    rewrite H5. reflexivity.
  Qed.
  Theorem missing_lo_sensor_keys : has_sec c "sensor_LO" = true ->
    fst (aoSystem e ar (without_key c "sensor_LO" "PixelScale")) = Err ValueError /\ fst (aoSystem e ar (without_key c "sensor_LO" "FieldOfView")) = Err ValueError.
  Proof.
    intros HL. destruct (ao_inv _ _ _ _ _ Hacc) as [_ Hc]. apply conf_inv in Hc.
    destruct Hc as (wvl & sHO & hw & sLO & Hs & S4 & Hw & _ & Htt & _). rewrite HL in Htt. destruct Htt as (tw & Hl & _).
    apply lo_sensor_inv in Hl. destruct Hl as (ps & psn & W). destruct W as (? & ? & ? & ? & ? & ? & ? & ? & ? & ? & ? & ? & ? & ? & W1 & W2 & _).
    apply as_num_ok in W2.
    split; (apply rest_err; [apply core_ext; same_secs|]);
      (eapply conf_upto_lo; [rewrite (science_ext ar _ c); [exact Hs|rewrite ?sec_without; reflexivity|now rewrite has_without|rewrite ?sec_without; reflexivity]
        |now rewrite has_without|rewrite sec_without; seqb; rewrite Hw; reflexivity|now rewrite has_without|]);
      rewrite sec_without; seqb; unfold lo_sensor; rewrite !req_rm; seqb; [reflexivity|].
    unfold req at 1. rewrite W1. cbn [bind]. rewrite W2. reflexivity.
  Qed.
  (** the tail of configLO_SC: mirrors and camera *)
  Lemma conf_tail d : (forall s, In s ["sources_science"; "sources_LO"; "sensor_HO"; "sensor_LO"; "RTC"] -> sec d s = sec c s /\ has_sec d s = has_sec c s) ->
    exists wvl rt tts c2, science_stage ar c = Ok (wvl, s_src (y_sci y)) /\
      (forall s, In s ["atmosphere"; "DM"; "sensor_science"] -> sec c2 s = sec d s /\ has_sec c2 s = has_sec d s) /\
      forall tf, tech_fov (c_tel (y_core y)) = Ok tf ->
      let tail := (do sd <- req_sec c2 "DM";
                   do dms <- dm_stage tf (t_D (c_tel (y_core y))) sd;
                   do cam <- cam_stage e (ar_expand ar) (c_am (y_core y)) (sec c2 "atmosphere") (c_atm (y_core y)) wvl (dm_pitch (dd_dm dms)) c2;
                   Ok (dms, cam)) in
      fst (configLO_SC e ar (y_core y) d) =
        match tail with
        | Err x => Err x
        | Ok (dms, cam) => do b <- (if Rlt_dec 0 (lp_gain (holoop (fst rt)))
                            then soft (budget_of (c_tel (y_core y)) (c_atm (y_core y)) dms (s_wfs (y_sci y)) tts (fst rt) (g_lgs (c_stars (y_core y))) (s_src (y_sci y)))
                            else Ok None);
                   Ok (mkSci (s_src (y_sci y)) (s_wfs (y_sci y)) tts (fst rt) (snd rt) dms (fst cam)
                        (ao_mode (g_lgs (c_stars (y_core y))) (length (dm_pitch (dd_dm dms))) (dd_nrec dms)) b)
        end.
  Proof.
    intros Hsame. destruct (ao_inv _ _ _ _ _ Hacc) as [_ Hc]. apply conf_inv in Hc.
    destruct Hc as (wvl & sHO & hw & sLO & Hs & S4 & Hw & Ew & Htt & Hr & _ & tf & Htf & _).
    destruct (Hsame "sources_science") as [A1 A2]; [cbn; auto 12|]. destruct (Hsame "sources_LO") as [A3 _]; [cbn; auto 12|].
    destruct (Hsame "sensor_HO") as [A5 A6]; [cbn; auto 12|]. destruct (Hsame "sensor_LO") as [A7 A8]; [cbn; auto 12|].
    destruct (Hsame "RTC") as [A9 A10]; [cbn; auto 12|].
    exists wvl, (s_rtc (y_sci y), s_res (y_sci y)), (s_tts (y_sci y)),
      (if has_sec c "sensor_LO" then assign (assign d "sensor_HO" sHO) "sensor_LO" sLO else assign d "sensor_HO" sHO).
    split; [exact Hs|]. split.
    - intros s Hin. cbn [In] in Hin. destruct (has_sec c "sensor_LO");
      repeat (destruct Hin as [Hin|Hin]; [subst s; rewrite ?sec_assign, ?has_sec_assign; split; reflexivity|]); contradiction.
    - intros tf' Htf'. rewrite Htf in Htf'. apply Ok_inj in Htf'. subst tf'. cbv zeta.
      unfold configLO_SC. rewrite (science_ext ar d c A1 A2 A3), Hs. unfold req_sec at 1. rewrite A6, S4, A5, Hw. cbn [fst snd]. cbv zeta.
      rewrite has_sec_assign, sec_assign, A7, A8. seqb.
      destruct (has_sec c "sensor_LO").
      + destruct Htt as (tw & Hl & Et). rewrite Hl. cbn [fst snd bind]. rewrite !sec_assign. seqb. rewrite A9, Hr, Htf. cbn [bind].
        rewrite Ew, Et. destruct (req_sec _ "DM") as [sd|]; [|reflexivity]. cbn [bind].
        destruct (dm_stage tf _ sd) as [dms|]; [|reflexivity]. cbn [bind].
        destruct (cam_stage _ _ _ _ _ _ _ _) as [cam|]; [|reflexivity]. cbn [bind fst snd]. reflexivity.
      + cbn [fst snd bind]. rewrite !sec_assign. seqb. rewrite A9, Hr, Htf. cbn [bind].
        rewrite Ew, Htt. destruct (req_sec _ "DM") as [sd|]; [|reflexivity]. cbn [bind].
        destruct (dm_stage tf _ sd) as [dms|]; [|reflexivity]. cbn [bind].
        destruct (cam_stage _ _ _ _ _ _ _ _) as [cam|]; [|reflexivity]. cbn [bind fst snd]. reflexivity.
  Qed.
  Ltac tail_same := intros ?s ?Hin; cbn [In] in Hin;
    repeat (destruct Hin as [Hin|Hin]; [subst s; rewrite ?sec_without, ?has_without, ?sec_without_section, ?has_without_section; split; reflexivity|]); contradiction.
  Lemma tail_facts : exists tf dms wvl sS, tech_fov (c_tel (y_core y)) = Ok tf /\ has_sec c "DM" = true /\
    dm_stage tf (t_D (c_tel (y_core y))) (sec c "DM") = Ok dms /\ science_stage ar c = Ok (wvl, s_src (y_sci y)) /\
    cam_stage e (ar_expand ar) (c_am (y_core y)) (sec c "atmosphere") (c_atm (y_core y)) wvl (dm_pitch (dd_dm dms)) c = Ok (s_cam (y_sci y), sS).
  Proof.
    destruct (ao_inv _ _ _ _ _ Hacc) as [_ Hc]. apply conf_inv in Hc.
    destruct Hc as (wvl & sHO & hw & sLO & Hs & S4 & Hw & Ew & Htt & Hr & S5 & tf & Htf & Hd & sS & Hcam & _).
    exists tf, (s_dms (y_sci y)), wvl, sS. auto.
  Qed.
  Theorem missing_pitch : fst (aoSystem e ar (without_key c "DM" "DmPitchs")) = Err ValueError.
  Proof.
    apply rest_err; [apply core_ext; same_secs|].
    destruct (conf_tail (without_key c "DM" "DmPitchs")) as (wvl & rt & tts & c2 & _ & Hs & Ht); [tail_same|].
    destruct tail_facts as (tf & dms & wvl' & sS & Htf & S5 & _). rewrite (Ht _ Htf). cbv zeta.
    unfold req_sec at 1. destruct (Hs "DM") as [-> ->]; [cbn; auto|]. rewrite has_without, S5, sec_without. seqb. cbn [bind].
    unfold dm_stage. rewrite req_rm. reflexivity.
  Qed.
  Theorem missing_cam_keys k : k = "PixelScale" \/ k = "FieldOfView" -> fst (aoSystem e ar (without_key c "sensor_science" k)) = Err ValueError.
  Proof.
    intros Hk. apply rest_err; [apply core_ext; same_secs|].
    destruct (conf_tail (without_key c "sensor_science" k)) as (wvl & rt & tts & c2 & Hsci & Hs & Ht); [tail_same|].
    destruct tail_facts as (tf & dms & wvl' & sS & Htf & S5 & Hd & Hsci' & Hcam). rewrite (Ht _ Htf). cbv zeta.
    rewrite Hsci in Hsci'. apply Ok_inj in Hsci'. injection Hsci' as <-.
    unfold req_sec at 1. destruct (Hs "DM") as [-> ->]; [cbn; auto|]. rewrite has_without, S5, sec_without. seqb. cbn [bind].
    rewrite Hd. cbn [bind].
    apply cam_inv in Hcam. destruct Hcam as (ps & psn & f0 & f & ntr & C1 & C2 & C3 & _).
    unfold cam_stage, req_sec. destruct (Hs "sensor_science") as [-> ->]; [cbn; auto|]. rewrite has_without, C1, sec_without. seqb. cbn [bind].
    unfold req at 1, get_fov. rewrite lookup_rm, req_rm.
    destruct Hk; subst k; seqb; [reflexivity|]. rewrite C2. cbn [bind]. rewrite C3. cbn [bind]. reflexivity.
  Qed.
End Remove.

Theorem C32_mandatory_key_refused : forall e ar c y c' s k,
  aoSystem e ar c = (Ok y, c') -> In (s, k) (mandatory ++ mandatory_if_section) -> section_present c s ->
  fst (aoSystem e ar (without_key c s k)) = Err ValueError.
Proof.
  intros e ar c y c' s k H Hin Hp. apply section_has in Hp. cbn [In mandatory mandatory_if_section app] in Hin.
  repeat (destruct Hin as [Hin|Hin]; [injection Hin as <- <-|]); try contradiction.
  - eapply missing_diameter; eauto.
  - eapply missing_ho_wavelength; eauto.
  - eapply missing_science_wavelength; eauto.
  - eapply missing_ho_pixelscale; eauto.
  - eapply missing_ho_fieldofview; eauto.
  - eapply missing_pitch; eauto.
  - eapply missing_cam_keys; eauto.
  - eapply missing_cam_keys; eauto.
  - eapply missing_lo_wavelength; eauto.
  - eapply missing_lo_sensor_keys; eauto.
  - eapply missing_lo_sensor_keys; eauto.
Qed.
Theorem C32_mandatory_section_refused : forall e ar c y c' s,
  aoSystem e ar c = (Ok y, c') -> In s mandatory_sections -> fst (aoSystem e ar (without_section c s)) = Err ValueError.
Proof.
  intros e ar c y c' s H Hin. cbn [In mandatory_sections] in Hin.
  destruct (ao_inv _ _ _ _ _ H) as [Hk Hc]. pose proof Hk as Hk0. apply core_inv in Hk. destruct Hk as (S1 & S2 & S3 & Ht & Ham & Ha & g & Hg & Hl).
  pose proof Hc as Hc0. apply conf_inv in Hc. destruct Hc as (wvl & sHO & hw & sLO & Hs & S4 & Hw & _).
  destruct (tail_facts _ _ _ _ _ H) as (tf & dms & wvl' & sS & Htf & S5 & Hd & Hsci' & Hcam).
  destruct Hin as [<-|[<-|[<-|[<-|[<-|[<-|[<-|[]]]]]]]].
  - assert (E : core_of e (without_section c "telescope") = Err ValueError).
    { unfold core_of. unfold req_sec at 1. rewrite has_without_section. reflexivity. }
    unfold aoSystem. rewrite E. reflexivity.
  - assert (E : core_of e (without_section c "atmosphere") = Err ValueError).
    { rewrite (core_prefix _ _ _ _ _ H); [|unfold precision_of; rewrite sec_without_section; reflexivity|rewrite has_without_section; reflexivity|rewrite sec_without_section; reflexivity].
      unfold req_sec at 1. rewrite has_without_section. reflexivity. }
    unfold aoSystem. rewrite E. reflexivity.
  - assert (E : core_of e (without_section c "sources_HO") = Err ValueError).
    { rewrite (core_prefix _ _ _ _ _ H); [|unfold precision_of; rewrite sec_without_section; reflexivity|rewrite has_without_section; reflexivity|rewrite sec_without_section; reflexivity].
      unfold req_sec. rewrite !has_without_section, !sec_without_section. seqb. rewrite S2. cbn [bind]. rewrite Ha. reflexivity. }
    unfold aoSystem. rewrite E. reflexivity.
  - eapply rest_err; [eassumption|apply core_ext; same_secs|]. unfold configLO_SC, science_stage, req_sec. rewrite has_without_section. reflexivity.
  - eapply rest_err; [eassumption|apply core_ext; same_secs|]. unfold configLO_SC.
    rewrite (science_ext ar _ c), Hs; [|rewrite ?sec_without_section; reflexivity|rewrite has_without_section; reflexivity|rewrite ?sec_without_section; reflexivity].
    unfold req_sec. rewrite has_without_section. reflexivity.
  - eapply rest_err; [eassumption|apply core_ext; same_secs|].
    destruct (conf_tail _ _ _ _ _ H (without_section c "DM")) as (w2 & rt & tts & c2 & _ & Hss & Htl).
    { intros s Hin. cbn [In] in Hin. repeat (destruct Hin as [Hin|Hin]; [subst s; rewrite ?sec_without_section, ?has_without_section; split; reflexivity|]); contradiction. }
    rewrite (Htl _ Htf). cbv zeta. unfold req_sec at 1. destruct (Hss "DM") as [-> ->]; [cbn; auto|]. rewrite has_without_section. reflexivity.
  - eapply rest_err; [eassumption|apply core_ext; same_secs|].
    destruct (conf_tail _ _ _ _ _ H (without_section c "sensor_science")) as (w2 & rt & tts & c2 & _ & Hss & Htl).
    { intros s Hin. cbn [In] in Hin. repeat (destruct Hin as [Hin|Hin]; [subst s; rewrite ?sec_without_section, ?has_without_section; split; reflexivity|]); contradiction. }
    rewrite (Htl _ Htf). cbv zeta. unfold req_sec at 1. destruct (Hss "DM") as [-> ->]; [cbn; auto|].
    rewrite has_without_section, sec_without_section, S5. seqb. cbn [bind]. rewrite Hd. cbn [bind].
    unfold cam_stage, req_sec. destruct (Hss "sensor_science") as [-> ->]; [cbn; auto|]. rewrite has_without_section. reflexivity.
Qed.

Print Assumptions C32_accepted_is_valid.
Print Assumptions C32_mandatory_key_refused.
Print Assumptions C32_mandatory_section_refused.
Print Assumptions C32_missing_strength.
Print Assumptions C32_missing_lo_zenith_is_KeyError.
