(** C32: documented defaults, and refusal of inconsistent values. *)
From Coq Require Import Reals List Arith ZArith String Bool Lra Lia.
From Flocq Require Import Core.Raux Core.Generic_fmt Core.Round_NE.
From Verif Require Import Base_Py M_Tools M_Atmo M_Sensor M_Source M_Config S_Config L_Tools2 L_Config L_Config2 P_Config L_Config3.
Import ListNotations.
Open Scope R_scope.
Open Scope string_scope.

(** ** The whole constructor *)
Lemma with_absent_section c s k v : has_sec c s = false -> with_key c s k v = c.
Proof.
  unfold has_sec, with_key. induction c as [|[a t] r IH]; simpl; [reflexivity|]. intros H. apply orb_false_iff in H. destruct H as [H1 H2].
  rewrite H1. f_equal. now apply IH.
Qed.
(** two files on which every stage agrees give the same system *)
Lemma conf_fst_ext e ar k c d :
  science_stage ar d = science_stage ar c -> has_sec d "sensor_HO" = has_sec c "sensor_HO" ->
  (forall D, fst (ho_sensor D (sec d "sensor_HO")) = fst (ho_sensor D (sec c "sensor_HO"))) ->
  has_sec d "sensor_LO" = has_sec c "sensor_LO" ->
  (forall D, fst (lo_sensor D (sec d "sensor_LO")) = fst (lo_sensor D (sec c "sensor_LO"))) ->
  rtc_stage (sec d "RTC") = rtc_stage (sec c "RTC") -> has_sec d "DM" = has_sec c "DM" ->
  (forall tf D, dm_stage tf D (sec d "DM") = dm_stage tf D (sec c "DM")) ->
  (forall c1 d1 ex am a wvl pitch, (forall s, In s ["atmosphere"; "sensor_science"] -> sec c1 s = sec c s /\ has_sec c1 s = has_sec c s) ->
     (forall s, In s ["atmosphere"; "sensor_science"] -> sec d1 s = sec d s /\ has_sec d1 s = has_sec d s) ->
     (do x <- cam_stage e ex am (sec d1 "atmosphere") a wvl pitch d1; Ok (fst x)) = (do x <- cam_stage e ex am (sec c1 "atmosphere") a wvl pitch c1; Ok (fst x))) ->
  fst (configLO_SC e ar k d) = fst (configLO_SC e ar k c).
Proof.
  intros H1 H2 H3 H4 H5 H6 H7 H8 H9. unfold configLO_SC. rewrite H1. destruct (science_stage ar c) as [[wvl src]|]; [|reflexivity].
  unfold req_sec at 1 3. rewrite H2. destruct (has_sec c "sensor_HO"); [|reflexivity]. cbv zeta.
  specialize (H3 (t_D (c_tel k))). destruct (ho_sensor _ (sec d "sensor_HO")) as [r1 t1]. destruct (ho_sensor _ (sec c "sensor_HO")) as [r2 t2].
  cbn [fst snd] in *. subst r1. destruct r2 as [hw|]; [|reflexivity].
  rewrite !has_sec_assign, !sec_assign, H4. seqb.
  specialize (H5 (t_D (c_tel k))). destruct (lo_sensor _ (sec d "sensor_LO")) as [r1 u1]. destruct (lo_sensor _ (sec c "sensor_LO")) as [r2 u2].
  cbn [fst snd] in *. subst r1.
  set (c1 := snd (if has_sec c "sensor_LO" then _ else (_, assign c _ _))). set (d1 := snd (if has_sec c "sensor_LO" then _ else (_, assign d _ _))).
  assert (Q : fst (if has_sec c "sensor_LO" then (do x <- r2; Ok (Some x), assign (assign d "sensor_HO" t1) "sensor_LO" u1) else (Ok None, assign d "sensor_HO" t1))
            = fst (if has_sec c "sensor_LO" then (do x <- r2; Ok (Some x), assign (assign c "sensor_HO" t2) "sensor_LO" u2) else (Ok None, assign c "sensor_HO" t2)))
    by (destruct (has_sec c "sensor_LO"); reflexivity).
  rewrite Q. clear Q.
  set (T := fst (if has_sec c "sensor_LO" then (do x <- r2; Ok (Some x), assign (assign c "sensor_HO" t2) "sensor_LO" u2) else (Ok None, assign c "sensor_HO" t2))).
  clearbody T. destruct T as [tts|]; [|reflexivity]. cbn [bind].
  assert (Sc : forall s, In s ["atmosphere"; "sensor_science"; "RTC"; "DM"] -> sec c1 s = sec c s /\ has_sec c1 s = has_sec c s).
  { intros s Hin. unfold c1. cbn [In] in Hin. destruct (has_sec c "sensor_LO"); cbn [snd];
      repeat (destruct Hin as [Hin|Hin]; [subst s; rewrite ?sec_assign, ?has_sec_assign; split; reflexivity|]); contradiction. }
  assert (Sd : forall s, In s ["atmosphere"; "sensor_science"; "RTC"; "DM"] -> sec d1 s = sec d s /\ has_sec d1 s = has_sec d s).
  { intros s Hin. unfold d1. cbn [In] in Hin. destruct (has_sec c "sensor_LO"); cbn [snd];
      repeat (destruct Hin as [Hin|Hin]; [subst s; rewrite ?sec_assign, ?has_sec_assign; split; reflexivity|]); contradiction. }
  clearbody c1 d1.
  destruct (Sc "RTC") as [-> _]; [cbn; auto|]. destruct (Sd "RTC") as [-> _]; [cbn; auto|]. rewrite H6.
  destruct (rtc_stage (sec c "RTC")) as [rt|]; [|reflexivity]. cbn [bind].
  unfold req_sec. destruct (Sc "DM") as [-> ->]; [cbn; auto|]. destruct (Sd "DM") as [-> ->]; [cbn; auto|]. rewrite H7.
  destruct (has_sec c "DM"); [|reflexivity]. cbn [bind]. destruct (tech_fov (c_tel k)) as [tf|]; [|reflexivity]. cbn [bind]. rewrite H8.
  destruct (dm_stage tf (t_D (c_tel k)) (sec c "DM")) as [dms|]; [|reflexivity]. cbn [bind].
  specialize (H9 c1 d1 (ar_expand ar) (c_am k) (c_atm k) wvl (dm_pitch (dd_dm dms))).
  lapply H9; [clear H9; intros H9|intros s Hin; apply Sc; cbn in *; intuition].
  lapply H9; [clear H9; intros H9|intros s Hin; apply Sd; cbn in *; intuition].
  destruct (cam_stage _ _ _ _ _ _ _ d1) as [[k1 q1]|]; destruct (cam_stage _ _ _ _ _ _ _ c1) as [[k2 q2]|]; cbn [bind fst snd] in *; try discriminate.
  - apply Ok_inj in H9. subst k1. reflexivity.
  - congruence.
Qed.
Theorem C32_defaults_are_documented : forall e ar c s k d,
  In (k, d) (defaults s) -> absent c s k -> fst (aoSystem e ar (with_key c s k d)) = fst (aoSystem e ar c).
Proof.
  intros e ar c s k d Hin HN. apply absent_sec in HN.
  destruct (has_sec c s) eqn:HS; [|now rewrite with_absent_section].
  assert (Hs : In s ["COMPUTATION"; "telescope"; "atmosphere"; "sources_HO"; "sources_science"; "sensor_HO"; "sensor_LO"; "RTC"; "DM"; "sensor_science"]).
  { unfold defaults in Hin. cbn [lookup default_table] in Hin.
    repeat match type of Hin with In _ (match (if String.eqb ?a s then _ else _) with _ => _ end) => destruct (String.eqb_spec a s) as [E|_]; [subst s; cbn [In]; tauto|] end.
    contradiction. }
  set (f := with_key c s k d).
  assert (F : forall s', has_sec f s' = has_sec c s') by (intros; apply has_with).
  assert (G : forall s', sec f s' = if String.eqb s s' then assign (sec c s') k d else sec c s') by (intros; now apply sec_with).
  clearbody f.
  (* the core part *)
  assert (HC : core_of e f = core_of e c).
  { unfold core_of, precision_of, lo_stage, req_sec. rewrite !F, !G. cbn [In] in Hs.
    repeat (destruct Hs as [Hs|Hs]; [subst s; seqb|]); try contradiction; try reflexivity.
    - dflt_cases Hin ltac:(rewrite lookup_eq, HN; reflexivity).
    - destruct (has_sec c "telescope"); [|reflexivity]. cbn [bind]. now rewrite (defaults_tel _ _ _ _ _ Hin HN).
    - destruct (has_sec c "telescope"); [|reflexivity]. cbn [bind]. destruct (tel_stage _ _ _); [|reflexivity]. cbn [bind]. destruct (airmass_of _) as [am|]; [|reflexivity]. cbn [bind].
      rewrite HS. cbn [bind]. now rewrite (defaults_atm _ _ _ _ Hin HN).
    - destruct (has_sec c "telescope"); [|reflexivity]. cbn [bind]. destruct (tel_stage _ _ _); [|reflexivity]. cbn [bind]. destruct (airmass_of _) as [am|]; [|reflexivity]. cbn [bind].
      destruct (has_sec c "atmosphere"); [|reflexivity]. cbn [bind]. destruct (atm_stage _ _); [|reflexivity]. cbn [bind]. rewrite HS. cbn [bind].
      now rewrite (defaults_ho _ _ _ _ _ Hin HN). }
  unfold aoSystem. rewrite HC. destruct (core_of e c) as [kk|]; [|reflexivity]. cbv zeta. cbn [fst].
  replace (fst (configLO_SC e ar kk f)) with (fst (configLO_SC e ar kk c)); [reflexivity|]. symmetry.
  apply conf_fst_ext; rewrite ?F; try reflexivity.
  - destruct (String.eqb_spec s "sources_science") as [E|N].
    + subst s. apply (defaults_sci ar c f k d); rewrite ?G; try assumption; try reflexivity. apply F.
    + apply science_ext; rewrite ?F, ?G; try reflexivity.
      * apply String.eqb_neq in N. now rewrite N.
      * destruct (String.eqb_spec s "sources_LO"); [|reflexivity]. subst s. contradiction.
  - intros D. rewrite G. destruct (String.eqb_spec s "sensor_HO"); [|reflexivity]. subst s. now apply defaults_ho_sensor.
  - intros D. rewrite G. destruct (String.eqb_spec s "sensor_LO"); [|reflexivity]. subst s. now apply defaults_lo_sensor.
  - rewrite G. destruct (String.eqb_spec s "RTC"); [|reflexivity]. subst s. now apply defaults_rtc.
  - intros tf D. rewrite G. destruct (String.eqb_spec s "DM"); [|reflexivity]. subst s. now apply defaults_dm.
  - intros c1 d1 ex am a wvl pitch S1 S2.
    destruct (S1 "atmosphere") as [A1 _]; [cbn; auto|]. destruct (S1 "sensor_science") as [A2 A3]; [cbn; auto|].
    destruct (S2 "atmosphere") as [B1 _]; [cbn; auto|]. destruct (S2 "sensor_science") as [B2 B3]; [cbn; auto|].
    rewrite G in B1, B2. rewrite F in B3.
    destruct (String.eqb_spec s "sensor_science") as [E|N].
    + subst s. seqbin B1. rewrite B1, A1. eapply defaults_cam; try eassumption; congruence.
    + unfold cam_stage, req_sec. rewrite A2, A3, B2, B3. destruct (has_sec c "sensor_science"); [|reflexivity]. cbn [bind].
      assert (L : lookup (sec d1 "atmosphere") "Seeing" = lookup (sec c1 "atmosphere") "Seeing").
      { rewrite B1, A1. destruct (String.eqb_spec s "atmosphere"); [|reflexivity]. subst s. now apply defaults_atm_seeing. }
      assert (GF : forall ps s0, get_fov e am (sec d1 "atmosphere") a wvl ps pitch s0 = get_fov e am (sec c1 "atmosphere") a wvl ps pitch s0).
      { intros ps s0. unfold get_fov, auto_fov. rewrite L. reflexivity. }
      destruct (req _ _); [|reflexivity]. cbn [bind]. destruct (as_sol _); [|reflexivity]. cbn [bind]. rewrite GF. reflexivity.
Qed.

Print Assumptions C32_defaults_are_documented.
