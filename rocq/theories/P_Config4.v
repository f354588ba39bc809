(** C32: what an accepted file becomes; C33 science field of view; C35 AO mode;
    C36 paths; the theoretical error budget. *)
From Coq Require Import Reals List Arith ZArith String Bool Lra Lia.
From Flocq Require Import Core.Raux Core.Generic_fmt Core.Round_NE.
From Verif Require Import Base_Py M_Tools M_Atmo M_Sensor M_Source M_Config S_Config L_Tools2 L_Config L_Config2 L_Atmo P_Config.
Import ListNotations.
Open Scope R_scope.
Open Scope string_scope.

(** ** Stored values *)
(** the atmosphere along the line of sight: strength divided by airmass^(3/5),
    altitudes multiplied by the airmass *)
Lemma atmosphere_fields wvl r0 w h v d L0 a : atmosphere wvl r0 w h v d L0 = Ok a ->
  a_wvl a = wvl /\ a_r0 a = r0 /\ a_w a = w /\ a_h a = h /\ a_v a = v /\ a_d a = d.
Proof. unfold atmosphere. intros H. bnext H p E1. cbv zeta in H. bnext H ls E2. apply Ok_inj in H. subst a. cbn. auto 10. Qed.
Lemma airmass_value z am : airmass_of z = Ok am -> cos (z * PI / 180) <> 0 /\ am = 1 / cos (z * PI / 180).
Proof. unfold airmass_of, rdiv. destruct (Req_EM_T _ 0); [discriminate|]. intros H; apply Ok_inj in H. auto. Qed.
Lemma rpow_inv35 x f : rpow x (- 3 / 5) = Ok f -> 0 < x -> f * Rpower x (3 / 5) = 1.
Proof. intros H Hx. rewrite rpow_pos in H by assumption. apply Ok_inj in H. subst f. rewrite <- Rpower_plus. replace (- 3 / 5 + 3 / 5) with 0 by field. now apply Rpower_O. Qed.

Theorem C32_line_of_sight : forall e ar c y c', aoSystem e ar c = (Ok y, c') ->
  exists vD D vz zen am vw wvl r0z ww w hh h sv v,
    entry c "telescope" "TelescopeDiameter" vD /\ number vD D /\ t_D (c_tel (y_core y)) = D /\
    value c "telescope" "ZenithAngle" (PNum 0) vz /\ number vz zen /\ t_zen (c_tel (y_core y)) = zen /\
    am = 1 / cos (zen * PI / 180) /\ c_am (y_core y) = am /\
    value c "atmosphere" "Wavelength" (PNum (500 / 10 ^ 9)) vw /\ number vw wvl /\ a_wvl (c_atm (y_core y)) = wvl /\
    (* the seeing has precedence over r0_value *)
    ((exists vs s, entry c "atmosphere" "Seeing" vs /\ number vs s /\ r0z * s = 976 / 1000 * wvl * (3600 * 180 / PI)) \/
     (absent c "atmosphere" "Seeing" /\ exists vr, entry c "atmosphere" "r0_value" vr /\ number vr r0z)) /\
    (0 < am -> a_r0 (c_atm (y_core y)) * Rpower am (3 / 5) = r0z) /\
    value c "atmosphere" "Cn2Weights" (PList [PNum 1]) ww /\ numbers ww w /\ a_w (c_atm (y_core y)) = w /\
    value c "atmosphere" "Cn2Heights" (PList [PNum 0]) hh /\ numbers hh h /\ a_h (c_atm (y_core y)) = map (fun x => x * am) h /\
    value c "atmosphere" "WindSpeed" (PList [PNum 10]) sv /\ numbers sv v /\ a_v (c_atm (y_core y)) = Lst v /\
    ((exists vd d, entry c "atmosphere" "WindDirection" vd /\ numbers vd d /\ a_d (c_atm (y_core y)) = Lst d) \/
     (absent c "atmosphere" "WindDirection" /\ a_d (c_atm (y_core y)) = Lst (repeat 0 (length v)))).
Proof.
  intros e ar c y c' H. destruct (ao_inv _ _ _ _ _ H) as [Hk _]. apply core_inv in Hk. destruct Hk as (S1 & S2 & S3 & Ht & Ham & Ha & _).
  apply tel_inv in Ht. destruct Ht as (vD & D & zen & am' & T1 & T2 & T3 & T4 & T5 & T6 & T7 & T8 & _).
  rewrite T8 in Ham. apply airmass_value in Ham. destruct Ham as [Hc Ham].
  apply atm_inv in Ha. destruct Ha as (wv & r0 & L0 & w & h & v & d & f & A1 & A2 & A3 & A4 & A5 & A6 & A7 & A8 & A9 & A10 & A11 & A12 & A13).
  apply atmosphere_fields in A13. destruct A13 as (B1 & B2 & B3 & B4 & B5 & B6).
  exists vD, D, (opt (sec c "telescope") "ZenithAngle" (PNum 0)), zen, (c_am (y_core y)), (opt (sec c "atmosphere") "Wavelength" (PNum (500 / 10 ^ 9))), wv, r0,
    (opt (sec c "atmosphere") "Cn2Weights" (PList [PNum 1])), w, (opt (sec c "atmosphere") "Cn2Heights" (PList [PNum 0])), h, (opt (sec c "atmosphere") "WindSpeed" (PList [PNum 10])), v.
  split; [now apply entry_sec|]. split; [assumption|]. split; [assumption|]. split; [now apply value_opt|]. split; [assumption|]. split; [assumption|].
  split; [assumption|]. split; [reflexivity|]. split; [now apply value_opt|]. split; [assumption|]. split; [assumption|]. split.
  { destruct A2 as [(u & x & C1 & C2 & C3 & C4)|(C1 & u & C2 & C3)].
    - left. exists u, x. split; [now apply entry_sec|]. split; [assumption|]. subst r0. field. split; [apply PI_neq0|assumption].
    - right. split; [now apply absent_sec|]. exists u. split; [now apply entry_sec|assumption]. }
  split; [intros Hp; rewrite B2, Rmult_assoc, (rpow_inv35 _ _ A12 Hp); ring|].
  split; [now apply value_opt|]. split; [assumption|]. split; [assumption|]. split; [now apply value_opt|]. split; [assumption|]. split; [assumption|].
  split; [now apply value_opt|]. split; [assumption|]. split; [assumption|].
  destruct (lookup (sec c "atmosphere") "WindDirection") as [u|] eqn:EW.
  - left. exists u, d. split; [now apply entry_sec|]. auto.
  - right. split; [now apply absent_sec|]. rewrite B6. subst d. f_equal. clear. induction v; [reflexivity|]. cbn. now f_equal.
Qed.
(** airmass is positive for -90 < zenith < 90; a zenith angle below -90 is accepted *)
Theorem C32_airmass_positive z : -90 < z < 90 -> 0 < 1 / cos (z * PI / 180).
Proof.
  intros [H1 H2]. assert (P := PI_RGT_0). assert (Hc : 0 < cos (z * PI / 180)) by (apply cos_gt_0; nra). apply Rdiv_lt_0_compat; lra.
Qed.

(** the keys of the telescope section that the constructor stores *)
Theorem C32_telescope_values : forall e ar c y c', aoSystem e ar c = (Ok y, c') ->
  (forall k d v, In (k, d) [("ObscurationRatio", PNum 0); ("Resolution", PInt 256); ("PupilAngle", PNum 0); ("zCoefStaticOn", PList []);
       ("extraErrorNm", PInt 0); ("extraErrorExp", PInt (-2)); ("extraErrorMin", PInt 0); ("extraErrorMax", PInt 0);
       ("extraErrorLoMin", PInt 0); ("extraErrorLoMax", PInt 0); ("TechnicalFoV", PInt 0)] ->
     value c "telescope" k d v -> lookup (t_attr (c_tel (y_core y))) k = Some v) /\
  (* the low-order extra error is the high-order one unless given *)
  (forall v, value c "telescope" "extraErrorNm" (PInt 0) v -> forall u, value c "telescope" "extraErrorLoNm" v u ->
     lookup (t_attr (c_tel (y_core y))) "extraErrorLoNm" = Some u) /\
  (forall v, value c "telescope" "extraErrorExp" (PInt (-2)) v -> forall u, value c "telescope" "extraErrorLoExp" v u ->
     lookup (t_attr (c_tel (y_core y))) "extraErrorLoExp" = Some u).
Proof.
  intros e ar c y c' H. destruct (ao_inv _ _ _ _ _ H) as [Hk _]. apply core_inv in Hk. destruct Hk as (_ & _ & _ & Ht & _).
  apply tel_inv in Ht. destruct Ht as (vD & D & zen & am' & _ & _ & _ & _ & _ & _ & _ & _ & _ & T9 & T10 & T11 & _).
  split; [|split].
  - intros k d v Hin Hv. apply value_opt in Hv. subst v. apply T9. exact Hin.
  - intros v Hv u Hu. apply value_opt in Hv, Hu. subst. exact T10.
  - intros v Hv u Hu. apply value_opt in Hv, Hu. subst. exact T11.
Qed.

(** sub-aperture size and actuator counts *)
Theorem C32_sensor_and_mirror_values : forall e ar c y c', aoSystem e ar c = (Ok y, c') ->
  (absent c "sensor_HO" "SizeLenslets" -> forall m, value c "sensor_HO" "NumberLenslets" (PList [PInt 20]) (PList (map PInt m)) ->
     map o_dsub (s_opt (w_sensor (s_wfs (y_sci y)))) = map (fun n => t_D (c_tel (y_core y)) / IZR n) m
     /\ map o_nL (s_opt (w_sensor (s_wfs (y_sci y)))) = m) /\
  (exists p pitch, entry c "DM" "DmPitchs" p /\ numbers p pitch /\ dm_pitch (dd_dm (s_dms (y_sci y))) = pitch /\
     (forall v h, entry c "DM" "DmHeights" v -> numbers v h -> dm_h (dd_dm (s_dms (y_sci y))) = h) /\
     (absent c "DM" "DmHeights" -> dm_h (dd_dm (s_dms (y_sci y))) = [0]) /\
     (forall m, entry c "DM" "NumberActuators" (PList (map PInt m)) -> dm_nAct (dd_dm (s_dms (y_sci y))) = m) /\
     (* default: the meta-pupil over the pitch, rounded to the nearest *)
     (absent c "DM" "NumberActuators" -> forall tf tn, value c "telescope" "TechnicalFoV" (PInt 0) tf -> number tf tn ->
        length (dm_nAct (dd_dm (s_dms (y_sci y)))) = length pitch /\
        forall i, (i < length pitch)%nat ->
          nth i (dm_nAct (dd_dm (s_dms (y_sci y)))) 0%Z
            = ZnearestE ((tn * (PI / (3600 * 180)) * nth i (dm_h (dd_dm (s_dms (y_sci y)))) 0 + t_D (c_tel (y_core y))) / nth i pitch 0))).
Proof.
  intros e ar c y c' H. destruct (ao_inv _ _ _ _ _ H) as [Hk Hc].
  apply conf_inv in Hc. destruct Hc as (wvl & sHO & hw & sLO & Hs & S4 & Hw & Ew & Htt & Hr & S5 & tf & Htf & Hd & _).
  assert (ints : forall m, as_ints (PList (map PInt m)) = Ok m).
  { intros m. unfold as_ints. cbn [as_list bind]. induction m as [|z m IH]; [reflexivity|]. cbn [map mapM as_int bind]. rewrite IH. reflexivity. }
  split.
  - intros Hab m Hm. apply absent_sec in Hab. apply value_opt in Hm. rewrite Ew.
    apply ho_sensor_inv in Hw. destruct Hw as (ps & psn & fv & fvn & spot & nph & ron & exc & ntr & ndi & ty & nL & dsub & alg & wr & thr & nv &
     W1 & W2 & W3 & W4 & W5 & W6 & W7 & W8 & W9 & W10 & W11 & W12 & W13 & W14 & W15 & W16 & W17 & (W18 & _) & _).
    rewrite Hab in W13. rewrite <- Hm, ints in W12. apply Ok_inj in W12. subst nL.
    unfold sensor_init in W18. cbn [sa_nL sa_dsub] in W18.
    assert (Ld : dsub = map (fun n => t_D (c_tel (y_core y)) / IZR n) m).
    { clear -W13. revert dsub W13. unfold dsub_default. induction m as [|z m IH]; intros dsub W13; cbn [mapM map] in *; [now apply Ok_inj in W13|].
      bnext W13 q E1. bnext W13 qs E2. apply Ok_inj in W13. subst dsub. f_equal; [|now apply IH].
      unfold rdiv in E1. destruct (Req_EM_T _ 0); [discriminate|]. now apply Ok_inj in E1. }
    match type of W18 with context [mapM ?f ?l] => match f with fun i => do nl <- _; _ => destruct (mapM f l) as [os|] eqn:EO; [|discriminate] end end.
    assert (Eos : s_opt (w_sensor hw) = os).
    { destruct nph; try discriminate; cbn [fst] in W18; bnext W18 ds E2; apply Ok_inj in W18; rewrite <- W18; reflexivity. }
    rewrite Eos. clear -EO Ld.
    assert (Len : length dsub = length m) by (subst dsub; apply map_length).
    rewrite <- Ld. clear Ld. apply mapM_F2 in EO.
    assert (G : forall k os, Forall2 (fun i b => (do nl <- pyindex m (Z.of_nat i); do d <- pyindex dsub (Z.of_nat i); Ok {| o_nL := nl; o_dsub := d |}) = Ok b) (seq k (length m - k)) os ->
              (k <= length m)%nat -> map o_dsub os = skipn k dsub /\ map o_nL os = skipn k m).
    { intros k. remember (length m - k)%nat as n eqn:En. revert k En. induction n as [|n IH]; intros k En os' Hf Hk.
      - inversion Hf; subst. cbn. split; symmetry; apply skipn_all2; lia.
      - cbn [seq] in Hf. inversion Hf as [|? b ? os'' Hb Hrest]; subst. destruct (IH (S k) ltac:(lia) os'' Hrest ltac:(lia)) as [I1 I2].
        bnext Hb nl E1. bnext Hb dd E2. apply Ok_inj in Hb. subst b. cbn [map o_dsub o_nL].
        rewrite (pyindex_nth 0%Z m k) in E1 by lia. rewrite (pyindex_nth 0 dsub k) in E2 by lia. apply Ok_inj in E1, E2. subst.
        rewrite I1, I2. split.
        + symmetry. clear -Len Hk En. assert (k < length dsub)%nat by lia. clear Len En Hk. revert k H. induction dsub as [|x l IHl]; intros k Hk; [cbn in Hk; lia|]. destruct k; [reflexivity|]. cbn [skipn nth]. apply IHl. cbn in Hk; lia.
        + symmetry. clear -Hk En. assert (k < length m)%nat by lia. clear En Hk. revert k H. induction m as [|x l IHl]; intros k Hk; [cbn in Hk; lia|]. destruct k; [reflexivity|]. cbn [skipn nth]. apply IHl. cbn in Hk; lia. }
    specialize (G 0%nat os). rewrite Nat.sub_0_r in G. destruct (G EO ltac:(lia)) as [G1 G2]. cbn [skipn] in *. auto.
  - apply dm_inv in Hd. destruct Hd as (p & pitch & dh & na & ic & ow & oa & oz & nrec & D1 & D2 & D3 & D4 & D5 & D6 & D7 & D8 & D9 & D10 & _ & _ & D11 & _).
    apply dm_init_lens in D11. destruct D11 as (L1 & L2 & L3 & L4 & L5 & L6).
    exists p, pitch. split; [now apply entry_sec|]. split; [assumption|]. split; [assumption|]. rewrite L5, L6.
    split; [|split; [|split]].
    + intros v h Hv Hh. apply entry_sec in Hv. rewrite Hv in D3. apply as_nums_ok in Hh, D3. congruence.
    + intros Hab. apply absent_sec in Hab. rewrite Hab in D3. tauto.
    + intros m Hm. apply entry_sec in Hm. rewrite Hm, ints in D4. now apply Ok_inj in D4.
    + intros Hab tv tn Htv Htn. apply absent_sec in Hab. rewrite Hab in D4. split; [congruence|].
      assert (Et : tf = tn).
      { apply core_inv in Hk. destruct Hk as (_ & _ & _ & Ht & _). apply tel_inv in Ht. destruct Ht as (? & ? & ? & ? & _ & _ & _ & _ & _ & _ & _ & _ & _ & T9 & _).
        unfold tech_fov, opt in Htf. rewrite (T9 "TechnicalFoV" (PInt 0)) in Htf by (cbn; tauto). apply value_opt in Htv. rewrite <- Htv in Htf. apply as_num_ok in Htn. congruence. }
      subst tn. unfold nact_default in D4. bnext D4 q E1. apply Ok_inj in D4. subst na. unfold bdivl in E1. rewrite map_length, L2, Nat.eqb_refl in E1.
      intros i Hi.
      assert (Q : forall (a b q : list R) i, mapM (fun p => rdiv (fst p) (snd p)) (combine a b) = Ok q -> length a = length b -> (i < length b)%nat -> nth i (map ZnearestE q) 0%Z = ZnearestE (nth i a 0 / nth i b 0)).
      { clear. induction a as [|x a IH]; intros [|z b] q i H L Hi; cbn in L, Hi; try lia. cbn [combine mapM fst snd] in H. bnext H u E1. bnext H us E2. apply Ok_inj in H. subst q.
        unfold rdiv in E1. destruct (Req_EM_T z 0); [discriminate|]. apply Ok_inj in E1. subst u. destruct i; [reflexivity|]. cbn [map nth]. apply IH; [assumption|lia|lia]. }
      rewrite (Q _ _ _ i E1) by (rewrite ?map_length; lia).
      f_equal. f_equal. rewrite (nth_indep _ 0 (tf * (PI / (3600 * 180)) * 0 + t_D (c_tel (y_core y)))) by (rewrite map_length; lia).
      now rewrite (map_nth (fun x => tf * (PI / (3600 * 180)) * x + t_D (c_tel (y_core y)))).
Qed.

Print Assumptions C32_line_of_sight.
Print Assumptions C32_airmass_positive.
Print Assumptions C32_telescope_values.
Print Assumptions C32_sensor_and_mirror_values.
