(** C34: configuring the science channel again. *)
From Coq Require Import Reals List Arith ZArith String Ascii Bool Lra Lia Psatz.
From Flocq Require Import Core.Raux Core.Generic_fmt Core.Round_NE.
From Verif Require Import Base_Py M_Tools M_Atmo M_Sensor M_Source M_Config S_Config L_Tools2 L_Config L_Config2 L_Atmo P_Config P_Config5.
Import ListNotations.
Open Scope R_scope.
Open Scope string_scope.

(** configLO_SC from its stages *)
Lemma conf_intro e ar k c wvl src hw sHO tts sLO rt res tf dms cam sS b :
  science_stage ar c = Ok (wvl, src) -> has_sec c "sensor_HO" = true ->
  ho_sensor (t_D (c_tel k)) (sec c "sensor_HO") = (Ok hw, sHO) ->
  (if has_sec c "sensor_LO" then exists tw, lo_sensor (t_D (c_tel k)) (sec c "sensor_LO") = (Ok tw, sLO) /\ tts = Some tw else tts = None) ->
  rtc_stage (sec c "RTC") = Ok (rt, res) -> has_sec c "DM" = true -> tech_fov (c_tel k) = Ok tf ->
  dm_stage tf (t_D (c_tel k)) (sec c "DM") = Ok dms ->
  cam_stage e (ar_expand ar) (c_am k) (sec c "atmosphere") (c_atm k) wvl (dm_pitch (dd_dm dms)) c = Ok (cam, sS) ->
  (if Rlt_dec 0 (lp_gain (holoop rt)) then soft (budget_of (c_tel k) (c_atm k) dms hw tts rt (g_lgs (c_stars k)) src) = Ok b else b = None) ->
  configLO_SC e ar k c =
    (Ok (mkSci src hw tts rt res dms cam (ao_mode (g_lgs (c_stars k)) (length (dm_pitch (dd_dm dms))) (dd_nrec dms)) b),
     assign (let c1 := assign c "sensor_HO" sHO in if has_sec c "sensor_LO" then assign c1 "sensor_LO" sLO else c1) "sensor_science" sS).
Proof.
  intros H1 H2 H3 H4 H5 H6 H7 H8 H9 H10. unfold configLO_SC. rewrite H1. unfold req_sec at 1. rewrite H2, H3. cbn [fst snd]. cbv zeta.
  rewrite has_sec_assign, sec_assign. seqb. destruct (has_sec c "sensor_LO").
  - destruct H4 as (tw & Hl & ->). rewrite Hl. cbn [fst snd bind]. rewrite !sec_assign. seqb. rewrite H5. cbn [bind].
    unfold req_sec at 1. rewrite !has_sec_assign, !sec_assign, H6. seqb. cbn [bind]. rewrite H7. cbn [bind]. rewrite H8. cbn [bind].
    rewrite (cam_ext _ _ _ _ _ _ _ _ c) by (rewrite !req_sec_assign by reflexivity; reflexivity). rewrite H9. cbn [bind fst snd].
    destruct (Rlt_dec 0 _); [rewrite H10|subst b]; reflexivity.
  - subst tts. cbn [fst snd bind]. rewrite !sec_assign. seqb. rewrite H5. cbn [bind].
    unfold req_sec at 1. rewrite !has_sec_assign, !sec_assign, H6. seqb. cbn [bind]. rewrite H7. cbn [bind]. rewrite H8. cbn [bind].
    rewrite (cam_ext _ _ _ _ _ _ _ _ c) by (rewrite !req_sec_assign by reflexivity; reflexivity). rewrite H9. cbn [bind fst snd].
    destruct (Rlt_dec 0 _); [rewrite H10|subst b]; reflexivity.
Qed.

(** the photon list completed once is complete *)
Lemma as_xnum_pv x : as_xnum (pv_x x) = Ok x.
Proof. destruct x; reflexivity. Qed.
Lemma as_nph_list l ns : as_nph (PList l) = Ok (AList ns) -> length ns = length l /\
  forall n m, as_nph (PList (l ++ [PList (repeat (PNum 0) n)])) = Ok (AList m) <-> m = (ns ++ [NList (repeat (Fin 0) n)])%list.
Proof.
  cbn [as_nph]. intros H. bnext H x E. apply Ok_inj in H. injection H as ->. split; [apply mapM_F2 in E; symmetry; now apply F2_len in E|].
  intros n m.
  assert (Er : mapM as_xnum (repeat (PNum 0) n) = Ok (repeat (Fin 0) n)).
  { induction n as [|n IH]; [reflexivity|]. cbn [repeat mapM as_xnum as_num bind]. rewrite IH. reflexivity. }
  assert (A : forall (f : pval -> result nphval) a b za zb, mapM f a = Ok za -> mapM f b = Ok zb -> mapM f (a ++ b) = Ok (za ++ zb)%list).
  { clear. intros f a. induction a as [|p a IH]; intros b za zb Ha Hb; cbn [mapM app] in *; [apply Ok_inj in Ha; subst; exact Hb|].
    bnext Ha q E1. bnext Ha qs E2. apply Ok_inj in Ha. subst za. rewrite E1. cbn [bind]. rewrite (IH b qs zb E2 Hb). reflexivity. }
  erewrite A; [|exact E|cbn [mapM]; rewrite Er; reflexivity]. cbn [bind]. split; [intros Hm; apply Ok_inj in Hm; now injection Hm as <-|intros ->; reflexivity].
Qed.
Lemma pv_nph_app a b : match pv_nph (a ++ b) with PList m => skipn (length a) m | _ => [] end = match pv_nph b with PList m => m | _ => [] end.
Proof. unfold pv_nph. rewrite map_app. rewrite skipn_app, map_length, Nat.sub_diag. rewrite skipn_all2 by (rewrite map_length; lia). reflexivity. Qed.
Lemma map_pv_repeat n : map pv_x (repeat (Fin 0) n) = repeat (PNum 0) n.
Proof. induction n as [|n IH]; [reflexivity|]. cbn [repeat map pv_x]. now rewrite IH. Qed.
(** a sensor accepted with a list has at least as many values as arms after completion *)
Lemma sensor_complete a l s : fst (sensor_init a (AList l)) = Ok s -> (length (sa_nL a) <= length (complete (length (sa_nL a)) l))%nat.
Proof.
  unfold sensor_init. destruct (mapM _ (seq 0 (length (sa_nL a)))) as [os|]; [|discriminate]. cbn [fst]. intros H. bnext H ds E. clear H.
  destruct (Nat.le_gt_cases (length (sa_nL a)) (length (complete (length (sa_nL a)) l))) as [Hle|Hgt]; [assumption|exfalso].
  apply mapM_F2 in E. set (k := length (sa_nL a)) in *. set (l' := complete k l) in *.
  assert (Hin : In (length l') (seq 0 k)) by (apply in_seq; lia).
  assert (G : forall xs ys, Forall2 (fun i b => (do p <- pyindex l' (Z.of_nat i); do c <- pyindex (match sa_clock a with [c] => repeat c k | c => c end) (Z.of_nat i);
      if (sa_nDisp a =? sa_nWvl a)%nat then Ok (mkDet (sa_ps a) (sa_fov a) (sa_spot a) p (sa_ron a) (sa_excess a) c) else Err ValueError) = Ok b) xs ys -> In (length l') xs -> False).
  { induction 1 as [|x b xs ys Hx Hr IH]; intros Hi; [contradiction|]. destruct Hi as [->|Hi]; [|auto].
    bnext Hx p E1. unfold pyindex in E1.
    destruct (Z.of_nat (length l') <? 0)%Z eqn:EZ; [apply Z.ltb_lt in EZ; lia|].
    rewrite Z.leb_refl, orb_true_r in E1. discriminate. }
  eapply G; eassumption.
Qed.
Lemma sensor_same a ns s : fst (sensor_init a (AList ns)) = Ok s ->
  sensor_init a (AList (complete (length (sa_nL a)) ns)) = sensor_init a (AList ns).
Proof.
  intros H. pose proof (sensor_complete _ _ _ H) as L. unfold sensor_init.
  assert (C : complete (length (sa_nL a)) (complete (length (sa_nL a)) ns) = complete (length (sa_nL a)) ns).
  { unfold complete at 1. destruct (Nat.ltb_spec (length (complete (length (sa_nL a)) ns)) (length (sa_nL a))); [lia|reflexivity]. }
  rewrite C. unfold sensor_init in H. destruct (mapM _ (seq 0 (length (sa_nL a)))) as [os|]; [reflexivity|discriminate].
Qed.
Lemma sensor_after a ns s : fst (sensor_init a (AList ns)) = Ok s -> snd (sensor_init a (AList ns)) = Some (complete (length (sa_nL a)) ns).
Proof. unfold sensor_init. destruct (mapM _ _); [reflexivity|discriminate]. Qed.
Lemma as_nph_alist v : forall nph, as_nph v = Ok nph -> (exists l ns, v = PList l /\ nph = AList ns) \/ (forall ns, nph <> AList ns).
Proof. intros nph H. destruct v; cbn [as_nph] in H; try discriminate; try (apply Ok_inj in H; right; congruence). bnext H x E. apply Ok_inj in H. left. eauto. Qed.
(** what the constructor leaves in the section: nothing changes, or the photon
    list is completed, and then a second constructor sees the completed list *)
Lemma put_nph_cases s a nph w : as_nph (opt s "NumberPhotons" (PList [PInf])) = Ok nph \/ as_nph (opt s "NumberPhotons" PInf) = Ok nph ->
  fst (sensor_init a nph) = Ok w ->
  put_nph s (snd (sensor_init a nph)) = s \/
  exists l l' ns, lookup s "NumberPhotons" = Some (PList l) /\ nph = AList ns /\ put_nph s (snd (sensor_init a nph)) = assign s "NumberPhotons" (PList l') /\
    as_nph (PList l') = Ok (AList (complete (length (sa_nL a)) ns)) /\ length l' = length (complete (length (sa_nL a)) ns) /\
    sensor_init a (AList (complete (length (sa_nL a)) ns)) = sensor_init a nph.
Proof.
  intros Hn Hw. unfold put_nph. destruct (lookup s "NumberPhotons") as [v|] eqn:E; [|now left].
  assert (Hv : as_nph v = Ok nph) by (unfold opt in Hn; rewrite E in Hn; tauto). clear Hn.
  destruct (as_nph_alist _ _ Hv) as [(l & ns & -> & ->)|Hno].
  - rewrite (sensor_after _ _ _ Hw). destruct (as_nph_list _ _ Hv) as [L1 L2].
    destruct (length l <? length (complete (length (sa_nL a)) ns))%nat eqn:EL; [|now left]. right. apply Nat.ltb_lt in EL.
    pose proof (sensor_same _ _ _ Hw) as Q.
    assert (CE : complete (length (sa_nL a)) ns = (ns ++ [NList (repeat (Fin 0) (length (sa_nL a) - length ns))])%list).
    { unfold complete in *. destruct (Nat.ltb_spec (length ns) (length (sa_nL a))) as [Hlt|]; [reflexivity|lia]. }
    rewrite CE in *.
    exists l, (l ++ [PList (repeat (PNum 0) (length (sa_nL a) - length ns))])%list, ns. split; [reflexivity|]. split; [reflexivity|]. split; [|split; [|split]].
    + do 3 f_equal. rewrite <- L1, pv_nph_app. cbn [pv_nph map]. now rewrite map_pv_repeat.
    + rewrite CE. apply L2. reflexivity.
    + rewrite CE, !app_length, L1. reflexivity.
    + rewrite CE. exact Q.
  - left. destruct nph; try (exfalso; eapply Hno; reflexivity).
    all: destruct v as [| | | | | | |l]; try reflexivity.
    all: unfold sensor_init; destruct (mapM _ _); reflexivity.
Qed.
Lemma ho_sensor_again D s w s' : ho_sensor D s = (Ok w, s') -> ho_sensor D s' = (Ok w, s').
Proof.
  intros H. pose proof H as H0. apply ho_sensor_inv in H0.
  destruct H0 as (ps & psn & fv & fvn & spot & nph & ron & exc & ntr & ndi & ty & nL & dsub & alg & wr & thr & nv &
     W1 & W2 & W3 & W4 & W5 & W6 & W7 & W8 & W9 & W10 & W11 & W12 & W13 & W14 & W15 & W16 & W17 & (W18 & W19) & _).
  destruct (put_nph_cases s _ _ _ (or_introl W6) W18) as [Es|(l & l' & ns & El & En & Es & F1 & F2 & F3)]; rewrite W19 in *.
  - rewrite Es in *. exact H.
  - rewrite Es in *. clear W19. subst nph. cbn [sa_nL] in *.
    unfold ho_sensor in H. cbv zeta in H. unfold req in H. rewrite W1, W3 in H. cbn [bind] in H.
    apply as_num_ok in W2, W4, W7, W8, W15, W16, W17.
    rewrite W2, W4, W5, W6, W7, W8, W9, W10, W11, W12, W14, W15, W16, W17 in H. cbn [bind as_str] in H.
    assert (ES : (match lookup s "SizeLenslets" with Some v => as_nums v | None => dsub_default D nL end) = Ok dsub) by (destruct (lookup s "SizeLenslets"); [now apply as_nums_ok|exact W13]).
    rewrite ES in H. cbn [bind] in H.
    unfold ho_sensor. cbv zeta. rewrite !opt_assign, !req_assign, !lookup_assign. seqb. unfold req. rewrite W1, W3. cbn [bind].
    rewrite W2, W4, W5, F1, W7, W8, W9, W10, W11, W12, W14, W15, W16, W17. cbn [bind as_str]. rewrite ES. cbn [bind].
    rewrite F3. injection H as H _. f_equal.
    + rewrite <- H. destruct (fst (sensor_init _ _)); [|reflexivity]. cbn [bind app plain map wfs_plain ho_plain fst snd]. unfold plain. cbn [map wfs_plain fst snd]. rewrite !opt_assign. reflexivity.
    + rewrite (sensor_after _ _ _ W18). cbn [sa_nL]. unfold put_nph. rewrite lookup_assign, String.eqb_refl. rewrite F2, Nat.ltb_irrefl. reflexivity.
Qed.
Lemma lo_sensor_again D s w s' : lo_sensor D s = (Ok w, s') -> lo_sensor D s' = (Ok w, s').
Proof.
  intros H. pose proof H as H0. apply lo_sensor_inv in H0.
  destruct H0 as (ps & psn & fv & fvn & spot & nph & ron & exc & ntr & ndi & nL & dsub & alg & wr & thr & nv &
     W1 & W2 & W3 & W4 & W5 & W6 & W7 & W8 & W9 & W10 & W12 & W13 & W14 & W15 & W16 & W17 & (W18 & W19) & _).
  destruct (put_nph_cases s _ _ _ (or_intror W6) W18) as [Es|(l & l' & ns & El & En & Es & F1 & F2 & F3)]; rewrite W19 in *.
  - rewrite Es in *. exact H.
  - rewrite Es in *. clear W19. subst nph. cbn [sa_nL] in *.
    unfold lo_sensor in H. cbv zeta in H. unfold req in H. rewrite W1, W3 in H. cbn [bind] in H.
    apply as_num_ok in W2, W4, W7, W8, W16, W17.
    assert (ES : (match lookup s "WindowRadiusWCoG" with Some (PStr t) => if String.eqb t "optimize" then Ok 1 else Err TypeError | Some v => as_num v | None => Ok 1 end) = Ok wr).
    { destruct W15 as [[-> ->]|W15]; [reflexivity|]. apply as_num_ok in W15. unfold opt in W15. destruct (lookup s "WindowRadiusWCoG") as [[]|]; try exact W15. discriminate. }
    rewrite W2, W4, W5, W6, W7, W8, W9, W10, W12, W14, W16, W17 in H. cbn [bind as_str] in H.
    rewrite ES in H. cbn [bind] in H. rewrite W13 in H. cbn [bind] in H.
    unfold lo_sensor. cbv zeta. rewrite !opt_assign, !req_assign, !lookup_assign. seqb. unfold req. rewrite W1, W3. cbn [bind].
    rewrite W2, W4, W5, F1, W7, W8, W9, W10, W12, W14, W16, W17. cbn [bind as_str]. rewrite ES. cbn [bind]. rewrite W13. cbn [bind].
    rewrite F3. injection H as H _. f_equal.
    + rewrite <- H. destruct (fst (sensor_init _ _)); [|reflexivity]. cbn [bind app plain map wfs_plain ho_plain fst snd]. unfold plain. cbn [map wfs_plain fst snd]. rewrite !opt_assign. reflexivity.
    + rewrite (sensor_after _ _ _ W18). cbn [sa_nL]. unfold put_nph. rewrite lookup_assign, String.eqb_refl. rewrite F2, Nat.ltb_irrefl. reflexivity.
Qed.

(** configuring again: everything is kept except the field of view, multiplied
    once more by the expansion factor *)
Definition set_fov (y : science) (f : Z) : science :=
  mkSci (s_src y) (s_wfs y) (s_tts y) (s_rtc y) (s_res y) (s_dms y)
        (mkCam f (k_ps (s_cam y)) (k_ntr (s_cam y)) (k_attr (s_cam y))) (s_mode y) (s_wfe y).
Lemma get_fov_pos e am satm a wvl ps pitch s n : get_fov e am satm a wvl ps pitch s = Ok n -> (0 < n)%Z.
Proof.
  unfold get_fov. intros H. bnext H raw E1. bnext H f E2. destruct f; try discriminate. destruct (isclose_m1 r).
  - unfold auto_fov in H. bnext H wmin F1. bnext H pmin F2. bnext H px F3. bnext H corr F4. bnext H see F5. bnext H fl F6. apply Ok_inj in H. lia.
  - destruct (Rlt_dec 0 r); [|discriminate]. apply Ok_inj in H. subst n. apply lt_IZR. pose proof (Zceil_ub r). cbn. lra.
Qed.
Lemma get_fov_int e am satm a wvl ps pitch s n : lookup s "FieldOfView" = Some (PInt n) -> (0 < n)%Z -> get_fov e am satm a wvl ps pitch s = Ok n.
Proof.
  intros Hl Hn. apply IZR_lt in Hn. unfold get_fov, req. rewrite Hl. cbn [bind to_float].
  destruct (isclose_m1 (IZR n)) eqn:E.
  - apply isclose_auto in E. unfold auto_request in E. rewrite Rabs_pos_eq in E by lra. lra.
  - destruct (Rlt_dec 0 (IZR n)); [|contradiction]. now rewrite Zceil_IZR.
Qed.
Lemma reconf_step e ar k c y c' wvl src r :
  configLO_SC e ar k c = (Ok y, c') -> science_stage ar c = Ok (wvl, src) ->
  (if (ar_expand ar && (1 <? length wvl)%nat)%bool then exists mx mn, pymax wvl = Ok mx /\ pymin wvl = Ok mn /\ mn <> 0 /\ r = Zceil (mx / mn) else r = 1%Z) ->
  (0 < k_fov (s_cam y))%Z ->
  let f := (k_fov (s_cam y) * r)%Z in
  configLO_SC e ar k c' = (Ok (set_fov y f), assign c' "sensor_science" (assign (sec c' "sensor_science") "FieldOfView" (PInt f)))
  /\ science_stage ar c' = Ok (wvl, src).
Proof.
  intros H Hsci Hr Hpos f. pose proof H as H0. apply conf_inv in H0.
  destruct H0 as (wvl' & sHO & hw & sLO & Hs & S4 & Hw & Ew & Htt & Hrt & S5 & tf & Htf & Hd & sS & Hcam & Ec & Hm & Hb).
  rewrite Hs in Hsci. apply Ok_inj in Hsci. injection Hsci as -> <-.
  assert (SEC : forall s, In s ["sources_science"; "sources_LO"; "RTC"; "DM"; "atmosphere"] -> sec c' s = sec c s /\ has_sec c' s = has_sec c s).
  { intros s Hin. rewrite Ec. cbn [In] in Hin. destruct (has_sec c "sensor_LO");
      repeat (destruct Hin as [<-|Hin]; [rewrite !sec_assign, !has_sec_assign; split; reflexivity|]); contradiction. }
  assert (A1 : sec c' "sensor_HO" = sHO) by (rewrite Ec; destruct (has_sec c "sensor_LO"); rewrite !sec_assign; reflexivity).
  assert (A2 : has_sec c' "sensor_HO" = true) by (rewrite Ec; destruct (has_sec c "sensor_LO"); rewrite !has_sec_assign; reflexivity).
  assert (A3 : has_sec c' "sensor_LO" = has_sec c "sensor_LO") by (rewrite Ec; destruct (has_sec c "sensor_LO") eqn:E; rewrite !has_sec_assign, E; reflexivity).
  assert (A4 : has_sec c "sensor_LO" = true -> sec c' "sensor_LO" = sLO) by (intros E; rewrite Ec, E, !sec_assign; reflexivity).
  assert (A5 : sec c' "sensor_science" = sS) by (rewrite Ec, sec_assign; reflexivity).
  assert (A6 : has_sec c' "sensor_science" = true) by (rewrite Ec, has_sec_assign; reflexivity).
  destruct (SEC "sources_science") as [B1 B2]; [cbn; auto|]. destruct (SEC "sources_LO") as [B3 _]; [cbn; auto|].
  destruct (SEC "RTC") as [B4 _]; [cbn; auto 8|]. destruct (SEC "DM") as [B5 B6]; [cbn; auto 8|]. destruct (SEC "atmosphere") as [B7 _]; [cbn; auto 8|].
  assert (Hs' : science_stage ar c' = Ok (wvl, s_src y)) by (rewrite (science_ext ar c' c B1 B2 B3); exact Hs).
  split; [|exact Hs'].
  apply cam_inv in Hcam. destruct Hcam as (ps & psn & f0 & ff & ntr & C1 & C2 & C3 & C4 & C5 & C6 & C7 & C8 & C9).
  assert (Hcam' : cam_stage e (ar_expand ar) (c_am k) (sec c' "atmosphere") (c_atm k) wvl (dm_pitch (dd_dm (s_dms y))) c'
     = Ok (s_cam (set_fov y f), assign sS "FieldOfView" (PInt f))).
  { unfold cam_stage, req_sec. rewrite A6, A5. cbn [bind]. rewrite C9. rewrite req_assign. seqb. unfold req. rewrite C2. cbn [bind]. rewrite C3. cbn [bind].
    rewrite (get_fov_int _ _ _ _ _ _ _ _ ff); [|rewrite lookup_assign, String.eqb_refl; reflexivity|rewrite C8 in Hpos; exact Hpos]. cbn [bind].
    assert (EX : expand_fov (ar_expand ar) wvl ff = Ok f).
    { unfold expand_fov. destruct (_ && _)%bool.
      - destruct Hr as (mx & mn & M1 & M2 & M3 & ->). rewrite M1, M2. cbn [bind]. unfold rdiv. destruct (Req_EM_T mn 0); [contradiction|]. unfold f. rewrite C8. reflexivity.
      - subst r. unfold f. rewrite C8, Z.mul_1_r. reflexivity. }
    rewrite EX. cbn [bind]. cbv zeta. rewrite !opt_assign. seqb. rewrite C6. cbn [bind]. rewrite C7. cbn [bind]. rewrite Nat.eqb_refl. cbn [negb].
    unfold set_fov. cbn [s_cam]. rewrite C8. cbn [k_ps k_ntr k_attr]. do 3 f_equal.
    unfold plain. cbn [cam_plain map fst snd]. rewrite !opt_assign. reflexivity. }
  rewrite (conf_intro e ar k c' wvl (s_src y) hw sHO (s_tts y) sLO (s_rtc y) (s_res y) tf (s_dms y) (s_cam (set_fov y f)) (assign sS "FieldOfView" (PInt f)) (s_wfe y)).
  - f_equal.
    + unfold set_fov. cbn [s_cam]. rewrite Ew, <- Hm. reflexivity.
    + cbv zeta. rewrite A3, A5. rewrite (assign_same c' "sensor_HO" sHO).
      2:{ unfold sec in A1. unfold has_sec in A2. rewrite has_lookup in A2. destruct (lookup c' "sensor_HO"); [congruence|discriminate]. }
      destruct (has_sec c "sensor_LO") eqn:EL; [|reflexivity]. rewrite (assign_same c' "sensor_LO" sLO); [reflexivity|].
      specialize (A4 eq_refl). unfold sec in A4. unfold has_sec in A3. rewrite has_lookup in A3. destruct (lookup c' "sensor_LO"); [congruence|discriminate].
  - exact Hs'.
  - exact A2.
  - rewrite A1. eapply ho_sensor_again; exact Hw.
  - rewrite A3. destruct (has_sec c "sensor_LO"); [|exact Htt]. destruct Htt as (tw & Hl & Et). exists tw. split; [|exact Et]. rewrite (A4 eq_refl). eapply lo_sensor_again; exact Hl.
  - rewrite B4. exact Hrt.
  - rewrite B6. exact S5.
  - exact Htf.
  - rewrite B5. exact Hd.
  - exact Hcam'.
  - rewrite Ew in Hb. exact Hb.
Qed.
Lemma conf_fov_pos e ar k c y c' wvl src : configLO_SC e ar k c = (Ok y, c') -> science_stage ar c = Ok (wvl, src) ->
  ar_expand ar = false \/ (length wvl <= 1)%nat \/ (forall w, In w wvl -> 0 < w) -> (0 < k_fov (s_cam y))%Z.
Proof.
  intros H Hsci Hw. apply conf_inv in H.
  destruct H as (wvl' & sHO & hw & sLO & Hs & S4 & Hwf & Ew & Htt & Hrt & S5 & tf & Htf & Hd & sS & Hcam & _).
  rewrite Hs in Hsci. apply Ok_inj in Hsci. injection Hsci as -> <-.
  apply cam_inv in Hcam. destruct Hcam as (ps & psn & f0 & ff & ntr & C1 & C2 & C3 & C4 & C5 & C6 & C7 & C8 & C9). rewrite C8. cbn [k_fov].
  apply get_fov_pos in C4. unfold expand_fov in C5. destruct (ar_expand ar && (1 <? length wvl)%nat)%bool eqn:E; [|apply Ok_inj in C5; lia].
  apply andb_true_iff in E. destruct E as [E1 E2]. apply Nat.ltb_lt in E2. destruct Hw as [Hw|[Hw|Hw]]; [congruence|lia|].
  bnext C5 mx F1. bnext C5 mn F2. unfold rdiv in C5. destruct (Req_EM_T mn 0); [discriminate|]. apply Ok_inj in C5. subst ff.
  apply pymin_is in F2. destruct F2 as [G1 G2].
  assert (Gx : mn <= mx).
  { destruct wvl as [|x l]; [discriminate|]. cbn [pymax] in F1. apply Ok_inj in F1. subst mx. apply Rle_trans with x; [apply G2; now left|].
    clear. revert x. induction l as [|z l IH]; intros x; cbn [fold_left]; [lra|]. apply Rle_trans with (Rmax x z); [apply Rmax_l|apply IH]. }
  assert (0 < mn) by now apply Hw.
  assert (0 < Zceil (mx / mn))%Z.
  { apply lt_IZR. apply Rlt_le_trans with (mx / mn); [|apply Zceil_ub]. apply Rdiv_lt_0_compat; lra. }
  nia.
Qed.

(** Without the expansion of the field (or with one wavelength), configuring the
    science channel again changes neither the system nor the file map. *)
Theorem C34_reconfiguration_idempotent : forall e ar k c y c' wvl src,
  configLO_SC e ar k c = (Ok y, c') -> science_stage ar c = Ok (wvl, src) ->
  ar_expand ar = false \/ (length wvl <= 1)%nat -> configLO_SC e ar k c' = (Ok y, c').
Proof.
  intros e ar k c y c' wvl src H Hs Hw.
  assert (Hp : (0 < k_fov (s_cam y))%Z) by (eapply conf_fov_pos; try eassumption; tauto).
  destruct (reconf_step e ar k c y c' wvl src 1 H Hs) as [R _]; [|exact Hp|].
  - destruct (ar_expand ar && (1 <? length wvl)%nat)%bool eqn:E; [|reflexivity]. apply andb_true_iff in E. destruct E as [E1 E2]. apply Nat.ltb_lt in E2. destruct Hw; [congruence|lia].
  - rewrite R, Z.mul_1_r. f_equal; [|].
    + f_equal. unfold set_fov. destruct y as [? ? ? ? ? ? [? ? ? ?] ? ?]. reflexivity.
    + apply conf_inv in H. destruct H as (wvl' & sHO & hw & sLO & _ & _ & _ & _ & _ & _ & _ & tf & _ & _ & sS & Hcam & Ec & _).
      apply cam_inv in Hcam. destruct Hcam as (ps & psn & f0 & ff & ntr & C1 & C2 & C3 & C4 & C5 & C6 & C7 & C8 & C9).
      assert (A5 : sec c' "sensor_science" = sS) by (rewrite Ec, sec_assign; reflexivity).
      rewrite A5, C8. cbn [k_fov]. rewrite (assign_same sS "FieldOfView" (PInt ff)); [|rewrite C9, lookup_assign, String.eqb_refl; reflexivity].
      apply assign_same. rewrite Ec, lookup_assign, String.eqb_refl. reflexivity.
Qed.
(** n calls of configLO_SC on the same object *)
Fixpoint reconfigure (e : env) (ar : args) (k : core) (n : nat) (c : cfg) : result science * cfg :=
  match n with O => configLO_SC e ar k c | S n => configLO_SC e ar k (snd (reconfigure e ar k n c)) end.
(** With the expansion and several (positive) wavelengths the field of view is
    multiplied by ceil(max/min) at every call: fov, fov*r, fov*r^2 ... *)
Theorem C34_reconfiguration_growth : forall e ar k c y c' wvl src mx mn,
  configLO_SC e ar k c = (Ok y, c') -> science_stage ar c = Ok (wvl, src) ->
  ar_expand ar = true -> (1 < length wvl)%nat -> (forall w, In w wvl -> 0 < w) -> pymax wvl = Ok mx -> pymin wvl = Ok mn ->
  forall n, exists y', fst (reconfigure e ar k n c) = Ok y' /\ k_fov (s_cam y') = (k_fov (s_cam y) * Zceil (mx / mn) ^ Z.of_nat n)%Z.
Proof.
  intros e ar k c y c' wvl src mx mn H Hs Hx Hl Hw M1 M2 n.
  assert (Hmn : mn <> 0) by (apply pymin_is in M2; destruct M2 as [M2 _]; apply Hw in M2; lra).
  assert (G : exists y' c'', reconfigure e ar k n c = (Ok y', c'') /\ (exists c0, configLO_SC e ar k c0 = (Ok y', c'') /\ science_stage ar c0 = Ok (wvl, src)) /\ k_fov (s_cam y') = (k_fov (s_cam y) * Zceil (mx / mn) ^ Z.of_nat n)%Z).
  { induction n as [|n (y' & c'' & IH1 & (c0 & IH2 & IH3) & IH4)].
    - exists y, c'. split; [exact H|]. split; [eauto|]. cbn. lia.
    - cbn [reconfigure]. rewrite IH1. cbn [snd].
      destruct (reconf_step e ar k c0 y' c'' wvl src (Zceil (mx / mn)) IH2 IH3) as [R1 R2].
      + rewrite Hx. apply Nat.ltb_lt in Hl. rewrite Hl. cbn [andb]. exists mx, mn. auto.
      + eapply conf_fov_pos; try eassumption. tauto.
      + rewrite R1. eexists; eexists. split; [reflexivity|]. split; [exists c''; split; [exact R1|exact R2]|].
        cbn [set_fov s_cam k_fov]. rewrite IH4, Nat2Z.inj_succ, Z.pow_succ_r by lia. ring. }
  destruct G as (y' & c'' & G1 & _ & G2). exists y'. rewrite G1. auto.
Qed.

Print Assumptions C34_reconfiguration_idempotent.
Print Assumptions C34_reconfiguration_growth.
