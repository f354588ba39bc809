(** Inversion of the reading stages: what an accepted parameter file contains. *)
From Coq Require Import Reals List Arith ZArith String Bool Lra Lia.
From Flocq Require Import Core.Raux Core.Generic_fmt Core.Round_NE.
From Verif Require Import Base_Py M_Tools M_Atmo M_Sensor M_Source M_Config S_Config L_Tools2 L_Config.
Import ListNotations.
Open Scope R_scope.
Open Scope string_scope.

Tactic Notation "bnext" hyp(H) ident(x) ident(E) := apply bindOk in H; destruct H as (x & E & H).

Ltac ands := repeat match goal with |- _ /\ _ => split; [first [assumption|reflexivity|lra|congruence|idtac]|] end; try assumption; try reflexivity.

Lemma tel_inv e prec s t : tel_stage e prec s = Ok t ->
  exists v D zen am, lookup s "TelescopeDiameter" = Some v /\ number v D /\
    number (opt s "ZenithAngle" (PNum 0)) zen /\ zen < 90 /\ airmass_of zen = Ok am /\
    (prec = "single" \/ prec = "double") /\
    t_D t = D /\ t_zen t = zen /\ t_prec t = prec /\
    (forall k d, In (k, d) tel_plain -> lookup (t_attr t) k = Some (opt s k d)) /\
    lookup (t_attr t) "extraErrorLoNm" = Some (opt s "extraErrorLoNm" (opt s "extraErrorNm" (PInt 0))) /\
    lookup (t_attr t) "extraErrorLoExp" = Some (opt s "extraErrorLoExp" (opt s "extraErrorExp" (PInt (-2)))) /\
    (forall k d, In (k, d) [("PathPupil", PStr ""); ("PathStaticOn", PNone); ("PathStaticOff", PNone); ("PathStaticPos", PNone);
                    ("PathApodizer", PStr ""); ("PathStatModes", PStr ""); ("windPsdFile", PInt 0)] ->
       exists w, path_key e s k d = Ok w /\ lookup (t_attr t) k = Some w).
Proof.
  unfold tel_stage. intros H.
  bnext H v E1. bnext H D E2. bnext H zen E3. destruct (Rle_dec 90 zen) as [?|Hz]; [discriminate|].
  bnext H am E4. bnext H pu E5. bnext H on E6. bnext H off E7. bnext H pos E8. bnext H apo E9. bnext H mo E10.
  cbv zeta in H. destruct (negb _) eqn:EP; [discriminate|].
  bnext H u E11. bnext H wp E12. apply Ok_inj in H. subst t. cbn [t_D t_zen t_prec t_attr].
  exists v, D, zen, am. apply req_ok in E1. apply as_num_ok in E2. apply as_num_ok in E3.
  ands.
  - apply negb_false_iff, orb_true_iff in EP. rewrite !String.eqb_eq in EP. exact EP.
  - intros k d Hin. unfold tel_plain in Hin. cbn [In] in Hin.
    repeat (destruct Hin as [Hin|Hin]; [injection Hin as <- <-; reflexivity|]). contradiction.
  - intros k d Hin. cbn [In] in Hin.
    repeat (destruct Hin as [Hin|Hin]; [injection Hin as <- <-; eexists; split; [eassumption|reflexivity]|]). contradiction.
Qed.

Lemma path_key_file e s k d w p : path_key e s k d = Ok w -> lookup s k = Some (PStr p) ->
  resolve_config_path (e_isfile e) p (e_root e) (e_p3 e) (e_tiptop e) = "" \/
  e_isfile e (resolve_config_path (e_isfile e) p (e_root e) (e_p3 e) (e_tiptop e)) = true.
Proof.
  unfold path_key. intros H E. rewrite E in H. cbn [resolve_value bind] in H.
  destruct (String.eqb_spec (resolve_config_path (e_isfile e) p (e_root e) (e_p3 e) (e_tiptop e)) "") as [->|N]; [now left|].
  right. destruct (e_isfile e _); [reflexivity|discriminate].
Qed.

Lemma sol_lst_of {A} (s : sol A) n : len_sol s = Ok n -> exists l, s = Lst l /\ length l = n.
Proof. destruct s; simpl; [discriminate|]. intros H; apply Ok_inj in H; eauto. Qed.

(** value of the strength r0 at zenith *)
Definition r0_zenith (s : section) (wvl r0 : R) : Prop :=
  (exists v x, lookup s "Seeing" = Some v /\ number v x /\ x <> 0 /\ r0 = 976 / 1000 * wvl / x * 3600 * 180 / PI) \/
  (lookup s "Seeing" = None /\ exists v, lookup s "r0_value" = Some v /\ number v r0).

Lemma atm_inv am s a : atm_stage am s = Ok a ->
  exists wvl r0 L0 w h v d f,
    number (opt s "Wavelength" (PNum (500 / 10 ^ 9))) wvl /\ r0_zenith s wvl r0 /\
    as_xsol (opt s "L0" (PInt 25)) = Ok L0 /\
    numbers (opt s "Cn2Weights" (PList [PNum 1])) w /\ Rabs (lsum w - 1) <= 1 / 1000 /\
    numbers (opt s "Cn2Heights" (PList [PNum 0])) h /\ numbers (opt s "WindSpeed" (PList [PNum 10])) v /\
    (match lookup s "WindDirection" with Some x => numbers x d | None => d = map (fun _ => 0) v end) /\
    length w = length h /\ length h = length v /\ length v = length d /\
    rpow am (- 3 / 5) = Ok f /\
    atmosphere wvl (r0 * f) w (map (fun x => x * am) h) (Lst v) (Lst d) L0 = Ok a.
Proof.
  unfold atm_stage. intros H.
  bnext H wvl E1. bnext H r0 E2. bnext H L0 E3. bnext H w E4.
  destruct (Rlt_dec _ _) as [?|Hw]; [discriminate|].
  bnext H h E5. bnext H v E6. bnext H d E7. bnext H nw E8. bnext H nh E9.
  destruct (Nat.eqb_spec nw nh) as [->|?]; [|discriminate]. cbn [negb] in H.
  bnext H nv E10. destruct (Nat.eqb_spec nh nv) as [->|?]; [|discriminate]. cbn [negb] in H.
  bnext H nd E11. destruct (Nat.eqb_spec nv nd) as [->|?]; [|discriminate]. cbn [negb] in H.
  bnext H f E12.
  apply sol_lst_of in E8. destruct E8 as (lw & -> & L1).
  apply sol_lst_of in E9. destruct E9 as (lh & -> & L2).
  apply sol_lst_of in E10. destruct E10 as (lv & -> & L3).
  apply sol_lst_of in E11. destruct E11 as (ld & -> & L4).
  cbn [sol_sum vec] in *.
  apply as_sol_lst, as_nums_ok in E4, E5, E6. apply as_num_ok in E1.
  exists wvl, r0, L0, lw, lh, lv, ld, f.
  ands.
  - unfold r0_zenith. destruct (lookup s "Seeing") as [u|] eqn:Es.
    + left. bnext E2 x F1. bnext E2 q F2. apply Ok_inj in E2. subst r0. exists u, x.
      unfold pydiv in F2. destruct (Req_EM_T x 0); [discriminate|]. apply Ok_inj in F2. subst q.
      apply as_num_ok in F1. repeat split; try assumption. 
    + right. bnext E2 u F1. split; [reflexivity|]. exists u. split; [now apply req_ok|]. now apply as_num_ok.
  - destruct (lookup s "WindDirection").
    + now apply as_sol_lst, as_nums_ok in E7.
    + apply Ok_inj in E7. congruence.
Qed.

Lemma ho_inv am haslo s g : ho_stage am haslo s = Ok g ->
  exists wv wvl zen az x so,
    lookup s "Wavelength" = Some wv /\ atleast_1d wv = Ok wvl /\
    numbers (opt s "Zenith" (PList [PNum 0])) zen /\ numbers (opt s "Azimuth" (PList [PNum 0])) az /\ length zen = length az /\
    number (opt s "Height" (PNum 0)) x /\
    (if (if Req_EM_T x 0 then true else false) && negb haslo
     then source_init (Lst wvl) (Lst zen) (Lst az) (HScal 0) = Ok so /\ g = mkStars (Some so) None
     else source_init (Lst wvl) (Lst zen) (Lst az) (HScal (x * am)) = Ok so /\ g = mkStars None (Some so))%bool.
Proof.
  unfold ho_stage. intros H. bnext H wv E1. bnext H wvl E2. bnext H zen E3. bnext H az E4.
  destruct (Nat.eqb_spec (length zen) (length az)) as [L|?]; [|discriminate]. cbn [negb] in H.
  bnext H h E5. cbv zeta in H.
  destruct h as [x|l].
  2:{ discriminate. }
  exists wv, wvl, zen, az, x.
  assert (Nx : number (opt s "Height" (PNum 0)) x).
  { apply as_num_ok. unfold as_sol in E5. destruct (opt s "Height" (PNum 0)); simpl in *; try discriminate; try congruence.
    destruct (mapM as_num l); discriminate. }
  destruct (_ && _)%bool; bnext H so E6; apply Ok_inj in H; exists so;
    (split; [now apply req_ok|]); (split; [assumption|]); (split; [now apply as_nums_ok|]); (split; [now apply as_nums_ok|]); auto.
Qed.

Lemma lo_inv c g g' : lo_stage c g = Ok g' ->
  (has_sec c "sources_LO" = false /\ g' = g) \/
  (has_sec c "sources_LO" = true /\ exists wv wvl z a zen az so,
     lookup (sec c "sources_LO") "Wavelength" = Some wv /\ atleast_1d wv = Ok wvl /\
     lookup (sec c "sources_LO") "Zenith" = Some z /\ lookup (sec c "sources_LO") "Azimuth" = Some a /\
     numbers z zen /\ numbers a az /\ length zen = length az /\
     source_init (Lst wvl) (Lst zen) (Lst az) (HScal 0) = Ok so /\ g' = mkStars (Some so) (g_lgs g)).
Proof.
  unfold lo_stage. destruct (has_sec c "sources_LO"); cbn [negb]; intros H.
  - right. split; [reflexivity|]. cbv zeta in H. bnext H wv E1. bnext H wvl E2. bnext H z E3. bnext H a E4. bnext H zen E5. bnext H az E6.
    destruct (Nat.eqb_spec (length zen) (length az)) as [L|?]; [|discriminate]. cbn [negb] in H.
    bnext H so E7. apply Ok_inj in H.
    exists wv, wvl, z, a, zen, az, so. apply req_ok in E1. apply get_raw_ok in E3, E4. apply as_nums_ok in E5, E6. auto 10.
  - left. split; [reflexivity|]. now apply Ok_inj in H.
Qed.

Lemma sensor_detectors a n s : fst (sensor_init a n) = Ok s -> sa_nL a <> [] -> sa_nDisp a = sa_nWvl a.
Proof.
  unfold sensor_init. destruct (mapM _ (seq 0 (length (sa_nL a)))) as [os|]; [|discriminate].
  intros H Hn. destruct (sa_nL a) as [|z r] eqn:E; [contradiction|].
  destruct n; cbn [fst] in H; try discriminate;
    bnext H ds E2; cbn [length seq mapM] in E2; bnext E2 d0 E3; bnext E3 p E4; bnext E3 c E5;
    destruct (Nat.eqb_spec (sa_nDisp a) (sa_nWvl a)); try discriminate; assumption.
Qed.

Lemma ho_sensor_inv D s w s' : ho_sensor D s = (Ok w, s') ->
  exists ps psn fv fvn spot nph ron exc ntr ndi ty nL dsub alg wr thr nv,
    lookup s "PixelScale" = Some ps /\ number ps psn /\ lookup s "FieldOfView" = Some fv /\ number fv fvn /\
    as_spot (opt s "SpotFWHM" (PList [PList [PNum 0; PNum 0]])) = Ok spot /\
    as_nph (opt s "NumberPhotons" (PList [PInf])) = Ok nph /\
    number (opt s "SigmaRON" (PNum 0)) ron /\ number (opt s "ExcessNoiseFactor" (PNum 1)) exc /\
    len_val (opt s "Transmittance" (PList [PNum 1])) = Ok ntr /\
    disp_len (opt s "Dispersion" (PList [PList [PNum 0]; PList [PNum 0]])) = Ok ndi /\
    opt s "WfsType" (PStr "Shack-Hartmann") = PStr ty /\
    as_ints (opt s "NumberLenslets" (PList [PInt 20])) = Ok nL /\
    (match lookup s "SizeLenslets" with Some v => numbers v dsub | None => dsub_default D nL = Ok dsub end) /\
    opt s "Algorithm" (PStr "wcog") = PStr alg /\
    number (opt s "WindowRadiusWCoG" (PNum 5)) wr /\ number (opt s "ThresholdWCoG" (PNum 0)) thr /\ number (opt s "NewValueThrPix" (PNum 0)) nv /\
    (let a := mkSargs psn fvn spot ntr ndi ron exc ty nL dsub [1] alg [wr; thr; nv] in
     fst (sensor_init a nph) = Ok (w_sensor w) /\ s' = put_nph s (snd (sensor_init a nph))) /\
    (forall k d, In (k, d) (wfs_plain ++ ho_plain) -> lookup (w_attr w) k = Some (opt s k d)) /\
    lookup (w_attr w) "NoiseVariance" = Some (opt s "NoiseVariance" (PList [PNone])).
Proof.
  unfold ho_sensor. cbv zeta. intros H.
  match type of H with match ?r with _ => _ end = _ => remember r as rr eqn:Er; symmetry in Er; destruct rr as [[a nph]|]; [|discriminate] end.
  bnext Er ps E1. bnext Er psn E2. bnext Er fv E3. bnext Er fvn E4. bnext Er spot E5. bnext Er nph' E6. bnext Er ron E7. bnext Er exc E8.
  bnext Er ntr E9. bnext Er ndi E10. bnext Er ty E11. bnext Er nL E12. bnext Er dsub E13. bnext Er alg E14. bnext Er wr E15. bnext Er thr E16. bnext Er nv E17.
  apply Ok_inj in Er. injection Er as <- <-.
  injection H as H <-. bnext H x E18. apply Ok_inj in H. subst w. cbn [w_sensor w_attr].
  exists ps, psn, fv, fvn, spot, nph', ron, exc, ntr, ndi, ty, nL, dsub, alg, wr, thr, nv.
  apply req_ok in E1, E3. apply as_num_ok in E2, E4, E7, E8, E15, E16, E17.
  assert (S1 : forall v t, as_str v = Ok t -> v = PStr t) by (intros [] ? HH; simpl in HH; congruence).
  apply S1 in E11, E14.
  ands.
  - destruct (lookup s "SizeLenslets"); [now apply as_nums_ok|assumption].
  - intros k d Hin. cbn [In app wfs_plain ho_plain] in Hin.
    repeat (destruct Hin as [Hin|Hin]; [injection Hin as <- <-; reflexivity|]). contradiction.
Qed.

Lemma lo_sensor_inv D s w s' : lo_sensor D s = (Ok w, s') ->
  exists ps psn fv fvn spot nph ron exc ntr ndi nL dsub alg wr thr nv,
    lookup s "PixelScale" = Some ps /\ number ps psn /\ lookup s "FieldOfView" = Some fv /\ number fv fvn /\
    as_spot (opt s "SpotFWHM" (PList [PList [PNum 0; PNum 0]])) = Ok spot /\
    as_nph (opt s "NumberPhotons" PInf) = Ok nph /\
    number (opt s "SigmaRON" (PNum 0)) ron /\ number (opt s "ExcessNoiseFactor" (PNum 1)) exc /\
    len_val (opt s "Transmittance" (PList [PNum 1])) = Ok ntr /\
    disp_len (opt s "Dispersion" (PList [PList [PNum 0]; PList [PNum 0]])) = Ok ndi /\
    as_ints (opt s "NumberLenslets" (PList [PInt 1])) = Ok nL /\
    dsub_default D nL = Ok dsub /\
    opt s "Algorithm" (PStr "wcog") = PStr alg /\
    (lookup s "WindowRadiusWCoG" = Some (PStr "optimize") /\ wr = 1 \/ number (opt s "WindowRadiusWCoG" (PNum 1)) wr) /\
    number (opt s "ThresholdWCoG = 0.0" (PNum 0)) thr /\ number (opt s "NewValueThrPix" (PNum 0)) nv /\
    (let a := mkSargs psn fvn spot ntr ndi ron exc "Shack-Hartmann" nL dsub [1] alg [wr; thr; nv] in
     fst (sensor_init a nph) = Ok (w_sensor w) /\ s' = put_nph s (snd (sensor_init a nph))) /\
    (forall k d, In (k, d) wfs_plain -> lookup (w_attr w) k = Some (opt s k d)) /\
    lookup (w_attr w) "NoiseVariance" = Some (opt s "NoiseVariance" (PList [PNone])).
Proof.
  unfold lo_sensor. cbv zeta. intros H.
  match type of H with match ?r with _ => _ end = _ => remember r as rr eqn:Er; symmetry in Er; destruct rr as [[a nph]|]; [|discriminate] end.
  bnext Er ps E1. bnext Er psn E2. bnext Er fv E3. bnext Er fvn E4. bnext Er spot E5. bnext Er nph' E6. bnext Er ron E7. bnext Er exc E8.
  bnext Er ntr E9. bnext Er ndi E10. bnext Er nL E12. bnext Er alg E14. bnext Er wr E15. bnext Er thr E16. bnext Er nv E17. bnext Er dsub E13.
  apply Ok_inj in Er. injection Er as <- <-.
  injection H as H <-. bnext H x E18. apply Ok_inj in H. subst w. cbn [w_sensor w_attr].
  exists ps, psn, fv, fvn, spot, nph', ron, exc, ntr, ndi, nL, dsub, alg, wr, thr, nv.
  apply req_ok in E1, E3. apply as_num_ok in E2, E4, E7, E8, E16, E17.
  assert (S1 : forall v t, as_str v = Ok t -> v = PStr t) by (intros [] ? HH; simpl in HH; congruence).
  apply S1 in E14.
  ands.
  - unfold opt. destruct (lookup s "WindowRadiusWCoG") as [v|].
    + destruct v as [ | | | | | |str| ]; try (right; now apply as_num_ok). destruct (String.eqb_spec str "optimize") as [E0|]; [|discriminate]; rewrite E0 in *.
      left. apply Ok_inj in E15. auto.
    + right. apply Ok_inj in E15. subst. constructor.
  - intros k d Hin. cbn [In app wfs_plain] in Hin.
    repeat (destruct Hin as [Hin|Hin]; [injection Hin as <- <-; reflexivity|]). contradiction.
Qed.

Lemma dm_inv tf D s d : dm_stage tf D s = Ok d ->
  exists p pitch h na ic ow oa oz nrec,
    lookup s "DmPitchs" = Some p /\ numbers p pitch /\
    (match lookup s "DmHeights" with Some v => numbers v h | None => (length pitch <= 1)%nat /\ h = [0] end) /\
    (match lookup s "NumberActuators" with Some v => as_ints v = Ok na | None => nact_default tf D h pitch = Ok na end) /\
    numbers (opt s "InfCoupling" (PList [PNum (2 / 10)])) ic /\
    numbers (opt s "OptimizationWeight" (PList [PNum 0])) ow /\ numbers (opt s "OptimizationAzimuth" (PList [PNum 0])) oa /\
    numbers (opt s "OptimizationZenith" (PList [PNum 0])) oz /\ length oz = length oa /\ length oz = length ow /\
    number (opt s "NumberReconstructedLayers" (PInt 10)) nrec /\ dd_nrec d = nrec /\
    dm_init na pitch h ic (oz, oa) ow = Ok (dd_dm d) /\
    (forall k x, In (k, x) dm_plain -> lookup (dd_attr d) k = Some (opt s k x)).
Proof.
  unfold dm_stage. intros H. bnext H p E1. bnext H pitch E2. bnext H h E3. bnext H na E4. bnext H ic E5. bnext H ow E6. bnext H oa E7. bnext H oz E8.
  destruct (_ || _)%bool eqn:EO; [discriminate|]. apply orb_false_iff in EO. destruct EO as [O1 O2].
  apply negb_false_iff, Nat.eqb_eq in O1, O2.
  bnext H nrec E9. bnext H dd E10. apply Ok_inj in H. subst d. cbn [dd_dm dd_nrec dd_attr].
  exists p, pitch, h, na, ic, ow, oa, oz, nrec. apply req_ok in E1. apply as_nums_ok in E2, E5, E6, E7, E8. apply as_num_ok in E9.
  ands.
  - destruct (lookup s "DmHeights"); [now apply as_nums_ok|].
    destruct (Nat.ltb_spec 1 (length pitch)); [discriminate|]. apply Ok_inj in E3. auto.
  - destruct (lookup s "NumberActuators"); assumption.
  - intros k x Hin. cbn [In dm_plain] in Hin.
    repeat (destruct Hin as [Hin|Hin]; [injection Hin as <- <-; reflexivity|]). contradiction.
Qed.
Lemma dm_init_lens na pitch h ic od ow d : dm_init na pitch h ic od ow = Ok d ->
  length na = length pitch /\ length h = length pitch /\ length (fst od) = length ow /\ dm_pitch d = pitch /\ dm_h d = h /\ dm_nAct d = na.
Proof.
  unfold dm_init. destruct (Nat.eqb_spec (length na) (length pitch)); cbn [negb orb]; [|discriminate].
  destruct (Nat.eqb_spec (length h) (length pitch)); cbn [negb orb]; [|discriminate].
  intros H. bnext H c E1. destruct (Nat.eqb_spec (length (fst od)) (length ow)); cbn [negb] in H; [|discriminate].
  bnext H v E2. apply Ok_inj in H. subst d. repeat split; assumption.
Qed.

Lemma cam_inv e ex am satm a wvl pitch c k s' : cam_stage e ex am satm a wvl pitch c = Ok (k, s') ->
  exists ps psn f0 f ntr,
    has_sec c "sensor_science" = true /\
    lookup (sec c "sensor_science") "PixelScale" = Some ps /\ as_sol ps = Ok psn /\
    get_fov e am satm a wvl psn pitch (sec c "sensor_science") = Ok f0 /\ expand_fov ex wvl f0 = Ok f /\
    len_val (opt (sec c "sensor_science") "Transmittance" (PList [PNum 1])) = Ok ntr /\
    disp_len (opt (sec c "sensor_science") "Dispersion" (PList [PList [PNum 0]; PList [PNum 0]])) = Ok ntr /\
    k = mkCam f psn ntr (plain (sec c "sensor_science") cam_plain) /\
    s' = assign (sec c "sensor_science") "FieldOfView" (PInt f).
Proof.
  unfold cam_stage. intros H. bnext H s E1. apply req_sec_ok in E1. destruct E1 as [E1 ->].
  bnext H ps E2. bnext H psn E3. bnext H f0 E4. bnext H f E5. cbv zeta in H. bnext H ntr E6. bnext H ndi E7.
  destruct (Nat.eqb_spec ndi ntr) as [->|]; [|discriminate]. cbn [negb] in H. apply Ok_inj in H. injection H as <- <-.
  exists ps, psn, f0, f, ntr. apply req_ok in E2. auto 10.
Qed.

Lemma science_inv ar c wvl src : science_stage ar c = Ok (wvl, src) ->
  exists wv zen az, has_sec c "sources_science" = true /\
    lookup (sec c "sources_science") "Wavelength" = Some wv /\ atleast_1d wv = Ok wvl /\
    source_init (Lst wvl) (Lst zen) (Lst az) (HScal 0) = Ok src /\
    (ar_coo ar = None -> exists z0 a0,
       numbers (opt (sec c "sources_science") "Zenith" (PList [PNum 0])) z0 /\
       numbers (opt (sec c "sources_science") "Azimuth" (PList [PNum 0])) a0 /\ length z0 = length a0 /\
       (ar_atngs ar = false -> zen = z0 /\ az = a0) /\
       (ar_atngs ar = true -> forall wlo, lookup (sec c "sources_LO") "Wavelength" = Some wlo -> exists zv avv zl al,
          lookup (sec c "sources_LO") "Zenith" = Some zv /\ lookup (sec c "sources_LO") "Azimuth" = Some avv /\
          numbers zv zl /\ numbers avv al /\ zen = (z0 ++ zl)%list /\ az = (a0 ++ al)%list)).
Proof.
  unfold science_stage. intros H. bnext H s E1. apply req_sec_ok in E1. destruct E1 as [E1 ->].
  bnext H wv E2. bnext H w E3. bnext H z0 E4. bnext H a0 E5. bnext H za E6.
  destruct (Nat.eqb_spec (length (lista_l (fst za))) (length (lista_l (snd za)))) as [L|]; [|discriminate]. cbn [negb] in H.
  bnext H zz E7. bnext H g E8. apply Ok_inj in H. injection H as <- <-.
  exists wv, (fst zz), (snd zz). apply req_ok in E2.
  repeat (split; [assumption|]). intros Ec. rewrite Ec in E6. apply Ok_inj in E6. subst za. cbn [fst snd lista_l] in *.
  exists z0, a0. apply as_nums_ok in E4, E5. repeat (split; [assumption|]). split.
  - intros Ea. rewrite Ea in E7. cbn [andb] in E7. apply Ok_inj in E7. subst zz. split; reflexivity.
  - intros Ea wlo Hw. rewrite Ea, has_lookup, Hw in E7. cbn [andb] in E7.
    bnext E7 zv F1. bnext E7 zl F2. bnext E7 avv F3. bnext E7 al F4. bnext E7 z1 F5. bnext E7 a1 F6. apply Ok_inj in E7. subst zz.
    cbn [py_plus] in F5, F6. apply Ok_inj in F5, F6. subst. cbn [fst snd].
    exists zv, avv, zl, al. apply get_raw_ok in F1, F3. apply as_nums_ok in F2, F4. auto 10.
Qed.

Lemma core_inv e c k : core_of e c = Ok k ->
  has_sec c "telescope" = true /\ has_sec c "atmosphere" = true /\ has_sec c "sources_HO" = true /\
  tel_stage e (precision_of c) (sec c "telescope") = Ok (c_tel k) /\ airmass_of (t_zen (c_tel k)) = Ok (c_am k) /\
  atm_stage (c_am k) (sec c "atmosphere") = Ok (c_atm k) /\
  exists g, ho_stage (c_am k) (has_sec c "sources_LO") (sec c "sources_HO") = Ok g /\ lo_stage c g = Ok (c_stars k).
Proof.
  unfold core_of. intros H. bnext H st E1. bnext H t E2. bnext H am E3. bnext H sa E4. bnext H a E5. bnext H sh E6. bnext H g E7. bnext H g' E8.
  apply Ok_inj in H. subst k. cbn [c_tel c_am c_atm c_stars].
  apply req_sec_ok in E1, E4, E6. destruct E1 as [? ->], E4 as [? ->], E6 as [? ->].
  repeat (split; [assumption|]). eauto.
Qed.

Lemma cam_ext e ex am satm a wvl pitch c c' : req_sec c "sensor_science" = req_sec c' "sensor_science" ->
  cam_stage e ex am satm a wvl pitch c = cam_stage e ex am satm a wvl pitch c'.
Proof. intros H. unfold cam_stage. now rewrite H. Qed.
Lemma req_sec_assign c s t s' : String.eqb s s' = false -> req_sec (assign c s t) s' = req_sec c s'.
Proof. intros H. unfold req_sec. now rewrite has_sec_assign, sec_assign, H. Qed.
(** configLO_SC, step by step *)
Lemma conf_inv e ar k c y c' : configLO_SC e ar k c = (Ok y, c') ->
  exists wvl sHO hw sLO, let D := t_D (c_tel k) in
    science_stage ar c = Ok (wvl, s_src y) /\ has_sec c "sensor_HO" = true /\
    ho_sensor D (sec c "sensor_HO") = (Ok hw, sHO) /\ s_wfs y = hw /\
    (if has_sec c "sensor_LO" then exists tw, lo_sensor D (sec c "sensor_LO") = (Ok tw, sLO) /\ s_tts y = Some tw
     else s_tts y = None) /\
    rtc_stage (sec c "RTC") = Ok (s_rtc y, s_res y) /\ has_sec c "DM" = true /\
    exists tf, tech_fov (c_tel k) = Ok tf /\ dm_stage tf D (sec c "DM") = Ok (s_dms y) /\
    let c1 := assign c "sensor_HO" sHO in
    let c2 := if has_sec c "sensor_LO" then assign c1 "sensor_LO" sLO else c1 in
    exists sS, cam_stage e (ar_expand ar) (c_am k) (sec c "atmosphere") (c_atm k) wvl (dm_pitch (dd_dm (s_dms y))) c = Ok (s_cam y, sS) /\
      c' = assign c2 "sensor_science" sS /\
      s_mode y = ao_mode (g_lgs (c_stars k)) (length (dm_pitch (dd_dm (s_dms y)))) (dd_nrec (s_dms y)) /\
      (if Rlt_dec 0 (lp_gain (holoop (s_rtc y)))
       then soft (budget_of (c_tel k) (c_atm k) (s_dms y) (s_wfs y) (s_tts y) (s_rtc y) (g_lgs (c_stars k)) (s_src y)) = Ok (s_wfe y)
       else s_wfe y = None).
Proof.
  unfold configLO_SC. intros H.
  destruct (science_stage ar c) as [[wvl src]|] eqn:E1; [|discriminate].
  destruct (req_sec c "sensor_HO") as [sho|] eqn:E2; [|discriminate]. apply req_sec_ok in E2. destruct E2 as [E2 ->].
  cbv zeta in H.
  destruct (ho_sensor (t_D (c_tel k)) (sec c "sensor_HO")) as [rw sHO] eqn:E3. cbn [fst snd] in H.
  destruct rw as [hw|]; [|discriminate].
  rewrite has_sec_assign, sec_assign in H. cbn [String.eqb Ascii.eqb Bool.eqb orb] in H.
  destruct (has_sec c "sensor_LO") eqn:E4.
  - destruct (lo_sensor (t_D (c_tel k)) (sec c "sensor_LO")) as [rl sLO] eqn:E5. cbn [fst snd] in H.
    rewrite !sec_assign, !req_sec_assign in H by reflexivity. cbn [String.eqb Ascii.eqb Bool.eqb orb] in H.
    match type of H with match ?r with _ => _ end = _ => remember r as rr eqn:Er; symmetry in Er; destruct rr as [[[[tts rt] dms] cam]|]; [|discriminate] end.
    bnext Er tw F1. bnext F1 tw' F2. apply Ok_inj in F1. subst tw.
    bnext Er rt' F3. bnext Er sd F4. bnext Er tf F5. bnext Er dms' F6. bnext Er cam' F7. apply Ok_inj in Er. injection Er as <- <- <- <-.
    injection H as H <-. bnext H b F8. apply Ok_inj in H. subst y. cbn [s_src s_wfs s_tts s_rtc s_res s_dms s_cam s_mode s_wfe].
    exists wvl, sHO, hw, sLO. ands.
    + exists tw'. rewrite F2. auto.
    + rewrite F3. now destruct rt'.
    + now apply req_sec_ok in F4.
    + exists tf. split; [assumption|]. apply req_sec_ok in F4. destruct F4 as [? ->]. split; [assumption|].
      exists (snd cam'). split; [rewrite (cam_ext _ _ _ _ _ _ _ _ c) in F7 by (rewrite ?req_sec_assign by reflexivity; reflexivity); rewrite F7; now destruct cam'|]. split; [reflexivity|]. split; [reflexivity|].
      destruct (Rlt_dec 0 (lp_gain (holoop (fst rt')))); [assumption|]. now apply Ok_inj in F8.
  - cbn [fst snd] in H.
    rewrite !sec_assign, !req_sec_assign in H by reflexivity. cbn [String.eqb Ascii.eqb Bool.eqb orb] in H.
    match type of H with match ?r with _ => _ end = _ => remember r as rr eqn:Er; symmetry in Er; destruct rr as [[[[tts rt] dms] cam]|]; [|discriminate] end.
    bnext Er tw F1. apply Ok_inj in F1. subst tw.
    bnext Er rt' F3. bnext Er sd F4. bnext Er tf F5. bnext Er dms' F6. bnext Er cam' F7. apply Ok_inj in Er. injection Er as <- <- <- <-.
    injection H as H <-. bnext H b F8. apply Ok_inj in H. subst y. cbn [s_src s_wfs s_tts s_rtc s_res s_dms s_cam s_mode s_wfe].
    exists wvl, sHO, hw, sHO. ands.
    + rewrite F3. now destruct rt'.
    + now apply req_sec_ok in F4.
    + exists tf. split; [assumption|]. apply req_sec_ok in F4. destruct F4 as [? ->]. split; [assumption|].
      exists (snd cam'). split; [rewrite (cam_ext _ _ _ _ _ _ _ _ c) in F7 by (rewrite ?req_sec_assign by reflexivity; reflexivity); rewrite F7; now destruct cam'|]. split; [reflexivity|]. split; [reflexivity|].
      destruct (Rlt_dec 0 (lp_gain (holoop (fst rt')))); [assumption|]. now apply Ok_inj in F8.
Qed.
Lemma ao_inv e ar c y c' : aoSystem e ar c = (Ok y, c') ->
  core_of e c = Ok (y_core y) /\ configLO_SC e ar (y_core y) c = (Ok (y_sci y), c').
Proof.
  unfold aoSystem. destruct (core_of e c) as [k|]; [|discriminate]. cbv zeta. intros H.
  injection H as H <-. bnext H s E. apply Ok_inj in H. subst y. cbn [y_core y_sci]. split; [reflexivity|].
  rewrite <- E. apply surjective_pairing.
Qed.
