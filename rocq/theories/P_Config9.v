(** C136: a key the documentation does not know is ignored, and what the Keck fitting helper therefore changes in a parameter file. *)
From Coq Require Import Reals List Arith ZArith String Bool Lra Lia.
From Flocq Require Import Core.Raux Core.Generic_fmt Core.Round_NE.
From Verif Require Import Base_Py M_Tools M_Atmo M_Sensor M_Source M_Config S_Config L_Tools2 L_Config L_Config2 P_Config L_Config3 P_Config2.
Import ListNotations.
Open Scope R_scope.
Open Scope string_scope.

(** ** Specification: the keys of each section of a parameter file that mean something *)
Definition known_table : list (string * list string) :=
  [("COMPUTATION", ["precision"]);
   ("telescope", ["TelescopeDiameter"; "ZenithAngle"; "ObscurationRatio"; "Resolution"; "PupilAngle"; "zCoefStaticOn"; "TechnicalFoV";
                  "PathPupil"; "PathStaticOn"; "PathStaticOff"; "PathStaticPos"; "PathApodizer"; "PathStatModes"; "windPsdFile";
                  "extraErrorNm"; "extraErrorExp"; "extraErrorMin"; "extraErrorMax"; "extraErrorLoNm"; "extraErrorLoExp"; "extraErrorLoMin"; "extraErrorLoMax"]);
   ("atmosphere", ["Wavelength"; "Seeing"; "r0_value"; "L0"; "Cn2Weights"; "Cn2Heights"; "WindSpeed"; "WindDirection"]);
   ("sources_HO", ["Wavelength"; "Zenith"; "Azimuth"; "Height"]);
   ("sources_LO", ["Wavelength"; "Zenith"; "Azimuth"]);
   ("sources_science", ["Wavelength"; "Zenith"; "Azimuth"]);
   ("sensor_HO", ["PixelScale"; "FieldOfView"; "Binning"; "SpotFWHM"; "NumberPhotons"; "SigmaRON"; "Gain"; "SkyBackground"; "Dark"; "ExcessNoiseFactor";
                  "SpectralBandwidth"; "Transmittance"; "Dispersion"; "WfsType"; "NumberLenslets"; "SizeLenslets"; "Modulation"; "NoiseVariance"; "Algorithm";
                  "WindowRadiusWCoG"; "ThresholdWCoG"; "NewValueThrPix"; "addMcaoWFsensConeError"]);
   ("sensor_LO", ["PixelScale"; "FieldOfView"; "Binning"; "SpotFWHM"; "NumberPhotons"; "SigmaRON"; "Gain"; "SkyBackground"; "Dark"; "ExcessNoiseFactor";
                  "SpectralBandwidth"; "Transmittance"; "Dispersion"; "NumberLenslets"; "NoiseVariance"; "Algorithm";
                  "WindowRadiusWCoG"; "ThresholdWCoG = 0.0"; "NewValueThrPix"]);
   ("RTC", ["LoopGain_HO"; "SensorFrameRate_HO"; "LoopDelaySteps_HO"; "LoopGain_LO"; "SensorFrameRate_LO"; "LoopDelaySteps_LO"; "ResidualError"]);
   ("DM", ["DmPitchs"; "DmHeights"; "NumberActuators"; "InfCoupling"; "InfModel"; "OptimizationWeight"; "OptimizationAzimuth"; "OptimizationZenith";
           "OptimizationConditioning"; "NumberReconstructedLayers"; "AoArea"]);
   ("sensor_science", ["PixelScale"; "FieldOfView"; "Name"; "Binning"; "SpotFWHM"; "SpectralBandwidth"; "Transmittance"; "Dispersion"; "NumberPhotons";
                       "Saturation"; "SigmaRON"; "Gain"; "SkyBackground"; "Dark"; "ExcessNoiseFactor"])].
Definition known (s : string) : list string := match lookup known_table s with Some l => l | None => [] end.

(** ** Two sections that agree on the keys of a list *)
Definition agree (l : list string) (s t : section) : Prop := forall k, In k l -> lookup s k = lookup t k.
Lemma agree_assign l s k v : ~ In k l -> agree l (assign s k v) s.
Proof. intros N k' H. rewrite lookup_assign. destruct (String.eqb_spec k k'); [subst; contradiction|reflexivity]. Qed.
Lemma agree_opt l s t k d : agree l s t -> In k l -> opt s k d = opt t k d.
Proof. intros A H. unfold opt. now rewrite (A k H). Qed.
Lemma agree_req l s t k : agree l s t -> In k l -> M_Config.req s k = M_Config.req t k.
Proof. intros A H. unfold M_Config.req. now rewrite (A k H). Qed.
Lemma agree_path l e s t k d : agree l s t -> In k l -> path_key e s k d = path_key e t k d.
Proof. intros A H. unfold path_key. now rewrite (A k H). Qed.
Lemma agree_plain l s t p : agree l s t -> (forall kd, In kd p -> In (fst kd) l) -> plain s p = plain t p.
Proof. intros A H. unfold plain. apply map_ext_in. intros kd Hk. now rewrite (agree_opt l s t (fst kd) (snd kd) A (H kd Hk)). Qed.
Ltac inl := cbn [In known lookup known_table String.eqb Ascii.eqb Bool.eqb]; repeat (first [left; reflexivity | right]).
Ltac agr A := repeat match goal with
  | |- context [opt ?s ?k ?d] => match type of A with agree ?l ?s0 ?t => constr_eq s s0; rewrite (agree_opt l s t k d A) by inl end
  | |- context [M_Config.req ?s ?k] => match type of A with agree ?l ?s0 ?t => constr_eq s s0; rewrite (agree_req l s t k A) by inl end
  | |- context [path_key ?e ?s ?k ?d] => match type of A with agree ?l ?s0 ?t => constr_eq s s0; rewrite (agree_path l e s t k d A) by inl end
  | |- context [lookup ?s ?k] => match type of A with agree ?l ?s0 ?t => constr_eq s s0; rewrite (A k) by inl end
  end.
Ltac plains A := repeat match goal with
  | |- context [plain ?s ?p] => match type of A with agree ?l ?s0 ?t => constr_eq s s0; rewrite (agree_plain l s t p A);
      [|intros kd Hk; cbn in Hk; repeat (destruct Hk as [Hk|Hk]; [subst kd; inl|]); contradiction] end
  end.

Lemma tel_agree e p s t : agree (known "telescope") s t -> tel_stage e p s = tel_stage e p t.
Proof. intros A. unfold tel_stage. agr A. plains A. reflexivity. Qed.
Lemma atm_agree am s t : agree (known "atmosphere") s t -> atm_stage am s = atm_stage am t.
Proof. intros A. unfold atm_stage. agr A. reflexivity. Qed.
Lemma ho_agree am b s t : agree (known "sources_HO") s t -> ho_stage am b s = ho_stage am b t.
Proof. intros A. unfold ho_stage. agr A. reflexivity. Qed.
Lemma ho_sensor_agree D s t : agree (known "sensor_HO") s t -> fst (ho_sensor D s) = fst (ho_sensor D t).
Proof.
  intros A. unfold ho_sensor. cbv zeta. agr A.
  match goal with |- fst (match ?r with Ok _ => _ | Err _ => _ end) = _ => destruct r as [[a nph]|]; [|reflexivity] end.
  cbn [fst]. agr A. plains A. reflexivity.
Qed.
Lemma lo_sensor_agree D s t : agree (known "sensor_LO") s t -> fst (lo_sensor D s) = fst (lo_sensor D t).
Proof.
  intros A. unfold lo_sensor. cbv zeta. agr A.
  match goal with |- fst (match ?r with Ok _ => _ | Err _ => _ end) = _ => destruct r as [[a nph]|]; [|reflexivity] end.
  cbn [fst]. agr A. plains A. reflexivity.
Qed.
Lemma rtc_agree s t : agree (known "RTC") s t -> rtc_stage s = rtc_stage t.
Proof. intros A. unfold rtc_stage. agr A. reflexivity. Qed.
Lemma dm_agree tf D s t : agree (known "DM") s t -> dm_stage tf D s = dm_stage tf D t.
Proof. intros A. unfold dm_stage. agr A. plains A. reflexivity. Qed.
Lemma fov_agree e am satm satm' a wvl ps pitch s t : agree (known "sensor_science") s t -> agree (known "atmosphere") satm satm' ->
  get_fov e am satm a wvl ps pitch s = get_fov e am satm' a wvl ps pitch t.
Proof. intros A B. unfold get_fov, auto_fov. agr A. agr B. reflexivity. Qed.

Lemma in_known_section s k : In k (known s) -> In s (map fst known_table).
Proof.
  unfold known. intros H. destruct (lookup known_table s) as [l|] eqn:E; [|contradiction]. clear H k. revert E.
  induction known_table as [|[a x] r IH]; cbn; [discriminate|]. destruct (String.eqb_spec a s); [now left|]. intros E. right. now apply IH.
Qed.

(** two files with the same sections that agree on every known key of every section build the same system, or are refused alike *)
Lemma known_ext e ar c f : (forall s', has_sec f s' = has_sec c s') -> (forall s', agree (known s') (sec f s') (sec c s')) ->
  fst (aoSystem e ar f) = fst (aoSystem e ar c).
Proof.
  intros F G.
  pose proof (G "COMPUTATION") as G0. pose proof (G "telescope") as G1. pose proof (G "atmosphere") as G2. pose proof (G "sources_HO") as G3.
  pose proof (G "sources_LO") as G4. pose proof (G "sources_science") as G5. pose proof (G "sensor_HO") as G6. pose proof (G "sensor_LO") as G7.
  pose proof (G "RTC") as G8. pose proof (G "DM") as G9. pose proof (G "sensor_science") as G10.
  assert (HC : core_of e f = core_of e c).
  { unfold core_of, precision_of, lo_stage, req_sec. rewrite !F. agr G0. unfold get_raw.
    destruct (has_sec c "telescope"); [|reflexivity]. cbn [bind]. rewrite (tel_agree _ _ _ _ G1).
    destruct (tel_stage _ _ _) as [t|]; [|reflexivity]. cbn [bind]. destruct (airmass_of _) as [am|]; [|reflexivity]. cbn [bind].
    destruct (has_sec c "atmosphere"); [|reflexivity]. cbn [bind]. rewrite (atm_agree _ _ _ G2). destruct (atm_stage _ _) as [a|]; [|reflexivity]. cbn [bind].
    destruct (has_sec c "sources_HO"); [|reflexivity]. cbn [bind]. rewrite (ho_agree _ _ _ _ G3). destruct (ho_stage _ _ _) as [g|]; [|reflexivity]. cbn [bind].
    agr G4. reflexivity. }
  unfold aoSystem. rewrite HC. destruct (core_of e c) as [kk|]; [|reflexivity]. cbv zeta. cbn [fst].
  replace (fst (configLO_SC e ar kk f)) with (fst (configLO_SC e ar kk c)); [reflexivity|]. symmetry.
  apply conf_fst_ext; rewrite ?F; try reflexivity.
  - unfold science_stage, req_sec. rewrite F. destruct (has_sec c "sources_science"); [|reflexivity]. cbn [bind]. agr G5. unfold get_raw.
    rewrite !has_lookup. agr G4. reflexivity.
  - intros D. now apply ho_sensor_agree.
  - intros D. now apply lo_sensor_agree.
  - now apply rtc_agree.
  - intros tf D. now apply dm_agree.
  - intros c1 d1 ex am a wvl pitch S1 S2.
    destruct (S1 "atmosphere") as [A1 _]; [cbn; auto|]. destruct (S1 "sensor_science") as [A2 A3]; [cbn; auto|].
    destruct (S2 "atmosphere") as [B1 _]; [cbn; auto|]. destruct (S2 "sensor_science") as [B2 B3]; [cbn; auto|].
    unfold cam_stage, req_sec. rewrite A2, A3, B1, B2, B3, A1, F. destruct (has_sec c "sensor_science"); [|reflexivity]. cbn [bind]. agr G10.
    destruct (M_Config.req _ _) as [ps|]; [|reflexivity]. cbn [bind]. destruct (as_sol ps) as [psn|]; [|reflexivity]. cbn [bind].
    rewrite (fov_agree e am _ _ a wvl psn pitch _ _ G10 G2). destruct (get_fov _ _ _ _ _ _ _ _) as [f0|]; [|reflexivity]. cbn [bind].
    destruct (expand_fov _ _ _) as [f1|]; [|reflexivity]. cbn [bind]. destruct (len_val _) as [n1|]; [|reflexivity]. cbn [bind].
    destruct (disp_len _) as [n2|]; [|reflexivity]. cbn [bind]. destruct (negb _); [reflexivity|]. cbn [bind fst]. plains G10. reflexivity.
Qed.
(** C136: an entry whose name (case included) the section does not know, or in a section that is not known, never changes the outcome: same system, or
    the same refusal. *)
Theorem C136_unknown_key_ignored : forall e ar c s k v, ~ In k (known s) -> fst (aoSystem e ar (with_key c s k v)) = fst (aoSystem e ar c).
Proof.
  intros e ar c s k v N. destruct (has_sec c s) eqn:HS; [|now rewrite with_absent_section].
  apply known_ext; [intros; apply has_with|].
  intros s'. rewrite sec_with by assumption. destruct (String.eqb_spec s s'); [subst; now apply agree_assign|intros ? ?; reflexivity].
Qed.
(** hence a misspelt optional key silently leaves the default: here three misspellings *)
Theorem C136_misspelt : forall e ar c v,
  fst (aoSystem e ar (with_key c "telescope" "PupilAngel" v)) = fst (aoSystem e ar c) /\
  fst (aoSystem e ar (with_key c "atmosphere" "l0" v)) = fst (aoSystem e ar c) /\
  fst (aoSystem e ar (with_key c "sensor_LO" "ThresholdWCoG" v)) = fst (aoSystem e ar c).
Proof. intros. repeat split; apply C136_unknown_key_ignored; intros H; cbn in H; intuition discriminate. Qed.

Print Assumptions C136_unknown_key_ignored.
Print Assumptions C136_misspelt.
