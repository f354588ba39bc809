(** Specification vocabulary for the parameter file of an AO system
    (README/aoSystem documentation), independent of the code's structure. *)
From Coq Require Import Reals List Arith ZArith String Bool.
From Verif Require Import Base_Py M_Config.
Import ListNotations.
Open Scope R_scope.
Open Scope string_scope.

(** [entry c s k v]: the file has a section [s] in which key [k] has value [v] *)
Definition entry (c : cfg) (s k : string) (v : pval) : Prop :=
  exists t, lookup c s = Some t /\ lookup t k = Some v.
Definition present (c : cfg) (s k : string) : Prop := exists v, entry c s k v.
Definition absent (c : cfg) (s k : string) : Prop := forall v, ~ entry c s k v.
Definition section_present (c : cfg) (s : string) : Prop := exists t, lookup c s = Some t.

(** The documented mandatory keys *)
Definition mandatory : list (string * string) :=
  [("telescope", "TelescopeDiameter"); ("sources_HO", "Wavelength"); ("sources_science", "Wavelength");
   ("sensor_HO", "PixelScale"); ("sensor_HO", "FieldOfView"); ("DM", "DmPitchs");
   ("sensor_science", "PixelScale"); ("sensor_science", "FieldOfView")].
Definition mandatory_sections : list string :=
  ["telescope"; "atmosphere"; "sources_HO"; "sources_science"; "sensor_HO"; "DM"; "sensor_science"].
(** mandatory once the (optional) section is there *)
Definition mandatory_if_section : list (string * string) :=
  [("sources_LO", "Wavelength"); ("sensor_LO", "PixelScale"); ("sensor_LO", "FieldOfView")].

(** The documented default of each optional key *)
Definition default_table : list (string * list (string * pval)) :=
  [("COMPUTATION",
     [("precision", PStr "double")]);
   ("telescope",
     [("PathPupil", PStr "");
      ("PathApodizer", PStr "");
      ("PathStatModes", PStr "");
      ("ZenithAngle", PNum 0);
      ("ObscurationRatio", PNum 0);
      ("Resolution", PInt 256);
      ("PupilAngle", PNum 0);
      ("zCoefStaticOn", PList []);
      ("extraErrorNm", PInt 0);
      ("extraErrorExp", PInt (-2));
      ("extraErrorMin", PInt 0);
      ("extraErrorMax", PInt 0);
      ("extraErrorLoMin", PInt 0);
      ("extraErrorLoMax", PInt 0);
      ("TechnicalFoV", PInt 0)]);
   ("atmosphere",
     [("Wavelength", PNum (500 / 10 ^ 9));
      ("L0", PInt 25);
      ("Cn2Weights", PList [PNum 1]);
      ("Cn2Heights", PList [PNum 0]);
      ("WindSpeed", PList [PNum 10])]);
   ("sources_HO",
     [("Zenith", PList [PNum 0]);
      ("Azimuth", PList [PNum 0]);
      ("Height", PNum 0)]);
   ("sources_science",
     [("Zenith", PList [PNum 0]);
      ("Azimuth", PList [PNum 0])]);
   ("sensor_HO",
     [("Binning", PInt 1);
      ("SpotFWHM", PList [PList [PNum 0; PNum 0]]);
      ("SigmaRON", PNum 0);
      ("Gain", PInt 1);
      ("SkyBackground", PNum 0);
      ("Dark", PNum 0);
      ("ExcessNoiseFactor", PNum 1);
      ("SpectralBandwidth", PNum 0);
      ("Transmittance", PList [PNum 1]);
      ("Dispersion", PList [PList [PNum 0]; PList [PNum 0]]);
      ("WfsType", PStr "Shack-Hartmann");
      ("NumberLenslets", PList [PInt 20]);
      ("Modulation", PNone);
      ("Algorithm", PStr "wcog");
      ("WindowRadiusWCoG", PNum 5);
      ("ThresholdWCoG", PNum 0);
      ("NewValueThrPix", PNum 0);
      ("addMcaoWFsensConeError", PBool false);
      ("NumberPhotons", PList [PInf]);
      ("NoiseVariance", PList [PNone])]);
   ("sensor_LO",
     [("NoiseVariance", PList [PNone]);
      ("Binning", PInt 1);
      ("SpotFWHM", PList [PList [PNum 0; PNum 0]]);
      ("NumberPhotons", PInf);
      ("SigmaRON", PNum 0);
      ("Gain", PInt 1);
      ("SkyBackground", PNum 0);
      ("Dark", PNum 0);
      ("ExcessNoiseFactor", PNum 1);
      ("SpectralBandwidth", PNum 0);
      ("Transmittance", PList [PNum 1]);
      ("Dispersion", PList [PList [PNum 0]; PList [PNum 0]]);
      ("NumberLenslets", PList [PInt 1]);
      ("Algorithm", PStr "wcog");
      ("WindowRadiusWCoG", PNum 1);
      ("NewValueThrPix", PNum 0)]);
   ("RTC",
     [("LoopGain_HO", PNum (1 / 2));
      ("SensorFrameRate_HO", PNum 500);
      ("LoopDelaySteps_HO", PInt 2);
      ("LoopGain_LO", PNone);
      ("LoopGain_LO", PStr "optimize");
      ("SensorFrameRate_LO", PNone);
      ("LoopDelaySteps_LO", PNone);
      ("ResidualError", PNone)]);
   ("DM",
     [("InfModel", PStr "gaussian");
      ("InfCoupling", PList [PNum (2 / 10)]);
      ("OptimizationWeight", PList [PNum 0]);
      ("OptimizationAzimuth", PList [PNum 0]);
      ("OptimizationZenith", PList [PNum 0]);
      ("OptimizationConditioning", PNum 100);
      ("NumberReconstructedLayers", PInt 10);
      ("AoArea", PStr "circle")]);
   ("sensor_science",
     [("Name", PStr "SCIENCE CAM");
      ("Binning", PInt 1);
      ("SpotFWHM", PList [PList [PNum 0; PNum 0; PNum 0]]);
      ("SpectralBandwidth", PNum 0);
      ("Transmittance", PList [PNum 1]);
      ("Dispersion", PList [PList [PNum 0]; PList [PNum 0]]);
      ("NumberPhotons", PInf);
      ("Saturation", PInf);
      ("SigmaRON", PNum 0);
      ("Gain", PInt 1);
      ("SkyBackground", PNum 0);
      ("Dark", PNum 0);
      ("ExcessNoiseFactor", PNum 1)])].
Definition defaults (s : string) : list (string * pval) := match lookup default_table s with Some l => l | None => [] end.

(** [number v x]: v is the number x (booleans count as 0/1) *)
Inductive number : pval -> R -> Prop :=
| num_int z : number (PInt z) (IZR z) | num_num r : number (PNum r) r
| num_true : number (PBool true) 1 | num_false : number (PBool false) 0.
(** [numbers v l]: v is the list of numbers l *)
Definition numbers (v : pval) (l : list R) : Prop := exists m, v = PList m /\ Forall2 number m l.
(** the value of a key, or its default *)
Definition value (c : cfg) (s k : string) (d : pval) (v : pval) : Prop :=
  entry c s k v \/ (absent c s k /\ v = d).
(** the length of a list-valued key (with its default) is n *)
Definition list_length (c : cfg) (s k : string) (d : pval) (n : nat) : Prop :=
  exists m, value c s k d (PList m) /\ length m = n.
Definition Rsum (l : list R) : R := fold_right Rplus 0 l.

(** A valid parameter file: what the documentation requires *)
Record valid (e : env) (c : cfg) : Prop := {
  v_sections : forall s, In s mandatory_sections -> section_present c s;
  v_keys : forall s k, In (s, k) mandatory -> present c s k;
  v_keys_if : forall s k, In (s, k) mandatory_if_section -> section_present c s -> present c s k;
  v_strength : present c "atmosphere" "Seeing" \/ present c "atmosphere" "r0_value";
  v_zenith : forall v, value c "telescope" "ZenithAngle" (PNum 0) v -> exists z, number v z /\ z < 90;
  v_diameter : exists v D, entry c "telescope" "TelescopeDiameter" v /\ number v D;
  v_weights : exists v w, value c "atmosphere" "Cn2Weights" (PList [PNum 1]) v /\ numbers v w /\ Rabs (Rsum w - 1) <= 1 / 1000;
  v_profile : exists n, list_length c "atmosphere" "Cn2Weights" (PList [PNum 1]) n
      /\ list_length c "atmosphere" "Cn2Heights" (PList [PNum 0]) n
      /\ list_length c "atmosphere" "WindSpeed" (PList [PNum 10]) n
      /\ (forall v, entry c "atmosphere" "WindDirection" v -> exists m, v = PList m /\ length m = n);
  v_ho : exists n, list_length c "sources_HO" "Zenith" (PList [PNum 0]) n /\ list_length c "sources_HO" "Azimuth" (PList [PNum 0]) n;
  v_lo : section_present c "sources_LO" -> exists n,
      (exists m, entry c "sources_LO" "Zenith" (PList m) /\ length m = n) /\
      (exists m, entry c "sources_LO" "Azimuth" (PList m) /\ length m = n);
  v_dm : exists n, (exists m, entry c "DM" "DmPitchs" (PList m) /\ length m = n)
      /\ (forall v, entry c "DM" "DmHeights" v -> exists m, v = PList m /\ length m = n)
      /\ (absent c "DM" "DmHeights" -> n = 1%nat)
      /\ (forall v, entry c "DM" "NumberActuators" v -> exists m, v = PList m /\ length m = n);
  v_opt : exists n, list_length c "DM" "OptimizationZenith" (PList [PNum 0]) n
      /\ list_length c "DM" "OptimizationAzimuth" (PList [PNum 0]) n
      /\ list_length c "DM" "OptimizationWeight" (PList [PNum 0]) n;
  v_precision : forall v, entry c "COMPUTATION" "precision" v -> exists s, v = PStr s /\ (lower s = "single" \/ lower s = "double");
  v_files : forall k p, In k ["PathPupil"; "PathStaticOn"; "PathStaticOff"; "PathStaticPos"; "PathApodizer"; "PathStatModes"; "windPsdFile"] ->
      entry c "telescope" k (PStr p) ->
      resolve_config_path (e_isfile e) p (e_root e) (e_p3 e) (e_tiptop e) = "" \/
      e_isfile e (resolve_config_path (e_isfile e) p (e_root e) (e_p3 e) (e_tiptop e)) = true;
  (* one dispersion value per transmission value, in the camera and in every
     wavefront sensor with at least one arm *)
  v_spectral : forall s, In s ["sensor_HO"; "sensor_LO"; "sensor_science"] -> section_present c s ->
      (s = "sensor_science" \/ exists x l, value c s "NumberLenslets" (PList [PInt (if String.eqb s "sensor_HO" then 20 else 1)]) (PList (x :: l))) ->
      exists n d r, list_length c s "Transmittance" (PList [PNum 1]) n
        /\ value c s "Dispersion" (PList [PList [PNum 0]; PList [PNum 0]]) (PList (PList d :: r)) /\ length d = n }.

(** a file without one entry / without one section *)
Fixpoint rm {A} (k : string) (l : list (string * A)) : list (string * A) :=
  match l with [] => [] | (k', v) :: r => if String.eqb k' k then rm k r else (k', v) :: rm k r end.
Definition without_key (c : cfg) (s k : string) : cfg :=
  map (fun p => if String.eqb (fst p) s then (fst p, rm k (snd p)) else p) c.
Definition without_section (c : cfg) (s : string) : cfg := rm s c.
(** a file with the entry [s].[k] set to v *)
Definition with_key (c : cfg) (s k : string) (v : pval) : cfg :=
  map (fun p => if String.eqb (fst p) s then (fst p, assign (snd p) k v) else p) c.
