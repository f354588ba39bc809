(** The AO system object built from a parameter file (M_Config) as the input of the
    computation of M_Chain: which attribute each quantity comes from. *)
From Coq Require Import Reals List Arith ZArith Bool String.
From Flocq Require Import Core.Raux.
From Verif Require Import Base_Py M_Image M_Tools M_Atmo M_Sensor M_Source M_Freq M_Model M_Model2 M_Driver M_Config M_Chain.
Import ListNotations.
Open Scope R_scope.
Open Scope string_scope.

Definition attr (l : list (string * pval)) (k : string) : result pval := match lookup l k with Some v => Ok v | None => Err AttributeError end.
(** aoSystem.py:596-607 processing.noiseVar: the list [None] or a list of numbers
    (fourierModel.py:259 compares with [None]) *)
Definition noise_value (v : pval) : result noise_attr :=
  match v with PList [PNone] => Ok NoiseNone | _ => do l <- as_nums v; Ok (NoiseList l) end.
(** a scalar pixel scale (aoSystem.py:749-753). Simplification: a list of one pixel scale per
    wavelength is outside of the scope of M_Chain. *)
Definition scale_value (s : sol R) : result R := match s with Scal x => Ok x | Lst _ => Err TypeError end.
(** the two rows of the dispersion, the first row of spotFWHM (aoSystem.py:775-811) *)
Definition row_of (v : pval) (i : Z) : result (list R) := do l <- as_list v; do r <- pyindex l i; as_nums r.
(** The attributes read by the computation (aoSystem.py:170-334 telescope, 346-393 atmosphere,
    395-436 guide stars, 439-475 science sources, 477-612 sensor, 615-656 real-time computer,
    659-742 mirrors, 744-824 camera). The camera keys only stored are read again in the
    section kept by the model. Simplifications: Modulation None is read as 0 (used by the
    pyramid only); NumberReconstructedLayers is truncated to a natural number. *)
Definition read_system (c' : cfg) (y : system) : result scao :=
  let k := M_Config.y_core y in let s := y_sci y in let cam := sec c' "sensor_science" in
  do xv <- attr (t_attr (c_tel k)) "extraErrorNm"; do xnm <- as_num xv;
  do nv <- attr (w_attr (s_wfs s)) "NoiseVariance"; do noise <- noise_value nv;
  do mv <- attr (w_attr (s_wfs s)) "Modulation"; do md <- as_onum mv;
  do bv <- attr (w_attr (s_wfs s)) "Binning"; do bin <- as_num bv;
  do av <- attr (dd_attr (s_dms s)) "AoArea"; do area <- as_str av;
  do wv <- attr (k_attr (s_cam s)) "SpectralBandwidth"; do bw <- as_num wv;
  do pv <- attr (k_attr (s_cam s)) "SpotFWHM"; do spot <- row_of pv 0;
  do trans <- as_nums (opt cam "Transmittance" (PList [PNum 1]));
  do dx <- row_of (opt cam "Dispersion" (PList [PList [PNum 0]; PList [PNum 0]])) 0;
  do dy <- row_of (opt cam "Dispersion" (PList [PList [PNum 0]; PList [PNum 0]])) 1;
  do ps <- scale_value (k_ps (s_cam s));
  Ok (mkScao (mkAO false (c_atm k) (g_lgs (c_stars k)) (g_ngs (c_stars k)) (Some (Z.to_nat (Zfloor (dd_nrec (s_dms s))))) (w_sensor (s_wfs s)) noise)
        (t_D (c_tel k)) (t_zen (c_tel k)) xnm (s_src s) (dm_pitch (dd_dm (s_dms s))) (String.eqb area "circle") (holoop (s_rtc s))
        (match md with Some m => m | None => 0 end) bin (k_fov (s_cam s)) ps (k_ntr (s_cam s)) bw spot trans dx dy).
(** fourierModel.py:85-160: the AO system is built from the file, then initComputations *)
Definition simulate (e : env) (ar : args) (w : world) (op : options) (tp : optics) (c : cfg) : result run :=
  match aoSystem e ar c with
  | (Ok y, c') => do x <- read_system c' y; chain w op tp x
  | (Err er, _) => Err er
  end.
