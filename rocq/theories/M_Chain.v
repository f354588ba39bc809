(** Model of the whole computation made by fourierModel(path, ao=system) for an AO
    system with one natural guide star and a closed loop: from the AO system
    object to the PSF cube (p3/aoSystem/fourierModel.py:161-325 initComputations,
    767-927 powerSpectrumDensity, 1302-1307 phaseStructureFunction, 1738-1768
    point_spread_function). Every stage is the definition of the model of that
    stage: M_Freq (frequency domain), M_Driver (initialisation), M_Model
    (reconstructor, controller, contributions), M_Model2 (assembly), M_Fourier
    (structure function), M_Call (PSF).
    Scope: no laser guide star, one natural guide star, loop gain different from
    zero, normalizePSD=False, TiltFilter=False, getPSDatNGSpositions=False,
    windPsdFile=0, nyquistSampling=False, freq not given; telescope OTFs (static
    and diffraction limited) are arguments. Floats are exact reals. *)
From Coq Require Import Reals List Arith ZArith Bool String.
From Flocq Require Import Core.Raux.
From Verif Require Import Base_Py Base_Sum M_Image M_Fourier M_Tools M_Atmo M_Sensor M_Source M_Freq M_Model M_Model2 M_Psf M_Call M_Driver M_Config.
Import ListNotations.
Open Scope R_scope.

(** What is outside of the program: refractive index of the air (M_Air), Bessel
    function J1, Gamma and Bessel K values. *)
Record world := mkWorld { wd_nair : R -> result R; wd_j1 : R -> R; wd_sp : special }.
(** Constructor arguments: MV, psdExpansion, addOtfPixel (fourierModel.py:60-66). *)
Record options := mkOptions { op_MV : R; op_expand : bool; op_pixel : bool }.
(** The attributes of the AO system object read by the computation: the part read by
    the initialisation; telescope diameter, zenith angle, extra error; science sources;
    DM pitches and shape of the corrected area; loop (gain, rate, delay); wavefront
    sensor modulation and binning; camera: field of view (pixels), pixel scale, number of
    spectral bins, bandwidth, spotFWHM[0], transmittance, dispersion. *)
Record scao := mkScao {
  x_ao : aosys; x_D : R; x_zenith : R; x_extraNm : R; x_src : source;
  x_pitch : list R; x_circle : bool; x_loop : loop; x_modul : R; x_bin : R;
  x_nPix : Z; x_ps : R; x_nBin : nat; x_bw : R; x_spot : list R; x_trans : list R; x_dispx : list R; x_dispy : list R }.
(** The telescope: static OTF at channel j for given static parameters, OTF stored in
    the frequency object at construction, diffraction-limited OTF. *)
Record optics := mkOptics { tp_static : nat -> option (list R) -> img; tp_stored : img; tp_dl : img }.

(** fourierModel.py:1185, 1257: Hs = heights*strechFactor *)
Definition stretched (h : list R) (s : sol R) : result (list R) :=
  match s with Scal x => Ok (map (fun a => a * x) h) | Lst l => bmul h l end.
(** fourierModel.py:662-663 wind vector of each layer; 664, 716, 1034, 1261: layers are
    taken by index in weights, heights and wind.
    Simplification: arrays of different lengths are refused at once. *)
Definition layers_of (a : atmo) (s : sol R) : result (list lay) :=
  do hs <- stretched (a_h a) s;
  let n := List.length (a_w a) in
  let v := spread n (a_v a) in let d := spread n (a_d a) in
  if ((List.length hs =? n) && (List.length v =? n) && (List.length d =? n))%nat%bool
  then Ok (map (fun q : (R * R) * (R * R) =>
                  mkLay (fst (fst q)) (snd (fst q)) (fst (snd q) * cos (snd (snd q) * PI / 180)) (fst (snd q) * sin (snd (snd q) * PI / 180)))
               (combine (combine (a_w a) hs) (combine v d)))
  else Err ValueError.
(** the noise variances after the initialisation (fourierModel.py:268-271: an array) *)
Definition noise_list (n : noise_attr) : list R := match n with NoiseNone => [] | NoiseList l => l | NoiseArr l => l end.
(** frequencyDomain.py:46-50: offset 1e-10 of the frequency arrays *)
Definition offset : R := / 10 ^ 10.

(** The state of the model after line 278 (fourierModel.py:165-278), as read by the
    reconstructor, the controller and the PSD functions. [optics[0]] of the sensor:
    fourierModel.py:427-446 dsub and nL of the first sensor. *)
Definition fsys_of (w : world) (x : scao) (fd : fdomain) (kcMax : R) (res : nat) (ao : aosys) (dr : drv) : result fsys :=
  do ls <- layers_of (ao_atm ao) (dr_stretch dr);
  do o <- pyindex (s_opt (ao_wfs ao)) 0;
  do gw <- pyindex (so_wvl (dr_gs dr)) 0;
  Ok (mkSys res (fd_PSDstep fd) offset kcMax (x_circle x) (x_D x) (wd_j1 w) (wd_sp w) (ao_atm ao) ls
        (s_type (ao_wfs ao)) (o_dsub o) (IZR (o_nL o)) (x_modul x) (x_bin x) (map d_clock (s_det (ao_wfs ao)))
        (noise_list (ao_noise ao)) gw (lp_gain (x_loop x)) (lp_rate (x_loop x)) (lp_delay (x_loop x))).

(** fourierModel.py:1176-1182: src.direction[:, s] - gs.direction[:, 0] *)
Definition dir_diff (ds dg : list R * list R) (s : nat) : result (R * R) :=
  do a <- pyindex (fst ds) (Z.of_nat s); do b <- pyindex (snd ds) (Z.of_nat s);
  do c <- pyindex (fst dg) 0; do d <- pyindex (snd dg) 0; Ok (a - c, b - d).
(** fourierModel.py:1264-1268 *)
Definition refr_angle (dr : drv) (zenith : R) : R := (dr_n_ref dr - dr_n_gs dr) * tan (zenith * PI / 180).

(** The contributions evaluated on the grids: controller(nTh=1, nF=1000)
    (fourierModel.py:652), chunks of at most 5 layers (1007), nTimes (frequencyDomain.py:79-82). *)
Definition src_map (n : nat) (f : nat -> result (list (list R))) : result (list (list (list R))) := M_Tools.mapM f (seq 0 n).
Definition at_src (l : list (list (list R))) (s i j : nat) : R := grid_at (nth s l []) i j.
Definition parts_of (x : scao) (MV : R) (nOtf : nat) (nT : nat) (y : fsys) (dr : drv) : result parts :=
  let r := y_res y in let nS := so_nSrc (x_src x) in
  do noise <- grid_res r (fun i j => noisePSD y MV 1 1000 i j);
  do alias <- grid_res r (fun i j => aliasingPSD y MV 5 1 1000 nT i j);
  do diff <- src_map nS (fun s => do az <- pyindex (so_az (x_src x)) (Z.of_nat s);
      grid_res r (fun i j => differentialRefractionPSD y (x_zenith x) (refr_angle dr (x_zenith x)) az
                               (fun a b => arctan2 (kyAO y a b) (kxAO y a b)) i j));
  do chrom <- grid_res r (fun i j => chromatismPSD y (dr_n_gs dr) (dr_n_ref dr) i j);
  do ds <- direction (x_src x);
  do dg <- direction (dr_gs dr);
  do st <- src_map nS (fun s => do t <- dir_diff ds dg s;
      grid_res r (fun i j => spatioTemporalPSD y MV 1 1000 (fst t) (snd t) i j));
  do fit <- grid_res nOtf (fun a b => fittingPSD y (freq_x nOtf (y_step y) (y_off y) a b) (freq_y nOtf (y_step y) (y_off y) a b));
  Ok (mkParts (fun _ => grid_at noise) (grid_at alias) (at_src diff) (fun _ => grid_at chrom) (at_src st)
        (fun _ _ => 0) (fun _ _ _ _ => 0) (grid_at fit) (fun _ _ => 0) (fun _ _ => 0) (fun _ _ => 0) (LoMany [])).

(** fourierModel.py:772-773 and the options in scope *)
Definition cfg_of (x : scao) (fd : fdomain) (kcMax : R) (res : nat) : result psdcfg :=
  do dk <- dk_step kcMax (Z.of_nat res);
  Ok (mkPC (fd_nOtf fd) (Z.of_nat res) (so_nSrc (x_src x)) 1 0 false None false false (x_extraNm x) false 0 0 dk
        (fd_wvlRef fd * 10 ^ 9 / 2 / PI)).

(** sf_3D_to_psf_4D, FourierUtils.py:540-545: squared normalisation of the jitter at a
    channel: (samp*D/wvl/rad2mas)^2 * (2*sqrt(2*ln 2))^2 *)
Definition jit_norm2 (samp D w : R) : R := (samp * D / w / M_Freq.rad2mas) ^ 2 * (2 * sqrt (2 * ln 2)) ^ 2.
Definition base_of (x : scao) (fd : fdomain) : list (R * nat * R) :=
  map (fun q : (R * Z) * R => (fst (fst q), Z.to_nat (snd (fst q)), jit_norm2 (snd q) (x_D x) (fst (fst q))))
      (combine (combine (fd_wvl fd) (fd_k fd)) (fd_samp fd)).
(** the labels of fourierModel.py:97-100 and the object description *)
Definition inst_of (x : scao) (nwvl : nat) : psf_inst :=
  mkInst 0 (List.length (a_w (ao_atm (x_ao x)))) (match ao_nRec (x_ao x) with Some n => n | None => 0%nat end) 0 true (x_spot x)
    (so_nSrc (x_src x)) nwvl (List.length (so_wvl (x_src x))) (x_trans x) (x_dispx x) (x_dispy x).

(** The result: the model attributes wvl, PSD, SF, (PSF, SR), the AO system afterwards. *)
Record run := mkRun {
  r_ao : aosys; r_wvl : list R; r_n : nat; r_res : nat; r_psd : list (list (list R)); r_sf : list img;
  r_psf : list (list img * list R) }.

(** fourierModel.py:161-325 *)
Definition chain (w : world) (op : options) (tp : optics) (x : scao) : result run :=
  do wv <- create_wavelength_vector (so_wvl (x_src x)) (x_nBin x) (x_bw x);
  do fd <- make_fdomain (so_wvl (x_src x)) (x_nBin x) (x_bw x) false (op_expand op) (x_ps x) (x_D x) (x_nPix x);
  let kc := cutoffs None (x_pitch x) in
  do kcMax <- rlist_max kc;
  do res <- resAO kc (fd_PSDstep fd);
  let r := Z.to_nat res in let n := Z.to_nat (fd_nOtf fd) in
  do i <- initComputations (wd_nair w) (mkFdom kc kcMax (fd_psInMas fd) (fd_nOtf fd) (fd_wvlRef fd)) (x_ao x);
  match snd i with
  | None => Err AttributeError
  | Some dr =>
      do y <- fsys_of w x fd kcMax r (fst i) dr;
      do p <- parts_of x (op_MV op) n (Z.to_nat (nTimes (fd_nOtf fd) res)) y dr;
      do c <- cfg_of x fd kcMax r;
      do psd <- src_map (so_nSrc (x_src x)) (fun s => grid_res n (fun a b => powerSpectrumDensity c p s a b));
      do sf <- M_Tools.mapM (fun g => phaseStructureFunction (mkImg n n (grid_at g))) psd;
      do out <- point_spread_function
                  (mkFmod (inst_of x (snd wv)) n (Z.to_nat (fd_kRef fd)) (Z.to_nat (x_nPix x)) false (base_of x fd)
                     (tp_static tp) (tp_dl tp) (map px sf))
                  (op_pixel op) (tp_stored tp) [] None;
      Ok (mkRun (fst i) (fst wv) n r psd sf (fst out))
  end.
