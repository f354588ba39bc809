(** Model of the driver of fourierModel: initComputations (fourierModel.py:161-325)
    up to the PSD computation, and getPsfMetrics (lines 1781-1813).
    Simplifications: floats are exact reals; the computation of the frequency
    domain and of the refractive index of the air are arguments (modelled in
    M_Freq and M_Air); timers, printing and display are ignored. *)
From Coq Require Import Reals List Arith ZArith Bool.
From Verif Require Import Base_Py M_Image M_Tools M_Atmo M_Sensor M_Source M_Freq M_Metric.
Import ListNotations.
Open Scope R_scope.

(** ao.wfs.processing.noiseVar: the list [None], a list of numbers, or an array. *)
Inductive noise_attr : Type := NoiseNone | NoiseList (l : list R) | NoiseArr (l : list R).

(** The attributes of the AO system object read or written by initComputations. *)
Record aosys := mkAO {
  ao_error : bool; ao_atm : atmo; ao_lgs : option source; ao_ngs : option source;
  ao_nRec : option nat; ao_wfs : sensor; ao_noise : noise_attr }.

(** The attributes of the frequency domain read here: kc_ , kcMax_, psInMas,
    nOtf, wvlRef. kcInMas is a property (frequencyDomain.py:71-75): it is
    recomputed from the CURRENT wavelength of the atmosphere (M_Freq.fov_check). *)
Record fdom := mkFdom { f_kc : list R; f_kcMax : R; f_ps : list R; f_nOtf : Z; f_wvlRef : R }.

(** The attributes set by initComputations before the reconstructor. *)
Record drv := mkDrv {
  dr_gs : source; dr_nGs : nat; dr_stretch : sol R; dr_n_ref : R; dr_n_gs : R;
  dr_stretch_mod : sol R; dr_mod : atmo; dr_Wn : R }.

(** line 184: 1.0/(1.0 - heights/H), H different from 0 *)
Definition stretch1 (H h : R) : result R := rdiv 1 (1 - h / H).
(** line 222: same expression without the test on H. NumPy: h/0 is an infinity
    for h different from 0, and 1/(1 - inf) = -0; 0/0 is nan. *)
Definition stretch1_mod (H h : R) : result R :=
  if Req_EM_T H 0 then (if Req_EM_T h 0 then Err NonFinite else Ok 0) else stretch1 H h.

(** lines 180-190 guide star and stretching factor. Both absent: attribute of None. *)
Definition guide (ao : aosys) : result (source * sol R) :=
  match ao_lgs ao with
  | Some g =>
      do H <- pyindex (so_h g) 0;
      if Req_EM_T H 0 then Ok (g, Scal 1)
      else do l <- mapM (stretch1 H) (a_h (ao_atm ao)); Ok (g, Lst l)
  | None => match ao_ngs ao with Some g => Ok (g, Scal 1) | None => Err AttributeError end
  end.

(** lines 211-220: linspace(min(v), max(v), num): v must be an array of at least
    one element (iteration over a 0-d array: TypeError). *)
Definition wind_line (v : sol R) (n : nat) : result (list R) :=
  match v with
  | Scal _ => Err TypeError
  | Lst [] => Err ValueError
  | Lst (x :: l) => Ok (linspace (fold_left Rmin l x) (fold_left Rmax l x) n)
  end.
(** the L0 attribute passed back to the constructor *)
Definition L0_arg (x : L0attr) : sol xR := match x with LNum v => Scal v | LList v => Lst [v] end.

(** lines 199-240 the modelled atmosphere. [heights_mod = [0.0]] divided by a
    NumPy float is an array, so the list does not raise here. *)
Definition modelled (ao : aosys) (g : source) (st : sol R) : result (atmo * sol R) :=
  let a := ao_atm ao in
  let keep := do m <- atmosphere (a_wvl a) (a_r0 a) (a_w a) (a_h a) (a_v a) (a_d a) (L0_arg (a_L0 a)); Ok (m, st) in
  match ao_nRec ao with
  | None => keep
  | Some n =>
      if (n <? length (a_w a))%nat then
        do e <- eqLayers (5 / 3) (a_w a) (a_h a) n;
        let hm := if (n =? 1)%nat then [0] else snd e in
        do v <- wind_line (a_v a) n;
        do d <- wind_line (a_d a) n;
        do s <- match ao_lgs ao with
                | Some _ => do H <- pyindex (so_h g) 0; do l <- mapM (stretch1_mod H) hm; Ok (Lst l)
                | None => Ok (Scal 1)
                end;
        do m <- atmosphere (a_wvl a) (a_r0 a) (fst e) hm (Lst v) (Lst d) (L0_arg (a_L0 a));
        Ok (m, s)
      else keep
  end.

(** lines 258-270 noise variance. [x == [None]]: true for the list [None], false for
    another list, element-wise for an array (bool of two or more values: ValueError). *)
Definition noise_of (ao : aosys) (g : source) (wvlRef : R) : result (list R) :=
  match ao_noise ao with
  | NoiseNone => do w <- pyindex (so_wvl g) 0; noise_at_wavelength (ao_wfs ao) wvlRef w (a_r0 (ao_atm ao))
  | NoiseList l => Ok l
  | NoiseArr l => if (1 <? length l)%nat then Err ValueError else Ok l
  end.

(** lines 165-278 of initComputations: the AO system object after the call and the
    attributes of the model. [nair]: refractive index. ao.error: nothing is computed
    (None). *)
Definition initComputations (nair : R -> result R) (f : fdom) (ao : aosys) : result (aosys * option drv) :=
  if ao_error ao then Ok (ao, None) else
  do gs <- guide ao;
  let g := fst gs in
  do n1 <- nair (f_wvlRef f);
  do w0 <- pyindex (so_wvl g) 0;
  do n2 <- nair w0;
  do ms <- modelled ao g (snd gs);
  do _ <- fov_check (f_kc f) (a_wvl (ao_atm ao)) (f_ps f) (f_nOtf f);
  do nv <- noise_of ao g (f_wvlRef f);
  do a' <- set_wvl (ao_atm ao) (f_wvlRef f);
  do m' <- set_wvl (fst ms) (f_wvlRef f);
  do Wn <- match nv with [] => Err NonFinite | _ => rdiv (lsum nv / INR (length nv)) ((2 * f_kcMax f) ^ 2) end;
  Ok (mkAO (ao_error ao) a' (ao_lgs ao) (ao_ngs ao) (ao_nRec ao) (ao_wfs ao) (NoiseArr nv),
      Some (mkDrv g (so_nSrc g) (snd gs) n1 n2 (snd ms) m' Wn)).

(** ** getPsfMetrics, lines 1781-1813 *)
(** NumPy: [A[:,n,j] = v] on an axis of length r *)
Definition assign_col (r : nat) (v : list R) : result (list R) :=
  if (length v =? r)%nat then Ok v else match v with [x] => Ok (repeat x r) | _ => Err ValueError end.
(** the three arrays: values by (source, wavelength), sources outermost *)
Record metrics := mkMetrics {
  me_fwhm : list (list (R * R)); me_ens : option (list (list (list R))); me_enc : option (list (list (list R))) }.
Definition over {A} (nSrc nWvl : nat) (f : nat -> nat -> result A) : result (list (list A)) :=
  mapM (fun n => mapM (fun j => f n j) (seq 0 nWvl)) (seq 0 nSrc).
(** [fwhm]: FourierUtils.getFWHM(psf, scale, rebin=1, method='contour', nargout=2).
    Simplification: the three requests are evaluated one after the other over all
    planes instead of inside one loop (only the choice of the exception raised
    first could differ). int(nOtf/2) = nOtf / 2 for a non-negative int. *)
Definition getPsfMetrics (argsort : list R -> list nat) (pa_of : R -> R -> R)
    (fwhm : img -> R -> result (R * R)) (psf : nat -> nat -> img) (nSrc nWvl nOtf : nat) (ps : list R)
    (getEnsquared getEncircled getFWHM : bool) : result metrics :=
  do fw <- (if getFWHM then over nSrc nWvl (fun n j => do s <- pyindex ps (Z.of_nat j); fwhm (psf n j) s)
            else Ok (repeat (repeat (0, 0) nWvl) nSrc));
  do es <- (if getEnsquared then
              do r <- over nSrc nWvl (fun n j => do e <- getEnsquaredEnergy (psf n j); assign_col (nOtf / 2 + 1) (map (fun x => 100 * x) e));
              Ok (Some r)
            else Ok None);
  do ec <- (if getEncircled then
              do p <- radial_profile argsort pa_of (psf 0%nat 0%nat) 1 None None None NormNone None;
              do r <- over nSrc nWvl (fun n j => do e <- getEncircledEnergy argsort pa_of (psf n j) 1 None;
                                                 assign_col (length (rp_prof (snd p))) (map (fun x => 100 * x) (fst e)));
              Ok (Some r)
            else Ok None);
  Ok (mkMetrics fw es ec).
