(** Model of p3/telemetry/sphereUtils.py: screening of the data, parameters of the wavefront sensor, tip-tilt filter,
    wavefront error of the static modes, sorting of telemetry files, recentring of the frames, fitting of an image.
    Floats are exact reals; archive queries, plots and progress bars are not modelled; numpy.linalg.pinv and the
    non-linear least squares are arguments. *)
From Coq Require Import Reals List Arith ZArith Bool String Ascii Decimal DecimalString DecimalNat.
From Verif Require Import Base_Py Base_Sum M_Image M_Tools M_Atmo M_Gen M_Zernike.
Import ListNotations.
Open Scope R_scope.

(** * sphereUtils.py:33-75 [remove_corrupted_data] *)
(** One data folder: is the SPARTA file there, the image (after lines 51-54), the Strehl values of the header
    (mean, minimum, maximum) and the width of line 59. *)
Record dataset := mkData { ds_sparta : bool; ds_im : img; ds_sr : option (R * R * R); ds_fwhm : R }.
(** lines 742-753 [read_strehl_value(hdr)]: -1, -1, -1 when the header has no Strehl ratio *)
Definition read_strehl_value (h : option (R * R * R)) : R * R * R := match h with Some v => v | None => (-1, -1, -1) end.
(** FourierUtils.py:1348-1366 [getFlux(psf, nargout=2)], second value: standard deviation of the pixels outside the
    inscribed circle (the others set to zero). *)
Definition getRon (a : img) : R :=
  let n := rows a in
  let msk := fun i j => if Rlt_dec 1 (lin11 n j * lin11 n j + lin11 n i * lin11 n i) then px a i j else 0 in
  let p := pixels (mkImg n n msk) in
  let m := lsum p / INR (List.length p) in
  sqrt (lsum (map (fun v => (v - m) * (v - m)) p) / INR (List.length p)).
(** lines 64-65: Python chains the comparisons (+ binds tighter), so the expression is
    im[32,32] != (max + F/ron) and (max + F/ron) < (1e4 + fwhm) and (1e4 + fwhm) > (2 + SRMEAN) and
    (2 + SRMEAN) < (0.35 + (SRMAX - SRMIN)) and (0.35 + (SRMAX - SRMIN)) > 0.2 *)
Definition chain (p mx q fwhm srmean srdif : R) : bool :=
  (if Req_EM_T p (mx + q) then false else true) && (if Rlt_dec (mx + q) (10000 + fwhm) then true else false) &&
  (if Rlt_dec (2 + srmean) (10000 + fwhm) then true else false) && (if Rlt_dec (2 + srmean) (35 / 100 + srdif) then true else false) &&
  (if Rlt_dec (2 / 10) (35 / 100 + srdif) then true else false).
Definition is_corrupted (d : dataset) : result bool :=
  let im := ds_im d in
  let '(srmean, srmin, srmax) := read_strehl_value (ds_sr d) in
  do F <- getFlux im;
  if ((rows im <=? 32) || (cols im <=? 32))%nat then Err IndexError else
  do mx <- img_max im;
  do q <- rdiv F (getRon im);
  Ok (chain (px im 32 32) mx q (ds_fwhm d) srmean (srmax - srmin)).
(** lines 41-75: the folders that are moved (by position in the list) *)
Definition screened (d : dataset) : result bool := if ds_sparta d then is_corrupted d else Ok true.
Definition remove_corrupted_data (l : list dataset) : result (list nat) :=
  do b <- mapM screened l;
  Ok (filter (fun k => nth k b false) (seq 0 (List.length l))).

(** * Parameters of the wavefront sensor, sphereUtils.py:539-598. A function that falls off its end returns None. *)
Definition define_wfs_wavelength (name : string) : option (string * R * R) :=
  if String.eqb name "OPEN" then Some (name, 700, 450)
  else if String.eqb name "LP_780" then Some (name, 840, 120)
  else if String.eqb name "LP_475" then Some (name, 700, 400) else None.
(** lines 562-572; line 571 is an expression without effect *)
Definition define_wfs_window (g : R) : R :=
  if Rlt_dec g 8 then 3 else if Rlt_dec g 10 then 2 else if Rlt_dec g (105 / 10) then 1 else 1.
Definition define_loop_delay (f : R) : nat := if Rlt_dec f 333 then 1 else if Rlt_dec f 667 then 2 else 3.
Definition define_loop_gain (g : R) : option R :=
  if Rle_dec g 6 then Some (4 / 10) else if Rlt_dec g 8 then Some (35 / 100) else if Rlt_dec g 10 then Some (25 / 100)
  else if Rlt_dec g (105 / 10) then Some (2 / 10) else if Rlt_dec g (113 / 10) then Some (6 / 10) else None.
(** lines 539-548: unpacking None is a TypeError *)
Definition grab_wfs_parameters (filt : option string) (g rate : R) : result (string * R * R * R * nat * option R) :=
  match filt with
  | None => Err KeyError
  | Some name => match define_wfs_wavelength name with
                 | None => Err TypeError
                 | Some (nm, w, bw) => Ok (nm, w, bw, define_wfs_window g, define_loop_delay rate, define_loop_gain g)
                 end
  end.

(** * Tip-tilt filter, sphereUtils.py:327-361 *)
Definition pinv_t := nat -> nat -> (nat -> nat -> R) -> nat -> nat -> R.
Definition mvec (n : nat) (A : nat -> nat -> R) (v : nat -> R) (i : nat) : R := rsum n (fun k => A i k * v k).
(** lines 332-337: the two modes as an n*n x 2 matrix, its pseudo-inverse and the filter I - M M_inv *)
Definition tt_matrix (n : nat) (pup : nat -> nat -> bool) : result (nat -> nat -> R) :=
  do z <- make_zernike (Some [2; 3]%Z) n (Some pup) false CDefault 0;
  Ok (fun k c => mv (z_modes z) c (k / n) (k mod n)).
Definition filter_of (pinv : pinv_t) (n : nat) (M : nat -> nat -> R) (i j : nat) : R :=
  (if (i =? j)%nat then 1 else 0) - rsum 2 (fun c => M i c * pinv (n * n)%nat 2%nat M c j).
(** lines 327-344: the filter and the projection on the modal basis [modes] = (rows, columns, values) *)
Definition compute_tiptilt_filtering_matrix (pinv : pinv_t) (n : nat) (pup : nat -> nat -> bool) (modes : option (nat * nat * (nat -> nat -> R)))
  : result ((nat -> nat -> R) * option (nat * (nat -> nat -> R))) :=
  do M <- tt_matrix n pup;
  match modes with
  | None => Ok (filter_of pinv n M, None)
  | Some (r, c, A) => if negb (r =? n * n)%nat then Err ValueError else Ok (filter_of pinv n M, Some (c, pinv r c A))
  end.
(** lines 346-361; [m] is the side of the filter; the product of an m x m matrix with n_pup**2 values is a ValueError
    when m is not a square. *)
Definition remove_tiptilt_from_phase (phase : img) (m : nat) (H : nat -> nat -> R) (p2c : option (nat * (nat -> nat -> R))) : result (img * option (list R)) :=
  let n := Nat.sqrt m in
  if negb (rows phase =? n)%nat then Err ValueError
  else if negb (rows phase * cols phase =? n * n)%nat then Err ValueError
  else if negb (m =? n * n)%nat then Err ValueError
  else let f := mvec (n * n) H (fun k => px phase (k / n) (k mod n)) in
       Ok (mkImg n n (fun a b => f (a * n + b)%nat),
           match p2c with None => None | Some (c, P) => Some (map (mvec (n * n) P f) (seq 0 c)) end).

(** * Wavefront error of the static modes, sphereUtils.py:363-408 *)
(** np.std of a list; of an empty one: nan *)
Definition np_std (l : list R) : result R :=
  match l with [] => Err NonFinite | _ =>
    let m := lsum l / INR (List.length l) in Ok (sqrt (lsum (map (fun v => (v - m) * (v - m)) l) / INR (List.length l))) end.
Definition nonzeros (a : img) : list R := filter (fun v => if Req_EM_T v 0 then false else true) (pixels a).
(** line 376 and 389: the map of one row of coefficients *)
Definition lwe_opd (n nm : nat) (pup : nat -> nat -> bool) (A : nat -> nat -> R) (t : list R) : img :=
  mkImg n n (fun a b => rsum nm (fun k => A (a * n + b)%nat k * (if pup a b then 1 else 0) * nth k t 0)).
(** lines 385-401 for one row: the error and the tip-tilt-free coefficients. [rt]: remove_tiptilt. When it is False the
    list coeffs_col does not exist and a row of zeros fails. *)
Definition lwe_row (pinv : pinv_t) (rt : bool) (n nm : nat) (pup : nat -> nat -> bool) (A : nat -> nat -> R) (t : list R) : result (R * option (list R)) :=
  if existsb (fun v => if Req_EM_T v 0 then false else true) t then
    let opd := lwe_opd n nm pup A t in
    if rt then
      do hp <- compute_tiptilt_filtering_matrix pinv n pup (Some ((n * n)%nat, nm, fun i k => A i k * (if pup (i / n)%nat (i mod n)%nat then 1 else 0)));
      do oc <- remove_tiptilt_from_phase opd (n * n) (fst hp) (snd hp);
      do e <- np_std (nonzeros (fst oc)); Ok (e, snd oc)
    else do e <- np_std (nonzeros opd); Ok (e, None)
  else if rt then Ok (-1, Some (repeat (-1) nm)) else Err UnboundLocalError.

(** * Sorting telemetry files by date, sphereUtils.py:100-128 *)
(** str.split(c) for a one-character separator *)
Fixpoint split_on (c : ascii) (s : string) : list string :=
  match s with
  | EmptyString => [EmptyString]
  | String a r => if Ascii.eqb a c then EmptyString :: split_on c r
                  else match split_on c r with [] => [String a EmptyString] | x :: l => String a x :: l end
  end.
(** line 113: file.split(".")[1].split("T")[0] *)
Definition date_of (name : string) : result string :=
  do s <- pyindex (split_on "." name) 1; pyindex (split_on "T" s) 0.
(** The folder of one year: [None] is the folder itself, [Some d] its sub-folder d. *)
Definition yfiles (A : Type) := option string -> string -> option A.
Definition yloc_eqb (a b : option string) : bool :=
  match a, b with None, None => true | Some i, Some j => String.eqb i j | _, _ => false end.
Definition yset {A} (fs : yfiles A) (l : option string) (n : string) (v : option A) : yfiles A :=
  fun l' n' => if yloc_eqb l' l && String.eqb n' n then v else fs l' n'.
Definition yrename {A} (fs : yfiles A) (src dst : option string) (n : string) : result (yfiles A) :=
  match fs src n with None => Err FileNotFoundError | Some c => Ok (yset (yset fs src n None) dst n (Some c)) end.
Fixpoint ymove {A} (fs : yfiles A) (d : string) (names : list string) : result (yfiles A) :=
  match names with [] => Ok fs | n :: r => do fs1 <- yrename fs None (Some d) n; ymove fs1 d r end.
Fixpoint ydates {A} (fs : yfiles A) (dates : list string) (tagged : list (string * string)) : result (yfiles A) :=
  match dates with
  | [] => Ok fs
  | d :: r => do fs1 <- ymove fs d (map fst (filter (fun p => String.eqb (snd p) d) tagged)); ydates fs1 r tagged
  end.
(** lines 109-128 for one year; [listing]: os.listdir. The dates are visited without repetition (np.unique; their order
    is not modelled). Creating the sub-folders has no effect on files; a plain file bearing the name of a date is not modelled. *)
Definition sort_year {A} (fs : yfiles A) (listing : list string) : result (yfiles A) :=
  let fits := filter is_fits listing in
  do dates <- mapM date_of fits;
  ydates fs (nodup string_dec dates) (combine fits dates).

(** * Recentring and stacking, sphereUtils.py:77-98 *)
(** numpy assignment out[kf] = sub of an n x n plane: axes of length one are repeated *)
Definition assign_plane_b (n : nat) (s : img) : result img :=
  if (((rows s =? n) || (rows s =? 1)) && ((cols s =? n) || (cols s =? 1)))%nat
  then Ok (mkImg n n (fun i j => px s (if (rows s =? n)%nat then i else 0%nat) (if (cols s =? n)%nat then j else 0%nat)))
  else Err ValueError.
Definition recentre (n : nat) (im : img) : result img :=
  match argmax_list (pixels im) with
  | None => Err ValueError
  | Some (k, _) =>
    let x0 := Z.of_nat (k / cols im) in let y0 := Z.of_nat (k mod cols im) in let h := Z.of_nat (n / 2) in
    assign_plane_b n (slice2 im (x0 - h) (x0 + h) (y0 - h) (y0 + h))
  end.
(** lines 83-98; [dit], [nd]: exposure time and transmission of the density *)
Definition process_clean_data (n : nat) (dit nd : R) (frames : list img) : result img :=
  do l <- mapM (recentre n) frames;
  match l with [] => Err NonFinite | _ =>
    if Req_EM_T dit 0 then Err NonFinite else if Req_EM_T nd 0 then Err NonFinite else
    Ok (mkImg n n (fun i j => lsum (map (fun f => px f i j) l) / INR (List.length l) / dit / nd)) end.

(** * Fitting an image, sphereUtils.py:180-325 *)
(** lines 184-187: seeing written in the parameter file *)
Definition seeing_for_model (s : R) : R := if Rlt_dec s 0 then 7 / 10 else s.
(** lines 199-217; np.log of a number <= 0 is not finite *)
Definition define_initial_guess (im : img) (wvl : R) (r0 SR : option R) (n_modes : nat) (normType : R) : result (list R) :=
  let r := match r0 with Some r => r | None => 16 / 100 * (wvl / (500 / 10 ^ 9)) ^ 2 end in
  do s <- match SR with
          | None => if Req_EM_T wvl 0 then Err NonFinite else Ok ((2 * PI * (120 / 10 ^ 9) / wvl) ^ 2)
          | Some x => if Rle_dec x 0 then Err NonFinite else Ok (- ln x) end;
  do lo <- img_min im;
  let nnz := if Rlt_dec lo 0 then img_map (fun v => v - lo) im else im in
  do p <- normalizeImage nnz normType;
  Ok ([r; 0; s; 1 / 100; 1; 0; 13 / 10; 0; 0; 0; img_sum (fst p); 0; 0; 0] ++ repeat 0 n_modes).
(** lines 219-244 *)
Definition define_fixed_parameters (n_px : nat) (D wvl n_actu ps : R) (fix_C fix_shift : bool) (n_modes : nat) : result (list bool) :=
  if Req_EM_T D 0 then Err NonFinite else if Req_EM_T ps 0 then Err NonFinite else
  let cutoff := 3600 * 1000 * 180 / PI * n_actu * wvl / D / ps in
  let fix_r0 := if Rlt_dec (INR n_px) cutoff then true else false in
  Ok ([fix_r0; fix_C; false; false; false; false; false; true; true; true; false; fix_shift; fix_shift; false] ++ repeat false n_modes).
(** result of the fit: parameters, errors, Strehl ratios (image, model), widths (x, y of the image, x, y of the model), criteria *)
Record fitres := mkFit { f_x : list R; f_xerr : list R; f_SR : R * R; f_sky : R * R; f_fit : R * R; f_err : R * R * R }.
Record camera := { c_wvl : R; c_D : R; c_nactu : R; c_ps : R; c_nmodes : nat }.
(** lines 246-287; [fit x0 fixed] is the call of psfFitting. Without static modes (or for a low Strehl ratio) the fit is
    run at line 263 and again at line 276. Comparing None with 0.4 is a TypeError. The fourth width is FWHMx_fit. *)
Definition fitting_image (fit : list R -> list bool -> result fitres) (im : img) (p : camera) (r0 SR : option R) (fit_stat : bool) (normType : R) (fix_C : bool)
  : result (list R * list R * list R * list R * list R) :=
  do plain <- (if negb fit_stat then Ok true else match SR with None => Err TypeError | Some s => Ok (if Rlt_dec s (4 / 10) then true else false) end);
  let nm := if plain then 0%nat else c_nmodes p in
  do x0 <- define_initial_guess im (c_wvl p) r0 SR nm normType;
  do fx <- define_fixed_parameters (rows im) (c_D p) (c_wvl p) (c_nactu p) (c_ps p) fix_C (negb plain) nm;
  do _ <- (if plain then do _ <- fit x0 fx; Ok tt else Ok tt);
  do res <- fit x0 fx;
  let pad := if plain then repeat (-1) (c_nmodes p) else [] in
  let '(e1, e2, e3) := f_err res in
  Ok (f_x res ++ pad, f_xerr res ++ pad, [fst (f_SR res); snd (f_SR res)], [fst (f_sky res); snd (f_sky res); fst (f_fit res); fst (f_fit res)], [e1; e2; e3]).
(** lines 289-297 *)
Definition update_data_struct (data : list R) (out : list R * list R * list R * list R * list R) : list R :=
  let '(x, xerr, SR, FWHM, err) := out in
  data ++ pyslice x 0 7 ++ skipn 10 x ++ pyslice xerr 0 7 ++ skipn 10 xerr ++ SR ++ FWHM ++ err.
(** str(n) *)
Definition str (n : nat) : string := NilEmpty.string_of_uint (Nat.to_uint n).
(** lines 299-325 *)
Definition base_names : list string :=
  ["TARGET"; "OBS ID"; "DATE"; "EXP TIME"; "RA"; "DEC"; "AIRMASS"; "MEAN WAVELENGTH [µm]";
   "BANDWIDTH [µm]"; "V MAG"; "R MAG"; "G MAG"; "J MAG"; "H MAG"; "K MAG";
   "WFS NPH [#photons/aperture/frame]"; "WFS frame rate [Hz]"; "WFS FILTER"; "WFS CENTRAL WAVELENGTH [nm]";
   "WFS SPECTRAL BANDWIDTH [nm]"; "WFS COG WINDOW RADIUS [PX]"; "LOOP DELAY [FRAME]"; "LOOP GAIN";
   "FWHMLINOBS [as]"; "tau0 [s]"; "wSpeed [m/s]"; "wDir [deg]"; "RHUM [%]"; "PRESSURE";
   "SRMIN"; "SRMAX"; "SRMEAN"; "FWHM [mas]"; "MIN SEEING SPARTA [as]";
   "MAX SEEING SPARTA [as]"; "MEAN SEEING SPARTA [as]"; "MIN WSPEED SPARTA [m/s]";
   "MAX WSPEED SPARTA [m/s]"; "MEAN WSPEED SPARTA [m/s]"; "MIN SR SPARTA";
   "MAX SR SPARTA"; "MEAN SR SPARTA"; "PIXEL SCALE [mas]"; "gain [e-/ADU]";
   "ron [e-]"; "DIT [s]"; "NDIT"]%string.
Definition fit_names : list string := ["FIT R0"; "FIT C"; "FIT A"; "FIT AX"; "FIT P"; "FIT THETA"; "FIT BETA"; "FIT F"; "FIT DX"; "FIT DY"; "FIT BKG"]%string.
Definition err_names : list string := ["ERR R0"; "ERR C"; "ERR A"; "ERR AX"; "ERR P"; "ERR THETA"; "ERR BETA"; "ERR F"; "ERR DX"; "ERR DY"; "ERR BKG"]%string.
Definition tail_names : list string := ["SR SKY"; "SR FIT"; "FWHMX SKY"; "FWHMY SKY"; "FWHMX FIT"; "FWHMY FIT"; "MSE"; "MAE"; "FVU"]%string.
Definition define_database_colnames (fit : bool) (n_modes : nat) : list string :=
  if fit then base_names ++ fit_names ++ map (fun n => "FIT MODE" ++ str n)%string (seq 0 n_modes) ++ err_names
              ++ map (fun n => "ERR MODE" ++ str n)%string (seq 0 n_modes) ++ tail_names
  else base_names.
