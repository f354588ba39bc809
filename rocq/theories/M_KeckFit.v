(** Model of p3/psfFitting/fittingUtils.py:566-690: the automatic fit of a directory of Keck images (choose_stat_modes, get_split_date, get_PSF_number,
    adjust_init_file, fit_all_PSFs, fits_2_dict). The parameter file is the dictionary of M_Config (what aoSystem reads back from it); writing and reading
    the file are the identity on it, except for the texts described below. FITS files, the fit itself and the image metrics are inputs of the model. *)
From Coq Require Import Reals List Arith ZArith Bool String Ascii.
From Verif Require Import Base_Py M_Tools M_Config S_Config M_Keck.
Import ListNotations.
Open Scope R_scope.
Open Scope string_scope.

(** ConfigParser.set(section, key, text): NoSectionError (RuntimeErr here) when the section does not exist *)
Definition parser_set (c : cfg) (s k : string) (v : pval) : result cfg := if has_sec c s then Ok (with_key c s k v) else Err RuntimeErr.

(** fittingUtils.py:566-576 [choose_stat_modes(mode, path_ini)]: pathMode stays unbound for another mode. (The quotes around the path are removed by eval.) *)
Definition stat_modes_file (mode : string) : result string :=
  if String.eqb mode "Piston" then Ok "aoSystem/data/KECK_CALIBRATION/KECK_STAT/keck_piston_modes_200px.fits"
  else if String.eqb mode "Zernike" then Ok "aoSystem/data/KECK_CALIBRATION/KECK_STAT/keck_piston_modes_200px_all_lr.fits"
  else Err UnboundLocalError.
Definition choose_stat_modes (mode : string) (c : cfg) : result cfg :=
  do p <- stat_modes_file mode; parser_set c "telescope" "path_statModes" (PStr p).

(** int() of a text of decimal digits; anything else is a ValueError (signs, spaces and underscores, which int() accepts, are not modelled) *)
Definition digit_of (a : ascii) : option Z :=
  let n := nat_of_ascii a in if ((48 <=? n)%nat && (n <=? 57)%nat)%bool then Some (Z.of_nat (n - 48)) else None.
Fixpoint digits_acc (acc : Z) (s : string) : option Z :=
  match s with
  | EmptyString => Some acc
  | String a r => match digit_of a with Some d => digits_acc (10 * acc + d) r | None => None end
  end.
Definition int_of (s : string) : result Z :=
  match s with EmptyString => Err ValueError | _ => match digits_acc 0 s with Some z => Ok z | None => Err ValueError end end.
(** fittingUtils.py:578-583 [get_split_date(hdr)]: (year, month, day) *)
Definition get_split_date (h : header) : result (Z * Z * Z) :=
  do d <- key (h_str h) "DATE-OBS";
  do y <- int_of (String.substring 0 4 d); do m <- int_of (String.substring 5 2 d); do a <- int_of (String.substring 8 2 d);
  Ok (y, m, a).
(** fittingUtils.py:585-586 [get_PSF_number(psfName)]: float(psfName[10:14]); only texts of digits are modelled *)
Definition get_PSF_number (name : string) : result R := do z <- int_of (String.substring 10 4 name); Ok (IZR z).

(** str(array) of a one-dimensional NumPy array, read back by eval: the elements are separated by spaces, so that from two elements on the text is not a
    Python list (the raw text is kept, aoSystem.py:54-62), except that after the first one negative elements read as subtractions. [txt] is the text. *)
Definition written_array (txt : list R -> string) (l : list R) : pval :=
  match l with
  | [] => PList [] | [x] => PList [PNum x]
  | x :: r => if forallb (fun y => if Rlt_dec y 0 then true else false) r then PList [PNum (x + lsum r)] else PStr (txt l)
  end.
Definition written_list (l : list R) : pval := PList (map PNum l).

(** fittingUtils.py:588-624 [adjust_init_file(path_file, path_ini)]: [nPix] is the number of rows of the image, [prof] the filter profile of the image,
    [cen] its central wavelength in metres (CENWAVE*1e-6) *)
Definition pupil_file (pms : string) : result string :=
  if String.eqb pms "OPEN" then Ok "aoSystem/data/KECK_CALIBRATION/NIRC2_MASK/keck_pupil_open_240px.fits"
  else if String.eqb pms "LARGEHEX" then Ok "aoSystem/data/KECK_CALIBRATION/NIRC2_MASK/keck_pupil_largeHex_272px.fits"
  else Err UnboundLocalError.
Definition adjust_init_file (txt : list R -> string) (nPix : nat) (h : header) (prof : list (R * R)) (cen : R) (c : cfg) : result cfg :=
  do pa <- getPA h;
  do date <- key (h_str h) "DATE-OBS";
  do f <- samplingFilterProfile prof 3 (9 / 10) (100 / 10 ^ 9) cen;
  let '(wvls, bw, tr, disp) := f in
  do wvl <- pyindex wvls 0;
  do _ <- get_split_date h;
  do pms <- key (h_str h) "PMSNAME";
  do pup <- pupil_file pms;
  do c <- parser_set c "telescope" "path_pupil" (PStr pup);
  do c <- parser_set c "telescope" "Path_static" (PStr (ncpa_name date));
  do c <- parser_set c "telescope" "pupilAngle" (PNum pa);
  do c <- parser_set c "sources_HO" "Wavelength" (PNum wvl);
  do c <- parser_set c "sensor_science" "FiedOfView" (PInt (Z.of_nat nPix));
  do c <- parser_set c "sensor_HO" "SpectralBandwidth" (PNum bw);
  do c <- parser_set c "sensor_HO" "Dispersion" (PList [written_list (fst disp); written_list (snd disp)]);
  parser_set c "sensor_HO" "Transmittance" (written_array txt tr).

(** ** fittingUtils.py:627-668 [fit_all_PSFs] *)
Record picture := mkPic { pc_npix : nat; pc_hdr : header; pc_prof : list (R * R); pc_cen : R }.
Record fitres := mkFres { fr_SRfit : R; fr_SRsky : R; fr_Fxs : R; fr_Fys : R; fr_Fxf : R; fr_Fyf : R; fr_x : list R; fr_xerr : list R }.
(** the outside world: the images, the measured Strehl ratio and width of an image with the system of a parameter file, and the fit *)
Record world := mkWorld {
  w_load : string -> result picture;
  w_measure : cfg -> string -> result (R * R);              (* (SR, FWHM in mas) *)
  w_fit : cfg -> string -> result fitres;
  w_wvl : string -> result R;                                (* the wavelength column of the table *)
  w_txt : list R -> string }.
(** 638-643: [NbPSF is not None] always holds here: the file is drawn; [u] is the value of random() *)
Definition drawn (files : list string) (u : R) : result string :=
  pyindex files (Flocq.Core.Raux.Zfloor (u * INR (List.length files))).
(** 667: Tab.add_row: a row of another length than the 111 columns is a ValueError *)
Definition add_row (tab : list (list R)) (row : list R) : result (list (list R)) :=
  if (List.length row =? 111)%nat then Ok (tab ++ [row])%list else Err ValueError.
Definition one_psf (w : world) (mode : string) (files : list string) (st : cfg * list (list R)) (u : R) : result (cfg * list (list R)) :=
  do f <- drawn files u;
  do p <- w_load w f;
  do c <- adjust_init_file (w_txt w) (pc_npix p) (pc_hdr p) (pc_prof p) (pc_cen p) (fst st);
  do c <- choose_stat_modes mode c;
  do m <- w_measure w c f;
  if (if Rlt_dec (35 / 100) (fst m) then if Rlt_dec 35 (snd m) then true else false else false) then
    do r <- w_fit w c f;
    do d <- get_split_date (pc_hdr p);
    let '(y, mo, da) := d in
    do wv <- w_wvl w f;
    do n <- get_PSF_number f;
    do t <- add_row (snd st) ([n; IZR da; IZR mo; IZR y; wv; fr_SRfit r; fr_SRsky r; fr_Fxs r; fr_Fys r; fr_Fxf r; fr_Fyf r] ++ fr_x r ++ fr_xerr r)%list;
    Ok (c, t)
  else Ok (c, snd st).
Fixpoint psf_loop (w : world) (mode : string) (files : list string) (us : list R) (st : cfg * list (list R)) : result (cfg * list (list R)) :=
  match us with [] => Ok st | u :: r => do st' <- one_psf w mode files st u; psf_loop w mode files r st' end.
(** [us]: the successive values of random(); NbPSF of them are used (by default as many as there are files). Result: the parameter file afterwards and the
    table written. *)
Definition fit_all_PSFs (w : world) (mode : string) (files : list string) (nb : option nat) (us : list R) (c : cfg) : result (cfg * list (list R)) :=
  do c1 <- choose_stat_modes "Piston" c;
  let n := match nb with Some n => n | None => List.length files end in
  psf_loop w mode files (firstn n us) (c1, []).

(** ** fittingUtils.py:671-690 [fits_2_dict] *)
(** str(s) of a natural number below 100 *)
Definition digit (n : nat) : string := String (ascii_of_nat (48 + n)) EmptyString.
Definition str_nat (n : nat) : string := if (n <? 10)%nat then digit n else digit (n / 10) ++ digit (n mod 10).
Definition head_names : list string := ["psfNumber"; "Day"; "Month"; "Year"; "Wvl"; "SRfit"; "SRsky"; "FWHMxsky"; "FWHMysky"; "FWHMxfit"; "FWHMyfit"].
Definition par_names : list string := ["r0"; "C"; "A"; "ax"; "p"; "Theta"; "Beta"; "jitterx"; "jittery"; "jitterz"; "flux"; "posx"; "posy"; "bckgrnd"].
Definition dict_names : list string :=
  (head_names ++ par_names ++ map (String.append "StatMode_x") (map str_nat (seq 0 36))
   ++ map (fun s => String.append s "err") par_names ++ map (String.append "StatMode_xerr") (map str_nat (seq 0 36)))%list.
Fixpoint fill_dict (data : list (list R)) (num : nat) (names : list string) (d : list (string * list R)) : result (list (string * list R)) :=
  match names with
  | [] => Ok d
  | n :: r => do col <- mapM (fun row => pyindex row (Z.of_nat num)) data; fill_dict data (S num) r (assign d n col)
  end.
Definition fits_2_dict (data : list (list R)) : result (list (string * list R)) := fill_dict data 0 dict_names [].
