(** Model of p3/psfFitting/fittingUtils.py, calibration of the PSF over a field: lines 57-157 [generate_psfs_grid_from_image],
    322-411 [fit_multiple_psfs], 413-449 [interpolate_psfs_in_fov] with the NumPy semantics of null mean-square errors, 534-563
    [compute_psfs_grid], 38-62 [split_fitting_psfao, joint_fit], 159-189 [read_catalog].
    Parameters (arbitrary functions): the detection of the stars (DAOStarFinder), the fit of one image (psfFitting, modelled in
    M_Fit), the image of the model for a list of parameters, np.polyfit, np.argsort. Exact reals. *)
From Coq Require Import Reals List Arith ZArith Bool.
From Flocq Require Import Core.Raux.
From Verif Require Import Base_Py Base_Sum M_Image M_Tools M_Model2 M_Atmo M_Freq M_Grid.
Import ListNotations.
Open Scope R_scope.

(** ** fit_multiple_psfs *)
(** a source of the table: ycentroid, xcentroid, flux *)
Record source := mkSrc { s_y : R; s_x : R; s_f : R }.
(** what is read of a fit: the parameters, their errors (the attribute is missing when the error bars failed), and the seven
    metrics SR_sky, SR_fit, FWHMx_sky, FWHMy_sky, FWHMx_fit, FWHMy_fit, mse *)
Record fitout := mkFO { fo_x : list R; fo_err : option (list R); fo_met : list R }.
(** line 352 *)
Definition guess0 : list R := [1/2; 0; 1; 1/10; 1/2; 0; 9/5; 0; 0; 0].
(** lines 377-383 *)
Definition centred (im : img) (d : list source) : list (R * R) := map (fun s => (s_y s - INR (rows im / 2), s_x s - INR (cols im / 2))) d.
Definition star_guess (im : img) (d : list source) : result (list R) :=
  let c := centred im d in
  do p <- mapM (fun s => rdiv (s_f s) (lsum (map s_f d))) d;
  Ok (guess0 ++ p ++ map fst c ++ map snd c ++ [0]).
Definition star_fixed (n : nat) : list bool := [false; true; false; false; false; false; false] ++ repeat true 3 ++ repeat false (3 * n + 1).
(** lines 357-404: one sub-image; [fitter coo im x0 fixed]: psfao21(path_ini, coo_stars=coo), then psfFitting. None: no star. *)
Definition fit_one (detect : img -> list source) (fitter : list (R * R) -> img -> list R -> list bool -> result fitout) (psInArcsec : R) (im : img) (coo : R * R) : result (option (list R)) :=
  match detect im with
  | [] => Ok None
  | d =>
      do x0 <- star_guess im d;
      do f <- fitter (map (fun c => (fst c * psInArcsec, snd c * psInArcsec)) (centred im d)) im x0 (star_fixed (length d));
      match fo_err f with
      | None => Err AttributeError
      | Some e =>
          let col := firstn 7 (fo_x f) ++ firstn 7 e ++ [fst coo; snd coo; hypot (fst coo) (snd coo)] ++ fo_met f in
          if (length col =? 24)%nat then Ok (Some col) else Err ValueError
      end
  end.
Definition column_of (c : option (list R)) : list R := match c with Some l => l | None => repeat 0 24 end.
Definition detected {A} (l : list (option A)) : list A := flat_map (fun c => match c with Some x => [x] | None => [] end) l.
(** lines 406-411: r0 is the median of the first row over the fitted images; [render]: the image of the model (fovInPix x
    fovInPix); an image without star keeps zeros *)
Definition regen (render : list R -> result img) (fov : nat) (r0 : R) (c : option (list R)) : result img :=
  match c with Some col => render (r0 :: firstn 6 (skipn 1 col) ++ [0; 0; 0; 1; 0; 0; 0]) | None => Ok (mkImg fov fov (fun _ _ => 0)) end.
Definition fit_multiple_psfs (detect : img -> list source) (fitter : list (R * R) -> img -> list R -> list bool -> result fitout) (render : list R -> result img) (psInArcsec : R) (fov : nat)
    (sub : list img) (coo : list (R * R)) : result (list (list R) * list img) :=
  if (length coo <? length sub)%nat then Err IndexError else
  do cols <- mapM (fun p => fit_one detect fitter psInArcsec (fst p) (snd p)) (combine sub coo);
  match detected cols with
  | [] => Ok (map column_of cols, map (fun _ => mkImg fov fov (fun _ _ => 0)) cols)   (* median of nothing: nan, not used *)
  | d =>
      do r0 <- median (map (fun c => nth 0 c 0) d);
      do psfs <- mapM (regen render fov r0) cols;
      Ok (map column_of cols, psfs)
  end.

(** ** interpolate_psfs_in_fov: null mean-square errors *)
Definition is0 (x : R) : bool := if Req_EM_T x 0 then true else false.
(** NumPy: 1/0 is inf, inf/inf is nan (None), x/inf is 0 *)
Definition w_nan (mse : list R) (nMax nSeg p : nat) : result (option R) :=
  if existsb is0 (map (fun a => nth (a * nSeg + p mod nSeg) mse 0) (seq 0 nMax))
  then Ok (if is0 (nth p mse 0) then None else Some 0)
  else do w <- w_mse mse nMax nSeg p; Ok (Some w).
Section Sort.
Variable argsort : list R -> list nat.
(** np.argsort puts the nan last *)
Definition some_of (d : list (option R)) (k : nat) : bool := match nth k d None with Some _ => true | None => false end.
Definition get0 (o : option R) : R := match o with Some v => v | None => 0 end.
Definition argsort_nan (d : list (option R)) : list nat :=
  let fin := filter (some_of d) (seq 0 (length d)) in
  map (fun i => nth i fin 0%nat) (argsort (map (fun k => get0 (nth k d None)) fin)) ++ filter (fun k => negb (some_of d k)) (seq 0 (length d)).
Definition interp_one_nan (psfs : list img) (coo : list (R * R)) (w : list (option R)) (nNeigh n : nat) (out : R * R) : result img :=
  let d := map (fun k => option_map (fun v => v * hypot (fst out - fst (nth k coo (0, 0))) (snd out - snd (nth k coo (0, 0)))) (nth k w None)) (seq 0 (length psfs)) in
  let ids := firstn nNeigh (argsort_nan d) in
  do inv <- mapM (fun k => match nth k d None with Some v => rdiv 1 v | None => Err NonFinite end) ids;
  do wo <- mapM (fun v => rdiv v (lsum inv)) inv;
  Ok (mkImg n n (fun i j => lsum (map (fun kw => px (nth (fst kw) psfs (mkImg 0 0 (fun _ _ => 0))) i j * snd kw) (combine ids wo)))).
Definition interpolate_nan (n : nat) (psfs : list img) (coo coo_out : list (R * R)) (mse : list R) (nMax nNeigh : nat) : result (list img) :=
  if (nMax =? 0)%nat then Err ZeroDivisionError else
  let nSeg := (length psfs / nMax)%nat in
  if negb ((nMax * nSeg =? length psfs) && (length coo =? length psfs) && (length mse =? length psfs))%nat then Err ValueError
  else do w <- mapM (w_nan mse nMax nSeg) (seq 0 (length psfs));
       mapM (interp_one_nan psfs coo w nNeigh n) coo_out.

(** ** generate_psfs_grid_from_image *)
(** line 103: FieldOfView written in the configuration *)
Definition fov_written (nPx fact : nat) : nat := (2 * (nPx * fact / 2))%nat.
(** lines 123-126: -n//2 + n/nSeg//2 and n//2 - n/nSeg//2 *)
Definition interp_axis (n nSeg : nat) : list R :=
  linspace (IZR (Z.div (- Z.of_nat n) 2) + IZR (Zfloor (INR n / INR nSeg / 2))) (INR (n / 2) - IZR (Zfloor (INR n / INR nSeg / 2))) nSeg.
Definition interp_points (nY nX nSeg : nat) : list (R * R) := list_prod (interp_axis nY nSeg) (interp_axis nX nSeg).
(** lines 534-563; [call params nPix]: the squeezed PSF stored in a slot nPix x nPix *)
Definition compute_psfs_grid (call : list R -> nat -> result img) (M : list (list R)) (coo : list (R * R)) (nPx : nat) : result (list img) :=
  mapM (fun c => call (grid_params M (fst c) (snd c)) nPx) coo.
Inductive interp_mode := ByPsfs | ByParameters | OtherMode.
Record calib := mkCal { c_interp : list img; c_fit : list img; c_X : list (list R); c_sub : list img; c_coo : list (R * R); c_extr : list (R * R) }.
(** [X k]: the row k of the table, from its columns *)
Definition row_of (X : list (list R)) (k : nat) : list R := map (fun c => nth k c 0) X.
Definition generate_psfs_grid_from_image (detect : img -> list source) (fitter : nat -> list (R * R) -> img -> list R -> list bool -> result fitout) (render : nat -> list R -> result img)
    (call : nat -> list R -> nat -> result img) (polyfit : list R -> list R -> list R) (psInArcsec : R)
    (im : img) (stars : list star) (nSeg nPx nMax fact : nat) (mode : interp_mode) (crit : criterion) (magMin magMax : option ext) : result calib :=
  let fov := fov_written nPx fact in
  do seg <- segment_image_in_tiles im nSeg;
  let yon := INR (rows im / 2) in let xon := INR (cols im / 2) in
  do coo <- select_candidates_for_fitting argsort (rows im / nSeg) (cols im / nSeg) (snd seg) stars nMax (nPx / 2) magMin magMax yon xon crit;
  do sub <- extract_multiple_psf im coo nPx xon yon;
  do f <- fit_multiple_psfs detect (fitter fov) (render fov) psInArcsec fov sub coo;
  let pts := interp_points (rows im) (cols im) nSeg in
  do out <- match mode with
            | ByPsfs => interpolate_nan fov (snd f) coo pts (row_of (fst f) 23) nMax 4
            | ByParameters => do M <- create_spatial_variations_psf_model polyfit (row_of (fst f)) 2; compute_psfs_grid (call fov) M pts nPx
            | OtherMode => Err ValueError
            end;
  Ok (mkCal out (snd f) (fst f) sub pts coo).
End Sort.

(** ** read_catalog, lines 159-189: the file is a list of lines, each a list of words; [num]: float() of a word. The first
    line gives the labels, whatever nSkip. readline past the end gives an empty line. *)
Definition read_catalog {W} (num : W -> result R) (lines : list (list W)) (nSkip : Z) : result (list (list R) * list W) :=
  let labels := nth 0 lines [] in
  let nLines := (Z.of_nat (length lines) - nSkip)%Z in
  if (nLines <? 0)%Z then Err ValueError else
  let read := map (fun n => nth n lines []) (seq 0 (Z.to_nat (nLines + 1))) in
  do tab <- mapM (fun k =>
      do col <- mapM (fun n => do l <- pyindex read n; do w <- pyindex l (Z.of_nat k); num w) (map (fun q => (nSkip + Z.of_nat q)%Z) (seq 0 (Z.to_nat (nLines + 1 - nSkip))));
      (* Tab[k] has nLines entries: a single value is repeated *)
      if (length col =? Z.to_nat nLines)%nat then Ok col else match col with [v] => Ok (repeat v (Z.to_nat nLines)) | _ => Err ValueError end) (seq 0 (length labels));
  Ok (tab, labels).
