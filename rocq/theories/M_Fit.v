(** Model of p3/psfFitting/{psfFitting,imageModel,confidenceInterval}.py.
    Simplifications: pixel values are exact reals; images are 2-D; SciPy's
    least_squares is an arbitrary interaction strategy (it asks for the value of the
    cost at points of its choice, in any number, each choice depending on the answers,
    then stops with a point), after the argument checks that SciPy documents; printing
    and the static map (attribute opd) are left out. *)
From Coq Require Import Reals List Arith ZArith Bool.
From Flocq Require Import Core.Raux.
From Verif Require Import Base_Py Base_Sum M_Image M_Tools M_Atmo M_Model2.
Import ListNotations.
Open Scope R_scope.

(** ** imageModel.py *)
(** n-dimensional array *)
Record nd := mkNd { nd_shape : list nat; nd_at : list nat -> R }.
(** np.squeeze: axes of length 1 are dropped (a view of the argument) *)
Fixpoint unsqueeze (shape idx : list nat) : list nat :=
  match shape with
  | [] => []
  | d :: s => if (d =? 1)%nat then 0%nat :: unsqueeze s idx
              else match idx with i :: r => i :: unsqueeze s r | [] => 0%nat :: unsqueeze s [] end
  end.
Definition squeeze (a : nd) : nd :=
  mkNd (filter (fun d => negb (d =? 1)%nat) (nd_shape a)) (fun idx => nd_at a (unsqueeze (nd_shape a) idx)).
(** sums over the source axis (2), the wavelength axis (3), or both; AxisError (a
    ValueError) when the axis does not exist *)
Definition sum2 (a : nd) : result nd :=
  match nd_shape a with
  | [r; c; s] => Ok (mkNd [r; c] (fun idx => rsum s (fun k => nd_at a (idx ++ [k]))))
  | [r; c; s; w] => Ok (mkNd [r; c; w] (fun idx => match idx with [i; j; l] => rsum s (fun k => nd_at a [i; j; k; l]) | _ => 0 end))
  | _ => Err ValueError
  end.
Definition sum3 (a : nd) : result nd :=
  match nd_shape a with
  | [r; c; s; w] => Ok (mkNd [r; c; s] (fun idx => rsum w (fun l => nd_at a (idx ++ [l]))))
  | _ => Err ValueError
  end.
Definition sum23 (a : nd) : result nd :=
  match nd_shape a with
  | [r; c; s; w] => Ok (mkNd [r; c] (fun idx => rsum s (fun k => rsum w (fun l => nd_at a (idx ++ [k; l])))))
  | _ => Err ValueError
  end.
(** im[np.where(im>=saturation)] = saturation *)
Definition clip_at (sat : xR) (v : R) : R := match sat with Inf => v | Fin s => if Rle_dec s v then s else v end.
Definition saturate (sat : xR) (a : nd) : nd := mkNd (nd_shape a) (fun idx => clip_at sat (nd_at a idx)).
(** imageModel.py:10-59. Arrays of 2, 3 or 4 dimensions (others: ValueError). Returns
    the image and the argument afterwards: without a sum the image is a view of it, so
    that the saturation is written in the argument too. *)
Definition imageModel (psf : nd) (spectral spatial : bool) (sat : xR) : result (nd * nd) :=
  match length (nd_shape psf) with
  | 2%nat => Ok (psf, psf)
  | 3%nat =>
      if spatial then do s <- sum2 psf; Ok (saturate sat (squeeze s), psf)
      else Ok (saturate sat (squeeze psf), saturate sat psf)
  | 4%nat =>
      match spectral, spatial with
      | false, false => Ok (saturate sat (squeeze psf), saturate sat psf)
      | true, false => do s <- sum3 psf; Ok (saturate sat (squeeze s), psf)
      | false, true => do s <- sum2 psf; Ok (saturate sat (squeeze s), psf)
      | true, true => do s <- sum23 psf; Ok (saturate sat (squeeze s), psf)
      end
  | _ => Err ValueError
  end.

(** ** Parameters: psfFitting.py:114-147 *)
(** the initial guess as given: integers or floats. np.copy and np.zeros_like of a
    sequence of integers only are integer arrays: what is assigned in them is
    truncated. *)
Inductive num := NI (z : Z) | NF (r : R).
Definition num_R (n : num) : R := match n with NI z => IZR z | NF r => r end.
Definition all_ints (x0 : list num) : bool := forallb (fun n => match n with NI _ => true | NF _ => false end) x0.
Definition stored (x0 : list num) (v : R) : R := if all_ints x0 then IZR (Ztrunc v) else v.
(** lines 115-118 INDFREE = np.where([not f for f in fixed])[0] *)
Fixpoint indfree_from (k : nat) (fixed : list bool) : list nat :=
  match fixed with [] => [] | b :: r => if b then indfree_from (S k) r else k :: indfree_from (S k) r end.
Definition indfree (fixed : list bool) : list nat := indfree_from 0 fixed.
(** np.take(x, ind): IndexError out of range *)
Definition take {A} (x : list A) (ind : list nat) : result (list A) := mapM (fun i => pyindex x (Z.of_nat i)) ind.
Fixpoint set_nth {A} (n : nat) (v : A) (l : list A) : list A :=
  match l, n with [], _ => [] | _ :: r, O => v :: r | a :: r, S m => a :: set_nth m v r end.
(** for i in range(len(y)): xall[INDFREE[i]] = y[i] *)
Fixpoint scatter (conv : R -> R) (xall : list R) (ind : list nat) (y : list R) : result (list R) :=
  match y, ind with
  | [], _ => Ok xall
  | v :: y', i :: ind' => scatter conv (set_nth i (conv v) xall) ind' y'
  | _ :: _, [] => Err IndexError
  end.
(** lines 130-134 *)
Definition input2mini (x0 : list num) (fixed : option (list bool)) : result (list R) :=
  match fixed with None => Ok (map num_R x0) | Some f => take (map num_R x0) (indfree f) end.
(** lines 136-147 *)
Definition mini2input (x0 : list num) (fixed : option (list bool)) (zero : bool) (y : list R) : result (list R) :=
  match fixed with
  | None => Ok y
  | Some f => scatter (stored x0) (if zero then map (fun _ => 0) x0 else map num_R x0) (indfree f) y
  end.
(** lines 120-128; bounds given without fixed: INDFREE is not defined (NameError) *)
Definition get_bounds (inst : list ext * list ext) (bounds : option (list ext * list ext)) (fixed : option (list bool)) : result (list ext * list ext) :=
  match bounds, fixed with
  | None, None => Ok inst
  | None, Some f => do l <- take (fst inst) (indfree f); do u <- take (snd inst) (indfree f); Ok (l, u)
  | Some _, None => Err NameError
  | Some b, Some f => do l <- take (fst b) (indfree f); do u <- take (snd b) (indfree f); Ok (l, u)
  end.

(** ** scipy.optimize.least_squares *)
Inductive strat :=
| Ask (y : list R) (k : list R -> strat)
| Stop (y fvec : list R) (jac : img).
Definition ext_le (a b : ext) : bool :=
  match a, b with
  | NegInf, _ | _, PosInf => true
  | Val x, Val y => if Rle_dec x y then true else false
  | _, _ => false
  end.
Definition ext_lt (a b : ext) : bool :=
  match a, b with
  | NegInf, Val _ | NegInf, PosInf | Val _, PosInf => true
  | Val x, Val y => if Rlt_dec x y then true else false
  | _, _ => false
  end.
Definition feasible (b : list ext * list ext) (y : list R) : bool :=
  ((length (fst b) =? length y) && (length (snd b) =? length y))%nat &&
  forallb (fun p => ext_le (fst p) (Val (snd p))) (combine (fst b) y) &&
  forallb (fun p => ext_le (Val (fst p)) (snd p)) (combine y (snd b)).
(** the checks of SciPy on bounds and initial point (ValueError) *)
Definition bounds_ok (b : list ext * list ext) (y0 : list R) : bool :=
  feasible b y0 && forallb (fun p => ext_lt (fst p) (snd p)) (combine (fst b) (snd b)).
(** points asked, and the outcome; an exception of the cost goes through *)
Fixpoint run (cost : list R -> result (list R)) (s : strat) : list (list R) * result (list R * list R * img) :=
  match s with
  | Stop y f j => ([], Ok (y, f, j))
  | Ask y k => match cost y with
               | Err e => ([y], Err e)
               | Ok v => let p := run cost (k v) in (y :: fst p, snd p)
               end
  end.

(** ** The fit: psfFitting.py:20-197 *)
(** what is read of the PSF model: the call (parameters, number of pixels), the
    bounds, the saturation of the detector, the layout of the parameters *)
Record pmodel := mkPM { p_call : list R -> nat -> result nd; p_bounds : list ext * list ext; p_sat : xR; p_inst : psf_inst }.
(** saturation / param: a list param (normType 2) is a TypeError; inf / negative is
    -inf *)
Definition sat_over (sat : xR) (p : nparam) : result xR :=
  match p, sat with
  | PMinMax _ _, _ => Err TypeError
  | PScalar v, Fin s => if Req_EM_T v 0 then Err NonFinite else Ok (Fin (s / v))
  | PScalar v, Inf => if Rlt_dec 0 v then Ok Inf else Err NonFinite
  end.
(** im_norm - im_est and the products with sqW: arrays of the same 2-D shape, or a row
    or a scalar that NumPy repeats. Simplification: images have at least two rows and
    two columns (an array of shape (1, c) would also be repeated). *)
Definition nd_to_img (r c : nat) (a : nd) : result img :=
  match nd_shape a with
  | [a0; b0] => if ((a0 =? r) && (b0 =? c))%nat then Ok (mkImg r c (fun i j => nd_at a [i; j])) else Err ValueError
  | [b0] => if (b0 =? c)%nat then Ok (mkImg r c (fun _ j => nd_at a [j])) else Err ValueError
  | [] => Ok (mkImg r c (fun _ _ => nd_at a []))
  | _ => Err ValueError
  end.
Definition img_zip (f : R -> R -> R) (a b : img) : img := mkImg (rows a) (cols a) (fun i j => f (px a i j) (px b i j)).
(** np.sqrt(weights): a negative weight gives nan *)
Definition neg_pixel (a : img) : bool := existsb (fun v => if Rlt_dec v 0 then true else false) (pixels a).
Record fitargs := mkFA {
  f_weights : option img; f_fixed : option (list bool); f_trf : bool; f_spectral : bool; f_spatial : bool;
  f_norm : R; f_bounds : option (list ext * list ext); f_alpha : option R }.
(** lines 88-110 the cost: nPix = im_norm.shape[0]. The weights are broadcast: same
    shape here (other shapes with the right number of rows: ValueError). *)
Definition cost (m : pmodel) (o : fitargs) (w imn : img) (p : nparam) (x : list R) : result (list R) :=
  do a <- p_call m x (rows imn);
  do s <- sat_over (p_sat m) p;
  do e <- imageModel a (f_spectral o) (f_spatial o) s;
  do est <- nd_to_img (rows imn) (cols imn) (fst e);
  if negb ((rows w =? rows imn) && (cols w =? cols imn))%nat then Err ValueError
  else if neg_pixel w then Err NonFinite
  else
    let res := img_zip Rminus imn est in
    let d := img_zip (fun a b => sqrt a * b) w res in
    match f_alpha o with
    | None => Ok (pixels d)
    | Some al =>
        let reg := fun v => 1 + al * (if Rlt_dec 0 v then 0 else 1) in
        if existsb (fun v => if Rlt_dec (reg v) 0 then true else false) (pixels res) then Err NonFinite
        else Ok (pixels (img_zip (fun a b => a * sqrt (reg b)) d res))
    end.
(** confidenceInterval.py; [inv] is numpy.linalg.inv (None: LinAlgError) *)
Definition gram (j : img) : img := mkImg (cols j) (cols j) (fun a b => rsum (rows j) (fun i => px j i a * px j i b)).
Definition confidence_interval (inv : img -> option img) (fvec : list R) (jac : img) : result (list R) :=
  let rss := lsum (map (fun v => v ^ 2) fvec) in
  let nmp := INR (rows jac) - INR (cols jac) in
  match inv (gram jac) with
  | None => Err RuntimeErr
  | Some c => do ssq <- rdiv rss nmp; Ok (map (fun i => sqrt (Rabs (px c i i * ssq)) * (196 / 100)) (seq 0 (cols jac)))
  end.
Record fitres := mkFR { r_x : list R; r_sky : img; r_fit : img; r_dif : img; r_xpsf : list R; r_psf : nd; r_xerr : result (list R) }.
(** lines 177-182: xpsf[id_flux] = 1, xpsf[id_flux+1 : id_flux+3*n_src+1] = 0
    (id_flux out of range: IndexError; slices are clipped) *)
Fixpoint zero_range (a b : nat) (k : nat) (l : list R) : list R :=
  match l with [] => [] | v :: r => (if ((a <=? k) && (k <? b))%nat then 0 else v) :: zero_range a b (S k) r end.
Definition id_flux (i : psf_inst) : nat := (i_atm i + i_dphi i + 3)%nat.
Definition psf_params (i : psf_inst) (x : list R) : result (list R) :=
  if (id_flux i <? length x)%nat
  then Ok (zero_range (id_flux i + 1) (id_flux i + 3 * i_star i + 1) 0 (set_nth (id_flux i) 1 x))
  else Err IndexError.
(** lines 190-195: any exception of the error bars is caught *)
Definition error_bars (inv : img -> option img) (x0 : list num) (fixed : option (list bool)) (x fvec : list R) (jac : img) : result (list R) :=
  match (do c <- confidence_interval inv fvec jac; mini2input x0 fixed true c) with
  | Err NonFinite => Err NonFinite
  | Err _ => Ok (map (fun _ => -1) x)
  | Ok e => Ok e
  end.
(** Result: the parameter vectors given to the model by the minimisation, the outcome,
    and the image of the caller afterwards (line 83 shifts it in place). *)
Definition psfFitting (solver : list R -> option (list ext * list ext) -> strat) (inv : img -> option img)
  (m : pmodel) (image : img) (x0 : list num) (o : fitargs) : list (list R) * result fitres * img :=
  let check :=
    do w <- match f_weights o with
            | None => Ok (img_map (fun _ => 1) image)
            | Some w => if (rows image =? rows w)%nat then Ok w else Err ValueError end;
    do lo <- img_min image;
    Ok (w, if Rlt_dec lo 0 then img_map (fun v => v - lo) image else image) in
  match check with
  | Err e => ([], Err e, image)
  | Ok (w, im) =>
      let prep :=
        do n <- normalizeImage im (f_norm o);
        do _ <- match f_fixed o with Some f => if (length f =? length x0)%nat then Ok tt else Err ValueError | None => Ok tt end;
        do y0 <- input2mini x0 (f_fixed o);
        do b <- (if f_trf o then do b <- get_bounds (p_bounds m) (f_bounds o) (f_fixed o);
                                 if bounds_ok b y0 then Ok (Some b) else Err ValueError
                 else Ok None);
        Ok (n, y0, b) in
      match prep with
      | Err e => ([], Err e, im)
      | Ok (imn, p, y0, b) =>
          let conv := mini2input x0 (f_fixed o) false in
          let c := fun y => do x <- conv y; cost m o w imn p x in
          let q := run c (solver y0 b) in
          let trace := flat_map (fun y => match conv y with Ok x => [x] | Err _ => [] end) (fst q) in
          (trace,
           (do e <- snd q;
            let '(y, fvec, jac) := e in
            do x <- conv y;
            do a <- p_call m x (cols imn);
            do s <- sat_over (p_sat m) p;
            do t <- imageModel a (f_spectral o) (f_spatial o) s;
            do ti <- nd_to_img (rows im) (cols im) (fst t);
            do fit <- unnormalizeImage ti (f_norm o) p;
            do xp <- psf_params (p_inst m) x;
            do ps <- p_call m xp (cols imn);
            Ok (mkFR x im fit (img_zip Rminus im fit) xp (squeeze ps) (error_bars inv x0 (f_fixed o) x fvec jac))),
           im)
      end
  end.

(** ** evaluateFittingQuality, psfFitting.py:200-233 *)
(** lines 203-207; a null denominator gives inf/nan *)
Definition meanErrors (sky fit : img) : result (R * R * R) :=
  let d := img_zip Rminus sky fit in
  let s := img_sum sky in
  let mean := s / (INR (rows sky) * INR (cols sky)) in
  do mse <- rdiv (100 * sqrt (img_sum (img_map (fun v => v ^ 2) d))) s;
  do mae <- rdiv (100 * img_sum (img_map Rabs d)) s;
  do fvu <- rdiv (100 * img_sum (img_map (fun v => v ^ 2) d)) (img_sum (img_map (fun v => (v - mean) ^ 2) sky));
  Ok (mse, mae, fvu).
(** metrics of one image: Strehl, FWHM x and y *)
Record metric := mkMet { q_sr : R; q_fx : R; q_fy : R }.
Record quality := mkQ { SR_sky : list R; SR_fit : list R; FX_sky : list R; FY_sky : list R; FX_fit : list R; FY_fit : list R; MSE : list R; MAE : list R; FVU : list R }.
(** lines 219-232, cube of [n] wavelengths: the four lines "a = b = np.zeros(nWvl)" make
    one array with two or three names; the loop writes them in turn *)
Definition quality_loop (n : nat) (sky fit : nat -> metric) (err : nat -> R * R * R) : list R * list R * list R * list R :=
  fold_left (fun st j =>
    let '(sr, fs, ff, er) := st in
    let sr := set_nth j (q_sr (fit j)) (set_nth j (q_sr (sky j)) sr) in
    let fs := set_nth j (q_fy (sky j)) (set_nth j (q_fx (sky j)) fs) in
    let ff := set_nth j (q_fy (fit j)) (set_nth j (q_fx (fit j)) ff) in
    let er := set_nth j (snd (err j)) (set_nth j (snd (fst (err j))) (set_nth j (fst (fst (err j))) er)) in
    (sr, fs, ff, er)) (seq 0 n) (repeat 0 n, repeat 0 n, repeat 0 n, repeat 0 n).
Definition evaluate_cube (n : nat) (sky fit : nat -> metric) (err : nat -> R * R * R) : quality :=
  let '(sr, fs, ff, er) := quality_loop n sky fit err in mkQ sr sr fs fs ff ff er er er.
