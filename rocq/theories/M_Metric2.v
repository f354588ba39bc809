(** Model of the width estimators of p3/aoSystem/FourierUtils.py:1385-1667:
    [fwhm_1d], the contour search and [getFWHM].
    Simplification: pixel values are exact reals. *)
From Coq Require Import Reals List Arith ZArith Bool.
From Verif Require Import Base_Py Base_Sum M_Image M_Tools M_Metric.
Import ListNotations.
Open Scope R_scope.

(** Stable insertion of an (abscissa, ordinate) pair. *)
Fixpoint pinsert (x : R * R) (l : list (R * R)) : list (R * R) :=
  match l with
  | [] => [x]
  | y :: r => if Rle_dec (fst x) (fst y) then x :: l else y :: pinsert x r
  end.
Definition psort (l : list (R * R)) : list (R * R) := fold_right pinsert [] l.

(** scipy.interpolate.interp1d(x, y, kind='linear', bounds_error=False,
    fill_value="extrapolate")(t): ValueError when the lengths differ; stable
    sort by abscissa; searchsorted (left) clipped to [1, len-1]; linear inside
    or outside the segment found. Two equal abscissae at the segment give
    inf/nan. *)
Definition interp1d (xs ys : list R) (t : R) : result R :=
  if negb (Nat.eqb (length xs) (length ys)) then Err ValueError else
  let s := psort (combine xs ys) in
  let below := length (filter (fun p => if Rlt_dec (fst p) t then true else false) s) in
  let hi := Nat.max 1 (Nat.min below (length s - 1)) in
  match nth_error s (hi - 1), nth_error s hi with
  | Some a, Some b =>
      if Req_EM_T (fst b) (fst a) then Err NonFinite
      else Ok ((snd b - snd a) / (fst b - fst a) * (t - fst a) + snd a)
  | _, _ => Err IndexError
  end.

(** FourierUtils.py:1385-1417 [fwhm_1d(profile)]. *)
Definition above_half (p : list R) (h : R) : list nat :=
  filter (fun k => if Rle_dec h (nth k p 0) then true else false) (seq 0 (length p)).
Definition edge_cross (p : list R) (h : R) (k : nat) : result R :=
  let z := Z.of_nat k in
  interp1d (pyslice p (z - 1) (z + 2)) [INR k - 1; INR k; INR k + 1] h.
Definition fwhm_1d (p : list R) : result R :=
  do mx <- list_max p;
  do mn <- list_min p;
  if Rle_dec (/ 2 * mx) mn then Ok (INR (length p)) else
  let h := mx / 2 in
  let idx := above_half p h in
  if (length idx <? 2)%nat then Ok 1 else
  if (Z.of_nat (length p) - 1 <=? Z.of_nat (length idx))%Z then Ok (INR (length p)) else
  do x1 <- edge_cross p h (hd 0%nat idx);
  do x2 <- edge_cross p h (last idx 0%nat);
  Ok (Rabs (x2 - x1)).

(** FourierUtils.py:1419-1505 [find_contour_points(image, level)], after the
    boundary search. One candidate point: the boundary pixel (x,y), and the
    farthest from the peak, (fx,fy), among the four above-threshold pixels
    nearest to it (lines 1447-1466; [argpartition] breaks ties arbitrarily, so
    the choice is an input here). Lines 1468-1494. *)
Record cand := mkCand { c_x : R; c_y : R; c_val : R; f_x : R; f_y : R; f_val : R }.
Definition contour_pt (pkx pky level : R) (c : cand) : list (R * R) :=
  let norm := sqrt ((f_x c - pkx) * (f_x c - pkx) + (f_y c - pky) * (f_y c - pky)) in
  let dx := if Rlt_dec 0 norm then (f_x c - pkx) / norm else f_x c - pkx in
  let dy := if Rlt_dec 0 norm then (f_y c - pky) / norm else f_y c - pky in
  if Rlt_dec (c_val c) level then
    if Rlt_dec level (f_val c) then
      let t := (level - c_val c) / (f_val c - c_val c) in
      let curr := sqrt ((c_x c - pkx) * (c_x c - pkx) + (c_y c - pky) * (c_y c - pky)) in
      let d := curr + t * (norm - curr) in
      [(pkx + dx * d, pky + dy * d)]
    else []
  else [].
(** Lines 1496-1505: no point -> the list [0] (length 1); otherwise the points
    whose distance to the peak is STRICTLY within two standard deviations of
    the median distance. [None] stands for the list [0]. *)
Definition pt_dist (pkx pky : R) (p : R * R) : R :=
  sqrt ((fst p - pkx) * (fst p - pkx) + (snd p - pky) * (snd p - pky)).
Definition contour_filter (pkx pky : R) (pts : list (R * R)) : result (option (list (R * R))) :=
  match pts with
  | [] => Ok None
  | _ =>
      let d := map (pt_dist pkx pky) pts in
      do med <- median d;
      do sd <- nanstd d;
      Ok (Some (filter (fun p => if Rlt_dec (Rabs (pt_dist pkx pky p - med)) (2 * sd) then true else false) pts))
  end.
Definition find_contour_points (cands : img -> R -> list cand) (im : img) (level : R)
    : result (option (list (R * R))) :=
  match argmax_list (pixels im) with
  | None => Err ValueError
  | Some (k, _) =>
      let pky := INR (k / cols im) in let pkx := INR (k mod cols im) in
      contour_filter pkx pky (flat_map (contour_pt pkx pky level) (cands im level))
  end.

Inductive fmethod := MCutting | MContour | MOldContour | MGaussian | MMoffat.

(** Lines 1565-1600: widths from the vertices of a contour: centre = middle of
    the bounding box; the longest and shortest distances to it. *)
Definition contour_width (at2 : R -> R -> R) (pts : list (R * R)) (ps rebin : R) : result (R * R * R) :=
  do mxx <- list_max (map fst pts);
  do mxy <- list_max (map snd pts);
  do mnx <- list_min (map fst pts);
  do mny <- list_min (map snd pts);
  let cx := (mxx + mnx) / 2 in let cy := (mxy + mny) / 2 in
  let wr := map (fun p => sqrt ((fst p - cx) * (fst p - cx) + (snd p - cy) * (snd p - cy)) / rebin * ps) pts in
  do hi <- list_max wr;
  do lo <- list_min wr;
  match argmax_list wr with
  | None => Err ValueError
  | Some (k, _) =>
      let m := nth k pts (0, 0) in
      Ok (2 * hi, 2 * lo, 180 * at2 (snd m - cy) (fst m - cx) / PI)
  end.

(** Row [i] and column [j] of an array. *)
Definition row_of (a : img) (i : nat) : list R := map (fun j => px a i j) (seq 0 (cols a)).
Definition col_of (a : img) (j : nat) : list R := map (fun i => px a i j) (seq 0 (rows a)).

(** FourierUtils.py:1507-1667 [getFWHM(psf, pixelScale, rebin, method)] with
    nargout=4: (fwhmX, fwhmY, aRatio, theta).
    Parameters standing for code that is not modelled: [resample] (spline
    interpolateSupport, used for rebin > 1), [cands] (boundary pixels of the
    half-maximum region), [old_contour] (matplotlib, None = it raised), [gfit]
    and [mfit] (astropy least-squares fits: standard deviations and angle;
    width), [at2] (arctan2). *)
Record fwhm_env := mkEnv {
  resample : img -> R -> img;
  cands_of : img -> R -> list cand;
  old_contour : img -> option (list (R * R));
  gfit : img -> R * R * R;
  mfit : img -> R;
  at2 : R -> R -> R }.
Definition getFWHM (E : fwhm_env) (psf : img) (ps rebin : R) (method : fmethod)
    : result (R * R * R * R) :=
  let im := if Rlt_dec 1 rebin then resample E psf rebin else psf in
  do pk <- img_max im;
  do mn <- img_min im;
  do w <-
    (if Rle_dec (/ 2 * pk) mn then
       Ok (sqrt 2 * INR (cols psf) * ps, sqrt 2 * INR (rows psf) * ps, 0)
     else
       match argmax_list (pixels im) with
       | None => Err ValueError
       | Some (k, _) =>
         let ymax := (k / cols im)%nat in let xmax := (k mod cols im)%nat in
         let prx := row_of im ymax in let pry := col_of im xmax in
         do cutx <- fwhm_1d prx;
         do cuty <- fwhm_1d pry;
         let m1 := if Rle_dec (INR (length prx) - 1) cutx then MCutting
                   else if Rle_dec (INR (length pry) - 1) cuty then MCutting else method in
         let m2 := if Req_EM_T cutx 1 then
                     if Req_EM_T cuty 1 then
                       match m1 with MContour | MOldContour => MCutting | _ => m1 end
                     else m1
                   else m1 in
         if Req_EM_T rebin 0 then Err NonFinite else
         let cut := (cutx * ps / rebin, cuty * ps / rebin, 0) in
         match m2 with
         | MOldContour =>
             match old_contour E im with
             | None => Ok cut
             | Some v => match contour_width (at2 E) v ps rebin with
                         | Ok r => Ok r
                         | Err _ => Ok cut
                         end
             end
         | MContour =>
             do pts <- find_contour_points (cands_of E) im (pk / 2);
             match pts with
             | None => Ok cut
             | Some l => if (length l <? 3)%nat then Ok cut
                         else contour_width (at2 E) l ps rebin
             end
         | MGaussian =>
             let '(sx, sy, th) := gfit E im in
             Ok (2 * sqrt (2 * ln 2) * Rabs (sx * ps), 2 * sqrt (2 * ln 2) * Rabs (sy * ps), th * 180 / PI)
         | MMoffat => Ok (mfit E im * ps, mfit E im * ps, 0)
         | MCutting => Ok cut
         end
       end);
  let '(fx, fy, th) := w in
  if Req_EM_T fx 0 then Err NonFinite else
  if Req_EM_T fy 0 then Err NonFinite else
  Ok (fx, fy, Rmax (fx / fy) (fy / fx), th).
