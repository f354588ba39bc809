(** Model of p3/psfFitting/fittingUtils.py: tiles, mosaic, extraction and selection of
    stars, interpolation of PSFs over the field, spatial variation of parameters.
    Simplification: exact reals; np.argsort is any function that sorts (parameter). *)
From Coq Require Import Reals List Arith ZArith Bool.
From Flocq Require Import Core.Raux.
From Verif Require Import Base_Py Base_Sum M_Image M_Tools M_Model2 M_Atmo.
Import ListNotations.
Open Scope R_scope.

(** a[y1:y2, x1:x2] *)
Definition img_slice (a : img) (y1 y2 x1 x2 : Z) : img :=
  let r := Z.of_nat (rows a) in let c := Z.of_nat (cols a) in
  mkImg (Z.to_nat (slice_len r y1 y2)) (Z.to_nat (slice_len c x1 x2))
    (fun i j => px a (Z.to_nat (slice_bound r y1) + i) (Z.to_nat (slice_bound c x1) + j)).
(** dest[k] = a for a slot of r x c pixels: NumPy repeats an axis of length 1, and
    raises ValueError for other lengths *)
Definition fill_slot (r c : nat) (a : img) : result img :=
  if (((rows a =? r) || (rows a =? 1)) && ((cols a =? c) || (cols a =? 1)))%nat
  then Ok (mkImg r c (fun i j => px a (if rows a =? 1 then 0 else i)%nat (if cols a =? 1 then 0 else j)%nat))
  else Err ValueError.

(** fittingUtils.py:191-228 *)
Definition segment_image_in_tiles (im : img) (n : nat) : result (list img * list (nat * nat)) :=
  if (n =? 0)%nat then Err ZeroDivisionError
  else
    let ny := (rows im / n)%nat in let nx := (cols im / n)%nat in
    do t <- mapM (fun p =>
        let y := fst p in let x := snd p in
        let y1 := (y * ny)%nat in let y2 := Nat.min ((y + 1) * ny) (rows im) in
        let x1 := (x * nx)%nat in let x2 := Nat.min ((x + 1) * nx) (cols im) in
        do s <- fill_slot ny nx (img_slice im (Z.of_nat y1) (Z.of_nat y2) (Z.of_nat x1) (Z.of_nat x2));
        Ok (s, ((y * ny + (y2 - y1) / 2)%nat, (x * nx + (x2 - x1) / 2)%nat))) (list_prod (seq 0 n) (seq 0 n));
    Ok (map fst t, map snd t).

(** lines 451-478: the cube is a list of PSFs of the same shape; int(np.sqrt(n)); the
    reshape to (nSeg, nSeg, nPx, nPx) needs nSeg^2 square PSFs. nPx is the number of
    rows. *)
Definition psf_cube_to_image (cube : list img) : result img :=
  match cube with
  | [] => Ok (mkImg 0 0 (fun _ _ => 0))
  | a :: _ =>
      let n := Z.to_nat (Ztrunc (sqrt (INR (length cube)))) in
      let p := rows a in
      if (length cube * (rows a * cols a) =? n * n * (p * p))%nat then
        (* the reshape keeps the row-major order of the values *)
        let at_ k := nth k (flat_map pixels cube) 0 in
        Ok (mkImg (n * p) (n * p) (fun i j => at_ ((((i / p) * n + j / p) * p + i mod p) * p + j mod p)%nat))
      else Err ValueError
  end.

(** lines 299-320 *)
Definition extract_one (im : img) (nPx : nat) (y0 x0 : R) : result img :=
  let h := INR nPx / 2 in
  fill_slot nPx nPx (img_slice im (Ztrunc (y0 - h)) (Ztrunc (y0 + h)) (Ztrunc (x0 - h)) (Ztrunc (x0 + h))).
Definition extract_multiple_psf (im : img) (coo : list (R * R)) (nPx : nat) (xon yon : R) : result (list img) :=
  mapM (fun c => extract_one im nPx (fst c + yon) (snd c + xon)) coo.

(** lines 231-297. A star: coordinates y, x and magnitude. The limits of magnitude may be
    None (comparison with None: TypeError). *)
Record star := mkStar { st_y : R; st_x : R; st_m : R }.
Inductive criterion := Isolated | Center | OtherCrit.
Section Sort.
Variable argsort : list R -> list nat.
Definition rltb (a b : R) : bool := if Rlt_dec a b then true else false.
(** lines 262-273; [nY], [nX]: size of the segments; nY//2 *)
Definition in_borders (ny nx b : nat) (c : nat * nat) (s : star) : bool :=
  let hy := INR (ny / 2) in let hx := INR (nx / 2) in
  rltb (INR (snd c) - hx + INR b) (st_x s) && rltb (st_x s) (INR (snd c) + hx - INR b) &&
  (rltb (INR (fst c) - hy + INR b) (st_y s) && rltb (st_y s) (INR (fst c) + hy - INR b)).
Definition ext_gt (m : R) (lo : ext) : bool := match lo with NegInf => true | Val v => rltb v m | PosInf => false end.
Definition ext_ltm (m : R) (hi : ext) : bool := match hi with PosInf => true | Val v => rltb m v | NegInf => false end.
Definition hypot (a b : R) : R := sqrt (a ^ 2 + b ^ 2).
(** dist[:,1:].mean(axis=1) of KDTree.query(k=nJ): the distances to the other stars (the
    closest, itself at 0, is left out); for a single star the mean of nothing is nan and
    its order does not matter (0 here) *)
Definition mean_dist (l : list star) (s : star) : R :=
  lsum (map (fun t => hypot (st_y s - st_y t) (st_x s - st_x t)) l) / (INR (length l) - 1).
Definition select_one (ny nx : nat) (c : nat * nat) (stars : list star) (nMax b : nat) (lo hi : option ext) (crit : criterion) : result (list star) :=
  let idB := map (in_borders ny nx b c) stars in
  (* line 266: len() of the array of booleans *)
  if (length idB <? nMax)%nat then Err ValueError else
  match lo, hi with
  | Some lo, Some hi =>
      let cand := filter (fun s => in_borders ny nx b c s && (ext_gt (st_m s) lo && ext_ltm (st_m s) hi)) stars in
      if (length cand <? nMax)%nat then Err ValueError else
      do ind <- match crit with
                | Isolated => let o := argsort (map (mean_dist cand) cand) in Ok (pyslice o (- Z.of_nat nMax) (Z.of_nat (length o)))
                | Center => Ok (firstn nMax (argsort (map (fun s => hypot (st_y s - INR (fst c)) (st_x s - INR (snd c))) cand)))
                | OtherCrit => Err UnboundLocalError
                end;
      do sel <- mapM (fun i => pyindex cand (Z.of_nat i)) ind;
      (* line 293: the slot has nMax rows *)
      if (length sel =? nMax)%nat then Ok sel
      else match sel with [s] => Ok (repeat s nMax) | _ => Err ValueError end
  | _, _ => Err TypeError
  end.
(** [ny], [nx]: shape of the segments *)
Definition select_candidates_for_fitting (ny nx : nat) (centers : list (nat * nat)) (stars : list star) (nMax b : nat) (lo hi : option ext) (yon xon : R) (crit : criterion) : result (list (R * R)) :=
  do l <- mapM (fun c => select_one ny nx c stars nMax b lo hi crit) centers;
  Ok (map (fun s => (st_y s - yon, st_x s - xon)) (concat l)).

(** lines 413-449. mse: last row of X, reshaped to (nPSFMax, nSeg) and normalised along
    the first axis. *)
Definition w_mse (mse : list R) (nMax nSeg : nat) (p : nat) : result R :=
  do inv <- mapM (fun a => rdiv 1 (nth (a * nSeg + p mod nSeg) mse 0)) (seq 0 nMax);
  do v <- rdiv 1 (nth p mse 0);
  rdiv v (lsum inv).
Definition interp_one (psfs : list img) (coo : list (R * R)) (w : list R) (nNeigh : nat) (n : nat) (out : R * R) : result img :=
  let d := map (fun k => nth k w 0 * hypot (fst out - fst (nth k coo (0, 0))) (snd out - snd (nth k coo (0, 0)))) (seq 0 (length psfs)) in
  let ids := firstn nNeigh (argsort d) in
  do inv <- mapM (fun k => rdiv 1 (nth k d 0)) ids;
  do wo <- mapM (fun v => rdiv v (lsum inv)) inv;
  Ok (mkImg n n (fun i j => lsum (map (fun kw => px (nth (fst kw) psfs (mkImg 0 0 (fun _ _ => 0))) i j * snd kw) (combine ids wo)))).
(** [psfs]: PSFs of n x n pixels at the positions [coo] *)
Definition interpolate_psfs_in_fov (n : nat) (psfs : list img) (coo coo_out : list (R * R)) (mse : list R) (nMax nNeigh : nat) : result (list img) :=
  if (nMax =? 0)%nat then Err ZeroDivisionError else
  let nSeg := (length psfs / nMax)%nat in
  if negb ((nMax * nSeg =? length psfs) && (length coo =? length psfs) && (length mse =? length psfs))%nat then Err ValueError
  else do w <- mapM (w_mse mse nMax nSeg) (seq 0 (length psfs));
       mapM (interp_one psfs coo w nNeigh n) coo_out.
End Sort.

(** lines 480-532: rows of X: 7 parameters, 7 errors, y, x, radius...; [polyfit r v] is
    np.polyfit(r, v, order) *)
Definition wmean (v e : list R) : result R :=
  do num <- mapM (fun p => rdiv (fst p * 1) (snd p)) (combine v e);
  do den <- mapM (fun x => rdiv 1 x) e;
  rdiv (lsum num) (lsum den).
Definition create_spatial_variations_psf_model (polyfit : list R -> list R -> list R) (X : nat -> list R) (order : nat) : result (list (list R)) :=
  let r := X 16%nat in
  let const v e := do m <- wmean v e; Ok (repeat 0 order ++ [m]) in
  do r0 <- const (X 0%nat) (X 7%nat);
  do C <- const (X 1%nat) (map (fun v => v + / 10 ^ 20) (X 8%nat));
  let A := polyfit r (X 2%nat) in
  do ax <- const (X 3%nat) (X 10%nat);
  let p := polyfit r (X 4%nat) in
  do th <- const (X 5%nat) (X 12%nat);
  do be <- const (X 6%nat) (X 13%nat);
  Ok [r0; C; A; ax; p; th; be].
(** np.polyval *)
Definition polyval (c : list R) (x : R) : R := fold_left (fun acc a => acc * x + a) c 0.
(** lines 553-561: the parameters of the PSF at (y, x): np.hypot, np.polyval, then jitter,
    flux, position and background *)
Definition grid_params (M : list (list R)) (y x : R) : list R := map (fun c => polyval c (hypot y x)) M ++ [0; 0; 0; 1; 0; 0; 0].
