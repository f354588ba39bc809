(** Model of FourierUtils.py:1739-1792 [toeplitz, matrix_to_map, get_diags],
    134-143 [mcDonald, Ialpha] and anisoplanatismModel.py:253-325
    [focal_angular_function]. Float values are exact reals. The Bessel function
    of mcDonald for x <> 0 and interpolateSupport to another size are arguments. *)
From Coq Require Import Reals List Arith ZArith Bool.
From Verif Require Import Base_Py Base_Sum M_Image.
Import ListNotations.
Open Scope R_scope.

(** numpy mean of a list (NaN for an empty one). *)
Fixpoint lsum (l : list R) : R := match l with [] => 0 | x :: r => x + lsum r end.
Definition lmean (l : list R) : result R :=
  match l with [] => Err NonFinite | _ => Ok (lsum l / INR (length l)) end.

(** matrix.diagonal(k): entries (i, i+k), i < min(rows, cols-k). *)
Definition diagonal (a : img) (k : nat) : list R :=
  map (fun i => px a i (i + k)%nat) (seq 0 (Nat.min (rows a) (cols a - k))).
(** FourierUtils.py:1739-1743 [toeplitz(matrix)]: sums of the upper diagonals. *)
Definition toeplitz (a : img) : list R := map (fun k => lsum (diagonal a k)) (seq 0 (cols a)).
(** FourierUtils.py:1788-1792 [get_diags(matrix)]: their means. *)
Fixpoint mapR {A B} (f : A -> result B) (l : list A) : result (list B) :=
  match l with [] => Ok [] | x :: r => do y <- f x; do t <- mapR f r; Ok (y :: t) end.
Definition get_diags (a : img) : result (list R) := mapR (fun k => lmean (diagonal a k)) (seq 0 (cols a)).

(** anisoplanatismModel.py:274-281 [vector_to_separation(u)], also lines 1762-1768 of
    FourierUtils with u = 0,1,...: x[i,j] = u[j], y[i,j] = u[i];
    x.T.reshape(-1)[k] = u[k//n], y.T.reshape(-1)[k] = u[k%n]; all results are n^2 x n^2. *)
Section Sep.
  Variable n : nat.
  Variable u : nat -> R.
  Definition vs_X (a b : nat) : R := u (b / n)%nat.
  Definition vs_Y (a b : nat) : R := u (a mod n)%nat.
  Definition vs_rx (a b : nat) : R := u (b / n)%nat - u (a / n)%nat.
  Definition vs_ry (a b : nat) : R := u (a mod n)%nat - u (b mod n)%nat.
End Sep.

(** mat[mask]: the selected entries in row-major order. *)
Definition mask_pick (N : nat) (mat : nat -> nat -> R) (P : nat -> nat -> bool) : list R :=
  flat_map (fun a => flat_map (fun b => if P a b then [mat a b] else []) (seq 0 N)) (seq 0 N).
Definition req (x y : R) : bool := if Req_EM_T x y then true else false.

(** FourierUtils.py:1745-1786 [matrix_to_map(mat, sep_x, sep_y)] for a matrix of N rows and
    columns; [seps] are the given separations (of the shape of mat) or None. A shape
    mismatch of the boolean index is an IndexError; the empty matrix makes np.zeros refuse
    a negative size. *)
Definition matrix_to_map (N : nat) (mat : nat -> nat -> R)
    (seps : option ((nat -> nat -> R) * (nat -> nat -> R))) : result img :=
  let n := Nat.sqrt N in
  if Nat.eqb n 0 then Err ValueError else
  let mism := match seps with None => negb (Nat.eqb (n * n) N) | Some _ => false end in
  if mism then Err IndexError else
  let sx := match seps with Some s => fst s | None => vs_rx n INR end in
  let sy := match seps with Some s => snd s | None => vs_ry n INR end in
  let cell jy jx := lmean (mask_pick N mat (fun a b =>
      req (sy a b) (IZR (Z.of_nat jy - Z.of_nat n + 1)) && req (sx a b) (IZR (Z.of_nat jx - Z.of_nat n + 1))))%bool in
  do q <- mapR (fun jy => mapR (fun jx => cell jy jx) (seq 0 n)) (seq 0 n);
  let cmap i j := nth j (nth i q []) 0 in
  let m := (2 * n - 1)%nat in
  (* cmap_full[:n,:n] = cmap *)
  let f1 i j := if ((i <? n) && (j <? n))%nat%bool then cmap i j else 0 in
  (* cmap_full[:n, n:] = fliplr(cmap[:, :-1]) *)
  let f2 i j := if ((i <? n) && (n <=? j))%nat%bool then cmap i (n - 2 - (j - n))%nat else f1 i j in
  (* cmap_full[n:, :] = flipud(cmap_full[:n-1, :]) *)
  let f3 i j := if (n <=? i)%nat then f2 (n - 2 - (i - n))%nat j else f2 i j in
  Ok (mkImg m m f3).

(** FourierUtils.py:134-143 [mcDonald], [Ialpha]; [kv x] stands for
    x^(5/6) K_{5/6}(x) / (2^(5/6) Gamma(11/6)) at x <> 0. *)
Definition mcDonald (kv : R -> R) (x : R) : R := if Req_EM_T x 0 then 3 / 5 else kv x.
Definition Ialpha (kv : R -> R) (x y : R) : R := mcDonald kv (sqrt (x * x + y * y)).

(** anisoplanatismModel.py:296-317: the matrix tmp of one layer of height z for a guide star
    at height H (g = z/H) and angular distance (thx,thy); u are the n sample positions. *)
Section Focal.
  Variable kv : R -> R.
  Variables (n : nat) (u : nat -> R) (f0 g z thx thy : R).
  Definition focal_tmp (a b : nat) : R :=
    let rX := vs_rx n u a b in let rY := vs_ry n u a b in
    let X1 := vs_X n u a b in let Y1 := vs_Y n u a b in
    let I0 := 3 / 5 in
    let I1 := Ialpha kv (f0 * rX) (f0 * rY) in
    let I2 := Ialpha kv (f0 * (rX * (1 - g))) (f0 * (rY * (1 - g))) in
    let I3 := Ialpha kv (f0 * (rX - g * X1 + z * thx)) (f0 * (rY - g * Y1 + z * thy)) in
    let I4 := Ialpha kv (f0 * (g * X1 - z * thx)) (f0 * (g * Y1 - z * thy)) in
    let I5 := Ialpha kv (f0 * (g * (rX - X1) - z * thx)) (f0 * (g * (rY - Y1) - z * thy)) in
    let I6 := Ialpha kv (f0 * ((1 - g) * rX + g * X1 - z * thx)) (f0 * ((1 - g) * rY + g * Y1 - z * thy)) in
    2 * I0 - I1 - I2 + I3 - I4 - I5 + I6.
End Focal.

(** np.dot(h, np.dot(t, h.T)) for N x N matrices. *)
Definition filt (N : nat) (h t : nat -> nat -> R) (a b : nat) : R :=
  rsum N (fun k => h a k * rsum N (fun l => t k l * h b l)).

(** anisoplanatismModel.py:263-325 [focal_angular_function] for a guide star at finite
    non-zero height (otherwise lines 260-261 delegate to angular_function, M_Aniso).
    [h_filt] None is a scalar. Returns one list per source, one image per layer.
    Simplification: nOtf x nOtf interpolation is an argument, applied when the size differs. *)
Definition focal_angular_function (kv : R -> R) (interp : img -> nat -> result img)
    (D L0 Hgs : R) (heights : list R) (dist : list (R * R)) (nActu nOtf : nat) (samp : R)
    (h_filt : option (nat -> nat -> R)) : result (list (list img)) :=
  let umax := D / 2 * Rmax 1 samp / 2 in
  let f0 := 2 * PI / L0 in
  let n := (nActu * 2 + 1)%nat in
  let u k := umax / INR n * (INR k - INR (n / 2)) in
  let cte := 12184 / 100000 * (6 / 100) * (2 * PI) ^ 2 * Rpower L0 (5 / 3) in
  mapR (fun th => mapR (fun zl =>
     if Req_EM_T zl 0 then Ok (mkImg nOtf nOtf (fun _ _ => cte * 0)) else
     let g := zl / Hgs in
     let tmp := focal_tmp kv n u f0 g zl (fst th) (snd th) in
     let tmp := match h_filt with None => tmp | Some h => filt (n * n) h tmp end in
     do cmap <- matrix_to_map (n * n) tmp (Some (vs_rx n INR, vs_ry n INR));
     do o <- (if Nat.eqb (rows cmap) nOtf then Ok cmap else interp cmap nOtf);
     Ok (img_map (fun v => cte * v) o)) heights) dist.
