(** Model of FourierUtils.py:727-791 [interpolateSupport(image, n_out, kind)] and of the functions built on it
    (191-208 [otfShannon2psf], 400-409 [telescopePsf]). Float values are exact reals.
    SciPy: RectBivariateSpline(kx=1, ky=1) is modelled (bilinear interpolation in each cell; FITPACK moves the points
    outside the grid to its edge); the cubic one is an argument [spl]; ndimage.zoom(order=0) is modelled
    (nearest pixel, ends of the axes mapped on ends). *)
From Coq Require Import Reals List Arith ZArith Bool.
From Flocq Require Import Core.
From Verif Require Import Base_Py Base_Sum Base_DFT M_Image M_Fourier M_Metric3.
From Coquelicot Require Import Complex.
Import ListNotations.
Open Scope R_scope.

(** numpy.linspace(a, b, n)[k] *)
Definition lin_space (a b : R) (n k : nat) : R := if (n =? 1)%nat then a else a + INR k * ((b - a) / (INR n - 1)).
(** lines 755-772: the coordinates of the samples of an axis of n points *)
Definition axis (n k : nat) : R :=
  (if Nat.even n then lin_space (- (INR n / 2)) (INR n / 2 - 1) n k
   else lin_space (- INR (n / 2)) (INR (n / 2)) n k) * 2 / INR n.

(** FITPACK fpbisp, degree 1: move the point into the grid, last cell whose left end is not on its right, straight line. *)
Fixpoint cell (x : nat -> R) (u : R) (k : nat) : nat :=
  match k with O => O | S k' => if Rle_dec (x k) u then k else cell x u k' end.
Definition clamp (x : nat -> R) (n : nat) (u : R) : R := Rmax (x 0%nat) (Rmin (x (n - 1)%nat) u).
Definition lin1 (x : nat -> R) (n : nat) (f : nat -> R) (u : R) : R :=
  let c := clamp x n u in let i := cell x c (n - 2) in
  f i + (c - x i) / (x (S i) - x i) * (f (S i) - f i).

(** ndimage.zoom(order=0), one axis: floor(j * (n-1)/(m-1) + 1/2); for one output pixel the step is 1. *)
Definition near_ix (n m j : nat) : nat :=
  if (m =? 1)%nat then j else Z.to_nat (Zfloor (INR j * (INR (n - 1) / INR (m - 1)) + / 2)).

Inductive ikind := KSpline | KNearest | KOther.

Section Interp.
  (** cubic RectBivariateSpline(x axis, y axis, values)(u, v): an argument *)
  Variable spl : (nat -> R) -> (nat -> R) -> img -> R -> R -> R.
  (** lines 727-791 for a real image; a negative size is refused by linspace; RectBivariateSpline needs k+1 points on each
      axis, and (lines 778, 781: the axes are swapped) as many points on the x axis as the y axis of the image. *)
  Definition interp_real (k : ikind) (a : img) (mx my : Z) : result img :=
    let nx := rows a in let ny := cols a in
    if ((Z.of_nat nx =? mx) && (Z.of_nat ny =? my))%Z then Ok a else
    if ((mx <? 0) || (my <? 0))%Z then Err ValueError else
    let px_ := Z.to_nat mx in let py_ := Z.to_nat my in
    match k with
    | KNearest => if ((nx =? 0) || (ny =? 0))%nat then Err ZeroDivisionError
                  else Ok (mkImg px_ py_ (fun i j => px a (near_ix nx px_ i) (near_ix ny py_ j)))
    | KSpline => if negb (nx =? ny)%nat then Err ValueError else if (nx <? 4)%nat then Err ValueError
                 else Ok (mkImg px_ py_ (fun i j => spl (axis ny) (axis nx) a (axis px_ i) (axis py_ j)))
    | KOther => if ((nx <? 2) || (ny <? 2))%nat then Err ValueError
                else Ok (mkImg px_ py_ (fun i j => lin1 (axis nx) nx (fun p => lin1 (axis ny) ny (px a p) (axis py_ j)) (axis px_ i)))
    end.
  (** complex image: real and imaginary parts *)
  Definition im_img (a : carr) : img := mkImg (crows a) (ccols a) (fun i j => snd (cpx a i j)).
  Definition interp_cplx (k : ikind) (a : carr) (mx my : Z) : result carr :=
    do r <- interp_real k (re_img a) mx my;
    do i <- interp_real k (im_img a) mx my;
    Ok (mkC (rows r) (cols r) (fun p q => (px r p q, px i p q))).

  (** lines 191-208 [otfShannon2psf(otf, nqSmpl, fovInPixel)], nqSmpl = p/q, q > 0; Python's round is half to even *)
  Definition otfShannon2psf (otf : carr) (p q fov : Z) : result img :=
    if (p =? q)%Z then do o <- interp_cplx KSpline otf fov fov; otf2psf o false
    else if (q <? p)%Z then
      do e <- cenlarge otf p q; do o <- interp_cplx KSpline e fov fov; otf2psf o false
    else if (p =? 0)%Z then Err ZeroDivisionError else
      let n := ZnearestE (IZR fov / (IZR p / IZR q)) in
      do o <- interp_cplx KSpline otf n n;
      do psf <- otf2psf o false;
      interp_real KSpline psf fov fov.

  (** lines 400-409 [telescopePsf(pupil, samp, kind)], samp = p/q > 0; nSize//samp is a floor division *)
  Definition telescopePsf (k : ikind) (pup : img) (p q : Z) : result img :=
    let n0 := Z.of_nat (rows pup) in let n1 := Z.of_nat (cols pup) in
    if (2 * q <=? p)%Z then
      do otf <- telescopeOtf (interp_cplx KOther) pup p q;
      do o <- interp_cplx k otf n0 n1; otf2psf o false
    else
      do otf <- telescopeOtf (interp_cplx KOther) pup 2 1;
      do o <- interp_cplx k otf (n0 * q / p) (n1 * q / p);
      do psf <- otf2psf o false;
      interp_real k psf n0 n1.
End Interp.
