(** Model of the image-processing utilities of p3/aoSystem/FourierUtils.py:
    addNoise 852-859, centerPsf 861-893, correctFromDeadPixels 895-906,
    interpolate_1d 1219-1247, interpolate_2d 1249-1289, gaussian 1794-1815.
    Values are exact reals. createDeadPixFrame (908-1027) always raises TypeError
    at np.zeros(nDeadPix,10,2) and is not modelled. *)
From Coq Require Import Reals List Arith ZArith Bool.
From Verif Require Import Base_Py Base_Sum Base_DFT M_Image M_Fourier M_Tools.
From Coquelicot Require Import Complex.
Import ListNotations.
Open Scope R_scope.

(** FourierUtils.py:852-859 [addNoise(im,ron,darkBg,skyBg,DIT,nDIT)]. The random draws are
    arguments: [g i j] the Gaussian draw of a pixel, [pois i j lam] the Poisson draw of a
    pixel for the rate lam. A negative rate is refused by numpy.random.poisson; the
    square root of a negative number is nan. Returns the noisy image and the caller's
    array after the call (im[im<0] = 0 writes into it). *)
Definition clip0 (v : R) : R := if Rlt_dec v 0 then 0 else v.
Definition addNoise (im : img) (ron dark sky DIT nDIT : R) (g : nat -> nat -> R) (pois : nat -> nat -> R -> R)
  : result (img * img) :=
  let T := nDIT * DIT in
  let im' := img_map clip0 im in
  let s2 := nDIT * (ron * ron) + dark * T in
  if Rlt_dec s2 0 then Err NonFinite else
  if existsb (fun v => if Rlt_dec (v + sky * T) 0 then true else false) (pixels im') then Err ValueError else
  Ok (mkImg (rows im) (cols im) (fun i j =>
        px im' i j + sqrt s2 * g i j + (pois i j (px im' i j + sky * T) - sky * T)), im').

Section Centre.
  (** interpolateSupport of a real image to another size (splines): an argument. *)
  Variable interp : img -> nat -> nat -> result img.
  Definition interpolate_img (a : img) (m n : nat) : result img :=
    if ((rows a =? m)%nat && (cols a =? n)%nat)%bool then Ok a else interp a m n.

  (** lines 883-886: exp(-1j*pi*(u*dy + v*dx)) with u along columns, v along rows. *)
  Definition centre_phasor (n : nat) (dx dy : R) (i j : nat) : C :=
    let t := PI * (fftfreq_shifted n j * dy + fftfreq_shifted n i * dx) in (cos (- t), sin (- t)).

  (** FourierUtils.py:861-893 [centerPsf(psf,rebin)], one output. The phasor is square
      (meshgrid(u,u) of the first axis): other shapes are refused (length-1 broadcasting is
      refused too: simplification). *)
  Definition centerPsf (psf : img) (rebin : nat) : result img :=
    let flux := img_sum psf in
    let m := (rows psf * rebin)%nat in
    let m' := (cols psf * rebin)%nat in
    do hr <- (if (1 <? rebin)%nat then interpolate_img psf m m else Ok psf);
    match argmax_list (pixels hr) with
    | None => Err ValueError
    | Some (k, _) =>
        let idx := (k / cols hr)%nat in
        let idy := (k mod cols hr)%nat in
        let dx := INR m / 2 - INR idx in
        let dy := INR m' / 2 - INR idy in
        do o <- psf2otf hr;
        let otf := fftshift o in
        let n := crows otf in
        if negb (Nat.eqb n (ccols otf)) then Err ValueError else
        do cor <- otf2psf (mkC n n (fun i j => Cmult (cpx otf i j) (centre_phasor n dx dy i j))) false;
        do lr <- interpolate_img cor (rows psf) (rows psf);
        img_div (img_map (fun v => flux * v) lr) (img_sum lr)
    end.
End Centre.

(** FourierUtils.py:895-906 [correctFromDeadPixels(im,badPixFrame)] on a flattened image
    (the addresses of the frame are one-dimensional) and an integer frame: a list of rows,
    each a list of npixd pairs (address, weight). Errors are raised in program order. *)
Definition frame_row := list (Z * Z).
Definition zsum (l : list Z) : Z := fold_right Z.add 0%Z l.
Definition dead_pixel (im : list R) (npixd : nat) (row : frame_row) : result (list R) :=
  let w := zsum (map snd (pyslice row 2 (Z.of_nat npixd - 1))) in
  if (w =? 0)%Z then Ok im else
  do vals <- mapM (fun a => pyindex im (fst a)) (pyslice row 2 (Z.of_nat npixd));
  let wts := map snd (pyslice row 2 (Z.of_nat npixd - 1)) in
  (* elementwise product: equal lengths, or one operand of length one *)
  do prod <- (if (length vals =? length wts)%nat then Ok (map (fun p => fst p * IZR (snd p)) (combine vals wts))
              else match vals, wts with
                   | _, [w1] => Ok (map (fun v => v * IZR w1) vals)
                   | [v1], _ => Ok (map (fun w1 => v1 * IZR w1) wts)
                   | _, _ => Err ValueError
                   end);
  match row with
  | [] => Err IndexError
  | (ad, _) :: _ =>
      let k := (if (ad <? 0)%Z then ad + Z.of_nat (length im) else ad)%Z in
      if ((k <? 0) || (Z.of_nat (length im) <=? k))%Z%bool then Err IndexError
      else Ok (firstn (Z.to_nat k) im ++ (fold_right Rplus 0 prod / IZR w) :: skipn (S (Z.to_nat k)) im)
  end.
Fixpoint dead_loop (im : list R) (npixd : nat) (i n : nat) (frame : list frame_row) : result (list R) :=
  match n with
  | O => Ok im
  | S n' =>
      match nth_error frame i with
      | None => Err IndexError
      | Some row => do im' <- dead_pixel im npixd row; dead_loop im' npixd (S i) n' frame
      end
  end.
(** [npixd] = badPixFrame.shape[1] is both the number of columns and the number of rows visited. *)
Definition correctFromDeadPixels (im : list R) (npixd : nat) (frame : list frame_row) : result (list R) :=
  dead_loop im npixd 0 npixd frame.

(** FourierUtils.py:1794-1815 [gaussian(x,xdata)] at one point (X,Y). *)
Definition gaussian (I0 ax ay th x0 y0 X Y : R) : result R :=
  if Req_EM_T ax 0 then Err NonFinite else
  if Req_EM_T ay 0 then Err NonFinite else
  let t := th * PI / 180 in
  let X' := X - x0 in let Y' := Y - y0 in
  let Xr := X' * cos t + Y' * sin t in
  let Yr := Y' * cos t - X' * sin t in
  Ok (I0 * exp (- / 2 * ((Xr / ax) * (Xr / ax) + (Yr / ay) * (Yr / ay)))).

(** FourierUtils.py:1249-1289 [interpolate_2d]: [ev y x] is the value of the bivariate
    spline of the image (not modelled: an argument), [grid] the points of each ring. The
    mean of an empty ring is nan; a null pixel scale gives inf. *)
Definition interpolate_2d (ev : R -> R -> R) (grid : list (list (R * R))) (pixelscale step : R) : result (list R) :=
  if Req_EM_T pixelscale 0 then Err NonFinite else
  mapM (fun ring =>
    match ring with
    | [] => Err NonFinite
    | _ => let m := fold_right Rplus 0 (map (fun p => ev (snd p) (fst p)) ring) / INR (length ring) in
           Ok (clip0 m * ((step / pixelscale) * (step / pixelscale)))
    end) grid.

(** FourierUtils.py:1219-1247 [interpolate_1d]: [spline] is scipy's CubicSpline of (r, profile),
    an argument; the new radii are arange(r[0], r[-1], step). *)
Definition interpolate_1d (spline : R -> R) (r : list R) (pixelscale step : R) : result (list R * list R) :=
  match r with
  | [] => Err IndexError
  | a :: _ =>
      if Req_EM_T step 0 then Err ZeroDivisionError else
      if Req_EM_T pixelscale 0 then Err NonFinite else
      let b := last r a in
      let ri := map (fun i => a + INR i * step) (seq 0 (arange_len (b - a) step)) in
      Ok (ri, map (fun t => clip0 (spline t) * ((step / pixelscale) * (step / pixelscale))) ri)
  end.
