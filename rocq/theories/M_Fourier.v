(** Model of the Fourier tools of p3/aoSystem/FourierUtils.py and of the PSF
    chain. Arrays are exact real or complex; fft2/ifft2 are the mathematical
    DFT with NumPy's conventions (forward unnormalised, inverse / N). *)
From Coq Require Import Reals List Arith ZArith.
From Verif Require Import Base_Py Base_Sum Base_DFT M_Image.
From Coquelicot Require Import Complex.
Import ListNotations.
Open Scope R_scope.

(** 2-D complex NumPy array. *)
Record carr := mkC { crows : nat; ccols : nat; cpx : nat -> nat -> C }.
Definition cpixels (a : carr) : list C :=
  flat_map (fun i => map (fun j => cpx a i j) (seq 0 (ccols a))) (seq 0 (crows a)).
Definition cmap (f : C -> C) (a : carr) : carr := mkC (crows a) (ccols a) (fun i j => f (cpx a i j)).
Definition to_c (a : img) : carr := mkC (rows a) (cols a) (fun i j => RtoC (px a i j)).
Definition re_img (a : carr) : img := mkImg (crows a) (ccols a) (fun i j => fst (cpx a i j)).
Definition cis_empty (a : carr) : bool := (Nat.eqb (crows a) 0 || Nat.eqb (ccols a) 0)%bool.

(** numpy.fft.fftshift on one axis of length n: out[i] = in[(i - n//2) mod n]. *)
Definition shift_ix (n i : nat) : nat := ((i + (n - n / 2)) mod n)%nat.
(** numpy.fft.ifftshift: out[i] = in[(i + n//2) mod n]. *)
Definition ishift_ix (n i : nat) : nat := ((i + n / 2) mod n)%nat.
Definition fftshift (a : carr) : carr :=
  mkC (crows a) (ccols a) (fun i j => cpx a (shift_ix (crows a) i) (shift_ix (ccols a) j)).
Definition ifftshift (a : carr) : carr :=
  mkC (crows a) (ccols a) (fun i j => cpx a (ishift_ix (crows a) i) (ishift_ix (ccols a) j)).
Definition fft2 (a : carr) : carr := mkC (crows a) (ccols a) (dft2 (crows a) (ccols a) (cpx a)).
Definition ifft2 (a : carr) : carr := mkC (crows a) (ccols a) (idft2 (crows a) (ccols a) (cpx a)).

(** NumPy order on complex numbers used by max(): lexicographic. *)
Definition cge (x y : C) : bool :=
  if Rlt_dec (fst y) (fst x) then true
  else if Req_EM_T (fst x) (fst y) then (if Rle_dec (snd y) (snd x) then true else false)
  else false.
Definition cmaximum (x y : C) : C := if cge x y then x else y.
Definition carr_max (a : carr) : result C :=
  match cpixels a with [] => Err ValueError | x :: r => Ok (fold_left cmaximum r x) end.

(** FourierUtils.py:242-251 [psd2cov(psd,pixelScale)], 2-D branch. An empty
    array is refused by the FFT (ValueError). *)
Definition psd2cov (psd : img) (ps : R) : result carr :=
  if cis_empty (to_c psd) then Err ValueError else
  Ok (cmap (fun z => Cmult z (RtoC (ps * ps))) (fft2 (fftshift (to_c psd)))).

(** FourierUtils.py:30-31 [cov2sf(cov)]: 2*cov.max() - cov - conj(cov). *)
Definition cov2sf (cov : carr) : result carr :=
  do m <- carr_max cov;
  Ok (cmap (fun z => Cminus (Cminus (Cmult (RtoC 2) m) z) (Cconj z)) cov).

(** complex exponential (np.exp on complex input) *)
Definition cexp (z : C) : C := (exp (fst z) * cos (snd z), exp (fst z) * sin (snd z)).
(** FourierUtils.py:279-280 [sf2otf] *)
Definition sf2otf (sf : carr) : carr := cmap (fun z => cexp (Cmult (RtoC (- / 2)) z)) sf.
(** FourierUtils.py:253-254 [psd2otf] *)
Definition psd2otf (psd : img) (ps : R) : result carr :=
  do cov <- psd2cov psd ps; do sf <- cov2sf cov; Ok (sf2otf sf).

(** fourierModel.py:1302-1307 [phaseStructureFunction], one source plane:
    cov = fftshift(fft(fftshift(PSD))); 2*real(cov.max() - cov). *)
Definition phaseStructureFunction (psd : img) : result img :=
  if cis_empty (to_c psd) then Err ValueError else
  let cov := fftshift (fft2 (fftshift (to_c psd))) in
  do m <- carr_max cov;
  Ok (mkImg (crows cov) (ccols cov) (fun i j => 2 * fst (Cminus m (cpx cov i j)))).

(** FourierUtils.py:33-42 [fftCorrel(x,y)], 2-D branch. *)
Definition fftCorrel (x y : carr) : result carr :=
  if negb (Nat.eqb (crows x) (crows y) && Nat.eqb (ccols x) (ccols y)) then Err ValueError
  else if cis_empty x then Err ValueError else
  let fx := fft2 x in let fy := fft2 y in
  let prod := mkC (crows x) (ccols x) (fun i j => Cmult (cpx fx i j) (Cconj (cpx fy i j))) in
  Ok (cmap (fun z => Cdiv z (RtoC (INR (crows x) * INR (ccols x)))) (ifft2 prod)).

(** zero padding of a complex array: same index arithmetic as M_Image.pad2
    (np.pad in FourierUtils.py:695-713). *)
Definition cenlarge (a : carr) (p q : Z) : result carr :=
  do re <- enlargeSupport (re_img a) p q;
  do im <- enlargeSupport (mkImg (crows a) (ccols a) (fun i j => snd (cpx a i j))) p q;
  Ok (mkC (rows re) (cols re) (fun i j => (px re i j, px im i j))).

(** [np.all(phase == 0)] *)
Definition all_zero (a : img) : bool :=
  forallb (fun v => if Req_EM_T v 0 then true else false) (pixels a).

(** FourierUtils.py:262-273 [pupil2otf(pupil, phase, overSampling)], real pupil,
    overSampling = p/q. *)
Definition pupil2otf (pup phase : img) (p q : Z) : result carr :=
  if negb (Nat.eqb (rows pup) (rows phase) && Nat.eqb (cols pup) (cols phase)) then Err ValueError else
  if all_zero phase then
    do E <- enlargeSupport (img_map Rabs pup) p q;
    do c <- fftCorrel (to_c E) (to_c E);
    Ok (cmap (fun z => RtoC (fst z)) (fftshift c))
  else
    do E <- cenlarge (mkC (rows pup) (cols pup)
                (fun i j => Cmult (RtoC (px pup i j)) (cos (px phase i j), sin (px phase i j)))) p q;
    do c <- fftCorrel E E;
    Ok (fftshift c).

(** Real part, then division by the maximum: FourierUtils.py:101-104 in
    [getStaticOTF], with [interp] standing for interpolateSupport (spline,
    not modelled; the identity when the sizes agree, lines 741-742). *)
Section StaticOtf.
  Variable interp : img -> img.
  Definition norm_max (a : img) : result img :=
    do m <- img_max a; img_div a m.
  (** FourierUtils.py:69-123 [getStaticOTF] from the total static phase
      (OPD map + static modes, in rad) to (otfStat, otfDL). *)
  Definition getStaticOTF (pupil apod phase : img) (p q : Z) : result (img * img) :=
    let pa := mkImg (rows pupil) (cols pupil) (fun i j => px pupil i j * px apod i j) in
    do o <- pupil2otf pa phase p q;
    do otfStat <- norm_max (interp (re_img o));
    if all_zero phase then Ok (otfStat, otfStat)
    else
      do o0 <- pupil2otf pa (img_map (fun v => 0 * v) phase) p q;
      do otfDL <- norm_max (interp (re_img o0));
      Ok (otfStat, otfDL).
End StaticOtf.

(** FourierUtils.py:172-191 [otf2psf(otf)], square or rectangular OTF.
    u2d,v2d = meshgrid(u1d,v1d) has shape (nY,nX): broadcasting with the
    (nX,nY) otf needs nX = nY (ValueError otherwise; length-1 broadcasting is
    refused too). For odd nX the phasor is the scalar 1, so no shape
    constraint. *)
Definition fftfreq_shifted (n i : nat) : R := (INR i - INR (n / 2)) / INR n.
Definition otf2psf (otf : carr) (inOnePix : bool) : result img :=
  if cis_empty otf then Err ValueError else
  let n := crows otf in
  do psf <-
    (if Nat.even n then
       if inOnePix then Ok (re_img (fftshift (ifft2 (fftshift otf))))
       else if negb (Nat.eqb n (ccols otf)) then Err ValueError
       else
         let ph := mkC n n (fun i j =>
            let t := PI * (fftfreq_shifted n j + fftfreq_shifted n i) in
            Cmult (cpx otf i j) (cos t, sin t)) in
         Ok (re_img (fftshift (ifft2 (fftshift ph))))
     else Ok (re_img (fftshift (ifft2 (ifftshift otf)))));
  img_div psf (img_sum psf).

(** FourierUtils.py:259-260 [psf2otf] *)
Definition psf2otf (psf : img) : result carr :=
  if cis_empty (to_c psf) then Err ValueError else
  if Req_EM_T (img_sum psf) 0 then Err NonFinite else
  Ok (cmap (fun z => Cdiv z (RtoC (img_sum psf))) (fft2 (fftshift (to_c psf)))).

(** FourierUtils.py:44-57 [fftsym(x)] for a square n x n array, n >= 2 (for
    other shapes NumPy's fancy indexing raises or depends on length-1
    broadcasting: not modelled). Assignments in program order; the last one
    broadcasts the *diagonal* x[n-1..2, n-1..2] over the rows. *)
Definition fftsym (n : nat) (x : nat -> nat -> C) : nat -> nat -> C :=
  fun i j =>
    if ((1 <=? i) && (i <? n - 1) && (1 <=? j) && (j <? n - 1))%nat%bool
      then x (n - j)%nat (n - j)%nat
    else if ((1 <=? i) && (i <? n - 1) && (j =? 0))%nat%bool then x (n - i)%nat 1%nat
    else if ((i =? 0) && (1 <=? j) && (j <? n - 1))%nat%bool then x 1%nat (n - j)%nat
    else if ((i =? 0) && (j =? 0))%nat%bool then x 0%nat 0%nat
    else RtoC 0.

(** FourierUtils.py:225-240 [phase_to_structure_function] on n x n maps with an
    integer or rational sampling p/q >= 1. Comparisons of complex arrays with a
    real are lexicographic; the correlations below are real-valued. *)
Definition creal_gt (z : C) (t : R) : bool := negb (cge (RtoC t) z).
Definition creal_le (z : C) (t : R) : bool := cge (RtoC t) z.
Definition phase_to_structure_function (phi pup : img) (p q : Z) (thr : R) : result img :=
  do phi2 <- enlargeSupport phi p q;
  do pup2 <- enlargeSupport pup p q;
  do corp2w <- fftCorrel (to_c (img_map (fun v => v * v) phi2)) (to_c pup2);
  do corpp <- fftCorrel (to_c phi2) (to_c phi2);
  let n := crows corp2w in
  if (negb (Nat.eqb n (ccols corp2w)) || (n <? 2)%nat)%bool then Err IndexError else
  do corww <- fftCorrel (to_c pup2) (to_c pup2);
  let sym := fftsym n (cpx corp2w) in
  let d := mkC n n (fun i j =>
     let dphi := Cminus (Cplus (cpx corp2w i j) (sym i j)) (Cmult (RtoC 2) (cpx corpp i j)) in
     let w := cpx corww i j in
     let m := if creal_gt w thr then RtoC 1 else RtoC 0 in
     let w' := if creal_le w 1 then RtoC 1 else w in
     Cdiv (Cmult dphi m) w') in
  Ok (re_img (fftshift d)).

(** numpy.fft.rfft2 of a real array: the first ny//2+1 columns of fft2. *)
Definition rfft2 (a : img) : carr :=
  mkC (rows a) (cols a / 2 + 1) (dft2 (rows a) (cols a) (cpx (to_c a))).

(** FourierUtils.py:145-170 [_rfft2_to_fft2(im_shape, rfft)], executed
    assignment by assignment. [h] = rfft.shape[-1] columns, [c] = im_shape[-1],
    [r] rows. Shape mismatches are ValueErrors. *)
Definition rfft2_to_fft2 (r c : nat) (x : carr) : result carr :=
  let h := ccols x in
  if negb (Nat.eqb (crows x) r) then Err ValueError else
  if (c <? h)%nat then Err ValueError else
  (* result[:, :h] = rfft *)
  let res1 := fun i j => if (j <? h)%nat then cpx x i j else RtoC 0 in
  (* top = rfft[0,1:] (h-1 values); reversed: top[::-1][k] = rfft[0, h-1-k] *)
  let start := if Nat.even c then (h - 1)%nat else h in
  if negb (Nat.eqb (c - start) (h - 1)) then Err ValueError else
  let res2 := fun i j => if ((i =? 0) && (start <=? j))%nat%bool
                         then Cconj (cpx x 0 (h - 1 - (j - start))) else res1 i j in
  (* mid = hstack(rfft[1:,1:], flipped conj [, 1:] when even), (r-1) rows *)
  let drop := if Nat.even c then 1%nat else 0%nat in
  let midcols := ((h - 1) + (h - 1 - drop))%nat in
  if negb (Nat.eqb midcols (c - 1)) then Err ValueError else
  let mid := fun i j => if (j <? h - 1)%nat then cpx x (1 + i) (1 + j)
                        else Cconj (cpx x (1 + (r - 2 - i)) (1 + (h - 2 - (drop + (j - (h - 1)))))) in
  Ok (mkC r c (fun i j => if ((1 <=? i) && (1 <=? j))%nat%bool then mid (i - 1)%nat (j - 1)%nat
                          else res2 i j)).
