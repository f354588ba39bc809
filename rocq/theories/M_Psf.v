(** Model of FourierUtils.py:411-499 [sf_3D_to_psf_3D] and 501-619
    [sf_3D_to_psf_4D]: from the phase structure function to the PSF and the
    Strehl ratio. Square nOtf x nOtf arrays. *)
From Coq Require Import Reals List Arith ZArith.
From Verif Require Import Base_Py Base_Sum Base_DFT M_Image M_Fourier M_Float.
From Coquelicot Require Import Complex.
Import ListNotations.
Open Scope R_scope.

(** FourierUtils.py:282-288 [shift_array(n,n,fact=2)] : U[i,j], V[i,j]
    (real division n/2). *)
Definition Uax (n i : nat) : R := (INR i - INR n / 2) * (2 / INR n).

(** FourierUtils.py:678-692 [cropSupport(a, a.shape[0]/m)] on a square array,
    with the binary64 side. The 0.5*(nx-nx2) product is exact. *)
Definition crop_to (a : img) (m : nat) : img :=
  let n := Z.of_nat (rows a) in
  let s := crop_side n (Z.of_nat m) in
  let xi := Z.quot (n - s) 2 in
  slice2 a xi (xi + s) xi (xi + s).

(** Assignment [psf[:,:,iSrc] = x] into a zeros((m,m)) plane: shapes must agree
    or x must have a single pixel (broadcast). Broadcasting of a single row or
    column cannot occur: x is square here. *)
Definition assign_plane (m : nat) (x : img) : result img :=
  if (Nat.eqb (rows x) m && Nat.eqb (cols x) m)%bool then Ok x
  else if (Nat.eqb (rows x) 1 && Nat.eqb (cols x) 1)%bool then Ok (mkImg m m (fun _ _ => px x 0 0))
  else Err ValueError.

(** lines 445-453 / 545-553: residual jitter kernel. [nf2] is norm_fact**2,
    (jx,jy,jxy) the coefficients that multiply U2, V2 and 2UV (3-D: x_jitter
    itself; 4-D: squares of the two first ones). *)
Definition jitter_kernel (n : nat) (nf2 jx jy jxy : R) (i j : nat) : R :=
  exp (- / 2 * (nf2 * (jx * (Uax n i * Uax n i) + jy * (Uax n j * Uax n j)
                       + 2 * jxy * (Uax n i * Uax n j)))).

(** lines 456-465: phasor exp(-i pi bin (U dx + V dy)), 1 when no shift *)
Definition phasor (n : nat) (bin : R) (dx dy : R) (i j : nat) : C :=
  let t := - PI * (bin * (Uax n i * dx + Uax n j * dy)) in (cos t, sin t).

(** One source plane: centred OTF product (lines 473-476), before fftshift. *)
Definition otf_product (n : nat) (sf otfNCPA otfPixel : nat -> nat -> R) (K : nat -> nat -> R)
    (ph : nat -> nat -> C) : carr :=
  mkC n n (fun i j => Cmult (RtoC (exp (- / 2 * sf i j) * (otfNCPA i j * K i j * otfPixel i j))) (ph i j)).

(** lines 476-496: PSF plane of one source before scaling. [k] = kRef_ >= 1
    (3-D) or k_[jWvl] (4-D); [fov] = cam.fovInPix; [npix] = requested size. *)
Definition psf_plane (otf : carr) (k fov npix : nat) : result img :=
  if cis_empty otf then Err ValueError else
  let psf0 := re_img (fftshift (ifft2 (fftshift otf))) in
  do tmp <- (if (1 <? k)%nat then binning psf0 k else Ok psf0);
  if Nat.eqb fov 0 then Err ZeroDivisionError else
  if Nat.eqb (rows tmp) 0 then Err ValueError else
  do psf <- assign_plane fov (crop_to tmp fov);
  if (npix <? fov)%nat then
    (if Nat.eqb npix 0 then Err ZeroDivisionError else assign_plane npix (crop_to psf npix))
  else Ok psf.

(** line 498: psf/psf.sum()*F + bkg *)
Definition scale_psf (psf : img) (F bkg : R) : result img :=
  if Req_EM_T (img_sum psf) 0 then Err NonFinite
  else Ok (img_map (fun v => v / img_sum psf * F + bkg) psf).

(** line 497: SR in percent, from the (shifted) OTF product. *)
Definition strehl (otf : carr) (otfDL : img) : result R :=
  let tot := img_sum otfDL in
  if Req_EM_T tot 0 then Err NonFinite
  else let o := fftshift otf in
       Ok (100 * rsum (crows o) (fun i => rsum (ccols o) (fun j => Cmod (cpx o i j))) / tot).

(** Per-source parameters after NumPy broadcasting of F, dx, dy. *)
Record srcpar := mkSrc { s_F : R; s_dx : R; s_dy : R; s_sf : nat -> nat -> R }.
Definition bcast (l : list R) (n : nat) : result (list R) :=
  if Nat.eqb (length l) n then Ok l
  else match l with [x] => Ok (repeat x n) | _ => Err ValueError end.

(** [np.any(dx) or np.any(dy)] *)
Definition any_nonzero (l : list R) : bool :=
  existsb (fun v => if Req_EM_T v 0 then false else true) l.

Fixpoint mapM {A B : Type} (f : A -> result B) (l : list A) : result (list B) :=
  match l with
  | [] => Ok []
  | x :: r => do y <- f x; do ys <- mapM f r; Ok (y :: ys)
  end.

(** lines 458-460 (3-D) and 559-561 (4-D): the factor "accounting for the
    binning"; the two functions use different thresholds. *)
Definition bin_fact_3D (kRef : nat) : R := if (1 <? kRef)%nat then INR kRef else 1.
Definition bin_fact_4D (kRef : nat) : R := if (2 <? kRef)%nat then INR kRef else 1.

(** The whole 3-D function (monochromatic: freq.nWvl = 1, as called by psfao21
    and psfR), source lists given with their structure functions.
    Simplification: for nSrc = 1 a longer F/dx/dy list would broadcast to more
    planes; it is refused (ValueError) here. *)
Definition sf_3D_to_psf_3D (n kRef fov npix : nat) (otfNCPA otfDL otfPixel : img)
    (jit : option (R * R * R * R)) (sfs : list (nat -> nat -> R)) (F dx dy : list R) (bkg : R)
    : result (list img * list R) :=
  let ns := length sfs in
  do dxs <- bcast dx ns;
  do dys <- bcast dy ns;
  do Fs <- bcast F ns;
  let bin := bin_fact_3D kRef in
  let K := match jit with None => fun _ _ => 1 | Some (nf2, jx, jy, jxy) => jitter_kernel n nf2 jx jy jxy end in
  let shifted := (any_nonzero dx || any_nonzero dy)%bool in
  let otf_of (q : (nat -> nat -> R) * (R * R)) :=
    otf_product n (fst q) (px otfNCPA) (px otfPixel) K
      (if shifted then phasor n bin (fst (snd q)) (snd (snd q)) else fun _ _ => RtoC 1) in
  let qs := combine sfs (combine dxs dys) in
  do psfs <- mapM (fun q => psf_plane (otf_of q) kRef fov npix) qs;
  do out <- mapM (fun pf => scale_psf (fst pf) (snd pf) bkg) (combine psfs Fs);
  do srs <- mapM (fun q => strehl (otf_of q) otfDL) qs;
  Ok (out, srs).

(** ** The 4-D function *)
(** One wavelength channel: wavelength, binning factor k_[j], static OTF
    (getStaticOTF at this wavelength), squared jitter normalisation nf2 of this
    wavelength (norm_fact2, lines 588-589). *)
Record chan := mkChan { c_wvl : R; c_k : nat; c_otf : img; c_nf2 : R }.

(** [F[:,j]] on a list of rows (2-D array). *)
Definition column (m : list (list R)) (j : nat) : result (list R) :=
  mapM (fun row => match nth_error row j with Some v => Ok v | None => Err IndexError end) m.
Definition mat_any (m : list (list R)) : bool := existsb any_nonzero m.

(** x_stellar = (F, dx, dy, bkg): F, dx, dy are nSrc x nWvl arrays, bkg a vector
    over the wavelengths; [None] is the default argument [[1.0],[0.],[0.],[0]],
    whose flux is 1-D. *)
Record stellar := mkStellar { x_F : list (list R); x_dx : list (list R); x_dy : list (list R); x_bkg : list R }.

(** line 552-555: x_jitter[0]**2, x_jitter[1]**2, x_jitter[2] *)
Definition jitter4 (n : nat) (nf2 : R) (j : R * R * R) (i k : nat) : R :=
  let '(a, b, c) := j in jitter_kernel n nf2 (a * a) (b * b) c i k.
Definition jitter4_active (j : R * R * R) : bool :=
  let '(a, b, _) := j in any_nonzero [a; b].

(** Displacements of source s in channel j (lines 563-573). In the
    monochromatic branch dx is an (nSrc,1) array multiplied with U[:,:,None]:
    this broadcasts only for nSrc = 1 (simplification: nSrc = nOtf, which
    broadcasts by accident, is refused too). *)
Definition shifts4 (nW : nat) (x : stellar) (ns s j : nat) : result (R * R) :=
  if (1 <? nW)%nat then
    match nth_error (x_dx x) s, nth_error (x_dy x) s with
    | Some r, Some r' => match nth_error r j, nth_error r' j with
                         | Some a, Some b => Ok (a, b) | _, _ => Err IndexError end
    | _, _ => Err IndexError
    end
  else match x_dx x, x_dy x with
       | [[a]], [[b]] => if Nat.eqb ns 1 then Ok (a, b) else Err ValueError
       | _, _ => Err ValueError
       end.

(** One channel: lines 578-617. [nf2max] = max over the channels (line 546). *)
Definition channel4 (n kRef fov npix : nat) (nyq : bool) (nW : nat) (otfDL otfPixel : img)
    (jit : option (R * R * R)) (nf2max : R) (sfs : list (nat -> nat -> R)) (x : option stellar)
    (j : nat) (c : chan) : result (list img * list R) :=
  (* line 587-590: Djitter is unbound when the kernel was not computed *)
  do K <- match jit with
          | None => Ok (fun _ _ => 1)
          | Some v =>
            if (nyq && (1 <? nW)%nat)%bool then
              if jitter4_active v then Ok (jitter4 n (c_nf2 c) v) else Err UnboundLocalError
            else if jitter4_active v then Ok (jitter4 n nf2max v) else Ok (fun _ _ => 1)
          end;
  let ns := length sfs in
  let shifted := match x with None => false | Some y => (mat_any (x_dx y) || mat_any (x_dy y))%bool end in
  let scale := (2 * PI * / 1000000000 / c_wvl c) * (2 * PI * / 1000000000 / c_wvl c) in
  do otfs <- mapM (fun q =>
       do ph <- (if shifted then
                   match x with
                   | None => Err IndexError
                   | Some y => do d <- shifts4 nW y ns (fst q) j;
                               Ok (phasor n (bin_fact_4D kRef) (fst d) (snd d))
                   end
                 else Ok (fun _ _ => RtoC 1));
       Ok (otf_product n (fun a b => snd q a b * scale) (px (c_otf c)) (px otfPixel) K ph))
     (combine (seq 0 ns) sfs);
  do psfs <- mapM (fun o => psf_plane o (c_k c) fov npix) otfs;
  do Fs <- match x with None => Err IndexError | Some y => column (x_F y) j end;
  do Fs' <- bcast Fs ns;
  do out <- mapM (fun pf => do q <- scale_psf (fst pf) (snd pf) 0; assign_plane npix q) (combine psfs Fs');
  do srs <- mapM (fun o => strehl o otfDL) otfs;
  Ok (out, srs).

Fixpoint indexed {A : Type} (k : nat) (l : list A) : list (nat * A) :=
  match l with [] => [] | a :: r => (k, a) :: indexed (S k) r end.

Definition rmax_list (l : list R) : R := fold_left Rmax l 0.

(** lines 501-619; result: per channel, (PSFs of the sources, Strehl ratios). *)
Definition sf_3D_to_psf_4D (n kRef fov npix : nat) (nyq : bool) (chans : list chan) (otfDL otfPixel : img)
    (jit : option (R * R * R)) (sfs : list (nat -> nat -> R)) (x : option stellar)
    : result (list (list img * list R)) :=
  let nW := length chans in
  let nf2max := rmax_list (map c_nf2 chans) in
  do raw <- mapM (fun jc => channel4 n kRef fov npix nyq nW otfDL otfPixel jit nf2max sfs x (fst jc) (snd jc))
       (indexed 0 chans);
  do bk <- bcast (match x with None => [0] | Some y => x_bkg y end) nW;
  Ok (map (fun rb => (map (img_map (fun v => v + snd rb)) (fst (fst rb)), snd (fst rb))) (combine raw bk)).
