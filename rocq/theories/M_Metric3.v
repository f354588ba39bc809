(** Model of the diffraction-limited OTF and of the Strehl ratio:
    FourierUtils.py:388-397 [telescopeOtf] and 1669-1700 [getStrehl].
    Float values are exact reals. Not modelled (arguments): interpolateSupport
    to another size (727-780, splines), centerPsf (861-893). *)
From Coq Require Import Reals List Arith ZArith Bool.
From Flocq Require Import Core.
From Verif Require Import Base_Py Base_Sum Base_DFT M_Image M_Fourier.
From Coquelicot Require Import Complex.
Import ListNotations.
Open Scope R_scope.

(** array / complex scalar. *)
Definition cdiv_arr (a : carr) (z : C) : result carr :=
  if Ceq_dec z (RtoC 0) then Err NonFinite else Ok (cmap (fun w => Cdiv w z) a).
Definition csum_arr (a : carr) : C := csum (crows a) (fun i => csum (ccols a) (fun j => cpx a i j)).

Section Strehl.
  (** interpolateSupport to another size (spline or bilinear): an argument. *)
  Variable interp : carr -> Z -> Z -> result carr.

  (** FourierUtils.py:727-742 [interpolateSupport(image,n_out)]: the image itself when the
      sizes agree. *)
  Definition interpolateSupport (a : carr) (m n : Z) : result carr :=
    if ((Z.of_nat (crows a) =? m) && (Z.of_nat (ccols a) =? n))%Z%bool then Ok a else interp a m n.

  (** the common expression of lines 391 and 395:
      fftshift(ifft2(fft2(fftshift(pup_pad))**2)); an empty array is refused. *)
  Definition otf_of_pad (e : img) : result carr :=
    if cis_empty (to_c e) then Err ValueError else
    let f := fft2 (fftshift (to_c e)) in
    Ok (fftshift (ifft2 (cmap (fun z => Cmult z z) f))).

  (** FourierUtils.py:388-397 [telescopeOtf(pupil,samp)], samp = p/q with q > 0. A null
      samp divides by zero; a negative one is not modelled (refused here). *)
  Definition telescopeOtf (pup : img) (p q : Z) : result carr :=
    do otf <-
      (if (q <? p)%Z then
         do e <- enlargeSupport pup p q; otf_of_pad e
       else if (p <=? 0)%Z then Err ZeroDivisionError
       else
         let factor := (- ((- q) / p))%Z in                      (* ceil(1/samp) *)
         do e <- enlargeSupport pup (p * factor) q;
         do o <- otf_of_pad e;
         (* int(otf.shape[0]/factor) on both axes *)
         interpolateSupport o (Z.of_nat (crows o) / factor) (Z.of_nat (crows o) / factor));
    do m <- carr_max otf;
    cdiv_arr otf m.

  (** numpy.round(x, nR): ties to even of x*10^nR. *)
  Definition np_round (x : R) (nR : nat) : R := IZR (ZnearestE (x * 10 ^ nR)) / 10 ^ nR.

  Inductive smethod := SOtf | SMax | SOther.

  (** FourierUtils.py:1669-1700 [getStrehl(psf0,pupil,samp,recentering,nR,method,psfInOnePix)],
      with the caller's array after the call and the Strehl ratio. [recenter] stands for
      centerPsf(psf0,2), which builds a new array. In the 'max' method the results of
      clip are discarded (lines 1692, 1694) and psf is divided in place. *)
  Definition getStrehl (recenter : img -> result img) (psf0 pup : img) (p q : Z)
      (recentering : bool) (nR : nat) (m : smethod) (inOnePix : bool) : result (img * R) :=
    do psf <- (if recentering then recenter psf0 else Ok psf0);
    do otfDL <- telescopeOtf pup p q;
    match m with
    | SOtf =>
        do o <- psf2otf psf;
        let o := fftshift o in
        do mx <- carr_max o;
        do otf <- cdiv_arr o mx;
        do dl <- interpolateSupport otfDL (Z.of_nat (crows otf)) (Z.of_nat (ccols otf));
        if Ceq_dec (csum_arr dl) (RtoC 0) then Err NonFinite else
        Ok (psf0, np_round (fst (Cdiv (csum_arr otf) (csum_arr dl))) nR)
    | SMax =>
        do dl0 <- otf2psf otfDL inOnePix;
        do dl <- img_div dl0 (img_sum dl0);
        do psf1 <- img_div psf (img_sum psf);
        do mx <- img_max psf1; do mdl <- img_max dl;
        if Req_EM_T mdl 0 then Err NonFinite else
        Ok (if recentering then psf0 else psf1, np_round (mx / mdl) nR)
    | SOther => Err ValueError
    end.
End Strehl.
