(** FourierUtils.py: direct PSF helpers. *)
From Coq Require Import Reals List Arith ZArith.
From Verif Require Import Base_Py Base_Sum Base_DFT M_Image M_Fourier.
Open Scope R_scope.

(** FourierUtils.py:275-277 [pupil2psf(pupil,phase,overSampling)], overSampling = p/q. *)
Definition pupil2psf (pup phase : img) (p q : Z) : result img :=
  do otf <- pupil2otf pup phase p q; otf2psf otf false.

(** FourierUtils.py:256-257 [psd2psf(psd,pixelScale)]. *)
Definition psd2psf (psd : img) (ps : R) : result img :=
  do otf <- psd2otf psd ps; otf2psf (fftshift otf) false.
