(** Model of fourierModel.point_spread_function and fourierModel.__call__
    (p3/aoSystem/fourierModel.py:1738-1778) with the parts of sf_3D_to_psf_4D
    (p3/aoSystem/FourierUtils.py:501-620) that read and write the frequency
    object. *)
From Coq Require Import Reals List Arith ZArith Bool.
From Verif Require Import Base_Py Base_Sum M_Image M_Fourier M_Model M_Psf M_Tools.
Import ListNotations.
Open Scope R_scope.

(** What does not change between two calls: labels and object description
    (read by sort_params_from_labels), OTF size, reference binning factor,
    field of view, Nyquist flag, wavelengths with their binning factor and
    squared jitter normalisation, static OTF at channel j for given static
    parameters (getStaticOTF), diffraction-limited OTF, structure functions of
    the sources. *)
Record fmod := mkFmod {
  fm_inst : psf_inst; fm_n : nat; fm_kRef : nat; fm_fov : nat; fm_nyq : bool;
  fm_base : list (R * nat * R); fm_static : nat -> option (list R) -> img; fm_dl : img;
  fm_sfs : list (nat -> nat -> R) }.

(** fourierModel.py:1752-1755: otfPixel = 1 or np.sinc(freq.U_)*np.sinc(freq.V_)
    (U varies along the first axis; the expression is symmetric) *)
Definition pixel_otf (n : nat) (add : bool) : img :=
  mkImg n n (fun i j => if add then sinc (Uax n i) * sinc (Uax n j) else 1).

(** FourierUtils.py:518-520, 543-545: the jitter list must have a third element
    when it is used; a list whose first two values vanish is not used. *)
Definition jitter_of (l : option (list R)) : result (option (R * R * R)) :=
  match l with
  | None => Ok None
  | Some [a; b] => if any_nonzero [a; b] then Err IndexError else Ok (Some (a, b, 0))
  | Some [a] => if any_nonzero [a] then Err IndexError else Ok (Some (a, 0, 0))
  | Some [] => Ok (Some (0, 0, 0))
  | Some (a :: b :: c :: _) => Ok (Some (a, b, c))
  end.

(** FourierUtils.py:578-585: the static OTF is recomputed for each wavelength
    when there are several or when static parameters are given, and is stored in
    freq.otfNCPA; otherwise the stored one is used. *)
Definition refresh (f : fmod) (stat : option (list R)) : bool :=
  (1 <? length (fm_base f))%nat || match stat with None => false | Some _ => true end.
Definition chans_of (f : fmod) (stored : img) (stat : option (list R)) : list chan :=
  map (fun jb : nat * (R * nat * R) => let '(w, k, nf) := snd jb in
         mkChan w k (if refresh f stat then fm_static f (fst jb) stat else stored) nf)
      (indexed 0 (fm_base f)).
Definition stored_after (f : fmod) (stored : img) (stat : option (list R)) : img :=
  if refresh f stat then fm_static f (length (fm_base f) - 1) stat else stored.

(** fourierModel.py:1738-1768 and 1770-1778. [npix] None: int(nOtf/kRef_).
    The result is the PSF cube (per wavelength: images and Strehl ratios of the
    sources) and the static OTF left in the frequency object.
    Simplification: the stored OTF is not tracked when an exception is raised. *)
Definition point_spread_function (f : fmod) (add : bool) (stored : img) (x : list R) (npix : option nat)
    : result (list (list img * list R) * img) :=
  do s <- sort_params (fm_inst f) x;
  if (fm_kRef f =? 0)%nat then Err ZeroDivisionError else
  do jit <- jitter_of (s_jit s);
  let npx := match npix with None => (fm_n f / fm_kRef f)%nat | Some k => k end in
  do out <- sf_3D_to_psf_4D (fm_n f) (fm_kRef f) (fm_fov f) npx (fm_nyq f) (chans_of f stored (s_stat s))
              (fm_dl f) (pixel_otf (fm_n f) add) jit (fm_sfs f)
              (Some (mkStellar (M_Tools.s_F s) (M_Tools.s_dx s) (M_Tools.s_dy s) (s_bkg s)));
  Ok (out, stored_after f stored (s_stat s)).
