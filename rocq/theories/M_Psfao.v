(** Model of p3/psfao21/psfao21.py (PSF model with a parametric power spectrum). The
    spectrum itself (maoppy.psfmodel.Psfao, external) is a parameter. Exact reals. *)
From Coq Require Import Reals List Arith ZArith Bool.
From Verif Require Import Base_Py Base_Sum Base_DFT M_Image M_Fourier M_Atmo M_Model2 M_Psf M_Bounds M_Tools.
From Coquelicot Require Import Complex.
Import ListNotations.
Open Scope R_scope.

(** fft.fftshift of a real array *)
Definition rshift (a : img) : img := mkImg (rows a) (cols a) (fun i j => px a (shift_ix (rows a) i) (shift_ix (cols a) j)).
(** lines 178-183: on-axis structure function *)
Definition psfao_sf0 (psd : img) (D samp : R) : result img :=
  if Req_EM_T ((D * samp) ^ 2) 0 then Err NonFinite else
  let rf := cmap (fun z => Cdiv z (RtoC ((D * samp) ^ 2))) (rfft2 (rshift psd)) in
  do b <- rfft2_to_fft2 (rows psd) (cols psd) rf;
  let B := fftshift b in
  do m <- carr_max B;
  Ok (re_img (cmap (fun z => Cmult (RtoC 2) (Cminus m z)) B)).
(** lines 170-191. [ani] = Some (nlay, planes) when freq.isAniso: dani_ang.shape[1] and
    dphi_ani, one n x n plane per source. (freq.dphi_ani * Cn2).sum(axis=2) multiplies the
    last axis (n pixels) by the profile (length >= 2): shapes that do not match are refused;
    when they do (profile of n values) the sum over the columns has shape (planes, n) and is
    added to SF[:,:,newaxis] of shape (n, n, 1). *)
Definition psfao_sf (psd : img) (D samp : R) (nSrc : nat) (ani : option (nat * list img)) (Cn2 : option (list R)) : result (list img) :=
  do s <- psfao_sf0 psd D samp;
  match ani, Cn2 with
  | Some (nlay, planes), Some c =>
      if (length c =? nlay)%nat then
        let n := rows s in
        if negb ((length c =? n) || (length c =? 1))%nat then Err ValueError else
        if negb ((length planes =? n) || (length planes =? 1))%nat then Err ValueError else
        let w j := if (length c =? 1)%nat then nth 0 c 0 else nth j c 0 in
        let A k i := rsum n (fun j => px (nth k planes (mkImg 0 0 (fun _ _ => 0))) i j * w j) in
        Ok (map (fun t => mkImg n n (fun i j => px s i j + A (if (length planes =? 1)%nat then 0%nat else j) t)) (seq 0 n))
      else Ok (repeat s nSrc)
  | _, _ => Ok (repeat s nSrc)
  end.
(** lines 151-168: wavefront errors (nm) from the variance returned by the spectrum model *)
Definition psfao_wfe (wvl var r0 wfe_fit_norm : R) : result (R * R) :=
  do s <- rsqrt var; do r <- rpow r0 (- 5 / 3); do f <- rsqrt r;
  let cte := wvl * 10 ^ 9 / 2 / PI in Ok (s * cte, f * wfe_fit_norm * cte).

(** One frequency domain: OTF side, binning factor, field of view, diameter, sampling,
    normalisation of the jitter, diffraction-limited OTF, pixel OTF, static OTF for given
    coefficients (getStaticOTF), wavelength. *)
Record fdom := mkFdom { f_n : nat; f_k : nat; f_fov : nat; f_D : R; f_samp : R; f_nf2 : R; f_dl : img; f_pix : img; f_static : list R -> img; f_wvl : R; f_ani : option (nat * list img) }.
(** x_jitter of sf_3D_to_psf_3D: three values are read *)
Definition jit3 (nf2 : R) (j : option (list R)) : result (option (R * R * R * R)) :=
  match j with
  | None => Ok None
  | Some l => do a <- pyindex l 0; do b <- pyindex l 1; do c <- pyindex l 2; Ok (Some (nf2, a, b, c))
  end.
(** lines 203-224, one wavelength. [cur]: freq.otfNCPA before the call; the second component
    of the result is freq.otfNCPA after it: FourierUtils.py:465-469 stores the static OTF of
    the coefficients in the frequency domain and never restores it. (Simplification: it is
    stored here as soon as the 3-D function is entered with static coefficients.) *)
Definition psfao_call1 (m : psf_inst) (psdm : list R -> result img) (f : fdom) (cur : img) (npix : nat) (x : list R) : result (list img * list R) * img :=
  match (do s <- sort_params m x;
         do r0 <- (match s_r0 s with Some r => Ok r | None => Err TypeError end);
         do F <- column (s_F s) 0; do dx <- column (s_dx s) 0; do dy <- column (s_dy s) 0; do bkg <- pyindex (s_bkg s) 0;
         do psd <- psdm (r0 :: match s_dphi s with Some l => l | None => [] end);
         do sfs <- psfao_sf psd (f_D f) (f_samp f) (i_star m) (f_ani f) (s_Cn2 s);
         do jit <- jit3 (f_nf2 f) (s_jit s);
         Ok (s, F, dx, dy, bkg, sfs, jit)) with
  | Err e => (Err e, cur)
  | Ok (s, F, dx, dy, bkg, sfs, jit) =>
      let ncpa := match s_stat s with Some xs => f_static f xs | None => cur end in
      (sf_3D_to_psf_3D (f_n f) (f_k f) (f_fov f) npix ncpa (f_dl f) (f_pix f) jit (map px sfs) F dx dy bkg, ncpa)
  end.
(** A sequence of evaluations of the same model object. *)
Fixpoint psfao_run (m : psf_inst) (psdm : list R -> result img) (f : fdom) (cur : img) (npix : nat) (xs : list (list R)) : list (result (list img * list R)) * img :=
  match xs with
  | [] => ([], cur)
  | x :: r => let p := psfao_call1 m psdm f cur npix x in let q := psfao_run m psdm f (snd p) npix r in (fst p :: fst q, snd q)
  end.

(** ** several wavelengths *)
(** lines 58-71 and __init__: after the loop over the wavelengths the source keeps only the
    last wavelength. *)
Definition init_src_wvl (wvl : list R) : list R :=
  if (1 <? length wvl)%nat then fold_left (fun _ w => [w]) wvl wvl else wvl.
(** attributes read by sort_params_from_labels for an object built on these wavelengths *)
Definition psfao_inst (nL nRec nSrc : nat) (spot : list R) (wvl : list R) (trans dx dy : list R) : psf_inst :=
  mkInst (Nat.min nL nRec) nL nRec 6 true spot nSrc (length wvl) (length (init_src_wvl wvl)) trans dx dy.
(** PSF + bkg: a 3-D array (n, n, ns) plus an array of [bkg] values *)
Definition add_bkg (imgs : list img) (bkg : list R) : result (list img) :=
  match bkg with
  | [b] => Ok (map (img_map (fun v => v + b)) imgs)
  | _ => if (length bkg =? length imgs)%nat then Ok (map (fun p => img_map (fun v => v + snd p) (fst p)) (combine imgs bkg))
         else match imgs with
              | [im] => Ok (map (fun b => img_map (fun v => v + b) im) bkg)
              | _ => Err ValueError
              end
  end.
(** lines 225-247, one channel: structure function times (wvl_0/wvl_n)^2, F[:,n], dx[:,n],
    dy[:,n], and the whole list of backgrounds (len(self.ao.src.wvl) = 1). *)
Definition psfao_chan (psdm : list R -> result img) (f : fdom) (cur : img) (npix nSrc : nat) (w0 : R) (k : nat) (s : sorted) (r0 : R) : result (list img * list R) :=
  do psd <- psdm (r0 :: match s_dphi s with Some l => l | None => [] end);
  do sfs <- psfao_sf psd (f_D f) (f_samp f) nSrc (f_ani f) (s_Cn2 s);
  do q <- rdiv w0 (f_wvl f);
  do F <- column (s_F s) k; do dx <- column (s_dx s) k; do dy <- column (s_dy s) k;
  do jit <- jit3 (f_nf2 f) (s_jit s);
  let ncpa := match s_stat s with Some xs => f_static f xs | None => cur end in
  do o <- sf_3D_to_psf_3D (f_n f) (f_k f) (f_fov f) npix ncpa (f_dl f) (f_pix f) jit (map (fun im i j => px im i j * q ^ 2) sfs) F dx dy 0;
  do im <- add_bkg (fst o) (s_bkg s);
  Ok (im, snd o).
Definition psfao_call_multi (m : psf_inst) (chans : list ((list R -> result img) * fdom * img)) (npix : nat) (x : list R) : result (list (list img * list R)) :=
  do s <- sort_params m x;
  do r0 <- (match s_r0 s with Some r => Ok r | None => Err TypeError end);
  do w0 <- (match chans with c :: _ => Ok (f_wvl (snd (fst c))) | [] => Err IndexError end);
  M_Psf.mapM (fun kc => psfao_chan (fst (fst (snd kc))) (snd (fst (snd kc))) (snd (snd kc)) npix (i_star m) w0 (fst kc) s r0) (combine (seq 0 (length chans)) chans).
