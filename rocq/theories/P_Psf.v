(** Properties C07, C08, C41, C42, C44, C45: OTF, PSF and Strehl ratio. *)
From Coq Require Import Reals List Arith ZArith Lia Lra.
From Verif Require Import Base_Py Base_Sum Base_DFT M_Image S_Image L_Image M_Fourier S_Fourier L_Fourier L_Fourier2 L_Fourier3 L_Fourier4 M_Float L_Float M_Psf L_Psf L_Psf2 L_Psf3 L_Psf4 L_Psf5.
From Coquelicot Require Import Complex.
Import ListNotations.
Open Scope R_scope.

(** C07: the OTF of a non-negative PSD is real, in (0,1], 1 at the origin,
    symmetric; and it decreases when the PSD grows. *)
Theorem C07_otf_valid :
  forall (psd : img) (ps : R), (0 < rows psd)%nat -> (0 < cols psd)%nat -> nonneg psd ->
  exists otf, psd2otf psd ps = Ok otf /\ crows otf = rows psd /\ ccols otf = cols psd /\
    cpx otf 0 0 = RtoC 1 /\
    forall u v, (u < rows psd)%nat -> (v < cols psd)%nat ->
      snd (cpx otf u v) = 0 /\ 0 < fst (cpx otf u v) <= 1 /\
      cpx otf (neg_ix (rows psd) u) (neg_ix (cols psd) v) = cpx otf u v.
Proof.
  intros psd ps Hx Hy Hn. destruct (sf_props psd ps Hx Hy Hn) as (cov & sf & Ec & Es & _ & _ & Hr & Hc & H0 & V).
  unfold psd2otf. rewrite Ec. cbn [bind]. rewrite Es. cbn [bind].
  exists (sf2otf sf). split; [reflexivity|]. cbn [sf2otf cmap crows ccols cpx].
  split; [exact Hr|]. split; [exact Hc|]. split.
  - rewrite H0. unfold cexp. cbn. replace (- / 2 * 0 - 0 * 0) with 0 by ring.
    replace (- / 2 * 0 + 0 * 0) with 0 by ring. rewrite exp_0, cos_0, sin_0. apply C_eq; cbn; lra.
  - intros u v Hu Hv. destruct (V u v Hu Hv) as (I & [L _] & S). rewrite S. split; [|split; [|reflexivity]].
    + unfold cexp. cbn. rewrite I. replace (- / 2 * 0 + 0 * fst (cpx sf u v)) with 0 by ring. rewrite sin_0. ring.
    + unfold cexp. cbn. rewrite I. replace (- / 2 * 0 + 0 * fst (cpx sf u v)) with 0 by ring. rewrite cos_0, Rmult_1_r.
      replace (- / 2 * fst (cpx sf u v) - 0 * 0) with (- / 2 * fst (cpx sf u v)) by ring.
      apply exp_neg_le1. exact L.
Qed.
Print Assumptions C07_otf_valid.

(** C07: Strehl ratios returned by sf_3D_to_psf_3D. [dominated n stat dl] :
    |stat| <= dl pixelwise; [sub_unit]: |pix| <= 1; [jitter_valid3]: a
    positive semi-definite jitter matrix. *)
Theorem C07_strehl_range_3D :
  forall n kRef fov npix ncpa dl pix jit sfs F dx dy bkg out srs,
  sf_3D_to_psf_3D n kRef fov npix ncpa dl pix jit sfs F dx dy bkg = Ok (out, srs) ->
  (0 < n)%nat -> rows dl = n -> cols dl = n -> dominated n ncpa dl -> sub_unit n pix -> jitter_valid3 jit ->
  (forall sf, In sf sfs -> sf_nonneg_on n sf) ->
  length srs = length sfs /\ forall s r, nth_error srs s = Some r -> 0 <= r <= 100.
Proof. exact strehl3_range. Qed.
Print Assumptions C07_strehl_range_3D.

Theorem C07_strehl_range_4D :
  forall n kRef fov npix nyq chans dl pix jit sfs x out,
  sf_3D_to_psf_4D n kRef fov npix nyq chans dl pix jit sfs x = Ok out ->
  (0 < n)%nat -> rows dl = n -> cols dl = n -> sub_unit n pix -> jitter_valid4 jit ->
  (forall c, In c chans -> dominated n (c_otf c) dl /\ 0 <= c_nf2 c) ->
  (forall sf, In sf sfs -> sf_nonneg_on n sf) ->
  length out = length chans /\
  forall j imgs srs, nth_error out j = Some (imgs, srs) ->
    length imgs = length sfs /\ length srs = length sfs /\
    forall s r, nth_error srs s = Some r -> 0 <= r <= 100.
Proof. exact strehl4_range. Qed.
Print Assumptions C07_strehl_range_4D.

(** C07: a larger structure function never gives a larger Strehl ratio. *)
Theorem C07_strehl_monotone :
  forall n kRef fov npix ncpa dl pix jit sfs sfs' F dx dy bkg out srs out' srs',
  sf_3D_to_psf_3D n kRef fov npix ncpa dl pix jit sfs F dx dy bkg = Ok (out, srs) ->
  sf_3D_to_psf_3D n kRef fov npix ncpa dl pix jit sfs' F dx dy bkg = Ok (out', srs') ->
  (0 < n)%nat -> 0 < img_sum dl ->
  Forall2 (fun sf sf' => forall i j, (i < n)%nat -> (j < n)%nat -> sf i j <= sf' i j) sfs sfs' ->
  forall s r r', nth_error srs s = Some r -> nth_error srs' s = Some r' -> r' <= r.
Proof. exact strehl3_mono. Qed.
Print Assumptions C07_strehl_monotone.

(** C08: flux, background and size of the delivered PSF; [per_source l s] is
    the s-th value, or the single value when one value is given for all. *)
Theorem C08_flux_3D :
  forall n kRef fov npix ncpa dl pix jit sfs F dx dy bkg out srs,
  sf_3D_to_psf_3D n kRef fov npix ncpa dl pix jit sfs F dx dy bkg = Ok (out, srs) ->
  length out = length sfs /\ length srs = length sfs /\
  forall s, (s < length sfs)%nat -> exists p, nth_error out s = Some p /\
    rows p = Nat.min npix fov /\ cols p = Nat.min npix fov /\
    img_sum p = per_source F s + INR (Nat.min npix fov) * INR (Nat.min npix fov) * bkg.
Proof. exact psf3D_flux. Qed.
Print Assumptions C08_flux_3D.

(** C08: no exception in the nominal geometry (OTF side = field of view x
    binning factor, even; the static and pixel OTFs do not vanish at the
    centre). [pix_ok m]: 1 <= m <= 2^53. *)
Theorem C08_defined_3D :
  forall n kRef fov npix ncpa dl pix jit sfs F dx dy bkg,
  n = (fov * kRef)%nat -> (1 <= kRef)%nat -> pix_ok fov -> (fov <= npix)%nat -> Nat.even n = true ->
  (length F = length sfs \/ length F = 1%nat) ->
  (length dx = length sfs \/ length dx = 1%nat) ->
  (length dy = length sfs \/ length dy = 1%nat) ->
  px ncpa (n / 2)%nat (n / 2)%nat <> 0 -> px pix (n / 2)%nat (n / 2)%nat <> 0 -> img_sum dl <> 0 ->
  exists out srs, sf_3D_to_psf_3D n kRef fov npix ncpa dl pix jit sfs F dx dy bkg = Ok (out, srs).
Proof. exact psf3D_defined. Qed.
Print Assumptions C08_defined_3D.

Theorem C08_flux_4D :
  forall n kRef fov npix nyq chans dl pix jit sfs x out,
  sf_3D_to_psf_4D n kRef fov npix nyq chans dl pix jit sfs x = Ok out ->
  (npix <= fov \/ 2 <= fov)%nat ->
  forall j c s sf, nth_error chans j = Some c -> nth_error sfs s = Some sf ->
  exists y imgs srs img Fcol, x = Some y /\ nth_error out j = Some (imgs, srs) /\ nth_error imgs s = Some img /\
    column (x_F y) j = Ok Fcol /\ rows img = npix /\ cols img = npix /\ (npix <= fov)%nat /\
    img_sum img = per_source Fcol s + INR npix * INR npix * per_source (x_bkg y) j.
Proof. exact psf4D_flux. Qed.
Print Assumptions C08_flux_4D.

Example C08_nonvacuous :
  let one := mkImg 4 4 (fun _ _ => 1) in
  exists out srs p, sf_3D_to_psf_3D 4 2 2 2 one one one None [fun _ _ => 1] [3] [0] [0] 5 = Ok (out, srs) /\
    nth_error out 0 = Some p /\ rows p = 2%nat /\ img_sum p = 23.
Proof.
  cbv zeta.
  destruct (C08_defined_3D 4 2 2 2 (mkImg 4 4 (fun _ _ => 1)) (mkImg 4 4 (fun _ _ => 1)) (mkImg 4 4 (fun _ _ => 1))
     None [fun _ _ => 1] [3] [0] [0] 5) as (out & srs & H);
    [reflexivity|lia|unfold pix_ok; lia|lia|reflexivity|left; reflexivity|left; reflexivity|left; reflexivity
    |cbn [px]; lra|cbn [px]; lra|unfold img_sum; cbn [rows cols px rsum]; lra|].
  - destruct (C08_flux_3D _ _ _ _ _ _ _ _ _ _ _ _ _ _ _ H) as (_ & _ & V).
    destruct (V 0%nat) as (p & Hp & Hr & _ & Hs); [cbn; lia|].
    exists out, srs, p. split; [exact H|]. split; [exact Hp|]. split; [exact Hr|]. rewrite Hs. cbn. lra.
Qed.

(** C41: side of the image cropped to m pixels out of n, in binary64. *)
Theorem C41_crop_exact_when_divides :
  forall m k : Z, (1 <= m)%Z -> (1 <= k)%Z -> (m * k <= 2 ^ 53)%Z -> crop_side (m * k) m = m.
Proof. exact crop_side_divides. Qed.
Print Assumptions C41_crop_exact_when_divides.
Theorem C41_crop_at_most_one_short :
  forall n m : Z, (1 <= m)%Z -> (m <= n)%Z -> (n <= 2 ^ 30)%Z -> crop_side n m = m \/ crop_side n m = (m - 1)%Z.
Proof. exact crop_side_cases. Qed.
Print Assumptions C41_crop_at_most_one_short.
(** C41 refuted: asking for 14 pixels of an 18-pixel field of view always
    raises, because the cropped image has 13 pixels. *)
Theorem C41_crop_refuted :
  crop_side 18 14 = 13%Z /\
  forall otf, crows otf = 18%nat -> ccols otf = 18%nat -> psf_plane otf 1 18 14 = Err ValueError.
Proof.
  assert (E : crop_side 18 14 = 13%Z) by (lazy; reflexivity). split; [exact E|].
  intros otf Hr Hc. unfold psf_plane, cis_empty. rewrite Hr, Hc. cbn [Nat.eqb orb Nat.ltb Nat.leb bind re_img fftshift ifft2 crows ccols rows].
  rewrite Hr.
  destruct (crop_to_id (re_img (fftshift (ifft2 (fftshift otf)))) 18) as (Cr & Cc & _); cbn [re_img fftshift ifft2 crows ccols rows cols]; try assumption.
  {  unfold pix_ok. lia. } 
  set (raw := re_img (fftshift (ifft2 (fftshift otf)))) in *.
   rewrite (assign_plane_same 18 _ Cr Cc).  cbn [bind Nat.eqb]. 
  unfold crop_to at 1. rewrite Cr. change (Z.of_nat 18) with 18%Z. change (Z.of_nat 14) with 14%Z. rewrite E.
  unfold assign_plane, slice2; cbn [rows cols]. rewrite Cr, Cc.
  replace (Z.to_nat (slice_len (Z.of_nat 18) (Z.quot (18 - 13) 2) (Z.quot (18 - 13) 2 + 13))) with 13%nat by (vm_compute; reflexivity).
  reflexivity.
Qed.
Print Assumptions C41_crop_refuted.

(** C42: an integer displacement moves the PSF by exactly that number of
    detector pixels (cyclically), in the 3-D function. *)
Theorem C42_shift_3D :
  forall n kRef fov npix ncpa dl pix jit sfs F bkg ax ay out out' srs srs',
  n = (fov * kRef)%nat -> (1 <= kRef)%nat -> pix_ok fov -> (fov <= npix)%nat -> Nat.even n = true ->
  sf_3D_to_psf_3D n kRef fov npix ncpa dl pix jit sfs F [0] [0] bkg = Ok (out, srs) ->
  sf_3D_to_psf_3D n kRef fov npix ncpa dl pix jit sfs F (map IZR ax) (map IZR ay) bkg = Ok (out', srs') ->
  forall s, (s < length sfs)%nat -> exists p p', nth_error out s = Some p /\ nth_error out' s = Some p' /\
    forall u v, (u < fov)%nat -> (v < fov)%nat ->
      px p' (cyc fov u (zper ax s)) (cyc fov v (zper ay s)) = px p u v.
Proof. exact psf3D_shift. Qed.
Print Assumptions C42_shift_3D.

(** C42 in the 4-D function with at least two wavelengths: for a binning
    factor kRef = k >= 3 or k = 1 the displacement is dx pixels ... *)
Theorem C42_shift_4D :
  forall n kRef fov npix nyq chans dl pix jit sfs y y0 out out0 j c s (dx dy : Z),
  n = (fov * c_k c)%nat -> c_k c = kRef -> (1 <= kRef)%nat -> kRef <> 2%nat ->
  pix_ok fov -> npix = fov -> Nat.even n = true -> (2 <= length chans)%nat ->
  sf_3D_to_psf_4D n kRef fov npix nyq chans dl pix jit sfs (Some y0) = Ok out0 ->
  sf_3D_to_psf_4D n kRef fov npix nyq chans dl pix jit sfs (Some y) = Ok out ->
  x_F y = x_F y0 -> x_bkg y = x_bkg y0 -> shifted4 y0 = false -> shifted4 y = true ->
  nth_error chans j = Some c -> (s < length sfs)%nat ->
  shifts4 (length chans) y (length sfs) s j = Ok (IZR dx, IZR dy) ->
  exists imgs0 srs0 imgs srs p0 p, nth_error out0 j = Some (imgs0, srs0) /\ nth_error out j = Some (imgs, srs) /\
    nth_error imgs0 s = Some p0 /\ nth_error imgs s = Some p /\
    forall u v, (u < fov)%nat -> (v < fov)%nat -> px p (cyc fov u dx) (cyc fov v dy) = px p0 u v.
Proof.
  intros n kRef fov npix nyq chans dl pix jit sfs y y0 out out0 j c s dx dy
    Hn Hk H1 H2 Hf Hp He HW H0 H EF Eb S0 S1 Hc Hs Hsh.
  assert (B : bin_fact_4D kRef = INR (c_k c)).
  { rewrite Hk. unfold bin_fact_4D. destruct (Nat.ltb_spec 2 kRef); [reflexivity|].
    assert (kRef = 1)%nat by lia. subst kRef. rewrite H4. reflexivity. }
  apply (psf4D_shift n kRef fov npix nyq chans dl pix jit sfs y y0 out out0 j c s dx dy dx dy); try assumption.
  - lia.
  - rewrite B. reflexivity.
  - rewrite B. reflexivity.
Qed.
Print Assumptions C42_shift_4D.

(** ... but for kRef = k = 2 an (even) displacement dx moves the PSF by dx/2. *)
Theorem C42_shift_4D_refuted :
  forall n fov npix nyq chans dl pix jit sfs y y0 out out0 j c s (hx hy : Z),
  n = (fov * 2)%nat -> c_k c = 2%nat -> pix_ok fov -> npix = fov -> (2 <= length chans)%nat ->
  sf_3D_to_psf_4D n 2 fov npix nyq chans dl pix jit sfs (Some y0) = Ok out0 ->
  sf_3D_to_psf_4D n 2 fov npix nyq chans dl pix jit sfs (Some y) = Ok out ->
  x_F y = x_F y0 -> x_bkg y = x_bkg y0 -> shifted4 y0 = false -> shifted4 y = true ->
  nth_error chans j = Some c -> (s < length sfs)%nat ->
  shifts4 (length chans) y (length sfs) s j = Ok (IZR (2 * hx), IZR (2 * hy)) ->
  exists imgs0 srs0 imgs srs p0 p, nth_error out0 j = Some (imgs0, srs0) /\ nth_error out j = Some (imgs, srs) /\
    nth_error imgs0 s = Some p0 /\ nth_error imgs s = Some p /\
    forall u v, (u < fov)%nat -> (v < fov)%nat -> px p (cyc fov u hx) (cyc fov v hy) = px p0 u v.
Proof.
  intros n fov npix nyq chans dl pix jit sfs y y0 out out0 j c s hx hy
    Hn Hk Hf Hp HW H0 H EF Eb S0 S1 Hc Hs Hsh.
  apply (psf4D_shift n 2 fov npix nyq chans dl pix jit sfs y y0 out out0 j c s (2 * hx) (2 * hy) hx hy); try assumption.
  - rewrite Hk; exact Hn.
  - lia.
  - rewrite Hn. apply Nat.even_spec. exists fov. lia.
  - rewrite Hk. unfold bin_fact_4D. cbn [Nat.ltb Nat.leb]. rewrite mult_IZR. cbn [INR]. lra.
  - rewrite Hk. unfold bin_fact_4D. cbn [Nat.ltb Nat.leb]. rewrite mult_IZR. cbn [INR]. lra.
Qed.
Print Assumptions C42_shift_4D_refuted.

(** C08 / C42: the 4-D function returns a result in the nominal geometry. *)
Theorem C08_defined_4D :
  forall n kRef k fov npix nyq chans dl pix jit sfs y,
  n = (fov * k)%nat -> (1 <= k)%nat -> pix_ok fov -> npix = fov -> Nat.even n = true ->
  (2 <= length chans)%nat ->
  (forall c, In c chans -> c_k c = k /\ px (c_otf c) (n / 2)%nat (n / 2)%nat <> 0) ->
  px pix (n / 2)%nat (n / 2)%nat <> 0 -> img_sum dl <> 0 ->
  match jit with None => True | Some v => jitter4_active v = true end ->
  mat_shape (x_F y) (length sfs) (length chans) -> mat_shape (x_dx y) (length sfs) (length chans) ->
  mat_shape (x_dy y) (length sfs) (length chans) ->
  (length (x_bkg y) = length chans \/ length (x_bkg y) = 1%nat) ->
  exists out, sf_3D_to_psf_4D n kRef fov npix nyq chans dl pix jit sfs (Some y) = Ok out.
Proof. exact psf4D_defined. Qed.
Print Assumptions C08_defined_4D.

(** Two channels, one source, binning by 2, requested displacement of 2 pixels:
    all hypotheses of C42_shift_4D_refuted hold and the image moves by 1. *)
Example C42_4D_nonvacuous :
  let one := mkImg 8 8 (fun _ _ => 1) in
  let c := mkChan 1 2 one 1 in
  let sf := fun _ _ : nat => 1 in
  let y0 := mkStellar [[1; 1]] [[0; 0]] [[0; 0]] [0] in
  let y := mkStellar [[1; 1]] [[2; 0]] [[0; 0]] [0] in
  exists out0 out,
    sf_3D_to_psf_4D 8 2 4 4 false [c; c] one one None [sf] (Some y0) = Ok out0 /\
    sf_3D_to_psf_4D 8 2 4 4 false [c; c] one one None [sf] (Some y) = Ok out /\
    exists imgs0 srs0 imgs srs p0 p, nth_error out0 0 = Some (imgs0, srs0) /\ nth_error out 0 = Some (imgs, srs) /\
      nth_error imgs0 0 = Some p0 /\ nth_error imgs 0 = Some p /\
      forall u v, (u < 4)%nat -> (v < 4)%nat -> px p (cyc 4 u 1) (cyc 4 v 0) = px p0 u v.
Proof.
  cbv zeta. set (one := mkImg 8 8 (fun _ _ => 1)). set (c := mkChan 1 2 one 1).
  set (sf := fun _ _ : nat => 1).
  assert (DEF : forall a, exists out, sf_3D_to_psf_4D 8 2 4 4 false [c; c] one one None [sf]
      (Some (mkStellar [[1; 1]] [[a; 0]] [[0; 0]] [0])) = Ok out).
  { intros a. apply (C08_defined_4D 8 2 2 4 4 false [c; c] one one None [sf]); try reflexivity; try lia.
    - unfold pix_ok; lia.
    - intros c' [ <-|[ <-|[]]]; (split; [reflexivity|]); cbn [c c_otf one px]; lra.
    - cbn [one px]. lra.
    - unfold img_sum, one; cbn [rows cols px rsum]. lra.
    - split; [reflexivity|]. intros r [ <-|[]]. reflexivity.
    - split; [reflexivity|]. intros r [ <-|[]]. reflexivity.
    - split; [reflexivity|]. intros r [ <-|[]]. reflexivity.
    - right; reflexivity. }
  destruct (DEF 0) as (out0 & E0). destruct (DEF 2) as (out & E). exists out0, out. split; [exact E0|]. split; [exact E|].
  apply (C42_shift_4D_refuted 8 4 4 false [c; c] one one None [sf] (mkStellar [[1; 1]] [[2; 0]] [[0; 0]] [0])
    (mkStellar [[1; 1]] [[0; 0]] [[0; 0]] [0]) out out0 0 c 0 1 0); try reflexivity; try lia; try assumption.
  - unfold pix_ok; lia.
  - unfold shifted4, mat_any, any_nonzero; cbn [x_dx x_dy existsb]. destruct (Req_EM_T 0 0); [reflexivity|lra].
  - unfold shifted4, mat_any, any_nonzero; cbn [x_dx x_dy existsb]. destruct (Req_EM_T 2 0); [lra|reflexivity].
  - cbn [length]. lia.
Qed.

(** C44: inputs that the 4-D function accepts in its signature but always
    refuses. Default stellar parameters: *)
Theorem C44_default_stellar_refuted :
  forall n kRef fov npix nyq c chans dl pix jit sfs,
  exists e, sf_3D_to_psf_4D n kRef fov npix nyq (c :: chans) dl pix jit sfs None = Err e.
Proof. exact psf4D_default_refused. Qed.
Print Assumptions C44_default_stellar_refuted.
(** one wavelength, several sources, some displacement: *)
Theorem C44_monochromatic_shift_refuted :
  forall n kRef fov npix nyq c dl pix jit sf1 sf2 sfs y, shifted4 y = true ->
  exists e, sf_3D_to_psf_4D n kRef fov npix nyq [c] dl pix jit (sf1 :: sf2 :: sfs) (Some y) = Err e.
Proof. exact psf4D_mono_shift_refused. Qed.
Print Assumptions C44_monochromatic_shift_refuted.
(** Nyquist sampling, several wavelengths, zero jitter given explicitly: *)
Theorem C44_zero_jitter_refuted :
  forall n kRef fov npix c c' chans dl pix a sfs x,
  sf_3D_to_psf_4D n kRef fov npix true (c :: c' :: chans) dl pix (Some (0, 0, a)) sfs x = Err UnboundLocalError.
Proof. exact psf4D_nyq_zero_jitter_refused. Qed.
Print Assumptions C44_zero_jitter_refuted.

(** C45: PSFs computed from non-negative PSDs and a pupil (any static phase,
    no jitter, no extra pixel OTF, integer displacements, even OTF grid equal
    to the padded pupil grid) have no negative pixel. *)
Theorem C45_psf_nonnegative :
  forall n kRef fov npix pup apod phase p q stat dl sfs psds (F : list R) (ax ay : list Z) bkg out srs,
  (0 < q)%Z -> (q <= p)%Z -> (0 < rows pup)%nat -> (0 < cols pup)%nat -> rows phase = rows pup -> cols phase = cols pup ->
  (exists i j, (i < rows pup)%nat /\ (j < cols pup)%nat /\ px pup i j * px apod i j <> 0) ->
  getStaticOTF (fun a => a) pup apod phase p q = Ok (stat, dl) -> rows stat = n -> cols stat = n -> Nat.even n = true ->
  Forall2 (fun psd sf => rows psd = n /\ cols psd = n /\ nonneg psd /\
              exists s, phaseStructureFunction psd = Ok s /\ sf = px s) psds sfs ->
  (1 <= kRef)%nat ->
  (forall f, In f F -> 0 <= f) -> 0 <= bkg ->
  sf_3D_to_psf_3D n kRef fov npix stat dl (mkImg n n (fun _ _ => 1)) None sfs F (map IZR ax) (map IZR ay) bkg = Ok (out, srs) ->
  forall im i j, In im out -> 0 <= px im i j.
Proof. exact psf_chain_nonneg. Qed.
Print Assumptions C45_psf_nonnegative.

(** The hypotheses of C45 (and of C07) are met by a 2x2 pupil padded to 4x4, a
    non-trivial phase and a non-trivial PSD; the Strehl ratio is in range. *)
Example C45_nonvacuous :
  let pup := mkImg 2 2 (fun _ _ => 1) in
  let phase := mkImg 2 2 (fun i j => INR i) in
  let psd := mkImg 4 4 (fun i j => INR (i * j)) in
  exists stat dl sf out srs,
    getStaticOTF (fun a => a) pup pup phase 2 1 = Ok (stat, dl) /\ rows stat = 4%nat /\ cols stat = 4%nat /\
    phaseStructureFunction psd = Ok sf /\
    sf_3D_to_psf_3D 4 2 2 2 stat dl (mkImg 4 4 (fun _ _ => 1)) None [px sf] [1] (map IZR [1%Z]) (map IZR [0%Z]) 0 = Ok (out, srs) /\
    length out = 1%nat /\ (forall im i j, In im out -> 0 <= px im i j) /\
    (forall s r, nth_error srs s = Some r -> 0 <= r <= 100).
Proof.
  cbv zeta. set (pup := mkImg 2 2 (fun _ _ => 1)). set (phase := mkImg 2 2 (fun i j => INR i)).
  set (psd := mkImg 4 4 (fun i j => INR (i * j))).
  assert (Hl : exists i j, (i < rows pup)%nat /\ (j < cols pup)%nat /\ px pup i j * px pup i j <> 0).
  { exists 0%nat, 0%nat. cbn. repeat split; try lia. lra. }
  destruct (static_otf_dominated pup pup phase 2 1) as (stat & dl & Hst & Rd & Cd & C1 & C2 & Dom); try (cbn [rows cols pup phase psd]; lia); try exact Hl.
  assert (SZ : rows stat = 4%nat /\ cols stat = 4%nat).
  { unfold getStaticOTF in Hst. cbv zeta in Hst. apply bind_Ok in Hst. destruct Hst as (o & Eo & Hst).
    apply bind_Ok in Hst. destruct Hst as (st & Es & Hst).
    assert (st = stat).
    { destruct (all_zero phase); [apply Ok_inj in Hst; congruence|].
      apply bind_Ok in Hst. destruct Hst as (o0 & _ & Hst). apply bind_Ok in Hst. destruct Hst as (dd & _ & Hst). apply Ok_inj in Hst. congruence. }
    subst st.
    assert (RS : rows stat = crows o /\ cols stat = ccols o).
    { unfold norm_max in Es. apply bind_Ok in Es. destruct Es as (m & _ & Es). unfold img_div in Es.
      destruct (Req_EM_T m 0); [discriminate|]. apply Ok_inj in Es. subst stat. split; reflexivity. }
    assert (AZ : all_zero phase = false).
    { destruct (all_zero phase) eqn:A; [|reflexivity]. apply all_zero_spec with (i := 1%nat) (j := 0%nat) in A; cbn in A |- *; try lia. lra. }
    unfold pupil2otf in Eo. rewrite AZ in Eo.
    cbn [rows cols pup phase Nat.eqb andb negb] in Eo.
    apply bind_Ok in Eo. destruct Eo as (E & EE & Eo). apply bind_Ok in Eo. destruct Eo as (c & Ec & Eo). apply Ok_inj in Eo. subst o.
    unfold cenlarge in EE. apply bind_Ok in EE. destruct EE as (re & Ere & EE). apply bind_Ok in EE. destruct EE as (im & Eim & EE).
    apply Ok_inj in EE. unfold enlargeSupport in Ere. cbn in Ere. apply Ok_inj in Ere.
    assert (RE : crows E = 4%nat /\ ccols E = 4%nat) by (rewrite <- EE; cbn; rewrite <- Ere; split; reflexivity).
    destruct RE as [RE CE].
    destruct (fftCorrel_val E E) as (c' & Ec' & R' & C' & _); try lia; try reflexivity.
    rewrite Ec in Ec'. apply Ok_inj in Ec'. subst c'. cbn [fftshift crows ccols] in RS. destruct RS. split; congruence. }
  destruct SZ as [Rs Cs].
  assert (Np : nonneg psd) by (intros i j _ _; unfold psd; cbn [px]; apply pos_INR).
  destruct (phase_sf_val psd) as (sf & Hsf & Rf & Cf & Vf); try (cbn [rows cols pup phase psd]; lia); try exact Np.
  assert (D00 : px dl 2 2 = 1) by (rewrite <- Rd, <- Cd, Rs, Cs in C2; exact C2).
  assert (S00 : px stat 2 2 = 1) by (rewrite Rs, Cs in C1; exact C1).
  assert (Dpos : forall i j, (i < 4)%nat -> (j < 4)%nat -> 0 <= px dl i j).
  { intros i j Hi Hj. assert (X := Dom i j). rewrite <- Rd, <- Cd, Rs, Cs in X. specialize (X Hi Hj).
    assert (Y := Rabs_pos (px stat i j)). lra. }
  assert (Hdl : img_sum dl <> 0).
  { assert (1 <= img_sum dl); [|lra]. rewrite <- D00. unfold img_sum. rewrite <- Rd, <- Cd, Rs, Cs.
    eapply Rle_trans; [|apply (rsum_term_le 4 _ 2); [|lia]].
    - apply (rsum_term_le 4 (fun j => px dl 2 j)); [|lia]. intros; apply Dpos; lia.
    - intros i Hi. apply rsum_nonneg. intros; apply Dpos; lia. }
  destruct (C08_defined_3D 4 2 2 2 stat dl (mkImg 4 4 (fun _ _ => 1)) None [px sf] [1] (map IZR [1%Z]) (map IZR [0%Z]) 0)
    as (out & srs & H);
    [reflexivity|lia|unfold pix_ok; lia|lia|reflexivity|left; reflexivity|left; reflexivity|left; reflexivity
    |change (4 / 2)%nat with 2%nat; rewrite S00; lra|cbn [px]; lra|exact Hdl|].
  - exists stat, dl, sf, out, srs. split; [exact Hst|]. split; [exact Rs|]. split; [exact Cs|]. split; [exact Hsf|].
    split; [exact H|]. split.
    + destruct (C08_flux_3D _ _ _ _ _ _ _ _ _ _ _ _ _ _ _ H) as (L & _). exact L.
    + split.
      * intros im i j. apply (C45_psf_nonnegative 4 2 2 2 pup pup phase 2 1 stat dl [px sf] [psd] [1] [1%Z] [0%Z] 0 out srs);
          try (cbn [rows cols pup phase psd]; lia); try assumption; try reflexivity; try lra.
        -- constructor; [|constructor]. split; [reflexivity|]. split; [reflexivity|]. split; [exact Np|]. exists sf. split; [exact Hsf|reflexivity].
        -- intros f [ <-|[]]. lra.
      * intros s r. refine (proj2 (C07_strehl_range_3D _ _ _ _ _ _ _ _ _ _ _ _ _ _ _ H _ _ _ _ _ _ _) s r).
        -- lia.
        -- congruence.
        -- congruence.
        -- intros i j Hi Hj. apply Dom; rewrite <- ?Rd, <- ?Cd, ?Rs, ?Cs; assumption.
        -- intros i j _ _. cbn [px]. rewrite Rabs_R1. lra.
        -- exact I.
        -- intros f [ <-|[]]. intros i j _ _. rewrite Vf. apply sf_nonneg. exact Np.
Qed.
