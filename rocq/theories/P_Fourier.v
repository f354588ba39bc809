(** Properties C06, C12, C13, C43 (static part): Fourier tools. *)
From Coq Require Import Reals List Arith ZArith Lia Lra.
From Verif Require Import Base_Py Base_Sum Base_DFT M_Image S_Image L_Image M_Fourier S_Fourier L_Fourier L_Fourier2 L_Fourier3 L_Fourier4.
From Coquelicot Require Import Complex.
Open Scope R_scope.

(** C06: psd2cov followed by cov2sf on a non-negative PSD. *)
Theorem C06_structure_function :
  forall (psd : img) (ps : R), (0 < rows psd)%nat -> (0 < cols psd)%nat -> nonneg psd ->
  exists cov sf, psd2cov psd ps = Ok cov /\ cov2sf cov = Ok sf /\
    (* the lexicographic complex maximum is the zero-lag covariance = variance *)
    carr_max cov = Ok (cpx cov 0 0) /\ cpx cov 0 0 = RtoC (ps * ps * img_sum psd) /\
    crows sf = rows psd /\ ccols sf = cols psd /\
    cpx sf 0 0 = RtoC 0 /\
    forall u v, (u < rows psd)%nat -> (v < cols psd)%nat ->
      snd (cpx sf u v) = 0 /\ 0 <= fst (cpx sf u v) <= 4 * (ps * ps * img_sum psd) /\
      cpx sf (neg_ix (rows psd) u) (neg_ix (cols psd) v) = cpx sf u v.
Proof. exact sf_props. Qed.
Print Assumptions C06_structure_function.

(** C06: on an even grid, with the zero frequency stored at n/2 (the layout of
    every PSD of the package), the result is the physical structure function. *)
Theorem C06_even_grid_physical :
  forall (cov sf : carr) (a : img) (ps : R),
  (0 < rows a)%nat -> (0 < cols a)%nat -> nonneg a ->
  Nat.even (rows a) = true -> Nat.even (cols a) = true ->
  psd2cov a ps = Ok cov -> cov2sf cov = Ok sf ->
  forall u v, cpx sf u v =
    RtoC (ps * ps * structure_function a (rows a / 2) (cols a / 2) (Z.of_nat u) (Z.of_nat v)).
Proof. exact sf_even. Qed.
Print Assumptions C06_even_grid_physical.

(** C06: same for fourierModel.phaseStructureFunction (origin at n/2). *)
Theorem C06_phaseStructureFunction :
  forall psd : img, (0 < rows psd)%nat -> (0 < cols psd)%nat -> nonneg psd ->
  exists sf, phaseStructureFunction psd = Ok sf /\ rows sf = rows psd /\ cols sf = cols psd /\
    px sf (rows psd / 2) (cols psd / 2) = 0 /\
    (forall i j, 0 <= px sf i j <= 4 * img_sum psd) /\
    (Nat.even (rows psd) = true -> Nat.even (cols psd) = true ->
     forall i j, px sf i j = structure_function psd (rows psd / 2) (cols psd / 2)
        (Z.of_nat i - Z.of_nat (rows psd / 2)) (Z.of_nat j - Z.of_nat (cols psd / 2))).
Proof. exact phase_sf_props. Qed.
Print Assumptions C06_phaseStructureFunction.

(** C06: linearity in the PSD (non-negative combinations). *)
Theorem C06_linear :
  forall (x y : img) (a b : R) sx sy s, rows x = rows y -> cols x = cols y ->
  (0 < rows x)%nat -> (0 < cols x)%nat -> nonneg x -> nonneg y -> 0 <= a -> 0 <= b ->
  phaseStructureFunction x = Ok sx -> phaseStructureFunction y = Ok sy ->
  phaseStructureFunction (mkImg (rows x) (cols x) (fun i j => a * px x i j + b * px y i j)) = Ok s ->
  forall i j, px s i j = a * px sx i j + b * px sy i j.
Proof. exact phase_sf_linear. Qed.
Print Assumptions C06_linear.

(** C06 refuted on odd grids: a PSD that contains only the zero frequency
    (piston), whose structure function is identically zero, gets a non-zero one. *)
Theorem C06_odd_grid_refuted :
  forall n : nat, (3 <= n)%nat -> Nat.even n = false ->
  let psd := mkImg n n (fun i j => if ((i =? n / 2) && (j =? n / 2))%nat%bool then 1 else 0) in
  (forall s t, structure_function psd (n / 2) (n / 2) s t = 0) /\
  exists sf, phaseStructureFunction psd = Ok sf /\ 0 < px sf (n / 2 + 1) (n / 2).
Proof. exact odd_refuted. Qed.
Print Assumptions C06_odd_grid_refuted.

Example C06_nonvacuous :
  exists sf, phaseStructureFunction (mkImg 2 2 (fun i j => if ((i =? 0) && (j =? 1))%nat%bool then 1 else 0)) = Ok sf
    /\ px sf 0 1 = 4.
Proof.
  destruct (C06_phaseStructureFunction (mkImg 2 2 (fun i j => if ((i =? 0) && (j =? 1))%nat%bool then 1 else 0)))
    as (sf & H & _ & _ & _ & _ & V); cbn [rows cols px]; try lia.
  - intros i j _ _; cbn [px]. destruct (_ && _)%bool; lra.
  - exists sf. split; [exact H|]. rewrite V by reflexivity.
    unfold structure_function, wave. cbn [rows cols px rsum Nat.div Nat.divmod fst snd Nat.eqb andb INR Z.of_nat Pos.of_succ_nat Z.sub Z.opp Z.add Z.pos_sub Pos.succ].
    replace (2 * PI * (-1 * -1 / (1 + 1) + 0 * 0 / (1 + 1))) with PI by field.
    rewrite cos_PI. lra.
Qed.

(** C12 refuted: whatever the size n >= 2, fftsym is not the reversal
    x(-u): some array is not reversed (its last row and column are zeroed). *)
Theorem C12_fftsym_refuted :
  forall n : nat, (2 <= n)%nat ->
  exists x : nat -> nat -> C, exists i j, (i < n)%nat /\ (j < n)%nat /\
    fftsym n x i j <> x (neg_ix n i) (neg_ix n j).
Proof. exact fftsym_wrong. Qed.
Print Assumptions C12_fftsym_refuted.

(** C12: for every x the last row and the last column are zero, and any
    interior output sample is a diagonal sample of the input. *)
Theorem C12_fftsym_damage :
  forall (n : nat) (x : nat -> nat -> C), (2 <= n)%nat ->
  (forall i, fftsym n x i (n - 1) = RtoC 0 /\ fftsym n x (n - 1) i = RtoC 0) /\
  (forall i j, (1 <= i)%nat -> (i < n - 1)%nat -> (1 <= j)%nat -> (j < n - 1)%nat ->
     fftsym n x i j = x (n - j)%nat (n - j)%nat).
Proof.
  intros n x Hn. split.
  - intros i. apply fftsym_last_zero; exact Hn.
  - intros. apply fftsym_interior; assumption.
Qed.
Print Assumptions C12_fftsym_damage.

(** C13: completion of a half spectrum. *)
Theorem C13_rfft2_to_fft2 :
  forall a : img, (0 < rows a)%nat -> (0 < cols a)%nat ->
  exists out, rfft2_to_fft2 (rows a) (cols a) (rfft2 a) = Ok out /\
    crows out = rows a /\ ccols out = cols a /\
    forall i j, (i < rows a)%nat -> (j < cols a)%nat -> cpx out i j = cpx (fft2 (to_c a)) i j.
Proof. exact rfft2_to_fft2_correct. Qed.
Print Assumptions C13_rfft2_to_fft2.

Example C13_nonvacuous :
  exists out, rfft2_to_fft2 2 3 (rfft2 (mkImg 2 3 (fun i j => INR (i + j)))) = Ok out /\
    cpx out 0 0 = RtoC 9.
Proof.
  destruct (C13_rfft2_to_fft2 (mkImg 2 3 (fun i j => INR (i + j)))) as (o & H & _ & _ & V); cbn [rows cols]; try lia.
  exists o. split; [exact H|]. rewrite V by (cbn [rows cols]; lia). 
  unfold fft2, to_c, dft2; cbn [cpx crows ccols rows cols px csum Z.of_nat Z.mul].
  rewrite !W_0. apply C_eq; cbn; lra.
Qed.

(** C43: otf2psf always returns an image of unit sum. *)
Theorem C43_otf2psf_unit_sum :
  forall otf b psf, otf2psf otf b = Ok psf -> img_sum psf = 1.
Proof. exact otf2psf_sum. Qed.
Print Assumptions C43_otf2psf_unit_sum.

(** C43: static aberrations never increase the modulus of the OTF, and both
    OTFs take the same value (energy of the pupil / number of pixels) at the
    origin: after normalisation the aberrated Strehl ratio is at most 1. *)
Theorem C43_static_aberration :
  forall (pup phase : img) (p q : Z), (0 < q)%Z -> (q <= p)%Z ->
  (0 < rows pup)%nat -> (0 < cols pup)%nat -> rows phase = rows pup -> cols phase = cols pup ->
  exists o o0, pupil2otf pup phase p q = Ok o /\
    pupil2otf pup (img_map (fun v => 0 * v) phase) p q = Ok o0 /\
    crows o = crows o0 /\ ccols o = ccols o0 /\
    (forall i j, snd (cpx o0 i j) = 0 /\ 0 <= fst (cpx o0 i j)
                 <= rsum (rows pup) (fun i => rsum (cols pup) (fun j => px pup i j * px pup i j)) / (INR (crows o) * INR (ccols o))) /\
    (forall i j, Cmod (cpx o i j) <= fst (cpx o0 i j)) /\
    fst (cpx o (crows o / 2)%nat (ccols o / 2)%nat) = fst (cpx o0 (crows o / 2)%nat (ccols o / 2)%nat) /\
    fst (cpx o (crows o / 2)%nat (ccols o / 2)%nat) =
      rsum (rows pup) (fun i => rsum (cols pup) (fun j => px pup i j * px pup i j)) / (INR (crows o) * INR (ccols o)).
Proof. exact static_aberration. Qed.
Print Assumptions C43_static_aberration.

(** C43: without resampling (interpolation = identity), for a pupil with some
    light, getStaticOTF returns OTFs with |otfStat| <= otfDL <= 1, both 1 at
    the centre. *)
Theorem C43_getStaticOTF :
  forall (pup apod phase : img) (p q : Z), (0 < q)%Z -> (q <= p)%Z ->
  (0 < rows pup)%nat -> (0 < cols pup)%nat -> rows phase = rows pup -> cols phase = cols pup ->
  (exists i j, (i < rows pup)%nat /\ (j < cols pup)%nat /\ px pup i j * px apod i j <> 0) ->
  exists s d, getStaticOTF (fun a => a) pup apod phase p q = Ok (s, d) /\
    rows s = rows d /\ cols s = cols d /\
    px s (rows s / 2) (cols s / 2) = 1 /\ px d (rows d / 2) (cols d / 2) = 1 /\
    forall i j, (i < rows d)%nat -> (j < cols d)%nat -> Rabs (px s i j) <= px d i j <= 1.
Proof. exact static_otf_dominated. Qed.
Print Assumptions C43_getStaticOTF.

Example C43_nonvacuous :
  let pup := mkImg 2 2 (fun _ _ => 1) in
  exists s d, getStaticOTF (fun a => a) pup pup (mkImg 2 2 (fun i j => INR i)) 2 1 = Ok (s, d).
Proof.
  cbv zeta.
  destruct (C43_getStaticOTF (mkImg 2 2 (fun _ _ => 1)) (mkImg 2 2 (fun _ _ => 1)) (mkImg 2 2 (fun i j => INR i)) 2 1)
    as (s & d & H & _); cbn [rows cols px]; try lia.
  - exists 0%nat, 0%nat. repeat split; try lia. lra.
  - eauto.
Qed.
