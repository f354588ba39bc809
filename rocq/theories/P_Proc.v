(** C105: image-processing utilities (noise, re-centring, dead pixels, Gaussian fit
    function, interpolated radial profiles). *)
From Coq Require Import Reals List Arith ZArith Lia Lra Psatz Bool FunctionalExtensionality.
From Coq Require Import ZifyBool ZifyNat.
From Flocq Require Import Core.
From Verif Require Import Base_Py Base_Sum Base_DFT M_Image S_Image L_Image L_Image2 M_Fourier S_Fourier L_Fourier L_Fourier2 L_Fourier3 M_Psf L_Psf L_Otf M_Tools L_Tools L_Tools2 M_Proc.
From Coquelicot Require Import Complex.
Import ListNotations.
Open Scope R_scope.

(** ** addNoise *)
(** sample mean of K values *)
Definition smean (K : nat) (f : nat -> R) : R := rsum K f / INR K.

Lemma clip0_max v : clip0 v = Rmax v 0.
Proof. unfold clip0, Rmax. destruct (Rlt_dec v 0), (Rle_dec v 0); lra. Qed.

Lemma smean_plus K f g : smean K (fun k => f k + g k) = smean K f + smean K g.
Proof. unfold smean. rewrite rsum_plus. unfold Rdiv. ring. Qed.
Lemma smean_scal K c f : smean K (fun k => c * f k) = c * smean K f.
Proof. unfold smean. rewrite rsum_scal. unfold Rdiv. ring. Qed.
Lemma smean_const K c : (0 < K)%nat -> smean K (fun _ => c) = c.
Proof.
  intros H. unfold smean. assert (INR K <> 0) by (apply not_0_INR; lia).
  replace (rsum K (fun _ => c)) with (INR K * c). { field. assumption. }
  clear. induction K as [|K IH]; [cbn; ring|]. rewrite S_INR. cbn [rsum]. rewrite <- IH. ring.
Qed.
Lemma smean_ext K f g : (forall k, (k < K)%nat -> f k = g k) -> smean K f = smean K g.
Proof. intros H. unfold smean. f_equal. apply rsum_ext. exact H. Qed.

Lemma addNoise_inv im ron dark sky DIT nDIT g pois out im' : addNoise im ron dark sky DIT nDIT g pois = Ok (out, im') ->
  0 <= nDIT * (ron * ron) + dark * (nDIT * DIT) /\ im' = img_map clip0 im /\ rows out = rows im /\ cols out = cols im /\
  forall i j, px out i j = Rmax (px im i j) 0 + sqrt (nDIT * (ron * ron) + dark * (nDIT * DIT)) * g i j
       + (pois i j (Rmax (px im i j) 0 + sky * (nDIT * DIT)) - sky * (nDIT * DIT)).
Proof.
  unfold addNoise. cbv zeta. destruct (Rlt_dec _ 0) as [|Hs]; [discriminate|]. destruct (existsb _ _); [discriminate|].
  intros H. apply Ok_inj in H. injection H as <- <-. split; [lra|]. split; [reflexivity|]. split; [reflexivity|]. split; [reflexivity|].
  intros i j. cbn [px img_map]. rewrite clip0_max. reflexivity.
Qed.

(** C105: over K realisations whose Gaussian draws average to 0 and whose photon draws average
    to their rate, the noisy images average to TWICE the noise-free one. *)
Theorem C105_noise_mean_refuted : forall im ron dark sky DIT nDIT K g pois out i j, (0 < K)%nat ->
  (forall k, (k < K)%nat -> exists im', addNoise im ron dark sky DIT nDIT (g k) (pois k) = Ok (out k, im')) ->
  smean K (fun k => g k i j) = 0 ->
  (let lam := Rmax (px im i j) 0 + sky * (nDIT * DIT) in smean K (fun k => pois k i j lam) = lam) ->
  smean K (fun k => px (out k) i j) = 2 * Rmax (px im i j) 0.
Proof.
  intros im ron dark sky DIT nDIT K g pois out i j HK Hr Hg Hp. cbv zeta in Hp.
  set (m := Rmax (px im i j) 0) in *. set (S := sky * (nDIT * DIT)) in *. set (s := sqrt (nDIT * (ron * ron) + dark * (nDIT * DIT))).
  rewrite (smean_ext K _ (fun k => (s * g k i j + pois k i j (m + S)) + (m - S))).
  - rewrite smean_plus, smean_plus, smean_scal, smean_const, Hg, Hp by exact HK. ring.
  - intros k Hk. destruct (Hr k Hk) as (im' & E). apply addNoise_inv in E. destruct E as (_ & _ & _ & _ & E). rewrite E. fold m S s. ring.
Qed.

(** C105: the scatter is right: read-out, dark, photon and sky noise. *)
Theorem C105_noise_variance : forall im ron dark sky DIT nDIT K g pois out i j, (0 < K)%nat ->
  (forall k, (k < K)%nat -> exists im', addNoise im ron dark sky DIT nDIT (g k) (pois k) = Ok (out k, im')) ->
  let lam := Rmax (px im i j) 0 + sky * (nDIT * DIT) in
  smean K (fun k => g k i j) = 0 -> smean K (fun k => g k i j * g k i j) = 1 ->
  smean K (fun k => pois k i j lam) = lam ->
  smean K (fun k => (pois k i j lam - lam) * (pois k i j lam - lam)) = lam ->
  smean K (fun k => g k i j * (pois k i j lam - lam)) = 0 ->
  let mu := smean K (fun k => px (out k) i j) in
  smean K (fun k => (px (out k) i j - mu) * (px (out k) i j - mu))
   = nDIT * (ron * ron) + dark * (nDIT * DIT) + Rmax (px im i j) 0 + sky * (nDIT * DIT).
Proof.
  intros im ron dark sky DIT nDIT K g pois out i j HK Hr lam Hg Hg2 Hp Hp2 Hgp mu.
  assert (Emu : mu = 2 * Rmax (px im i j) 0) by (apply (C105_noise_mean_refuted im ron dark sky DIT nDIT K g pois); assumption).
  assert (Hs : 0 <= nDIT * (ron * ron) + dark * (nDIT * DIT)).
  { destruct (Hr 0%nat HK) as (im' & E). apply addNoise_inv in E. apply E. }
  set (s2 := nDIT * (ron * ron) + dark * (nDIT * DIT)) in *.
  rewrite (smean_ext K _ (fun k => s2 * (g k i j * g k i j) + ((2 * sqrt s2) * (g k i j * (pois k i j lam - lam)) + (pois k i j lam - lam) * (pois k i j lam - lam)))).
  - rewrite smean_plus, smean_plus, !smean_scal, Hg2, Hgp, Hp2. unfold lam. ring.
  - intros k Hk. destruct (Hr k Hk) as (im' & E). apply addNoise_inv in E. destruct E as (_ & _ & _ & _ & E). rewrite E, Emu. fold s2 lam.
    assert (Q := sqrt_sqrt s2 Hs). set (r := sqrt s2) in *. clearbody r. rewrite <- Q. unfold lam. ring.
Qed.

(** C105: the caller's image is clipped in place; a second call with the same draws gives the
    same noisy image. *)
Theorem C105_noise_caller : forall im ron dark sky DIT nDIT g pois out im',
  addNoise im ron dark sky DIT nDIT g pois = Ok (out, im') ->
  (forall i j, px im' i j = Rmax (px im i j) 0) /\ addNoise im' ron dark sky DIT nDIT g pois = Ok (out, im').
Proof.
  intros im ron dark sky DIT nDIT g pois out im' H. assert (H' := H). apply addNoise_inv in H'. destruct H' as (_ & E & _).
  split. { intros i j. subst im'. cbn [px img_map]. apply clip0_max. }
  assert (Ei : img_map clip0 im' = im').
  { subst im'. unfold img_map. cbn [rows cols px]. f_equal. extensionality i. extensionality j. rewrite !clip0_max. unfold Rmax. repeat destruct (Rle_dec _ _); lra. }
  rewrite <- H. unfold addNoise. cbv zeta. rewrite Ei, E. reflexivity.
Qed.

(** C105: a sky background so negative that some rate is negative is refused, nothing else is. *)
Theorem C105_noise_fails : forall im ron dark sky DIT nDIT g pois,
  0 <= nDIT * (ron * ron) + dark * (nDIT * DIT) ->
  (is_ok (addNoise im ron dark sky DIT nDIT g pois) = true <->
   forall i j, (i < rows im)%nat -> (j < cols im)%nat -> 0 <= Rmax (px im i j) 0 + sky * (nDIT * DIT)).
Proof.
  intros im ron dark sky DIT nDIT g pois Hs. unfold addNoise. cbv zeta. destruct (Rlt_dec _ 0) as [|_]; [lra|].
  split.
  - destruct (existsb _ _) eqn:E; [discriminate|]. intros _ i j Hi Hj.
    destruct (Rle_dec 0 (Rmax (px im i j) 0 + sky * (nDIT * DIT))) as [|Hn]; [assumption|]. exfalso.
    assert (T : existsb (fun v => if Rlt_dec (v + sky * (nDIT * DIT)) 0 then true else false) (pixels (img_map clip0 im)) = true).
    { apply existsb_exists. exists (clip0 (px im i j)). split.
      - unfold pixels. apply in_flat_map. exists i. split; [apply in_seq; cbn [rows img_map]; lia|]. apply in_map_iff. exists j.
        split; [reflexivity|apply in_seq; cbn [cols img_map]; lia].
      - rewrite clip0_max. destruct (Rlt_dec _ 0); [reflexivity|lra]. }
    congruence.
  - intros Hp. destruct (existsb _ _) eqn:E; [|reflexivity]. exfalso. apply existsb_exists in E. destruct E as (v & Hv & E).
    unfold pixels in Hv. apply in_flat_map in Hv. destruct Hv as (i & Hi & Hv). apply in_seq in Hi. apply in_map_iff in Hv.
    destruct Hv as (j & Ev & Hj). apply in_seq in Hj. cbn [rows cols img_map px] in *. rewrite clip0_max in Ev. specialize (Hp i j ltac:(lia) ltac:(lia)).
    rewrite Ev in Hp. destruct (Rlt_dec _ 0); [lra|discriminate].
Qed.

(** two realisations meeting the hypotheses of the mean theorem: draws +1/-1 and 0/2 photons *)
Example C105_noise_nonvacuous :
  let im := mkImg 1 1 (fun _ _ => 1) in
  let g := fun (k : nat) (_ _ : nat) => if Nat.eqb k 0 then 1 else -1 in
  let pois := fun (k : nat) (_ _ : nat) (_ : R) => if Nat.eqb k 0 then 2 else 0 in
  (forall k, (k < 2)%nat -> exists out im', addNoise im 1 0 0 1 1 (g k) (pois k) = Ok (out, im')) /\
  smean 2 (fun k => g k 0%nat 0%nat) = 0 /\ smean 2 (fun k => pois k 0%nat 0%nat 1) = 1.
Proof.
  cbv zeta. split; [|split; unfold smean; cbn; lra]. intros k Hk.
  assert (E := C105_noise_fails (mkImg 1 1 (fun _ _ => 1)) 1 0 0 1 1 (fun _ _ => if Nat.eqb k 0 then 1 else -1) (fun _ _ _ => if Nat.eqb k 0 then 2 else 0) ltac:(lra)).
  destruct (addNoise _ 1 0 0 1 1 _ _) as [[o i]|] eqn:Q; [eauto|]. exfalso. destruct E as [_ E]. cbn in E. assert (X : false = true); [|discriminate].
  apply E. intros i j _ _. rewrite Rmax_left by lra. lra.
Qed.

(** ** centerPsf *)
(** C105: whatever it does to the position, the flux is kept, at any resampling factor. *)
Theorem C105_centre_flux : forall interp psf rebin out, centerPsf interp psf rebin = Ok out -> img_sum out = img_sum psf.
Proof.
  intros interp psf rebin out H. unfold centerPsf in H. cbv zeta in H.
  apply bindOk in H. destruct H as (hr & _ & H). destruct (argmax_list _) as [[k v]|]; [|discriminate].
  apply bindOk in H. destruct H as (o & _ & H). destruct (negb _); [discriminate|].
  apply bindOk in H. destruct H as (cor & _ & H). apply bindOk in H. destruct H as (lr & _ & H).
  assert (Hz : img_sum lr <> 0). { intros Z. unfold img_div in H. rewrite Z in H. destruct (Req_EM_T 0 0); [discriminate|congruence]. }
  apply img_div_sum in H. rewrite H. unfold img_sum at 1, img_map. cbn [rows cols px].
  rewrite (rsum_ext _ _ (fun i => img_sum psf * rsum (cols lr) (fun j => px lr i j))) by (intros; apply rsum_scal).
  rewrite rsum_scal. fold (img_sum lr). field. exact Hz.
Qed.

Lemma shift_even_Z n i : (0 < n)%nat -> Nat.even n = true -> (i < n)%nat ->
  exists q, (Z.of_nat (shift_ix n i) - Z.of_nat (n / 2) = Z.of_nat i + Z.of_nat n * q)%Z.
Proof.
  intros Hn Hev Hi. rewrite even_shift by exact Hev. unfold ishift_ix.
  assert (E := Nat.div_mod (i + n / 2) n ltac:(lia)). exists (- Z.of_nat ((i + n / 2) / n))%Z. nia.
Qed.

Lemma W_shift_even n (a : Z) i : (0 < n)%nat -> Nat.even n = true -> (i < n)%nat ->
  W n (a * (Z.of_nat (shift_ix n i) - Z.of_nat (n / 2))) = W n (a * Z.of_nat i).
Proof.
  intros Hn Hev Hi. destruct (shift_even_Z n i Hn Hev Hi) as (q & ->).
  replace (a * (Z.of_nat i + Z.of_nat n * q))%Z with (a * Z.of_nat i + Z.of_nat n * (a * q))%Z by ring. apply W_per. exact Hn.
Qed.

Lemma phasors n (a b : Z) dx dy i j : (0 < n)%nat -> dx = 2 * IZR a + 1 -> dy = 2 * IZR b + 1 ->
  Cmult (centre_phasor n dx dy i j) (cos (PI * (fftfreq_shifted n j + fftfreq_shifted n i)), sin (PI * (fftfreq_shifted n j + fftfreq_shifted n i)))
  = Cmult (W n (a * (Z.of_nat i - Z.of_nat (n / 2)))) (W n (b * (Z.of_nat j - Z.of_nat (n / 2)))).
Proof.
  intros Hn -> ->. assert (Hn0 : INR n <> 0) by (apply not_0_INR; lia).
  rewrite WW. unfold centre_phasor, Cmult. cbn [fst snd].
  set (t := PI * (fftfreq_shifted n j * (2 * IZR b + 1) + fftfreq_shifted n i * (2 * IZR a + 1))).
  set (t' := PI * (fftfreq_shifted n j + fftfreq_shifted n i)).
  set (w := ang n (a * (Z.of_nat i - Z.of_nat (n / 2))) + ang n (b * (Z.of_nat j - Z.of_nat (n / 2)))).
  assert (E : w = t - t').
  { unfold w, t, t', ang, fftfreq_shifted. rewrite !mult_IZR, !minus_IZR, <- !INR_IZR_INZ. field. exact Hn0. }
  rewrite E, cos_neg, sin_neg, cos_minus, sin_minus. apply C_eq; cbn [fst snd]; ring.
Qed.

Lemma shift_shift_even n i : Nat.even n = true -> (i < n)%nat -> shift_ix n (shift_ix n i) = i.
Proof. intros Hev Hi. rewrite (even_shift n i Hev). apply shift_ishift. exact Hi. Qed.

Lemma centre_core psf n p q (a b : Z) : rows psf = n -> cols psf = n -> Nat.even n = true -> is_peak psf p q -> img_sum psf <> 0 ->
  INR n / 2 - INR p = 2 * IZR a + 1 -> INR n / 2 - INR q = 2 * IZR b + 1 ->
  forall interp, exists out, centerPsf interp psf 1 = Ok out /\ rows out = n /\ cols out = n /\
   forall u v, (u < n)%nat -> (v < n)%nat -> px out (cyc n u a) (cyc n v b) = px psf u v.
Proof.
  intros Hr Hc Hev Hp HS Ea Eb interp. assert (Hp' := Hp). destruct Hp' as (Hpr & Hqc & _). rewrite Hr in Hpr. rewrite Hc in Hqc.
  assert (Hn : (0 < n)%nat) by lia.
  unfold centerPsf. cbv zeta. change (1 <? 1)%nat with false. cbn [bind]. rewrite (argmax_peak psf p q Hp), !Hr, !Hc, !Nat.mul_1_r.
  assert (E1 : ((p * n + q) / n = p)%nat) by (rewrite Nat.div_add_l by lia; rewrite Nat.div_small by lia; lia).
  assert (E2 : ((p * n + q) mod n = q)%nat) by (rewrite Nat.add_comm, Nat.mod_add by lia; apply Nat.mod_small; lia).
  rewrite E1, E2. unfold psf2otf. assert (Ee : cis_empty (to_c psf) = false) by (unfold cis_empty, to_c; cbn; lia). rewrite Ee.
  destruct (Req_EM_T (img_sum psf) 0) as [|_]; [contradiction|]. cbn [bind].
  set (S := img_sum psf) in *.
  cbn [fftshift cmap fft2 to_c crows ccols]. rewrite Hr, Hc, Nat.eqb_refl. cbn [negb]. rewrite Ea, Eb. cbn [cpx fftshift cmap fft2 to_c crows ccols]. rewrite Hr, Hc.
  set (F := dft2 n n (fun i j => RtoC (px psf (shift_ix n i) (shift_ix n j)))).
  set (otf := mkC n n _). unfold otf2psf. assert (Eo : cis_empty otf = false) by (unfold cis_empty, otf; cbn; lia). rewrite Eo.
  change (crows otf) with n. change (ccols otf) with n. rewrite Hev, Nat.eqb_refl. cbn [negb bind].
  match goal with |- context [fftshift ?p] => match p with mkC _ _ _ => set (ph := p) end end.
  assert (Hph : forall i j, (i < n)%nat -> (j < n)%nat -> cpx (fftshift ph) i j = Cmult (Cdiv (F i j) (RtoC S)) (Cmult (W n (a * Z.of_nat i)) (W n (b * Z.of_nat j)))).
  { intros i j Hi Hj. unfold ph, otf. cbn [fftshift cpx crows ccols]. rewrite <- Cmult_assoc, (phasors n a b _ _ _ _ Hn eq_refl eq_refl).
    rewrite !shift_shift_even by assumption. rewrite !W_shift_even by assumption. reflexivity. }
  set (raw := re_img (fftshift (ifft2 (fftshift ph)))).
  assert (Hraw : forall u v, (u < n)%nat -> (v < n)%nat -> px raw (cyc n u a) (cyc n v b) = px psf u v / S).
  { intros u v Hu Hv. unfold raw. cbn [re_img px fftshift cpx crows ccols ifft2]. change (crows ph) with n. change (ccols ph) with n.
    rewrite !shift_cyc by exact Hn.
    rewrite (idft2_ext n n _ (fun i j => Cmult (Cdiv (F i j) (RtoC S)) (Cmult (W n (a * Z.of_nat i)) (W n (b * Z.of_nat j))))).
    2:{ intros i j Hi Hj. exact (Hph i j Hi Hj). }
    rewrite (idft2_modulate n (fun i j => Cdiv (F i j) (RtoC S)) a b _ _ Hn).
    assert (Elin : idft2 n n (fun i j => Cdiv (F i j) (RtoC S)) (shift_ix n u) (shift_ix n v) = Cmult (RtoC (/ S)) (idft2 n n F (shift_ix n u) (shift_ix n v))).
    { unfold idft2. rewrite (csum_ext n _ (fun i => Cmult (RtoC (/ S)) (csum n (fun j => Cmult (F i j)
         (Cmult (W n (- (Z.of_nat (shift_ix n u) * Z.of_nat i))) (W n (- (Z.of_nat (shift_ix n v) * Z.of_nat j)))))))).
      - rewrite csum_scal. unfold Cdiv. ring.
      - intros i _. rewrite <- csum_scal. apply csum_ext. intros j _. unfold Cdiv. rewrite <- (RtoC_inv S HS). ring. }
    rewrite Elin. unfold F. rewrite idft2_dft2 by (apply shift_ix_lt; exact Hn). rewrite !shift_shift_even by assumption.
    rewrite fst_scal. cbn [fst RtoC]. unfold Rdiv. ring. }
  assert (HsR : img_sum raw = 1).
  { unfold raw. rewrite sum_ifft by (cbn; exact Hn). rewrite Hph by exact Hn. change (Z.of_nat 0) with 0%Z. rewrite !Z.mul_0_r, !W_0, !Cmult_1_r.
    unfold F, dft2. rewrite (csum_ext n _ (fun i => RtoC (rsum n (fun j => px psf (shift_ix n i) (shift_ix n j))))).
    - rewrite csum_RtoC. unfold Cdiv. rewrite <- RtoC_inv by exact HS. rewrite <- RtoC_mult. cbn [fst RtoC].
      rewrite (rsum_shift n (fun i => rsum n (fun j => px psf i (shift_ix n j)))) by exact Hn.
      rewrite (rsum_ext n _ (fun i => rsum n (fun j => px psf i j))) by (intros i _; apply (rsum_shift n (fun j => px psf i j)); exact Hn).
      replace (rsum n (fun i => rsum n (fun j => px psf i j))) with S. { field. exact HS. }
      unfold S, img_sum. rewrite Hr, Hc. reflexivity.
    - intros i _. rewrite <- csum_RtoC. apply csum_ext. intros j _. change (Z.of_nat 0) with 0%Z. rewrite !Z.mul_0_l, !W_0, !Cmult_1_r. reflexivity. }
  rewrite HsR. unfold img_div at 1. destruct (Req_EM_T 1 0) as [|_]; [lra|]. cbn [bind].
  unfold interpolate_img. cbn [img_map rows cols]. change (rows raw) with n. change (cols raw) with n. rewrite Nat.eqb_refl. cbn [andb bind].
  assert (Hs2 : img_sum (img_map (fun x => x / 1) raw) = 1).
  { transitivity (img_sum raw); [|exact HsR]. unfold img_sum, img_map. cbn [rows cols px]. apply rsum_ext; intros. apply rsum_ext; intros. field. }
  unfold img_div. rewrite Hs2. destruct (Req_EM_T 1 0) as [|_]; [lra|].
  eexists. split; [reflexivity|]. split; [reflexivity|]. split; [reflexivity|].
  intros u v Hu Hv. cbn [img_map px]. rewrite Hraw by assumption. field. exact HS.
Qed.

(** C105: on an even square image whose maximum is an odd number of pixels from the centre on
    both axes, the result is the input moved cyclically by HALF (rounded down) of the distance
    to the centre. *)
Theorem C105_centre_moves : forall interp psf h p q (a b : Z), rows psf = (2 * h)%nat -> cols psf = (2 * h)%nat -> is_peak psf p q -> img_sum psf <> 0 ->
  (Z.of_nat h - Z.of_nat p = 2 * a + 1)%Z -> (Z.of_nat h - Z.of_nat q = 2 * b + 1)%Z ->
  exists out, centerPsf interp psf 1 = Ok out /\ rows out = (2 * h)%nat /\ cols out = (2 * h)%nat /\
   forall u v, (u < 2 * h)%nat -> (v < 2 * h)%nat -> px out (cyc (2 * h) u a) (cyc (2 * h) v b) = px psf u v.
Proof.
  intros interp psf h p q a b Hr Hc Hp HS Ea Eb. apply (centre_core psf (2 * h) p q a b); try assumption.
  - rewrite Nat.even_mul. reflexivity.
  - rewrite mult_INR. cbn [INR]. replace ((1 + 1) * INR h / 2) with (INR h) by field. rewrite !INR_IZR_INZ, <- minus_IZR, Ea, plus_IZR, mult_IZR. reflexivity.
  - rewrite mult_INR. cbn [INR]. replace ((1 + 1) * INR h / 2) with (INR h) by field. rewrite !INR_IZR_INZ, <- minus_IZR, Eb, plus_IZR, mult_IZR. reflexivity.
Qed.

(** C105: so the brightest pixel is NOT brought to the centre (h,h): it lands at
    (h-1-a, h-1-b), half way, and is central only when it was at (h+1,h+1). *)
Theorem C105_centre_refuted : forall interp psf h p q (a b : Z), rows psf = (2 * h)%nat -> cols psf = (2 * h)%nat -> is_peak psf p q -> img_sum psf <> 0 ->
  (forall i j, (i < 2 * h)%nat -> (j < 2 * h)%nat -> (i, j) <> (p, q) -> px psf i j < px psf p q) ->
  (Z.of_nat h - Z.of_nat p = 2 * a + 1)%Z -> (Z.of_nat h - Z.of_nat q = 2 * b + 1)%Z ->
  exists out p' q', centerPsf interp psf 1 = Ok out /\ (Z.of_nat p' = Z.of_nat h - 1 - a)%Z /\ (Z.of_nat q' = Z.of_nat h - 1 - b)%Z /\
   px out p' q' = px psf p q /\
   (forall i j, (i < 2 * h)%nat -> (j < 2 * h)%nat -> (i, j) <> (p', q') -> px out i j < px out p' q') /\
   ((p', q') = (h, h) <-> (p, q) = (S h, S h)).
Proof.
  intros interp psf h p q a b Hr Hc Hp HS Huniq Ea Eb.
  destruct (C105_centre_moves interp psf h p q a b Hr Hc Hp HS Ea Eb) as (out & Eo & _ & _ & Hm).
  destruct Hp as (Hpr & Hqc & _). rewrite Hr in Hpr. rewrite Hc in Hqc.
  exists out, (cyc (2 * h) p a), (cyc (2 * h) q b).
  assert (Cp : Z.of_nat (cyc (2 * h) p a) = (Z.of_nat h - 1 - a)%Z).
  { unfold cyc. rewrite Z.mod_small by lia. lia. }
  assert (Cq : Z.of_nat (cyc (2 * h) q b) = (Z.of_nat h - 1 - b)%Z).
  { unfold cyc. rewrite Z.mod_small by lia. lia. }
  split; [exact Eo|]. split; [exact Cp|]. split; [exact Cq|]. split; [apply Hm; assumption|]. split.
  - intros i j Hi Hj Hne. assert (Hn : (0 < 2 * h)%nat) by lia.
    assert (B : forall n i D, (i < n)%nat -> cyc n (cyc n i (- D)) D = i).
    { clear. intros n i D Hi. unfold cyc. assert (H := Z.mod_pos_bound (Z.of_nat i + - D) (Z.of_nat n) ltac:(lia)). rewrite Z2Nat.id by lia.
      rewrite Z.add_mod_idemp_l by lia. replace (Z.of_nat i + - D + D)%Z with (Z.of_nat i) by ring. rewrite Z.mod_small by lia. lia. }
    rewrite <- (B (2 * h)%nat i a Hi), <- (B (2 * h)%nat j b Hj). rewrite !Hm by (try apply cyc_lt; lia). apply Huniq; try (apply cyc_lt; lia).
    intros E. assert (E1 := f_equal fst E). assert (E2 := f_equal snd E). cbn [fst snd] in E1, E2. apply Hne. rewrite <- (B (2 * h)%nat i a Hi), <- (B (2 * h)%nat j b Hj), E1, E2. reflexivity.
  - split; intros E; assert (E1 := f_equal fst E); assert (E2 := f_equal snd E); cbn [fst snd] in E1, E2; f_equal; lia.
Qed.

(** C105: a rectangular image is refused. *)
Theorem C105_centre_rect : forall interp psf, (0 < rows psf)%nat -> (0 < cols psf)%nat -> rows psf <> cols psf -> img_sum psf <> 0 ->
  centerPsf interp psf 1 = Err ValueError.
Proof.
  intros interp psf Hr Hc Hne HS. unfold centerPsf. cbv zeta. change (1 <? 1)%nat with false. cbn [bind].
  destruct (argmax_list _) as [[k v]|]; [|reflexivity]. unfold psf2otf.
  assert (Ee : cis_empty (to_c psf) = false) by (unfold cis_empty, to_c; cbn; lia). rewrite Ee.
  destruct (Req_EM_T (img_sum psf) 0) as [|_]; [contradiction|]. cbn [bind fftshift cmap fft2 to_c crows ccols].
  destruct (Nat.eqb_spec (rows psf) (cols psf)); [contradiction|]. reflexivity.
Qed.

Definition ex_psf : img := mkImg 8 8 (fun i j => if ((i =? 1)%nat && (j =? 3)%nat)%bool then 3 else 1).
Example C105_centre_nonvacuous : is_peak ex_psf 1 3 /\ img_sum ex_psf <> 0 /\
  (Z.of_nat 4 - Z.of_nat 1 = 2 * 1 + 1)%Z /\ (Z.of_nat 4 - Z.of_nat 3 = 2 * 0 + 1)%Z.
Proof.
  split; [|split; [unfold img_sum; cbn; lra|split; reflexivity]].
  unfold is_peak, ex_psf. cbn [rows cols px]. split; [lia|]. split; [lia|].
  assert (B : forall i j, ((i =? 1)%nat && (j =? 3)%nat)%bool = true -> i = 1%nat /\ j = 3%nat) by (intros; lia).
  split.
  - intros i j _ _. destruct ((i =? 1)%nat && (j =? 3)%nat)%bool; cbn; lra.
  - intros i j Hi Hj Hlt. destruct ((i =? 1)%nat && (j =? 3)%nat)%bool eqn:E; cbn; [|lra]. apply B in E. lia.
Qed.

Print Assumptions C105_noise_mean_refuted.
Print Assumptions C105_noise_variance.
Print Assumptions C105_noise_caller.
Print Assumptions C105_noise_fails.
Print Assumptions C105_centre_flux.
Print Assumptions C105_centre_moves.
Print Assumptions C105_centre_refuted.
Print Assumptions C105_centre_rect.
