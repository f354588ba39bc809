(** Lemmas: structure function of the psfao21 model. *)
From Coq Require Import Reals List Arith ZArith Lia Lra Psatz FunctionalExtensionality.
From Coq Require Import ZifyBool ZifyNat.
From Verif Require Import Base_Py Base_Sum Base_DFT M_Image S_Image L_Image L_Image2 M_Fourier S_Fourier L_Fourier L_Fourier2 L_Fourier3 M_Psf M_Psfao.
From Coquelicot Require Import Complex.
Import ListNotations.
Open Scope R_scope.

Lemma rfft2_scal a c : c <> 0 -> cmap (fun z => Cdiv z (RtoC c)) (rfft2 a) = rfft2 (img_map (fun v => v / c) a).
Proof.
  intros Hc. unfold rfft2, cmap, img_map, fft2, to_c. cbn [crows ccols cpx rows cols px]. f_equal.
  apply functional_extensionality; intro u. apply functional_extensionality; intro v.
  unfold dft2. unfold Cdiv. rewrite Cmult_comm, <- csum_scal. apply csum_ext; intros i _. rewrite <- csum_scal. apply csum_ext; intros j _.
  rewrite RtoC_div by exact Hc. unfold Cdiv. ring.
Qed.
Lemma sf_div psd c a0 b0 s t : structure_function (img_map (fun v => v / c) psd) a0 b0 s t = structure_function psd a0 b0 s t / c.
Proof.
  unfold structure_function, img_map. cbn [rows cols px]. unfold Rdiv. rewrite Rmult_assoc. f_equal.
  rewrite <- rsum_scal_r. apply rsum_ext; intros i _. rewrite <- rsum_scal_r. apply rsum_ext; intros j _. ring.
Qed.
Lemma psfao_sf0_val psd D samp :
  (0 < rows psd)%nat -> (0 < cols psd)%nat -> nonneg psd -> D * samp <> 0 ->
  exists s, psfao_sf0 psd D samp = Ok s /\ rows s = rows psd /\ cols s = cols psd /\
  forall i j, (i < rows psd)%nat -> (j < cols psd)%nat ->
    px s i j = structure_function psd (hup (rows psd)) (hup (cols psd)) (Z.of_nat i - Z.of_nat (rows psd / 2)) (Z.of_nat j - Z.of_nat (cols psd / 2)) / (D * samp) ^ 2.
Proof.
  intros Hr Hc Hn HD. unfold psfao_sf0. set (c := (D * samp) ^ 2).
  assert (Hc0 : 0 < c) by (unfold c; rewrite <- Rsqr_pow2; apply Rsqr_pos_lt, HD).
  destruct (Req_EM_T c 0) as [E|E]; [lra|]. rewrite rfft2_scal by lra.
  set (psd' := img_map (fun v => v / c) psd).
  replace (img_map (fun v => v / c) (rshift psd)) with (rshift psd') by reflexivity.
  destruct (rfft2_to_fft2_correct (rshift psd')) as (b & Eb & Rb & Cb & V); [exact Hr|exact Hc|].
  change (rows (rshift psd')) with (rows psd) in Eb, Rb, V. change (cols (rshift psd')) with (cols psd) in Eb, Cb, V.
  rewrite Eb. cbn [bind].
  assert (Hn' : nonneg psd').
  { intros i j Hi Hj. unfold psd', img_map; cbn [px]. apply Rmult_le_pos; [apply Hn; assumption|]. left. apply Rinv_0_lt_compat. exact Hc0. }
  assert (V' : forall i j, (i < rows psd)%nat -> (j < cols psd)%nat -> cpx b i j = cpx (fft2 (fftshift (to_c psd'))) i j) by exact V.
  assert (M : carr_max (fftshift b) = Ok (cpx (fftshift b) (rows psd / 2)%nat (cols psd / 2)%nat)).
  { apply carr_max_at; cbn [fftshift crows ccols cpx]; rewrite ?Rb, ?Cb; try apply half_lt; try assumption.
    intros i j Hi Hj. rewrite !shift_half by assumption. rewrite !V' by (try assumption; apply shift_ix_lt; assumption).
    apply cov_dominates; assumption. }
  rewrite M. cbn [bind].
  eexists. split; [reflexivity|]. cbn [re_img cmap fftshift crows ccols rows cols px cpx]. split; [exact Rb|]. split; [exact Cb|].
  intros i j Hi Hj. rewrite Rb, Cb, !shift_half by assumption. rewrite !V' by (try assumption; apply shift_ix_lt; assumption).
  rewrite !cov_val by assumption. rewrite <- sf_div. fold psd'. rewrite sf_covre.
  change (rows psd') with (rows psd). change (cols psd') with (cols psd).
  assert (WS := wave_shift psd' (hup (rows psd)) (hup (cols psd)) i j Hr Hc).
  change (rows psd') with (rows psd) in WS. change (cols psd') with (cols psd) in WS.
  change (Z.of_nat 0) with 0%Z. rewrite covre_0, <- WS. cbn. ring.
Qed.
