(** C79: on-axis structure functions and pixel OTF of the PSF reconstruction (psfR.py). *)
From Coq Require Import Reals List Arith ZArith Bool Lia Lra Psatz FunctionalExtensionality.
From Verif Require Import Base_Py Base_Sum Base_DFT M_Image M_Fourier S_Fourier M_Tools M_Atmo M_Zernike2 M_Model M_Model2 M_Psf M_Psfr S_Psfr L_Tools L_Atmo L_Fourier L_Psf2 L_Model3 P_FocalAniso P_Aniso.
From Coquelicot Require Import Complex.
Import ListNotations.
Open Scope R_scope.

(** ** jitter *)
(** C79: the structure function of the residual jitter is (2 pi / lambda)^2 w^T C w, where w
    is the angular frequency (samp/2)(U, V) turned by the pupil angle; C symmetric. *)
Theorem C79_jitter : forall n samp wvl pang C i j, wvl <> 0 -> fst (snd C) = snd (fst C) ->
  let a := pang * PI / 180 in
  let u := samp / 2 * (Uax n i * cos a + Uax n j * sin a) in
  let v := samp / 2 * (- Uax n i * sin a + Uax n j * cos a) in
  jitter_sf n samp wvl pang C i j =
  Ok ((2 * PI / wvl) ^ 2 * (u * (fst (fst C) * u + snd (fst C) * v) + v * (fst (snd C) * u + snd (snd C) * v))).
Proof.
  intros n samp wvl pang C i j Hw Hs a u v. unfold jitter_sf. rewrite rdiv_ok by exact Hw. cbn [bind]. fold a. f_equal.
  destruct (Req_EM_T a 0) as [E|E]; unfold u, v; [rewrite E, cos_0, sin_0|]; rewrite Hs; ring.
Qed.
Print Assumptions C79_jitter.
(** C79: non-negative when the covariance is one (after the subtraction of the noise), null
    at the centre, and independent of the orientation of the pupil for an isotropic jitter;
    a rotation of the pupil by 180 degrees changes nothing. *)
Lemma quad_psd a b c x y : 0 <= a -> 0 <= c -> b ^ 2 <= a * c -> 0 <= x * (a * x + b * y) + y * (b * x + c * y).
Proof.
  intros Ha Hc Hb. destruct (Rle_lt_or_eq_dec _ _ Ha) as [L|E].
  - assert (0 <= a * (x * (a * x + b * y) + y * (b * x + c * y))).
    { replace (a * (x * (a * x + b * y) + y * (b * x + c * y))) with ((a * x + b * y) ^ 2 + (a * c - b ^ 2) * y ^ 2) by ring.
      pose proof (pow2_ge_0 (a * x + b * y)). pose proof (pow2_ge_0 y). assert (0 <= (a * c - b ^ 2) * y ^ 2) by (apply Rmult_le_pos; lra). lra. }
    destruct (Rle_lt_dec 0 (x * (a * x + b * y) + y * (b * x + c * y))) as [P|P]; [exact P|]. exfalso. assert (a * (x * (a * x + b * y) + y * (b * x + c * y)) < 0) by (rewrite <- (Rmult_0_r a); apply Rmult_lt_compat_l; lra). lra.
  - subst a. assert (b = 0) by (pose proof (pow2_ge_0 b); nra). subst b. pose proof (pow2_ge_0 y). nra.
Qed.
Theorem C79_jitter_range : forall n samp wvl pang C i j, wvl <> 0 -> fst (snd C) = snd (fst C) ->
  0 <= fst (fst C) -> 0 <= snd (snd C) -> snd (fst C) ^ 2 <= fst (fst C) * snd (snd C) ->
  exists d, jitter_sf n samp wvl pang C i j = Ok d /\ 0 <= d /\ (Uax n i = 0 /\ Uax n j = 0 -> d = 0).
Proof.
  intros n samp wvl pang C i j Hw Hs H1 H2 H3. rewrite C79_jitter by assumption. eexists. split; [reflexivity|]. split.
  - apply Rmult_le_pos; [apply pow2_ge_0|]. rewrite Hs. now apply quad_psd.
  - intros (E1 & E2). rewrite E1, E2. ring.
Qed.
Print Assumptions C79_jitter_range.
Theorem C79_jitter_angle : forall n samp wvl pang pang' C i j, wvl <> 0 -> fst (snd C) = snd (fst C) ->
  (fst (fst C) = snd (snd C) /\ snd (fst C) = 0) \/ pang' = pang + 180 ->
  jitter_sf n samp wvl pang' C i j = jitter_sf n samp wvl pang C i j.
Proof.
  intros n samp wvl pang pang' C i j Hw Hs H. rewrite !C79_jitter by assumption. f_equal. f_equal. destruct H as [(E1 & E2)| ->].
  - rewrite Hs, E1, E2. set (a := pang * PI / 180). set (a' := pang' * PI / 180). set (k := snd (snd C)). set (U := Uax n i). set (V := Uax n j).
    assert (Q : forall x, samp / 2 * (U * cos x + V * sin x) * (k * (samp / 2 * (U * cos x + V * sin x)) + 0 * (samp / 2 * (- U * sin x + V * cos x))) + samp / 2 * (- U * sin x + V * cos x) * (0 * (samp / 2 * (U * cos x + V * sin x)) + k * (samp / 2 * (- U * sin x + V * cos x))) = (samp / 2) ^ 2 * k * (U ^ 2 + V ^ 2)).
    { intros x. transitivity ((samp / 2) ^ 2 * k * (U ^ 2 + V ^ 2) * (sin x ^ 2 + cos x ^ 2)); [ring|]. replace (sin x ^ 2 + cos x ^ 2) with 1; [ring|]. symmetry. rewrite <- !Rsqr_pow2. apply sin2_cos2. }
    now rewrite !Q.
  - replace ((pang + 180) * PI / 180) with (pang * PI / 180 + PI) by field. rewrite neg_cos, neg_sin. ring.
Qed.
Print Assumptions C79_jitter_angle.
(** the measured covariance is a covariance *)
Lemma cauchy (s : list (R * R)) : lsum (map (fun x => fst x * snd x) s) ^ 2 <= lsum (map (fun x => fst x * fst x) s) * lsum (map (fun x => snd x * snd x) s).
Proof.
  assert (Q : forall u v : R, 0 <= u ^ 2 * lsum (map (fun x => fst x * fst x) s) + 2 * u * v * lsum (map (fun x => fst x * snd x) s) + v ^ 2 * lsum (map (fun x => snd x * snd x) s)).
  { intros u v. induction s as [|(x, y) s IH]; cbn [map lsum fold_right fst snd]; [lra|]. unfold lsum in IH. pose proof (pow2_ge_0 (u * x + v * y)). nra. }
  set (A := lsum (map (fun x => fst x * fst x) s)) in *. set (B := lsum (map (fun x => fst x * snd x) s)) in *. set (D := lsum (map (fun x => snd x * snd x) s)) in *.
  assert (0 <= A) by (specialize (Q 1 0); lra). assert (0 <= D) by (specialize (Q 0 1); lra).
  destruct (Rle_lt_or_eq_dec _ _ H) as [L|E].
  - specialize (Q (- B) A). assert (0 <= A * (A * D - B ^ 2)) by (replace (A * (A * D - B ^ 2)) with ((- B) ^ 2 * A + 2 * - B * A * B + A ^ 2 * D) by ring; exact Q).
    destruct (Rle_lt_dec (B ^ 2) (A * D)) as [P|P]; [exact P|]. exfalso. assert (A * (A * D - B ^ 2) < 0) by (rewrite <- (Rmult_0_r A); apply Rmult_lt_compat_l; lra). lra.
  - rewrite <- E in *. rewrite Rmult_0_l. destruct (Req_EM_T B 0) as [ ->|Hb]; [lra|]. exfalso. specialize (Q (- (D + 1) / (2 * B)) 1). replace ((- (D + 1) / (2 * B)) ^ 2 * 0 + 2 * (- (D + 1) / (2 * B)) * 1 * B + 1 ^ 2 * D) with (-1) in Q by (field; exact Hb). lra.
Qed.
(** C79: with no noise to subtract, the covariance measured on any telemetry satisfies the
    hypotheses above, so the jitter of any recording has a non-negative structure function. *)
Theorem C79_slopes_cov : forall s nExp, 0 < nExp -> exists C, slopes_cov s nExp ((0, 0), (0, 0)) = Ok C /\
  fst (snd C) = snd (fst C) /\ 0 <= fst (fst C) /\ 0 <= snd (snd C) /\ snd (fst C) ^ 2 <= fst (fst C) * snd (snd C).
Proof.
  intros s nExp Hn. unfold slopes_cov. rewrite !rdiv_ok by lra. cbn [bind fst snd]. eexists. split; [reflexivity|]. cbn [fst snd].
  assert (Sq : forall f : R * R -> R, 0 <= lsum (map (fun x => f x * f x) s)) by (intros f; induction s as [|x s IH]; cbn [map lsum fold_right]; [lra|]; unfold lsum in IH; pose proof (Rle_0_sqr (f x)) as Z; unfold Rsqr in Z; lra).
  rewrite !Rminus_0_r. assert (Ip : 0 < / nExp) by now apply Rinv_0_lt_compat. repeat split.
  - f_equal. f_equal. apply map_ext. intros. ring.
  - apply Rmult_le_pos; [apply (Sq fst)|lra].
  - apply Rmult_le_pos; [apply (Sq snd)|lra].
  - unfold Rdiv. replace ((lsum (map (fun x => fst x * snd x) s) * / nExp) ^ 2) with (lsum (map (fun x => fst x * snd x) s) ^ 2 * (/ nExp) ^ 2) by ring.
    match goal with |- _ <= ?a * / nExp * (?b * / nExp) => replace (a * / nExp * (b * / nExp)) with (a * b * (/ nExp) ^ 2) by ring end. apply Rmult_le_compat_r; [apply pow2_ge_0|apply cauchy].
Qed.
Print Assumptions C79_slopes_cov.
Lemma pair4 : forall a b c d a' b' c' d' : R, a = a' -> b = b' -> c = c' -> d = d' -> @Ok tcov ((a, b), (c, d)) = Ok ((a', b'), (c', d')).
Proof. intros. now subst. Qed.
(** Finding: after the subtraction of the noise nothing keeps the covariance a covariance: a
    quiet recording with an overestimated noise has a negative structure function (its OTF
    factor exceeds 1). *)
Theorem C79_noise_subtraction_refuted : forall wvl n i samp, wvl <> 0 -> samp <> 0 -> Uax n i <> 0 ->
  exists s C d, slopes_cov s 2 ((1, 0), (0, 1)) = Ok C /\ jitter_sf n samp wvl 0 C i i = Ok d /\ d < 0 /\ 1 < exp (- / 2 * d).
Proof.
  intros wvl n i samp Hw Hs Hu. exists [(1, 0); (0, 1)], ((1 / 2 - 1, 0), (0, 1 / 2 - 1)), ((2 * PI / wvl) ^ 2 * (- (samp / 2 * Uax n i) ^ 2)).
  assert (N : (2 * PI / wvl) ^ 2 * (- (samp / 2 * Uax n i) ^ 2) < 0).
  { assert (0 < (2 * PI / wvl) ^ 2). { pose proof PI_RGT_0. destruct (Rle_lt_or_eq_dec _ _ (pow2_ge_0 (2 * PI / wvl))) as [|E]; [assumption|symmetry in E; exfalso; revert E; apply pow_nonzero; unfold Rdiv; apply Rmult_integral_contrapositive_currified; [lra|now apply Rinv_neq_0_compat]]. }
    assert (0 < (samp / 2 * Uax n i) ^ 2). { destruct (Rle_lt_or_eq_dec _ _ (pow2_ge_0 (samp / 2 * Uax n i))) as [|E]; [assumption|symmetry in E; exfalso; revert E; apply pow_nonzero; apply Rmult_integral_contrapositive_currified; [lra|exact Hu]]. }
    nra. }
  repeat split.
  - unfold slopes_cov. rewrite !rdiv_ok by lra. cbn [bind fst snd map lsum fold_right]. unfold lsum. cbn [fold_right]. apply pair4; field.
  - rewrite C79_jitter by (assumption || reflexivity). f_equal. f_equal. cbn [fst snd]. replace (0 * PI / 180) with 0 by field. rewrite cos_0, sin_0. field.
  - exact N.
  - rewrite <- exp_0 at 1. apply exp_increasing. lra.
Qed.
Print Assumptions C79_noise_subtraction_refuted.
