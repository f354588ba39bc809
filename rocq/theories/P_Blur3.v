(** C140, complement: a jitter never raises a Strehl ratio. *)
From Coq Require Import Reals List Arith ZArith Lia Lra Bool.
From Verif Require Import Base_Py Base_Sum M_Image M_Fourier M_Psf M_Tools M_Freq M_Call M_Driver M_Chain L_Sensor L_Freq P_Chain P_Chain2 L_Sensor P_Blur L_Psf L_Psf2 L_Psf3 L_Psf4 P_Psf P_Psfr4 P_Tools.
From Coquelicot Require Import Complex.
Import ListNotations.
Open Scope R_scope.

(** C140: whatever the jitter (widths and angle forming a non-negative matrix), the Strehl ratio of every image of every channel and
    source is at most the one of the same call without jitter, Nyquist sampling or not. *)
Theorem C140_blur_strehl : forall n kRef fov npix nyq chans dl pix jit sfs x out out',
  sf_3D_to_psf_4D n kRef fov npix nyq chans dl pix (Some jit) sfs x = Ok out ->
  sf_3D_to_psf_4D n kRef fov npix nyq chans dl pix None sfs x = Ok out' ->
  jitter_valid4 (Some jit) -> (forall c, In c chans -> 0 <= c_nf2 c) -> 0 < img_sum dl ->
  forall j s imgs imgs' srs srs' r r', nth_error out j = Some (imgs, srs) -> nth_error out' j = Some (imgs', srs') ->
  (s < length sfs)%nat -> nth_error srs s = Some r -> nth_error srs' s = Some r' -> r <= r'.
Proof.
  intros n kRef fov npix nyq chans dl pix jit sfs x out out' Eo Eo' JV NF Hd j s imgs imgs' srs srs' r r' On On' Hs Er Er'.
  destruct (psf4D_inv _ _ _ _ _ _ _ _ _ _ _ _ Eo) as [L I]. destruct (psf4D_inv _ _ _ _ _ _ _ _ _ _ _ _ Eo') as [L' I'].
  assert (Hj : (j < length chans)%nat) by (rewrite <- L; apply nth_error_Some; congruence).
  destruct (nth_error chans j) as [c|] eqn:Ec; [|apply nth_error_None in Ec; lia].
  destruct (nth_error sfs s) as [sf|] eqn:Esf; [|apply nth_error_None in Esf; lia].
  destruct (I j c Ec) as (y & i1 & s1 & Ey & N1 & _ & _ & V1). rewrite On in N1. injection N1 as <- <-.
  destruct (I' j c Ec) as (y' & i1 & s1 & Ey' & N1' & _ & _ & V1'). rewrite On' in N1'. injection N1' as <- <-. rewrite Ey in Ey'. injection Ey' as <-.
  destruct (V1 s sf Esf) as (ph & p & q & q' & r0 & Fc & P1 & _ & _ & _ & _ & _ & S1 & T1). destruct (V1' s sf Esf) as (ph' & p' & q2 & q2' & r0' & Fc' & P1' & _ & _ & _ & _ & _ & S1' & T1').
  rewrite Er in T1. injection T1 as <-. rewrite Er' in T1'. injection T1' as <-.
  assert (Eph : ph' = ph). { destruct (shifted4 _); [|congruence]. destruct P1 as (d & E1 & ->), P1' as (d' & E1' & ->). rewrite E1 in E1'. apply Ok_inj in E1'. subst d'. reflexivity. } subst ph'.
  unfold strehl in S1, S1'. destruct (Req_EM_T (img_sum dl) 0); [lra|]. cbv zeta in S1, S1'. apply Ok_inj in S1. apply Ok_inj in S1'. subst r r'.
  unfold Rdiv. apply Rmult_le_compat_r; [apply Rlt_le, Rinv_0_lt_compat; exact Hd|]. apply Rmult_le_compat_l; [lra|].
  cbn [fftshift crows ccols cpx otf_product]. apply rsum_le. intros i Hi. apply rsum_le. intros k Hk'. cbn [cpx]. rewrite !Cmod_mult, !Cmod_R. apply Rmult_le_compat_r; [apply Cmod_ge_0|].
  rewrite !Rabs_mult. apply Rmult_le_compat_l; [apply Rabs_pos|].
  match goal with |- context [K4 n nyq (length chans) c ?m (Some jit) ?a ?b] => assert (K : 0 <= K4 n nyq (length chans) c m (Some jit) a b <= 1); [|set (k0 := K4 n nyq (length chans) c m (Some jit) a b) in *] end.
  { apply K4_range; [apply NF, (nth_error_In _ _ Ec)|apply rmax_list_nonneg|exact JV]. }
  cbn [K4]. rewrite Rabs_R1, (Rabs_pos_eq k0) by lra.
  apply Rmult_le_compat_r; [apply Rabs_pos|]. apply Rmult_le_compat_l; [apply Rabs_pos|lra].
Qed.
Definition blur_one : img := mkImg 8 8 (fun _ _ => 1).
Definition blur_chan : chan := mkChan 1 2 blur_one 1.
Definition blur_star : stellar := mkStellar [[1; 1]] [[0; 0]] [[0; 0]] [0].
Lemma blur_case jit : match jit with None => True | Some v => jitter4_active v = true end ->
  exists out, sf_3D_to_psf_4D 8 2 4 4 true [blur_chan; blur_chan] blur_one blur_one jit [fun _ _ => 1] (Some blur_star) = Ok out.
Proof.
  intros HA. apply (C08_defined_4D 8 2 2 4 4 true [blur_chan; blur_chan] blur_one blur_one jit [fun _ _ => 1]); try reflexivity; try lia; try exact HA.
  - unfold pix_ok; lia.
  - intros c' [ <-|[ <-|[]]]; (split; [reflexivity|]); cbn; lra.
  - cbn. lra.
  - unfold img_sum, blur_one; cbn [rows cols px rsum]. lra.
  - split; [reflexivity|]. intros r [ <-|[]]. reflexivity.
  - split; [reflexivity|]. intros r [ <-|[]]. reflexivity.
  - split; [reflexivity|]. intros r [ <-|[]]. reflexivity.
  - right; reflexivity.
Qed.
(** Two channels sampled at Nyquist, jitters (3, 4, 2) and (1, 1, 0): the hypotheses of C140_blur_strehl and C140_blur_monotone hold. *)
Example C140_strehl_nonvacuous :
  jitter_valid4 (Some (3, 4, 2)) /\ jitter_valid4 (Some (1, 1, 0)) /\ 0 < img_sum blur_one /\
  (forall u v, 1 ^ 2 * u ^ 2 + 1 ^ 2 * v ^ 2 + 2 * 0 * u * v <= 3 ^ 2 * u ^ 2 + 4 ^ 2 * v ^ 2 + 2 * 2 * u * v) /\
  forall jit, In jit [None; Some (3, 4, 2); Some (1, 1, 0)] ->
  exists out, sf_3D_to_psf_4D 8 2 4 4 true [blur_chan; blur_chan] blur_one blur_one jit [fun _ _ => 1] (Some blur_star) = Ok out.
Proof.
  split; [cbn; lra|]. split; [cbn; lra|]. split; [unfold img_sum, blur_one; cbn [rows cols px rsum]; lra|].
  split; [intros u v; nra|]. intros jit [ <-|[ <-|[ <-|[]]]]; apply blur_case; [exact I| |]; cbn.
  - destruct (Req_EM_T 3 0); [lra|reflexivity].
  - destruct (Req_EM_T 1 0); [lra|reflexivity].
Qed.


(** Transfer function of a two-dimensional Gaussian of covariance matrix [[a, c], [c, b]] (mas^2), at the frequency (u, v) in cycles per mas. *)
Definition gauss_cov_otf (a b c u v : R) : R := exp (- (2 * PI ^ 2 * (a * u ^ 2 + b * v ^ 2 + 2 * c * u * v))).
(** C140: with an angle, the kernel is the transfer function of the Gaussian of covariance proportional to [[fx^2, fxy], [fxy, fy^2]]; the
    factor is the one of the full widths kappa*fx and kappa*fy (variance = width^2/(8 ln 2)). *)
Theorem C140_blur_angle : forall n k ps fx fy fxy i j, (0 < n)%nat -> 0 < ps -> (0 < k)%nat ->
  jitter4 n ((INR k / ps) ^ 2 * (8 * ln 2)) (fx, fy, fxy) i j =
  gauss_cov_otf ((kappa * fx) ^ 2 / (8 * ln 2)) ((kappa * fy) ^ 2 / (8 * ln 2)) (kappa ^ 2 * fxy / (8 * ln 2)) (cycles n (ps / INR k) i) (cycles n (ps / INR k) j).
Proof.
  intros n k ps fx fy fxy i j Hn Hp Hk. unfold jitter4, jitter_kernel, gauss_cov_otf, cycles, kappa, Uax.
  assert (N : INR n <> 0) by (apply not_0_INR; lia). assert (K : INR k <> 0) by (apply not_0_INR; lia). assert (L := ln2_pos). assert (P := PI_RGT_0). f_equal. field. repeat split; lra.
Qed.

(** C140: a wider jitter gives a lower Strehl ratio: when the matrix of the second jitter exceeds that of the first, every Strehl ratio
    is at most the one with the first jitter. *)
Theorem C140_blur_monotone : forall n kRef fov npix nyq chans dl pix a b c a' b' c' sfs x out out',
  sf_3D_to_psf_4D n kRef fov npix nyq chans dl pix (Some (a', b', c')) sfs x = Ok out ->
  sf_3D_to_psf_4D n kRef fov npix nyq chans dl pix (Some (a, b, c)) sfs x = Ok out' ->
  jitter_valid4 (Some (a, b, c)) -> (forall u v, a ^ 2 * u ^ 2 + b ^ 2 * v ^ 2 + 2 * c * u * v <= a' ^ 2 * u ^ 2 + b' ^ 2 * v ^ 2 + 2 * c' * u * v) ->
  jitter_valid4 (Some (a', b', c')) -> (forall c, In c chans -> 0 <= c_nf2 c) -> 0 < img_sum dl ->
  forall j s imgs imgs' srs srs' r r', nth_error out j = Some (imgs, srs) -> nth_error out' j = Some (imgs', srs') ->
  (s < length sfs)%nat -> nth_error srs s = Some r -> nth_error srs' s = Some r' -> r <= r'.
Proof.
  intros n kRef fov npix nyq chans dl pix a b c0 a' b' c' sfs x out out' Eo Eo' JV LE JV' NF Hd j s imgs imgs' srs srs' r r' On On' Hs Er Er'.
  destruct (psf4D_inv _ _ _ _ _ _ _ _ _ _ _ _ Eo) as [L I]. destruct (psf4D_inv _ _ _ _ _ _ _ _ _ _ _ _ Eo') as [L' I'].
  assert (Hj : (j < length chans)%nat) by (rewrite <- L; apply nth_error_Some; congruence).
  destruct (nth_error chans j) as [c|] eqn:Ec; [|apply nth_error_None in Ec; lia].
  destruct (nth_error sfs s) as [sf|] eqn:Esf; [|apply nth_error_None in Esf; lia].
  destruct (I j c Ec) as (y & i1 & s1 & Ey & N1 & _ & _ & V1). rewrite On in N1. injection N1 as <- <-.
  destruct (I' j c Ec) as (y' & i1 & s1 & Ey' & N1' & _ & _ & V1'). rewrite On' in N1'. injection N1' as <- <-. rewrite Ey in Ey'. injection Ey' as <-.
  destruct (V1 s sf Esf) as (ph & p & q & q' & r0 & Fc & P1 & _ & _ & _ & _ & _ & S1 & T1). destruct (V1' s sf Esf) as (ph' & p' & q2 & q2' & r0' & Fc' & P1' & _ & _ & _ & _ & _ & S1' & T1').
  rewrite Er in T1. injection T1 as <-. rewrite Er' in T1'. injection T1' as <-.
  assert (Eph : ph' = ph). { destruct (shifted4 _); [|congruence]. destruct P1 as (d & E1 & ->), P1' as (d' & E1' & ->). rewrite E1 in E1'. apply Ok_inj in E1'. subst d'. reflexivity. } subst ph'.
  unfold strehl in S1, S1'. destruct (Req_EM_T (img_sum dl) 0); [lra|]. cbv zeta in S1, S1'. apply Ok_inj in S1. apply Ok_inj in S1'. subst r r'.
  unfold Rdiv. apply Rmult_le_compat_r; [apply Rlt_le, Rinv_0_lt_compat; exact Hd|]. apply Rmult_le_compat_l; [lra|].
  cbn [fftshift crows ccols cpx otf_product]. apply rsum_le. intros i Hi. apply rsum_le. intros k Hk'. cbn [cpx]. rewrite !Cmod_mult, !Cmod_R. apply Rmult_le_compat_r; [apply Cmod_ge_0|].
  rewrite !Rabs_mult. apply Rmult_le_compat_l; [apply Rabs_pos|].
  set (m := rmax_list (map c_nf2 chans)). assert (Hm : 0 <= m) by apply rmax_list_nonneg. assert (Hc : 0 <= c_nf2 c) by (apply NF, (nth_error_In _ _ Ec)).
  set (ii := shift_ix n i). set (kk := shift_ix n k).
  assert (KL : K4 n nyq (length chans) c m (Some (a', b', c')) ii kk <= K4 n nyq (length chans) c m (Some (a, b, c0)) ii kk).
  { pose proof (K4_range n nyq (length chans) c m (Some (a', b', c')) ii kk Hc Hm JV') as [_ U1].
    unfold K4 in U1 |- *. destruct (jitter4_active (a, b, c0)) eqn:A1.
    - destruct (jitter4_active (a', b', c')) eqn:A2.
      + unfold jitter4, jitter_kernel. set (f := if (_ && _)%bool then c_nf2 c else m). assert (F : 0 <= f) by (unfold f; destruct (_ && _)%bool; assumption).
        assert (Q := LE (Uax n ii) (Uax n kk)).
        match goal with |- exp ?x <= exp ?y => assert (H : x <= y); [|destruct H as [H|H]; [left; now apply exp_increasing|right; now rewrite H]] end.
        match goal with |- - / 2 * (f * ?x) <= - / 2 * (f * ?y) => assert (f * y <= f * x); [apply Rmult_le_compat_l; [exact F|]|lra] end. ring_simplify. ring_simplify in Q. lra.
      + exfalso. apply any_nonzero_no in A2. destruct A2 as [-> ->]. cbn in JV'. assert (Z : c' = 0) by nra. subst c'.
        assert (Q1 := LE 1 0). assert (Q2 := LE 0 1). assert (a = 0) by nra. assert (b = 0) by nra. subst a b.
        cbn in A1. destruct (Req_EM_T 0 0); [discriminate|lra].
    - destruct (jitter4_active (a', b', c')); [exact U1|lra]. }
  pose proof (K4_range n nyq (length chans) c m (Some (a', b', c')) ii kk Hc Hm JV') as [W1 _].
  pose proof (K4_range n nyq (length chans) c m (Some (a, b, c0)) ii kk Hc Hm JV) as [W2 _].
  rewrite (Rabs_pos_eq (K4 _ _ _ _ _ (Some (a', b', c')) _ _)), (Rabs_pos_eq (K4 _ _ _ _ _ (Some (a, b, c0)) _ _)) by assumption.
  apply Rmult_le_compat_r; [apply Rabs_pos|]. apply Rmult_le_compat_l; [apply Rabs_pos|exact KL].
Qed.
Print Assumptions C140_blur_strehl.
Print Assumptions C140_blur_angle.
Print Assumptions C140_blur_monotone.
