(** Properties C54 (flux estimate), C55 (image distance), C56 (PSF of an OTF). *)
From Coq Require Import Reals List Arith ZArith Lia Lra Psatz.
From Verif Require Import Base_Py Base_Sum Base_DFT M_Image S_Image L_Image L_Image2 L_Flux M_Fourier S_Fourier L_Fourier L_Fourier2 L_Fourier3 L_Otf.
From Coquelicot Require Import Complex.
Open Scope R_scope.

(** C54: the "background-subtracted" flux is the plain sum of the pixels for
    every square image of odd side >= 3 and of every side >= 10: more than half
    of the masked pixels are zeroed inside the unit disc, so the median used as
    background is 0 whatever the image contains. *)
Theorem C54_flux_is_plain_sum : forall a : img,
  rows a = cols a ->
  (Nat.odd (rows a) = true /\ (3 <= rows a)%nat \/ (10 <= rows a)%nat) ->
  getFlux a = Ok (img_sum a).
Proof. exact getFlux_sum. Qed.
Print Assumptions C54_flux_is_plain_sum.

(** Refuted: a uniform background is removed from the flux. *)
Theorem C54_background_removed_refuted :
  ~ (forall a c, rows a = cols a -> (10 <= rows a)%nat ->
       (forall i j, (i < rows a)%nat -> (j < cols a)%nat -> px a i j = c) -> getFlux a = Ok 0).
Proof.
  intros H. specialize (H (mkImg 10 10 (fun _ _ => 1)) 1 eq_refl (le_n _) (fun _ _ _ _ => eq_refl)).
  rewrite getFlux_sum in H; [|reflexivity|right; apply le_n].
  apply Ok_inj in H. unfold img_sum in H; cbn [rows cols px] in H.
  rewrite (rsum_ext 10 _ (fun _ => INR 10 * 1)) in H by (intros; apply rsum_const).
  rewrite rsum_const in H. assert (0 < INR 10) by (apply lt_0_INR; lia). nra.
Qed.
Print Assumptions C54_background_removed_refuted.

(** Consequently normalisation mode 3 (by flux) is normalisation mode 1 (by
    sum) for images of positive sum. *)
Theorem C54_normalise_by_flux : forall a : img,
  rows a = cols a ->
  (Nat.odd (rows a) = true /\ (3 <= rows a)%nat \/ (10 <= rows a)%nat) ->
  0 < img_sum a -> normalizeImage a 3 = normalizeImage a 1.
Proof.
  intros a Hsq Hn Hs. unfold normalizeImage.
  destruct (Req_EM_T 3 0); [lra|]. destruct (Req_EM_T 3 1); [lra|]. destruct (Req_EM_T 3 2); [lra|].
  destruct (Req_EM_T 3 3); [|congruence]. destruct (Req_EM_T 1 0); [lra|]. destruct (Req_EM_T 1 1); [|congruence].
  rewrite getFlux_sum by assumption. cbn [bind]. rewrite Rabs_pos_eq by lra. reflexivity.
Qed.
Print Assumptions C54_normalise_by_flux.

(** the side condition cannot be dropped: on a 2 x 2 image every pixel lies
    outside the disc and a constant image has flux 0. *)
Lemma median4 c : median (c :: c :: c :: c :: nil) = Ok c.
Proof.
  unfold median. cbn [rsort fold_right rinsert length Nat.eqb Nat.odd Nat.even negb].
  repeat match goal with |- context [Rle_dec c c] => destruct (Rle_dec c c) as [?|N]; [cbn [rinsert]|exfalso; apply N, Rle_refl] end.
  cbn. f_equal. field.
Qed.
Example C54_small_image : getFlux (mkImg 2 2 (fun _ _ => 5)) = Ok 0.
Proof.
  unfold getFlux. cbn [rows cols Nat.eqb negb]. unfold pixels; cbn [rows cols px seq flat_map map app].
  assert (E : forall i, (i = 0 \/ i = 1)%nat -> lin11 2 i * lin11 2 i = 1).
  { intros i [ ->| ->]; unfold lin11; cbn; field. }
  rewrite !E by auto.
  destruct (Rlt_dec 1 (1 + 1)); [|lra]. rewrite median4. cbn [bind]. f_equal.
  unfold img_sum, img_map; cbn. ring.
Qed.
Example C54_case : getFlux (mkImg 11 11 (fun i j => INR i + INR j)) = Ok (img_sum (mkImg 11 11 (fun i j => INR i + INR j))).
Proof. apply C54_flux_is_plain_sum; [reflexivity|left; split; [reflexivity|cbn; lia]]. Qed.

(** C55: the image distance, for a reference of positive sum: defined exactly
    for equal shapes, non-negative, zero exactly for equal images, and the L2
    distance never exceeds the L1 one. *)
Lemma sum_sq_le_sq_sum n (f : nat -> R) : (forall i, (i < n)%nat -> 0 <= f i) ->
  rsum n (fun i => f i * f i) <= rsum n f * rsum n f.
Proof.
  induction n as [|n IH]; intros H; [cbn; lra|]. cbn [rsum].
  assert (A := IH (fun i Hi => H i ltac:(lia))). assert (B := H n ltac:(lia)).
  assert (C := rsum_nonneg n f (fun i Hi => H i ltac:(lia))). nra.
Qed.

Theorem C55_distance : forall t e n, 0 < img_sum t ->
  (rows t = rows e /\ cols t = cols e ->
   exists d, getMSE t e n = Ok d /\ 0 <= d /\ (d = 0 <-> img_eq t e)) /\
  (~ (rows t = rows e /\ cols t = cols e) -> getMSE t e n = Err ValueError).
Proof.
  intros t e n Hs. split.
  - intros (Hr & Hc). rewrite (getMSE_ok t e n) by (first [assumption|apply Rgt_not_eq; lra]).
    eexists. split; [reflexivity|].
    assert (Hi : 0 < / img_sum t) by (apply Rinv_0_lt_compat, Hs).
    set (d2 := fun i j => (px e i j - px t i j) * (px e i j - px t i j)).
    set (d1 := fun i j => Rabs (px e i j - px t i j)).
    assert (N2 : 0 <= rsum (rows t) (fun i => rsum (cols t) (fun j => d2 i j))).
    { apply rsum_nonneg; intros; apply rsum_nonneg; intros. apply Rle_0_sqr. }
    assert (N1 : 0 <= rsum (rows t) (fun i => rsum (cols t) (fun j => d1 i j))).
    { apply rsum_nonneg; intros; apply rsum_nonneg; intros. apply Rabs_pos. }
    assert (Z2 : img_eq t e -> rsum (rows t) (fun i => rsum (cols t) (fun j => d2 i j)) = 0).
    { intros (_ & _ & E). apply rsum_zero; intros i Hi'. apply rsum_zero; intros j Hj. unfold d2. rewrite (E i j) by assumption. ring. }
    assert (Z1 : img_eq t e -> rsum (rows t) (fun i => rsum (cols t) (fun j => d1 i j)) = 0).
    { intros (_ & _ & E). apply rsum_zero; intros i Hi'. apply rsum_zero; intros j Hj. unfold d1. rewrite (E i j) by assumption.
      unfold Rminus. rewrite Rplus_opp_r. apply Rabs_R0. }
    destruct n; fold d2; fold d1; unfold Rdiv; (split; [|split]).
    + apply Rmult_le_pos; [|lra]. apply Rmult_le_pos; [lra|apply sqrt_pos].
    + intros H. apply Rmult_integral in H. destruct H as [H|H]; [|lra].
      apply Rmult_integral in H. destruct H as [H|H]; [lra|]. apply sqrt_eq_0 in H; [|exact N2].
      split; [exact Hr|]. split; [exact Hc|]. intros i j Hi' Hj.
      assert (Q := rsum2_zero_terms _ _ d2 (fun i j _ _ => Rle_0_sqr (px e i j - px t i j)) H i j Hi' Hj).
      unfold d2 in Q. apply Rmult_integral in Q. destruct Q; lra.
    + intros E. change (100 * sqrt (rsum (rows t) (fun i => rsum (cols t) (fun j => d2 i j))) * / img_sum t = 0).
      rewrite (Z2 E), sqrt_0. ring.
    + apply Rmult_le_pos; [|lra]. apply Rmult_le_pos; [lra|exact N1].
    + intros H. apply Rmult_integral in H. destruct H as [H|H]; [|lra].
      apply Rmult_integral in H. destruct H as [H|H]; [lra|].
      split; [exact Hr|]. split; [exact Hc|]. intros i j Hi' Hj.
      assert (Q := rsum2_zero_terms _ _ d1 (fun i j _ _ => Rabs_pos _) H i j Hi' Hj).
      unfold d1 in Q. destruct (Req_dec (px e i j - px t i j) 0) as [Z|Z]; [lra|]. apply Rabs_no_R0 in Z. contradiction.
    + intros E. change (100 * rsum (rows t) (fun i => rsum (cols t) (fun j => d1 i j)) * / img_sum t = 0).
      rewrite (Z1 E). ring.
  - intros H. unfold getMSE. destruct (Nat.eqb (rows t) (rows e) && Nat.eqb (cols t) (cols e))%bool eqn:E; [|reflexivity].
    exfalso. apply H. apply Bool.andb_true_iff in E. destruct E as (A & B). apply Nat.eqb_eq in A, B. split; assumption.
Qed.
Print Assumptions C55_distance.

(** L2 <= L1, and both are homogeneous of degree 0. *)
Theorem C55_l2_le_l1 : forall t e d2 d1, 0 < img_sum t ->
  getMSE t e L2 = Ok d2 -> getMSE t e L1 = Ok d1 -> d2 <= d1.
Proof.
  intros t e d2 d1 Hs H2 H1.
  assert (D : rows t = rows e /\ cols t = cols e).
  { unfold getMSE in H2. destruct (Nat.eqb (rows t) (rows e) && Nat.eqb (cols t) (cols e))%bool eqn:E; [|discriminate H2].
    apply Bool.andb_true_iff in E. destruct E as (A & B). apply Nat.eqb_eq in A, B. split; assumption. }
  destruct D as (Hr & Hc). rewrite getMSE_ok in H1, H2 by (first [assumption|apply Rgt_not_eq; lra]).
  apply Ok_inj in H1, H2. subst d1 d2. unfold Rdiv. apply Rmult_le_compat_r.
  { left. apply Rinv_0_lt_compat, Hs. }
  apply Rmult_le_compat_l; [lra|].
  set (f := fun i j => Rabs (px e i j - px t i j)).
  assert (N : 0 <= rsum (rows t) (fun i => rsum (cols t) (fun j => f i j))).
  { apply rsum_nonneg; intros; apply rsum_nonneg; intros. apply Rabs_pos. }
  change (fun i => rsum (cols t) (fun j => Rabs (px e i j - px t i j))) with (fun i => rsum (cols t) (fun j => f i j)).
  rewrite <- (sqrt_Rsqr _ N). apply sqrt_le_1_alt. unfold Rsqr.
  apply Rle_trans with (rsum (rows t) (fun i => rsum (cols t) (fun j => f i j) * rsum (cols t) (fun j => f i j))).
  - apply rsum_le. intros i Hi.
    rewrite (rsum_ext _ _ (fun j => f i j * f i j)).
    + apply sum_sq_le_sq_sum. intros; apply Rabs_pos.
    + intros j Hj. unfold f. rewrite <- Rabs_mult. symmetry. apply Rabs_pos_eq, Rle_0_sqr.
  - apply (sum_sq_le_sq_sum (rows t) (fun i => rsum (cols t) (fun j => f i j))).
    intros i Hi. apply rsum_nonneg; intros; apply Rabs_pos.
Qed.
Print Assumptions C55_l2_le_l1.

Theorem C55_scale_free : forall t e n c d, 0 < c ->
  getMSE t e n = Ok d -> getMSE (img_map (fun v => c * v) t) (img_map (fun v => c * v) e) n = Ok d.
Proof.
  intros t e n c d Hc H.
  assert (D : rows t = rows e /\ cols t = cols e /\ img_sum t <> 0).
  { unfold getMSE in H. destruct (Nat.eqb (rows t) (rows e) && Nat.eqb (cols t) (cols e))%bool eqn:E; [|discriminate H].
    cbn [negb] in H. destruct (Req_EM_T (img_sum t) 0); [discriminate H|].
    apply Bool.andb_true_iff in E. destruct E as (A & B). apply Nat.eqb_eq in A, B. repeat split; assumption. }
  destruct D as (Hr & Hcl & Hs). rewrite getMSE_ok in H by assumption. rewrite <- H.
  assert (Es : img_sum (img_map (fun v => c * v) t) = c * img_sum t).
  { unfold img_sum, img_map; cbn [rows cols px].
    rewrite <- rsum_scal. apply rsum_ext; intros i Hi. apply rsum_scal. }
  rewrite getMSE_ok; [|exact Hr|exact Hcl|rewrite Es; apply Rmult_integral_contrapositive_currified; [apply Rgt_not_eq; lra|exact Hs]]. f_equal. rewrite Es. cbn [img_map rows cols px].
  destruct n.
  - rewrite (rsum_ext (rows t) (fun i => rsum (cols t) (fun j => (c * px e i j - c * px t i j) * (c * px e i j - c * px t i j)))
      (fun i => (c * c) * rsum (cols t) (fun j => (px e i j - px t i j) * (px e i j - px t i j)))).
    + rewrite rsum_scal, sqrt_mult_alt, sqrt_square by nra. field. split; [exact Hs|apply Rgt_not_eq; lra].
    + intros i Hi. rewrite <- rsum_scal. apply rsum_ext; intros j Hj. ring.
  - rewrite (rsum_ext (rows t) (fun i => rsum (cols t) (fun j => Rabs (c * px e i j - c * px t i j)))
      (fun i => c * rsum (cols t) (fun j => Rabs (px e i j - px t i j)))).
    + rewrite rsum_scal. field. split; [exact Hs|apply Rgt_not_eq; lra].
    + intros i Hi. rewrite <- rsum_scal. apply rsum_ext; intros j Hj.
      rewrite <- Rmult_minus_distr_l, Rabs_mult, (Rabs_pos_eq c) by lra. reflexivity.
Qed.
Print Assumptions C55_scale_free.

Example C55_case : exists d, getMSE (mkImg 1 2 (fun _ _ => 1)) (mkImg 1 2 (fun _ j => INR j)) L1 = Ok d /\ d = 50.
Proof.
  eexists. split.
  - apply getMSE_ok; [reflexivity|reflexivity|]. unfold img_sum; cbn. apply Rgt_not_eq; lra.
  - unfold img_sum; cbn. replace (0 - 1) with (-1) by ring. replace (1 - 1) with 0 by ring.
    rewrite Rabs_R0, Rabs_left by lra. field.
Qed.

(** C56: otf2psf in closed form, both parities, both modes. The PSF is the real
    part of the Fourier series of the OTF about its central sample n//2, read
    at pixel offsets from n//2, moved by half a pixel on each axis when n is
    even and one-pixel mode is off, divided by the central OTF value. *)
Theorem C56_otf2psf_closed_form : forall n (otf : carr) (onepix : bool),
  crows otf = n -> ccols otf = n -> (0 < n)%nat -> fst (cpx otf (n / 2) (n / 2)) <> 0 ->
  exists psf, otf2psf otf onepix = Ok psf /\ rows psf = n /\ cols psf = n /\
   forall a b, (a < n)%nat -> (b < n)%nat ->
     let off := if (Nat.even n && negb onepix)%bool then / 2 else 0 in
     let x := INR a - INR (n / 2) + off in
     let y := INR b - INR (n / 2) + off in
     px psf a b =
       rsum n (fun i => rsum n (fun j =>
         let t := 2 * PI * ((INR i - INR (n / 2)) * x + (INR j - INR (n / 2)) * y) / INR n in
         fst (cpx otf i j) * cos t - snd (cpx otf i j) * sin t))
       / (INR n * INR n * fst (cpx otf (n / 2) (n / 2))).
Proof.
  intros n otf onepix Hr Hc Hn H0.
  destruct (otf2psf_val n otf onepix Hr Hc Hn H0) as (psf & E & Er & Ec & V).
  exists psf. split; [exact E|]. split; [exact Er|]. split; [exact Ec|]. intros a b Ha Hb. cbv zeta.
  rewrite V by assumption. unfold psf_raw, half_off.
  assert (Hn0 : INR n <> 0) by (apply not_0_INR; lia).
  match goal with |- / (INR n * INR n) * ?s / ?d = ?s' / _ => replace s' with s end.
  - field. split; assumption.
  - apply rsum_ext; intros i Hi. apply rsum_ext; intros j Hj. unfold cisr. cbn. ring.
Qed.
Print Assumptions C56_otf2psf_closed_form.

(** A real OTF gives a PSF that is centro-symmetric about the array centre (odd
    sizes: the central pixel; even sizes: the corner shared by the four central
    pixels); a constant OTF in one-pixel mode or odd size gives the single
    central pixel. *)
Theorem C56_real_otf_symmetric : forall n (otf : carr) psf,
  crows otf = n -> ccols otf = n -> (0 < n)%nat -> fst (cpx otf (n / 2) (n / 2)) <> 0 ->
  (forall i j, snd (cpx otf i j) = 0) ->
  otf2psf otf false = Ok psf ->
  forall a b, (a < n)%nat -> (b < n)%nat -> px psf (n - 1 - a) (n - 1 - b) = px psf a b.
Proof.
  intros n otf psf Hr Hc Hn H0 Hre H a b Ha Hb.
  destruct (C56_otf2psf_closed_form n otf false Hr Hc Hn H0) as (psf' & E & _ & _ & V).
  assert (psf' = psf) by congruence. subst psf'. rewrite !V by lia. cbv zeta. f_equal.
  apply rsum_ext; intros i Hi. apply rsum_ext; intros j Hj. rewrite Hre, !Rmult_0_l, !Rminus_0_r. f_equal.
  rewrite <- cos_neg. f_equal.
  assert (Hn0 : INR n <> 0) by (apply not_0_INR; lia).
  assert (K : INR n - 1 - 2 * INR (n / 2) + 2 * (if (Nat.even n && negb false)%bool then / 2 else 0) = 0).
  { destruct (Nat.even n) eqn:Ev; cbn [andb negb].
    - apply Nat.even_spec in Ev. destruct Ev as (k & ->). rewrite Nat.mul_comm, Nat.div_mul by lia.
      rewrite mult_INR. cbn [INR]. lra.
    - assert (O : Nat.odd n = true) by (rewrite <- Nat.negb_even, Ev; reflexivity).
      apply Nat.odd_spec in O. destruct O as (k & ->).
      replace ((2 * k + 1) / 2)%nat with k by (apply (Nat.div_unique (2 * k + 1) 2 k 1); lia).
      rewrite plus_INR, mult_INR. cbn [INR]. lra. }
  rewrite !minus_INR by lia. cbn [INR].
  set (off := if (Nat.even n && negb false)%bool then / 2 else 0) in *. clearbody off.
  apply Rmult_eq_reg_r with (INR n); [|exact Hn0].
  match goal with |- ?l = ?r =>
    replace l with (- (2 * PI * ((INR i - INR (n / 2)) * (INR n - 1 - INR a - INR (n / 2) + off) + (INR j - INR (n / 2)) * (INR n - 1 - INR b - INR (n / 2) + off)))) by (field; exact Hn0);
    replace r with (2 * PI * ((INR i - INR (n / 2)) * (INR a - INR (n / 2) + off) + (INR j - INR (n / 2)) * (INR b - INR (n / 2) + off))) by (field; exact Hn0) end.
  replace (INR n) with (1 + 2 * INR (n / 2) - 2 * off) by lra. ring.
Qed.
Print Assumptions C56_real_otf_symmetric.

Example C56_case : exists psf, otf2psf (mkC 4 4 (fun _ _ => RtoC 1)) false = Ok psf /\ px psf 1 1 = px psf 2 2.
Proof.
  destruct (C56_otf2psf_closed_form 4 (mkC 4 4 (fun _ _ => RtoC 1)) false) as (psf & E & _); try reflexivity; try lia.
  - cbn. apply R1_neq_R0.
  - exists psf. split; [exact E|].
    assert (S := C56_real_otf_symmetric 4 (mkC 4 4 (fun _ _ => RtoC 1)) psf eq_refl eq_refl ltac:(lia) ltac:(cbn; apply R1_neq_R0) (fun _ _ => eq_refl) E 2 2).
    apply S; lia.
Qed.
