(** C140: the blur requested by the keyword SpotFWHM. *)
From Coq Require Import Reals List Arith ZArith Lia Lra Bool FunctionalExtensionality.
From Verif Require Import Base_Py Base_Sum M_Image M_Source M_Tools M_Psf M_Freq M_Call M_Driver M_Chain L_Sensor L_Freq P_Chain P_Chain2.
Import ListNotations.
Open Scope R_scope.

(** ** Specification *)
(** The transfer function of the Gaussian exp(-4 ln 2 x^2/f^2) of full width at half maximum f
    (normalised to unit integral): exp(-(pi f nu)^2/(4 ln 2)). *)
Definition gauss_otf (f nu : R) : R := exp (- ((PI * f * nu) ^ 2 / (4 * ln 2))).
(** frequency (cycles per mas) of the index i of the transform of an image of n pixels of p mas *)
Definition cycles (n : nat) (p : R) (i : nat) : R := (INR i - INR n / 2) / (INR n * p).
(** an instrument whose static transfer function is multiplied by those of a Gaussian blur of
    full widths f and g (mas) along the two axes, for pixels of p mas *)
Definition blurred (n : nat) (p f g : R) (c : chan) : chan :=
  mkChan (c_wvl c) (c_k c) (mkImg (rows (c_otf c)) (cols (c_otf c)) (fun i j => px (c_otf c) i j * (gauss_otf f (cycles n p i) * gauss_otf g (cycles n p j)))) (c_nf2 c).
(** the width obtained for a requested width of 1: 8 ln 2/pi *)
Definition kappa : R := 8 * ln 2 / PI.

(** 3-D function, FourierUtils.py:440-441: squared norm_fact (samp/2*D/wvl in mas) *)
Definition jit_norm2_3D (samp D w : R) : R := (samp / 2 * D / w / M_Freq.rad2mas * (2 * sqrt (2 * ln 2))) ^ 2.

(** ** Lemmas *)
Lemma sq_norm : (2 * sqrt (2 * ln 2)) ^ 2 = 8 * ln 2.
Proof. assert (L := ln2_pos). replace ((2 * sqrt (2 * ln 2)) ^ 2) with (4 * (sqrt (2 * ln 2) * sqrt (2 * ln 2))) by ring. rewrite sqrt_sqrt by lra. ring. Qed.
Lemma gauss_kappa n q f i : (0 < n)%nat -> 0 < q -> gauss_otf (kappa * f) (cycles n (/ q) i) = exp (- / 2 * (q ^ 2 * (8 * ln 2) * (f * f * (Uax n i * Uax n i)))).
Proof.
  intros Hn Hq. unfold gauss_otf, cycles, kappa, Uax. assert (N : INR n <> 0) by (apply not_0_INR; lia). assert (L := ln2_pos). assert (P := PI_RGT_0). f_equal. field. repeat split; lra.
Qed.
Lemma jit_norm2_value k ps D w : 0 < ps -> 0 < D -> 0 < w -> jit_norm2 (k * (w * M_Freq.rad2mas / (ps * D))) D w = (k / ps) ^ 2 * (8 * ln 2).
Proof. intros Hp HD Hw. unfold jit_norm2. rewrite sq_norm. f_equal. f_equal. assert (R := rad2mas_pos). field. repeat split; lra. Qed.
Lemma jitter4_gauss n q fx fy : (0 < n)%nat -> 0 < q -> jitter4 n (q ^ 2 * (8 * ln 2)) (fx, fy, 0) = fun i j => gauss_otf (kappa * fx) (cycles n (/ q) i) * gauss_otf (kappa * fy) (cycles n (/ q) j).
Proof.
  intros Hn Hq. apply functional_extensionality. intros i. apply functional_extensionality. intros j. rewrite !gauss_kappa by assumption. rewrite <- exp_plus. unfold jitter4, jitter_kernel. f_equal. ring.
Qed.
Lemma indexed_map {A B} (f : A -> B) l : forall k, indexed k (map f l) = map (fun q => (fst q, f (snd q))) (indexed k l).
Proof. induction l as [|a l IH]; intros k; [reflexivity|]. cbn. now rewrite IH. Qed.
Lemma mapM_map' {A B C} (f : B -> result C) (g : A -> B) l : M_Psf.mapM f (map g l) = M_Psf.mapM (fun x => f (g x)) l.
Proof. induction l as [|a l IH]; [reflexivity|]. cbn. now rewrite IH. Qed.
Lemma mapM_ext' {A B} (f g : A -> result B) l : (forall x, In x l -> f x = g x) -> M_Psf.mapM f l = M_Psf.mapM g l.
Proof. induction l as [|a l IH]; intros H; [reflexivity|]. cbn. rewrite (H a (or_introl eq_refl)), IH; [reflexivity|]. intros x Hx. apply H. now right. Qed.
Lemma any_nonzero_no a b : any_nonzero [a; b] = false -> a = 0 /\ b = 0.
Proof.
  unfold any_nonzero. cbn [existsb]. rewrite !orb_false_iff. intros (Ha & Hb & _).
  destruct (Req_EM_T a 0) as [A0|]; [|discriminate]. destruct (Req_EM_T b 0) as [B0|]; [|discriminate]. split; assumption.
Qed.
Lemma gauss_zero nu : gauss_otf 0 nu = 1.
Proof. unfold gauss_otf. replace (- ((PI * 0 * nu) ^ 2 / (4 * ln 2))) with 0; [apply exp_0|]. assert (L := ln2_pos). field. lra. Qed.

Lemma blur_channel n kRef fov npix nW dl pix fx fy q sfs x j c : (0 < n)%nat -> 0 < q ->
  channel4 n kRef fov npix false nW dl pix (Some (fx, fy, 0)) (q ^ 2 * (8 * ln 2)) sfs x j c =
  channel4 n kRef fov npix false nW dl pix None 0 sfs x j (blurred n (/ q) (kappa * fx) (kappa * fy) c).
Proof.
  intros Hn Hq. unfold channel4. cbn [andb bind].
  assert (EK : (if jitter4_active (fx, fy, 0) then Ok (jitter4 n (q ^ 2 * (8 * ln 2)) (fx, fy, 0)) else Ok (fun _ _ => 1)) =
     Ok (fun i j => gauss_otf (kappa * fx) (cycles n (/ q) i) * gauss_otf (kappa * fy) (cycles n (/ q) j))).
  { unfold jitter4_active. destruct (any_nonzero [fx; fy]) eqn:E; [rewrite jitter4_gauss by assumption; reflexivity|].
    apply any_nonzero_no in E. destruct E as [-> ->]. rewrite !Rmult_0_r. f_equal. apply functional_extensionality. intros a. apply functional_extensionality. intros b. rewrite !gauss_zero. ring. }
  rewrite EK. cbn [bind]. cbn [blurred c_wvl c_k c_otf c_nf2].
  match goal with |- bind (M_Psf.mapM ?f ?l) _ = bind (M_Psf.mapM ?g ?l) _ => rewrite (mapM_ext' f g l) end; [reflexivity|].
  intros s _. match goal with |- bind ?h _ = _ => destruct h as [ph|er] end; cbn [bind]; [|reflexivity]. f_equal. unfold otf_product. cbn [px]. f_equal.
  apply functional_extensionality. intros a. apply functional_extensionality. intros b. f_equal. f_equal. ring.
Qed.
Lemma rmax_upper l : forall a, (forall x, In x l -> x <= fold_left Rmax l a) /\ a <= fold_left Rmax l a.
Proof.
  induction l as [|y l IH]; intros a; cbn [fold_left]. { split; [intros x []|lra]. }
  destruct (IH (Rmax a y)) as [H1 H2]. pose proof (Rmax_l a y). pose proof (Rmax_r a y). split; [|lra]. intros x [<-|Hx]; [lra|now apply H1].
Qed.
Lemma rmax_bound l m : forall a, (forall x, In x l -> x <= m) -> a <= m -> fold_left Rmax l a <= m.
Proof. induction l as [|y l IH]; intros a H Ha; cbn [fold_left]; [exact Ha|]. apply IH; [intros x Hx; apply H; now right|]. apply Rmax_lub; [exact Ha|]. apply H. now left. Qed.
Lemma rmax_is l m : In m l -> (forall x, In x l -> x <= m) -> 0 <= m -> rmax_list l = m.
Proof. intros I H P. unfold rmax_list. apply Rle_antisym; [now apply rmax_bound|]. apply (proj1 (rmax_upper l 0)). exact I. Qed.

(** C140: the images with the blur are those without it of the instrument whose static
    transfer functions are multiplied by Gaussian ones of widths kappa*SpotFWHM, for the pixel
    of the most oversampled channel. *)
Theorem C140_blur_4D : forall n kRef fov npix chans dl pix fx fy ps k sfs x, (0 < n)%nat -> 0 < ps -> (1 <= k)%nat ->
  (forall c, In c chans -> c_nf2 c = (INR (c_k c) / ps) ^ 2 * (8 * ln 2) /\ (c_k c <= k)%nat) -> (exists c, In c chans /\ c_k c = k) ->
  sf_3D_to_psf_4D n kRef fov npix false chans dl pix (Some (fx, fy, 0)) sfs x =
  sf_3D_to_psf_4D n kRef fov npix false (map (blurred n (ps / INR k) (kappa * fx) (kappa * fy)) chans) dl pix None sfs x.
Proof.
  intros n kRef fov npix chans dl pix fx fy ps k sfs x Hn Hp Hk Hc (c0 & I0 & E0).
  assert (L := ln2_pos). assert (K : 0 < INR k) by (apply lt_0_INR; lia).
  assert (Q : 0 < INR k / ps) by (apply Rdiv_lt_0_compat; assumption).
  assert (EM : rmax_list (map c_nf2 chans) = (INR k / ps) ^ 2 * (8 * ln 2)).
  { apply rmax_is.
    - apply in_map_iff. exists c0. split; [rewrite (proj1 (Hc c0 I0)), E0; reflexivity|exact I0].
    - intros v Hv. apply in_map_iff in Hv. destruct Hv as (c & <- & Ic). destruct (Hc c Ic) as [-> Lc]. apply Rmult_le_compat_r; [lra|]. apply le_INR in Lc. assert (0 <= INR (c_k c)) by apply pos_INR.
      apply pow_incr. split; [apply Rmult_le_pos; [assumption|left; now apply Rinv_0_lt_compat]|]. apply Rmult_le_compat_r; [left; now apply Rinv_0_lt_compat|exact Lc].
    - apply Rmult_le_pos; [apply pow2_ge_0|lra]. }
  unfold sf_3D_to_psf_4D. rewrite EM, map_length, indexed_map, mapM_map'. replace (ps / INR k) with (/ (INR k / ps)) by (field; split; lra).
  match goal with |- bind (M_Psf.mapM ?f ?l) _ = bind (M_Psf.mapM ?g ?l) _ => rewrite (mapM_ext' f g l) end; [reflexivity|].
  intros [j c] Hin. cbn [fst snd]. rewrite blur_channel by assumption. unfold channel4. reflexivity.
Qed.
(** the width obtained is larger than the requested one *)
Theorem C140_blur_width_refuted : 1 < kappa.
Proof.
  assert (L := ln2_pos). assert (P := PI_RGT_0). assert (P4 : PI <= 4) by apply PI_4. assert (L2 : / 2 < ln 2).
  { apply exp_lt_inv. rewrite exp_ln by lra. assert (S : exp (/ 2) * exp (/ 2) = exp 1) by (rewrite <- exp_plus; f_equal; lra).
    pose proof exp_le_3 as E3. pose proof (exp_pos (/ 2)). destruct (Rlt_le_dec (exp (/ 2)) 2) as [?|N]; [assumption|]. exfalso. nra. }
  unfold kappa. apply Rmult_lt_reg_r with PI; [lra|]. unfold Rdiv. rewrite Rmult_assoc, Rinv_l by lra. lra.
Qed.
(** The two functions disagree: the kernel of the 4-D function for widths (fx, fy) is that of
    the 3-D function for widths twice as large. *)
Theorem C140_blur_3D_4D : forall n samp D w fx fy fxy i j,
  jitter4 n (jit_norm2 samp D w) (fx, fy, fxy) i j = jitter_kernel n (jit_norm2_3D samp D w) ((2 * fx) ^ 2) ((2 * fy) ^ 2) (4 * fxy) i j.
Proof.
  intros. unfold jitter4, jitter_kernel, jit_norm2, jit_norm2_3D. f_equal.
  set (s := 2 * sqrt (2 * ln 2)). replace (samp / 2 * D / w / M_Freq.rad2mas * s) with (samp * D / w / M_Freq.rad2mas * s / 2) by (unfold Rdiv; ring).
  set (u := samp * D / w / M_Freq.rad2mas). field.
Qed.

Print Assumptions C140_blur_4D.
Print Assumptions C140_blur_width_refuted.
Print Assumptions C140_blur_3D_4D.
