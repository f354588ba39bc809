(** C79 (continued): pixel OTF, fitting and aliasing structure functions, their sum per
    source, covariance of the commands (psfR.py:151-273). *)
From Coq Require Import Reals List Arith ZArith Bool Lia Lra Psatz FunctionalExtensionality.
From Verif Require Import Base_Py Base_Sum Base_DFT M_Image M_Fourier S_Fourier M_Tools M_Atmo M_Zernike2 M_Model M_Model2 M_Psf M_Psfr S_Psfr L_Tools L_Atmo L_Image L_Fourier L_Fourier2 L_Psf2 L_Model3 L_Psfr L_Fit L_Config P_FocalAniso P_Aniso.
From Coquelicot Require Import Complex.
Import ListNotations.
Open Scope R_scope.

(** ** pixel *)
Lemma sin_abs_le x : Rabs (sin x) <= Rabs x.
Proof.
  assert (P : forall y, 0 <= y -> sin y <= y /\ - y <= sin y).
  { intros y Hy. pose proof (SIN_bound y) as B. destruct (Rle_lt_dec y 1) as [L|L]; [|lra]. destruct (Rle_lt_or_eq_dec _ _ Hy) as [Hp|<-].
    - split; [left; now apply sin_lt_x|]. assert (0 <= sin y); [|lra]. apply sin_ge_0; [lra|]. pose proof PI2_1. pose proof PI_RGT_0. lra.
    - rewrite sin_0. lra. }
  destruct (Rle_lt_dec 0 x) as [H|H].
  - rewrite (Rabs_right x) by lra. destruct (P x H). now apply Rabs_le.
  - destruct (P (- x)) as (A & B); [lra|]. rewrite sin_neg in A, B. rewrite (Rabs_left x) by lra. apply Rabs_le. lra.
Qed.
Lemma sinc_abs x : Rabs (sinc x) <= 1.
Proof.
  unfold sinc. destruct (Req_EM_T x 0) as [_|N]; [rewrite Rabs_R1; lra|]. unfold Rdiv. rewrite Rabs_mult, Rabs_inv.
  assert (Z : PI * x <> 0) by (apply Rmult_integral_contrapositive_currified; [pose proof PI_RGT_0; lra|exact N]).
  apply Rmult_le_reg_r with (Rabs (PI * x)); [now apply Rabs_pos_lt|]. rewrite Rmult_assoc, Rinv_l by (now apply Rabs_no_R0). rewrite Rmult_1_r, Rmult_1_l. apply sin_abs_le.
Qed.
Lemma sinc_pos x : Rabs x < 1 -> 0 < sinc x.
Proof.
  assert (P : forall y, 0 < y < 1 -> 0 < sin (PI * y) / (PI * y)) by (intros y Hy; pose proof PI_RGT_0; apply Rdiv_lt_0_compat; [apply sin_gt_0; nra|nra]).
  intros H. unfold sinc. destruct (Req_EM_T x 0) as [_|N]; [lra|]. apply Rabs_def2 in H. destruct (Rle_lt_dec 0 x) as [L|L]; [apply P; lra|].
  replace (sin (PI * x) / (PI * x)) with (sin (PI * - x) / (PI * - x)); [apply P; lra|]. replace (PI * - x) with (- (PI * x)) by ring. rewrite sin_neg. field. split; [exact N|pose proof PI_RGT_0; lra].
Qed.
Lemma Uax_abs n i : (i < n)%nat -> Rabs (Uax n i) <= 1.
Proof.
  intros H. unfold Uax. assert (0 < INR n) by (apply lt_0_INR; lia). assert (0 <= INR i) by apply pos_INR. assert (INR i <= INR n) by (apply le_INR; lia).
  replace ((INR i - INR n / 2) * (2 / INR n)) with ((2 * INR i - INR n) / INR n) by (field; lra). apply Rabs_le. split.
  - apply Rmult_le_reg_r with (INR n); [assumption|]. unfold Rdiv. rewrite Rmult_assoc, Rinv_l by lra. lra.
  - apply Rmult_le_reg_r with (INR n); [assumption|]. unfold Rdiv. rewrite Rmult_assoc, Rinv_l by lra. lra.
Qed.
(** C79: the pixel OTF never exceeds 1 in modulus, is 1 at the centre of an even grid, and
    is positive everywhere as soon as the pixel is smaller than the inverse of the highest
    angular frequency (2 lambda / (D samp), lambda/D being sampled at least at samp >= 2). *)
Theorem C79_pixel : forall n D samp wvl ps i j, wvl <> 0 -> (i < n)%nat -> (j < n)%nat ->
  exists o, pixel_otf n D samp wvl ps i j = Ok o /\ Rabs o <= 1 /\
    (Nat.even n = true -> i = (n / 2)%nat -> j = (n / 2)%nat -> o = 1) /\
    (Rabs (ps * PI * / 1000 / 3600 / 180 * (D / wvl * samp / 2)) < 1 -> 0 < o).
Proof.
  intros n D samp wvl ps i j Hw Hi Hj. unfold pixel_otf. rewrite rdiv_ok by exact Hw. cbn [bind]. eexists. split; [reflexivity|]. split; [|split].
  - rewrite Rabs_mult. pose proof (sinc_abs (Uax n i * (D / wvl * samp / 2) * (ps * PI * / 1000 / 3600 / 180))). pose proof (sinc_abs (Uax n j * (D / wvl * samp / 2) * (ps * PI * / 1000 / 3600 / 180))).
    rewrite <- (Rmult_1_r 1). apply Rmult_le_compat; try apply Rabs_pos; assumption.
  - intros Ev -> ->. rewrite Uax_centre by (assumption || lia). unfold sinc. rewrite !Rmult_0_l. destruct (Req_EM_T 0 0); [ring|congruence].
  - intros Hb. assert (P : forall k, (k < n)%nat -> 0 < sinc (Uax n k * (D / wvl * samp / 2) * (ps * PI * / 1000 / 3600 / 180))).
    { intros k Hk. apply sinc_pos. rewrite Rmult_assoc, Rabs_mult, (Rmult_comm (D / wvl * samp / 2)). pose proof (Uax_abs n k Hk). pose proof (Rabs_pos (Uax n k)). pose proof (Rabs_pos (ps * PI * / 1000 / 3600 / 180 * (D / wvl * samp / 2))). nra. }
    apply Rmult_lt_0_compat; now apply P.
Qed.
Print Assumptions C79_pixel.

(** ** fitting and aliasing *)
Lemma real_sf_val psd ps : (0 < rows psd)%nat -> (0 < cols psd)%nat -> nonneg psd ->
  exists c s, psd2cov psd ps = Ok c /\ cov2sf c = Ok s /\ rows (re_img (fftshift s)) = rows psd /\ cols (re_img (fftshift s)) = cols psd /\
    forall i j, px (re_img (fftshift s)) i j = ps ^ 2 * structure_function psd (hup (rows psd)) (hup (cols psd)) (Z.of_nat i - Z.of_nat (rows psd / 2)) (Z.of_nat j - Z.of_nat (cols psd / 2)).
Proof.
  intros Hx Hy Hn. destruct (psd_sf_val psd ps Hx Hy Hn) as (c & s & Ec & _ & Es & Hr & Hc & V). exists c, s. split; [exact Ec|]. split; [exact Es|].
  split; [exact Hr|]. split; [exact Hc|]. intros i j. cbn [px re_img fftshift cpx crows ccols]. rewrite Hr, Hc, V. cbn [fst RtoC]. rewrite !sf_covre, <- wave_shift by assumption. ring.
Qed.
Lemma sf_scal psd k a0 b0 s t : structure_function (img_map (fun x => k * x) psd) a0 b0 s t = k * structure_function psd a0 b0 s t.
Proof. unfold structure_function, img_map. cbn [rows cols px]. rewrite (Rmult_comm k), Rmult_assoc. f_equal. rewrite Rmult_comm, <- rsum_scal. apply rsum_ext. intros a _. rewrite <- rsum_scal. apply rsum_ext. intros b _. ring. Qed.
(** C79: the fitting term is r0^(-5/3)/(D samp)^2 times the structure function of the
    fitting power spectrum: non-negative, null at the centre, defined for every r0 > 0. *)
Theorem C79_fitting : forall psd D samp r0, (0 < rows psd)%nat -> (0 < cols psd)%nat -> nonneg psd -> D * samp <> 0 -> 0 < r0 ->
  exists d, fitting_sf psd D samp r0 = Ok d /\ rows d = rows psd /\ cols d = cols psd /\
    (forall i j, px d i j = Rpower r0 (- 5 / 3) * (1 / (D * samp)) ^ 2 * structure_function psd (hup (rows psd)) (hup (cols psd)) (Z.of_nat i - Z.of_nat (rows psd / 2)) (Z.of_nat j - Z.of_nat (cols psd / 2))) /\
    (forall i j, 0 <= px d i j) /\ px d (rows psd / 2) (cols psd / 2) = 0.
Proof.
  intros psd D samp r0 Hx Hy Hn Hd Hr. unfold fitting_sf. rewrite rpow_pos by exact Hr. cbn [bind]. rewrite rdiv_ok by exact Hd. cbn [bind].
  set (k := Rpower r0 (- 5 / 3)). assert (Pk : 0 < k) by apply exp_pos.
  assert (Hn' : nonneg (img_map (fun x => k * x) psd)) by (intros i j Hi Hj; cbn [px img_map]; apply Rmult_le_pos; [lra|now apply Hn]).
  destruct (real_sf_val (img_map (fun x => k * x) psd) (1 / (D * samp)) Hx Hy Hn') as (c & s & Ec & Es & Er & El & V). rewrite Ec. cbn [bind]. rewrite Es. cbn [bind].
  cbn [rows cols img_map] in *. assert (W : forall i j, px (re_img (fftshift s)) i j = k * (1 / (D * samp)) ^ 2 * structure_function psd (hup (rows psd)) (hup (cols psd)) (Z.of_nat i - Z.of_nat (rows psd / 2)) (Z.of_nat j - Z.of_nat (cols psd / 2))).
  { intros i j. rewrite V. change (mkImg (rows psd) (cols psd) _) with (img_map (fun x => k * x) psd) || idtac. rewrite sf_scal. ring. }
  eexists. split; [reflexivity|]. split; [exact Er|]. split; [exact El|]. split; [exact W|]. split.
  - intros i j. rewrite W. apply Rmult_le_pos; [apply Rmult_le_pos; [lra|apply pow2_ge_0]|now apply sf_nonneg].
  - rewrite W, !Z.sub_diag, sf_zero. ring.
Qed.
Print Assumptions C79_fitting.
(** C79: better seeing, smaller fitting term, by the exact factor (r0/r0')^(5/3). *)
Theorem C79_fitting_seeing : forall psd D samp r0 r0' d d' i j, nonneg psd -> 0 < r0 -> 0 < r0' ->
  fitting_sf psd D samp r0 = Ok d -> fitting_sf psd D samp r0' = Ok d' ->
  px d' i j = Rpower (r0 / r0') (5 / 3) * px d i j /\ (r0 <= r0' -> px d' i j <= px d i j).
Proof.
  intros psd D samp r0 r0' d d' i j Hn H1 H2 E E'.
  assert (NE : (0 < rows psd)%nat /\ (0 < cols psd)%nat /\ D * samp <> 0).
  { unfold fitting_sf in E. rewrite rpow_pos in E by exact H1. cbn [bind] in E. unfold rdiv in E. destruct (Req_EM_T (D * samp) 0) as [|N]; [discriminate|]. cbn [bind] in E. unfold psd2cov in E. destruct (cis_empty _) eqn:Em in E; [discriminate|]. apply nonempty_psd in Em. cbn in Em. tauto. }
  destruct NE as (Hx & Hy & Hd).
  destruct (C79_fitting psd D samp r0 Hx Hy Hn Hd H1) as (e & Ee & _ & _ & V & P & _). rewrite E in Ee. injection Ee as <-.
  destruct (C79_fitting psd D samp r0' Hx Hy Hn Hd H2) as (e & Ee & _ & _ & V' & _). rewrite E' in Ee. injection Ee as <-.
  assert (Q : px d' i j = Rpower (r0 / r0') (5 / 3) * px d i j).
  { rewrite V, V'. assert (K : Rpower r0' (- 5 / 3) = Rpower (r0 / r0') (5 / 3) * Rpower r0 (- 5 / 3)); [|rewrite K; ring].
    unfold Rpower. rewrite <- exp_plus. f_equal. rewrite (Rcomplements.ln_div r0 r0') by assumption. field. }
  split; [exact Q|]. intros Hle. rewrite Q. assert (Rpower (r0 / r0') (5 / 3) <= 1).
  { rewrite <- (Rpower_O (r0 / r0')) by (now apply Rdiv_lt_0_compat). unfold Rpower. assert (L : ln (r0 / r0') <= 0). { rewrite <- ln_1. apply Rcomplements.ln_le; [now apply Rdiv_lt_0_compat|]. apply Rmult_le_reg_r with r0'; [assumption|]. unfold Rdiv. rewrite Rmult_assoc, Rinv_l by lra. lra. }
    destruct (Rle_lt_or_eq_dec _ _ L) as [L'|L']; [left; apply exp_increasing; lra|rewrite L'; right; f_equal; ring]. }
  specialize (P i j). nra.
Qed.
Print Assumptions C79_fitting_seeing.

(** structure function of a spectrum known on n x n bins, on the grid of N x N points *)
Definition padded_sf (n N : nat) (psd : nat -> nat -> R) (s t : Z) : R :=
  2 * gsum n (fun a b => psd a b * (1 - cos (wave N N (hup n) (hup n) a b s t))).
Lemma gsum_pad n r (w : nat -> nat -> R) (f : nat -> nat -> R) : gsum (n + 2 * r) (fun a b => padf 0 n n r r f a b * w a b) = gsum n (fun a b => f a b * w (a + r)%nat (b + r)%nat).
Proof.
  unfold gsum. rewrite (rsum_window (n + 2 * r) r n); [|lia|].
  - apply rsum_ext. intros a Ha. rewrite (rsum_window (n + 2 * r) r n); [|lia|].
    + apply rsum_ext. intros b Hb. unfold padf. replace ((r <=? r + a) && (r + a <? r + n) && (r <=? r + b) && (r + b <? r + n))%nat%bool with true by lia. f_equal; f_equal; lia.
    + intros b Hb Hc. unfold padf. replace ((r <=? r + a) && (r + a <? r + n) && (r <=? b) && (b <? r + n))%nat%bool with false by lia. ring.
  - intros a Ha Hb. apply rsum_zero. intros b _. unfold padf. replace ((r <=? a) && (a <? r + n) && (r <=? b) && (b <? r + n))%nat%bool with false by lia. ring.
Qed.
Lemma hup_pad n r : hup (n + 2 * r) = (hup n + r)%nat.
Proof. unfold hup. rewrite (Nat.mul_comm 2 r), Nat.div_add by lia. assert (n / 2 <= n)%nat by (apply Nat.div_le_upper_bound; lia). lia. Qed.
Lemma sf_padded n r f s t : structure_function (mkImg (n + 2 * r) (n + 2 * r) (padf 0 n n r r f)) (hup (n + 2 * r)) (hup (n + 2 * r)) s t = padded_sf n (n + 2 * r) f s t.
Proof.
  unfold structure_function, padded_sf. cbn [rows cols px]. f_equal.
  etransitivity; [exact (gsum_pad n r (fun a b => 1 - cos (wave (n + 2 * r) (n + 2 * r) (hup (n + 2 * r)) (hup (n + 2 * r)) a b s t)) f)|].
  unfold gsum. apply rsum_ext. intros a _. apply rsum_ext. intros b _. f_equal. f_equal. f_equal. rewrite hup_pad. unfold wave. f_equal. f_equal; f_equal; f_equal; f_equal; lia.
Qed.
Lemma padf_nonneg n r f : (forall i j, (i < n)%nat -> (j < n)%nat -> 0 <= f i j) -> nonneg (mkImg (n + 2 * r) (n + 2 * r) (padf 0 n n r r f)).
Proof. intros H i j _ _. cbn [px]. unfold padf. destruct (_ && _)%bool eqn:E; [apply H; lia|lra]. Qed.
(** C79: the aliasing term is (r0/r0_atm)^(-5/3)/(D samp)^2 times the structure function of
    the aliasing power spectrum of the current atmosphere, known inside the AO band only
    and null outside of it, on the grid of the OTF (same parity as the AO grid). *)
Theorem C79_aliasing : forall interp psd nOtf n ratm D samp r0, rows psd = n -> cols psd = n -> (0 < n <= nOtf)%nat -> Nat.even (nOtf - n) = true -> nonneg psd ->
  D * samp <> 0 -> 0 < ratm -> 0 < r0 ->
  exists d, aliasing_sf interp psd nOtf n ratm D samp r0 = Ok d /\ rows d = nOtf /\ cols d = nOtf /\
    (forall i j, px d i j = Rpower (r0 / ratm) (- 5 / 3) * (1 / (D * samp)) ^ 2 * padded_sf n nOtf (px psd) (Z.of_nat i - Z.of_nat (nOtf / 2)%nat) (Z.of_nat j - Z.of_nat (nOtf / 2)%nat)) /\
    (forall i j, 0 <= px d i j) /\ px d (nOtf / 2)%nat (nOtf / 2)%nat = 0.
Proof.
  intros interp psd nOtf n ratm D samp r0 Er Ec Hn Hev NN Hd Ha Hr. unfold aliasing_sf. rewrite rpow_pos by exact Ha. cbn [bind].
  assert (PA : 0 < Rpower ratm (- 5 / 3)) by apply exp_pos. set (ra := Rpower ratm (- 5 / 3)) in *.
  unfold img_div. destruct (Req_EM_T ra 0) as [|_]; [lra|]. cbn [bind]. replace (n =? 0)%nat with false by lia.
  rewrite (enlarge_sq (img_map (fun x => x / ra) psd) n (Z.of_nat nOtf) (Z.of_nat n)) by (cbn [rows cols img_map]; lia). cbn [bind].
  assert (M : (n + 2 * margin n (Z.of_nat nOtf) (Z.of_nat n) = nOtf)%nat).
  { unfold margin. apply Nat.even_spec in Hev. destruct Hev as (m & Hm). replace ((Z.of_nat nOtf - Z.of_nat n) * Z.of_nat n)%Z with (Z.of_nat m * (2 * Z.of_nat n))%Z by nia. rewrite Z.quot_mul by lia. lia. }
  set (r := margin n (Z.of_nat nOtf) (Z.of_nat n)) in *. rewrite rdiv_ok by exact Hd. cbn [bind].
  set (E := mkImg (n + 2 * r) (n + 2 * r) (padf 0 n n r r (px (img_map (fun x => x / ra) psd)))).
  assert (NE : nonneg E). { apply padf_nonneg. intros i j Hi Hj. cbn [px img_map]. apply Rmult_le_pos; [apply NN; lia|left; now apply Rinv_0_lt_compat]. }
  destruct (real_sf_val E (1 / (D * samp))) as (c & s & E1 & E2 & E3 & E4 & V); [cbn [E rows]; lia|cbn [E cols]; lia|exact NE|]. rewrite E1. cbn [bind]. rewrite E2. cbn [bind]. rewrite rpow_pos by exact Hr. cbn [bind].
  assert (RO : rows (img_map (fun x => Rpower r0 (- 5 / 3) * x) (re_img (fftshift s))) = nOtf) by (cbn [rows img_map]; etransitivity; [exact E3|exact M]). rewrite RO, Nat.eqb_refl.
  assert (W : forall i j, px (img_map (fun x => Rpower r0 (- 5 / 3) * x) (re_img (fftshift s))) i j = Rpower (r0 / ratm) (- 5 / 3) * (1 / (D * samp)) ^ 2 * padded_sf n nOtf (px psd) (Z.of_nat i - Z.of_nat (nOtf / 2)%nat) (Z.of_nat j - Z.of_nat (nOtf / 2)%nat)).
  { intros i j. cbn [px img_map]. cbn [px] in V. rewrite V. unfold E. cbn [rows cols]. rewrite sf_padded, M. unfold padded_sf.
    replace (Rpower (r0 / ratm) (- 5 / 3)) with (Rpower r0 (- 5 / 3) * / ra).
    - rewrite (Rmult_comm (Rpower r0 (- 5 / 3)) (/ ra)). replace (gsum n (fun a b => px (img_map (fun x => x / ra) psd) a b * (1 - cos (wave nOtf nOtf (hup n) (hup n) a b (Z.of_nat i - Z.of_nat (nOtf / 2)%nat) (Z.of_nat j - Z.of_nat (nOtf / 2)%nat))))) with (/ ra * gsum n (fun a b => px psd a b * (1 - cos (wave nOtf nOtf (hup n) (hup n) a b (Z.of_nat i - Z.of_nat (nOtf / 2)%nat) (Z.of_nat j - Z.of_nat (nOtf / 2)%nat))))); [ring|].
      unfold gsum. rewrite <- rsum_scal. apply rsum_ext. intros a _. rewrite <- rsum_scal. apply rsum_ext. intros b _. cbn [px img_map]. unfold Rdiv. ring.
    - unfold ra, Rpower. rewrite <- exp_Ropp, <- exp_plus. f_equal. rewrite Rcomplements.ln_div by assumption. ring. }
  eexists. split; [reflexivity|]. split; [exact RO|]. split; [cbn [cols img_map]; etransitivity; [exact E4|exact M]|]. split; [exact W|]. split.
  - intros i j. rewrite W. apply Rmult_le_pos; [apply Rmult_le_pos; [left; apply exp_pos|apply pow2_ge_0]|]. unfold padded_sf, gsum. apply Rmult_le_pos; [lra|]. apply rsum_nonneg. intros a La. apply rsum_nonneg. intros b Lb. apply Rmult_le_pos; [apply NN; lia|]. match goal with |- context [cos ?x] => pose proof (COS_bound x) end. lra.
  - rewrite W, !Z.sub_diag. unfold padded_sf, gsum. rewrite rsum_zero; [ring|]. intros a _. apply rsum_zero. intros b _. unfold wave. rewrite !Rmult_0_r. unfold Rdiv. rewrite !Rmult_0_l, Rplus_0_l, Rmult_0_r, cos_0. ring.
Qed.
Print Assumptions C79_aliasing.
(** C79: the atmosphere used to compute the aliasing spectrum (itself proportional to
    r0_atm^(-5/3)) does not matter. *)
Corollary C79_aliasing_atm : forall interp q nOtf n ra rb D samp r0, rows q = n -> cols q = n -> (0 < n <= nOtf)%nat -> Nat.even (nOtf - n) = true -> nonneg q ->
  D * samp <> 0 -> 0 < ra -> 0 < rb -> 0 < r0 ->
  exists d e, aliasing_sf interp (img_map (fun x => Rpower ra (- 5 / 3) * x) q) nOtf n ra D samp r0 = Ok d /\
    aliasing_sf interp (img_map (fun x => Rpower rb (- 5 / 3) * x) q) nOtf n rb D samp r0 = Ok e /\ forall i j, px d i j = px e i j.
Proof.
  intros interp q nOtf n ra rb D samp r0 H1 H2 H3 H4 H5 H6 Ha Hb Hr.
  assert (NN : forall c, nonneg (img_map (fun x => Rpower c (- 5 / 3) * x) q)) by (intros c i j Hi Hj; cbn [px img_map]; apply Rmult_le_pos; [left; apply exp_pos|now apply H5]).
  destruct (C79_aliasing interp (img_map (fun x => Rpower ra (- 5 / 3) * x) q) nOtf n ra D samp r0 H1 H2 H3 H4 (NN ra) H6 Ha Hr) as (d & Ed & _ & _ & Vd & _).
  destruct (C79_aliasing interp (img_map (fun x => Rpower rb (- 5 / 3) * x) q) nOtf n rb D samp r0 H1 H2 H3 H4 (NN rb) H6 Hb Hr) as (e & Ee & _ & _ & Ve & _).
  exists d, e. split; [exact Ed|]. split; [exact Ee|]. intros i j. rewrite Vd, Ve.
  assert (K : forall c, 0 < c -> forall s t, Rpower (r0 / c) (- 5 / 3) * (1 / (D * samp)) ^ 2 * padded_sf n nOtf (px (img_map (fun x => Rpower c (- 5 / 3) * x) q)) s t = Rpower r0 (- 5 / 3) * (1 / (D * samp)) ^ 2 * padded_sf n nOtf (px q) s t); [|rewrite (K ra Ha), (K rb Hb); reflexivity].
  intros c Hc s t. replace (padded_sf n nOtf (px (img_map (fun x => Rpower c (- 5 / 3) * x) q)) s t) with (Rpower c (- 5 / 3) * padded_sf n nOtf (px q) s t).
  - replace (Rpower r0 (- 5 / 3)) with (Rpower (r0 / c) (- 5 / 3) * Rpower c (- 5 / 3)) by (unfold Rpower; rewrite <- exp_plus; f_equal; rewrite Rcomplements.ln_div by assumption; ring). ring.
  - unfold padded_sf. rewrite (Rmult_comm 2), <- Rmult_assoc, (Rmult_comm _ 2). f_equal. unfold gsum. rewrite <- rsum_scal. apply rsum_ext. intros a _. rewrite <- rsum_scal. apply rsum_ext. intros b _. cbn [px img_map]. ring.
Qed.
Print Assumptions C79_aliasing_atm.

(** C79: the transfer function of a (square) pixel is the same along both axes. *)
Theorem C79_pixel_symmetry : forall n D samp wvl ps i j, pixel_otf n D samp wvl ps i j = pixel_otf n D samp wvl ps j i.
Proof. intros. unfold pixel_otf. destruct (rdiv D wvl); cbn [bind]; [|reflexivity]. f_equal. apply Rmult_comm. Qed.
Print Assumptions C79_pixel_symmetry.
