(** Positive definite sequences on a periodic n x n grid: sequences whose
    spectrum is real and non-negative. Used to prove that PSFs are
    non-negative. *)
From Coq Require Import Reals List Arith ZArith Lia Lra.
From Verif Require Import Base_Py Base_Sum Base_DFT M_Image M_Fourier S_Fourier L_Fourier L_Fourier2 L_Fourier3.
From Coquelicot Require Import Rbar Rcomplements Lim_seq Series PSeries Hierarchy ElemFct Complex.
Open Scope R_scope.

Definition Pd (n : nat) (f : nat -> nat -> C) : Prop :=
  exists F : nat -> nat -> R, (forall a b, 0 <= F a b) /\
    forall i j, (i < n)%nat -> (j < n)%nat -> f i j = dft2 n n (fun a b => RtoC (F a b)) i j.

Lemma Pd_ext n f g : (forall i j, (i < n)%nat -> (j < n)%nat -> f i j = g i j) -> Pd n f -> Pd n g.
Proof. intros E (F & HF & V). exists F. split; [exact HF|]. intros i j Hi Hj. rewrite <- E by assumption. apply V; assumption. Qed.

Lemma dft2_plus n F G i j :
  dft2 n n (fun a b => Cplus (F a b) (G a b)) i j = Cplus (dft2 n n F i j) (dft2 n n G i j).
Proof.
  unfold dft2. rewrite <- csum_plus. apply csum_ext; intros a _. rewrite <- csum_plus.
  apply csum_ext; intros b _. ring.
Qed.
Lemma dft2_scal n c F i j : dft2 n n (fun a b => Cmult c (F a b)) i j = Cmult c (dft2 n n F i j).
Proof.
  unfold dft2. rewrite <- csum_scal. apply csum_ext; intros a _. rewrite <- csum_scal.
  apply csum_ext; intros b _. ring.
Qed.

Lemma Pd_plus n f g : Pd n f -> Pd n g -> Pd n (fun i j => Cplus (f i j) (g i j)).
Proof.
  intros (F & HF & VF) (G & HG & VG). exists (fun a b => F a b + G a b). split.
  - intros. apply Rplus_le_le_0_compat; [apply HF|apply HG].
  - intros i j Hi Hj. rewrite VF, VG by assumption. rewrite <- dft2_plus. apply dft2_ext.
    intros a b _ _. rewrite RtoC_plus. reflexivity.
Qed.
Lemma Pd_scal n c f : 0 <= c -> Pd n f -> Pd n (fun i j => Cmult (RtoC c) (f i j)).
Proof.
  intros Hc (F & HF & VF). exists (fun a b => c * F a b). split.
  - intros. apply Rmult_le_pos; [exact Hc|apply HF].
  - intros i j Hi Hj. rewrite VF by assumption. rewrite <- dft2_scal. apply dft2_ext.
    intros a b _ _. rewrite RtoC_mult. reflexivity.
Qed.
Lemma Pd_zero n : Pd n (fun _ _ => RtoC 0).
Proof.
  exists (fun _ _ => 0). split; [intros; lra|]. intros i j _ _. symmetry. unfold dft2.
  apply csum_zero; intros a _. apply csum_zero; intros b _. ring.
Qed.
Lemma Pd_sum n m (f : nat -> nat -> nat -> C) :
  (forall k, (k < m)%nat -> Pd n (f k)) -> Pd n (fun i j => csum m (fun k => f k i j)).
Proof.
  induction m as [|m IH]; intros H; cbn [csum]; [apply Pd_zero|].
  apply Pd_plus; [apply IH; intros; apply H; lia|apply H; lia].
Qed.

(** plane waves *)
Lemma Pd_wave n (k l : Z) : (0 < n)%nat -> Pd n (fun i j => Cmult (W n (k * Z.of_nat i)) (W n (l * Z.of_nat j))).
Proof.
  intros Hn. set (a0 := Z.to_nat (k mod Z.of_nat n)). set (b0 := Z.to_nat (l mod Z.of_nat n)).
  assert (Hk := Z.mod_pos_bound k (Z.of_nat n) ltac:(lia)). assert (Hl := Z.mod_pos_bound l (Z.of_nat n) ltac:(lia)).
  exists (fun a b => if ((a =? a0) && (b =? b0))%nat%bool then 1 else 0). split.
  { intros a b. destruct (_ && _)%bool; lra. }
  intros i j _ _. unfold dft2.
  rewrite (csum_single n a0); [|unfold a0; lia|].
  2:{ intros a Ha Hne. apply csum_zero; intros b _. destruct (Nat.eqb_spec a a0); [contradiction|]. cbn [andb]. ring. }
  rewrite (csum_single n b0); [|unfold b0; lia|].
  2:{ intros b Hb Hne. destruct (Nat.eqb_spec b b0); [contradiction|]. rewrite andb_false_r. ring. }
  rewrite !Nat.eqb_refl. cbn [andb]. rewrite Cmult_1_l.
  assert (E : forall z i, (0 <= z mod Z.of_nat n)%Z -> W n (z * Z.of_nat i) = W n (Z.of_nat i * Z.of_nat (Z.to_nat (z mod Z.of_nat n)))).
  { intros z m Hz. apply W_mod; [exact Hn|]. rewrite Z2Nat.id by exact Hz.
    rewrite Z.mul_mod_idemp_r by lia. f_equal. ring. }
  unfold a0, b0. rewrite <- !E by lia. reflexivity.
Qed.

Lemma Pd_one n : (0 < n)%nat -> Pd n (fun _ _ => RtoC 1).
Proof.
  intros Hn. apply (Pd_ext n (fun i j => Cmult (W n (0 * Z.of_nat i)) (W n (0 * Z.of_nat j)))); [|apply Pd_wave, Hn].
  intros i j _ _. rewrite !Z.mul_0_l, W_0. ring.
Qed.

(** a wave times a positive definite sequence *)
Lemma wave_dft n G a b i j : (0 < n)%nat -> (a < n)%nat -> (b < n)%nat ->
  Cmult (Cmult (W n (Z.of_nat i * Z.of_nat a)) (W n (Z.of_nat j * Z.of_nat b))) (dft2 n n G i j) =
  dft2 n n (fun c d => G ((c + (n - a)) mod n)%nat ((d + (n - b)) mod n)%nat) i j.
Proof.
  intros Hn Ha Hb. unfold dft2.
  rewrite <- (csum_shift_mod n a (fun c => csum n (fun d => Cmult (G ((c + (n - a)) mod n)%nat ((d + (n - b)) mod n)%nat) _))) by exact Hn.
  rewrite <- csum_scal. apply csum_ext; intros c Hc. cbv beta.
  rewrite <- (csum_shift_mod n b (fun d => Cmult (G ((((c + a) mod n) + (n - a)) mod n)%nat ((d + (n - b)) mod n)%nat) _)) by exact Hn.
  rewrite <- csum_scal. apply csum_ext; intros d Hd. cbv beta.
  assert (E : forall c a, (c < n)%nat -> (a < n)%nat -> ((((c + a) mod n) + (n - a)) mod n = c)%nat).
  { intros c' a' Hc' Ha'. rewrite Nat.add_mod_idemp_l by lia. replace (c' + a' + (n - a'))%nat with (c' + 1 * n)%nat by lia.
    rewrite Nat.mod_add by lia. apply Nat.mod_small, Hc'. }
  rewrite !E by assumption.
  assert (Ew : forall i c a, W n (Z.of_nat i * Z.of_nat ((c + a) mod n)) = Cmult (W n (Z.of_nat i * Z.of_nat a)) (W n (Z.of_nat i * Z.of_nat c))).
  { intros i' c' a'. rewrite <- W_add. apply W_mod; [exact Hn|]. rewrite Nat2Z.inj_mod, Z.mul_mod_idemp_r by lia.
    f_equal. rewrite Nat2Z.inj_add. ring. }
  rewrite !Ew. ring.
Qed.

Lemma Pd_mult n f g : (0 < n)%nat -> Pd n f -> Pd n g -> Pd n (fun i j => Cmult (f i j) (g i j)).
Proof.
  intros Hn (F & HF & VF) (G & HG & VG).
  apply (Pd_ext n (fun i j => csum n (fun a => csum n (fun b => Cmult (RtoC (F a b))
      (dft2 n n (fun c d => RtoC (G ((c + (n - a)) mod n)%nat ((d + (n - b)) mod n)%nat)) i j))))).
  - intros i j Hi Hj. rewrite VF, VG by assumption. unfold dft2 at 2. rewrite <- csum_scal_r.
    apply csum_ext; intros a Ha. rewrite <- csum_scal_r. apply csum_ext; intros b Hb.
    rewrite <- (wave_dft n (fun c d => RtoC (G c d)) a b i j Hn Ha Hb). ring.
  - apply (Pd_sum n n (fun a i j => csum n (fun b => Cmult (RtoC (F a b))
      (dft2 n n (fun c d => RtoC (G ((c + (n - a)) mod n)%nat ((d + (n - b)) mod n)%nat)) i j)))).
    intros a _. apply (Pd_sum n n (fun b i j => Cmult (RtoC (F a b))
      (dft2 n n (fun c d => RtoC (G ((c + (n - a)) mod n)%nat ((d + (n - b)) mod n)%nat)) i j))).
    intros b _. apply (Pd_scal n (F a b)); [apply HF|].
    exists (fun c d => G ((c + (n - a)) mod n)%nat ((d + (n - b)) mod n)%nat). split; [intros; apply HG|reflexivity].
Qed.

Lemma Pd_pow n (r : nat -> nat -> R) k : (0 < n)%nat -> Pd n (fun i j => RtoC (r i j)) -> Pd n (fun i j => RtoC (r i j ^ k)).
Proof.
  intros Hn H. induction k as [|k IH]; cbn [pow]; [apply Pd_one, Hn|].
  apply (Pd_ext n (fun i j => Cmult (RtoC (r i j)) (RtoC (r i j ^ k)))).
  - intros; rewrite RtoC_mult; reflexivity.
  - apply Pd_mult; assumption.
Qed.

(** spectrum of a positive definite sequence *)
Lemma Pd_idft n f u v : (0 < n)%nat -> Pd n f -> 0 <= fst (idft2 n n f u v).
Proof.
  intros Hn (F & HF & VF). rewrite idft2_per by assumption.
  rewrite (idft2_ext n n f (dft2 n n (fun a b => RtoC (F a b)))) by (intros; apply VF; assumption).
  rewrite idft2_dft2 by (apply Nat.mod_upper_bound; lia). cbn [fst RtoC]. apply HF.
Qed.

(** conjugate and real part *)
Lemma neg_ix_lt n i : (0 < n)%nat -> (neg_ix n i < n)%nat.
Proof. intros. apply Nat.mod_upper_bound; lia. Qed.
Lemma W_negix n i c : (0 < n)%nat -> (c < n)%nat -> W n (i * Z.of_nat (neg_ix n c)) = W n (- (i * Z.of_nat c)).
Proof.
  intros Hn Hc. apply W_mod; [exact Hn|]. destruct (Nat.eq_dec c 0) as [ ->|H0].
  - rewrite neg_ix_0 by exact Hn. f_equal. lia.
  - rewrite neg_ix_pos by lia. rewrite Nat2Z.inj_sub by lia.
    replace (i * (Z.of_nat n - Z.of_nat c))%Z with (- (i * Z.of_nat c) + i * Z.of_nat n)%Z by ring.
    apply Z.mod_add. lia.
Qed.
Lemma neg_neg n c : (c < n)%nat -> neg_ix n (neg_ix n c) = c.
Proof.
  intros Hc. destruct (Nat.eq_dec c 0) as [ ->|H0].
  - rewrite !neg_ix_0 by lia. reflexivity.
  - rewrite (neg_ix_pos n c) by lia. rewrite neg_ix_pos by lia. lia.
Qed.
Lemma dft2_neg n x i j : (0 < n)%nat ->
  dft2 n n (fun a b => x (neg_ix n a) (neg_ix n b)) i j =
  csum n (fun a => csum n (fun b => Cmult (x a b)
     (Cmult (W n (- (Z.of_nat i * Z.of_nat a))) (W n (- (Z.of_nat j * Z.of_nat b)))))).
Proof.
  intros Hn. unfold dft2.
  rewrite <- (csum_neg_mod n (fun a => csum n (fun b => Cmult (x (neg_ix n a) (neg_ix n b)) _))) by exact Hn.
  apply csum_ext; intros a Ha. cbv beta. change ((n - a) mod n)%nat with (neg_ix n a).
  rewrite <- (csum_neg_mod n (fun b => Cmult (x (neg_ix n (neg_ix n a)) (neg_ix n b)) _)) by exact Hn.
  apply csum_ext; intros b Hb. cbv beta. change ((n - b) mod n)%nat with (neg_ix n b).
  rewrite !neg_neg, !W_negix by assumption. reflexivity.
Qed.
Lemma Pd_conj n f : (0 < n)%nat -> Pd n f -> Pd n (fun i j => Cconj (f i j)).
Proof.
  intros Hn (F & HF & VF). exists (fun a b => F (neg_ix n a) (neg_ix n b)). split; [intros; apply HF|].
  intros i j Hi Hj. rewrite VF by assumption. rewrite (dft2_neg n (fun a b => RtoC (F a b))) by exact Hn.
  unfold dft2. rewrite csum_conj. apply csum_ext; intros a _. rewrite csum_conj. apply csum_ext; intros b _.
  rewrite !Cconj_mult, Cconj_RtoC, !W_conj. reflexivity.
Qed.
Lemma Pd_re n f : (0 < n)%nat -> Pd n f -> Pd n (fun i j => RtoC (fst (f i j))).
Proof.
  intros Hn H. apply (Pd_ext n (fun i j => Cmult (RtoC (/ 2)) (Cplus (f i j) (Cconj (f i j))))).
  - intros i j _ _. apply C_eq; cbn; field.
  - apply Pd_scal; [lra|]. apply Pd_plus; [exact H|apply Pd_conj; assumption].
Qed.

(** inverse transforms of non-negative spectra *)
Lemma Pd_idft2 n G : (0 < n)%nat -> (forall a b, 0 <= G a b) -> Pd n (fun i j => idft2 n n (fun a b => RtoC (G a b)) i j).
Proof.
  intros Hn HG. unfold idft2. apply Pd_scal.
  - left. apply Rinv_0_lt_compat. apply Rmult_lt_0_compat; apply lt_0_INR; exact Hn.
  - exists (fun a b => G (neg_ix n a) (neg_ix n b)). split; [intros; apply HG|].
    intros i j _ _. symmetry. apply (dft2_neg n (fun a b => RtoC (G a b))). exact Hn.
Qed.
Lemma Pd_autocorr n x : (0 < n)%nat -> Pd n (fun i j => ccorr n n x x i j).
Proof.
  intros Hn.
  apply (Pd_ext n (fun i j => idft2 n n (fun a b => RtoC (Cmod (dft2 n n x a b) * Cmod (dft2 n n x a b))) i j)).
  - intros i j _ _. rewrite <- correl_thm by assumption. apply idft2_ext. intros a b _ _.
    set (z := dft2 n n x a b). unfold Cmod. rewrite sqrt_sqrt.
    + apply C_eq; cbn; ring.
    + apply Rplus_le_le_0_compat; apply pow2_ge_0.
  - apply Pd_idft2; [exact Hn|]. intros. apply Rmult_le_pos; apply Cmod_ge_0.
Qed.

(** covariance of a non-negative PSD *)
Lemma Pd_cov psd a0 b0 n : rows psd = n -> cols psd = n -> (0 < n)%nat -> (forall i j, (i < n)%nat -> (j < n)%nat -> 0 <= px psd i j) ->
  Pd n (fun i j => RtoC (covre psd a0 b0 (Z.of_nat i) (Z.of_nat j))).
Proof.
  intros Hr Hc Hn H.
  apply (Pd_ext n (fun i j => csum n (fun a => csum n (fun b => Cmult (RtoC (px psd a b))
      (RtoC (fst (Cmult (W n ((Z.of_nat a - Z.of_nat a0) * Z.of_nat i)) (W n ((Z.of_nat b - Z.of_nat b0) * Z.of_nat j))))))))).
  - intros i j _ _. unfold covre. rewrite Hr, Hc. rewrite <- csum_RtoC. apply csum_ext; intros a _.
    rewrite <- csum_RtoC. apply csum_ext; intros b _. rewrite RtoC_mult. f_equal. f_equal.
    rewrite WW. cbn [fst]. rewrite <- wave_ang. f_equal. f_equal; f_equal; ring.
  - apply (Pd_sum n n (fun a i j => csum n (fun b => Cmult (RtoC (px psd a b))
      (RtoC (fst (Cmult (W n ((Z.of_nat a - Z.of_nat a0) * Z.of_nat i)) (W n ((Z.of_nat b - Z.of_nat b0) * Z.of_nat j)))))))).
    intros a Ha. apply (Pd_sum n n (fun b i j => Cmult (RtoC (px psd a b))
      (RtoC (fst (Cmult (W n ((Z.of_nat a - Z.of_nat a0) * Z.of_nat i)) (W n ((Z.of_nat b - Z.of_nat b0) * Z.of_nat j))))))).
    intros b Hb. apply Pd_scal; [apply H; assumption|]. apply Pd_re; [exact Hn|]. apply Pd_wave, Hn.
Qed.

(** limit: the exponential of a real positive definite sequence *)
Definition expsum (x : R) (m : nat) : R := rsum m (fun k => / INR (fact k) * x ^ k).

Lemma rsum_sum_n m f : rsum (S m) f = sum_n f m.
Proof.
  induction m as [|m IH].
  - rewrite sum_O. cbn. lra.
  - rewrite sum_Sn, <- IH. reflexivity.
Qed.
Lemma expsum_lim x : is_lim_seq (fun m => expsum x (S m)) (exp x).
Proof.
  assert (H := is_exp_Reals x). unfold is_pseries, is_series in H.
  unfold is_lim_seq. eapply filterlim_ext; [|exact H].
  intros m. unfold expsum. rewrite rsum_sum_n. apply sum_n_ext. intros k.
  rewrite pow_n_pow. unfold scal; cbn. unfold mult; cbn. ring.
Qed.
Lemma Pd_expsum n (r : nat -> nat -> R) m : (0 < n)%nat -> Pd n (fun i j => RtoC (r i j)) ->
  Pd n (fun i j => RtoC (expsum (r i j) m)).
Proof.
  intros Hn H. apply (Pd_ext n (fun i j => csum m (fun k => Cmult (RtoC (/ INR (fact k))) (RtoC (r i j ^ k))))).
  - intros i j _ _. unfold expsum. rewrite <- csum_RtoC. apply csum_ext; intros k _. rewrite RtoC_mult. reflexivity.
  - apply (Pd_sum n m (fun k i j => Cmult (RtoC (/ INR (fact k))) (RtoC (r i j ^ k)))). intros k _.
    apply Pd_scal; [left; apply Rinv_0_lt_compat, lt_0_INR, lt_O_fact|]. apply Pd_pow; assumption.
Qed.

Lemma rsum_lim n (f : nat -> nat -> R) (g : nat -> R) :
  (forall i, (i < n)%nat -> is_lim_seq (fun m => f m i) (g i)) -> is_lim_seq (fun m => rsum n (f m)) (rsum n g).
Proof.
  induction n as [|n IH]; intros H; cbn [rsum]; [apply is_lim_seq_const|].
  apply (is_lim_seq_plus' (fun m => rsum n (f m)) (fun m => f m n)); [apply IH; intros; apply H; lia|apply H; lia].
Qed.

Lemma idft_re n x u v :
  fst (idft2 n n x u v) = / (INR n * INR n) * rsum n (fun i => rsum n (fun j =>
     fst (Cmult (x i j) (Cmult (W n (- (Z.of_nat u * Z.of_nat i))) (W n (- (Z.of_nat v * Z.of_nat j))))))).
Proof.
  unfold idft2. set (s := csum n _). replace (fst (Cmult (RtoC (/ (INR n * INR n))) s)) with (/ (INR n * INR n) * fst s) by (cbn; ring).
  f_equal. unfold s. rewrite csum_Re. apply rsum_ext; intros i _. rewrite csum_Re. reflexivity.
Qed.

(** Main lemma: T positive definite, r real positive definite, then the
    spectrum of T * exp(r) is non-negative. *)
Lemma exp_idft_nonneg n (T : nat -> nat -> C) (r : nat -> nat -> R) u v :
  (0 < n)%nat -> Pd n T -> Pd n (fun i j => RtoC (r i j)) ->
  0 <= fst (idft2 n n (fun i j => Cmult (T i j) (RtoC (exp (r i j)))) u v).
Proof.
  intros Hn HT Hr.
  assert (Lm : is_lim_seq (fun m => fst (idft2 n n (fun i j => Cmult (T i j) (RtoC (expsum (r i j) (S m)))) u v))
     (fst (idft2 n n (fun i j => Cmult (T i j) (RtoC (exp (r i j)))) u v))).
  { rewrite idft_re. apply (is_lim_seq_ext (fun m => / (INR n * INR n) * rsum n (fun i => rsum n (fun j =>
       fst (Cmult (Cmult (T i j) (RtoC (expsum (r i j) (S m))))
          (Cmult (W n (- (Z.of_nat u * Z.of_nat i))) (W n (- (Z.of_nat v * Z.of_nat j))))))))).
    { intros m. symmetry. apply (idft_re n (fun i j => Cmult (T i j) (RtoC (expsum (r i j) (S m))))). }
    apply (is_lim_seq_scal_l _ _ (Finite _)).
    apply (rsum_lim n (fun m i => rsum n (fun j =>
       fst (Cmult (Cmult (T i j) (RtoC (expsum (r i j) (S m))))
          (Cmult (W n (- (Z.of_nat u * Z.of_nat i))) (W n (- (Z.of_nat v * Z.of_nat j)))))))); intros i _.
    apply (rsum_lim n (fun m j => fst (Cmult (Cmult (T i j) (RtoC (expsum (r i j) (S m))))
          (Cmult (W n (- (Z.of_nat u * Z.of_nat i))) (W n (- (Z.of_nat v * Z.of_nat j))))))); intros j _.
    set (w := Cmult (W n (- (Z.of_nat u * Z.of_nat i))) (W n (- (Z.of_nat v * Z.of_nat j)))).
    apply (is_lim_seq_ext (fun m => fst (Cmult (T i j) w) * expsum (r i j) (S m))).
    { intros m. generalize (expsum (r i j) (S m)). intros z. cbn. ring. }
    replace (fst (Cmult (Cmult (T i j) (RtoC (exp (r i j)))) w)) with (fst (Cmult (T i j) w) * exp (r i j)) by (cbn; ring).
    apply (is_lim_seq_scal_l _ _ (Finite _)). apply expsum_lim. }
  apply (is_lim_seq_le (fun _ => 0) _ 0 _ (fun m => Pd_idft n _ u v Hn
     (Pd_mult n T _ Hn HT (Pd_expsum n r (S m) Hn Hr))) (is_lim_seq_const 0) Lm).
Qed.
