(** Discrete Fourier transform as finite complex sums, and its basic theory:
    twiddle factors, periodicity, orthogonality, cyclic re-indexing. *)
From Coq Require Import Reals Arith ZArith Lia Lra Psatz.
From Verif Require Import Base_Sum.
From Coquelicot Require Import Complex.
Open Scope R_scope.

(** ** cyclic re-indexing of sums *)
Lemma rsum_shift_mod n a f :
  (0 < n)%nat -> rsum n (fun i => f ((i + a) mod n)%nat) = rsum n f.
Proof.
  intros Hn.
  assert (Ha : (a mod n < n)%nat) by (apply Nat.mod_upper_bound; lia).
  set (b := (a mod n)%nat) in *.
  assert (E : forall i, ((i + a) mod n = (i + b) mod n)%nat).
  { intros i. unfold b. rewrite Nat.add_mod_idemp_r by lia. reflexivity. }
  rewrite (rsum_ext n _ (fun i => f ((i + b) mod n)%nat)) by (intros; rewrite E; reflexivity).
  clearbody b. clear E a.
  replace (rsum n f) with (rsum (b + (n - b)) f) by (f_equal; lia).
  replace (rsum n (fun i => f ((i + b) mod n)%nat))
    with (rsum ((n - b) + b) (fun i => f ((i + b) mod n)%nat)) by (f_equal; lia).
  rewrite !rsum_app. rewrite Rplus_comm. f_equal.
  - apply rsum_ext; intros i Hi. f_equal.
    replace (n - b + i + b)%nat with (i + 1 * n)%nat by lia.
    rewrite Nat.mod_add by lia. apply Nat.mod_small; lia.
  - apply rsum_ext; intros i Hi. f_equal. rewrite Nat.mod_small by lia. lia.
Qed.

Lemma rsum_neg_mod n f :
  (0 < n)%nat -> rsum n (fun i => f ((n - i) mod n)%nat) = rsum n f.
Proof.
  intros Hn. rewrite rsum_rev.
  rewrite (rsum_ext n _ (fun i => f ((i + 1) mod n)%nat)).
  - apply (rsum_shift_mod n 1 f Hn).
  - intros i Hi. f_equal. f_equal. lia.
Qed.

(** ** complex sums *)
Lemma C_eq (a b : C) : fst a = fst b -> snd a = snd b -> a = b.
Proof. destruct a, b; cbn; intros -> ->; reflexivity. Qed.

Lemma csum_shift_mod n a f :
  (0 < n)%nat -> csum n (fun i => f ((i + a) mod n)%nat) = csum n f.
Proof.
  intros Hn. apply C_eq; rewrite ?csum_Re, ?csum_Im.
  - apply (rsum_shift_mod n a (fun i => fst (f i)) Hn).
  - apply (rsum_shift_mod n a (fun i => snd (f i)) Hn).
Qed.

Lemma csum_neg_mod n f :
  (0 < n)%nat -> csum n (fun i => f ((n - i) mod n)%nat) = csum n f.
Proof.
  intros Hn. apply C_eq; rewrite ?csum_Re, ?csum_Im.
  - apply (rsum_neg_mod n (fun i => fst (f i)) Hn).
  - apply (rsum_neg_mod n (fun i => snd (f i)) Hn).
Qed.

Lemma csum_plus n f g : csum n (fun i => Cplus (f i) (g i)) = Cplus (csum n f) (csum n g).
Proof. induction n as [|n IH]; cbn [csum]; [ring|]. rewrite IH; ring. Qed.

Lemma csum_scal n c f : csum n (fun i => Cmult c (f i)) = Cmult c (csum n f).
Proof. induction n as [|n IH]; cbn [csum]; [ring|]. rewrite IH; ring. Qed.

Lemma csum_scal_r n c f : csum n (fun i => Cmult (f i) c) = Cmult (csum n f) c.
Proof. induction n as [|n IH]; cbn [csum]; [ring|]. rewrite IH; ring. Qed.

Lemma csum_zero n f : (forall i, (i < n)%nat -> f i = RtoC 0) -> csum n f = RtoC 0.
Proof.
  intros H. apply C_eq; rewrite ?csum_Re, ?csum_Im; cbn; apply rsum_zero;
    intros i Hi; rewrite H by exact Hi; reflexivity.
Qed.

Lemma csum_swap n m f :
  csum n (fun i => csum m (fun j => f i j)) = csum m (fun j => csum n (fun i => f i j)).
Proof.
  induction n as [|n IH]; cbn [csum].
  - symmetry; apply csum_zero; reflexivity.
  - rewrite IH, <- csum_plus. reflexivity.
Qed.

Lemma csum_single n k f :
  (k < n)%nat -> (forall i, (i < n)%nat -> i <> k -> f i = RtoC 0) -> csum n f = f k.
Proof.
  intros Hk H. apply C_eq; rewrite ?csum_Re, ?csum_Im.
  - apply (rsum_single n k (fun i => fst (f i)) Hk). intros i Hi Hne. rewrite H by assumption. reflexivity.
  - apply (rsum_single n k (fun i => snd (f i)) Hk). intros i Hi Hne. rewrite H by assumption. reflexivity.
Qed.

Lemma Cconj_plus a b : Cconj (Cplus a b) = Cplus (Cconj a) (Cconj b).
Proof. apply C_eq; cbn; lra. Qed.
Lemma Cconj_mult a b : Cconj (Cmult a b) = Cmult (Cconj a) (Cconj b).
Proof. apply C_eq; cbn; lra. Qed.
Lemma Cconj_invol a : Cconj (Cconj a) = a.
Proof. apply C_eq; cbn; lra. Qed.
Lemma Cconj_RtoC r : Cconj (RtoC r) = RtoC r.
Proof. apply C_eq; cbn; lra. Qed.

Lemma csum_conj n f : Cconj (csum n f) = csum n (fun i => Cconj (f i)).
Proof.
  induction n as [|n IH]; cbn [csum]; [apply Cconj_RtoC|].
  rewrite Cconj_plus, IH. reflexivity.
Qed.

Lemma csum_RtoC n f : csum n (fun i => RtoC (f i)) = RtoC (rsum n f).
Proof. apply C_eq; rewrite ?csum_Re, ?csum_Im; cbn; [reflexivity|apply rsum_zero; reflexivity]. Qed.

(** ** integer periodicity of sin and cos *)
Lemma cos_period_Z x (k : Z) : cos (x + 2 * IZR k * PI) = cos x.
Proof.
  destruct (Z_le_dec 0 k) as [H|H].
  - rewrite <- (Z2Nat.id k H), <- INR_IZR_INZ. apply cos_period.
  - set (m := Z.to_nat (- k)).
    assert (E : IZR k = - INR m).
    { unfold m. rewrite INR_IZR_INZ, Z2Nat.id by lia. rewrite opp_IZR. lra. }
    rewrite E. rewrite <- (cos_period (x + 2 * - INR m * PI) m). f_equal. lra.
Qed.
Lemma sin_period_Z x (k : Z) : sin (x + 2 * IZR k * PI) = sin x.
Proof.
  destruct (Z_le_dec 0 k) as [H|H].
  - rewrite <- (Z2Nat.id k H), <- INR_IZR_INZ. apply sin_period.
  - set (m := Z.to_nat (- k)).
    assert (E : IZR k = - INR m).
    { unfold m. rewrite INR_IZR_INZ, Z2Nat.id by lia. rewrite opp_IZR. lra. }
    rewrite E. rewrite <- (sin_period (x + 2 * - INR m * PI) m). f_equal. lra.
Qed.

Lemma cos_eq_1_Z x : cos x = 1 -> exists k : Z, x = 2 * IZR k * PI.
Proof.
  intros H. replace x with (2 * (x / 2)) in H by lra.
  rewrite cos_2a_sin in H.
  assert (Hs : sin (x / 2) = 0) by nra.
  destruct (sin_eq_0_0 _ Hs) as (k & Hk). exists k. lra.
Qed.

(** ** twiddle factors: W n k = exp(-2 i pi k / n) *)
Definition ang (n : nat) (k : Z) : R := 2 * PI * IZR k / INR n.
Definition W (n : nat) (k : Z) : C := (cos (ang n k), - sin (ang n k)).

Lemma INR_pos_neq n : (0 < n)%nat -> INR n <> 0.
Proof. intros H. apply not_0_INR. lia. Qed.

Lemma ang_add n a b : ang n (a + b) = ang n a + ang n b.
Proof. unfold ang. rewrite plus_IZR. unfold Rdiv. ring. Qed.
Lemma ang_opp n a : ang n (- a) = - ang n a.
Proof. unfold ang. rewrite opp_IZR. unfold Rdiv. ring. Qed.
Lemma ang_0 n : ang n 0 = 0.
Proof. unfold ang. unfold Rdiv. ring. Qed.
Lemma ang_mul n m : (0 < n)%nat -> ang n (Z.of_nat n * m) = 2 * IZR m * PI.
Proof. intros Hn. unfold ang. rewrite mult_IZR, <- INR_IZR_INZ. field. apply INR_pos_neq, Hn. Qed.

Lemma W_add n a b : W n (a + b) = Cmult (W n a) (W n b).
Proof.
  unfold W. rewrite ang_add. apply C_eq; cbn.
  - rewrite cos_plus. ring.
  - rewrite sin_plus. ring.
Qed.
Lemma W_0 n : W n 0 = RtoC 1.
Proof. unfold W. rewrite ang_0, cos_0, sin_0. apply C_eq; cbn; lra. Qed.
Lemma W_per n k m : (0 < n)%nat -> W n (k + Z.of_nat n * m) = W n k.
Proof.
  intros Hn. unfold W. rewrite ang_add, ang_mul by exact Hn.
  rewrite cos_period_Z, sin_period_Z. reflexivity.
Qed.
Lemma W_conj n k : Cconj (W n k) = W n (- k).
Proof. unfold W. rewrite ang_opp, cos_neg, sin_neg. apply C_eq; cbn; lra. Qed.
Lemma W_sq n k : fst (W n k) * fst (W n k) + snd (W n k) * snd (W n k) = 1.
Proof. unfold W; cbn. generalize (sin2_cos2 (ang n k)); unfold Rsqr; lra. Qed.
Lemma W_bounds n k : -1 <= fst (W n k) <= 1.
Proof. unfold W; cbn. apply COS_bound. Qed.

(** congruent exponents *)
Lemma W_mod n a b : (0 < n)%nat -> (a mod Z.of_nat n = b mod Z.of_nat n)%Z -> W n a = W n b.
Proof.
  intros Hn H. assert (Hz : (Z.of_nat n <> 0)%Z) by lia.
  rewrite (Z.div_mod a _ Hz), (Z.div_mod b _ Hz), H.
  rewrite (Z.add_comm _ (b mod _)), (Z.add_comm (_ * (b / _)) _).
  rewrite !W_per by exact Hn. reflexivity.
Qed.

Lemma W_eq1 n k : (0 < n)%nat -> fst (W n k) = 1 -> (k mod Z.of_nat n = 0)%Z.
Proof.
  intros Hn H. unfold W in H; cbn in H. apply cos_eq_1_Z in H. destruct H as (m & Hm).
  unfold ang in Hm. assert (Hn' := INR_pos_neq n Hn). assert (Hpi := PI_RGT_0).
  assert (E : IZR k = IZR m * INR n).
  { apply Rmult_eq_reg_l with (2 * PI); [|lra].
    apply (f_equal (fun z => z * INR n)) in Hm. unfold Rdiv in Hm.
    rewrite Rmult_assoc, Rinv_l in Hm by exact Hn'. lra. }
  rewrite INR_IZR_INZ, <- mult_IZR in E. apply eq_IZR in E. subst k.
  apply Z.mod_mul. lia.
Qed.

Lemma W_inv n k : Cmult (W n k) (W n (- k)) = RtoC 1.
Proof. rewrite <- W_add. replace (k + - k)%Z with 0%Z by lia. apply W_0. Qed.

(** geometric sum *)
Lemma W_geom n k m :
  Cmult (Cminus (RtoC 1) (W n k)) (csum m (fun j => W n (k * Z.of_nat j)))
  = Cminus (RtoC 1) (W n (k * Z.of_nat m)).
Proof.
  induction m as [|m IH]; cbn [csum].
  - replace (k * Z.of_nat 0)%Z with 0%Z by lia. rewrite W_0. ring.
  - rewrite Cmult_plus_distr_l, IH.
    replace (k * Z.of_nat (S m))%Z with (k + k * Z.of_nat m)%Z by lia.
    rewrite W_add. ring.
Qed.

Lemma W_orth n k :
  (0 < n)%nat ->
  csum n (fun j => W n (k * Z.of_nat j)) =
  if (k mod Z.of_nat n =? 0)%Z then RtoC (INR n) else RtoC 0.
Proof.
  intros Hn. destruct (Z.eqb_spec (k mod Z.of_nat n) 0) as [E|E].
  - rewrite (csum_ext n _ (fun _ => RtoC 1)).
    + rewrite csum_RtoC, rsum_const. f_equal. lra.
    + intros j _. rewrite <- (W_0 n). apply W_mod; [exact Hn|].
      rewrite Z.mod_0_l by lia. rewrite Z.mul_mod, E by lia.
      rewrite Z.mul_0_l. apply Z.mod_0_l. lia.
  - assert (H := W_geom n k n).
    assert (E1 : W n (k * Z.of_nat n) = RtoC 1).
    { rewrite <- (W_0 n). apply W_mod; [exact Hn|].
      rewrite Z.mod_mul, Z.mod_0_l by lia. reflexivity. }
    rewrite E1 in H. replace (Cminus (RtoC 1) (RtoC 1)) with (RtoC 0) in H by ring.
    destruct (Ceq_dec (Cminus (RtoC 1) (W n k)) (RtoC 0)) as [Z0|Z0].
    + exfalso. apply E. apply W_eq1; [exact Hn|].
      apply (f_equal fst) in Z0. cbn in Z0. cbn. lra.
    + set (s := csum n (fun j => W n (k * Z.of_nat j))) in *.
      replace s with (Cmult (Cinv (Cminus (RtoC 1) (W n k))) (Cmult (Cminus (RtoC 1) (W n k)) s)).
      * rewrite H. ring.
      * rewrite Cmult_assoc, Cinv_l by exact Z0. ring.
Qed.

(** ** 1-D and 2-D transforms (numpy.fft conventions) *)
Definition dft1 (n : nat) (x : nat -> C) (k : nat) : C :=
  csum n (fun j => Cmult (x j) (W n (Z.of_nat k * Z.of_nat j))).
Definition idft1 (n : nat) (x : nat -> C) (k : nat) : C :=
  Cmult (RtoC (/ INR n)) (csum n (fun j => Cmult (x j) (W n (- (Z.of_nat k * Z.of_nat j))))).

Definition dft2 (nx ny : nat) (x : nat -> nat -> C) (u v : nat) : C :=
  csum nx (fun i => csum ny (fun j =>
    Cmult (x i j) (Cmult (W nx (Z.of_nat u * Z.of_nat i)) (W ny (Z.of_nat v * Z.of_nat j))))).
Definition idft2 (nx ny : nat) (x : nat -> nat -> C) (u v : nat) : C :=
  Cmult (RtoC (/ (INR nx * INR ny))) (csum nx (fun i => csum ny (fun j =>
    Cmult (x i j) (Cmult (W nx (- (Z.of_nat u * Z.of_nat i))) (W ny (- (Z.of_nat v * Z.of_nat j))))))).

Lemma dft2_ext nx ny x y u v :
  (forall i j, (i < nx)%nat -> (j < ny)%nat -> x i j = y i j) -> dft2 nx ny x u v = dft2 nx ny y u v.
Proof.
  intros H. apply csum_ext; intros i Hi. apply csum_ext; intros j Hj. rewrite H by assumption. reflexivity.
Qed.
Lemma idft2_ext nx ny x y u v :
  (forall i j, (i < nx)%nat -> (j < ny)%nat -> x i j = y i j) -> idft2 nx ny x u v = idft2 nx ny y u v.
Proof.
  intros H. unfold idft2. f_equal. apply csum_ext; intros i Hi. apply csum_ext; intros j Hj.
  rewrite H by assumption. reflexivity.
Qed.

(** orthogonality written for two nat indices *)
Lemma W_orth2 n a b :
  (0 < n)%nat -> (a < n)%nat -> (b < n)%nat ->
  csum n (fun j => W n ((Z.of_nat a - Z.of_nat b) * Z.of_nat j)) =
  if Nat.eqb a b then RtoC (INR n) else RtoC 0.
Proof.
  intros Hn Ha Hb. rewrite W_orth by exact Hn.
  destruct (Nat.eqb_spec a b) as [->|Hne].
  - replace (Z.of_nat b - Z.of_nat b)%Z with 0%Z by lia. rewrite Z.mod_0_l by lia. reflexivity.
  - destruct (Z.eqb_spec ((Z.of_nat a - Z.of_nat b) mod Z.of_nat n) 0) as [E|E]; [|reflexivity].
    exfalso. apply Z.mod_divide in E; [|lia]. destruct E as (q & Hq). 
    assert (q = 0)%Z by nia. subst q. lia.
Qed.

(** sum of all the samples of the inverse transform = value at zero frequency *)
Lemma csum2_idft2 nx ny x :
  (0 < nx)%nat -> (0 < ny)%nat ->
  csum nx (fun u => csum ny (fun v => idft2 nx ny x u v)) = x 0%nat 0%nat.
Proof.
  intros Hx Hy. unfold idft2.
  rewrite (csum_ext nx _ (fun u => Cmult (RtoC (/ (INR nx * INR ny)))
     (csum ny (fun v => csum nx (fun i => csum ny (fun j =>
       Cmult (x i j) (Cmult (W nx (- (Z.of_nat u * Z.of_nat i))) (W ny (- (Z.of_nat v * Z.of_nat j)))))))))).
  2:{ intros u _. apply csum_scal. }
  rewrite csum_scal.
  assert (E : csum nx (fun u => csum ny (fun v => csum nx (fun i => csum ny (fun j =>
       Cmult (x i j) (Cmult (W nx (- (Z.of_nat u * Z.of_nat i))) (W ny (- (Z.of_nat v * Z.of_nat j)))))))) =
     csum nx (fun i => csum ny (fun j => Cmult (x i j)
        (Cmult (csum nx (fun u => W nx (- (Z.of_nat u * Z.of_nat i))))
               (csum ny (fun v => W ny (- (Z.of_nat v * Z.of_nat j)))))))).
  { rewrite (csum_ext nx _ (fun u => csum nx (fun i => csum ny (fun v => csum ny (fun j =>
       Cmult (x i j) (Cmult (W nx (- (Z.of_nat u * Z.of_nat i))) (W ny (- (Z.of_nat v * Z.of_nat j))))))))).
    2:{ intros u _. apply csum_swap. }
    rewrite csum_swap. apply csum_ext; intros i Hi.
    rewrite (csum_ext nx _ (fun u => csum ny (fun j => csum ny (fun v =>
       Cmult (x i j) (Cmult (W nx (- (Z.of_nat u * Z.of_nat i))) (W ny (- (Z.of_nat v * Z.of_nat j)))))))).
    2:{ intros u _. apply csum_swap. }
    rewrite csum_swap. apply csum_ext; intros j Hj.
    rewrite (csum_ext nx _ (fun u => Cmult (Cmult (x i j) (W nx (- (Z.of_nat u * Z.of_nat i))))
                 (csum ny (fun v => W ny (- (Z.of_nat v * Z.of_nat j)))))).
    2:{ intros u _. rewrite <- csum_scal. apply csum_ext; intros v _. ring. }
    rewrite csum_scal_r. rewrite csum_scal. ring. }
  rewrite E.
  assert (O : forall n i, (0 < n)%nat -> (i < n)%nat ->
     csum n (fun u => W n (- (Z.of_nat u * Z.of_nat i))) = if Nat.eqb i 0 then RtoC (INR n) else RtoC 0).
  { intros n i Hn Hi. rewrite Nat.eqb_sym. rewrite <- (W_orth2 n 0 i Hn Hn Hi).
    apply csum_ext; intros u _. f_equal. lia. }
  rewrite (csum_single nx 0).
  - rewrite (csum_single ny 0).
    + rewrite !O by assumption. cbn [Nat.eqb]. rewrite <- !RtoC_mult || idtac.
      apply C_eq; cbn; field; split; apply INR_pos_neq; assumption.
    + exact Hy.
    + intros j Hj Hne. rewrite (O ny j) by assumption.
      destruct (Nat.eqb_spec j 0); [contradiction|]. ring.
  - exact Hx.
  - intros i Hi Hne. apply csum_zero; intros j Hj. rewrite (O nx i) by assumption.
    destruct (Nat.eqb_spec i 0); [contradiction|]. ring.
Qed.

(** inversion: idft2 (dft2 x) = x *)
Lemma idft2_dft2 nx ny x u v :
  (u < nx)%nat -> (v < ny)%nat -> idft2 nx ny (dft2 nx ny x) u v = x u v.
Proof.
  intros Hu Hv. assert (Hx : (0 < nx)%nat) by lia. assert (Hy : (0 < ny)%nat) by lia.
  unfold idft2, dft2.
  assert (E : csum nx (fun i => csum ny (fun j =>
      Cmult (csum nx (fun a => csum ny (fun b => Cmult (x a b)
          (Cmult (W nx (Z.of_nat i * Z.of_nat a)) (W ny (Z.of_nat j * Z.of_nat b))))))
        (Cmult (W nx (- (Z.of_nat u * Z.of_nat i))) (W ny (- (Z.of_nat v * Z.of_nat j)))))) =
    csum nx (fun a => csum ny (fun b => Cmult (x a b)
      (Cmult (csum nx (fun i => W nx ((Z.of_nat a - Z.of_nat u) * Z.of_nat i)))
             (csum ny (fun j => W ny ((Z.of_nat b - Z.of_nat v) * Z.of_nat j))))))).
  { rewrite (csum_ext nx _ (fun i => csum ny (fun j => csum nx (fun a => csum ny (fun b =>
       Cmult (x a b) (Cmult (W nx ((Z.of_nat a - Z.of_nat u) * Z.of_nat i))
                            (W ny ((Z.of_nat b - Z.of_nat v) * Z.of_nat j)))))))).
    2:{ intros i _. apply csum_ext; intros j _. rewrite <- csum_scal_r.
        apply csum_ext; intros a _. rewrite <- csum_scal_r. apply csum_ext; intros b _.
        replace ((Z.of_nat a - Z.of_nat u) * Z.of_nat i)%Z
           with (Z.of_nat i * Z.of_nat a + - (Z.of_nat u * Z.of_nat i))%Z by ring.
        replace ((Z.of_nat b - Z.of_nat v) * Z.of_nat j)%Z
           with (Z.of_nat j * Z.of_nat b + - (Z.of_nat v * Z.of_nat j))%Z by ring.
        rewrite !W_add. ring. }
    rewrite (csum_ext nx _ (fun i => csum nx (fun a => csum ny (fun j => csum ny (fun b =>
       Cmult (x a b) (Cmult (W nx ((Z.of_nat a - Z.of_nat u) * Z.of_nat i))
                            (W ny ((Z.of_nat b - Z.of_nat v) * Z.of_nat j)))))))).
    2:{ intros i _. apply csum_swap. }
    rewrite csum_swap. apply csum_ext; intros a _.
    rewrite (csum_ext nx _ (fun i => csum ny (fun b => csum ny (fun j =>
       Cmult (x a b) (Cmult (W nx ((Z.of_nat a - Z.of_nat u) * Z.of_nat i))
                            (W ny ((Z.of_nat b - Z.of_nat v) * Z.of_nat j))))))).
    2:{ intros i _. apply csum_swap. }
    rewrite csum_swap. apply csum_ext; intros b _.
    rewrite (csum_ext nx _ (fun i => Cmult (Cmult (x a b) (W nx ((Z.of_nat a - Z.of_nat u) * Z.of_nat i)))
       (csum ny (fun j => W ny ((Z.of_nat b - Z.of_nat v) * Z.of_nat j))))).
    2:{ intros i _. rewrite <- csum_scal. apply csum_ext; intros j _. ring. }
    rewrite csum_scal_r, csum_scal. ring. }
  rewrite E.
  rewrite (csum_single nx u).
  - rewrite (csum_single ny v).
    + rewrite !W_orth2 by assumption. rewrite !Nat.eqb_refl.
      apply C_eq; cbn; field; split; apply INR_pos_neq; assumption.
    + exact Hv.
    + intros b Hb Hne. rewrite (W_orth2 ny b v) by assumption.
      destruct (Nat.eqb_spec b v); [contradiction|]. ring.
  - exact Hu.
  - intros a Ha Hne. apply csum_zero; intros b Hb. rewrite (W_orth2 nx a u) by assumption.
    destruct (Nat.eqb_spec a u); [contradiction|]. ring.
Qed.
