(** Integrals of Zernike modes over the unit disc. *)
From Coq Require Import Reals List Arith ZArith Bool Lia Lra Psatz Binomial.
From Coquelicot Require Import Coquelicot.
From Verif Require Import Base_Py M_Tools M_Zernike L_Zernike2.
Import ListNotations.
Open Scope R_scope.

Lemma is_RInt_pow01 k : is_RInt (fun r => r ^ k) 0 1 (/ INR (S k)).
Proof.
  assert (Hk : INR (S k) <> 0) by (apply not_0_INR; lia).
  replace (/ INR (S k)) with (minus (1 ^ S k / INR (S k)) (0 ^ S k / INR (S k))).
  - apply (is_RInt_derive (fun r => r ^ S k / INR (S k)) (fun r => r ^ k)).
    + intros x _. auto_derive; [trivial|]. rewrite Rmult_1_l. change (match k with O => 1 | S _ => INR k + 1 end) with (INR (S k)). field. exact Hk.
    + intros x _. apply (ex_derive_continuous (fun r => r ^ k)). auto_derive. trivial.
  - unfold minus, plus, opp; cbn [AbelianGroup.plus AbelianGroup.opp]. cbn. rewrite pow1. cbn. fold (INR (S k)). field. exact Hk.
Qed.
Lemma is_RInt_sumn (f : nat -> R -> R) (v : nat -> R) a b n : (forall i, (i <= n)%nat -> is_RInt (f i) a b (v i)) ->
  is_RInt (fun x => sumn (fun i => f i x) n) a b (sumn v n).
Proof.
  induction n; intros H; cbn [sumn]; [apply H; lia|]. apply (is_RInt_plus (fun x => sumn (fun i => f i x) n) (f (S n))); [apply IHn; intros; apply H; lia|apply H; lia].
Qed.
Lemma is_RInt_eq (f g : R -> R) (a b v w : R) : (forall x, f x = g x) -> v = w -> is_RInt f a b v -> is_RInt g a b w.
Proof. intros H <- I. apply is_RInt_ext with f; [intros; apply H|exact I]. Qed.
Lemma is_RInt_mul (f : R -> R) (c a b v : R) : is_RInt f a b v -> is_RInt (fun x => c * f x) a b (c * v).
Proof. apply (is_RInt_scal f a b c v). Qed.

Lemma R_fun_moment a b q : (b <= a)%nat ->
  is_RInt (fun r => R_fun r (a + b) (a - b) * (r ^ (a - b + 2 * q) * r)) 0 1 (/ INR (fact b) * moment a b q).
Proof.
  intros H. unfold moment.
  apply is_RInt_eq with (f := fun r => / INR (fact b) * sumn (fun s => ((-1) ^ s * Binomial.C b s * prodf (facs a b) s) * r ^ (2 * (a + q - s) + 1)) b)
    (v := / INR (fact b) * sumn (fun s => (-1) ^ s * Binomial.C b s * prodf (facs a b) s * / INR (S (2 * (a + q - s) + 1))) b).
  - intros r. rewrite R_fun_val by exact H. rewrite !Rmult_assoc. f_equal. rewrite (Rmult_comm (sumn _ b)), <- sumn_scal. apply sumn_ext. intros s Hs.
    transitivity (((-1) ^ s * Binomial.C b s * prodf (facs a b) s) * (r ^ (a + b - 2 * s) * (r ^ (a - b + 2 * q) * r))); [|ring]. f_equal.
    rewrite <- (pow_1 r) at 4. rewrite <- !pow_add. f_equal. lia.
  - f_equal. apply sumn_ext. intros s Hs. unfold Rdiv. f_equal. f_equal. rewrite <- minus_INR by lia.
    replace (S (2 * (a + q - s) + 1)) with (2 * (a + q + 1 - s))%nat by lia. rewrite mult_INR. reflexivity.
  - apply is_RInt_mul, is_RInt_sumn. intros s Hs. apply is_RInt_mul, is_RInt_pow01.
Qed.
(** the scalar product of two radial polynomials of the same azimuthal order *)
Lemma R_fun_inner a b q c : (b <= a)%nat -> (c <= q)%nat -> (a - b = q - c)%nat -> (c <= b)%nat ->
  is_RInt (fun r => R_fun r (a + b) (a - b) * R_fun r (q + c) (q - c) * r) 0 1 (if (c =? b)%nat then / (2 * (INR (a + b) + 1)) else 0).
Proof.
  intros Ha Hq Hm Hc.
  apply is_RInt_eq with (f := fun r => / INR (fact c) * sumn (fun s => ((-1) ^ s * Binomial.C c s * prodf (facs q c) s) * (R_fun r (a + b) (a - b) * (r ^ (a - b + 2 * (c - s)) * r))) c)
    (v := / INR (fact c) * sumn (fun s => ((-1) ^ s * Binomial.C c s * prodf (facs q c) s) * (/ INR (fact b) * moment a b (c - s))) c).
  - intros r. rewrite (R_fun_val r q c) by exact Hq.
    transitivity (/ INR (fact c) * ((R_fun r (a + b) (a - b) * r) * sumn (fun s => (-1) ^ s * Binomial.C c s * prodf (facs q c) s * r ^ (q + c - 2 * s)) c)); [|ring].
    f_equal. rewrite <- sumn_scal. apply sumn_ext. intros s Hs. replace (a - b + 2 * (c - s))%nat with (q + c - 2 * s)%nat by lia. ring.
  - destruct (Nat.eqb_spec c b) as [ ->|N].
    + assert (a = q) by lia. subst q.
      assert (E : sumn (fun s => (-1) ^ s * Binomial.C b s * prodf (facs a b) s * (/ INR (fact b) * moment a b (b - s))) b = prodf (facs a b) 0 * (/ INR (fact b) * moment a b b)).
      { destruct b as [|b']; [cbn [sumn pow]; rewrite C_0; cbn [Nat.sub]; ring|]. rewrite sumn_first. rewrite C_0. cbn [pow Nat.sub].
        rewrite (sumn_ext _ (fun _ => 0 * 0)). - rewrite sumn_scal. ring. - intros i Hi. rewrite (moment_low a (S b') (b' - i)) by lia. ring. }
      rewrite E, moment_top by exact Ha. pose proof (prodf_facs a b 0 ltac:(lia)) as P. rewrite !Nat.sub_0_r in P.
      replace (a + b + 1)%nat with (S (a + b)) by lia. change (fact (S (a + b))) with (S (a + b) * fact (a + b))%nat. rewrite mult_INR, <- P, S_INR.
      assert (Q : prodf (facs a b) 0 <> 0) by (intros Z; rewrite Z, Rmult_0_l in P; symmetry in P; now apply INR_fact_neq_0 in P).
      pose proof (pos_INR (a + b)). field. repeat split; try apply INR_fact_neq_0; try assumption; lra.
    + rewrite (sumn_ext _ (fun _ => 0 * 0)); [rewrite sumn_scal; ring|]. intros s Hs. rewrite (moment_low a b (c - s)) by lia. ring.
  - apply is_RInt_mul, is_RInt_sumn. intros s Hs. apply is_RInt_mul, R_fun_moment, Ha.
Qed.
(** a scalar product exists for any two azimuthal orders *)
Lemma R_fun_continuous n m r : continuous (fun x => R_fun x n m) r.
Proof.
  unfold R_fun. generalize (seq 0 (S ((n - m) / 2))) as l.
  assert (G : forall l (f : R -> R), continuous f r -> continuous (fun x => fold_left (fun acc s => acc + rterm x n m s) l (f x)) r).
  { induction l as [|s l IH]; intros f Hf; [exact Hf|]. cbn [fold_left]. apply (IH (fun x => f x + rterm x n m s)).
    apply (continuous_plus f (fun x => rterm x n m s)); [exact Hf|]. unfold rterm. apply (ex_derive_continuous (fun x => _)). auto_derive. trivial. }
  intros l. apply (G l (fun _ => 0)), continuous_const.
Qed.
Lemma R_fun_inner_ex n m n' m' : ex_RInt (fun r => R_fun r n m * R_fun r n' m' * r) 0 1.
Proof.
  apply (ex_RInt_continuous (fun r => R_fun r n m * R_fun r n' m' * r)). intros z _.
  apply (continuous_mult (fun r => R_fun r n m * R_fun r n' m') (fun r => r)); [|apply continuous_id].
  apply (continuous_mult (fun r => R_fun r n m) (fun r => R_fun r n' m')); apply R_fun_continuous.
Qed.

(** ** Angular part *)
Lemma sin_2kPI k : sin (INR k * (2 * PI)) = 0.
Proof. replace (INR k * (2 * PI)) with (0 + 2 * INR k * PI) by ring. rewrite sin_period. apply sin_0. Qed.
Lemma cos_2kPI k : cos (INR k * (2 * PI)) = 1.
Proof. replace (INR k * (2 * PI)) with (0 + 2 * INR k * PI) by ring. rewrite cos_period. apply cos_0. Qed.
Lemma int_cos k : (0 < k)%nat -> is_RInt (fun o => cos (INR k * o)) 0 (2 * PI) 0.
Proof.
  intros H. assert (Hk : INR k <> 0) by (apply not_0_INR; lia).
  apply is_RInt_eq with (f := fun o => cos (INR k * o)) (v := minus (sin (INR k * (2 * PI)) / INR k) (sin (INR k * 0) / INR k)).
  - reflexivity.
  - rewrite sin_2kPI, Rmult_0_r, sin_0. unfold minus, plus, opp; cbn. field. exact Hk.
  - apply (is_RInt_derive (fun o => sin (INR k * o) / INR k) (fun o => cos (INR k * o))).
    + intros x _. auto_derive; [trivial|]. field. exact Hk.
    + intros x _. apply (ex_derive_continuous (fun o => cos (INR k * o))). auto_derive. trivial.
Qed.
Lemma int_sin k : is_RInt (fun o => sin (INR k * o)) 0 (2 * PI) 0.
Proof.
  destruct k.
  - apply is_RInt_eq with (f := fun _ => 0) (v := (2 * PI - 0) * 0); [intros x; cbn; now rewrite Rmult_0_l, sin_0|ring|]. apply (is_RInt_const 0 (2 * PI) 0).
  - assert (Hk : INR (S k) <> 0) by (apply not_0_INR; lia). set (q := INR (S k)) in *.
    apply is_RInt_eq with (f := fun o => sin (q * o)) (v := minus (- cos (q * (2 * PI)) / q) (- cos (q * 0) / q)).
    + reflexivity.
    + unfold q at 1. rewrite cos_2kPI, Rmult_0_r, cos_0. unfold minus, plus, opp; cbn. field. exact Hk.
    + apply (is_RInt_derive (fun o => - cos (q * o) / q) (fun o => sin (q * o))).
      * intros x _. auto_derive; [trivial|]. field. exact Hk.
      * intros x _. apply (ex_derive_continuous (fun o => sin (q * o))). auto_derive. trivial.
Qed.
Lemma int_cos0 k : is_RInt (fun o => cos (INR k * o)) 0 (2 * PI) (if (k =? 0)%nat then 2 * PI else 0).
Proof.
  destruct k; [|apply int_cos; lia].
  apply is_RInt_eq with (f := fun _ => 1) (v := (2 * PI - 0) * 1); [intros x; cbn; now rewrite Rmult_0_l, cos_0|cbn; ring|]. apply (is_RInt_const 0 (2 * PI) 1).
Qed.
(** difference of orders, up to sign *)
Lemma cos_diff m k o : cos (INR m * o - INR k * o) = cos (INR (m - k + (k - m)) * o).
Proof.
  destruct (le_lt_dec k m).
  - replace (m - k + (k - m))%nat with (m - k)%nat by lia. rewrite minus_INR by lia. f_equal. ring.
  - replace (m - k + (k - m))%nat with (k - m)%nat by lia. rewrite minus_INR by lia. rewrite <- (cos_neg (_ - _)). f_equal. ring.
Qed.
Lemma int_coscos m k : (0 < m)%nat -> is_RInt (fun o => cos (INR m * o) * cos (INR k * o)) 0 (2 * PI) (if (m =? k)%nat then PI else 0).
Proof.
  intros H. apply is_RInt_eq with (f := fun o => / 2 * (cos (INR (m + k) * o) + cos (INR (m - k + (k - m)) * o)))
    (v := / 2 * (0 + (if (m - k + (k - m) =? 0)%nat then 2 * PI else 0))).
  - intros o. rewrite <- cos_diff, plus_INR, Rmult_plus_distr_r, cos_plus, cos_minus. field.
  - destruct (Nat.eqb_spec m k), (Nat.eqb_spec (m - k + (k - m)) 0); try lia; field.
  - apply is_RInt_mul, (is_RInt_plus (fun o => cos (INR (m + k) * o))); [apply int_cos; lia|apply int_cos0].
Qed.
Lemma int_sinsin m k : (0 < m)%nat -> is_RInt (fun o => sin (INR m * o) * sin (INR k * o)) 0 (2 * PI) (if (m =? k)%nat then PI else 0).
Proof.
  intros H. apply is_RInt_eq with (f := fun o => / 2 * (cos (INR (m - k + (k - m)) * o) + -1 * cos (INR (m + k) * o)))
    (v := / 2 * ((if (m - k + (k - m) =? 0)%nat then 2 * PI else 0) + -1 * 0)).
  - intros o. rewrite <- cos_diff, plus_INR, Rmult_plus_distr_r, cos_plus, cos_minus. field.
  - destruct (Nat.eqb_spec m k), (Nat.eqb_spec (m - k + (k - m)) 0); try lia; field.
  - apply is_RInt_mul, (is_RInt_plus (fun o => cos (INR (m - k + (k - m)) * o))); [apply int_cos0|apply is_RInt_mul, int_cos; lia].
Qed.
Lemma int_sincos m k : is_RInt (fun o => sin (INR m * o) * cos (INR k * o)) 0 (2 * PI) 0.
Proof.
  destruct (le_lt_dec k m).
  - apply is_RInt_eq with (f := fun o => / 2 * (sin (INR (m + k) * o) + sin (INR (m - k) * o))) (v := / 2 * (0 + 0)).
    + intros o. rewrite plus_INR, minus_INR, Rmult_plus_distr_r, Rmult_minus_distr_r, sin_plus, sin_minus by lia. field.
    + ring.
    + apply is_RInt_mul, (is_RInt_plus (fun o => sin (INR (m + k) * o))); apply int_sin.
  - apply is_RInt_eq with (f := fun o => / 2 * (sin (INR (m + k) * o) + -1 * sin (INR (k - m) * o))) (v := / 2 * (0 + -1 * 0)).
    + intros o. rewrite plus_INR, minus_INR, Rmult_plus_distr_r, Rmult_minus_distr_r, sin_plus, sin_minus by lia. field.
    + ring.
    + apply is_RInt_mul, (is_RInt_plus (fun o => sin (INR (m + k) * o))); [|apply is_RInt_mul]; apply int_sin.
Qed.
