(** Finite differences and the radial polynomials of Zernike. *)
From Coq Require Import Reals List Arith ZArith Bool Lia Lra Psatz Binomial.
From Verif Require Import Base_Py M_Tools M_Zernike.
Import ListNotations.
Open Scope R_scope.

Fixpoint dif (k : nat) (g : nat -> R) (s : nat) : R :=
  match k with O => g s | S k' => dif k' g s - dif k' g (S s) end.
Lemma dif_ext k : forall g h s, (forall i, (s <= i <= s + k)%nat -> g i = h i) -> dif k g s = dif k h s.
Proof.
  induction k; intros g h s H; cbn [dif]; [apply H; lia|]. f_equal; [apply IHk|apply IHk]; intros i Hi; apply H; lia.
Qed.
Lemma dif_plus k : forall g h s, dif k (fun i => g i + h i) s = dif k g s + dif k h s.
Proof. induction k; intros; cbn [dif]; [reflexivity|]. rewrite !IHk. ring. Qed.
Lemma dif_scal k : forall c g s, dif k (fun i => c * g i) s = c * dif k g s.
Proof. induction k; intros; cbn [dif]; [reflexivity|]. rewrite !IHk. ring. Qed.
Lemma dif_lin c g k : forall s, dif (S k) (fun i => (c - INR i) * g i) s = (c - INR s) * dif (S k) g s + INR (S k) * dif k g (S s).
Proof.
  induction k; intros s.
  - cbn [dif]. rewrite !S_INR. cbn [INR]. ring.
  - change (dif (S (S k)) (fun i => (c - INR i) * g i) s) with (dif (S k) (fun i => (c - INR i) * g i) s - dif (S k) (fun i => (c - INR i) * g i) (S s)).
    rewrite !IHk. cbn [dif]. rewrite !S_INR. ring.
Qed.
(** product of linear factors *)
Definition prodf (l : list R) (s : nat) : R := fold_right (fun c p => (c - INR s) * p) 1 l.
Lemma dif_const k : forall c s, dif (S k) (fun _ => c) s = 0.
Proof. induction k; intros c s; [cbn; ring|]. change (dif (S k) (fun _ => c) s - dif (S k) (fun _ => c) (S s) = 0). rewrite !IHk. ring. Qed.
Lemma dif_zero l : forall k s, (length l < k)%nat -> dif k (prodf l) s = 0.
Proof.
  induction l as [|c l IH]; intros k s H; cbn [length] in H; (destruct k as [|k]; [lia|]).
  - apply (dif_const k 1).
  - change (prodf (c :: l)) with (fun i => (c - INR i) * prodf l i). rewrite dif_lin, !IH by lia. ring.
Qed.
Lemma dif_top l : forall s, dif (length l) (prodf l) s = INR (fact (length l)).
Proof.
  induction l as [|c l IH]; intros s; [reflexivity|]. cbn [length].
  change (prodf (c :: l)) with (fun i => (c - INR i) * prodf l i). rewrite dif_lin, IH, (dif_zero l) by lia.
  change (fact (S (length l))) with (S (length l) * fact (length l))%nat. rewrite mult_INR. ring.
Qed.
(** the binomial sum *)
Fixpoint sumn (f : nat -> R) (n : nat) : R := match n with O => f O | S k => sumn f k + f (S k) end.
Lemma sumn_ext f g n : (forall i, (i <= n)%nat -> f i = g i) -> sumn f n = sumn g n.
Proof. induction n; intros H; cbn; [apply H; lia|]. rewrite IHn, H by (intros; try apply H; lia). reflexivity. Qed.
Lemma sumn_first f n : sumn f (S n) = f O + sumn (fun i => f (S i)) n.
Proof. induction n; [reflexivity|]. change (sumn f (S (S n))) with (sumn f (S n) + f (S (S n))). rewrite IHn. cbn. ring. Qed.
Lemma sumn_plus f g n : sumn (fun i => f i + g i) n = sumn f n + sumn g n.
Proof. induction n; cbn; [reflexivity|]. rewrite IHn. ring. Qed.
Lemma sumn_scal c f n : sumn (fun i => c * f i) n = c * sumn f n.
Proof. induction n; cbn; [reflexivity|]. rewrite IHn. ring. Qed.
Lemma C_0 n : C n 0 = 1.
Proof. unfold C. rewrite Nat.sub_0_r. cbn [fact INR]. field. apply INR_fact_neq_0. Qed.
Lemma C_n n : C n n = 1.
Proof. unfold C. rewrite Nat.sub_diag. cbn [fact INR]. field. apply INR_fact_neq_0. Qed.
Lemma dif_sum k : forall g t, dif k g t = sumn (fun s => (-1) ^ s * C k s * g (t + s)%nat) k.
Proof.
  induction k; intros g t.
  - cbn. rewrite C_0, Nat.add_0_r. ring.
  - cbn [dif]. rewrite !IHk. rewrite (sumn_first (fun s => (-1) ^ s * C (S k) s * g (t + s)%nat)). destruct k.
    + cbn [sumn]. rewrite !C_0, C_n. cbn [pow]. replace (S t + 0)%nat with (t + 1)%nat by lia. ring.
    + rewrite (sumn_first (fun s => (-1) ^ s * C (S k) s * g (t + s)%nat)).
      cbn [sumn]. rewrite !C_0, !C_n. cbn [pow].
      assert (E : sumn (fun i => -1 * (-1) ^ i * C (S (S k)) (S i) * g (t + S i)%nat) k =
                  sumn (fun i => (-1) ^ S i * C (S k) (S i) * g (t + S i)%nat) k - sumn (fun s => (-1) ^ s * C (S k) s * g (S t + s)%nat) k).
      { replace (sumn (fun i => (-1) ^ S i * C (S k) (S i) * g (t + S i)%nat) k - sumn (fun s => (-1) ^ s * C (S k) s * g (S t + s)%nat) k)
          with (sumn (fun i => (-1) ^ S i * C (S k) (S i) * g (t + S i)%nat) k + sumn (fun i => -1 * ((-1) ^ i * C (S k) i * g (S t + i)%nat)) k) by (rewrite sumn_scal; ring).
        rewrite <- sumn_plus. apply sumn_ext. intros i Hi. rewrite <- (pascal (S k) i) by lia. replace (S t + i)%nat with (t + S i)%nat by lia. cbn [pow]. ring. }
      rewrite E. replace (S t + S k)%nat with (t + S (S k))%nat by lia. cbn [pow]. ring.
Qed.

(** ** the radial polynomial: n = a + b, m = a - b *)
Definition facs (a b : nat) : list R := map (fun i => INR (a + i)) (seq 1 b).
Lemma prodf_facs a b s : (s <= a)%nat -> prodf (facs a b) s * INR (fact (a - s)) = INR (fact (a + b - s)).
Proof.
  intros H. unfold facs. induction b; [cbn; rewrite Nat.add_0_r; ring|].
  rewrite seq_S, map_app. unfold prodf in *. rewrite fold_right_app. cbn [map fold_right].
  assert (G : forall l x, fold_right (fun c p => (c - INR s) * p) x l = fold_right (fun c p => (c - INR s) * p) 1 l * x) by (induction l; intros x; cbn; [ring|rewrite IHl; ring]).
  rewrite G, Rmult_1_r. replace (a + S b - s)%nat with (S (a + b - s)) by lia. change (fact (S (a + b - s))) with (S (a + b - s) * fact (a + b - s))%nat.
  rewrite mult_INR, <- IHb. replace (INR (a + (1 + b)) - INR s) with (INR (S (a + b - s))); [ring|]. rewrite <- minus_INR by lia. f_equal. lia.
Qed.
Lemma facs_length a b : length (facs a b) = b.
Proof. unfold facs. now rewrite map_length, seq_length. Qed.
Lemma rterm_val r a b s : (b <= a)%nat -> (s <= b)%nat ->
  rterm r (a + b) (a - b) s = / INR (fact b) * ((-1) ^ s * C b s * prodf (facs a b) s) * r ^ (a + b - 2 * s).
Proof.
  intros H Hs. unfold rterm. replace (a + b + (a - b))%nat with (a * 2)%nat by lia. replace (a + b - (a - b))%nat with (b * 2)%nat by lia.
  rewrite !Nat.div_mul by lia. rewrite <- (prodf_facs a b s) by lia. unfold C. rewrite !mult_INR.
  field. repeat split; apply INR_fact_neq_0.
Qed.
Lemma fold_sumn (f : nat -> R) n : fold_left (fun acc s => acc + f s) (seq 0 (S n)) 0 = sumn f n.
Proof.
  induction n; [cbn; ring|]. rewrite seq_S, fold_left_app. cbn [fold_left]. rewrite IHn. reflexivity.
Qed.
Lemma R_fun_val r a b : (b <= a)%nat ->
  R_fun r (a + b) (a - b) = / INR (fact b) * sumn (fun s => (-1) ^ s * C b s * prodf (facs a b) s * r ^ (a + b - 2 * s)) b.
Proof.
  intros H. unfold R_fun. replace (a + b - (a - b))%nat with (b * 2)%nat by lia. rewrite Nat.div_mul by lia.
  rewrite (fold_sumn (rterm r (a + b) (a - b))), <- sumn_scal. apply sumn_ext. intros s Hs. rewrite rterm_val by assumption. ring.
Qed.
Lemma R_fun_one a b : (b <= a)%nat -> R_fun 1 (a + b) (a - b) = 1.
Proof.
  intros H. rewrite R_fun_val by exact H.
  rewrite (sumn_ext _ (fun s => (-1) ^ s * C b s * prodf (facs a b) (0 + s))) by (intros; rewrite pow1; cbn [Nat.add]; ring).
  rewrite <- dif_sum. rewrite <- (facs_length a b) at 2. rewrite dif_top, facs_length. field. apply INR_fact_neq_0.
Qed.
(** moments *)
Definition moment (a b q : nat) : R := sumn (fun s => (-1) ^ s * C b s * prodf (facs a b) s / (2 * (INR (a + q + 1) - INR s))) b.
Lemma prodf_app l l' s : prodf (l ++ l') s = prodf l s * prodf l' s.
Proof.
  induction l as [|c l IH]; [change (prodf l' s = 1 * prodf l' s); ring|].
  change ((c - INR s) * prodf (l ++ l') s = (c - INR s) * prodf l s * prodf l' s). rewrite IH. ring.
Qed.
Lemma moment_low a b q : (b <= a)%nat -> (q < b)%nat -> moment a b q = 0.
Proof.
  intros H Hq. unfold moment.
  assert (E : facs a b = map (fun i => INR (a + i)) (seq 1 q) ++ INR (a + q + 1) :: map (fun i => INR (a + i)) (seq (q + 2) (b - q - 1))).
  { unfold facs. replace b with (q + (1 + (b - q - 1)))%nat at 1 by lia. rewrite seq_app, map_app. cbn [seq Nat.add map]. f_equal. f_equal; [f_equal; lia|]. f_equal. f_equal. lia. }
  set (l1 := map (fun i => INR (a + i)) (seq 1 q)) in *. set (l2 := map (fun i => INR (a + i)) (seq (q + 2) (b - q - 1))) in *.
  rewrite (sumn_ext _ (fun s => / 2 * ((-1) ^ s * C b s * prodf (l1 ++ l2) (0 + s)))).
  - rewrite sumn_scal, <- dif_sum, dif_zero; [ring|]. rewrite app_length. subst l1 l2. rewrite !map_length, !seq_length. lia.
  - intros s Hs. rewrite E, !prodf_app. cbn [Nat.add]. change (prodf (INR (a + q + 1) :: l2) s) with ((INR (a + q + 1) - INR s) * prodf l2 s).
    field. apply not_eq_sym, Rlt_not_eq, Rlt_Rminus, lt_INR. lia.
Qed.
Lemma dif_inv N k : forall s, INR s + INR k < N -> dif k (fun i => / (N - INR i)) s * prodf (map (fun i => N - INR i) (seq 0 (S k))) s = (-1) ^ k * INR (fact k).
Proof.
  assert (G : forall k s, INR s + INR k < N -> prodf (map (fun i => N - INR i) (seq 0 (S k))) s <> 0).
  { intros k0. induction k0; intros s H.
    - cbn. cbn in H. lra.
    - rewrite seq_S, map_app, prodf_app. rewrite S_INR in H. apply Rmult_integral_contrapositive_currified; [apply IHk0; lra|]. cbn [map prodf fold_right Nat.add]. rewrite S_INR. lra. }
  assert (P0 : forall k s, prodf (map (fun i => N - INR i) (seq 0 (S k))) s = (N - INR s) * prodf (map (fun i => N - INR i) (seq 0 k)) (S s)).
  { intros k0 s. cbn [seq map]. change (prodf (N - INR 0 :: ?l) s) with ((N - INR 0 - INR s) * prodf l s). cbn [INR]. rewrite Rminus_0_r. f_equal.
    rewrite <- seq_shift, map_map. induction (seq 0 k0); [reflexivity|]. cbn [map prodf fold_right]. fold (prodf (map (fun x => N - INR (S x)) l) s). fold (prodf (map (fun i => N - INR i) l) (S s)).
    rewrite IHl, !S_INR. ring. }
  induction k; intros s H.
  - cbn in *. field. lra.
  - rewrite S_INR in H. cbn [dif].
    assert (H1 : INR s + INR k < N) by lra. assert (H2 : INR (S s) + INR k < N) by (rewrite S_INR; lra).
    pose proof (IHk s H1) as E1. pose proof (IHk (S s) H2) as E2.
    assert (Q1 : prodf (map (fun i => N - INR i) (seq 0 (S (S k)))) s = prodf (map (fun i => N - INR i) (seq 0 (S k))) s * (N - INR (S k) - INR s)).
    { rewrite seq_S, map_app, prodf_app. cbn [Nat.add map prodf fold_right]. ring. }
    rewrite Rmult_minus_distr_r. rewrite Q1 at 1. rewrite (P0 (S k) s).
    replace (dif k (fun i => / (N - INR i)) s * (prodf (map (fun i => N - INR i) (seq 0 (S k))) s * (N - INR (S k) - INR s)))
      with ((dif k (fun i => / (N - INR i)) s * prodf (map (fun i => N - INR i) (seq 0 (S k))) s) * (N - INR (S k) - INR s)) by ring.
    replace (dif k (fun i => / (N - INR i)) (S s) * ((N - INR s) * prodf (map (fun i => N - INR i) (seq 0 (S k))) (S s)))
      with ((dif k (fun i => / (N - INR i)) (S s) * prodf (map (fun i => N - INR i) (seq 0 (S k))) (S s)) * (N - INR s)) by ring.
    rewrite E1, E2. change (fact (S k)) with (S k * fact k)%nat. rewrite mult_INR, !S_INR. cbn [pow]. ring.
Qed.
Lemma dif_frac N b : forall l s, (length l <= b)%nat -> INR s + INR b < N ->
  dif b (fun i => prodf l i / (N - INR i)) s = fold_right (fun c p => (c - N) * p) 1 l * dif b (fun i => / (N - INR i)) s.
Proof.
  induction l as [|c l IH]; intros s H HN.
  - cbn [prodf fold_right]. rewrite Rmult_1_l. apply dif_ext. intros i _. unfold Rdiv. ring.
  - cbn [length] in H. cbn [fold_right].
    rewrite (dif_ext b _ (fun i => prodf l i + (c - N) * (prodf l i / (N - INR i)))).
    + rewrite dif_plus, (dif_zero l) by lia. rewrite (dif_scal b (c - N) (fun i => prodf l i / (N - INR i))), IH by (try lia; assumption). ring.
    + intros i Hi. change (prodf (c :: l) i) with ((c - INR i) * prodf l i). destruct Hi as [_ Hi]. apply le_INR in Hi. rewrite plus_INR in Hi. field. lra.
Qed.
Lemma moment_top a b : (b <= a)%nat -> moment a b b = INR (fact b) * (INR (fact b) * INR (fact a) / (2 * INR (fact (a + b + 1)))).
Proof.
  intros H. unfold moment. set (N := INR (a + b + 1)).
  assert (HN : INR 0 + INR b < N) by (unfold N; rewrite <- plus_INR; apply lt_INR; lia).
  rewrite (sumn_ext _ (fun s => / 2 * ((-1) ^ s * C b s * (prodf (facs a b) (0 + s) / (N - INR (0 + s)))))).
  2:{ intros s Hs. cbn [Nat.add]. field. unfold N. apply not_eq_sym, Rlt_not_eq, Rlt_Rminus, lt_INR. lia. }
  rewrite sumn_scal, <- (dif_sum b (fun i => prodf (facs a b) i / (N - INR i)) 0).
  rewrite dif_frac by (try rewrite facs_length; try lia; exact HN).
  pose proof (dif_inv N b 0%nat HN) as E.
  assert (P : prodf (map (fun i => N - INR i) (seq 0 (S b))) 0 * INR (fact a) = INR (fact (a + b + 1))).
  { assert (G : forall k, (k <= b + 1)%nat -> prodf (map (fun i => N - INR i) (seq 0 k)) 0 * INR (fact (a + b + 1 - k)) = INR (fact (a + b + 1))).
    { induction k; intros Hk; [cbn [seq map prodf fold_right]; rewrite Nat.sub_0_r; ring|].
      rewrite <- IHk by lia. rewrite seq_S, map_app, prodf_app. cbn [Nat.add map prodf fold_right INR].
      replace (a + b + 1 - k)%nat with (S (a + b + 1 - S k)) by lia. change (fact (S (a + b + 1 - S k))) with (S (a + b + 1 - S k) * fact (a + b + 1 - S k))%nat.
      rewrite mult_INR. replace (N - INR k - 0) with (INR (S (a + b + 1 - S k))); [ring|]. unfold N. rewrite Rminus_0_r, <- minus_INR by lia. f_equal. lia. }
    rewrite <- (G (S b)) by lia. do 3 f_equal. lia. }
  assert (Q : fold_right (fun c p => (c - N) * p) 1 (facs a b) = (-1) ^ b * INR (fact b)).
  { unfold facs, N. clear. assert (G : forall k, (k <= b)%nat -> fold_right (fun c p => (c - INR (a + b + 1)) * p) 1 (map (fun i => INR (a + i)) (seq (1 + b - k) k)) = (-1) ^ k * INR (fact k)).
    { induction k; intros Hk; [cbn; ring|]. cbn [seq map fold_right]. replace (S (1 + b - S k)) with (1 + b - k)%nat by lia. rewrite IHk by lia.
      change (fact (S k)) with (S k * fact k)%nat. rewrite mult_INR. cbn [pow]. replace (INR (a + (1 + b - S k)) - INR (a + b + 1)) with (- INR (S k)); [ring|].
      replace (a + b + 1)%nat with (a + (1 + b - S k) + S k)%nat by lia. rewrite (plus_INR _ (S k)). ring. }
    rewrite <- (G b) by lia. do 3 f_equal. lia. }
  rewrite Q. set (P' := prodf _ 0) in *. set (d := dif _ _ _) in *.
  assert (Fa := INR_fact_neq_0 a). assert (Fb := INR_fact_neq_0 b). assert (Fn := INR_fact_neq_0 (a + b + 1)).
  assert (NP : P' <> 0) by (intros Z; rewrite Z in P; rewrite Rmult_0_l in P; congruence).
  assert (Ed : d = (-1) ^ b * INR (fact b) / P') by (apply (Rmult_eq_reg_r P'); [rewrite E; field; exact NP|exact NP]).
  rewrite Ed, <- P. assert (S1 : (-1) ^ b * (-1) ^ b = 1) by (rewrite <- pow_add; replace (b + b)%nat with (2 * b)%nat by lia; apply pow_1_even).
  transitivity (((-1) ^ b * (-1) ^ b) * (/ 2 * (INR (fact b) * INR (fact b)) / P')); [field; exact NP|]. rewrite S1. field. split; assumption.
Qed.
