(** Properties C63, C64, C65: variance of the Zernike coefficients, power series,
    angular covariance of the tilts. *)
From Coq Require Import Reals List Arith ZArith Bool Lia Lra Psatz FunctionalExtensionality.
From Flocq Require Import Core.Raux.
From Verif Require Import Base_Py M_Tools M_Zernike M_Zernike2 L_Zernike P_Zernike P_Zernike2.
Import ListNotations.
Open Scope R_scope.

(** ** C63: variance of the coefficients *)
(** von Karman / Kolmogorov variance of a mode of radial order n (Noll 1976 for an
    infinite outer scale, Conan 2000 otherwise) *)
Definition order_variance (gam : R -> R) (dr0 dL0 : R) (n : Z) : result R :=
  let c := Rpower (24 * gam (6 / 5) / 5) (5 / 6) * gam (11 / 6) ^ 2 in
  if Req_EM_T dL0 0 then
    if (n =? 0)%Z then Err NonFinite
    else Ok (c * gam (14 / 3) / (Rpower 2 (8 / 3) * PI) * Rpower dr0 (5 / 3) * (IZR n + 1) *
             (gam (IZR n - 5 / 6) / (gam (IZR n + 23 / 6) * gam (17 / 6) * gam (17 / 6))))
  else Ok (4 * c / Rpower PI (14 / 3) * Rpower (dr0 / dL0) (5 / 3) / dL0 ^ 2 * (IZR n + 1) *
           UnParamEx4q2 gam 0 (IZR n + 1) (IZR n + 1) (11 / 6) (PI * dL0)).
Lemma sgn_half_even n m : ((n - m) mod 2 = 0)%Z -> sgn_half (n + n - m - m) = Ok 1.
Proof.
  intros H. unfold sgn_half. replace (n + n - m - m)%Z with ((n - m) * 2)%Z by ring. rewrite Z.mod_mul, Z.div_mul by lia.
  rewrite Zeven_mod, H. reflexivity.
Qed.
Lemma sqrt_sq n : (0 <= n)%Z -> sqrt (IZR ((n + 1) * (n + 1))) = IZR n + 1.
Proof. intros H. rewrite mult_IZR, plus_IZR. apply sqrt_square. apply IZR_le in H. lra. Qed.
Lemma zernCov_order gam dr0 dL0 j n m : (1 <= j)%Z -> findNM1 j = Ok (n, m) ->
  zernCovCoef gam dr0 dL0 j j n m n m = order_variance gam dr0 dL0 n.
Proof.
  intros Hj E. destruct (C37_noll_orders j Hj) as (n' & m' & E' & _ & Rm & Pm & [O1 O2] & _). rewrite E in E'. injection E' as <- <-.
  unfold zernCovCoef, order_variance. rewrite !Z.eqb_refl, Z.sub_diag. cbn [andb Z.abs Z.eqb orb]. change (0 mod 2 =? 0)%Z with true. cbn [orb].
  rewrite (sgn_half_even n m Pm). cbn [bind]. rewrite (sqrt_sq n) by lia.
  destruct (Req_EM_T dL0 0).
  - destruct (Z.eqb_spec n 0) as [ -> |N].
    + assert (j = 1)%Z by nia. subst j. reflexivity.
    + assert (j <> 1)%Z by nia. destruct (Z.eqb_spec j 1); [congruence|]. cbn [andb]. f_equal.
      unfold newGamma, rprod. cbn [map fold_right]. rewrite Z.sub_diag.
      replace (-5 / 6 + IZR (n + n) / 2) with (IZR n - 5 / 6) by (rewrite plus_IZR; field).
      replace (23 / 6 + IZR (n + n) / 2) with (IZR n + 23 / 6) by (rewrite plus_IZR; field).
      replace (17 / 6 + 0 / 2) with (17 / 6) by field. rewrite !Rmult_1_r, <- Rmult_assoc. unfold Rdiv. ring.
  - f_equal. unfold Rdiv. ring.
Qed.
Lemma run_ends_in e l : In e (run_ends l) -> In e l.
Proof.
  induction l as [|x [|y l] IH]; [intros []|intros H; exact H|]. intros H.
  change (run_ends (x :: y :: l)) with (if (fst (snd y) - fst (snd x) =? 0)%Z then run_ends (y :: l) else x :: run_ends (y :: l)) in H.
  destruct (fst (snd y) - fst (snd x) =? 0)%Z; [right; apply IH; exact H|]. destruct H as [H|H]; [now left|right; apply IH; exact H].
Qed.
Lemma run_ends_cover l : forall x, In x l -> exists e, In e (run_ends l) /\ fst (snd e) = fst (snd x).
Proof.
  induction l as [|y [|w l] IH]; [intros x []|intros x [ ->|[]]; exists x; cbn; tauto|]. intros x H.
  change (run_ends (y :: w :: l)) with (if (fst (snd w) - fst (snd y) =? 0)%Z then run_ends (w :: l) else y :: run_ends (w :: l)).
  destruct (Z.eqb_spec (fst (snd w) - fst (snd y)) 0) as [E|E].
  - destruct H as [ ->|H]; [|exact (IH x H)]. destruct (IH w) as (e & He & Hf); [now left|]. exists e. split; [exact He|lia].
  - destruct H as [ ->|H]; [exists x; split; [now left|reflexivity]|]. destruct (IH x H) as (e & He & Hf). exists e. split; [now right|exact Hf].
Qed.
Lemma assign_length n v nv acc : length nv = length acc -> length (assign n v nv acc) = length acc.
Proof. intros H. unfold assign. rewrite map_length, combine_length. lia. Qed.
Lemma assign_nth n v : forall nv acc i k a, nth_error nv i = Some k -> nth_error acc i = Some a ->
  nth_error (assign n v nv acc) i = Some (if (k =? n)%Z then v else a).
Proof. induction nv as [|x nv IH]; intros [|y acc] [|i] k a; cbn; try discriminate; [intros [= ->] [= ->]; reflexivity|]. apply IH. Qed.
Lemma fold_assign gam x nv0 i n : forall es acc a,
  (forall j n m, In (j, (n, m)) es -> (1 <= j)%Z /\ findNM1 j = Ok (n, m)) ->
  length nv0 = length acc -> nth_error nv0 i = Some n -> nth_error acc i = Some a ->
  (a = order_variance gam (fst x) (snd x) n \/ exists e, In e es /\ fst (snd e) = n) ->
  let r := fold_left (fun acc e => let '(j, (n, m)) := e in assign n (zernCovCoef gam (fst x) (snd x) j j n m n m) nv0 acc) es acc in
  length r = length acc /\ nth_error r i = Some (order_variance gam (fst x) (snd x) n).
Proof.
  induction es as [|(j, (n', m')) es IH]; intros acc a H L Hn Ha C; cbn [fold_left].
  - destruct C as [ ->|(e & [] & _)]. split; [reflexivity|exact Ha].
  - destruct (H j n' m' (or_introl eq_refl)) as [Hj Ef].
    destruct (IH (assign n' (zernCovCoef gam (fst x) (snd x) j j n' m' n' m') nv0 acc) (if (n =? n')%Z then zernCovCoef gam (fst x) (snd x) j j n' m' n' m' else a)) as [A B].
    + intros; apply H; now right.
    + rewrite assign_length; assumption.
    + exact Hn.
    + now apply assign_nth.
    + destruct (Z.eqb_spec n n') as [E|E]; [left; subst n'; now apply (zernCov_order _ _ _ _ n m')|].
      destruct C as [ ->|(e & [ <-|He] & F)]; [now left|cbn in F; congruence|right; eauto].
    + split; [rewrite A; now apply assign_length|exact B].
Qed.
Lemma mapM_nm l : (forall j, In j l -> (1 <= j)%Z) -> exists r, mapM nmOrder l = Ok r /\ length r = length l /\
  (forall i j, nth_error l i = Some j -> exists p, nth_error r i = Some p /\ findNM1 j = Ok p) /\
  (forall j p, In (j, p) (combine l r) -> (1 <= j)%Z /\ findNM1 j = Ok p).
Proof.
  induction l as [|x l IH]; intros H; [exists []; repeat split; try contradiction; intros [|i] j; discriminate|].
  destruct IH as (r & E & L & F & G); [intros; apply H; now right|]. destruct (C37_noll_orders x (H x (or_introl eq_refl))) as (n & m & Ef & En & _).
  exists ((n, m) :: r). cbn [mapM]. rewrite En. cbn [bind]. rewrite E. cbn [bind length combine].
  split; [reflexivity|]. split; [lia|]. split.
  - intros [|i] j Hi; cbn in Hi |- *; [injection Hi as <-; eauto|now apply F].
  - intros j p [Q|Q]; [injection Q as <- <-; split; [apply H; now left|exact Ef]|now apply G].
Qed.
(** For every list of modes, in any order and with repetitions, each mode gets the
    variance of its radial order. *)
Theorem C63_variance : forall gam x jv, jv <> [] -> (forall j, In j jv -> (1 <= j)%Z) ->
  exists r, CoefficientsVariance gam x jv = Ok r /\ length r = length jv /\
    forall i j n m, nth_error jv i = Some j -> findNM1 j = Ok (n, m) -> nth_error r i = Some (order_variance gam (fst x) (snd x) n).
Proof.
  intros gam x jv N H. destruct (mapM_nm jv H) as (nm & E & L & F & G). unfold CoefficientsVariance. rewrite E. cbn [bind].
  destruct jv as [|j0 jv']; [congruence|]. set (jv := j0 :: jv') in *. eexists. split; [reflexivity|].
  assert (P : forall i j, nth_error jv i = Some j -> forall n m, findNM1 j = Ok (n, m) ->
     let r := fold_left (fun acc e => let '(j, (n, m)) := e in assign n (zernCovCoef gam (fst x) (snd x) j j n m n m) (map fst nm) acc) (run_ends (combine jv nm)) (map (fun _ => Ok 0) jv) in
     length r = length (map (fun _ : Z => @Ok R 0) jv) /\ nth_error r i = Some (order_variance gam (fst x) (snd x) n)).
  { intros i j Hi n m Ef. destruct (F i j Hi) as (p & Hp & Ep). rewrite Ef in Ep. injection Ep as <-.
    apply fold_assign with (a := Ok 0).
    - intros j' n' m' He. apply run_ends_in in He. now apply G.
    - rewrite !map_length. exact L.
    - rewrite nth_error_map, Hp. reflexivity.
    - rewrite nth_error_map, Hi. reflexivity.
    - right. destruct (run_ends_cover (combine jv nm) (j, (n, m))) as (e & He & Hf); [|exists e; split; [exact He|exact Hf]].
      clear - Hi Hp. revert i nm Hi Hp. generalize jv. intros l. induction l as [|y l IH]; intros [|i] [|w r] Hi Hp; cbn in *; try discriminate; [left; congruence|right; eapply IH; eassumption]. }
  destruct (C37_noll_orders j0 (H j0 (or_introl eq_refl))) as (n0 & m0 & E0 & _).
  destruct (P 0%nat j0 eq_refl n0 m0 E0) as [Q _]. rewrite map_length in Q. split; [exact Q|]. intros i j n m Hi Ef. apply (P i j Hi n m Ef).
Qed.
Print Assumptions C63_variance.
Theorem C63_empty : forall gam x, CoefficientsVariance gam x [] = Err IndexError.
Proof. reflexivity. Qed.
(** The variances scale as (D/r0)^(5/3). *)
Theorem C63_scaling : forall gam c dr0 dL0 n v, 0 < c -> 0 < dr0 -> 0 <= dL0 ->
  order_variance gam dr0 dL0 n = Ok v -> order_variance gam (c * dr0) dL0 n = Ok (Rpower c (5 / 3) * v).
Proof.
  intros gam c dr0 dL0 n v Hc Hd HL. unfold order_variance. destruct (Req_EM_T dL0 0).
  - destruct (n =? 0)%Z; [discriminate|]. intros H. apply Ok_inj in H. rewrite <- H. f_equal. rewrite <- Rpower_mult_distr by lra. unfold Rdiv. ring.
  - intros H. apply Ok_inj in H. rewrite <- H. f_equal. replace (c * dr0 / dL0) with (c * (dr0 / dL0)) by (unfold Rdiv; ring).
    rewrite <- (Rpower_mult_distr c (dr0 / dL0)) by (try apply Rdiv_lt_0_compat; lra). unfold Rdiv. ring.
Qed.
Print Assumptions C63_scaling.
Example C63_ex : forall gam dr0 dL0, exists r, CoefficientsVariance gam (dr0, dL0) [3; 4; 2]%Z = Ok r /\ nth_error r 0 = nth_error r 2.
Proof.
  intros. destruct (C63_variance gam (dr0, dL0) [3; 4; 2]%Z) as (r & E & L & F); [discriminate|intros j [<-|[<-|[<-|[]]]]; lia|].
  exists r. split; [exact E|].
  assert (V : forall j n k, (0 <= n)%Z -> (n * (n + 1) = 2 * k)%Z -> in_order n j -> findNM1 j = Ok (n, azim n (j - k))) by (intros; now apply findNM1_val).
  rewrite (F 0%nat 3%Z 1%Z (azim 1 2)), (F 2%nat 2%Z 1%Z (azim 1 1)); try reflexivity; [rewrite (V 2 1 1)%Z|rewrite (V 3 1 1)%Z]; try reflexivity; unfold in_order; lia.
Qed.

(** ** C64: the generalised hypergeometric series *)
Fixpoint rising (x : R) (k : nat) : R := match k with O => 1 | S k' => rising x k' * (x + INR k') end.
Definition rprods (l : list R) (k : nat) : R := fold_right (fun x acc => rising x k * acc) 1 l.
(** k-th term of pFq(a; b; z) (the k! is part of b) *)
Definition hterm (a b : list R) (z : R) (k : nat) : R := rprods a k / rprods b k * z ^ k.
Fixpoint partial_sum (f : nat -> R) (n : nat) : R := match n with O => 0 | S n' => partial_sum f n' + f n' end.
Lemma rprods_S l k : rprods l (S k) = rprods l k * fk l k.
Proof. unfold rprods, fk, rprod. induction l as [|x l IH]; cbn [map fold_right]; [ring|]. rewrite IH. cbn [rising]. ring. Qed.
Lemma rprods_0 l : rprods l 0 = 1.
Proof. unfold rprods. induction l; cbn [fold_right]; [reflexivity|rewrite IHl; cbn; ring]. Qed.
Lemma rprods_nz l k : (forall i, fk l i <> 0) -> rprods l k <> 0.
Proof. intros H. induction k; [rewrite rprods_0; lra|]. rewrite rprods_S. apply Rmult_integral_contrapositive. split; [assumption|apply H]. Qed.
Lemma hterm_S a b z k : (forall i, fk b i <> 0) -> hterm a b z (S k) = fk a k * z * hterm a b z k / fk b k.
Proof. intros H. unfold hterm. rewrite !rprods_S. cbn [pow]. pose proof (rprods_nz b k H). pose proof (H k). field. split; assumption. Qed.
Definition converged (a b : list R) (z tol : R) (n : nat) : Prop := Rabs (Rabs (hterm a b z (n - 1)) - Rabs (hterm a b z n)) <= tol.
Lemma poch_inv nmax tol a b z : (forall i, fk b i <> 0) -> forall fuel k step,
  (nmax + 2 <= fuel + k)%nat -> (k <= nmax + 1)%nat ->
  (step = None /\ k = 0%nat \/ (1 <= k)%nat /\ step = Some (Rabs (Rabs (hterm a b z (k - 1)) - Rabs (hterm a b z k)))) ->
  (forall i, (1 <= i < k)%nat -> ~ converged a b z tol i) ->
  exists n, fst (fst (poch_loop fuel nmax tol a b z k (hterm a b z k) step (partial_sum (hterm a b z) (S k)))) = partial_sum (hterm a b z) (S n) /\
    (1 <= n <= nmax + 1)%nat /\ (n = (nmax + 1)%nat \/ converged a b z tol n) /\ (forall i, (1 <= i < n)%nat -> ~ converged a b z tol i).
Proof.
  intros B. induction fuel as [|f IH]; intros k step Hf Hk S Hc; [lia|]. cbn [poch_loop].
  assert (Stop : step <> None -> (k = nmax + 1)%nat \/ converged a b z tol k -> exists n, partial_sum (hterm a b z) (Datatypes.S k) = partial_sum (hterm a b z) (Datatypes.S n) /\
     (1 <= n <= nmax + 1)%nat /\ (n = (nmax + 1)%nat \/ converged a b z tol n) /\ (forall i, (1 <= i < n)%nat -> ~ converged a b z tol i)).
  { intros N C. exists k. split; [reflexivity|]. split; [|tauto]. destruct S as [[S _]|[S _]]; [congruence|lia]. }
  assert (Step : (k <= nmax)%nat -> (k = 0%nat \/ ~ converged a b z tol k) -> exists n, fst (fst (poch_loop f nmax tol a b z (Datatypes.S k) (fk a k * z * hterm a b z k / fk b k) (Some (Rabs (Rabs (hterm a b z k) - Rabs (fk a k * z * hterm a b z k / fk b k)))) (partial_sum (hterm a b z) (Datatypes.S k) + fk a k * z * hterm a b z k / fk b k))) = partial_sum (hterm a b z) (Datatypes.S n) /\
     (1 <= n <= nmax + 1)%nat /\ (n = (nmax + 1)%nat \/ converged a b z tol n) /\ (forall i, (1 <= i < n)%nat -> ~ converged a b z tol i)).
  { intros Q C. rewrite <- hterm_S by exact B. apply (IH (Datatypes.S k)); try lia.
    - right. split; [lia|]. now replace (Datatypes.S k - 1)%nat with k by lia.
    - intros i Hi. destruct (Nat.eq_dec i k) as [ ->|]; [destruct C; [lia|assumption]|apply Hc; lia]. }
  destruct (Nat.leb_spec k nmax) as [Q|Q]; cbn [andb].
  - destruct S as [[-> ->]|[S1 ->]]; [apply Step; [lia|now left]|]. fold (converged a b z tol k) in *.
    destruct (Rlt_dec tol _) as [T|T].
    + apply Step; [exact Q|]. right. unfold converged. lra.
    + cbn [fst]. apply Stop; [congruence|]. right. unfold converged. lra.
  - cbn [fst]. apply Stop; [destruct S as [[_ S]|[_ S]]; [lia|congruence]|]. left. lia.
Qed.
(** C64: at a convergent point the result is the truncated series up to the first
    index n >= 1 at which the moduli of two consecutive terms differ by at most tol,
    or up to nmax + 1; at 0 it is 1. The loop always ends. *)
Theorem C64_series : forall p q a b z tol nmax, length a = p -> length b = q -> (p < q + 1)%nat -> (forall x k, In x b -> x + INR k <> 0) ->
  (z = 0 -> pochammerSeries p q a b z tol nmax = 1) /\
  (z <> 0 -> exists n, pochammerSeries p q a b z tol nmax = partial_sum (hterm a b z) (S n) /\
    (1 <= n <= nmax + 1)%nat /\ (n = (nmax + 1)%nat \/ converged a b z tol n) /\ forall i, (1 <= i < n)%nat -> ~ converged a b z tol i).
Proof.
  intros p q a b z tol nmax La Lb Hpq B.
  assert (B' : forall i, fk b i <> 0).
  { intros i. unfold fk, rprod. clear - B. induction b as [|x b IH]; cbn [map fold_right]; [lra|]. apply Rmult_integral_contrapositive. split; [apply B; now left|apply IH; intros; apply B; now right]. }
  unfold pochammerSeries. rewrite La, Lb, !Nat.eqb_refl. cbn [andb].
  replace (p <? q + 1)%nat with true by (symmetry; now apply Nat.ltb_lt). rewrite orb_true_r.
  split; intros Z; destruct (Req_EM_T z 0); try congruence.
  pose proof (poch_inv nmax tol a b z B' (nmax + 2) 0 None ltac:(lia) ltac:(lia) ltac:(now left) ltac:(intros; lia)) as P.
  assert (H0 : hterm a b z 0 = 1) by (unfold hterm; rewrite !rprods_0; cbn; field). rewrite H0 in P. cbn [partial_sum] in P. rewrite H0, Rplus_0_l in P. exact P.
Qed.
Print Assumptions C64_series.
(** the stopping rule compares the moduli of consecutive terms, so it can stop
    although the rest is large: the exponential series 0F0 at 1 gives 2: finding *)
Theorem C64_early_stop_refuted : infinite_sum (hterm [] [1] 1) (exp 1) /\ pochammerSeries 0 1 [] [1] 1 (/ 10 ^ 6) 1000 = 2 /\ 5 / 2 < exp 1.
Proof.
  assert (R1 : forall k, rising 1 k = INR (fact k)).
  { induction k; [reflexivity|]. cbn [rising]. rewrite IHk. change (fact (S k)) with (S k * fact k)%nat. rewrite mult_INR, S_INR. ring. }
  assert (T : forall k, hterm [] [1] 1 k = / INR (fact k) * 1 ^ k).
  { intros k. unfold hterm, rprods. cbn [fold_right]. rewrite R1, Rmult_1_r. unfold Rdiv. ring. }
  assert (E : infinite_sum (hterm [] [1] 1) (exp 1)).
  { unfold exp. destruct (exist_exp 1) as [x Hx]. cbn [proj1_sig]. unfold exp_in in Hx. intros e He. destruct (Hx e He) as [N HN]. exists N. intros n Hn. rewrite (sum_eq _ (fun i => / INR (fact i) * 1 ^ i)) by (intros; apply T). apply HN, Hn. }
  split; [exact E|]. split.
  - destruct (C64_series 0 1 [] [1] 1 (/ 10 ^ 6) 1000 eq_refl eq_refl ltac:(lia)) as [_ S]; [intros x k [<-|[]]; pose proof (pos_INR k); lra|].
    destruct S as (n & -> & Hn & C & F); [lra|]. assert (n = 1)%nat; [|subst n; cbn [partial_sum]; rewrite !T; cbn; field].
    destruct (Nat.eq_dec n 1); [assumption|]. exfalso. apply (F 1%nat); [lia|]. unfold converged. rewrite !T. cbn [Nat.sub fact Nat.mul Nat.add INR pow]. rewrite Rinv_1, !Rmult_1_l, Rminus_eq_0, Rabs_R0. left. apply Rinv_0_lt_compat. lra.
  - assert (P : sum_f_R0 (hterm [] [1] 1) 3 <= exp 1).
    { apply sum_incr; [exact E|]. intros n. rewrite T, pow1, Rmult_1_r. left. apply Rinv_0_lt_compat, INR_fact_lt_0. }
    cbn [sum_f_R0] in P. rewrite !T in P. cbn in P. lra.
Qed.
Print Assumptions C64_early_stop_refuted.

Print Assumptions C63_empty.
