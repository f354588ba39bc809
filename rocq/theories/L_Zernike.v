(** Lemmas on Noll indices and radial polynomials. *)
From Coq Require Import Reals List Arith ZArith Bool Lia Lra Psatz.
From Flocq Require Import Core.Raux.
From Verif Require Import Base_Py M_Tools M_Zernike.
Import ListNotations.
Open Scope R_scope.

Lemma even_prod n : exists k, (n * (n + 1) = 2 * k)%Z.
Proof. destruct (Z.Even_or_Odd n) as [[q ->]|[q ->]]; [exists (q * (2 * q + 1))%Z|exists ((2 * q + 1) * (q + 1))%Z]; ring. Qed.
Lemma order_exists j : (1 <= j)%Z -> exists n, (0 <= n /\ n * (n + 1) < 2 * j <= (n + 1) * (n + 2))%Z.
Proof.
  intros H. pattern j. apply Zlt_lower_bound_ind with (z := 1%Z); [|exact H]. clear j H. intros j IH Hj.
  destruct (Z.eq_dec j 1) as [ ->|N]; [exists 0%Z; lia|].
  destruct (IH (j - 1)%Z) as (n & Hn & H1 & H2); [lia|]. destruct (Z_le_dec (2 * j) ((n + 1) * (n + 2))); [exists n; lia|].
  exists (n + 1)%Z. destruct (even_prod (n + 1)) as (k & Hk). replace ((n + 1) * (n + 2))%Z with (2 * k)%Z in * by (rewrite <- Hk; ring).
  replace ((n + 1) * (n + 1 + 1))%Z with (2 * k)%Z by lia.
  nia.
Qed.
Lemma sqrt_ge x a : 0 <= a -> a ^ 2 <= x -> a <= sqrt x.
Proof. intros Ha H. rewrite <- (sqrt_pow2 a) by exact Ha. apply sqrt_le_1_alt. exact H. Qed.
Lemma sqrt_lt' x a : 0 <= a -> 0 <= x -> x < a ^ 2 -> sqrt x < a.
Proof. intros Ha Hx H. rewrite <- (sqrt_pow2 a) by exact Ha. apply sqrt_lt_1_alt. lra. Qed.
(** azimuthal order from the rank p of j in its radial order *)
Definition azim (n p : Z) : Z := if (n mod 2 =? 0)%Z then (2 * (p / 2))%Z else (2 * ((p + 1) / 2) - 1)%Z.
Lemma findNM1_val j n k : (0 <= n)%Z -> (n * (n + 1) = 2 * k)%Z -> (n * (n + 1) < 2 * j <= (n + 1) * (n + 2))%Z ->
  findNM1 j = Ok (n, azim n (j - k)).
Proof.
  intros Hn Hk [H1 H2]. unfold findNM1. assert (J : (1 <= j)%Z) by nia. destruct (Z.ltb_spec (2 * j - 1) 0); [lia|].
  assert (B : (Ztrunc (sqrt (IZR (2 * j - 1)) + / 2) = n + 1)%Z).
  { assert (0 <= sqrt (IZR (2 * j - 1))) by apply sqrt_pos. rewrite Ztrunc_floor by lra. apply Zfloor_imp.
    rewrite !plus_IZR. apply IZR_le in Hn as Rn.
    assert (E1 : IZR n ^ 2 + IZR n + 1 <= IZR (2 * j - 1)) by (replace (IZR n ^ 2 + IZR n + 1) with (IZR (n * (n + 1) + 1)) by (rewrite plus_IZR, mult_IZR, plus_IZR; ring); apply IZR_le; lia).
    assert (E2 : IZR (2 * j - 1) <= IZR n ^ 2 + 3 * IZR n + 1) by (replace (IZR n ^ 2 + 3 * IZR n + 1) with (IZR ((n + 1) * (n + 2) - 1)) by (rewrite minus_IZR, mult_IZR, !plus_IZR; ring); apply IZR_le; lia).
    split.
    - assert (IZR n + / 2 <= sqrt (IZR (2 * j - 1))) by (apply sqrt_ge; [lra|nra]). lra.
    - assert (sqrt (IZR (2 * j - 1)) < IZR n + 3 / 2) by (apply sqrt_lt'; [lra|nra|nra]). lra. }
  rewrite B. replace (n + 1 - 1)%Z with n by ring. f_equal. f_equal. unfold azim. destruct (Z.eqb_spec (n mod 2) 0); cbn [negb].
  - rewrite Hk. replace (2 * j + 1 - 2 * k)%Z with (2 * (j - k) + 1)%Z by ring. Z.to_euclidean_division_equations. lia.
  - rewrite Hk. replace (2 * (j + 1) - 2 * k)%Z with (2 * (j - k + 1))%Z by ring. Z.to_euclidean_division_equations. lia.
Qed.
Lemma nmOrder_val j n k : (0 <= n)%Z -> (n * (n + 1) = 2 * k)%Z -> (n * (n + 1) < 2 * j <= (n + 1) * (n + 2))%Z ->
  nmOrder j = Ok (n, azim n (j - k)).
Proof.
  intros Hn Hk [H1 H2]. unfold nmOrder. assert (J : (1 <= j)%Z) by nia. destruct (Z.ltb_spec (8 * (j - 1) + 1) 0); [lia|].
  assert (B : (Zfloor ((-1 + sqrt (IZR (8 * (j - 1) + 1))) / 2) = n)%Z).
  { apply Zfloor_imp. rewrite (plus_IZR n 1). apply IZR_le in Hn as Rn.
    assert (E1 : 4 * (IZR n ^ 2 + IZR n) + 1 <= IZR (8 * (j - 1) + 1)) by (replace (4 * (IZR n ^ 2 + IZR n) + 1) with (IZR (4 * (n * (n + 1)) + 1)) by (rewrite plus_IZR, !mult_IZR, plus_IZR; ring); apply IZR_le; lia).
    assert (E2 : IZR (8 * (j - 1) + 1) <= 4 * (IZR n ^ 2 + 3 * IZR n + 2) - 7) by (replace (4 * (IZR n ^ 2 + 3 * IZR n + 2) - 7) with (IZR (4 * ((n + 1) * (n + 2)) - 7)) by (rewrite minus_IZR, !mult_IZR, !plus_IZR; ring); apply IZR_le; lia).
    set (x := IZR (8 * (j - 1) + 1)) in *. clearbody x. set (y := IZR n) in *. clearbody y.
    assert (2 * y + 1 <= sqrt x) by (apply sqrt_ge; [lra|nra]).
    assert (sqrt x < 2 * y + 3) by (apply sqrt_lt'; [lra|nra|nra]). split; lra. }
  rewrite B. f_equal. f_equal. rewrite Hk. replace (IZR (2 * k) / 2) with (IZR k) by (rewrite mult_IZR; field).
  rewrite <- minus_IZR, <- plus_IZR.
  assert (F : Zfloor (IZR (j - k + n mod 2) / 2) = ((j - k + n mod 2) / 2)%Z).
  { apply Zfloor_imp. rewrite (plus_IZR (_ / 2)). set (x := (j - k + n mod 2)%Z). pose proof (Z.mul_div_le x 2 ltac:(lia)). pose proof (Z.mul_succ_div_gt x 2 ltac:(lia)).
    apply IZR_le in H0. apply IZR_lt in H3. rewrite mult_IZR in H0. unfold Z.succ in H3. rewrite mult_IZR, plus_IZR in H3. lra. }
  rewrite F. replace (IZR ((j - k + n mod 2) / 2) * 2 - IZR (n mod 2)) with (IZR ((j - k + n mod 2) / 2 * 2 - n mod 2)) by (rewrite minus_IZR, mult_IZR; ring).
  rewrite Ztrunc_IZR. unfold azim. destruct (Z.eqb_spec (n mod 2) 0) as [E|N]; [rewrite E; replace (j - k + 0)%Z with (j - k)%Z by ring; ring|].
  replace (n mod 2)%Z with 1%Z by (pose proof (Z.mod_pos_bound n 2); lia). ring.
Qed.
Lemma azim_range n p : (0 <= n -> 1 <= p <= n + 1 -> 0 <= azim n p <= n /\ (n - azim n p) mod 2 = 0)%Z.
Proof. intros Hn Hp. unfold azim. destruct (Z.eqb_spec (n mod 2) 0); Z.to_euclidean_division_equations; lia. Qed.
Lemma azim_mono n p q : (p <= q -> azim n p <= azim n q)%Z.
Proof. intros H. unfold azim. destruct (Z.eqb_spec (n mod 2) 0); Z.to_euclidean_division_equations; lia. Qed.
Lemma azim_inj n p q : (0 <= n -> 1 <= p -> 1 <= q -> azim n p = azim n q -> (azim n p = 0 \/ p mod 2 = q mod 2) -> p = q)%Z.
Proof. intros Hn Hp Hq. unfold azim. destruct (Z.eqb_spec (n mod 2) 0); intros E H; Z.to_euclidean_division_equations; lia. Qed.
Lemma azim_onto n m b : (0 <= m <= n -> (n - m) mod 2 = 0 -> 0 <= b < 2 -> exists p, 1 <= p <= n + 1 /\ azim n p = m /\ (m = 0 \/ p mod 2 = b))%Z.
Proof.
  intros Hm Hp Hb. destruct (Z.eq_dec m 0) as [ ->|N].
  - exists 1%Z. split; [lia|]. split; [|now left]. unfold azim. destruct (Z.eqb_spec (n mod 2) 0); [reflexivity|]. Z.to_euclidean_division_equations; lia.
  - assert (K : forall p, azim n p = (if n mod 2 =? 0 then 2 * (p / 2) else 2 * ((p + 1) / 2) - 1)%Z) by reflexivity.
    destruct (Z.eqb_spec (n mod 2) 0).
    + exists (m + b)%Z. rewrite K. Z.to_euclidean_division_equations; lia.
    + exists (m + 1 - b)%Z. rewrite K. split; [Z.to_euclidean_division_equations; lia|]. split; [Z.to_euclidean_division_equations; lia|right; Z.to_euclidean_division_equations; lia].
Qed.
