(** Properties C37, C38, C61, C62: Zernike polynomials. *)
From Coq Require Import Reals List Arith ZArith Bool Lia Lra Psatz.
From Flocq Require Import Core.Raux.
From Coquelicot Require Import Coquelicot.
From Verif Require Import Base_Py M_Tools M_Zernike L_Zernike L_Zernike2 L_Zernike3.
Import ListNotations.
Open Scope R_scope.

(** C37. Radial order n contains the indices n(n+1)/2 < j <= (n+1)(n+2)/2. *)
Definition in_order (n j : Z) : Prop := (n * (n + 1) < 2 * j <= (n + 1) * (n + 2))%Z.
Lemma in_order_unique n n' j : (0 <= n -> 0 <= n' -> in_order n j -> in_order n' j -> n = n')%Z.
Proof. unfold in_order. intros. nia. Qed.
Lemma findNM1_inv j n m : findNM1 j = Ok (n, m) -> (1 <= j)%Z ->
  (0 <= n)%Z /\ in_order n j /\ exists k, (n * (n + 1) = 2 * k)%Z /\ m = azim n (j - k) /\ (1 <= j - k <= n + 1)%Z.
Proof.
  intros H Hj. destruct (order_exists j Hj) as (p & Hp & Ho). destruct (even_prod p) as (k & Hk).
  rewrite (findNM1_val j p k Hp Hk Ho) in H. injection H as <- <-. split; [exact Hp|]. split; [exact Ho|]. exists k. split; [exact Hk|]. split; [reflexivity|]. nia.
Qed.
Theorem C37_noll_orders : forall j, (1 <= j)%Z ->
  exists n m, findNM1 j = Ok (n, m) /\ nmOrder j = Ok (n, m) /\ (0 <= m <= n)%Z /\ ((n - m) mod 2 = 0)%Z /\ in_order n j /\
    (forall j' m', findNM1 j' = Ok (n, m') -> (j <= j')%Z -> (m <= m')%Z).
Proof.
  intros j Hj. destruct (order_exists j Hj) as (n & Hn & Ho). destruct (even_prod n) as (k & Hk). exists n, (azim n (j - k)).
  split; [now apply findNM1_val|]. split; [now apply nmOrder_val|].
  assert (R : (1 <= j - k <= n + 1)%Z) by nia. destruct (azim_range n (j - k) Hn R) as [A B].
  split; [exact A|]. split; [exact B|]. split; [exact Ho|].
  intros j' m' H' L. assert (J' : (1 <= j')%Z) by lia. destruct (findNM1_inv j' n m' H' J') as (_ & _ & k' & Hk' & -> & _). assert (k' = k) by lia. subst k'. apply azim_mono. lia.
Qed.
Print Assumptions C37_noll_orders.
(** one-to-one: an index is determined by its orders and, for m > 0, its parity
    (even: cosine, odd: sine) *)
Theorem C37_injective : forall j k n m, (1 <= j)%Z -> (1 <= k)%Z -> findNM1 j = Ok (n, m) -> findNM1 k = Ok (n, m) ->
  (m = 0 \/ j mod 2 = k mod 2)%Z -> j = k.
Proof.
  intros j k n m Hj Hk Ej Ek P. destruct (findNM1_inv j n m Ej Hj) as (Hn & _ & q & Hq & E1 & R1). destruct (findNM1_inv k n m Ek Hk) as (_ & _ & q' & Hq' & E2 & R2).
  assert (q' = q) by lia. subst q'. assert (j - q = k - q)%Z; [|lia]. apply (azim_inj n); try lia.
Qed.
Print Assumptions C37_injective.
(** onto: every pair of orders has its cosine and sine index *)
Theorem C37_onto : forall n m b, (0 <= m <= n)%Z -> ((n - m) mod 2 = 0)%Z -> (0 <= b < 2)%Z ->
  exists j, (1 <= j)%Z /\ findNM1 j = Ok (n, m) /\ (m = 0 \/ j mod 2 = b)%Z.
Proof.
  intros n m b Hm Hp Hb. destruct (even_prod n) as (k & Hk).
  destruct (azim_onto n m ((b - k) mod 2) Hm Hp) as (p & R & A & P); [apply Z.mod_pos_bound; lia|].
  exists (p + k)%Z. assert (0 <= k)%Z by nia. split; [lia|]. split.
  - rewrite (findNM1_val (p + k) n k) by (unfold in_order; nia). replace (p + k - k)%Z with p by ring. now rewrite A.
  - destruct P as [P|P]; [now left|right]. rewrite Zplus_mod, P, <- Zplus_mod. replace (b - k + k)%Z with b by ring. apply Z.mod_small. lia.
Qed.
Print Assumptions C37_onto.
(** number of modes up to a radial order *)
Theorem C37_mode_count : forall n j p m, (0 <= n)%Z -> (1 <= j)%Z -> findNM1 j = Ok (p, m) -> ((p <= n)%Z <-> IZR j <= nModeFromRadialOrder n).
Proof.
  intros n j p m Hn Hj E. destruct (findNM1_inv j p m E Hj) as (Hp & [O1 O2] & _). unfold nModeFromRadialOrder.
  assert (Q : IZR j <= IZR ((n + 1) * (n + 2)) / 2 <-> (2 * j <= (n + 1) * (n + 2))%Z).
  { split; intros H; [apply le_IZR; rewrite mult_IZR; lra|apply IZR_le in H; rewrite mult_IZR in H; lra]. }
  rewrite Q. split; intros; nia.
Qed.
Print Assumptions C37_mode_count.
(** calling findNM with another list than the one of the object: finding *)
Theorem C37_findNM_list : forall l, l <> [] -> (forall j, In j l -> (1 <= j)%Z) ->
  exists r, findNM l [] = Ok r /\ length r = length l /\ forall i j, nth_error l i = Some j -> exists p, nth_error r i = Some p /\ findNM1 j = Ok p.
Proof.
  intros l N H. unfold findNM.
  assert (T : forall j, (1 <= j)%Z -> exists p, findNM1 j = Ok p) by (intros j Hj; destruct (C37_noll_orders j Hj) as (n & m & E & _); eauto).
  assert (G : forall ks, (forall k, In k ks -> (k < length l)%nat) -> exists r, mapM (fun k => do x <- pyindex l (Z.of_nat k); findNM1 x) ks = Ok r /\ length r = length ks /\
      forall i k, nth_error ks i = Some k -> exists p j, nth_error r i = Some p /\ nth_error l k = Some j /\ findNM1 j = Ok p).
  { induction ks as [|k ks IH]; intros Hk; [exists []; repeat split; intros [|i] k'; discriminate|].
    destruct IH as (r & E & L & F); [intros; apply Hk; now right|]. assert (Hlt : (k < length l)%nat) by (apply Hk; now left).
    destruct (nth_error l k) as [j|] eqn:Ej; [|apply nth_error_None in Ej; lia].
    assert (Pj : pyindex l (Z.of_nat k) = Ok j).
    { unfold pyindex. destruct (Z.ltb_spec (Z.of_nat k) 0); [lia|]. destruct (Z.leb_spec (Z.of_nat (length l)) (Z.of_nat k)); [lia|]. destruct (Z.ltb_spec (Z.of_nat k) 0); [lia|]. cbn [orb]. rewrite Nat2Z.id, Ej. reflexivity. }
    destruct (T j) as (p & Ep); [apply H; eapply nth_error_In; eauto|]. exists (p :: r). cbn [mapM]. rewrite Pj. cbn [bind]. rewrite Ep. cbn [bind]. rewrite E. cbn [bind].
    split; [reflexivity|]. split; [cbn; lia|]. intros [|i] k' Hi; cbn in Hi |- *; [injection Hi as <-; eauto|apply F, Hi]. }
  destruct (G (seq 0 (length l))) as (r & E & L & F); [intros k Hk; apply in_seq in Hk; lia|]. rewrite seq_length in L.
  destruct l as [|x l']; [congruence|]. set (l := x :: l') in *. exists r. split; [exact E|]. split; [exact L|].
  intros i j Hi. assert (Li : (i < length l)%nat) by (apply nth_error_Some; congruence).
  destruct (F i i) as (p & j' & A & B & C0). { rewrite nth_error_nth' with (d := 0%nat) by (rewrite seq_length; lia). now rewrite seq_nth by lia. }
  exists p. split; [exact A|]. congruence.
Qed.
Print Assumptions C37_findNM_list.
Theorem C37_findNM_other_list_refuted : findNM [2; 3; 4]%Z [5; 6]%Z = Err IndexError /\ exists p, findNM [2]%Z [5; 6]%Z = Ok [p].
Proof.
  destruct (C37_noll_orders 5 ltac:(lia)) as (n5 & m5 & E5 & _). destruct (C37_noll_orders 6 ltac:(lia)) as (n6 & m6 & E6 & _).
  split.
  - unfold findNM. cbn [length seq mapM]. change (pyindex [5; 6]%Z (Z.of_nat 0)) with (@Ok Z 5%Z). change (pyindex [5; 6]%Z (Z.of_nat 1)) with (@Ok Z 6%Z). change (pyindex [5; 6]%Z (Z.of_nat 2)) with (@Err Z IndexError). cbn [bind]. rewrite E5, E6. reflexivity.
  - unfold findNM. cbn [length seq mapM]. change (pyindex [5; 6]%Z (Z.of_nat 0)) with (@Ok Z 5%Z). cbn [bind]. rewrite E5. eexists. reflexivity.
Qed.
Print Assumptions C37_findNM_other_list_refuted.
(** the first Noll indices: piston, tilts, astigmatism, defocus, coma, trefoil, spherical *)
Example C37_ex : map findNM1 [1; 2; 3; 4; 5; 6; 7; 8; 9; 10; 11]%Z =
  map Ok [(0, 0); (1, 1); (1, 1); (2, 0); (2, 2); (2, 2); (3, 1); (3, 1); (3, 3); (3, 3); (4, 0)]%Z.
Proof.
  assert (V : forall j n k, (0 <= n)%Z -> (n * (n + 1) = 2 * k)%Z -> in_order n j -> findNM1 j = Ok (n, azim n (j - k))) by (intros; now apply findNM1_val).
  cbn [map]. rewrite (V 1 0 0)%Z, (V 2 1 1)%Z, (V 3 1 1)%Z, (V 4 2 3)%Z, (V 5 2 3)%Z, (V 6 2 3)%Z, (V 7 3 6)%Z, (V 8 3 6)%Z, (V 9 3 6)%Z, (V 10 3 6)%Z, (V 11 4 10)%Z by (unfold in_order; lia).
  reflexivity.
Qed.

(** C38: value one at the edge of the pupil. *)
Theorem C38_edge : forall n m, (m <= n)%nat -> Nat.even (n - m) = true -> R_fun 1 n m = 1.
Proof.
  intros n m H E. apply Nat.even_spec in E as (b & Hb). replace n with ((m + b) + b)%nat by lia. replace m with (m + b - b)%nat at 2 by lia. apply R_fun_one. lia.
Qed.
Print Assumptions C38_edge.
Definition ang (j : Z) (m : nat) (o : R) : R :=
  if (m =? 0)%nat then 1 else if (j mod 2 =? 0)%Z then sqrt 2 * cos (INR m * o) else sqrt 2 * sin (INR m * o).
Lemma mode_split j n m r o : mode_value j n m r o = sqrt (INR n + 1) * R_fun r n m * ang j m o.
Proof. unfold mode_value, ang. destruct (m =? 0)%nat; [ring|]. destruct (j mod 2 =? 0)%Z; ring. Qed.
Lemma s2 : sqrt 2 * sqrt 2 = 2. Proof. apply sqrt_sqrt; lra. Qed.
Lemma ang_int j m k m' :
  is_RInt (fun o => ang j m o * ang k m' o) 0 (2 * PI)
    (if (m =? m')%nat && ((m =? 0)%nat || Bool.eqb (j mod 2 =? 0)%Z (k mod 2 =? 0)%Z) then 2 * PI else 0).
Proof.
  pose proof s2 as S2. unfold ang. destruct (Nat.eqb_spec m 0) as [ ->|N], (Nat.eqb_spec m' 0) as [ ->|N'].
  - cbn. apply is_RInt_eq with (f := fun _ => 1) (v := (2 * PI - 0) * 1); [intros; ring|ring|apply (is_RInt_const 0 (2 * PI) 1)].
  - destruct (Nat.eqb_spec 0 m'); [lia|]. cbn [andb]. destruct (k mod 2 =? 0)%Z.
    + apply is_RInt_eq with (f := fun o => sqrt 2 * cos (INR m' * o)) (v := sqrt 2 * 0); [intros; ring|ring|apply is_RInt_mul, int_cos; lia].
    + apply is_RInt_eq with (f := fun o => sqrt 2 * sin (INR m' * o)) (v := sqrt 2 * 0); [intros; ring|ring|apply is_RInt_mul, int_sin].
  - destruct (Nat.eqb_spec m 0); [lia|]. cbn [andb]. destruct (j mod 2 =? 0)%Z.
    + apply is_RInt_eq with (f := fun o => sqrt 2 * cos (INR m * o)) (v := sqrt 2 * 0); [intros; ring|ring|apply is_RInt_mul, int_cos; lia].
    + apply is_RInt_eq with (f := fun o => sqrt 2 * sin (INR m * o)) (v := sqrt 2 * 0); [intros; ring|ring|apply is_RInt_mul, int_sin].
  - cbn [orb]. destruct (j mod 2 =? 0)%Z, (k mod 2 =? 0)%Z; cbn [Bool.eqb].
    + apply is_RInt_eq with (f := fun o => 2 * (cos (INR m * o) * cos (INR m' * o))) (v := 2 * (if (m =? m')%nat then PI else 0)).
      * intros o. rewrite <- S2 at 1. ring.
      * rewrite andb_true_r. destruct (m =? m')%nat; ring.
      * apply is_RInt_mul, int_coscos. lia.
    + apply is_RInt_eq with (f := fun o => 2 * (sin (INR m' * o) * cos (INR m * o))) (v := 2 * 0).
      * intros o. rewrite <- S2 at 1. ring.
      * rewrite andb_false_r. ring.
      * apply is_RInt_mul, int_sincos.
    + apply is_RInt_eq with (f := fun o => 2 * (sin (INR m * o) * cos (INR m' * o))) (v := 2 * 0).
      * intros o. rewrite <- S2 at 1. ring.
      * rewrite andb_false_r. ring.
      * apply is_RInt_mul, int_sincos.
    + apply is_RInt_eq with (f := fun o => 2 * (sin (INR m * o) * sin (INR m' * o))) (v := 2 * (if (m =? m')%nat then PI else 0)).
      * intros o. rewrite <- S2 at 1. ring.
      * rewrite andb_true_r. destruct (m =? m')%nat; ring.
      * apply is_RInt_mul, int_sinsin. lia.
Qed.
Lemma radial_same n n' m : (m <= n)%nat -> (m <= n')%nat -> Nat.even (n - m) = true -> Nat.even (n' - m) = true ->
  is_RInt (fun r => R_fun r n m * R_fun r n' m * r) 0 1 (if (n =? n')%nat then / (2 * (INR n + 1)) else 0).
Proof.
  assert (G : forall n n', (m <= n)%nat -> (m <= n')%nat -> Nat.even (n - m) = true -> Nat.even (n' - m) = true -> (n' <= n)%nat ->
     is_RInt (fun r => R_fun r n m * R_fun r n' m * r) 0 1 (if (n =? n')%nat then / (2 * (INR n + 1)) else 0)).
  { clear. intros n n' H H' E E' L. apply Nat.even_spec in E as (b & Hb). apply Nat.even_spec in E' as (c & Hc).
    pose proof (R_fun_inner (m + b) b (m + c) c ltac:(lia) ltac:(lia) ltac:(lia) ltac:(lia)) as I.
    replace (m + b - b)%nat with m in I by lia. replace (m + c - c)%nat with m in I by lia.
    replace (m + b + b)%nat with n in I by lia. replace (m + c + c)%nat with n' in I by lia.
    destruct (Nat.eqb_spec c b), (Nat.eqb_spec n n'); try lia; exact I. }
  intros H H' E E'. destruct (le_lt_dec n' n) as [L|L]; [now apply G|].
  apply is_RInt_eq with (f := fun r => R_fun r n' m * R_fun r n m * r) (v := if (n' =? n)%nat then / (2 * (INR n' + 1)) else 0).
  - intros r. ring.
  - destruct (Nat.eqb_spec n' n), (Nat.eqb_spec n n'); try lia. reflexivity.
  - apply G; try assumption. lia.
Qed.
(** C38: the modes are orthonormal on the unit disc: the integral over the disc of
    the product of modes j and k is pi (the area) if j = k and 0 otherwise. *)
Theorem C38_orthonormal : forall j k n m n' m', (1 <= j)%Z -> (1 <= k)%Z -> findNM1 j = Ok (n, m) -> findNM1 k = Ok (n', m') ->
  exists inner, (forall o, is_RInt (fun r => mode_value j (Z.to_nat n) (Z.to_nat m) r o * mode_value k (Z.to_nat n') (Z.to_nat m') r o * r) 0 1 (inner o)) /\
    is_RInt inner 0 (2 * PI) (if (j =? k)%Z then PI else 0).
Proof.
  intros j k n m n' m' Hj Hk Ej Ek.
  destruct (C37_noll_orders j Hj) as (n0 & m0 & Ej' & _ & Rm & Pm & _). rewrite Ej in Ej'. injection Ej' as <- <-.
  destruct (C37_noll_orders k Hk) as (n0 & m0 & Ek' & _ & Rm' & Pm' & _). rewrite Ek in Ek'. injection Ek' as <- <-.
  destruct (R_fun_inner_ex (Z.to_nat n) (Z.to_nat m) (Z.to_nat n') (Z.to_nat m')) as (v & Hv).
  set (c := sqrt (INR (Z.to_nat n) + 1) * sqrt (INR (Z.to_nat n') + 1)).
  exists (fun o => c * v * (ang j (Z.to_nat m) o * ang k (Z.to_nat m') o)). split.
  - intros o. apply is_RInt_eq with (f := fun r => (c * (ang j (Z.to_nat m) o * ang k (Z.to_nat m') o)) * (R_fun r (Z.to_nat n) (Z.to_nat m) * R_fun r (Z.to_nat n') (Z.to_nat m') * r)) (v := (c * (ang j (Z.to_nat m) o * ang k (Z.to_nat m') o)) * v).
    + intros r. rewrite !mode_split. unfold c. ring.
    + ring.
    + apply is_RInt_mul, Hv.
  - pose proof (ang_int j (Z.to_nat m) k (Z.to_nat m')) as A. apply (is_RInt_mul _ (c * v)) in A.
    eapply is_RInt_eq; [intros; reflexivity| |exact A]. clear A.
    destruct (Nat.eqb_spec (Z.to_nat m) (Z.to_nat m')) as [E|N].
    + assert (m = m') by lia. subst m'.
      assert (EV : forall p q, (0 <= q <= p)%Z -> ((p - q) mod 2 = 0)%Z -> Nat.even (Z.to_nat p - Z.to_nat q) = true).
      { intros p q Hq H. apply Nat.even_spec. exists (Z.to_nat ((p - q) / 2)). apply Z_div_exact_full_2 in H; [|lia]. lia. }
      pose proof (radial_same (Z.to_nat n) (Z.to_nat n') (Z.to_nat m) ltac:(lia) ltac:(lia) (EV _ _ Rm Pm) (EV _ _ Rm' Pm')) as I.
      pose proof (is_RInt_unique _ _ _ _ I) as U1. pose proof (is_RInt_unique _ _ _ _ Hv) as U2. rewrite U1 in U2. subst v.
      cbn [andb]. destruct (Nat.eqb_spec (Z.to_nat n) (Z.to_nat n')) as [En|Nn].
      * assert (n = n') by lia. subst n'. destruct ((Z.to_nat m =? 0)%nat || Bool.eqb (j mod 2 =? 0)%Z (k mod 2 =? 0)%Z) eqn:Eb.
        -- assert (j = k).
           { apply (C37_injective j k n m); try assumption. apply orb_true_iff in Eb as [Eb|Eb]; [apply Nat.eqb_eq in Eb; left; lia|right].
             apply Bool.eqb_prop in Eb. pose proof (Z.mod_pos_bound j 2). pose proof (Z.mod_pos_bound k 2). destruct (Z.eqb_spec (j mod 2) 0), (Z.eqb_spec (k mod 2) 0); try discriminate; lia. }
           subst k. rewrite Z.eqb_refl. unfold c. rewrite sqrt_sqrt by (pose proof (pos_INR (Z.to_nat n)); lra). field. pose proof (pos_INR (Z.to_nat n)). lra.
        -- destruct (Z.eqb_spec j k); [subst k; rewrite Bool.eqb_reflx, orb_true_r in Eb; discriminate|ring].
      * destruct (Z.eqb_spec j k) as [ ->|]; [rewrite Ej in Ek; injection Ek as ->; congruence|]. ring.
    + cbn [andb]. destruct (Z.eqb_spec j k) as [ ->|]; [rewrite Ej in Ek; injection Ek as _ ->; congruence|]. ring.
Qed.
Print Assumptions C38_orthonormal.
