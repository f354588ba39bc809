(** Lemmas for getFlux (median of the masked image), getMSE. *)
From Coq Require Import Reals List Arith ZArith Lia Lra Psatz Permutation Sorted.
From Coq Require Import ZifyBool ZifyNat.
From Verif Require Import Base_Py Base_Sum M_Image S_Image L_Image L_Image2.
Import ListNotations.
Open Scope R_scope.

(** ** sorting *)
Lemma rinsert_perm x l : Permutation (x :: l) (rinsert x l).
Proof.
  induction l as [|y l IH]; cbn [rinsert]; [apply Permutation_refl|].
  destruct (Rle_dec x y); [apply Permutation_refl|].
  apply perm_trans with (y :: x :: l); [apply perm_swap|]. constructor. exact IH.
Qed.
Lemma rsort_perm l : Permutation l (rsort l).
Proof.
  induction l as [|x l IH]; [constructor|]. change (rsort (x :: l)) with (rinsert x (rsort l)).
  apply perm_trans with (x :: rsort l); [constructor; exact IH|apply rinsert_perm].
Qed.
Lemma rinsert_sorted x l : StronglySorted Rle l -> StronglySorted Rle (rinsert x l).
Proof.
  induction l as [|y l IH]; intros H; cbn [rinsert]; [repeat constructor|].
  inversion H as [|? ? Hs Hf]; subst. destruct (Rle_dec x y) as [P|P].
  - constructor; [exact H|]. constructor; [exact P|].
    eapply Forall_impl; [|exact Hf]. intros a Ha; cbn in Ha. lra.
  - constructor; [apply IH, Hs|].
    apply Forall_forall. intros z Hz.
    apply (Permutation_in _ (Permutation_sym (rinsert_perm x l))) in Hz.
    destruct Hz as [ <-|Hz]; [lra|]. rewrite Forall_forall in Hf. apply Hf, Hz.
Qed.
Lemma rsort_sorted l : StronglySorted Rle (rsort l).
Proof. induction l as [|x l IH]; [constructor|]. apply (rinsert_sorted x (rsort l)), IH. Qed.

(** ** counting *)
Definition cnt (p : R -> bool) (l : list R) : nat := length (filter p l).
Definition isz (x : R) : bool := if Req_EM_T x 0 then true else false.
Definition isneg (x : R) : bool := if Rlt_dec x 0 then true else false.
Definition ispos (x : R) : bool := if Rlt_dec 0 x then true else false.

Lemma cnt_app p a b : cnt p (a ++ b) = (cnt p a + cnt p b)%nat.
Proof. unfold cnt. rewrite filter_app, app_length. reflexivity. Qed.
Lemma cnt_perm p a b : Permutation a b -> cnt p a = cnt p b.
Proof.
  intros H; induction H as [|x a b H IH|x y a|a b c H1 IH1 H2 IH2]; unfold cnt in *; cbn [filter].
  - reflexivity.
  - destruct (p x); cbn [length]; congruence.
  - destruct (p x), (p y); reflexivity.
  - congruence.
Qed.
Lemma cnt_le p l : (cnt p l <= length l)%nat.
Proof. unfold cnt. induction l as [|x l IH]; cbn [filter length]; [lia|]. destruct (p x); cbn [length]; lia. Qed.
Lemma cnt_split l : (cnt isneg l + cnt isz l + cnt ispos l)%nat = length l.
Proof.
  unfold cnt. induction l as [|x l IH]; [reflexivity|]. cbn [filter length].
  unfold isneg at 1, isz at 1, ispos at 1.
  destruct (Rlt_dec x 0), (Req_EM_T x 0), (Rlt_dec 0 x); cbn [length]; try lra; lia.
Qed.
Lemma cnt_all p l : (forall x, In x l -> p x = true) -> cnt p l = length l.
Proof.
  unfold cnt. induction l as [|x l IH]; intros H; [reflexivity|]. cbn [filter].
  rewrite (H x (or_introl eq_refl)). cbn [length]. rewrite IH; [reflexivity|]. intros y Hy; apply H; right; exact Hy.
Qed.
Lemma sorted_nth_pos s : StronglySorted Rle s -> forall k v, nth_error s k = Some v -> 0 < v ->
  (length s - k <= cnt ispos s)%nat.
Proof.
  intros H. induction H as [|x s Hs IH Hf]; intros k v E P; [destruct k; discriminate|].
  destruct k as [|k].
  - cbn in E. assert (E' : x = v) by congruence. subst v. rewrite (cnt_all ispos (x :: s)); [lia|].
    intros y [ <-|Hy]; unfold ispos.
    + destruct (Rlt_dec 0 x); [reflexivity|contradiction].
    + rewrite Forall_forall in Hf. specialize (Hf y Hy). destruct (Rlt_dec 0 y); [reflexivity|lra].
  - cbn in E. specialize (IH k v E P). unfold cnt in *. cbn [filter length]. destruct (ispos x); cbn [length]; lia.
Qed.
Lemma sorted_nth_neg s : StronglySorted Rle s -> forall k v, nth_error s k = Some v -> v < 0 ->
  (k + 1 <= cnt isneg s)%nat.
Proof.
  intros H. induction H as [|x s Hs IH Hf]; intros k v E P; [destruct k; discriminate|].
  destruct k as [|k].
  - cbn in E. assert (E' : x = v) by congruence. subst v. unfold cnt. cbn [filter]. unfold isneg at 1.
    destruct (Rlt_dec x 0); [cbn [length]; lia|contradiction].
  - cbn in E. specialize (IH k v E P). unfold cnt in *. cbn [filter]. unfold isneg at 1.
    apply nth_error_In in E. rewrite Forall_forall in Hf. specialize (Hf v E).
    destruct (Rlt_dec x 0); [cbn [length]; lia|lra].
Qed.

Lemma median_zero l : (length l < 2 * cnt isz l)%nat -> median l = Ok 0.
Proof.
  intros H. unfold median.
  assert (Hp := rsort_perm l). assert (Hs := rsort_sorted l).
  assert (Hl := Permutation_length Hp). assert (Hz := cnt_perm isz _ _ Hp).
  assert (Hsp := cnt_split (rsort l)).
  set (s := rsort l) in *. clearbody s.
  assert (K : forall k, (k < length s)%nat -> (length s - cnt isz s <= k)%nat -> (k < cnt isz s)%nat ->
    nth_error s k = Some 0).
  { intros k Hk H1 H2. destruct (nth_error s k) as [v|] eqn:E; [|apply nth_error_None in E; lia].
    f_equal. destruct (Rtotal_order v 0) as [P|[P|P]]; [|exact P|].
    - assert (A := sorted_nth_neg s Hs k v E P). lia.
    - assert (A := sorted_nth_pos s Hs k v E P). lia. }
  assert (Hc := cnt_le isz s).
  destruct (Nat.eqb (length l) 0) eqn:E0; [lia|].
  assert (D := Nat.div_mod (length l) 2 ltac:(lia)).
  destruct (Nat.odd (length l)) eqn:Eo.
  - apply Nat.odd_spec in Eo. destruct Eo as (h & Eh).
    replace (length l / 2)%nat with h by (rewrite Eh; apply (Nat.div_unique (2 * h + 1) 2 h 1); lia).
    rewrite (K h) by lia. reflexivity.
  - assert (Ee : Nat.even (length l) = true) by (rewrite <- Nat.negb_odd, Eo; reflexivity).
    apply Nat.even_spec in Ee. destruct Ee as (h & Eh).
    replace (length l / 2)%nat with h by (rewrite Eh; apply (Nat.div_unique (2 * h) 2 h 0); lia).
    rewrite (K h), (K (h - 1)%nat) by lia. f_equal. field.
Qed.

(** ** zeros of the masked image *)
Lemma cnt_flat_map p f s n (g : nat -> nat) :
  (forall i, (s <= i < s + n)%nat -> (g i <= cnt p (f i))%nat) ->
  (list_sum (map g (seq s n)) <= cnt p (flat_map f (seq s n)))%nat.
Proof.
  revert s. induction n as [|n IH]; intros s H; [cbn; lia|].
  cbn [seq flat_map map list_sum fold_right]. rewrite cnt_app.
  specialize (IH (S s)). assert (A := H s ltac:(lia)). 
  assert (B : (list_sum (map g (seq (S s) n)) <= cnt p (flat_map f (seq (S s) n)))%nat).
  { apply IH. intros i Hi; apply H; lia. }
  unfold list_sum in *. lia.
Qed.
Lemma cnt_window p (f : nat -> R) n a c :
  (a + c <= n)%nat -> (forall j, (a <= j < a + c)%nat -> p (f j) = true) ->
  (c <= cnt p (map f (seq 0 n)))%nat.
Proof.
  intros H Hp. replace n with (a + (c + (n - a - c)))%nat by lia.
  rewrite !seq_app, !map_app, !cnt_app.
  rewrite (cnt_all p (map f (seq (0 + a) c))).
  - rewrite map_length, seq_length. lia.
  - intros x Hx. apply in_map_iff in Hx. destruct Hx as (j & <- & Hj). apply in_seq in Hj. apply Hp. lia.
Qed.

Lemma list_sum_seq_lin (b c : nat) n s :
  list_sum (map (fun i => b + c * i)%nat (seq s n)) = (n * b + c * (n * s) + c * (n * (n - 1) / 2))%nat.
Proof.
  assert (T : forall n, (n * (n - 1) / 2 * 2 = n * (n - 1))%nat).
  { intros m. induction m as [|m IH]; [reflexivity|].
    replace (S m * (S m - 1))%nat with (m * (m - 1) + m * 2)%nat by (destruct m; cbn; nia).
    rewrite Nat.div_add by lia. nia. }
  revert s. induction n as [|n IH]; intros s; [cbn; lia|].
  cbn [seq map list_sum fold_right]. change (fold_right Nat.add 0%nat) with list_sum. rewrite IH.
  assert (A := T n). assert (B := T (S n)).
  replace (S n - 1)%nat with n in * by lia.
  set (t1 := (n * (n - 1) / 2)%nat) in *. set (t2 := (S n * n / 2)%nat) in *.
  assert (E : t2 = (t1 + n)%nat) by (clearbody t1 t2; clear IH; destruct n; [lia|]; replace (S n - 1)%nat with n in A by lia; nia).
  rewrite E. clearbody t1. clear. ring.
Qed.

(** integer form of the mask *)
Lemma lin11_Z n i : (2 <= n)%nat ->
  lin11 n i = IZR (2 * Z.of_nat i - Z.of_nat (n - 1)) / IZR (Z.of_nat (n - 1)).
Proof.
  intros H. unfold lin11. destruct (Nat.eqb n 1) eqn:E; [lia|].
  rewrite minus_IZR, mult_IZR, <- !INR_IZR_INZ. field. apply not_0_INR. lia.
Qed.
Lemma mask_in n i j : (2 <= n)%nat ->
  let u := (2 * Z.of_nat i - Z.of_nat (n - 1))%Z in
  let v := (2 * Z.of_nat j - Z.of_nat (n - 1))%Z in
  (u * u + v * v <= Z.of_nat (n - 1) * Z.of_nat (n - 1))%Z ->
  ~ 1 < lin11 n j * lin11 n j + lin11 n i * lin11 n i.
Proof.
  intros Hn u v H. rewrite !lin11_Z by exact Hn. fold u v.
  apply IZR_le in H. rewrite plus_IZR, !mult_IZR in H.
  assert (P : 0 < IZR (Z.of_nat (n - 1))) by (apply IZR_lt; lia).
  set (N := IZR (Z.of_nat (n - 1))) in *.
  replace (IZR v / N * (IZR v / N) + IZR u / N * (IZR u / N))
    with ((IZR u * IZR u + IZR v * IZR v) / (N * N)) by (field; lra).
  apply Rle_not_lt. apply Rmult_le_reg_r with (N * N); [nra|].
  unfold Rdiv. rewrite Rmult_assoc, Rinv_l by nra. lra.
Qed.

Definition masked (a : img) : img :=
  let n := rows a in
  mkImg n n (fun i j => if Rlt_dec 1 (lin11 n j * lin11 n j + lin11 n i * lin11 n i) then px a i j else 0).

Lemma masked_zeros a (g : nat -> nat) (st : nat -> nat) :
  (2 <= rows a)%nat ->
  (forall i, (i < rows a)%nat -> (st i + g i <= rows a)%nat) ->
  (forall i j, (i < rows a)%nat -> (st i <= j < st i + g i)%nat ->
     let u := (2 * Z.of_nat i - Z.of_nat (rows a - 1))%Z in
     let v := (2 * Z.of_nat j - Z.of_nat (rows a - 1))%Z in
     (u * u + v * v <= Z.of_nat (rows a - 1) * Z.of_nat (rows a - 1))%Z) ->
  (list_sum (map g (seq 0 (rows a))) <= cnt isz (pixels (masked a)))%nat.
Proof.
  intros Hn Hb Hin. unfold pixels, masked; cbn [rows cols px]. apply cnt_flat_map.
  intros i Hi. apply cnt_window with (a := st i); [apply Hb; lia|].
  intros j Hj. unfold isz.
  destruct (Rlt_dec 1 _) as [P|P].
  - exfalso. exact (mask_in (rows a) i j Hn (Hin i j ltac:(lia) Hj) P).
  - destruct (Req_EM_T 0 0); [reflexivity|congruence].
Qed.

Lemma seq_add_split m c s : seq s (m + c) = seq s m ++ seq (s + m) c.
Proof. apply seq_app. Qed.

Lemma list_sum_ext (f g : nat -> nat) s n :
  (forall i, (s <= i < s + n)%nat -> f i = g i) ->
  list_sum (map f (seq s n)) = list_sum (map g (seq s n)).
Proof. intros H. f_equal. apply map_ext_in. intros i Hi. apply in_seq in Hi. apply H. lia. Qed.

Lemma list_sum_rev (f : nat -> nat) m c :
  list_sum (map (fun i => f (c + m - 1 - i)%nat) (seq c m)) = list_sum (map f (seq 0 m)).
Proof.
  revert c f. induction m as [|m IH]; intros c f; [reflexivity|].
  rewrite (seq_S m 0). change (seq c (S m)) with (c :: seq (S c) m).
  rewrite map_app, list_sum_app. cbn [map list_sum fold_right].
  change (fold_right Nat.add 0%nat) with list_sum.
  replace (c + S m - 1 - c)%nat with (0 + m)%nat by lia.
  rewrite <- (IH (S c) f).
  rewrite (list_sum_ext (fun i => f (c + S m - 1 - i)%nat) (fun i => f (S c + m - 1 - i)%nat)); [lia|].
  intros i Hi. f_equal. lia.
Qed.

(** odd side 2m+1 >= 3: the diamond |u|+|v| <= 1 already holds more than half *)
Lemma zeros_odd a m : (1 <= m)%nat -> rows a = (2 * m + 1)%nat ->
  (rows a * rows a < 2 * cnt isz (pixels (masked a)))%nat.
Proof.
  intros Hm Hn.
  pose (g := fun i => if (i <=? m)%nat then (2 * i + 1)%nat else (2 * (2 * m - i) + 1)%nat).
  pose (st := fun i => if (i <=? m)%nat then (m - i)%nat else (i - m)%nat).
  assert (Z := masked_zeros a g st ltac:(lia)). rewrite Hn in Z.
  assert (B : (list_sum (map g (seq 0 (2 * m + 1))) <= cnt isz (pixels (masked a)))%nat).
  { apply Z.
    - intros i Hi. unfold st, g. destruct (i <=? m)%nat eqn:E; lia.
    - intros i j Hi Hj. cbv zeta. unfold st, g in Hj.
      replace (2 * m + 1 - 1)%nat with (2 * m)%nat by lia.
      destruct (i <=? m)%nat eqn:E; nia. }
  replace (2 * m + 1)%nat with (m + (1 + m))%nat in B by lia.
  rewrite !seq_app, !map_app, !list_sum_app in B.
  assert (F1 : list_sum (map g (seq 0 m)) = (m * m)%nat).
  { rewrite (list_sum_ext g (fun i => 1 + 2 * i)%nat).
    - rewrite list_sum_seq_lin.
      assert (T : (2 * (m * (m - 1) / 2) = m * (m - 1))%nat).
      { assert (D := Nat.div_mod (m * (m - 1)) 2 ltac:(lia)).
        assert (O : Nat.odd (m * (m - 1)) = false).
        { rewrite Nat.odd_mul, (Nat.odd_sub m 1) by lia. destruct (Nat.odd m); reflexivity. }
        rewrite <- Nat.bit0_mod, Nat.bit0_odd, O in D. cbn in D. lia. }
      nia.
    - intros i Hi. unfold g. replace (i <=? m)%nat with true by lia. lia. }
  assert (F2 : list_sum (map g (seq (0 + m + 1) m)) = (m * m)%nat).
  { rewrite <- F1. rewrite <- (list_sum_rev g m (0 + m + 1)).
    apply list_sum_ext. intros i Hi. unfold g.
    replace (i <=? m)%nat with false by lia. replace (0 + m + 1 + m - 1 - i <=? m)%nat with true by lia. lia. }
  rewrite F1, F2 in B. cbn [seq map list_sum fold_right] in B.
  unfold g in B. replace (0 + m <=? m)%nat with true in B by lia. nia.
Qed.

(** even side 2k >= 10 *)
Lemma zeros_even a k : (5 <= k)%nat -> rows a = (2 * k)%nat ->
  (rows a * rows a < 2 * cnt isz (pixels (masked a)))%nat.
Proof.
  intros Hk Hn.
  pose (h := fun i => if (i =? 0)%nat then 0%nat else if (i <? k - 1)%nat then (2 * i + 2)%nat else (2 * i)%nat).
  pose (g := fun i => if (i <? k)%nat then h i else h (2 * k - 1 - i)%nat).
  pose (st := fun i => (k - g i / 2)%nat).
  assert (Hh : forall i, (i < k)%nat -> exists w, h i = (2 * w)%nat /\ (w <= k)%nat /\
     (w = i + 1 /\ 1 <= i /\ i + 2 <= k \/ w = i)%nat).
  { intros i Hi. unfold h. destruct (i =? 0)%nat eqn:E0; [exists 0%nat; lia|].
    destruct (i <? k - 1)%nat eqn:E1; [exists (i + 1)%nat; lia|exists i; lia]. }
  assert (Z := masked_zeros a g st ltac:(lia)). rewrite Hn in Z.
  assert (B : (list_sum (map g (seq 0 (2 * k))) <= cnt isz (pixels (masked a)))%nat).
  { apply Z.
    - intros i Hi. unfold st.
      assert (Q : exists w, g i = (2 * w)%nat /\ (w <= k)%nat).
      { unfold g. destruct (i <? k)%nat eqn:E; [destruct (Hh i) as (w & ? & ? & _)|destruct (Hh (2 * k - 1 - i)%nat) as (w & ? & ? & _)]; try lia; exists w; split; assumption. }
      destruct Q as (w & -> & Hw). rewrite Nat.mul_comm, Nat.div_mul by lia. lia.
    - intros i j Hi Hj. cbv zeta.
      pose (i' := if (i <? k)%nat then i else (2 * k - 1 - i)%nat).
      assert (Hi' : (i' < k)%nat) by (unfold i'; destruct (i <? k)%nat eqn:E; lia).
      assert (Eg : g i = h i') by (unfold g, i'; destruct (i <? k)%nat; reflexivity).
      assert (Eu : ((2 * Z.of_nat i - Z.of_nat (2 * k - 1)) * (2 * Z.of_nat i - Z.of_nat (2 * k - 1))
                  = (2 * Z.of_nat k - 1 - 2 * Z.of_nat i') * (2 * Z.of_nat k - 1 - 2 * Z.of_nat i'))%Z).
      { unfold i'. destruct (i <? k)%nat eqn:E; [rewrite Nat2Z.inj_sub by lia; nia|].
        rewrite !Nat2Z.inj_sub by lia. nia. }
      rewrite Eu. destruct (Hh i' Hi') as (w & Ew & Hw & Hc). unfold st in Hj. rewrite Eg, Ew in Hj.
      replace (2 * w / 2)%nat with w in Hj by (rewrite Nat.mul_comm, Nat.div_mul by lia; reflexivity).
      assert (Hv : (-(2 * Z.of_nat w - 1) <= 2 * Z.of_nat j - Z.of_nat (2 * k - 1) <= 2 * Z.of_nat w - 1)%Z) by lia.
      replace (Z.of_nat (2 * k - 1)) with (2 * Z.of_nat k - 1)%Z in * by lia.
      set (v := (2 * Z.of_nat j - (2 * Z.of_nat k - 1))%Z) in *.
      assert (Hvv : (v * v <= (2 * Z.of_nat w - 1) * (2 * Z.of_nat w - 1))%Z) by (clear -Hv; nia).
      assert (Hw1 : (1 <= w)%nat) by lia.
      clearbody v. clearbody i'. clear Hj Eu Eg Z Hh Hi Hv.
      destruct Hc as [(-> & H1 & H2)|Hc].
      + (* sides 2k-1-2i' and 2i'+1 with sum 2k, both >= 3 *)
        assert (A1 : (1 <= Z.of_nat i')%Z) by lia. assert (A2 : (Z.of_nat i' + 2 <= Z.of_nat k)%Z) by lia.
        replace (Z.of_nat (i' + 1)) with (Z.of_nat i' + 1)%Z in * by lia.
        set (x := Z.of_nat i') in *. set (K := Z.of_nat k) in *. clearbody x K. 
        assert (Q : ((2 * K - 1 - 2 * x) * (2 * x + 1) >= 3 * (2 * K - 3))%Z) by nia.
        clear - Hvv Q A1 A2. nia.
      + subst w. assert (X1 : (1 <= Z.of_nat i')%Z) by lia. assert (X2 : (Z.of_nat i' < Z.of_nat k)%Z) by lia.
        set (x := Z.of_nat i') in *. set (K := Z.of_nat k) in *. clearbody x K. clear -Hvv X1 X2. nia. }
  assert (T : forall m, (2 * (m * (m - 1) / 2) = m * (m - 1))%nat).
  { intros m. assert (D := Nat.div_mod (m * (m - 1)) 2 ltac:(lia)).
    assert (O : Nat.odd (m * (m - 1)) = false).
    { destruct m as [|m]; [reflexivity|].
      rewrite Nat.odd_mul, (Nat.odd_sub (S m) 1) by lia. destruct (Nat.odd (S m)); reflexivity. }
    rewrite <- Nat.bit0_mod, Nat.bit0_odd, O in D. cbn [Nat.b2n] in D. lia. }
  assert (F1 : list_sum (map h (seq 0 k)) = (k * k + k - 4)%nat).
  { replace k with (1 + ((k - 2) + 1))%nat at 1 by lia.
    rewrite !seq_app, !map_app, !list_sum_app.
    rewrite (list_sum_ext h (fun i => 2 + 2 * i)%nat (0 + 1) (k - 2)).
    - rewrite list_sum_seq_lin. cbn [seq map list_sum fold_right].
      assert (Q := T (k - 2)%nat). unfold h. cbn [Nat.eqb].
      replace (0 + 1 + (k - 2) =? 0)%nat with false by lia.
      replace (0 + 1 + (k - 2) <? k - 1)%nat with false by lia.
      destruct k as [|[|k']]; [lia|lia|]. replace (S (S k') - 2)%nat with k' in * by lia.
      set (t := (k' * (k' - 1) / 2)%nat) in *. clearbody t. clear -Q.
      destruct k'; [cbn in *; lia|]. replace (S k' - 1)%nat with k' in Q by lia. nia.
    - intros i Hi. unfold h. replace (i =? 0)%nat with false by lia. replace (i <? k - 1)%nat with true by lia. lia. }
  replace (2 * k)%nat with (k + k)%nat in B at 1 by lia.
  rewrite !seq_app, !map_app, !list_sum_app in B.
  rewrite (list_sum_ext g h 0 k) in B by (intros i Hi; unfold g; replace (i <? k)%nat with true by lia; reflexivity).
  rewrite (list_sum_ext g (fun i => h (0 + k + k - 1 - i)%nat) (0 + k) k) in B
    by (intros i Hi; unfold g; replace (i <? k)%nat with false by lia; f_equal; lia).
  rewrite (list_sum_rev h k (0 + k)), F1 in B. rewrite Hn.
  clear -B Hk. nia.
Qed.

Lemma getFlux_sum a : rows a = cols a ->
  (Nat.odd (rows a) = true /\ (3 <= rows a)%nat \/ (10 <= rows a)%nat) ->
  getFlux a = Ok (img_sum a).
Proof.
  intros Hsq Hn. unfold getFlux. rewrite <- Hsq, Nat.eqb_refl. cbn [negb].
  change (mkImg (rows a) (rows a) _) with (masked a).
  assert (Hm : median (pixels (masked a)) = Ok 0).
  { apply median_zero. rewrite pixels_length. change (rows (masked a)) with (rows a). change (cols (masked a)) with (rows a).
    destruct (Nat.even (rows a)) eqn:E.
    - apply Nat.even_spec in E. destruct E as (k & E). apply (zeros_even a k); [|exact E].
      destruct Hn as [(O & _)|Hn]; [|lia]. exfalso. rewrite E, Nat.odd_mul in O. discriminate O.
    - assert (O : Nat.odd (rows a) = true) by (rewrite <- Nat.negb_even, E; reflexivity).
      apply Nat.odd_spec in O. destruct O as (m & O). apply (zeros_odd a m); [lia|exact O]. }
  rewrite Hm. cbn [bind]. f_equal. unfold img_sum, img_map; cbn [rows cols px].
  apply rsum_ext; intros i Hi. apply rsum_ext; intros j Hj. ring.
Qed.

(** ** getMSE *)
Lemma getMSE_ok t e n : rows t = rows e -> cols t = cols e -> img_sum t <> 0 ->
  getMSE t e n = Ok (match n with
    | L2 => 100 * sqrt (rsum (rows t) (fun i => rsum (cols t) (fun j => (px e i j - px t i j) * (px e i j - px t i j)))) / img_sum t
    | L1 => 100 * rsum (rows t) (fun i => rsum (cols t) (fun j => Rabs (px e i j - px t i j))) / img_sum t end).
Proof.
  intros Hr Hc Hs. unfold getMSE. rewrite <- Hr, <- Hc, !Nat.eqb_refl. cbn [andb negb].
  destruct (Req_EM_T (img_sum t) 0); [contradiction|]. destruct n; reflexivity.
Qed.
Lemma rsum2_zero_terms r c (f : nat -> nat -> R) :
  (forall i j, (i < r)%nat -> (j < c)%nat -> 0 <= f i j) ->
  rsum r (fun i => rsum c (fun j => f i j)) = 0 ->
  forall i j, (i < r)%nat -> (j < c)%nat -> f i j = 0.
Proof.
  intros Hf H i j Hi Hj.
  assert (A : rsum c (fun j => f i j) = 0).
  { assert (L := rsum_term_le r (fun i => rsum c (fun j => f i j)) i).
    assert (N : forall k, (k < r)%nat -> 0 <= rsum c (fun j => f k j)) by (intros k Hk; apply rsum_nonneg; intros l Hl; apply Hf; assumption).
    specialize (L N Hi). cbv beta in L. specialize (N i Hi). lra. }
  assert (L := rsum_term_le c (fun j => f i j) j).
  specialize (L (fun k Hk => Hf i k Hi Hk) Hj). cbv beta in L. specialize (Hf i j Hi Hj). lra.
Qed.
