(** Lemmas for C96-C97. *)
From Coq Require Import Reals List Arith ZArith Lia Lra Psatz Bool.
From Coq Require Import ZifyBool ZifyNat.
From Verif Require Import Base_Py Base_Sum M_Image M_Map S_Map.
Import ListNotations.
Open Scope R_scope.

Lemma lsum_app l1 l2 : lsum (l1 ++ l2) = lsum l1 + lsum l2.
Proof. induction l1 as [|x l1 IH]; cbn [app lsum]; [lra|]. rewrite IH. lra. Qed.

Lemma lsum_flat N (f : nat -> list R) s : lsum (flat_map f (seq s N)) = rsum N (fun k => lsum (f (s + k)%nat)).
Proof.
  revert s. induction N as [|N IH]; intros s; [reflexivity|].
  cbn [seq flat_map]. rewrite lsum_app, IH, rsum_S_l, Nat.add_0_r. f_equal.
  apply rsum_ext; intros k _. f_equal. f_equal. lia.
Qed.
Lemma len_flat N (f : nat -> list R) s : INR (length (flat_map f (seq s N))) = rsum N (fun k => INR (length (f (s + k)%nat))).
Proof.
  revert s. induction N as [|N IH]; intros s; [reflexivity|].
  cbn [seq flat_map]. rewrite app_length, plus_INR, IH, rsum_S_l, Nat.add_0_r. f_equal.
  apply rsum_ext; intros k _. f_equal. f_equal. f_equal. lia.
Qed.

Lemma pick_sum N mat P : lsum (mask_pick N mat P) = rsum N (fun a => rsum N (fun b => if P a b then mat a b else 0)).
Proof.
  unfold mask_pick. rewrite lsum_flat. apply rsum_ext; intros a _. rewrite lsum_flat. apply rsum_ext; intros b _.
  cbn [Nat.add]. destruct (P a b); cbn [lsum]; lra.
Qed.
Lemma pick_len N mat P : INR (length (mask_pick N mat P)) = rsum N (fun a => rsum N (fun b => if P a b then 1 else 0)).
Proof.
  unfold mask_pick. rewrite len_flat. apply rsum_ext; intros a _. rewrite len_flat. apply rsum_ext; intros b _.
  cbn [Nat.add]. destruct (P a b); cbn [length]; reflexivity.
Qed.

Lemma div_block n x y : (y < n)%nat -> ((x * n + y) / n = x)%nat /\ ((x * n + y) mod n = y)%nat.
Proof.
  intros H. split.
  - rewrite Nat.add_comm, Nat.div_add by lia. rewrite Nat.div_small by lia. reflexivity.
  - rewrite Nat.add_comm, Nat.mod_add by lia. apply Nat.mod_small. exact H.
Qed.

Lemma req_true x y : req x y = true <-> x = y.
Proof. unfold req. destruct (Req_EM_T x y); split; intros; congruence. Qed.

Lemma sepx_cond n j x1 x2 : (j < n)%nat ->
  req (INR x1 - INR x2) (IZR (Z.of_nat j - Z.of_nat n + 1)) = (x2 =? x1 + (n - 1 - j))%nat.
Proof.
  intros H. destruct (Nat.eqb_spec x2 (x1 + (n - 1 - j))) as [E|E].
  - apply req_true. rewrite !INR_IZR_INZ, <- minus_IZR. f_equal. lia.
  - destruct (req _ _) eqn:Q; [|reflexivity]. apply req_true in Q. rewrite !INR_IZR_INZ, <- minus_IZR in Q. apply eq_IZR in Q. lia.
Qed.

Lemma collapse n p q (f : nat -> nat -> R) : (p < n)%nat -> (q < n)%nat ->
  rsum (n * n) (fun a => rsum (n * n) (fun b =>
     if ((b mod n =? a mod n + q) && (a / n =? b / n + p))%nat%bool then f a b else 0)) =
  rsum (n - p) (fun x => rsum (n - q) (fun y => f ((x + p) * n + y)%nat (x * n + (y + q))%nat)).
Proof.
  intros Hp Hq. rewrite rsum_blocks.
  rewrite (rsum_window n p (n - p)).
  - apply rsum_ext; intros x Hx. rewrite (rsum_window n 0 (n - q)).
    + apply rsum_ext; intros y Hy. cbn [Nat.add]. rewrite rsum_blocks.
      rewrite (rsum_single n x).
      * rewrite (rsum_single n (y + q)).
        -- destruct (div_block n (p + x) y ltac:(lia)) as [A1 A2]. destruct (div_block n x (y + q) ltac:(lia)) as [B1 B2].
           rewrite A1, A2, B1, B2. replace ((y + q =? y + q) && (p + x =? x + p))%nat%bool with true by lia. f_equal. f_equal. f_equal. lia.
        -- lia.
        -- intros y2 Hy2 Hne. destruct (div_block n (p + x) y ltac:(lia)) as [A1 A2]. destruct (div_block n x y2 ltac:(lia)) as [B1 B2].
           rewrite A1, A2, B1, B2. replace (y2 =? y + q)%nat with false by lia. reflexivity.
      * lia.
      * intros x1 Hx1 Hne. apply rsum_zero; intros y2 Hy2. destruct (div_block n (p + x) y ltac:(lia)) as [A1 A2]. destruct (div_block n x1 y2 ltac:(lia)) as [B1 B2].
        rewrite A1, A2, B1, B2. replace (p + x =? x1 + p)%nat with false by lia. rewrite andb_false_r. reflexivity.
    + lia.
    + intros y Hy Ho. rewrite rsum_blocks. apply rsum_zero; intros x1 Hx1. apply rsum_zero; intros y2 Hy2.
      destruct (div_block n (p + x) y ltac:(lia)) as [A1 A2]. destruct (div_block n x1 y2 ltac:(lia)) as [B1 B2].
      rewrite A1, A2, B1, B2. replace (y2 =? y + q)%nat with false by lia. reflexivity.
  - lia.
  - intros x2 Hx2 Ho. apply rsum_zero; intros y Hy. rewrite rsum_blocks. apply rsum_zero; intros x1 Hx1. apply rsum_zero; intros y2 Hy2.
    destruct (div_block n x2 y ltac:(lia)) as [A1 A2]. destruct (div_block n x1 y2 ltac:(lia)) as [B1 B2].
    rewrite A1, A2, B1, B2. replace (x2 =? x1 + p)%nat with false by lia. rewrite andb_false_r. reflexivity.
Qed.

(** one cell of the quadrant *)
Lemma cell_val n mat jy jx : (jy < n)%nat -> (jx < n)%nat ->
  lmean (mask_pick (n * n) mat (fun a b =>
      req (vs_ry n INR a b) (IZR (Z.of_nat jy - Z.of_nat n + 1)) && req (vs_rx n INR a b) (IZR (Z.of_nat jx - Z.of_nat n + 1)))%bool) =
  Ok (lag_mean n (n - 1 - jx) (n - 1 - jy) (fun x1 x2 y1 y2 => mat (x2 * n + y1)%nat (x1 * n + y2)%nat)).
Proof.
  intros Hy Hx. set (P := fun a b => _).
  assert (EP : forall a b, P a b = ((b mod n =? a mod n + (n - 1 - jy)) && (a / n =? b / n + (n - 1 - jx)))%nat%bool).
  { intros a b. unfold P, vs_ry, vs_rx. rewrite !sepx_cond by assumption. reflexivity. }
  assert (S1 : lsum (mask_pick (n * n) mat P) = rsum (n - (n - 1 - jx)) (fun x => rsum (n - (n - 1 - jy)) (fun y => mat ((x + (n - 1 - jx)) * n + y)%nat (x * n + (y + (n - 1 - jy)))%nat))).
  { rewrite pick_sum. rewrite <- collapse by lia. apply rsum_ext; intros a _. apply rsum_ext; intros b _. rewrite EP. reflexivity. }
  assert (S2 : INR (length (mask_pick (n * n) mat P)) = INR (n - (n - 1 - jx)) * INR (n - (n - 1 - jy))).
  { rewrite pick_len.
    rewrite (rsum_ext _ _ (fun a => rsum (n * n) (fun b => if ((b mod n =? a mod n + (n - 1 - jy)) && (a / n =? b / n + (n - 1 - jx)))%nat%bool then (fun _ _ => 1) a b else 0))).
    - rewrite (collapse n (n - 1 - jx) (n - 1 - jy) (fun _ _ => 1)) by lia.
      rewrite (rsum_ext _ _ (fun _ => INR (n - (n - 1 - jy)) * 1)) by (intros; apply rsum_const). rewrite rsum_const. ring.
    - intros a _. apply rsum_ext; intros b _. rewrite EP. reflexivity. }
  assert (NP : 0 < INR (n - (n - 1 - jx)) * INR (n - (n - 1 - jy))) by (apply Rmult_lt_0_compat; apply lt_0_INR; lia).
  unfold lmean. destruct (mask_pick (n * n) mat P) as [|v l] eqn:E.
  - exfalso. cbn [length INR] in S2. lra.
  - rewrite <- E in *. rewrite S1, S2. reflexivity.
Qed.

Lemma mapR_ok {A B} (f : A -> result B) (g : A -> B) l : (forall x, In x l -> f x = Ok (g x)) -> mapR f l = Ok (map g l).
Proof.
  induction l as [|x l IH]; intros H; [reflexivity|]. cbn [mapR map]. rewrite H by (left; reflexivity). cbn [bind].
  rewrite IH by (intros; apply H; right; assumption). reflexivity.
Qed.
Lemma nth_map_seq0 {A} (f : nat -> A) n m d : (m < n)%nat -> nth m (map f (seq 0 n)) d = f m.
Proof. intros H. rewrite (nth_indep _ d (f 0%nat)) by (rewrite map_length, seq_length; exact H). rewrite map_nth, seq_nth by exact H. reflexivity. Qed.

(** the whole map *)
Lemma map_val n mat seps : (0 < n)%nat ->
  (seps = None \/ seps = Some (vs_rx n INR, vs_ry n INR)) ->
  exists o, matrix_to_map (n * n) mat seps = Ok o /\ rows o = (2 * n - 1)%nat /\ cols o = (2 * n - 1)%nat /\
    forall i j, (i < 2 * n - 1)%nat -> (j < 2 * n - 1)%nat ->
      px o i j = lag_mean n (lag n j) (lag n i) (fun x1 x2 y1 y2 => mat (x2 * n + y1)%nat (x1 * n + y2)%nat).
Proof.
  intros Hn Hs. unfold matrix_to_map. rewrite Nat.sqrt_square.
  replace (Nat.eqb n 0) with false by lia.
  set (Q := fun jy jx => lag_mean n (n - 1 - jx) (n - 1 - jy) (fun x1 x2 y1 y2 => mat (x2 * n + y1)%nat (x1 * n + y2)%nat)).
  assert (E : mapR (fun jy => mapR (fun jx => lmean (mask_pick (n * n) mat (fun a b =>
      req (vs_ry n INR a b) (IZR (Z.of_nat jy - Z.of_nat n + 1)) && req (vs_rx n INR a b) (IZR (Z.of_nat jx - Z.of_nat n + 1)))%bool)) (seq 0 n)) (seq 0 n)
     = Ok (map (fun jy => map (fun jx => Q jy jx) (seq 0 n)) (seq 0 n))).
  { apply mapR_ok. intros jy Hy. apply in_seq in Hy. apply mapR_ok. intros jx Hx. apply in_seq in Hx. apply cell_val; lia. }
  assert (V : forall i j, (i < n)%nat -> (j < n)%nat -> nth j (nth i (map (fun jy => map (fun jx => Q jy jx) (seq 0 n)) (seq 0 n)) []) 0 = Q i j).
  { intros i j Hi Hj. rewrite nth_map_seq0 by exact Hi. rewrite nth_map_seq0 by exact Hj. reflexivity. }
  assert (Fin : forall i j, (i < 2 * n - 1)%nat -> (j < 2 * n - 1)%nat ->
    let cmap i j := nth j (nth i (map (fun jy => map (fun jx => Q jy jx) (seq 0 n)) (seq 0 n)) []) 0 in
    let f1 i j := if ((i <? n) && (j <? n))%nat%bool then cmap i j else 0 in
    let f2 i j := if ((i <? n) && (n <=? j))%nat%bool then cmap i (n - 2 - (j - n))%nat else f1 i j in
    (if (n <=? i)%nat then f2 (n - 2 - (i - n))%nat j else f2 i j) =
    lag_mean n (lag n j) (lag n i) (fun x1 x2 y1 y2 => mat (x2 * n + y1)%nat (x1 * n + y2)%nat)).
  { intros i j Hi Hj. cbv zeta. destruct (Nat.leb_spec n i) as [Li|Li]; destruct (Nat.leb_spec n j) as [Lj|Lj].
    - replace (n - 2 - (i - n) <? n)%nat with true by lia. cbn [andb]. rewrite V by lia. unfold Q, lag. f_equal; lia.
    - rewrite andb_false_r. replace (n - 2 - (i - n) <? n)%nat with true by lia. replace (j <? n)%nat with true by lia. cbn [andb]. rewrite V by lia. unfold Q, lag. f_equal; lia.
    - replace (i <? n)%nat with true by lia. cbn [andb]. rewrite V by lia. unfold Q, lag. f_equal; lia.
    - rewrite andb_false_r. replace (i <? n)%nat with true by lia. replace (j <? n)%nat with true by lia. cbn [andb]. rewrite V by lia. unfold Q, lag. f_equal; lia. }
  destruct Hs as [ -> | -> ]; cbv zeta; [rewrite Nat.eqb_refl; cbn [negb]|cbn [fst snd]];
    rewrite E; cbn [bind]; (eexists; split; [reflexivity|]; cbn [rows cols px]; split; [reflexivity|]; split; [reflexivity|]);
    exact Fin.
Qed.
