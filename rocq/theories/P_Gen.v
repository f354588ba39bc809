(** C107: distribution of test files over sub-folders (dataGenerator.py:229-281). *)
From Coq Require Import List Arith ZArith Lia Bool String Permutation Sorted.
From Verif Require Import Base_Py M_Gen.
Import ListNotations.
Open Scope nat_scope.

Lemma argmin_nat_spec l : l <> [] ->
  argmin_nat l < List.length l /\
  (forall j, j < List.length l -> nth (argmin_nat l) l 0 <= nth j l 0) /\
  (forall j, j < argmin_nat l -> nth (argmin_nat l) l 0 < nth j l 0).
Proof.
  induction l as [|x r IH]; [congruence|]. intros _. destruct r as [|y r'].
  - cbn. repeat split; [lia| |lia]. intros [|j] Hj; cbn in *; lia.
  - destruct IH as (A & B & C); [congruence|]. set (r := y :: r') in *.
    assert (E : argmin_nat (x :: r) = if nth (argmin_nat r) r 0 <? x then S (argmin_nat r) else 0) by reflexivity.
    rewrite E. clear E. clearbody r. destruct (Nat.ltb_spec (nth (argmin_nat r) r 0) x) as [Hlt|Hge].
    + cbn [List.length nth]. repeat split; [lia| |].
      * intros [|j] Hj; cbn [nth]; [lia|]. apply B; lia.
      * intros [|j] Hj; cbn [nth]; [lia|]. apply C; lia.
    + cbn [List.length nth]. repeat split; [lia| |lia].
      intros [|j] Hj; cbn [nth]; [lia|]. specialize (B j ltac:(lia)). lia.
Qed.

Lemma sorted_nth l : StronglySorted lt l -> forall a b, a < b -> b < List.length l -> nth a l 0 < nth b l 0.
Proof.
  induction 1 as [|x l H IH HF]; intros a b Hab Hb; cbn in Hb; [lia|].
  destruct b as [|b]; [lia|]. destruct a as [|a]; cbn.
  - rewrite Forall_forall in HF. apply HF, nth_In. lia.
  - apply IH; lia.
Qed.
Lemma sorted_filter f l : StronglySorted lt l -> StronglySorted lt (filter f l).
Proof.
  induction 1 as [|x l H IH HF]; cbn; [constructor|]. destruct (f x); [|exact IH].
  constructor; [exact IH|]. rewrite Forall_forall in *. intros y Hy. apply filter_In in Hy. apply HF, Hy.
Qed.
Lemma sorted_seq n : forall s, StronglySorted lt (seq s n).
Proof.
  induction n as [|n IH]; intros s; cbn; constructor; [apply IH|].
  rewrite Forall_forall. intros y Hy. apply in_seq in Hy. lia.
Qed.

(** The number chosen when the asked one does not divide the number of files: a divisor under twice the asked number, the
    closest to it, and the smaller one of two equally close. *)
Theorem C107_number : forall N n, 1 <= n ->
  let m := nearest_divisor N n in
  1 <= m < 2 * n /\ N mod m = 0 /\
  forall d, 1 <= d < 2 * n -> N mod d = 0 -> absdiff m n <= absdiff d n /\ (absdiff m n = absdiff d n -> m <= d).
Proof.
  intros N n Hn. unfold nearest_divisor. cbv zeta. set (vals := seq 1 (2 * n - 1)).
  assert (Hv : forall i, i < 2 * n - 1 -> nth i vals 0 = S i) by (intros i Hi; unfold vals; rewrite seq_nth by exact Hi; lia).
  assert (Lv : List.length vals = 2 * n - 1) by (unfold vals; apply seq_length).
  rewrite Lv. set (ids := filter _ (seq 0 (2 * n - 1))).
  assert (Hid : forall i, In i ids <-> i < 2 * n - 1 /\ N mod (S i) = 0).
  { intros i. unfold ids. rewrite filter_In, in_seq. split.
    - intros [H1 H2]. apply Nat.eqb_eq in H2. rewrite Hv in H2 by lia. split; [lia|exact H2].
    - intros [H1 H2]. split; [lia|]. apply Nat.eqb_eq. rewrite Hv by lia. exact H2. }
  assert (Hne : ids <> []).
  { intros E. assert (In 0 ids) by (apply Hid; split; [lia|apply Nat.mod_1_r]). rewrite E in H. destruct H. }
  assert (Hne' : map (fun i => absdiff i (n - 1)) ids <> []) by (destruct ids; [congruence|discriminate]).
  destruct (argmin_nat_spec _ Hne') as (A & B & C). rewrite map_length in *.
  set (k := argmin_nat _) in *.
  assert (Hk : In (nth k ids 0) ids) by (apply nth_In, A). apply Hid in Hk. destruct Hk as [K1 K2].
  assert (Em : nth k (map (fun i => nth i vals 0) ids) 0 = S (nth k ids 0)).
  { rewrite nth_indep with (d' := (fun i => nth i vals 0) 0) by (rewrite map_length; exact A).
    rewrite (map_nth (fun i => nth i vals 0)). apply Hv. exact K1. }
  rewrite Em. set (i0 := nth k ids 0) in *.
  assert (Hd : forall j, j < List.length ids -> nth j (map (fun i => absdiff i (n - 1)) ids) 0 = absdiff (nth j ids 0) (n - 1)).
  { intros j Hj. rewrite nth_indep with (d' := (fun i => absdiff i (n - 1)) 0) by (rewrite map_length; exact Hj).
    apply (map_nth (fun i => absdiff i (n - 1))). }
  split; [lia|]. split; [exact K2|]. intros d Hd1 Hd2.
  assert (Hin : In (d - 1) ids) by (apply Hid; split; [lia|replace (S (d - 1)) with d by lia; exact Hd2]).
  destruct (In_nth _ _ 0 Hin) as (p & Hp & Ep).
  pose proof (B p Hp) as Bp. rewrite !Hd in Bp by (exact A || exact Hp). rewrite Ep in Bp. fold i0 in Bp.
  unfold absdiff in *. split; [lia|]. intros Et.
  destruct (le_lt_dec (S i0) d) as [Hle|Hgt]; [exact Hle|exfalso].
  assert (Hpk : p < k).
  { destruct (lt_eq_lt_dec p k) as [[H|H]|H]; [exact H| |].
    - subst p. fold i0 in Ep. lia.
    - pose proof (sorted_nth _ (sorted_filter _ _ (sorted_seq (2 * n - 1) 0)) k p H Hp) as Q. fold ids in Q. fold i0 in Q. rewrite Ep in Q. lia. }
  specialize (C p Hpk). rewrite !Hd in C by (exact A || exact Hp). rewrite Ep in C. fold i0 in C. lia.
Qed.
Print Assumptions C107_number.

Lemma split_number_ok N n m : split_number N n = Ok m -> 2 <= m /\ N mod m = 0.
Proof.
  unfold split_number. destruct (Nat.eqb_spec n 0) as [H0|H0]; [discriminate|].
  cbv zeta. set (q := if N mod n =? 0 then n else nearest_divisor N n). destruct (Nat.eqb_spec q 1) as [H1|H1]; [discriminate|].
  intros H. apply Ok_inj in H. subst m. unfold q in *.
  destruct (Nat.eqb_spec (N mod n) 0) as [E|E].
  - split; [lia|exact E].
  - destruct (C107_number N n ltac:(lia)) as (A & B & _). split; [lia|exact B].
Qed.

(** C107: when the call is refused. *)
Theorem C107_refusals : forall N n, 1 <= n ->
  (split_number N n = Err ValueError <-> n = 1 \/ (forall d, 2 <= d <= 2 * n - 2 -> N mod d <> 0)) /\
  ((exists m, split_number N n = Ok m) \/ split_number N n = Err ValueError).
Proof.
  intros N n Hn. unfold split_number. destruct (Nat.eqb_spec n 0) as [H0|_]; [lia|]. cbv zeta.
  destruct (Nat.eqb_spec (N mod n) 0) as [E|E].
  - destruct (Nat.eqb_spec n 1) as [E1|E1].
    + split; [|now right]. split; [now left|reflexivity].
    + split; [|left; now exists n]. split; [discriminate|]. intros [H|H]; [contradiction|].
      exfalso. apply (H n); [lia|exact E].
  - destruct (C107_number N n Hn) as (A & B & C). set (m := nearest_divisor N n) in *.
    destruct (Nat.eqb_spec m 1) as [E1|E1].
    + split; [|now right]. split; [|reflexivity]. intros _. right. intros d Hd Hmod.
      destruct (C d ltac:(lia) Hmod) as [C1 _]. unfold absdiff in C1. lia.
    + split; [|left; now exists m]. split; [discriminate|]. intros [H|H].
      * subst n. exfalso. apply E. apply Nat.mod_1_r.
      * exfalso. assert (Hm : m = 2 * n - 1) by (destruct (le_lt_dec m (2 * n - 2)) as [L|L]; [destruct (H m); [lia|exact B]|lia]).
        destruct (C 1 ltac:(lia) (Nat.mod_1_r N)) as [C1 C2]. unfold absdiff in *. assert (m <= 1) by (apply C2; lia). lia.
Qed.
Print Assumptions C107_refusals.

(** Finding: one sub-folder is always refused, and so is a number of files whose only suitable divisor is 2n-1,
    which is as close to n as 1: 21 files for 2 sub-folders are refused although 3 sub-folders of 7 files would do. *)
Theorem C107_tie_refuted : forall N,
  split_number N 1 = Err ValueError /\
  (forall n, 2 <= n -> N mod (2 * n - 1) = 0 -> (forall d, 2 <= d <= 2 * n - 2 -> N mod d <> 0) -> split_number N n = Err ValueError).
Proof.
  intros N. split.
  - apply (proj1 (C107_refusals N 1 ltac:(lia))). now left.
  - intros n Hn _ H. apply (proj1 (C107_refusals N n ltac:(lia))). now right.
Qed.
Example ex_tie : split_number 21 2 = Err ValueError /\ split_number 21 3 = Ok 3 /\ split_number 24 10 = Ok 8 /\ split_number 23 10 = Err ValueError.
Proof. repeat split. Qed.
Print Assumptions C107_tie_refuted.

(** * The files *)
Fixpoint moves {A} (fs : files A) (L : list (nat * string)) : result (files A) :=
  match L with [] => Ok fs | (k, n) :: r => do fs1 <- rename fs None (Some k) n; moves fs1 r end.
Lemma moves_app {A} L1 : forall (fs : files A) L2, moves fs (L1 ++ L2) = do f <- moves fs L1; moves f L2.
Proof.
  induction L1 as [|[k n] r IH]; intros fs L2; cbn; [reflexivity|].
  destruct (rename fs None (Some k) n); cbn; [apply IH|reflexivity].
Qed.
Lemma move_all_moves {A} k names : forall (fs : files A), move_all fs k names = moves fs (map (pair k) names).
Proof.
  induction names as [|n r IH]; intros fs; cbn; [reflexivity|]. destruct (rename fs None (Some k) n); cbn; [apply IH|reflexivity].
Qed.
Lemma move_rows_moves {A} F perm q ks : forall (fs : files A),
  move_rows fs F perm q ks = moves fs (flat_map (fun k => map (pair k) (row_names F perm q k)) ks).
Proof.
  induction ks as [|k r IH]; intros fs; cbn; [reflexivity|]. rewrite moves_app, move_all_moves.
  destruct (moves fs _); cbn; [apply IH|reflexivity].
Qed.

Lemma fs_set_same {A} (fs : files A) l n v : fs_set fs l n v l n = v.
Proof. unfold fs_set. rewrite String.eqb_refl. destruct l; cbn; [rewrite Nat.eqb_refl|]; reflexivity. Qed.
Lemma fs_set_name {A} (fs : files A) l n v l' n' : n' <> n -> fs_set fs l n v l' n' = fs l' n'.
Proof. intros H. unfold fs_set. apply String.eqb_neq in H. rewrite H, andb_false_r. reflexivity. Qed.
Lemma fs_set_loc {A} (fs : files A) l n v l' n' : l' <> l -> fs_set fs l n v l' n' = fs l' n'.
Proof.
  intros H. unfold fs_set. destruct l' as [a|], l as [b|]; cbn; try reflexivity; [|congruence].
  destruct (Nat.eqb_spec a b); [congruence|reflexivity].
Qed.

Lemma moves_spec {A} L : forall (fs : files A), NoDup (map snd L) -> (forall k n, In (k, n) L -> fs None n <> None) ->
  exists fs', moves fs L = Ok fs' /\
    (forall k n, In (k, n) L -> fs' (Some k) n = fs None n /\ fs' None n = None /\ forall k', k' <> k -> fs' (Some k') n = fs (Some k') n) /\
    (forall n, ~ In n (map snd L) -> forall l, fs' l n = fs l n).
Proof.
  induction L as [|[k n] r IH]; intros fs Hnd Hin; cbn [moves].
  - exists fs. split; [reflexivity|]. split; [intros k n []|reflexivity].
  - cbn in Hnd. inversion Hnd as [|? ? Hn Hr]; subst.
    unfold rename. destruct (fs None n) as [c|] eqn:Ec; [|exfalso; apply (Hin k n); [now left|exact Ec]]. cbn [bind].
    set (fs1 := fs_set (fs_set fs None n None) (Some k) n (Some c)).
    assert (H1 : forall l n', n' <> n -> fs1 l n' = fs l n') by (intros l n' H; unfold fs1; rewrite !fs_set_name by exact H; reflexivity).
    destruct (IH fs1 Hr) as (fs' & E & P1 & P2).
    { intros k' n' H'. rewrite H1; [apply (Hin k' n'); now right|]. intros ->. apply Hn. apply in_map_iff. exists (k', n). now split. }
    exists fs'. split; [exact E|]. split.
    + intros k' n' [Heq|H'].
      * inversion Heq; subst k' n'. rewrite !(P2 n Hn). unfold fs1. rewrite fs_set_same. split; [now rewrite Ec|].
        split; [rewrite fs_set_loc by discriminate; apply fs_set_same|].
        intros k' Hk'. rewrite (P2 n Hn). unfold fs1. rewrite !fs_set_loc; [reflexivity|discriminate|congruence].
      * assert (n' <> n) by (intros ->; apply Hn; apply in_map_iff; exists (k', n); now split).
        destruct (P1 k' n' H') as (Q1 & Q2 & Q3). rewrite Q1, Q2, H1 by assumption. split; [reflexivity|]. split; [reflexivity|].
        intros k2 Hk2. rewrite Q3 by exact Hk2. apply H1; assumption.
    + cbn. intros n' Hn' l. rewrite P2 by tauto. apply H1. intros ->. tauto.
Qed.

(** Specification: the outcome of an equal distribution of the files [F] over [m] sub-folders. *)
Definition distributed {A} (fs fs' : files A) (F : list string) (m : nat) : Prop :=
  exists dest : string -> nat,
    (forall n, In n F -> dest n < m /\ fs' (Some (dest n)) n = fs None n /\ fs' None n = None /\
                         forall k, k <> dest n -> fs' (Some k) n = fs (Some k) n) /\
    (forall n, ~ In n F -> forall l, fs' l n = fs l n) /\
    (forall k, k < m -> List.length (filter (fun n => dest n =? k) F) * m = List.length F).

Lemma nth_skip (l : list nat) a r : nth r (skipn a l) 0 = nth (a + r) l 0.
Proof.
  revert l. induction a as [|a IH]; intros l; [reflexivity|]. destruct l as [|x l]; cbn; [destruct r; reflexivity|apply IH].
Qed.
Lemma nth_first (l : list nat) q r : r < q -> nth r (firstn q l) 0 = nth r l 0.
Proof.
  revert l r. induction q as [|q IH]; intros l r H; [lia|]. destruct l as [|x l]; [reflexivity|]. destruct r as [|r]; [reflexivity|].
  cbn. apply IH. lia.
Qed.
Lemma in_row F (perm : list nat) q k n : In n (row_names F perm q k) <->
  exists r, r < q /\ k * q + r < List.length perm /\ n = nth (nth (k * q + r) perm 0) F EmptyString.
Proof.
  unfold row_names. rewrite in_map_iff. split.
  - intros (i & E & H). destruct (In_nth _ _ 0 H) as (r & Hr & Er). rewrite firstn_length, skipn_length in Hr.
    exists r. split; [lia|]. split; [lia|]. rewrite <- E, <- Er. rewrite nth_first, nth_skip by lia. reflexivity.
  - intros (r & Hr & Hl & ->). exists (nth (k * q + r) perm 0). split; [reflexivity|].
    rewrite <- nth_skip. rewrite <- (nth_first (skipn (k * q) perm) q r) by exact Hr. apply nth_In. rewrite firstn_length, skipn_length. lia.
Qed.

Lemma nth_mapF F (l : list nat) a : a < List.length l -> nth a (map (fun i => nth i F EmptyString) l) EmptyString = nth (nth a l 0) F EmptyString.
Proof.
  intros H. rewrite (nth_indep _ _ ((fun i => nth i F EmptyString) 0)) by (rewrite map_length; exact H).
  apply (map_nth (fun i => nth i F EmptyString)).
Qed.
Definition index_of (l : list string) (n : string) : nat :=
  (fix go l := match l with [] => 0 | x :: r => if String.eqb x n then 0 else S (go r) end) l.
Lemma index_of_spec l n : In n l -> index_of l n < List.length l /\ nth (index_of l n) l EmptyString = n.
Proof.
  induction l as [|x r IH]; [intros []|]. cbn. destruct (String.eqb_spec x n) as [->|Hx]; [intros _; split; [lia|reflexivity]|].
  intros [H|H]; [congruence|]. destruct (IH H) as [A B]. split; [unfold index_of in *; lia|exact B].
Qed.

(** C107: every .fits file of the folder ends in exactly one of m >= 2 sub-folders, with its contents; each sub-folder gets the same
    number of files; nothing else changes. *)
Theorem C107_split : forall A (fs fs' : files A) listing n_sub perm,
  NoDup listing -> (forall n, In n listing -> fs None n <> None) -> (forall n, Permutation (perm n) (seq 0 n)) ->
  split_test_data true true fs listing n_sub perm = Ok fs' ->
  exists m, 2 <= m /\ split_number (List.length (filter is_fits listing)) n_sub = Ok m /\
    distributed fs fs' (filter is_fits listing) m.
Proof.
  intros A fs fs' listing n_sub perm Hnd Hin Hperm. unfold split_test_data. cbn [negb]. cbv zeta.
  set (F := filter is_fits listing).
  assert (HF : NoDup F) by (apply NoDup_filter, Hnd).
  assert (HFin : forall n, In n F -> fs None n <> None) by (intros n Hn; apply Hin; unfold F in Hn; apply filter_In in Hn; apply Hn).
  clearbody F. set (N := List.length F).
  destruct (split_number N n_sub) as [m|e] eqn:Em; cbn [bind]; [|discriminate].
  destruct (split_number_ok _ _ _ Em) as [Hm Hmod].
  set (q := N / m). assert (HN : N = m * q) by (apply Nat.div_exact; [lia|exact Hmod]).
  set (pm := perm N). assert (HP : Permutation pm (seq 0 N)) by apply Hperm.
  assert (HL : List.length pm = N) by (rewrite (Permutation_length HP); apply seq_length).
  assert (HPn : NoDup pm) by (apply (Permutation_NoDup (Permutation_sym HP)), seq_NoDup).
  assert (Hlt : forall i, i < N -> nth i pm 0 < N).
  { intros i Hi. assert (In (nth i pm 0) (seq 0 N)) by (apply (Permutation_in _ HP), nth_In; lia). apply in_seq in H. lia. }
  rewrite move_rows_moves. set (L := flat_map _ (seq 0 m)).
  assert (HinL : forall k n, In (k, n) L <-> k < m /\ In n (row_names F pm q k)).
  { intros k n. unfold L. rewrite in_flat_map. split.
    - intros (k' & Hk' & H). apply in_map_iff in H. destruct H as (n' & E & H). inversion E; subst. apply in_seq in Hk'. split; [lia|exact H].
    - intros [Hk H]. exists k. split; [apply in_seq; lia|]. apply in_map. exact H. }
  (* positions *)
  assert (Huniq : forall p p', p < N -> p' < N -> nth (nth p pm 0) F EmptyString = nth (nth p' pm 0) F EmptyString -> p = p').
  { intros p p' Hp Hp' E. apply (proj1 (NoDup_nth F EmptyString) HF) in E; [|apply Hlt, Hp|apply Hlt, Hp'].
    apply (proj1 (NoDup_nth pm 0) HPn) in E; [exact E|lia|lia]. }
  assert (Hsnd : map snd L = map (fun i => nth i F EmptyString) (firstn (m * q) pm)).
  { unfold L. clear -m. generalize m. intros M. induction M as [|M IH]; [reflexivity|].
    rewrite seq_S, flat_map_app, map_app, IH. cbn [flat_map Nat.add]. rewrite app_nil_r, map_map. cbn [snd]. rewrite map_id.
    unfold row_names. rewrite <- map_app. f_equal.
    replace (S M * q) with (M * q + q) by lia. generalize (M * q) as a. intros a.
    revert a. clear. induction pm as [|x l IH]; intros a; [rewrite skipn_nil, !firstn_nil; reflexivity|].
    destruct a as [|a]; [reflexivity|]. cbn. f_equal. apply IH. }
  assert (HndL : NoDup (map snd L)).
  { rewrite Hsnd, <- HN, <- HL, firstn_all. apply (NoDup_nth _ EmptyString). intros a b Ha Hb E. rewrite map_length in Ha, Hb.
    rewrite !nth_mapF in E by (exact Ha || exact Hb). apply Huniq; [lia|lia|exact E]. }
  assert (HmemL : forall n, In n (map snd L) <-> In n F).
  { intros n. rewrite Hsnd, <- HN, <- HL, firstn_all, in_map_iff. split.
    - intros (i & <- & Hi). apply nth_In. apply (Permutation_in _ HP), in_seq in Hi. lia.
    - intros Hn. destruct (In_nth _ _ EmptyString Hn) as (i & Hi & Ei). exists i. split; [exact Ei|].
      apply (Permutation_in _ (Permutation_sym HP)), in_seq. lia. }
  destruct (moves_spec L fs HndL) as (fs1 & E1 & P1 & P2).
  { intros k n H. apply HFin, HmemL, in_map_iff. exists (k, n). now split. }
  rewrite E1. intros E. apply Ok_inj in E. subst fs1.
  exists m. split; [exact Hm|]. split; [reflexivity|].
  set (G := map (fun i => nth i F EmptyString) pm).
  assert (LG : List.length G = N) by (unfold G; rewrite map_length; exact HL).
  set (dest := fun n => index_of G n / q). exists dest.
  assert (Hrow : forall n, In n F -> 0 < q /\ forall k, k < m -> (In n (row_names F pm q k) <-> dest n = k)).
  { intros n Hn. assert (HG : In n G). { apply HmemL in Hn. rewrite Hsnd, <- HN, <- HL, firstn_all in Hn. exact Hn. }
    destruct (index_of_spec G n HG) as [G1 G2]. rewrite LG in G1.
    assert (Hq : 0 < q) by (destruct q; [lia|lia]). split; [exact Hq|].
    assert (G3 : nth (nth (index_of G n) pm 0) F EmptyString = n).
    { transitivity (nth (index_of G n) G EmptyString); [|exact G2]. symmetry. apply (nth_mapF F pm (index_of G n)). lia. }
    clear G2. rename G3 into G2.
    intros k Hk. rewrite in_row. unfold dest. split.
    - intros (r & Hr & Hb & En). assert (Ep : index_of G n = k * q + r) by (apply Huniq; [lia|lia|congruence]).
      rewrite Ep, Nat.mul_comm. rewrite Nat.add_comm, Nat.mul_comm, Nat.div_add by lia. rewrite Nat.div_small by lia. lia.
    - intros Ek. exists (index_of G n mod q). pose proof (Nat.div_mod (index_of G n) q ltac:(lia)) as D. rewrite Ek in D.
      pose proof (Nat.mod_upper_bound (index_of G n) q ltac:(lia)) as U.
      replace (k * q + index_of G n mod q) with (index_of G n) by lia. split; [exact U|]. split; [lia|]. now rewrite G2. }
  assert (Hdest : forall n, In n F -> dest n < m).
  { intros n Hn. assert (HG : In n G). { apply HmemL in Hn. rewrite Hsnd, <- HN, <- HL, firstn_all in Hn. exact Hn. }
    destruct (index_of_spec G n HG) as [G1 _]. rewrite LG in G1. destruct (Hrow n Hn) as [Hq _].
    apply Nat.div_lt_upper_bound; [lia|]. lia. }
  split; [|split].
  - intros n Hn. pose proof (Hdest n Hn) as Hd. destruct (Hrow n Hn) as [Hq Hr]. split; [exact Hd|].
    apply P1. apply HinL. split; [exact Hd|]. apply Hr; [exact Hd|reflexivity].
  - intros n Hn. apply P2. intros H. apply Hn, HmemL, H.
  - intros k Hk.
    assert (EL : List.length (filter (fun n => dest n =? k) F) = List.length (row_names F pm q k)).
    { apply Permutation_length, NoDup_Permutation.
      - apply NoDup_filter, HF.
      - unfold row_names. apply (NoDup_nth _ EmptyString). intros a b Ha Hb E. rewrite map_length in Ha, Hb.
        rewrite !nth_mapF in E by (exact Ha || exact Hb). rewrite firstn_length, skipn_length in Ha, Hb.
        rewrite !nth_first, !nth_skip in E by lia. apply Huniq in E; lia.
      - intros n. rewrite filter_In, Nat.eqb_eq. split.
        + intros [Hn Ek]. apply (proj2 (Hrow n Hn) k Hk). exact Ek.
        + intros H. assert (Hn : In n F) by (apply HmemL, in_map_iff; exists (k, n); split; [reflexivity|apply HinL; now split]).
          split; [exact Hn|]. apply (proj2 (Hrow n Hn) k Hk). exact H. }
    rewrite EL. unfold row_names. rewrite map_length, firstn_length, skipn_length, HL.
    assert (k * q + q <= N) by (rewrite HN; nia). rewrite Nat.min_l by lia. fold N. lia.
Qed.
Print Assumptions C107_split.

(** C107: the call succeeds exactly when a number of sub-folders can be chosen. *)
Theorem C107_total : forall A (fs : files A) listing n_sub perm has_folder has_test,
  NoDup listing -> (forall n, In n listing -> fs None n <> None) -> (forall n, Permutation (perm n) (seq 0 n)) ->
  match split_test_data has_folder has_test fs listing n_sub perm with
  | Ok _ => has_folder = true /\ has_test = true /\ is_ok (split_number (List.length (filter is_fits listing)) n_sub) = true
  | Err e => (e = ValueError /\ (has_folder = false \/ has_test = false)) \/ split_number (List.length (filter is_fits listing)) n_sub = Err e
  end.
Proof.
  intros A fs listing n_sub perm h1 h2 Hnd Hin Hperm. unfold split_test_data.
  destruct h1; cbn [negb]; [|left; split; [reflexivity|now left]]. destruct h2; cbn [negb]; [|left; split; [reflexivity|now right]].
  cbv zeta. set (F := filter is_fits listing).
  destruct (split_number (List.length F) n_sub) as [m|e] eqn:Em; cbn [bind]; [|now right].
  rewrite move_rows_moves. set (L := flat_map _ (seq 0 m)).
  destruct (split_number_ok _ _ _ Em) as [Hm Hmod]. set (N := List.length F) in *. set (q := N / m) in *.
  assert (HN : N = m * q) by (apply Nat.div_exact; [lia|exact Hmod]).
  set (pm := perm N) in *. assert (HP : Permutation pm (seq 0 N)) by apply Hperm.
  assert (HL : List.length pm = N) by (rewrite (Permutation_length HP); apply seq_length).
  assert (HPn : NoDup pm) by (apply (Permutation_NoDup (Permutation_sym HP)), seq_NoDup).
  assert (HF : NoDup F) by (apply NoDup_filter, Hnd).
  assert (Hlt : forall i, i < N -> nth i pm 0 < N).
  { intros i Hi. assert (In (nth i pm 0) (seq 0 N)) by (apply (Permutation_in _ HP), nth_In; lia). apply in_seq in H. lia. }
  assert (Hsnd : map snd L = map (fun i => nth i F EmptyString) (firstn (m * q) pm)).
  { unfold L. clear -m. generalize m. intros M. induction M as [|M IH]; [reflexivity|].
    rewrite seq_S, flat_map_app, map_app, IH. cbn [flat_map Nat.add]. rewrite app_nil_r, map_map. cbn [snd]. rewrite map_id.
    unfold row_names. rewrite <- map_app. f_equal.
    replace (S M * q) with (M * q + q) by lia. generalize (M * q) as a. intros a.
    revert a. clear. induction pm as [|x l IH]; intros a; [rewrite skipn_nil, !firstn_nil; reflexivity|].
    destruct a as [|a]; [reflexivity|]. cbn. f_equal. apply IH. }
  rewrite <- HN, <- HL, firstn_all in Hsnd.
  destruct (moves_spec L fs) as (fs1 & E1 & _).
  - rewrite Hsnd. apply (NoDup_nth _ EmptyString). intros a b Ha Hb E. rewrite map_length in Ha, Hb.
    rewrite !nth_mapF in E by (exact Ha || exact Hb).
    apply (proj1 (NoDup_nth F EmptyString) HF) in E; [|apply Hlt; lia|apply Hlt; lia].
    apply (proj1 (NoDup_nth pm 0) HPn) in E; [exact E|lia|lia].
  - intros k n H. assert (Hs : In n (map snd L)) by (apply in_map_iff; exists (k, n); now split).
    rewrite Hsnd, in_map_iff in Hs. destruct Hs as (i & <- & Hi). apply Hin.
    assert (In (nth i F EmptyString) F) by (apply nth_In; apply (Permutation_in _ HP), in_seq in Hi; fold N; lia).
    apply filter_In in H0. apply H0.
  - rewrite E1. repeat split; reflexivity.
Qed.
Print Assumptions C107_total.

(** six files, one of them not a FITS file: five files cannot go to two or three folders; with six FITS files they do *)
Definition ex_listing := ["a.fits"; "b.fits"; "c.fits"; "notes.txt"; "d.fits"]%string.
Definition ex_fs : files nat := fun l n => match l with None => if existsb (String.eqb n) ex_listing then Some (String.length n) else None | _ => None end.
Example ex_split : is_ok (split_test_data true true ex_fs ex_listing 2 (fun n => rev (seq 0 n))) = true.
Proof. reflexivity. Qed.
