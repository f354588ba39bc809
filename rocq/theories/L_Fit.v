(** Lemmas about the model of the fit. *)
From Coq Require Import Reals List Arith ZArith Bool Lia Lra.
From Flocq Require Import Core.Raux.
From Verif Require Import Base_Py Base_Sum M_Image L_Image2 M_Tools M_Atmo L_Atmo L_Freq L_Config M_Model2 M_Fit.
Import ListNotations.
Open Scope R_scope.

(** ** INDFREE *)
Lemma indfree_from_spec f : forall k i, In i (indfree_from k f) <-> (k <= i)%nat /\ nth_error f (i - k) = Some false.
Proof.
  induction f as [|b r IH]; intros k i; cbn [indfree_from].
  - split; [contradiction|]. intros [_ H]. destruct (i - k)%nat; discriminate.
  - destruct b; cbn [In]; rewrite IH; split.
    + intros [H1 H2]. split; [lia|]. replace (i - k)%nat with (S (i - S k)) by lia. exact H2.
    + intros [H1 H2]. destruct (Nat.eq_dec i k) as [->|N]; [rewrite Nat.sub_diag in H2; discriminate|]. split; [lia|].
      replace (i - k)%nat with (S (i - S k)) in H2 by lia. exact H2.
    + intros [<-|[H1 H2]]; [rewrite Nat.sub_diag; split; [lia|reflexivity]|]. split; [lia|]. replace (i - k)%nat with (S (i - S k)) by lia. exact H2.
    + intros [H1 H2]. destruct (Nat.eq_dec i k) as [->|N]; [now left|right]. split; [lia|]. replace (i - k)%nat with (S (i - S k)) in H2 by lia. exact H2.
Qed.
Lemma indfree_spec f i : In i (indfree f) <-> nth_error f i = Some false.
Proof. unfold indfree. rewrite indfree_from_spec, Nat.sub_0_r. intuition lia. Qed.
Lemma indfree_from_nodup f : forall k, NoDup (indfree_from k f).
Proof.
  induction f as [|b r IH]; intros k; cbn [indfree_from]; [constructor|]. destruct b; [apply IH|]. constructor; [|apply IH].
  rewrite indfree_from_spec. lia.
Qed.
Lemma indfree_nodup f : NoDup (indfree f).
Proof. apply indfree_from_nodup. Qed.
Lemma indfree_lt f i : In i (indfree f) -> (i < length f)%nat.
Proof. intros H. apply indfree_spec in H. apply nth_error_Some. congruence. Qed.

(** ** set_nth, scatter, take *)
Lemma set_nth_length {A} n (v : A) l : length (set_nth n v l) = length l.
Proof. revert n. induction l as [|a r IH]; intros [|n]; cbn; try reflexivity. now rewrite IH. Qed.
Lemma set_nth_same {A} n (v : A) l : (n < length l)%nat -> nth_error (set_nth n v l) n = Some v.
Proof. revert n. induction l as [|a r IH]; intros [|n] H; cbn in *; try lia; [reflexivity|]. apply IH. lia. Qed.
Lemma set_nth_other {A} n m (v : A) l : n <> m -> nth_error (set_nth n v l) m = nth_error l m.
Proof. revert n m. induction l as [|a r IH]; intros [|n] [|m] H; cbn; try reflexivity; try congruence. apply IH. congruence. Qed.

Lemma scatter_spec conv ind : forall x y r, NoDup ind -> (forall i, In i ind -> (i < length x)%nat) -> scatter conv x ind y = Ok r ->
  (length y <= length ind)%nat /\ length r = length x /\
  (forall i, ~ In i (firstn (length y) ind) -> nth_error r i = nth_error x i) /\
  (forall k i v, nth_error ind k = Some i -> nth_error y k = Some v -> nth_error r i = Some (conv v)).
Proof.
  induction ind as [|j ind IH]; intros x y r ND HB H; destruct y as [|v y]; cbn [scatter] in H; try discriminate.
  - apply Ok_inj in H. subst r. cbn. repeat split; auto. intros [|k] i v; discriminate.
  - apply Ok_inj in H. subst r. cbn. repeat split; auto; [lia|]. intros k i v' _. destruct k; discriminate.
  - inversion ND as [|? ? NI ND']; subst. assert (HB' : forall i, In i ind -> (i < length (set_nth j (conv v) x))%nat) by (intros i Hi; rewrite set_nth_length; apply HB; now right).
    destruct (IH _ _ _ ND' HB' H) as (L & Ln & Ho & Hs). rewrite set_nth_length in Ln. split; [cbn; lia|]. split; [exact Ln|]. split.
    + intros i Hi. cbn [length firstn In] in Hi. rewrite Ho by tauto. apply set_nth_other. intros ->. tauto.
    + intros [|k] i w Hk Hy; cbn in Hk, Hy.
      * injection Hk as ->. injection Hy as ->. rewrite Ho by (intros Hi; apply NI; rewrite <- (firstn_skipn (length y) ind); apply in_or_app; now left). apply set_nth_same. apply HB. now left.
      * eapply Hs; eassumption.
Qed.
Lemma scatter_total conv ind : forall x y, (length y <= length ind)%nat -> exists r, scatter conv x ind y = Ok r.
Proof.
  induction ind as [|j ind IH]; intros x y H; destruct y as [|v y]; cbn in *; eauto; try lia. apply IH. lia.
Qed.
Lemma scatter_err conv ind : forall x y, (length ind < length y)%nat -> scatter conv x ind y = Err IndexError.
Proof. induction ind as [|j ind IH]; intros x y H; destruct y as [|v y]; cbn in *; try lia; [reflexivity|]. apply IH. lia. Qed.

Lemma take_spec {A} (x : list A) ind y : take x ind = Ok y <-> Forall2 (fun i v => nth_error x i = Some v) ind y.
Proof.
  unfold take. rewrite mapM_F2. split; intros H; induction H; constructor; auto.
  - now apply pyindex_of_nat.
  - now apply pyindex_some.
Qed.
Lemma take_total {A} (x : list A) ind : (forall i, In i ind -> (i < length x)%nat) -> exists y, take x ind = Ok y.
Proof.
  induction ind as [|i ind IH]; intros H; [exists []; reflexivity|]. destruct IH as [y Hy]; [intros; apply H; now right|].
  destruct (nth_error x i) as [v|] eqn:E; [|apply nth_error_None in E; specialize (H i (or_introl eq_refl)); lia].
  exists (v :: y). apply take_spec. constructor; [exact E|]. now apply take_spec.
Qed.
Lemma F2_nth {A B} (P : A -> B -> Prop) l m : Forall2 P l m -> forall k a, nth_error l k = Some a -> exists b, nth_error m k = Some b /\ P a b.
Proof. induction 1; intros [|k] c Hc; cbn in *; try discriminate; [injection Hc as <-; eauto|eauto]. Qed.
Lemma F2_nth_r {A B} (P : A -> B -> Prop) l m : Forall2 P l m -> forall k b, nth_error m k = Some b -> exists a, nth_error l k = Some a /\ P a b.
Proof. induction 1; intros [|k] c Hc; cbn in *; try discriminate; [injection Hc as <-; eauto|eauto]. Qed.

(** ** the runs of the minimiser *)
Inductive obeys (P : list R -> Prop) : strat -> Prop :=
| obeys_ask y k : P y -> (forall v, obeys P (k v)) -> obeys P (Ask y k)
| obeys_stop y f j : P y -> obeys P (Stop y f j).
Lemma run_obeys P cost s : obeys P s -> (forall y, In y (fst (run cost s)) -> P y) /\ (forall y f j, snd (run cost s) = Ok (y, f, j) -> P y).
Proof.
  induction 1 as [y k Hy Hk IH|y f j Hy]; cbn [run].
  - destruct (cost y) as [v|e] eqn:E; cbn [fst snd].
    + destruct (IH v) as [I1 I2]. split; [intros z [<-|Hz]; auto|exact I2].
    + split; [intros z [<-|[]]; exact Hy|discriminate].
  - split; [intros ? []|]. intros y' f' j' E. cbn in E. apply Ok_inj in E. congruence.
Qed.
Lemma bind_ok {A B} (r : result A) (f : A -> result B) b : bind r f = Ok b -> exists a, r = Ok a /\ f a = Ok b.
Proof. destruct r; cbn; [eauto|discriminate]. Qed.
Lemma nth_combine {A B} (l : list A) : forall (m : list B) k a b, nth_error l k = Some a -> nth_error m k = Some b -> nth_error (combine l m) k = Some (a, b).
Proof. induction l as [|x l IH]; intros [|c m] [|k] a b; cbn; try discriminate; try congruence. intros. now apply IH. Qed.
Lemma feasible_spec b y : feasible b y = true -> length (fst b) = length y /\ length (snd b) = length y /\
  forall k lo v up, nth_error (fst b) k = Some lo -> nth_error y k = Some v -> nth_error (snd b) k = Some up -> ext_le lo (Val v) = true /\ ext_le (Val v) up = true.
Proof.
  unfold feasible. rewrite !andb_true_iff, !Nat.eqb_eq, !forallb_forall. intros [[[L1 L2] F1] F2]. split; [exact L1|]. split; [exact L2|].
  intros k lo v up Hl Hv Hu. split.
  - apply (F1 (lo, v)). eapply nth_error_In, nth_combine; eassumption.
  - apply (F2 (v, up)). eapply nth_error_In, nth_combine; eassumption.
Qed.
(** ** sums over the pixels *)
Lemma lsum_app a b : lsum (a ++ b) = lsum a + lsum b.
Proof. unfold lsum. induction a; cbn; [ring|]. unfold lsum in *. cbn in *. rewrite IHa. ring. Qed.
Lemma lsum_seq_map (f : nat -> R) n : lsum (map f (seq 0 n)) = rsum n f.
Proof. induction n as [|n IH]; [reflexivity|]. rewrite seq_S, map_app, lsum_app, IH. cbn. ring. Qed.
Lemma lsum_pixels a : lsum (pixels a) = img_sum a.
Proof.
  unfold pixels, img_sum. generalize (rows a) as n. induction n as [|n IH]; [reflexivity|]. rewrite seq_S, flat_map_app, lsum_app, IH. cbn [flat_map Nat.add]. rewrite app_nil_r, lsum_seq_map. reflexivity.
Qed.
Lemma map_pixels f a : map f (pixels a) = pixels (img_map f a).
Proof.
  unfold pixels. cbn [img_map rows cols px]. rewrite !flat_map_concat_map, concat_map, map_map. f_equal. apply map_ext. intros i. now rewrite map_map.
Qed.
Lemma nth_error_ext {A} (l : list A) : forall m, (forall i, nth_error l i = nth_error m i) -> l = m.
Proof.
  induction l as [|a l IH]; intros [|b m] H; [reflexivity|specialize (H 0%nat); discriminate|specialize (H 0%nat); discriminate|].
  pose proof (H 0%nat) as H0. cbn in H0. injection H0 as ->. f_equal. apply IH. intros i. exact (H (S i)).
Qed.
Lemma F2_length {A B} (P : A -> B -> Prop) l m : Forall2 P l m -> length l = length m.
Proof. induction 1; cbn; congruence. Qed.
