(** Lemmas on the parameter-file dictionary and inversion of the reading stages. *)
From Coq Require Import Reals List Arith ZArith String Bool Lra Lia.
From Flocq Require Import Core.Raux Core.Generic_fmt Core.Round_NE.
From Verif Require Import Base_Py M_Tools M_Atmo M_Sensor M_Source M_Config S_Config L_Tools2.
Import ListNotations.
Open Scope R_scope.
Open Scope string_scope.

Section Dict.
  Context {A : Type}.
  Implicit Types l : list (string * A).
  Lemma has_lookup l k : has l k = match lookup l k with Some _ => true | None => false end.
  Proof. induction l as [|[k' v] r IH]; simpl; [reflexivity|]. destruct (String.eqb k' k); simpl; auto. Qed.
  Lemma lookup_replace l k v k' :
    lookup (replace l k v) k' = if String.eqb k k' then (if has l k then Some v else None) else lookup l k'.
  Proof.
    induction l as [|[a x] r IH]; simpl; [now destruct (String.eqb k k')|].
    destruct (String.eqb_spec a k) as [->|N]; simpl.
    - destruct (String.eqb_spec k k'); reflexivity.
    - rewrite IH. destruct (String.eqb_spec k k') as [E|N2].
      + subst. destruct (String.eqb_spec a k'); [contradiction|reflexivity].
      + reflexivity.
  Qed.
  Lemma lookup_assign l k v k' : lookup (assign l k v) k' = if String.eqb k k' then Some v else lookup l k'.
  Proof.
    unfold assign; destruct (has l k) eqn:E.
    - rewrite lookup_replace, E. reflexivity.
    - simpl. reflexivity.
  Qed.
  Lemma has_assign l k v k' : has (assign l k v) k' = (String.eqb k k' || has l k')%bool.
  Proof. rewrite !has_lookup, lookup_assign. destruct (String.eqb k k'); reflexivity. Qed.
  Lemma lookup_rm l k k' : lookup (rm k l) k' = if String.eqb k k' then None else lookup l k'.
  Proof.
    induction l as [|[a x] r IH]; simpl; [now destruct (String.eqb k k')|].
    destruct (String.eqb_spec a k) as [->|N]; simpl; rewrite ?IH.
    - destruct (String.eqb k k'); reflexivity.
    - destruct (String.eqb_spec a k') as [->|N2]; [|reflexivity].
      destruct (String.eqb_spec k k'); [congruence|reflexivity].
  Qed.
  Lemma replace_same l k v : lookup l k = Some v -> replace l k v = l.
  Proof.
    induction l as [|[a x] r IH]; simpl; [reflexivity|].
    destruct (String.eqb_spec a k) as [->|N]; [congruence|]. intros H. now rewrite IH.
  Qed.
  Lemma assign_same l k v : lookup l k = Some v -> assign l k v = l.
  Proof. intros H. unfold assign. rewrite has_lookup, H. now apply replace_same. Qed.
End Dict.

Lemma lookup_without c s k s' :
  lookup (without_key c s k) s' = match lookup c s' with Some t => Some (if String.eqb s s' then rm k t else t) | None => None end.
Proof.
  induction c as [|[a t] r IH]; simpl; [reflexivity|].
  destruct (String.eqb_spec a s) as [->|N]; simpl.
  - destruct (String.eqb s s') eqn:E; [reflexivity|]. rewrite IH. reflexivity.
  - rewrite IH. destruct (String.eqb_spec a s') as [->|N2]; [|reflexivity].
    destruct (String.eqb_spec s s'); [congruence|reflexivity].
Qed.
Lemma lookup_with c s k v s' :
  lookup (with_key c s k v) s' = match lookup c s' with Some t => Some (if String.eqb s s' then assign t k v else t) | None => None end.
Proof.
  induction c as [|[a t] r IH]; simpl; [reflexivity|].
  destruct (String.eqb_spec a s) as [->|N]; simpl.
  - destruct (String.eqb s s') eqn:E; [reflexivity|]. rewrite IH. reflexivity.
  - rewrite IH. destruct (String.eqb_spec a s') as [->|N2]; [|reflexivity].
    destruct (String.eqb_spec s s'); [congruence|reflexivity].
Qed.
Lemma sec_without c s k s' : sec (without_key c s k) s' = if String.eqb s s' then rm k (sec c s') else sec c s'.
Proof. unfold sec. rewrite lookup_without. destruct (lookup c s'); [reflexivity|]. now destruct (String.eqb s s'). Qed.
Lemma has_without c s k s' : has_sec (without_key c s k) s' = has_sec c s'.
Proof. unfold has_sec. rewrite !has_lookup, lookup_without. now destruct (lookup c s'). Qed.
Lemma sec_with c s k v s' : has_sec c s = true -> sec (with_key c s k v) s' = if String.eqb s s' then assign (sec c s') k v else sec c s'.
Proof.
  unfold sec, has_sec. rewrite has_lookup, lookup_with. intros H.
  destruct (String.eqb_spec s s') as [<-|N]; [destruct (lookup c s); [reflexivity|discriminate]|]. now destruct (lookup c s').
Qed.
Lemma has_with c s k v s' : has_sec (with_key c s k v) s' = has_sec c s'.
Proof. unfold has_sec. rewrite !has_lookup, lookup_with. now destruct (lookup c s'). Qed.
Lemma sec_assign c s t s' : sec (assign c s t) s' = if String.eqb s s' then t else sec c s'.
Proof. unfold sec. rewrite lookup_assign. now destruct (String.eqb s s'). Qed.
Lemma has_sec_assign c s t s' : has_sec (assign c s t) s' = (String.eqb s s' || has_sec c s')%bool.
Proof. apply has_assign. Qed.
Lemma sec_without_section c s s' : sec (without_section c s) s' = if String.eqb s s' then [] else sec c s'.
Proof. unfold sec, without_section. rewrite lookup_rm. now destruct (String.eqb s s'). Qed.
Lemma has_without_section c s s' : has_sec (without_section c s) s' = (negb (String.eqb s s') && has_sec c s')%bool.
Proof. unfold has_sec, without_section. rewrite !has_lookup, lookup_rm. now destruct (String.eqb s s'). Qed.

(** the specification's [entry] in terms of the reading functions *)
Lemma entry_sec c s k v : entry c s k v <-> lookup (sec c s) k = Some v.
Proof.
  unfold entry, sec. split.
  - intros (t & H1 & H2). now rewrite H1.
  - destruct (lookup c s) as [t|]; [eauto|discriminate].
Qed.
Lemma absent_sec c s k : absent c s k <-> lookup (sec c s) k = None.
Proof.
  unfold absent. split.
  - intros H. destruct (lookup (sec c s) k) eqn:E; [|reflexivity]. exfalso. apply (H p). now apply entry_sec.
  - intros H v Hv. apply entry_sec in Hv. congruence.
Qed.
Lemma section_has c s : section_present c s <-> has_sec c s = true.
Proof. unfold section_present, has_sec. rewrite has_lookup. destruct (lookup c s); split; eauto; try discriminate. intros (? & ?); discriminate. Qed.
Lemma value_opt c s k d v : value c s k d v <-> v = opt (sec c s) k d.
Proof.
  unfold value, opt. rewrite entry_sec, absent_sec. destruct (lookup (sec c s) k); split; intuition congruence.
Qed.
Lemma req_ok s k v : req s k = Ok v <-> lookup s k = Some v.
Proof. unfold req. destruct (lookup s k); split; congruence. Qed.
Lemma get_raw_ok s k v : get_raw s k = Ok v <-> lookup s k = Some v.
Proof. unfold get_raw. destruct (lookup s k); split; congruence. Qed.
Lemma req_sec_ok c s t : req_sec c s = Ok t <-> has_sec c s = true /\ t = sec c s.
Proof. unfold req_sec. destruct (has_sec c s); split; intuition congruence. Qed.

(** numbers *)
Lemma as_num_ok v r : as_num v = Ok r <-> number v r.
Proof.
  split.
  - destruct v; simpl; intros H; try discriminate; apply Ok_inj in H; subst; try constructor. destruct b; constructor.
  - intros H; inversion H; reflexivity.
Qed.
Lemma mapM_F2 {A B} (f : A -> result B) l m : mapM f l = Ok m <-> Forall2 (fun a b => f a = Ok b) l m.
Proof.
  revert m; induction l as [|a r IH]; intros m; simpl.
  - split; [intros H; apply Ok_inj in H; subst; constructor|intros H; inversion H; reflexivity].
  - destruct (f a) as [b|e] eqn:E; simpl.
    + destruct (mapM f r) as [q|e] eqn:E2; simpl.
      * split.
        -- intros H; apply Ok_inj in H; subst. constructor; [assumption|]. now apply IH.
        -- intros H; inversion H; subst. apply IH in H4. congruence.
      * split; [discriminate|]. intros H; inversion H; subst. apply IH in H4. discriminate.
    + split; [discriminate|]. intros H; inversion H; subst. congruence.
Qed.
Lemma F2_impl {A B} (P Q : A -> B -> Prop) l m : (forall a b, P a b -> Q a b) -> Forall2 P l m -> Forall2 Q l m.
Proof. intros H; induction 1; constructor; auto. Qed.
Lemma F2_len {A B} (P : A -> B -> Prop) l m : Forall2 P l m -> length l = length m.
Proof. induction 1; simpl; congruence. Qed.
Lemma as_nums_ok v l : as_nums v = Ok l <-> numbers v l.
Proof.
  unfold as_nums, numbers. split.
  - destruct v; simpl; try discriminate. intros H. apply mapM_F2 in H. exists l0. split; [reflexivity|].
    eapply F2_impl; [|exact H]. intros a b; apply as_num_ok.
  - intros (m & -> & H). simpl. apply mapM_F2. eapply F2_impl; [|exact H]. intros a b; apply as_num_ok.
Qed.
Lemma as_nums_len v l : as_nums v = Ok l -> exists m, v = PList m /\ length m = length l.
Proof. intros H. apply as_nums_ok in H. destruct H as (m & -> & H). exists m. split; [reflexivity|]. now apply F2_len in H. Qed.
Lemma as_sol_lst v l : as_sol v = Ok (Lst l) <-> as_nums v = Ok l.
Proof.
  destruct v; simpl; split; try discriminate; unfold as_nums; simpl;
    try (destruct (mapM as_num l0); simpl; congruence); intros H; discriminate.
Qed.
Lemma as_ints_len v l : as_ints v = Ok l -> exists m, v = PList m /\ length m = length l.
Proof.
  unfold as_ints. destruct v; simpl; try discriminate. intros H. apply mapM_F2 in H. apply F2_len in H. eauto.
Qed.
Lemma len_val_ok v n : len_val v = Ok n <-> exists m, v = PList m /\ length m = n.
Proof.
  unfold len_val. destruct v; simpl; split; try discriminate; try (intros (? & ? & ?); discriminate).
  - intros H; apply Ok_inj in H. eauto.
  - intros (m & H1 & H2). injection H1 as <-. now subst.
Qed.
Lemma disp_len_ok v n : disp_len v = Ok n <-> exists d r, v = PList (PList d :: r) /\ length d = n.
Proof.
  unfold disp_len. destruct v; simpl; split; try discriminate; try (intros (? & ? & ? & ?); discriminate).
  - destruct l as [|x r]; [discriminate|]. intros H; apply len_val_ok in H. destruct H as (m & -> & H). eauto.
  - intros (d & r & H1 & H2). injection H1 as ->. apply len_val_ok. eauto.
Qed.

(** readings of a section with one entry removed or set *)
Lemma opt_rm s k k' d : opt (rm k s) k' d = if String.eqb k k' then d else opt s k' d.
Proof. unfold opt. rewrite lookup_rm. now destruct (String.eqb k k'). Qed.
Lemma req_rm s k k' : req (rm k s) k' = if String.eqb k k' then Err ValueError else req s k'.
Proof. unfold req. rewrite lookup_rm. now destruct (String.eqb k k'). Qed.
Lemma opt_assign s k v k' d : opt (assign s k v) k' d = if String.eqb k k' then v else opt s k' d.
Proof. unfold opt. rewrite lookup_assign. now destruct (String.eqb k k'). Qed.
Lemma req_assign s k v k' : req (assign s k v) k' = if String.eqb k k' then Ok v else req s k'.
Proof. unfold req. rewrite lookup_assign. now destruct (String.eqb k k'). Qed.
Lemma get_raw_assign s k v k' : get_raw (assign s k v) k' = if String.eqb k k' then Ok v else get_raw s k'.
Proof. unfold get_raw. rewrite lookup_assign. now destruct (String.eqb k k'). Qed.
Lemma path_key_assign e s k v k' d : String.eqb k k' = false -> path_key e (assign s k v) k' d = path_key e s k' d.
Proof. intros H. unfold path_key. now rewrite lookup_assign, H. Qed.
Lemma path_key_rm e s k k' d : String.eqb k k' = false -> path_key e (rm k s) k' d = path_key e s k' d.
Proof. intros H. unfold path_key. now rewrite lookup_rm, H. Qed.
