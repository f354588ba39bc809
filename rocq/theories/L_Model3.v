(** Lemmas on grids of the assembled PSD. *)
From Coq Require Import Reals List Arith ZArith Bool String Lia Lra.
From Verif Require Import Base_Py Base_Sum M_Tools L_Tools L_Tools2 M_Freq L_Freq P_Freq M_Atmo L_Atmo M_Sensor M_Model L_Model L_Model2 P_Model P_Model2 M_Model2.
Import ListNotations.
Open Scope R_scope.

Lemma gsum_ext n f g : (forall i j, (i < n)%nat -> (j < n)%nat -> f i j = g i j) -> gsum n f = gsum n g.
Proof. intros H. apply rsum_ext. intros i Hi. apply rsum_ext. intros j Hj. apply H; assumption. Qed.
Lemma gsum_plus n f g : gsum n (fun i j => f i j + g i j) = gsum n f + gsum n g.
Proof. unfold gsum. rewrite <- rsum_plus. apply rsum_ext. intros i _. apply rsum_plus. Qed.
Lemma gsum_scal n c f : gsum n (fun i j => c * f i j) = c * gsum n f.
Proof. unfold gsum. rewrite <- rsum_scal. apply rsum_ext. intros i _. apply rsum_scal. Qed.
Lemma gsum_scal_r n c f : gsum n (fun i j => f i j * c) = gsum n f * c.
Proof. unfold gsum. rewrite <- rsum_scal_r. apply rsum_ext. intros i _. apply rsum_scal_r. Qed.
Lemma gsum_zero n : gsum n (fun _ _ => 0) = 0.
Proof. apply rsum_zero. intros. apply rsum_zero. reflexivity. Qed.
Lemma gsum_nonneg n f : (forall i j, (i < n)%nat -> (j < n)%nat -> 0 <= f i j) -> 0 <= gsum n f.
Proof. intros H. apply rsum_nonneg. intros i Hi. apply rsum_nonneg. intros j Hj. apply H; assumption. Qed.

(** the offset of the corrected area *)
Definition area_off (n r : nat) : nat := ((n - r + 1) / 2)%nat.
Lemma area_off_val n r : (r <= n)%nat -> id1 (Z.of_nat n) (Z.of_nat r) = Z.of_nat (area_off n r).
Proof. intros H. rewrite id1_val. unfold area_off. rewrite Nat2Z.inj_div. f_equal. lia. Qed.
Lemma area_off_bound n r : (r <= n)%nat -> (area_off n r + r <= n \/ (r = 0 /\ area_off n r <= n))%nat.
Proof.
  intros H. unfold area_off. destruct (Nat.eq_dec r 0) as [->|]; [right; split; [reflexivity|]; destruct n; [cbn; lia|apply Nat.div_le_upper_bound; lia]|].
  left. assert ((n - r + 1) / 2 <= n - r)%nat; [|lia]. destruct (Nat.eq_dec n r) as [->|]; [rewrite Nat.sub_diag; cbn; lia|]. apply Nat.div_le_upper_bound; lia.
Qed.
Section Area.
Variables (c : psdcfg) (n r : nat).
Hypotheses (Hn : k_n c = Z.of_nat n) (Hr : k_r c = Z.of_nat r) (Hr1 : (1 <= r)%nat) (Hrn : (r <= n)%nat).
Lemma embed_ok_true : embed_ok (k_n c) (k_r c) = true.
Proof. rewrite Hn, Hr. unfold embed_ok. apply Bool.orb_true_iff. left. apply Z.eqb_eq. apply C24_embedding_size; lia. Qed.
Lemma inArea_spec a : inArea c a = true <-> (area_off n r <= a < area_off n r + r)%nat.
Proof.
  unfold inArea. rewrite Hn, Hr, id2_val, area_off_val by exact Hrn. rewrite andb_true_iff, Z.leb_le, Z.ltb_lt. lia.
Qed.
Lemma embed_in A i j : (i < r)%nat -> (j < r)%nat -> embed c A (area_off n r + i) (area_off n r + j) = A i j.
Proof.
  intros Hi Hj. unfold embed. rewrite (proj2 (inArea_spec (area_off n r + i))), (proj2 (inArea_spec (area_off n r + j))) by lia. cbn [andb].
  rewrite Hn, Hr, area_off_val by exact Hrn. rewrite Nat2Z.id. f_equal; lia.
Qed.
Lemma embed_out A a b : ~ (area_off n r <= a < area_off n r + r /\ area_off n r <= b < area_off n r + r)%nat -> embed c A a b = 0.
Proof.
  intros H. unfold embed. destruct (inArea c a) eqn:Ea; [|reflexivity]. destruct (inArea c b) eqn:Eb; [|reflexivity].
  apply inArea_spec in Ea. apply inArea_spec in Eb. tauto.
Qed.
Lemma gsum_embed A : gsum n (embed c A) = gsum r A.
Proof.
  destruct (area_off_bound n r Hrn) as [HB|[HB _]]; [|lia]. unfold gsum.
  rewrite (rsum_window n (area_off n r) r) by (try lia; intros i _ Hi; apply rsum_zero; intros j _; apply embed_out; lia).
  apply rsum_ext. intros i Hi. rewrite (rsum_window n (area_off n r) r) by (try lia; intros j _ Hj; apply embed_out; lia).
  apply rsum_ext. intros j Hj. apply embed_in; assumption.
Qed.
Lemma embed_nonneg A a b : (forall i j, (i < r)%nat -> (j < r)%nat -> 0 <= A i j) -> 0 <= embed c A a b.
Proof.
  intros H. unfold embed. destruct (inArea c a) eqn:Ea; cbn [andb]; [|lra]. destruct (inArea c b) eqn:Eb; [|lra].
  apply inArea_spec in Ea. apply inArea_spec in Eb. rewrite Hn, Hr, area_off_val by exact Hrn. rewrite Nat2Z.id. apply H; lia.
Qed.
End Area.

(** grids as lists of lists *)
Lemma lsum_seq (f : nat -> R) m : lsum (map f (seq 0 m)) = rsum m f.
Proof.
  assert (G : forall s, lsum (map f (seq s m)) = rsum m (fun i => f (s + i)%nat)).
  { induction m as [|m IH]; intros s; [reflexivity|]. cbn [seq map]. rewrite rsum_S_l, Nat.add_0_r. change (lsum (f s :: map f (seq (S s) m))) with (f s + lsum (map f (seq (S s) m))).
    rewrite IH. f_equal. apply rsum_ext. intros i _. f_equal. lia. }
  rewrite G. apply rsum_ext. reflexivity.
Qed.
Lemma mapM_inv {A B} (f : A -> result B) l l' : mapM f l = Ok l' -> Forall2 (fun a b => f a = Ok b) l l'.
Proof.
  revert l'. induction l as [|a l IH]; intros l' H; cbn in H; [apply Ok_inj in H; subst; constructor|].
  apply bindOk in H. destruct H as (b & Hb & H). apply bindOk in H. destruct H as (bs & Hbs & H). apply Ok_inj in H. subst. constructor; [exact Hb|]. apply IH. exact Hbs.
Qed.
Lemma Forall2_len {A B} (P : A -> B -> Prop) l l' : Forall2 P l l' -> length l = length l'.
Proof. induction 1; cbn; congruence. Qed.
Lemma Forall2_nth' {A B} (P : A -> B -> Prop) l l' (da : A) (db : B) : Forall2 P l l' -> forall i, (i < length l)%nat -> P (nth i l da) (nth i l' db).
Proof. induction 1; intros i Hi; [cbn in Hi; lia|]. destruct i; [exact H|]. apply IHForall2. cbn in Hi. lia. Qed.
Lemma grid_res_spec n f g : grid_res n f = Ok g -> (length g = n) /\ (forall i, (i < n)%nat -> length (nth i g []) = n) /\
  forall i j, (i < n)%nat -> (j < n)%nat -> f i j = Ok (grid_at g i j).
Proof.
  intros H. apply mapM_inv in H. assert (L := Forall2_len _ _ _ H). rewrite seq_length in L. split; [congruence|].
  assert (R : forall i, (i < n)%nat -> Forall2 (fun a b => f i a = Ok b) (seq 0 n) (nth i g [])).
  { intros i Hi. assert (Q := Forall2_nth' _ _ _ 0%nat ([] : list R) H i ltac:(rewrite seq_length; exact Hi)). rewrite seq_nth in Q by exact Hi. apply mapM_inv. exact Q. }
  split.
  - intros i Hi. rewrite <- (Forall2_len _ _ _ (R i Hi)). apply seq_length.
  - intros i j Hi Hj. assert (Q := Forall2_nth' _ _ _ 0%nat 0 (R i Hi) j ltac:(rewrite seq_length; exact Hj)). cbv beta in Q. rewrite seq_nth in Q by exact Hj. exact Q.
Qed.
Lemma mapM_total {A B} (f : A -> result B) l : (forall a, In a l -> exists b, f a = Ok b) -> exists l', mapM f l = Ok l'.
Proof.
  induction l as [|a l IH]; intros H; [eexists; reflexivity|]. cbn. destruct (H a (or_introl eq_refl)) as (b & ->). destruct IH as (bs & ->); [intros x Hx; apply H; right; exact Hx|]. eexists; reflexivity.
Qed.
Lemma grid_res_total n f : (forall i j, (i < n)%nat -> (j < n)%nat -> exists v, f i j = Ok v) -> exists g, grid_res n f = Ok g.
Proof. intros H. apply mapM_total. intros i Hi. apply mapM_total. intros j Hj. apply in_seq in Hi. apply in_seq in Hj. apply H; lia. Qed.
Lemma lsum_nth l : lsum l = rsum (length l) (fun i => nth i l 0).
Proof. induction l as [|a l IH]; [reflexivity|]. cbn [length]. rewrite rsum_S_l. cbn [nth]. rewrite <- IH. reflexivity. Qed.
Lemma lsum2_gsum n g : length g = n -> (forall i, (i < n)%nat -> length (nth i g []) = n) -> lsum2 g = gsum n (grid_at g).
Proof.
  intros L H. unfold lsum2. rewrite lsum_nth, map_length, L. unfold gsum. apply rsum_ext. intros i Hi.
  rewrite (nth_indep _ 0 (lsum [])) by (rewrite map_length, L; exact Hi). rewrite map_nth, lsum_nth, H by exact Hi. reflexivity.
Qed.
Lemma grid_at_map n g f i j : length g = n -> (forall i, (i < n)%nat -> length (nth i g []) = n) -> (i < n)%nat -> (j < n)%nat ->
  grid_at (map (map f) g) i j = f (grid_at g i j).
Proof.
  intros L H Hi Hj. unfold grid_at. rewrite (nth_indep (map (map f) g) [] (map f [])) by (rewrite map_length, L; exact Hi). rewrite map_nth.
  rewrite (nth_indep (map f _) 0 (f 0)) by (rewrite map_length, H by exact Hi; exact Hj). apply map_nth.
Qed.
(** interpolation stays in the range of the values *)
Lemma interp_from_range lo hi x x0 y0 l : x0 <= x -> lo <= y0 <= hi -> (forall p, In p l -> lo <= snd p <= hi) -> lo <= interp_from x x0 y0 l <= hi.
Proof.
  revert x0 y0. induction l as [|(x1, y1) l IH]; intros x0 y0 Hx H0 Hl; cbn [interp_from]; [exact H0|].
  destruct (Rlt_dec x x1) as [P|P].
  - assert (H1 := Hl (x1, y1) (or_introl eq_refl)). cbn in H1. assert (D : 0 < x1 - x0) by lra.
    set (t := (x - x0) / (x1 - x0)). assert (T : 0 <= t <= 1).
    { unfold t. split; [apply Rmult_le_pos; [lra|left; apply Rinv_0_lt_compat; exact D]|]. apply (Rmult_le_reg_r (x1 - x0)); [exact D|]. unfold Rdiv. rewrite Rmult_assoc, Rinv_l by lra. lra. }
    replace ((x - x0) * ((y1 - y0) / (x1 - x0))) with (t * (y1 - y0)) by (unfold t; field; lra). clearbody t. nra.
  - apply IH; [lra|apply (Hl (x1, y1)); left; reflexivity|]. intros p Hp. apply Hl. right. exact Hp.
Qed.
