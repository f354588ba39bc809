(** Lemmas on the radial-profile model. *)
From Coq Require Import Reals List Arith ZArith Lia Lra Bool Permutation Sorting.Sorted.
From Flocq Require Import Core.
From Verif Require Import Base_Py Base_Sum M_Image M_Tools S_Metric M_Metric.
Import ListNotations.
Open Scope R_scope.

Lemma lsum_perm l l' : Permutation l l' -> lsum l = lsum l'.
Proof. induction 1; unfold lsum in *; simpl in *; lra. Qed.
Lemma lsum_app2 a b : lsum (a ++ b) = lsum a + lsum b.
Proof. induction a; unfold lsum in *; simpl in *; lra. Qed.
Lemma lsum_filter {A} (P : A -> bool) (g : A -> R) l :
  lsum (map g (filter P l)) = lsum (map (fun x => if P x then g x else 0) l).
Proof. induction l as [|x l IH]; [reflexivity|]. simpl. destruct (P x); unfold lsum in *; simpl in *; lra. Qed.
Lemma lsum_flat2 {A} (F : A -> R) r c (f : nat -> nat -> A) :
  lsum (map F (flat2 r c f)) = rsum r (fun i => rsum c (fun j => F (f i j))).
Proof.
  unfold flat2. assert (G : forall n s, lsum (map F (flat_map (fun i => map (fun j => f i j) (seq 0 c)) (seq s n)))
    = rsum n (fun i => rsum c (fun j => F (f (s + i)%nat j)))).
  { induction n as [|n IH]; intros s; [reflexivity|]. rewrite seq_S, flat_map_app, map_app, lsum_app2, IH.
    simpl. f_equal. rewrite app_nil_r, map_map.
    assert (H : forall g m, lsum (map g (seq 0 m)) = rsum m g).
    { intros g m. induction m; [reflexivity|]. rewrite seq_S, map_app, lsum_app2, IHm. simpl. unfold lsum; simpl. lra. }
    apply H. }
  apply (G r 0%nat).
Qed.
Lemma flat2_In {A} r c (f : nat -> nat -> A) x :
  In x (flat2 r c f) <-> exists i j, (i < r)%nat /\ (j < c)%nat /\ x = f i j.
Proof.
  unfold flat2. rewrite in_flat_map. split.
  - intros [i [Hi Hx]]. apply in_map_iff in Hx. destruct Hx as [j [Hj Hj']]. apply in_seq in Hi, Hj'. exists i, j. repeat split; auto; lia.
  - intros (i & j & Hi & Hj & ->). exists i. split; [apply in_seq; lia|]. apply in_map_iff. exists j. split; [reflexivity|apply in_seq; lia].
Qed.

Lemma bin_mono a b : a <= b -> (rp_bin a <= rp_bin b)%Z.
Proof. intros H. unfold rp_bin. apply (Zrnd_le ZnearestE). exact H. Qed.

Section Core.
  Variable q : list (Z * R).
  Hypothesis Hs : StronglySorted (fun a b => (fst a <= fst b)%Z) q.
  Let ri := map fst q.

  Lemma ss_nth {A} (Rel : A -> A -> Prop) l d : StronglySorted Rel l ->
    forall i j, (i < j)%nat -> (j < length l)%nat -> Rel (nth i l d) (nth j l d).
  Proof.
    induction 1 as [|x l Hl IH Hx]; intros i j Hij Hj; [simpl in Hj; lia|].
    destruct j as [|j]; [lia|]. simpl in Hj. destruct i as [|i].
    - simpl. rewrite Forall_forall in Hx. apply Hx. apply nth_In. lia.
    - simpl. apply IH; lia.
  Qed.

  Lemma ri_len : length ri = length q. Proof. apply map_length. Qed.
  Lemma ri_nth k : nth k ri 0%Z = fst (nth k q (0%Z, 0)).
  Proof. exact (map_nth fst q (0%Z, 0) k). Qed.
  Lemma ri_mono i j : (i <= j)%nat -> (j < length q)%nat -> (nth i ri 0 <= nth j ri 0)%Z.
  Proof.
    intros Hij Hj. destruct (Nat.eq_dec i j) as [ ->|Hne]; [lia|].
    rewrite !ri_nth. apply (ss_nth _ _ _ Hs); lia.
  Qed.

  Lemma rind_spec k : In k (rp_rind ri) <-> (S k < length q)%nat /\ (nth k ri 0 < nth (S k) ri 0)%Z.
  Proof.
    unfold rp_rind. rewrite filter_In, in_seq, ri_len. split.
    - intros [H1 H2]. apply negb_true_iff, Z.eqb_neq in H2. assert (S k < length q)%nat by lia. split; [assumption|].
      pose proof (ri_mono k (S k) ltac:(lia) ltac:(lia)). lia.
    - intros [H1 H2]. split; [lia|]. apply negb_true_iff, Z.eqb_neq. lia.
  Qed.

  Lemma filter_seq_sorted P n : forall s, StronglySorted lt (filter P (seq s n)).
  Proof.
    induction n as [|n IH]; intros s; simpl; [constructor|].
    destruct (P s).
    - constructor; [apply IH|]. apply Forall_forall. intros x Hx. apply filter_In in Hx. destruct Hx as [Hx _]. apply in_seq in Hx. lia.
    - apply IH.
  Qed.
  Lemma rind_sorted : StronglySorted lt (rp_rind ri).
  Proof. apply filter_seq_sorted. Qed.

  Definition upto (z : Z) : list (Z * R) := filter (fun p => (fst p <=? z)%Z) q.

  Lemma firstn_upto k : In k (rp_rind ri) -> firstn (S k) q = upto (nth k ri 0%Z).
  Proof.
    intros Hk. apply rind_spec in Hk. destruct Hk as [Hk1 Hk2]. unfold upto.
    rewrite <- (firstn_skipn (S k) q) at 2. rewrite filter_app.
    assert (E1 : filter (fun p => (fst p <=? nth k ri 0)%Z) (firstn (S k) q) = firstn (S k) q).
    { assert (G : forall l : list (Z * R), (forall x, In x l -> (fst x <=? nth k ri 0)%Z = true) -> filter (fun p => (fst p <=? nth k ri 0)%Z) l = l).
      { induction l as [|x l IH]; intros Hx; [reflexivity|]. simpl. rewrite (Hx x) by (left; reflexivity). f_equal. apply IH. intros y Hy. apply Hx. right; assumption. }
      apply G. intros x Hx. apply (In_nth _ _ (0%Z, 0)) in Hx. destruct Hx as [i [Hi Hx]]. rewrite firstn_length in Hi.
      assert (E : nth i (firstn (S k) q) (0%Z, 0) = nth i q (0%Z, 0)).
      { rewrite <- (firstn_skipn (S k) q) at 2. rewrite app_nth1 by (rewrite firstn_length; lia). reflexivity. }
      rewrite E in Hx. rewrite <- Hx. rewrite <- ri_nth. apply Z.leb_le. apply ri_mono; lia. }
    assert (E2 : filter (fun p => (fst p <=? nth k ri 0)%Z) (skipn (S k) q) = []).
    { assert (G : forall l : list (Z * R), (forall x, In x l -> (fst x <=? nth k ri 0)%Z = false) -> filter (fun p => (fst p <=? nth k ri 0)%Z) l = []).
      { induction l as [|x l IH]; intros Hx; [reflexivity|]. simpl. rewrite (Hx x) by (left; reflexivity). apply IH. intros y Hy. apply Hx. right; assumption. }
      apply G. intros x Hx. apply (In_nth _ _ (0%Z, 0)) in Hx. destruct Hx as [i [Hi Hx]]. rewrite skipn_length in Hi.
      assert (E : nth i (skipn (S k) q) (0%Z, 0) = nth (S k + i) q (0%Z, 0)).
      { rewrite <- (firstn_skipn (S k) q) at 2. rewrite app_nth2 by (rewrite firstn_length; lia). rewrite firstn_length. f_equal. lia. }
      rewrite E in Hx. rewrite <- Hx. rewrite <- ri_nth. apply Z.leb_gt.
      pose proof (ri_mono (S k) (S k + i) ltac:(lia) ltac:(lia)). lia. }
    rewrite E1, E2, app_nil_r. reflexivity.
  Qed.

  Definition encl (g : Z * R -> R) (z : Z) : R := lsum (map g (upto z)).
  Definition ring (g : Z * R -> R) (z : Z) : R := lsum (map g (filter (fun p => (fst p =? z)%Z) q)).

  Lemma csim_encl k : In k (rp_rind ri) -> rp_csim (map snd q) k = encl snd (nth k ri 0%Z).
  Proof. intros Hk. unfold rp_csim, encl. rewrite firstn_map, (firstn_upto k Hk). reflexivity. Qed.
  Lemma lsum_one {A} (l : list A) : lsum (map (fun _ => 1) l) = INR (length l).
  Proof. induction l; [reflexivity|]. cbn [map length]. rewrite S_INR, <- IHl. unfold lsum; simpl. lra. Qed.
  Lemma idx_encl k : In k (rp_rind ri) -> INR (S k) = encl (fun _ => 1) (nth k ri 0%Z).
  Proof.
    intros Hk. unfold encl. rewrite lsum_one, <- (firstn_upto k Hk), firstn_length.
    apply rind_spec in Hk. f_equal. lia.
  Qed.

  Definition zs := map (fun k => nth k ri 0%Z) (rp_rind ri).

  Lemma zs_sorted : StronglySorted Z.lt zs.
  Proof.
    unfold zs.
    assert (K : forall l, StronglySorted lt l -> (forall k, In k l -> In k (rp_rind ri)) -> StronglySorted Z.lt (map (fun k => nth k ri 0%Z) l)).
    { induction 1 as [|x l' Hl IH Hx]; intros G; simpl; constructor.
      - apply IH. intros k Hk. apply G. right; assumption.
      - apply Forall_forall. intros z Hz. apply in_map_iff in Hz. destruct Hz as [k [<- Hk]].
        rewrite Forall_forall in Hx. specialize (Hx k Hk).
        pose proof (proj1 (rind_spec x) (G x (or_introl eq_refl))) as [A1 A2].
        pose proof (proj1 (rind_spec k) (G k (or_intror Hk))) as [B1 B2].
        pose proof (ri_mono (S x) k ltac:(lia) ltac:(lia)). lia. }
    apply K; [apply rind_sorted|auto].
  Qed.

  Lemma zs_In z : In z zs <-> In z ri /\ exists z', (z < z')%Z /\ In z' ri.
  Proof.
    unfold zs. rewrite in_map_iff. split.
    - intros [k [<- Hk]]. apply rind_spec in Hk. destruct Hk as [H1 H2]. split.
      + apply nth_In. rewrite ri_len; lia.
      + exists (nth (S k) ri 0%Z). split; [assumption|]. apply nth_In. rewrite ri_len; lia.
    - intros [Hz [z' [Hlt Hz']]].
      apply (In_nth _ _ 0%Z) in Hz. destruct Hz as [i [Hi Ei]].
      apply (In_nth _ _ 0%Z) in Hz'. destruct Hz' as [j [Hj Ej]]. rewrite ri_len in Hi, Hj.
      assert (Hij : (i < j)%nat).
      { destruct (le_lt_dec j i) as [Hle|]; [|assumption]. pose proof (ri_mono j i Hle Hi). lia. }
      assert (G : forall d, (forall e, (e <= d)%nat -> nth (i + e) ri 0%Z = z) \/ exists k, (k < i + d)%nat /\ (i <= k)%nat /\ nth k ri 0%Z = z /\ nth (S k) ri 0%Z <> z).
      { induction d as [|d [IH|(k & A & B & C & D)]].
        - left. intros e He. replace (i + e)%nat with i by lia. assumption.
        - destruct (Z.eq_dec (nth (i + S d) ri 0%Z) z) as [E|E].
          + left. intros e He. destruct (Nat.eq_dec e (S d)) as [ ->|]; [assumption|]. apply IH; lia.
          + right. exists (i + d)%nat. repeat split; try lia. { apply IH; lia. } replace (S (i + d)) with (i + S d)%nat by lia. assumption.
        - right. exists k. repeat split; try lia; assumption. }
      destruct (G (j - i)%nat) as [H|(k & A & B & C & D)].
      + specialize (H (j - i)%nat (le_n _)). replace (i + (j - i))%nat with j in H by lia. lia.
      + exists k. split; [assumption|]. apply rind_spec. assert (S k < length q)%nat by lia. split; [assumption|].
        pose proof (ri_mono k (S k) ltac:(lia) ltac:(lia)). lia.
  Qed.

  Lemma encl_split g za zb : (za < zb)%Z -> (forall z, In z ri -> (za < z)%Z -> (z < zb)%Z -> False) ->
    encl g zb - encl g za = ring g zb.
  Proof.
    intros Hab Hno. unfold encl, ring, upto. rewrite !lsum_filter.
    assert (G : forall l, (forall p, In p l -> In (fst p) ri) ->
      lsum (map (fun x : Z * R => if (fst x <=? zb)%Z then g x else 0) l) - lsum (map (fun x => if (fst x <=? za)%Z then g x else 0) l)
      = lsum (map (fun x => if (fst x =? zb)%Z then g x else 0) l)).
    { induction l as [|p l IH]; intros Hl; [unfold lsum; simpl; lra|].
      assert (Hp : In (fst p) ri) by (apply Hl; left; reflexivity).
      specialize (IH (fun x Hx => Hl x (or_intror Hx))). unfold lsum in *; simpl in *.
      destruct (Z.leb_spec (fst p) zb), (Z.leb_spec (fst p) za), (Z.eqb_spec (fst p) zb); try lra; try lia.
      exfalso. apply (Hno (fst p) Hp); lia. }
    apply G. intros p Hp. apply in_map_iff. exists p. auto.
  Qed.

  Lemma steps_means : forall pre l, rp_rind ri = pre ++ l ->
    rp_steps (map snd q) l = map (fun k => ring snd (nth k ri 0%Z) / ring (fun _ => 1) (nth k ri 0%Z)) (tl l).
  Proof.
    intros pre l; revert pre. induction l as [|a l IH]; intros pre E; [reflexivity|].
    destruct l as [|b t]; [reflexivity|].
    assert (Ha : In a (rp_rind ri)) by (rewrite E; apply in_or_app; right; left; reflexivity).
    assert (Hb : In b (rp_rind ri)) by (rewrite E; apply in_or_app; right; right; left; reflexivity).
    pose proof rind_sorted as Hss. rewrite E in Hss.
    assert (Hab : (a < b)%nat).
    { clear -Hss. induction pre as [|x pre IHp]; simpl in Hss; inversion Hss; subst; [|auto].
      match goal with H : Forall _ (b :: t) |- _ => inversion H; assumption end. }
    assert (Hno : forall k, In k (rp_rind ri) -> (a < k)%nat -> (k < b)%nat -> False).
    { intros k Hk H1 H2. rewrite E in Hk. clear -Hss Hk H1 H2. induction pre as [|x pre IHp]; simpl in *.
      - destruct Hk as [Hk|[Hk|Hk]]; [lia|lia|]. apply StronglySorted_inv in Hss. destruct Hss as [Hss _].
        apply StronglySorted_inv in Hss. destruct Hss as [_ Hf]. rewrite Forall_forall in Hf. specialize (Hf k Hk). lia.
      - apply StronglySorted_inv in Hss. destruct Hss as [Hss Hf]. destruct Hk as [Hk|Hk]; [|apply IHp; assumption]. subst x.
        rewrite Forall_forall in Hf. specialize (Hf a ltac:(apply in_or_app; right; left; reflexivity)). lia. }
    assert (Hz : (nth a ri 0 < nth b ri 0)%Z).
    { pose proof (proj1 (rind_spec a) Ha) as [A1 A2]. pose proof (proj1 (rind_spec b) Hb) as [B1 B2].
      pose proof (ri_mono (S a) b ltac:(lia) ltac:(lia)). lia. }
    assert (Hno' : forall z, In z ri -> (nth a ri 0 < z)%Z -> (z < nth b ri 0)%Z -> False).
    { intros z Hin H1 H2. assert (Hzs : In z zs).
      { apply zs_In. split; [assumption|]. exists (nth b ri 0%Z). split; [assumption|]. apply nth_In.
        pose proof (proj1 (rind_spec b) Hb). rewrite ri_len; lia. }
      unfold zs in Hzs. apply in_map_iff in Hzs. destruct Hzs as [k [Ek Hk]].
      pose proof (proj1 (rind_spec k) Hk) as [K1 K2]. pose proof (proj1 (rind_spec a) Ha) as [A1 A2]. pose proof (proj1 (rind_spec b) Hb) as [B1 B2].
      apply (Hno k Hk).
      - destruct (le_lt_dec k a) as [Hle|]; [|assumption]. pose proof (ri_mono k a Hle ltac:(lia)). lia.
      - destruct (le_lt_dec b k) as [Hle|]; [|assumption]. pose proof (ri_mono b k Hle ltac:(lia)). lia. }
    change (rp_steps (map snd q) (a :: b :: t)) with
      ((rp_csim (map snd q) b - rp_csim (map snd q) a) / (INR b - INR a) :: rp_steps (map snd q) (b :: t)).
    cbn [tl]. rewrite (IH (pre ++ [a])) by (rewrite <- app_assoc; exact E). cbn [tl map].
    f_equal. rewrite !csim_encl by assumption.
    replace (INR b - INR a) with (INR (S b) - INR (S a)) by (rewrite !S_INR; lra).
    rewrite !idx_encl by assumption.
    rewrite !encl_split by assumption. reflexivity.
  Qed.

  Lemma first_ring g k0 t : rp_rind ri = k0 :: t -> encl g (nth k0 ri 0%Z) = ring g (nth k0 ri 0%Z).
  Proof.
    intros E. unfold encl, ring, upto. f_equal. f_equal. apply filter_ext_in. intros p Hp.
    assert (Hin : In (fst p) ri) by (apply in_map_iff; exists p; auto).
    destruct (Z.leb_spec (fst p) (nth k0 ri 0%Z)), (Z.eqb_spec (fst p) (nth k0 ri 0%Z)); try reflexivity; try lia.
    exfalso. assert (Hk0 : In k0 (rp_rind ri)) by (rewrite E; left; reflexivity).
    pose proof (proj1 (rind_spec k0) Hk0) as [K1 K2].
    assert (Hzs : In (fst p) zs).
    { apply zs_In. split; [assumption|]. exists (nth k0 ri 0%Z). split; [lia|]. apply nth_In. rewrite ri_len; lia. }
    pose proof zs_sorted as Hss. unfold zs in *. rewrite E in Hss, Hzs. simpl in *. apply StronglySorted_inv in Hss. destruct Hss as [_ Hf].
    destruct Hzs as [Hzs|Hzs]; [lia|]. rewrite Forall_forall in Hf. specialize (Hf _ Hzs). lia.
  Qed.

  Lemma profile_means prof : rp_profile (map snd q) (rp_rind ri) = Ok prof ->
    prof = map (fun z => ring snd z / ring (fun _ => 1) z) zs.
  Proof.
    unfold rp_profile. destruct (rp_rind ri) as [|k0 t] eqn:E; [discriminate|]. intros H. apply Ok_inj in H. subst prof.
    rewrite <- E. rewrite (steps_means [] (rp_rind ri) eq_refl). rewrite E. cbn [tl].
    unfold zs. rewrite E. cbn [map]. f_equal; [|rewrite map_map; reflexivity].
    assert (Hk0 : In k0 (rp_rind ri)) by (rewrite E; left; reflexivity).
    destruct (Nat.eqb_spec k0 0) as [H0|H0].
    - subst k0. rewrite csim_encl by assumption. rewrite (first_ring snd _ _ E).
      rewrite <- (first_ring (fun _ => 1) _ _ E), <- idx_encl by assumption. simpl. lra.
    - rewrite csim_encl by assumption. rewrite Nat.add_1_r, idx_encl by assumption.
      rewrite (first_ring snd _ _ E), (first_ring (fun _ => 1) _ _ E). reflexivity.
  Qed.

  Lemma ee_encl : map (rp_csim (map snd q)) (rp_rind ri) = map (encl snd) zs.
  Proof. unfold zs. rewrite map_map. apply map_ext_in. intros k Hk. apply csim_encl. assumption. Qed.
End Core.
