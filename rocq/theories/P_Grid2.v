(** Property C70: selection of the stars to fit in each segment of the image. *)
From Coq Require Import Reals List Arith ZArith Bool Lia Lra Psatz Permutation Sorted.
From Flocq Require Import Core.Raux.
From Verif Require Import Base_Py Base_Sum M_Image L_Image2 M_Tools L_Tools M_Model2 M_Atmo L_Atmo L_Config M_Fit L_Fit M_Grid P_Grid.
Import ListNotations.
Open Scope R_scope.

(** ** Specification *)
(** np.argsort: the positions, ordered by value *)
Definition is_argsort (f : list R -> list nat) : Prop := forall l,
  Permutation (f l) (seq 0 (length l)) /\ StronglySorted (fun i j => nth i l 0 <= nth j l 0) (f l).
(** the star is inside the segment of ny x nx pixels centred on c, more than b pixels away
    from its edges *)
Definition inside (ny nx b : nat) (c : nat * nat) (s : star) : Prop :=
  INR (fst c) - INR (ny / 2) + INR b < st_y s < INR (fst c) + INR (ny / 2) - INR b /\
  INR (snd c) - INR (nx / 2) + INR b < st_x s < INR (snd c) + INR (nx / 2) - INR b.
Definition above (lo : ext) (m : R) : Prop := match lo with NegInf => True | Val v => v < m | PosInf => False end.
Definition below (hi : ext) (m : R) : Prop := match hi with PosInf => True | Val v => m < v | NegInf => False end.
Definition eligible (ny nx b : nat) (c : nat * nat) (lo hi : ext) (s : star) : Prop := inside ny nx b c s /\ above lo (st_m s) /\ below hi (st_m s).
Definition distance (y x y' x' : R) : R := sqrt ((y - y') ^ 2 + (x - x') ^ 2).
(** mean distance of star k of the catalogue to the other stars of the set [e] *)
Definition isolation (stars : list star) (e : list nat) (k : nat) : R :=
  let s := nth k stars (mkStar 0 0 0) in
  lsum (map (fun i => let t := nth i stars (mkStar 0 0 0) in distance (st_y s) (st_x s) (st_y t) (st_x t)) (filter (fun i => negb (i =? k)%nat) e)) / INR (length e - 1).

(** ** Lemmas *)
Lemma rltb_spec a b : rltb a b = true <-> a < b.
Proof. unfold rltb. destruct (Rlt_dec a b); split; intros; try easy; lra. Qed.
Lemma elig_spec ny nx b c lo hi s : in_borders ny nx b c s && (ext_gt (st_m s) lo && ext_ltm (st_m s) hi) = true <-> eligible ny nx b c lo hi s.
Proof.
  unfold in_borders, eligible, inside, above, below, ext_gt, ext_ltm. rewrite !andb_true_iff, !rltb_spec.
  assert (A : (match lo with NegInf => true | Val v => rltb v (st_m s) | PosInf => false end = true) <-> match lo with NegInf => True | Val v => v < st_m s | PosInf => False end) by (destruct lo; try rewrite rltb_spec; intuition easy).
  assert (B : (match hi with PosInf => true | Val v => rltb (st_m s) v | NegInf => false end = true) <-> match hi with PosInf => True | Val v => st_m s < v | NegInf => False end) by (destruct hi; try rewrite rltb_spec; intuition easy).
  rewrite A, B. tauto.
Qed.
Lemma filter_length_le {A} (p : A -> bool) l : (length (filter p l) <= length l)%nat.
Proof. induction l as [|a l IH]; [reflexivity|]. cbn. destruct (p a); cbn; lia. Qed.
(** positions of the elements that satisfy p *)
Fixpoint posns {A} (p : A -> bool) (k : nat) (l : list A) : list nat :=
  match l with [] => [] | a :: l => if p a then k :: posns p (S k) l else posns p (S k) l end.
Lemma posns_in {A} (p : A -> bool) l : forall k i, In i (posns p k l) <-> exists a, (k <= i)%nat /\ nth_error l (i - k) = Some a /\ p a = true.
Proof.
  induction l as [|x l IH]; intros k i; cbn [posns].
  - split; [easy|]. intros (a & _ & H & _). destruct (i - k)%nat; discriminate.
  - assert (Q : In i (posns p (S k) l) <-> exists a, (S k <= i)%nat /\ nth_error (x :: l) (i - k) = Some a /\ p a = true).
    { rewrite IH. split; intros (a & H1 & H2 & H3); exists a; (split; [exact H1|]; split; [|exact H3]).
      - replace (i - k)%nat with (S (i - S k)) by lia. exact H2.
      - replace (i - k)%nat with (S (i - S k)) in H2 by lia. exact H2. }
    destruct (p x) eqn:E.
    + cbn [In]. rewrite Q. split.
      * intros [ <-|(a & H1 & H2)]; [exists x; split; [lia|]; rewrite Nat.sub_diag; auto|exists a; split; [lia|exact H2]].
      * intros (a & H1 & H2 & H3). destruct (Nat.eq_dec k i) as [ <-|N]; [now left|right]. exists a. split; [lia|auto].
    + rewrite Q. split; intros (a & H1 & H2 & H3); exists a; (split; [|auto]); [lia|]. destruct (Nat.eq_dec k i) as [ <-|N]; [|lia]. rewrite Nat.sub_diag in H2. injection H2 as ->. congruence.
Qed.
Lemma posns_nodup {A} (p : A -> bool) l : forall k, NoDup (posns p k l).
Proof.
  induction l as [|x l IH]; intros k; cbn [posns]; [constructor|]. destruct (p x); [|apply IH]. constructor; [|apply IH]. rewrite posns_in. intros (a & H & _). lia.
Qed.
Lemma posns_filter {A} (p : A -> bool) (d : A) l : forall k pre, length pre = k -> filter p l = map (fun i => nth i (pre ++ l) d) (posns p k l).
Proof.
  induction l as [|x l IH]; intros k pre L; [reflexivity|]. cbn [filter posns]. assert (E : pre ++ x :: l = (pre ++ [x]) ++ l) by (now rewrite <- app_assoc). specialize (IH (S k) (pre ++ [x])). rewrite app_length in IH. cbn in IH. specialize (IH ltac:(lia)). rewrite <- E in IH.
  destruct (p x); [|exact IH]. cbn [map]. rewrite app_nth2 by lia. rewrite L, Nat.sub_diag. cbn [nth]. now rewrite IH.
Qed.
Lemma argsort_length f l : is_argsort f -> length (f l) = length l.
Proof. intros H. destruct (H l) as [P _]. apply Permutation_length in P. now rewrite seq_length in P. Qed.
Lemma argsort_lt f l i : is_argsort f -> In i (f l) -> (i < length l)%nat.
Proof. intros H Hi. destruct (H l) as [P _]. apply (Permutation_in _ P) in Hi. apply in_seq in Hi. lia. Qed.
Lemma argsort_nodup f l : is_argsort f -> NoDup (f l).
Proof. intros H. destruct (H l) as [P _]. eapply Permutation_NoDup; [apply Permutation_sym; exact P|apply seq_NoDup]. Qed.
Lemma argsort_all f l i : is_argsort f -> (i < length l)%nat -> In i (f l).
Proof. intros H Hi. destruct (H l) as [P _]. eapply Permutation_in; [apply Permutation_sym; exact P|]. apply in_seq. lia. Qed.
Lemma NoDup_app_l {A} (a b : list A) : NoDup (a ++ b) -> NoDup a /\ NoDup b /\ forall x, In x a -> ~ In x b.
Proof.
  induction a as [|x a IH]; cbn; intros H; [split; [constructor|]; split; [exact H|easy]|]. inversion H as [|? ? N D]; subst. destruct (IH D) as (A1 & A2 & A3).
  split; [constructor; [intros Q; apply N, in_or_app; now left|exact A1]|]. split; [exact A2|]. intros y [ ->|Hy] Hb; [apply N, in_or_app; now right|now apply (A3 y)].
Qed.
Lemma SS_app_l {A} (R : A -> A -> Prop) a b : StronglySorted R (a ++ b) -> StronglySorted R a.
Proof.
  induction a as [|x a IH]; cbn; intros H; [constructor|]. inversion H as [|? ? H1 H2]; subst. constructor; [now apply IH|]. apply Forall_app in H2. tauto.
Qed.
Lemma take_list (cand : list star) ind : (forall i, In i ind -> (i < length cand)%nat) -> mapM (fun i => pyindex cand (Z.of_nat i)) ind = Ok (map (fun i => nth i cand (mkStar 0 0 0)) ind).
Proof.
  intros H. apply mapM_map. intros i Hi. specialize (H i Hi). unfold pyindex. destruct (Z.ltb_spec (Z.of_nat i) 0); [lia|]. destruct (Z.leb_spec (Z.of_nat (length cand)) (Z.of_nat i)); [lia|]. cbn [orb]. rewrite Nat2Z.id.
  replace (Z.of_nat i <? 0)%Z with false by (symmetry; apply Z.ltb_ge; lia). cbn [orb]. rewrite (nth_error_nth' cand (mkStar 0 0 0) H). reflexivity.
Qed.
Lemma pyslice_last {A} (l : list A) (n : nat) : (0 < n <= length l)%nat -> pyslice l (- Z.of_nat n) (Z.of_nat (length l)) = skipn (length l - n) l.
Proof.
  intros H. unfold pyslice. assert (B : slice_bound (Z.of_nat (length l)) (- Z.of_nat n) = (Z.of_nat (length l - n))) by (unfold slice_bound; destruct (Z.ltb_spec (- Z.of_nat n) 0); lia).
  assert (L : slice_len (Z.of_nat (length l)) (- Z.of_nat n) (Z.of_nat (length l)) = Z.of_nat n) by (unfold slice_len; rewrite B; unfold slice_bound; destruct (Z.ltb_spec (Z.of_nat (length l)) 0); lia).
  rewrite L, B, !Nat2Z.id. apply firstn_all2. rewrite skipn_length. lia.
Qed.
Lemma distance_hypot a b c d : hypot (a - c) (b - d) = distance a b c d.
Proof. reflexivity. Qed.
Lemma lsum_skip (f : nat -> R) (k : nat) e : NoDup e -> f k = 0 -> lsum (map f e) = lsum (map f (filter (fun i => negb (i =? k)%nat) e)).
Proof.
  intros _ Z. induction e as [|i e IH]; [reflexivity|]. cbn [map filter]. change (lsum (f i :: map f e)) with (f i + lsum (map f e)). destruct (Nat.eqb_spec i k) as [ ->|N]; cbn [negb].
  - rewrite Z, IH. lra.
  - cbn [map]. change (lsum (f i :: ?l)) with (f i + lsum l). now rewrite IH.
Qed.

Section Any.
Variables (ny nx : nat) (c : nat * nat) (stars : list star) (b : nat) (lo hi : ext).
Let d0 := mkStar 0 0 0.
(** the positions of the eligible stars in the catalogue *)
Definition elig := posns (fun s => in_borders ny nx b c s && (ext_gt (st_m s) lo && ext_ltm (st_m s) hi)) 0 stars.
Lemma elig_in i : In i elig <-> exists s, nth_error stars i = Some s /\ eligible ny nx b c lo hi s.
Proof.
  unfold elig. rewrite posns_in. split.
  - intros (s & _ & H & E). exists s. rewrite Nat.sub_0_r in H. split; [exact H|]. now apply elig_spec.
  - intros (s & H & E). exists s. split; [lia|]. rewrite Nat.sub_0_r. split; [exact H|]. now apply elig_spec.
Qed.
Lemma elig_nodup : NoDup elig.
Proof. apply posns_nodup. Qed.
Definition cands := filter (fun s => in_borders ny nx b c s && (ext_gt (st_m s) lo && ext_ltm (st_m s) hi)) stars.
Lemma cand_elig : cands = map (fun i => nth i stars d0) elig.
Proof. apply (posns_filter _ d0 stars 0 []). reflexivity. Qed.

Lemma nth_cand r : (r < length elig)%nat -> nth r cands d0 = nth (nth r elig 0%nat) stars d0.
Proof. intros H. rewrite cand_elig. rewrite nth_indep with (d' := (fun i => nth i stars d0) 0%nat) by (now rewrite map_length). exact (map_nth (fun i => nth i stars d0) elig 0%nat r). Qed.
Lemma cands_length : length cands = length elig.
Proof. rewrite cand_elig. apply map_length. Qed.
Lemma ranks_nodup ind : NoDup ind -> (forall i, In i ind -> (i < length elig)%nat) -> NoDup (map (fun r => nth r elig 0%nat) ind).
Proof.
  intros N H. induction N as [|r ind Hr N IH]; [constructor|]. cbn. constructor; [|apply IH; intros; apply H; now right]. intros Q. apply in_map_iff in Q. destruct Q as (r' & E & Hr').
  apply Hr. replace r with r'; [exact Hr'|]. eapply (proj1 (NoDup_nth elig 0%nat) elig_nodup); [apply H; now right|apply H; now left|exact E].
Qed.
Lemma ranks_incl ind : (forall i, In i ind -> (i < length elig)%nat) -> incl (map (fun r => nth r elig 0%nat) ind) elig.
Proof. intros H i Hi. apply in_map_iff in Hi. destruct Hi as (r & <- & Hr). apply nth_In. now apply H. Qed.
Lemma ranks_sorted (R : nat -> nat -> Prop) (T : nat -> nat -> Prop) ind : (forall i, In i ind -> (i < length elig)%nat) ->
  (forall i j, (i < length elig)%nat -> (j < length elig)%nat -> R i j -> T (nth i elig 0%nat) (nth j elig 0%nat)) -> StronglySorted R ind -> StronglySorted T (map (fun r => nth r elig 0%nat) ind).
Proof.
  intros H HRT S. induction S as [|r ind S IH F]; [constructor|]. cbn. constructor; [apply IH; intros; apply H; now right|]. rewrite Forall_forall in *. intros j Hj. apply in_map_iff in Hj. destruct Hj as (q & <- & Hq). apply HRT; [apply H; now left|apply H; now right|now apply F].
Qed.
(** closeness and isolation, as seen by the code and by the specification *)
Lemma key_center r : (r < length elig)%nat -> nth r (map (fun s => hypot (st_y s - INR (fst c)) (st_x s - INR (snd c))) cands) 0 =
  (let s := nth (nth r elig 0%nat) stars d0 in distance (st_y s) (st_x s) (INR (fst c)) (INR (snd c))).
Proof.
  intros H. rewrite nth_indep with (d' := (fun s => hypot (st_y s - INR (fst c)) (st_x s - INR (snd c))) d0) by (rewrite map_length, cands_length; exact H). rewrite (map_nth (fun s => hypot (st_y s - INR (fst c)) (st_x s - INR (snd c)))). now rewrite nth_cand.
Qed.
Lemma distance_self y x : distance y x y x = 0.
Proof. unfold distance. rewrite <- sqrt_0. f_equal. ring. Qed.
Lemma key_isolated r : (r < length elig)%nat -> nth r (map (mean_dist cands) cands) 0 = isolation stars elig (nth r elig 0%nat).
Proof.
  intros H. rewrite nth_indep with (d' := mean_dist cands d0) by (rewrite map_length, cands_length; exact H). rewrite map_nth, nth_cand by exact H. unfold mean_dist, isolation. rewrite cands_length. fold d0. cbv zeta. rewrite minus_INR by lia. cbn [INR]. f_equal.
  rewrite cand_elig, map_map. rewrite <- lsum_skip; [reflexivity|apply elig_nodup|]. apply distance_self.
Qed.
End Any.

(** ** Theorems *)
Theorem C70_selection : forall argsort ny nx c stars nMax b lo hi crit sel, is_argsort argsort -> nMax <> 0%nat ->
  select_one argsort ny nx c stars nMax b (Some lo) (Some hi) crit = Ok sel ->
  exists idx e, NoDup e /\ (forall i, In i e <-> exists s, nth_error stars i = Some s /\ eligible ny nx b c lo hi s) /\
    NoDup idx /\ incl idx e /\ length idx = nMax /\ sel = map (fun i => nth i stars (mkStar 0 0 0)) idx /\
    match crit with
    | Center => let d i := let s := nth i stars (mkStar 0 0 0) in distance (st_y s) (st_x s) (INR (fst c)) (INR (snd c)) in
        StronglySorted (fun i j => d i <= d j) idx /\ forall i j, In i idx -> In j e -> ~ In j idx -> d i <= d j
    | Isolated => StronglySorted (fun i j => isolation stars e i <= isolation stars e j) idx /\ forall i j, In i idx -> In j e -> ~ In j idx -> isolation stars e j <= isolation stars e i
    | OtherCrit => False
    end.
Proof.
  intros argsort ny nx c stars nMax b lo hi crit sel AS Hn H. unfold select_one in H. fold (cands ny nx c stars b lo hi) in H.
  destruct (length (map (in_borders ny nx b c) stars) <? nMax)%nat; [discriminate|]. destruct (Nat.ltb_spec (length (cands ny nx c stars b lo hi)) nMax) as [?|L]; [discriminate|].
  set (cd := cands ny nx c stars b lo hi) in *. set (e := elig ny nx c stars b lo hi).
  assert (Lc : length cd = length e) by apply cands_length.
  destruct crit; [| |discriminate]; cbn [bind] in H.
  - set (key := map (mean_dist cd) cd) in *. assert (Lk : length key = length cd) by apply map_length. set (o := argsort key) in *. assert (Lo : length o = length e) by (unfold o; rewrite argsort_length by exact AS; lia).
    rewrite pyslice_last in H by lia. set (ind := skipn (length o - nMax) o) in *. pose proof (firstn_skipn (length o - nMax) o) as Fs. fold ind in Fs. set (rest := firstn (length o - nMax) o) in *.
    assert (Li : length ind = nMax) by (unfold ind; rewrite skipn_length; lia).
    assert (Oi : forall i, In i ind -> (i < length e)%nat) by (intros i Hi; rewrite <- Lc, <- Lk; apply (argsort_lt argsort key i AS); fold o; rewrite <- Fs; apply in_or_app; now right).
    rewrite take_list in H by (intros i Hi; specialize (Oi i Hi); lia). cbn [bind] in H. rewrite map_length, Li, Nat.eqb_refl in H. apply Ok_inj in H.
    pose proof (argsort_nodup argsort key AS) as Nd. fold o in Nd. rewrite <- Fs in Nd. apply NoDup_app_l in Nd. destruct Nd as (Nr & Ni & Dj).
    destruct (AS key) as [_ Ss]. fold o in Ss. rewrite <- Fs in Ss. pose proof (SS_app _ _ _ Ss) as [Si Sx].
    exists (map (fun r => nth r e 0%nat) ind), e. split; [apply elig_nodup|]. split; [apply elig_in|]. split; [now apply ranks_nodup|]. split; [now apply ranks_incl|]. split; [now rewrite map_length|].
    split; [rewrite <- H, map_map; apply map_ext_in; intros i Hi; apply nth_cand; now apply Oi|].
    assert (K : forall r, (r < length e)%nat -> nth r key 0 = isolation stars e (nth r e 0%nat)) by (intros r Hr; now apply key_isolated).
    split; [apply (ranks_sorted ny nx c stars b lo hi (fun i j => nth i key 0 <= nth j key 0)); [exact Oi| |exact Si]; intros i j Hi Hj Q; rewrite !K in Q by assumption; exact Q|].
    intros i j Hi Hj Nj. apply in_map_iff in Hi. destruct Hi as (r & <- & Hr). apply (In_nth _ _ 0%nat) in Hj. destruct Hj as (q & Hq & <-). rewrite <- !K by auto. apply Sx; [|exact Hr].
    assert (Q : In q (rest ++ ind)) by (rewrite Fs; apply argsort_all; [exact AS|lia]). apply in_app_or in Q. destruct Q as [Q|Q]; [exact Q|]. exfalso. apply Nj. apply in_map_iff. now exists q.
  - match type of H with context [argsort ?k] => set (key := k) in * end. assert (Lk : length key = length cd) by apply map_length. set (o := argsort key) in *. assert (Lo : length o = length e) by (unfold o; rewrite argsort_length by exact AS; lia).
    set (ind := firstn nMax o) in *. pose proof (firstn_skipn nMax o) as Fs. fold ind in Fs. set (rest := skipn nMax o) in *.
    assert (Li : length ind = nMax) by (unfold ind; rewrite firstn_length; lia).
    assert (Oi : forall i, In i ind -> (i < length e)%nat) by (intros i Hi; rewrite <- Lc, <- Lk; apply (argsort_lt argsort key i AS); fold o; rewrite <- Fs; apply in_or_app; now left).
    rewrite take_list in H by (intros i Hi; specialize (Oi i Hi); lia). cbn [bind] in H. rewrite map_length, Li, Nat.eqb_refl in H. apply Ok_inj in H.
    pose proof (argsort_nodup argsort key AS) as Nd. fold o in Nd. rewrite <- Fs in Nd. apply NoDup_app_l in Nd. destruct Nd as (Ni & Nr & Dj).
    destruct (AS key) as [_ Ss]. fold o in Ss. rewrite <- Fs in Ss. pose proof (SS_app _ _ _ Ss) as [_ Sx]. apply SS_app_l in Ss.
    exists (map (fun r => nth r e 0%nat) ind), e. split; [apply elig_nodup|]. split; [apply elig_in|]. split; [now apply ranks_nodup|]. split; [now apply ranks_incl|]. split; [now rewrite map_length|].
    split; [rewrite <- H, map_map; apply map_ext_in; intros i Hi; apply nth_cand; now apply Oi|]. cbv zeta.
    pose proof (key_center ny nx c stars b lo hi) as K. cbv zeta in K. fold e in K. fold cd in K. fold key in K.
    split; [apply (ranks_sorted ny nx c stars b lo hi (fun i j => nth i key 0 <= nth j key 0)); [exact Oi| |exact Ss]; intros i j Hi Hj Q; rewrite !K in Q by assumption; exact Q|].
    intros i j Hi Hj Nj. apply in_map_iff in Hi. destruct Hi as (r & <- & Hr). apply (In_nth _ _ 0%nat) in Hj. destruct Hj as (q & Hq & <-). rewrite <- !K by auto. apply Sx; [exact Hr|].
    assert (Q : In q (ind ++ rest)) by (rewrite Fs; apply argsort_all; [exact AS|lia]). apply in_app_or in Q. destruct Q as [Q|Q]; [|exact Q]. exfalso. apply Nj. apply in_map_iff. now exists q.
Qed.
Print Assumptions C70_selection.

(** a segment is served if and only if it has enough eligible stars *)
Definition enough (ny nx b : nat) (c : nat * nat) (lo hi : ext) (stars : list star) (n : nat) : Prop :=
  exists idx, NoDup idx /\ length idx = n /\ forall i, In i idx -> exists s, nth_error stars i = Some s /\ eligible ny nx b c lo hi s.
Lemma enough_iff ny nx b c lo hi stars n : enough ny nx b c lo hi stars n <-> (n <= length (elig ny nx c stars b lo hi))%nat.
Proof.
  split.
  - intros (idx & N & L & H). rewrite <- L. apply NoDup_incl_length; [exact N|]. intros i Hi. apply elig_in. now apply H.
  - intros L. exists (firstn n (elig ny nx c stars b lo hi)). split; [|split].
    + pose proof (posns_nodup (fun s => in_borders ny nx b c s && (ext_gt (st_m s) lo && ext_ltm (st_m s) hi)) stars 0) as N. fold (elig ny nx c stars b lo hi) in N. rewrite <- (firstn_skipn n (elig ny nx c stars b lo hi)) in N. apply NoDup_app_l in N. tauto.
    + rewrite firstn_length. lia.
    + intros i Hi. apply elig_in. rewrite <- (firstn_skipn n (elig ny nx c stars b lo hi)). apply in_or_app. now left.
Qed.
Theorem C70_decision : forall argsort ny nx c stars nMax b lo hi crit, is_argsort argsort -> nMax <> 0%nat -> crit <> OtherCrit ->
  (enough ny nx b c lo hi stars nMax /\ exists sel, select_one argsort ny nx c stars nMax b (Some lo) (Some hi) crit = Ok sel) \/
  (~ enough ny nx b c lo hi stars nMax /\ select_one argsort ny nx c stars nMax b (Some lo) (Some hi) crit = Err ValueError).
Proof.
  intros argsort ny nx c stars nMax b lo hi crit AS Hn Hc. rewrite enough_iff. unfold select_one. fold (cands ny nx c stars b lo hi).
  pose proof (cands_length ny nx c stars b lo hi) as Lc. set (cd := cands ny nx c stars b lo hi) in *. set (e := elig ny nx c stars b lo hi) in *.
  assert (Ls : (length cd <= length stars)%nat) by (unfold cd, cands; apply filter_length_le).
  rewrite map_length. destruct (Nat.ltb_spec (length stars) nMax) as [?|L0]; [right; split; [lia|reflexivity]|]. destruct (Nat.ltb_spec (length cd) nMax) as [?|L]; [right; split; [lia|reflexivity]|].
  left. split; [lia|]. destruct crit; [| |contradiction]; cbn [bind]; match goal with |- context [argsort ?k] => pose proof (argsort_length argsort k AS) as Lo; pose proof (argsort_lt argsort k) as Lt; assert (Lk : length k = length cd) by apply map_length; set (key := k) in * end; set (o := argsort key) in *.
  - rewrite pyslice_last by lia. rewrite take_list. { cbn [bind]. rewrite map_length, skipn_length. replace (length o - (length o - nMax) =? nMax)%nat with true by (symmetry; apply Nat.eqb_eq; lia). eexists; reflexivity. }
    intros i Hi. rewrite <- Lk. apply Lt; [exact AS|]. fold o. rewrite <- (firstn_skipn (length o - nMax) o). apply in_or_app. now right.
  - rewrite take_list. { cbn [bind]. rewrite map_length, firstn_length. replace (Nat.min nMax (length o) =? nMax)%nat with true by (symmetry; apply Nat.eqb_eq; lia). eexists; reflexivity. }
    intros i Hi. rewrite <- Lk. apply Lt; [exact AS|]. fold o. rewrite <- (firstn_skipn nMax o). apply in_or_app. now left.
Qed.
Print Assumptions C70_decision.
(** Finding: a limit of magnitude left to None, the default of
    generate_psfs_grid_from_image, is never accepted; so is an unknown criterion *)
Theorem C70_no_limit_refuted : forall argsort ny nx c stars nMax b lo hi crit, lo = None \/ hi = None -> exists k, select_one argsort ny nx c stars nMax b lo hi crit = Err k /\ (k = TypeError \/ k = ValueError).
Proof.
  intros argsort ny nx c stars nMax b lo hi crit H. unfold select_one. destruct (_ <? _)%nat; [exists ValueError; auto|]. exists TypeError. split; [|auto]. destruct H as [ ->| ->]; [reflexivity|]. destruct lo; reflexivity.
Qed.
Theorem C70_unknown_criterion : forall argsort ny nx c stars nMax b lo hi, exists k, select_one argsort ny nx c stars nMax b lo hi OtherCrit = Err k.
Proof.
  intros. unfold select_one. destruct (_ <? _)%nat; [eauto|]. destruct lo; [|eauto]. destruct hi; [|eauto]. destruct (_ <? _)%nat; [eauto|]. cbn [bind]. eauto.
Qed.
(** the whole selection: nMax coordinates per segment, segment after segment, shifted by
    the requested origin *)
Theorem C70_all : forall argsort ny nx centers stars nMax b lo hi yon xon crit coo, is_argsort argsort -> nMax <> 0%nat ->
  select_candidates_for_fitting argsort ny nx centers stars nMax b (Some lo) (Some hi) yon xon crit = Ok coo ->
  length coo = (length centers * nMax)%nat /\
  forall k c, nth_error centers k = Some c -> exists sel, select_one argsort ny nx c stars nMax b (Some lo) (Some hi) crit = Ok sel /\
    firstn nMax (skipn (k * nMax) coo) = map (fun s => (st_y s - yon, st_x s - xon)) sel.
Proof.
  intros argsort ny nx centers stars nMax b lo hi yon xon crit coo AS Hn H. unfold select_candidates_for_fitting in H.
  destruct (mapM _ centers) as [l|] eqn:E; [|discriminate]. cbn [bind] in H. apply Ok_inj in H. subst coo. apply mapM_F2 in E.
  induction E as [|c sel centers l Hc E IH]; [cbn; split; [reflexivity|intros [|k] c Hk; discriminate]|].
  destruct IH as [IL IH]. destruct (C70_selection _ _ _ _ _ _ _ _ _ _ _ AS Hn Hc) as (idx & e & _ & _ & _ & _ & Li & Es & _).
  assert (Ls : length sel = nMax) by (rewrite Es, map_length; exact Li).
  cbn [concat map]. rewrite map_app. split; [rewrite app_length, IL, map_length, Ls; cbn; lia|].
  intros [|k] c' Hk.
  - cbn in Hk. injection Hk as <-. exists sel. split; [exact Hc|]. cbn. rewrite firstn_app, map_length, Ls, Nat.sub_diag. cbn. rewrite app_nil_r. apply firstn_all2. now rewrite map_length, Ls.
  - cbn in Hk. destruct (IH k c' Hk) as (sel' & H1 & H2). exists sel'. split; [exact H1|]. rewrite <- H2. f_equal. rewrite skipn_app, map_length, Ls. rewrite skipn_all2 by (rewrite map_length, Ls; cbn; lia). cbn [app]. f_equal. cbn; lia.
Qed.
Print Assumptions C70_all.

(** ** Selected stars can be extracted *)
(** With a border of half a window (nPx even), the window of a star selected in a tile of
    the image lies inside that tile. *)
Theorem C70_window_in_tile : forall im n y x h s lo hi, n <> 0%nat -> h <> 0%nat -> (y < n)%nat -> (x < n)%nat ->
  eligible (rows im / n) (cols im / n) h (y * (rows im / n) + rows im / n / 2, x * (cols im / n) + cols im / n / 2)%nat lo hi s ->
  exists w a b, extract_one im (2 * h) (st_y s) (st_x s) = Ok w /\ rows w = (2 * h)%nat /\ cols w = (2 * h)%nat /\
    (y * (rows im / n) <= a)%nat /\ (a + 2 * h <= (y + 1) * (rows im / n))%nat /\ (x * (cols im / n) <= b)%nat /\ (b + 2 * h <= (x + 1) * (cols im / n))%nat /\
    forall i j, (i < 2 * h)%nat -> (j < 2 * h)%nat -> px w i j = px im (a + i) (b + j).
Proof.
  intros im n y x h s lo hi Hn Hh Hy Hx ((Y & X) & _). cbn [fst snd] in Y, X.
  assert (MY : ((y + 1) * (rows im / n) <= rows im)%nat). { pose proof (Nat.mul_div_le (rows im) n Hn). assert ((y + 1) * (rows im / n) <= n * (rows im / n))%nat by (apply Nat.mul_le_mono_r; lia). lia. }
  assert (MX : ((x + 1) * (cols im / n) <= cols im)%nat). { pose proof (Nat.mul_div_le (cols im) n Hn). assert ((x + 1) * (cols im / n) <= n * (cols im / n))%nat by (apply Nat.mul_le_mono_r; lia). lia. }
  set (A := (rows im / n)%nat) in *. set (B := (cols im / n)%nat) in *. clearbody A B.
  pose proof (Nat.mul_div_le A 2 ltac:(lia)) as DA. pose proof (Nat.mul_div_le B 2 ltac:(lia)) as DB.
  apply le_INR in DA, DB, MY, MX. rewrite !mult_INR in DA, DB, MY, MX. rewrite !plus_INR, !mult_INR in *. cbn [INR] in *. pose proof (pos_INR h) as P0. pose proof (pos_INR y) as Py. pose proof (pos_INR x) as Px. pose proof (pos_INR A) as PA. pose proof (pos_INR B) as PB.
  assert (HH : INR (2 * h) / 2 = INR h) by (rewrite mult_INR; cbn; field).
  assert (Y0 : 0 <= INR y * INR A) by (apply Rmult_le_pos; lra). assert (X0 : 0 <= INR x * INR B) by (apply Rmult_le_pos; lra).
  destruct (C69_extraction im (2 * h) (st_y s) (st_x s)) as (w & E & R1 & R2 & a & b & Ha & Hb & P); [lia|lra|lra|lra|lra|].
  exists w, a, b. split; [exact E|]. split; [exact R1|]. split; [exact R2|]. rewrite HH in Ha, Hb.
  assert (Q : forall u v : nat, INR u < INR v + 1 -> (u <= v)%nat) by (intros u v Q; apply Nat.lt_succ_r; apply INR_lt; rewrite S_INR; exact Q).
  split; [apply Q; rewrite mult_INR; lra|]. split; [apply Q; rewrite plus_INR, !mult_INR, plus_INR; cbn [INR]; lra|]. split; [apply Q; rewrite mult_INR; lra|]. split; [apply Q; rewrite plus_INR, !mult_INR, plus_INR; cbn [INR]; lra|]. exact P.
Qed.
Print Assumptions C70_window_in_tile.
(** Finding: for an odd number of pixels, the border nPx//2 used by
    generate_psfs_grid_from_image is half a pixel too small: an eligible star next to the
    lower edge of the image cannot be extracted *)
Theorem C70_odd_window_refuted : exists im n s, eligible (rows im / n) (cols im / n) (5 / 2) (0 * (rows im / n) + rows im / n / 2, 0 * (cols im / n) + cols im / n / 2)%nat NegInf PosInf s /\
  extract_one im 5 (st_y s) (st_x s) = Err ValueError.
Proof.
  exists (mkImg 20 20 (fun _ _ => 0)), 1%nat, (mkStar (9 / 4) 10 0). cbn [rows cols]. change (20 / 1)%nat with 20%nat. change (20 / 2)%nat with 10%nat. change (5 / 2)%nat with 2%nat. split.
  - split; [|split; exact I]. unfold inside. cbn [fst snd st_y st_x]. rewrite !INR_IZR_INZ. cbn. lra.
  - unfold extract_one, fill_slot, img_slice. cbn [st_y st_x rows cols]. rewrite !INR_IZR_INZ. cbn [Z.of_nat Pos.of_succ_nat Pos.succ].
    replace (Ztrunc (9 / 4 - 5 / 2)) with 0%Z. replace (Ztrunc (9 / 4 + 5 / 2)) with 4%Z. reflexivity.
    + rewrite Ztrunc_floor by lra. symmetry. apply Zfloor_imp. cbn. lra.
    + rewrite Ztrunc_ceil by lra. symmetry. apply Zceil_imp. cbn. lra.
Qed.

(** ** A concrete sort, and a case *)
Fixpoint ins (l : list R) (k : nat) (o : list nat) : list nat := match o with [] => [k] | j :: o' => if Rle_dec (nth k l 0) (nth j l 0) then k :: o else j :: ins l k o' end.
Definition argsort_ins (l : list R) : list nat := fold_right (ins l) [] (seq 0 (length l)).
Lemma ins_perm l k o : Permutation (ins l k o) (k :: o).
Proof. induction o as [|j o IH]; [reflexivity|]. cbn [ins]. destruct (Rle_dec _ _); [reflexivity|]. rewrite IH. apply perm_swap. Qed.
Lemma ins_sorted l k o : StronglySorted (fun i j => nth i l 0 <= nth j l 0) o -> StronglySorted (fun i j => nth i l 0 <= nth j l 0) (ins l k o).
Proof.
  induction 1 as [|j o S IH F]; [repeat constructor|]. cbn [ins]. destruct (Rle_dec _ _) as [L|L].
  - constructor; [now constructor|]. constructor; [exact L|]. eapply Forall_impl; [|exact F]. cbn. intros. lra.
  - constructor; [exact IH|]. rewrite Forall_forall in *. intros x Hx. apply (Permutation_in _ (ins_perm l k o)) in Hx. destruct Hx as [ <-|Hx]; [lra|now apply F].
Qed.
Lemma argsort_ins_ok : is_argsort argsort_ins.
Proof.
  intros l. unfold argsort_ins. generalize (seq 0 (length l)). intros s. induction s as [|k s IH]; [split; [constructor|constructor]|]. cbn [fold_right]. destruct IH as [P S]. split; [|now apply ins_sorted]. rewrite ins_perm. now constructor.
Qed.
(** two stars of a 20 x 20 segment, one eligible star wanted: the central one *)
Example C70_ex : exists sel, select_one argsort_ins 20 20 (10, 10)%nat [mkStar 7 6 1; mkStar 11 10 2; mkStar 1 1 0] 1 2 (Some NegInf) (Some (Val 5)) Center = Ok sel /\
  eligible 20 20 2 (10, 10)%nat NegInf (Val 5) (mkStar 7 6 1) /\ ~ eligible 20 20 2 (10, 10)%nat NegInf (Val 5) (mkStar 1 1 0).
Proof.
  destruct (C70_decision argsort_ins 20 20 (10, 10)%nat [mkStar 7 6 1; mkStar 11 10 2; mkStar 1 1 0] 1 2 NegInf (Val 5) Center argsort_ins_ok) as [[_ (sel & E)]|[N _]]; [lia|discriminate| |].
  - exists sel. split; [exact E|]. split; unfold eligible, inside; cbn [fst snd st_y st_x st_m above below]; change (20 / 2)%nat with 10%nat; rewrite !INR_IZR_INZ; cbn; lra.
  - exfalso. apply N. exists [0%nat]. split; [repeat constructor; easy|]. split; [reflexivity|]. intros i [ <-|[]]. eexists. split; [reflexivity|]. unfold eligible, inside; cbn [fst snd st_y st_x st_m above below]; change (20 / 2)%nat with 10%nat; rewrite !INR_IZR_INZ; cbn; lra.
Qed.

Print Assumptions C70_no_limit_refuted.
Print Assumptions C70_unknown_criterion.
Print Assumptions C70_odd_window_refuted.
