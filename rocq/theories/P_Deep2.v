(** Property C122: names of a data base: values of its folders and consistency of its files. *)
From Coq Require Import Reals List Arith ZArith Bool Lia Lra String Sorted Permutation FinFun.
From Verif Require Import Base_Py Base_Sum M_Image M_Tools M_Atmo M_Freq M_Metric M_Deep S_Tools L_Tools L_Atmo L_Model L_Freq L_Flux P_Diag5 P_Deep.
Import ListNotations.
Open Scope R_scope.

(** * A data base as it is generated: names of folders word_r0_word_A..., names of files ..._r0_value_label_value_label... *)
Record fold := mkFold { fo_w : string; fo_r0 : R; fo_v : string; fo_A : R; fo_rest : list tok; fo_files : list (list tok) }.
Definition fold_name (f : fold) : list tok := TW (fo_w f) :: TN (fo_r0 f) :: TW (fo_v f) :: TN (fo_A f) :: fo_rest f.
Fixpoint labelled (vs : list R) (ls : list string) : list tok :=
  match vs, ls with v :: vs', l :: ls' => TN v :: TW l :: labelled vs' ls' | _, _ => [] end.
(** the file name carries the parameters [vs] *)
Definition carries (s : list tok) (vs : list R) : Prop :=
  exists pre ls rest, s = map TW pre ++ TW "r0" :: labelled vs ls ++ rest /\ ~ In "r0"%string pre /\ List.length ls = List.length vs.

Definition pair_of (f : fold) : R * R := (fo_r0 f, fo_A f).
Lemma names_ok fs : M_Tools.mapM (fun f => do a <- pyindex f 1; do r <- tofloat a; do b <- pyindex f 3; do s <- tofloat b; Ok (r, s)) (map fold_name fs) = Ok (map pair_of fs).
Proof.
  induction fs as [|f fs IH]; [reflexivity|]. cbn [map M_Tools.mapM]. rewrite IH. unfold fold_name, pair_of. change 1%Z with (Z.of_nat 1). change 3%Z with (Z.of_nat 3). rewrite (pyindex_some _ 1 (TN (fo_r0 f))) by reflexivity. cbn [bind tofloat]. rewrite (pyindex_some _ 3 (TN (fo_A f))) by reflexivity. reflexivity.
Qed.
(** The values recovered from the names of the folders: in increasing order, without repetition, exactly those of the names. *)
Theorem C122_recover : forall fs, exists r0 A, recover_values (map fold_name fs) = Ok (r0, A) /\
  StronglySorted Rlt r0 /\ StronglySorted Rlt A /\ (forall x, In x r0 <-> exists f, In f fs /\ fo_r0 f = x) /\ (forall x, In x A <-> exists f, In f fs /\ fo_A f = x).
Proof.
  intros fs. unfold recover_values. rewrite names_ok. cbn [bind]. rewrite !map_map. eexists; eexists. split; [reflexivity|]. split; [apply np_unique_sorted|]. split; [apply np_unique_sorted|]. split; intros x; rewrite np_unique_In, in_map_iff; cbn [pair_of fst snd]; split; intros (f & A & B); exists f; auto.
Qed.
(** A name with fewer than four words, or a word instead of a value, is refused. *)
Theorem C122_recover_refused : forall l n m, ((List.length n <= 3)%nat \/ exists w i, (i = 1 \/ i = 3)%nat /\ nth_error n i = Some (TW w)) -> exists e, recover_values (map fold_name l ++ n :: m) = Err e.
Proof.
  intros l n m H. unfold recover_values. rewrite mapM_app, names_ok. cbn [bind M_Tools.mapM].
  assert (Q : exists e, (do a <- pyindex n 1; do r <- tofloat a; do b <- pyindex n 3; do s <- tofloat b; Ok (r, s)) = Err e); [|destruct Q as (e & ->); cbn [bind]; eauto].
  change 1%Z with (Z.of_nat 1). change 3%Z with (Z.of_nat 3). destruct (pyindex n (Z.of_nat 1)) as [a|e] eqn:E1; cbn [bind]; [|eauto]. destruct (tofloat a) as [r|e] eqn:Ea; cbn [bind]; [|eauto]. destruct (pyindex n (Z.of_nat 3)) as [b|e] eqn:E3; cbn [bind]; [|eauto]. destruct (tofloat b) as [s|e] eqn:Eb; cbn [bind]; [|eauto]. exfalso. apply pyindex_of_nat in E1. apply pyindex_of_nat in E3. destruct H as [H|(w & i & [->| ->] & H)].
  - assert (nth_error n 3 = None) by (apply nth_error_None; exact H). congruence.
  - rewrite E1 in H. injection H as ->. discriminate.
  - rewrite E3 in H. injection H as ->. discriminate.
Qed.

(** * Parameters of a file *)
Lemma after_pre w pre s : ~ In w pre -> after w (map TW pre ++ s) = after w s.
Proof. induction pre as [|x pre IH]; intros H; [reflexivity|]. cbn [map app after]. destruct (String.eqb_spec x w) as [->|_]; [exfalso; apply H; now left|]. apply IH. intros Q. apply H. now right. Qed.
Lemma every2_labelled vs : forall ls rest, List.length ls = List.length vs -> every2 (List.length vs) (labelled vs ls ++ rest) = map TN vs.
Proof. induction vs as [|v vs IH]; intros [|l ls] rest H; cbn [List.length] in H; try discriminate; [reflexivity|]. cbn [List.length labelled app every2 map]. rewrite IH by lia. reflexivity. Qed.
Theorem C122_file : forall np s vs, carries s vs -> List.length vs = np -> file_params np s = Ok vs.
Proof.
  intros np s vs (pre & ls & rest & -> & H & L) E. unfold file_params. rewrite after_pre by exact H. cbn [after]. rewrite String.eqb_refl. cbn [bind]. rewrite <- E, every2_labelled by exact L. rewrite tofloat_nums. cbn [bind]. now apply fill_ok.
Qed.
(** a file that does not name r0 is refused *)
Theorem C122_file_refused : forall np s, ~ In (TW "r0") s -> file_params np s = Err IndexError.
Proof.
  intros np s H. unfold file_params. assert (E : after "r0" s = Err IndexError); [|now rewrite E]. induction s as [|t s IH]; [reflexivity|]. cbn [after]. destruct t as [r|w]; [apply IH; intros Q; apply H; now right|]. destruct (String.eqb_spec w "r0") as [->|_]; [exfalso; apply H; now left|]. apply IH. intros Q. apply H. now right.
Qed.

(** * Intervals *)
Lemma nth_firstn' {A} (l : list A) n i d : (i < n)%nat -> nth i (firstn n l) d = nth i l d.
Proof. revert l i. induction n as [|n IH]; intros l i H; [lia|]. destruct l as [|x l], i as [|i]; cbn [firstn nth]; try reflexivity. apply IH. lia. Qed.
Lemma nth_skipn' {A} (l : list A) n i d : nth i (skipn n l) d = nth (n + i) l d.
Proof. revert l. induction n as [|n IH]; intros l; [reflexivity|]. destruct l as [|x l]; cbn [skipn nth Nat.add]; [destruct i; reflexivity|apply IH]. Qed.
Lemma In_block nInter k row v : In v (block nInter k row) <-> exists q, (k * nInter <= q)%nat /\ (q + 1 < (k + 1) * nInter)%nat /\ (q < List.length row)%nat /\ nth q row 0 = v.
Proof.
  unfold block. split.
  - intros H. apply In_nth with (d := 0) in H. destruct H as (i & Hi & E). rewrite firstn_length, skipn_length in Hi. rewrite nth_firstn', nth_skipn' in E by lia. exists (k * nInter + i)%nat. repeat split; try lia; nia || exact E.
  - intros (q & H1 & H2 & H3 & E). rewrite <- E. replace q with (k * nInter + (q - k * nInter))%nat by lia. rewrite <- nth_skipn'. rewrite <- (nth_firstn' (skipn (k * nInter) row) (nInter - 1)) by nia. apply nth_In. rewrite firstn_length, skipn_length. nia.
Qed.
(** An interval is accepted exactly when, in each row, the values whose rank is in its block, the last rank of the block
    excepted, are between its (rounded) lower bound and its upper bound; at least one value is needed. *)
Definition inside (rnd : R -> R) (nInter : nat) (bs : list R) (rows : list (list R)) (k : nat) : Prop :=
  (exists row, In row rows /\ (k * nInter < List.length row)%nat) /\
  forall row q, In row rows -> (k * nInter <= q)%nat -> (q + 1 < (k + 1) * nInter)%nat -> (q < List.length row)%nat -> rnd (nth k bs 0) <= nth q row 0 <= nth (k + 1) bs 0.
Lemma block_spec rnd nInter bs rows k : (2 <= nInter)%nat -> (bad_block rnd nInter bs rows k = false <-> inside rnd nInter bs rows k).
Proof.
  intros Hn. unfold bad_block, inside.
  assert (Q : flat_map (block nInter k) rows <> [] <-> exists row, In row rows /\ (k * nInter < List.length row)%nat).
  { split.
    - intros H. destruct (flat_map (block nInter k) rows) as [|v l] eqn:E; [contradiction|]. assert (In v (flat_map (block nInter k) rows)) as I by (rewrite E; now left). apply in_flat_map in I. destruct I as (row & Hr & Hv). apply In_block in Hv. destruct Hv as (q & A & B & C & _). exists row. split; [exact Hr|lia].
    - intros (row & Hr & L) E. assert (I : In (nth (k * nInter) row 0) (flat_map (block nInter k) rows)) by (apply in_flat_map; exists row; split; [exact Hr|]; apply In_block; exists (k * nInter)%nat; repeat split; nia || lia). rewrite E in I. destruct I. }
  assert (V : forall v, In v (flat_map (block nInter k) rows) <-> exists row q, In row rows /\ (k * nInter <= q)%nat /\ (q + 1 < (k + 1) * nInter)%nat /\ (q < List.length row)%nat /\ nth q row 0 = v).
  { intros v. rewrite in_flat_map. split; [intros (row & Hr & Hv); apply In_block in Hv; destruct Hv as (q & Hq); exists row, q; tauto|intros (row & q & Hr & Hq); exists row; split; [exact Hr|]; apply In_block; exists q; exact Hq]. }
  set (vs := flat_map (block nInter k) rows) in *. destruct vs as [|v0 vs'] eqn:Evs.
  - split; [discriminate|]. intros [W _]. apply Q in W. contradiction.
  - rewrite <- Evs in *. rewrite orb_false_iff. split.
    + intros [B1 B2]. split; [apply Q; rewrite Evs; discriminate|]. intros row q Hr A B C. assert (I : In (nth q row 0) vs) by (apply V; exists row, q; auto).
      assert (N1 : ~ nth (k + 1) bs 0 < nth q row 0). { intros L. assert (T : existsb (fun v => if Rlt_dec (nth (k + 1) bs 0) v then true else false) vs = true) by (apply existsb_exists; exists (nth q row 0); split; [exact I|]; destruct (Rlt_dec _ _); [reflexivity|contradiction]). congruence. }
      assert (N2 : ~ nth q row 0 < rnd (nth k bs 0)). { intros L. assert (T : existsb (fun v => if Rlt_dec v (rnd (nth k bs 0)) then true else false) vs = true) by (apply existsb_exists; exists (nth q row 0); split; [exact I|]; destruct (Rlt_dec _ _); [reflexivity|contradiction]). congruence. }
      lra.
    + intros [_ W]. split; apply not_true_is_false; intros T; apply existsb_exists in T; destruct T as (v & Iv & Hv); apply V in Iv; destruct Iv as (row & q & Hr & A & B & C & <-); specialize (W row q Hr A B C); destruct (Rlt_dec _ _); try discriminate; lra.
Qed.

(** * Number of static modes: m1 ... mn are in the name and m(n+1) is not *)
Lemma has_spec s w : has s w = true <-> In (TW w) s.
Proof. unfold has. rewrite existsb_exists. split; [intros (t & Ht & E); destruct t as [|x]; [discriminate|]; apply String.eqb_eq in E; now subst|intros H; exists (TW w); split; [exact H|apply String.eqb_refl]]. Qed.
Lemma count_modes_spec mode s n : forall j fuel k, (k + j = S n)%nat -> (j <= fuel)%nat -> (forall i, (k <= i <= n)%nat -> has s (mode i) = true) -> has s (mode (S n)) = false -> count_modes mode s fuel k = S n.
Proof.
  induction j as [|j IH]; intros fuel k E F H N.
  - replace k with (S n) in * by lia. destruct fuel as [|f]; cbn [count_modes]; [reflexivity|]. now rewrite N.
  - destruct fuel as [|f]; [lia|]. cbn [count_modes]. rewrite (H k) by lia. apply IH; try lia; [|exact N]. intros i Hi. apply H. lia.
Qed.
Theorem C122_static : forall mode s n, (forall i j, mode i = mode j -> i = j) -> (forall i, (1 <= i <= n)%nat -> In (TW (mode i)) s) -> ~ In (TW (mode (S n))) s -> n_static mode s = n.
Proof.
  intros mode s n Inj H N. unfold n_static. rewrite (count_modes_spec mode s n n); [lia|lia| | |].
  - assert (L : (List.length (map (fun i => TW (mode i)) (seq 1 n)) <= List.length s)%nat); [|rewrite map_length, seq_length in L; exact L]. apply NoDup_incl_length.
    + apply FinFun.Injective_map_NoDup; [|apply seq_NoDup]. intros i j E. injection E as E. now apply Inj.
    + intros t Ht. apply in_map_iff in Ht. destruct Ht as (i & <- & Hi). apply in_seq in Hi. apply H. lia.
  - intros i Hi. apply has_spec, H, Hi.
  - apply not_true_is_false. rewrite has_spec. exact N.
Qed.

(** * The verification *)
Definition entry (f : fold) : list tok * list (list tok) := (fold_name f, fo_files f).
(** the value of the parameter p in the file j of each folder, in increasing order *)
Definition sorted_row (params : list (list (list R))) (p j : nat) : list R := rsort (map (fun folder => nth p (nth j folder []) 0) params).
(** the parameter p takes exactly n values over the whole data base *)
Definition takes (params : list (list (list R))) (p n : nat) : Prop :=
  exists l, NoDup l /\ List.length l = n /\ forall x, In x l <-> exists folder v, In folder params /\ In v folder /\ nth p v 0 = x.
(** the bounds of nInter intervals: from the smallest to the largest value of the names, one more step *)
Definition bound (us : list R) (nInter k : nat) : R := let step := nth 1 us 0 - nth 0 us 0 in nth 0 us 0 + INR k * ((last us 0 + step - nth 0 us 0) / INR nInter).
Definition within (rnd : R -> R) (nInter : nat) (us : list R) (rows : list (list R)) (k : nat) : Prop :=
  (exists row, In row rows /\ (k * nInter < List.length row)%nat) /\
  forall row q, In row rows -> (k * nInter <= q)%nat -> (q + 1 < (k + 1) * nInter)%nat -> (q < List.length row)%nat -> rnd (bound us nInter k) <= nth q row 0 <= bound us nInter (k + 1).

Lemma unique_takes params p n : List.length (np_unique (List.concat (param_at params p))) = n <-> takes params p n.
Proof.
  assert (I : forall x, In x (np_unique (List.concat (param_at params p))) <-> exists folder v, In folder params /\ In v folder /\ nth p v 0 = x).
  { intros x. rewrite np_unique_In. unfold param_at. rewrite in_concat. split.
    - intros (c & Hc & Hx). apply in_map_iff in Hc. destruct Hc as (folder & <- & Hf). apply in_map_iff in Hx. destruct Hx as (v & <- & Hv). eauto.
    - intros (folder & v & Hf & Hv & <-). exists (map (fun v => nth p v 0) folder). split; [apply in_map_iff; eauto|]. apply in_map_iff. eauto. }
  assert (ND : NoDup (np_unique (List.concat (param_at params p)))).
  { pose proof (np_unique_sorted (List.concat (param_at params p))) as S. clear I. induction S as [|x l S IH F]; [constructor|]. constructor; [|exact IH]. intros Q. rewrite Forall_forall in F. specialize (F x Q). lra. }
  split.
  - intros E. eexists. split; [exact ND|]. split; [exact E|exact I].
  - intros (l & N & E & H). rewrite <- E. apply Permutation_length, NoDup_Permutation; [exact ND|exact N|]. intros x. rewrite I, H. reflexivity.
Qed.
Lemma bounds_val nInter us : StronglySorted Rlt us -> (2 <= List.length us)%nat -> (1 <= nInter)%nat -> exists b, bounds nInter us = Ok b /\ forall k, (k <= nInter)%nat -> nth k b 0 = bound us nInter k.
Proof.
  intros S L Hn. unfold bounds. change 0%Z with (Z.of_nat 0). change 1%Z with (Z.of_nat 1). rewrite (L_Atmo.pyindex_nth 0) by lia. cbn [bind]. rewrite (L_Atmo.pyindex_nth 0) by lia. cbn [bind]. eexists. split; [reflexivity|]. intros k Hk. unfold linspace, list_lo, list_hi.
  rewrite (nth_indep _ 0 ((fun i => if (nInter + 1 =? 1)%nat then nth 0 us 0 else nth 0 us 0 + INR i * ((last us 0 + Rabs (nth 0 us 0 - nth 1 us 0) - nth 0 us 0) / INR (nInter + 1 - 1))) 0%nat)) by (rewrite map_length, seq_length; lia). rewrite (map_nth (fun i => if (nInter + 1 =? 1)%nat then _ else _)). rewrite seq_nth by lia. cbn [Nat.add]. destruct (Nat.eqb_spec (nInter + 1) 1); [lia|]. replace (nInter + 1 - 1)%nat with nInter by lia. unfold bound. cbv zeta.
  destruct us as [|a [|b us]]; cbn [List.length] in L; try lia. cbn [nth]. inversion S as [|? ? S' F]; subst. inversion F as [|? ? F1 _]; subst. rewrite Rabs_left by lra. replace (- (a - b)) with (b - a) by ring. reflexivity.
Qed.
Lemma F2_len {A B} (P : A -> B -> Prop) l m : Forall2 P l m -> List.length l = List.length m.
Proof. induction 1; cbn [List.length]; congruence. Qed.
Lemma mapM_F2 {A B} (f : A -> result B) l v : Forall2 (fun a b => f a = Ok b) l v -> M_Tools.mapM f l = Ok v.
Proof. intros H. induction H as [|a b l v E _ IH]; [reflexivity|]. cbn [M_Tools.mapM]. rewrite E, IH. reflexivity. Qed.

(** The data base is accepted exactly when the values of r0 and of A of the files are in the intervals given by the names of
    the folders (up to the ranks left out, see the findings), when each other parameter takes as many values as there are
    files in a folder, and when the fits succeed. *)
Theorem C122_verify : forall mode rnd fit nPSD fs params nSub nStatic s0 r0s As,
  let np := (nPSD + nStatic)%nat in
  Forall2 (fun f ps => Forall2 (fun s vs => carries s vs /\ List.length vs = np) (fo_files f) ps) fs params ->
  (forall f, In f fs -> List.length (fo_files f) = nSub) -> (1 <= nSub)%nat -> (6 <= np)%nat ->
  nth_error (fo_files (last fs (mkFold "" 0 "" 0 [] []))) 0 = Some s0 -> n_static mode s0 = nStatic ->
  recover_values (map fold_name fs) = Ok (r0s, As) -> (2 <= List.length r0s)%nat -> (2 <= List.length As)%nat ->
  let n := List.length r0s in let rows p := map (sorted_row params p) (seq 0 nSub) in
  let least p := nth 0 (rsort (List.concat (rows p))) 0 in
  (verify mode rnd fit nPSD (map entry fs) = Ok tt <->
   fit = true /\ (forall k, (k < n)%nat -> within (rnd (least 0%nat)) n r0s (rows 0%nat) k /\ within (rnd (least 2%nat)) n As (rows 2%nat) k) /\
   (forall p, In p ([1; 3; 4; 5] ++ seq nPSD nStatic)%nat -> takes params p nSub)).
Proof.
  intros mode rnd fit nPSD fs params nSub nStatic s0 r0s As np HF HS Hs1 Hnp H0 Hst HR L0 LA n rows least.
  assert (Nf : fs <> []) by (intros ->; cbn in HR; apply Ok_inj in HR; injection HR as <- <-; cbn in L0; lia).
  unfold recover_values in HR. rewrite names_ok in HR. cbn [bind] in HR. apply Ok_inj in HR. injection HR as E0 EA.
  unfold verify. 
  assert (Enm : M_Tools.mapM (fun f : list tok * list (list tok) => do a <- pyindex (fst f) 1; do r <- tofloat a; do b <- pyindex (fst f) 3; do s <- tofloat b; Ok (r, s)) (map entry fs) = Ok (map pair_of fs)).
  { rewrite <- names_ok. clear. induction fs as [|f fs IH]; [reflexivity|]. cbn [map M_Tools.mapM]. now rewrite IH. }
  rewrite Enm. cbn [bind]. rewrite E0, EA. fold n.
  assert (S0 : StronglySorted Rlt r0s) by (rewrite <- E0; apply np_unique_sorted). assert (SA : StronglySorted Rlt As) by (rewrite <- EA; apply np_unique_sorted).
  destruct (bounds_val n r0s S0 L0 ltac:(lia)) as (b0 & Eb0 & B0). destruct (bounds_val n As SA LA ltac:(lia)) as (bA & EbA & BA). rewrite Eb0. cbn [bind]. rewrite EbA. cbn [bind].
  assert (Ec : map (fun f : list tok * list (list tok) => List.length (snd f)) (map entry fs) = repeat nSub (List.length fs)).
  { clear - HS. induction fs as [|f fs IH]; [reflexivity|]. cbn [map List.length repeat entry snd]. f_equal; [apply HS; now left|apply IH; intros g Hg; apply HS; now right]. }
  rewrite Ec. assert (En : nth 0 (repeat nSub (List.length fs)) 0%nat = nSub) by (destruct fs; [contradiction|reflexivity]). rewrite En.
  assert (Ea : forallb (fun c => (c =? nSub)%nat) (repeat nSub (List.length fs)) = true) by (apply forallb_forall; intros c Hc; apply repeat_spec in Hc; subst; apply Nat.eqb_refl). rewrite Ea. cbn [negb].
  assert (El : snd (last (map entry fs) ([], [])) = fo_files (last fs (mkFold "" 0 "" 0 [] []))).
  { clear - Nf. induction fs as [|f fs IH]; [contradiction|]. destruct fs as [|g fs]; [reflexivity|]. change (last (map entry (f :: g :: fs)) ([], [])) with (last (map entry (g :: fs)) ([], [])). change (last (f :: g :: fs) (mkFold "" 0 "" 0 [] [])) with (last (g :: fs) (mkFold "" 0 "" 0 [] [])). apply IH. discriminate. }
  rewrite El. pose proof (pyindex_some _ 0 s0 H0) as Ei. change (Z.of_nat 0) with 0%Z in Ei. rewrite Ei. cbn [bind]. rewrite Hst. fold np.
  assert (Ep : M_Tools.mapM (fun f => M_Tools.mapM (file_params np) (snd f)) (map entry fs) = Ok params).
  { apply mapM_F2. clear - HF. induction HF as [|f ps fs params H _ IH]; cbn [map]; constructor; [|exact IH]. cbn [entry snd]. apply mapM_F2. clear - H. induction H as [|s vs l ps (A & B) _ IH]; constructor; [now apply C122_file|exact IH]. }
  rewrite Ep. cbn [bind]. destruct (Nat.leb_spec np 2); [lia|]. destruct (Nat.leb_spec np 5); [lia|].
  assert (Er : forall p, map (row_sorted (param_at params p)) (seq 0 nSub) = rows p).
  { intros p. unfold rows. assert (LP : forall ps, In ps params -> List.length ps = nSub).
    { clear - HF HS. induction HF as [|f ps fs params H _ IH]; intros q Hq; [destruct Hq|]. destruct Hq as [<-|Hq]; [rewrite <- (HS f (or_introl eq_refl)); symmetry; apply (F2_len _ _ _ H)|]. apply IH; [|exact Hq]. intros g Hg. apply HS. now right. }
    apply map_ext_in. intros j Hj. apply in_seq in Hj. unfold row_sorted, sorted_row, param_at. f_equal. rewrite map_map. apply map_ext_in. intros ps Hps. specialize (LP ps Hps). rewrite (nth_indep _ 0 ((fun v => nth p v 0) [])) by (rewrite map_length; lia). apply (map_nth (fun v : list R => nth p v 0)). }
  rewrite !Er. unfold min_of, list_lo. fold (least 0%nat). fold (least 2%nat).
  assert (W : forall us b r rs k, (k < n)%nat -> (forall k, (k <= n)%nat -> nth k b 0 = bound us n k) -> (inside r n b rs k <-> within r n us rs k)).
  { intros us b r rs k Hk HB. unfold inside, within. rewrite HB, HB by lia. reflexivity. }
  set (X := existsb _ (seq 0 n)). set (Y := existsb _ ([1; 3; 4; 5] ++ seq nPSD nStatic)%nat).
  assert (HX : X = false <-> forall k, (k < n)%nat -> within (rnd (least 0%nat)) n r0s (rows 0%nat) k /\ within (rnd (least 2%nat)) n As (rows 2%nat) k).
  { unfold X. split.
    - intros E k Hk. assert (Q : bad_block (rnd (least 0%nat)) n b0 (rows 0%nat) k || bad_block (rnd (least 2%nat)) n bA (rows 2%nat) k = false).
      { apply not_true_is_false. intros T. assert (existsb (fun k => bad_block (rnd (least 0%nat)) n b0 (rows 0%nat) k || bad_block (rnd (least 2%nat)) n bA (rows 2%nat) k) (seq 0 n) = true); [apply existsb_exists; exists k; split; [apply in_seq; lia|exact T]|]. congruence. }
      apply orb_false_iff in Q. destruct Q as [Q1 Q2]. apply block_spec in Q1; [|exact L0]. apply block_spec in Q2; [|exact L0]. split; [apply (W r0s b0)|apply (W As bA)]; assumption.
    - intros H3. apply not_true_is_false. intros T. apply existsb_exists in T. destruct T as (k & Hk & T). apply in_seq in Hk. destruct (H3 k ltac:(lia)) as [W1 W2]. apply orb_true_iff in T. destruct T as [T|T].
      + apply (W r0s b0) in W1; [|lia|exact B0]. apply block_spec in W1; [congruence|exact L0].
      + apply (W As bA) in W2; [|lia|exact BA]. apply block_spec in W2; [congruence|exact L0]. }
  assert (HY : Y = false <-> forall p, In p ([1; 3; 4; 5] ++ seq nPSD nStatic)%nat -> takes params p nSub).
  { unfold Y. split.
    - intros E p Hp. apply unique_takes. apply Nat.eqb_eq. destruct (Nat.eqb _ nSub) eqn:Q; [reflexivity|]. exfalso. match type of E with existsb ?f ?l = false => assert (T : existsb f l = true) end; [|congruence]. apply existsb_exists. exists p. split; [exact Hp|]. now rewrite Q.
    - intros H3. apply not_true_is_false. intros T. apply existsb_exists in T. destruct T as (p & Hp & T). specialize (H3 p Hp). apply unique_takes in H3. rewrite H3, Nat.eqb_refl in T. discriminate. }
  clearbody X Y. destruct X.
  - split; [discriminate|]. intros (_ & H3 & _). apply HX in H3. discriminate.
  - destruct Y; [split; [discriminate|]; intros (_ & _ & H3); apply HY in H3; discriminate|]. destruct fit; [|split; [discriminate|intros (H3 & _); discriminate]]. split; [intros _|reflexivity]. split; [reflexivity|]. split; [now apply HX|now apply HY].
Qed.

(** * What is refused *)
(** Folders with different numbers of files are refused. *)
Theorem C122_counts : forall mode rnd fit nPSD fs f g, In f fs -> In g fs -> List.length (fo_files f) <> List.length (fo_files g) -> exists e, verify mode rnd fit nPSD (map entry fs) = Err e.
Proof.
  intros mode rnd fit nPSD fs f g Hf Hg N. unfold verify. destruct (M_Tools.mapM _ (map entry fs)) as [nm|e]; cbn [bind]; [|eauto]. destruct (bounds _ (np_unique (map fst nm))) as [b|e]; cbn [bind]; [|eauto]. destruct (bounds _ (np_unique (map snd nm))) as [b'|e]; cbn [bind]; [|eauto].
  set (c := map (fun f : list tok * list (list tok) => List.length (snd f)) (map entry fs)). destruct (forallb (fun x => (x =? nth 0 c 0)%nat) c) eqn:E; [|cbn [negb]; eauto]. exfalso. rewrite forallb_forall in E. apply N. assert (I : forall h, In h fs -> List.length (fo_files h) = nth 0 c 0%nat). { intros h Hh. apply Nat.eqb_eq, E. unfold c. rewrite map_map. apply in_map_iff. exists h. split; [reflexivity|exact Hh]. } now rewrite (I f Hf), (I g Hg).
Qed.
(** A data base with a single value of r0 (or of A) cannot be verified: IndexError. *)
Theorem C122_single_refuted : forall mode rnd fit nPSD fs, (exists x, forall f, In f fs -> fo_r0 f = x) \/ (exists x, forall f, In f fs -> fo_A f = x) -> verify mode rnd fit nPSD (map entry fs) = Err IndexError.
Proof.
  intros mode rnd fit nPSD fs H. unfold verify.
  assert (Enm : M_Tools.mapM (fun f : list tok * list (list tok) => do a <- pyindex (fst f) 1; do r <- tofloat a; do b <- pyindex (fst f) 3; do s <- tofloat b; Ok (r, s)) (map entry fs) = Ok (map pair_of fs)).
  { rewrite <- names_ok. clear. induction fs as [|f fs IH]; [reflexivity|]. cbn [map M_Tools.mapM]. now rewrite IH. }
  rewrite Enm. cbn [bind]. rewrite !map_map.
  assert (U : forall (h : fold -> R), (exists x, forall f, In f fs -> h f = x) -> forall n, bounds n (np_unique (map h fs)) = Err IndexError).
  { intros h (x & Hx) n. unfold bounds. set (u := np_unique (map h fs)). assert (A : forall y, In y u -> y = x) by (intros y Hy; unfold u in Hy; apply np_unique_In, in_map_iff in Hy; destruct Hy as (f & <- & Hf); now apply Hx). assert (S : StronglySorted Rlt u) by apply np_unique_sorted. destruct u as [|a [|b u]]; [reflexivity|reflexivity|]. exfalso. inversion S as [|? ? _ F]; subst. inversion F; subst. pose proof (A a (or_introl eq_refl)). pose proof (A b (or_intror (or_introl eq_refl))). lra. }
  assert (UE : forall (h : fold -> R) n, (exists b, bounds n (np_unique (map h fs)) = Ok b) \/ bounds n (np_unique (map h fs)) = Err IndexError).
  { intros h n. unfold bounds. destruct (np_unique (map h fs)) as [|a [|b u]]; [now right|now right|left]. change 0%Z with (Z.of_nat 0). change 1%Z with (Z.of_nat 1). rewrite (pyindex_some _ 0 a), (pyindex_some _ 1 b) by reflexivity. cbn [bind]. eauto. }
  cbn [pair_of fst snd]. destruct H as [H|H].
  - rewrite (U (fun f => fo_r0 f) H). reflexivity.
  - destruct (UE (fun f => fo_r0 f) (List.length (np_unique (map (fun f => fo_r0 f) fs)))) as [(b & ->)|E]; [|rewrite E; reflexivity]. cbn [bind]. rewrite (U (fun f => fo_A f) H). reflexivity.
Qed.

(** * What should not be accepted *)
(** Four folders (r0 = 1 or 2, A = 1 or 2), two files each. In the last folder the files have r0 = 100; in the first one the
    second parameter is 1 in one file and 2 in the other, in the others it is 1 in both. *)
Definition file6 (v : list R) : list tok := TW "r0" :: labelled v ["L"; "L"; "L"; "L"; "L"; "L"]%string.
Definition bad_params : list (list (list R)) :=
  [[[1; 1; 1; 1; 1; 1]; [1; 2; 1; 2; 2; 2]]; [[1; 1; 2; 1; 1; 1]; [1; 1; 2; 1; 1; 1]]; [[2; 1; 1; 1; 1; 1]; [2; 1; 1; 1; 1; 1]]; [[100; 1; 2; 1; 1; 1]; [100; 1; 2; 1; 1; 1]]].
Definition bad_base : list fold :=
  map (fun q => mkFold "r0" (fst (fst q)) "A" (snd (fst q)) [] (map file6 (snd q))) (combine [(1, 1); (1, 2); (2, 1); (2, 2)] bad_params).
Lemma rsort_id l : StronglySorted Rle l -> rsort l = l.
Proof. intros S. induction S as [|x l S IH F]; [reflexivity|]. change (rsort (x :: l)) with (rinsert x (rsort l)). rewrite IH. destruct l as [|y l]; [reflexivity|]. cbn [rinsert]. inversion F; subst. destruct (Rle_dec x y); [reflexivity|contradiction]. Qed.
(** The largest value of r0, out of all intervals ([1, 2] and [2, 3]), and the different distributions of the second
    parameter are not seen: the base is accepted. *)
Theorem C122_out_of_range_refuted : forall mode, mode 1%nat <> "r0"%string -> mode 1%nat <> "L"%string -> verify mode (fun _ x => x) true 6 (map entry bad_base) = Ok tt.
Proof.
  intros mode M1 M2. assert (NS : n_static mode (file6 [100; 1; 2; 1; 1; 1]) = 0%nat).
  { assert (E : has (file6 [100; 1; 2; 1; 1; 1]) (mode 1%nat) = false); [|unfold n_static; change (List.length (file6 [100; 1; 2; 1; 1; 1])) with 13%nat; cbn [count_modes]; rewrite E; reflexivity]. apply not_true_is_false. rewrite has_spec. cbn. intros H. repeat (destruct H as [H|H]; [congruence|]). exact H. }
  destruct (C122_recover bad_base) as (r0s & As & ER & S0 & SA & I0 & IA).
  assert (U : forall u : list R, StronglySorted Rlt u -> (forall x, In x u <-> x = 1 \/ x = 2) -> u = [1; 2]).
  { intros u Su Hu. inversion Su as [|a u' Su' F]; subst; [exfalso; apply (proj2 (Hu 1)); auto|]. rewrite Forall_forall in F. assert (a = 1). { destruct (proj1 (Hu a) (or_introl eq_refl)) as [|E]; [assumption|]. exfalso. destruct (proj2 (Hu 1) (or_introl eq_refl)) as [Q|Q]; [lra|]. specialize (F 1 Q). lra. } subst a. f_equal.
    inversion Su' as [|b u'' Su'' F']; subst; [exfalso; destruct (proj2 (Hu 2) (or_intror eq_refl)) as [Q|[]]; lra|]. rewrite Forall_forall in F'. assert (b = 2). { destruct (proj1 (Hu b) (or_intror (or_introl eq_refl))) as [E|]; [|assumption]. specialize (F b (or_introl eq_refl)). lra. } subst b. f_equal. destruct u'' as [|c u'']; [reflexivity|exfalso]. specialize (F' c (or_introl eq_refl)). destruct (proj1 (Hu c) (or_intror (or_intror (or_introl eq_refl)))); lra. }
  assert (Hr : r0s = [1; 2]). { apply U; [exact S0|]. intros x. rewrite I0. split; [intros (f & Hf & <-); cbn in Hf; repeat (destruct Hf as [<-|Hf]; [cbn; tauto|]); destruct Hf|]. intros [->| ->]; [exists (nth 0 bad_base (mkFold "" 0 "" 0 [] []))|exists (nth 2 bad_base (mkFold "" 0 "" 0 [] []))]; (split; [apply nth_In; cbn; lia|reflexivity]). }
  assert (Ha : As = [1; 2]). { apply U; [exact SA|]. intros x. rewrite IA. split; [intros (f & Hf & <-); cbn in Hf; repeat (destruct Hf as [<-|Hf]; [cbn; tauto|]); destruct Hf|]. intros [->| ->]; [exists (nth 0 bad_base (mkFold "" 0 "" 0 [] []))|exists (nth 1 bad_base (mkFold "" 0 "" 0 [] []))]; (split; [apply nth_In; cbn; lia|reflexivity]). }
  subst r0s As. pose proof (C122_verify mode (fun _ x => x) true 6 bad_base bad_params 2 0 (file6 [100; 1; 2; 1; 1; 1]) [1; 2] [1; 2]) as V. cbv zeta in V. apply V; clear V.
  - assert (C : forall v, List.length v = 6%nat -> carries (file6 v) v /\ List.length v = 6%nat) by (intros v Hv; split; [|exact Hv]; exists [], ["L"; "L"; "L"; "L"; "L"; "L"]%string, []; split; [unfold file6; rewrite app_nil_r; reflexivity|split; [intros []|now rewrite Hv]]).
    unfold bad_base, bad_params. cbn [combine map fst snd]. repeat (constructor; [cbn [fo_files]; repeat (constructor; [apply C; reflexivity|]); constructor|]). constructor.
  - intros f Hf. cbn in Hf. repeat (destruct Hf as [<-|Hf]; [reflexivity|]). destruct Hf.
  - lia.
  - lia.
  - reflexivity.
  - exact NS.
  - exact ER.
  - cbn; lia.
  - cbn; lia.
  - assert (R0 : forall j, (j < 2)%nat -> sorted_row bad_params 0 j = [1; 1; 2; 100]). { intros j Hj. destruct j as [|[|j]]; [| |lia]; unfold sorted_row, bad_params; cbn [map nth]; apply rsort_id; repeat (constructor; [|repeat (constructor; try lra)]); constructor. }
    assert (R2 : forall j, (j < 2)%nat -> sorted_row bad_params 2 j = [1; 1; 2; 2]). { intros j Hj. destruct j as [|[|j]]; [| |lia]; unfold sorted_row, bad_params; cbn [map nth rsort fold_right rinsert]; repeat (destruct (Rle_dec _ _); cbn [rinsert]; try (exfalso; lra)); reflexivity. }
    assert (B : forall k, bound [1; 2] 2 k = 1 + INR k) by (intros k; unfold bound; cbn; lra).
    split; [reflexivity|]. split.
    + intros k Hk. cbn [List.length] in Hk. split.
      * split; [exists (sorted_row bad_params 0 0); split; [apply in_map_iff; exists 0%nat; split; [reflexivity|apply in_seq; lia]|rewrite R0 by lia; cbn [List.length]; lia]|].
        intros row q Hrow A1 A2 A3. apply in_map_iff in Hrow. destruct Hrow as (j & <- & Hj). apply in_seq in Hj. cbn [List.length] in A1, A2. rewrite R0 in * by lia. rewrite !B. destruct k as [|[|k]]; [| |lia].
        -- replace q with 0%nat by lia. cbn. lra.
        -- replace q with 2%nat by lia. cbn. lra.
      * split; [exists (sorted_row bad_params 2 0); split; [apply in_map_iff; exists 0%nat; split; [reflexivity|apply in_seq; lia]|rewrite R2 by lia; cbn [List.length]; lia]|].
        intros row q Hrow A1 A2 A3. apply in_map_iff in Hrow. destruct Hrow as (j & <- & Hj). apply in_seq in Hj. cbn [List.length] in A1, A2. rewrite R2 in * by lia. rewrite !B. destruct k as [|[|k]]; [| |lia].
        -- replace q with 0%nat by lia. cbn. lra.
        -- replace q with 2%nat by lia. cbn. lra.
    + intros p Hp. exists [1; 2]. split; [constructor; [intros [Q|[]]; lra|constructor; [intros []|constructor]]|]. split; [reflexivity|]. cbn [seq app In] in Hp.
      intros x. split.
      * intros [<-|[<-|[]]]; [exists (nth 1 bad_params []), [1; 1; 2; 1; 1; 1]|exists (nth 0 bad_params []), [1; 2; 1; 2; 2; 2]]; (split; [cbn; auto|]; split; [cbn; auto|]; repeat (destruct Hp as [<-|Hp]; [reflexivity|]); destruct Hp).
      * intros (fo & v & H1 & H2 & <-). cbn in H1. repeat (destruct H1 as [<-|H1]; [cbn in H2; repeat (destruct H2 as [<-|H2]; [repeat (destruct Hp as [<-|Hp]; [cbn; auto|]); destruct Hp|]); destruct H2|]). destruct H1.
Qed.
Example C122_bad_value : In (mkFold "r0" 2 "A" 2 [] [file6 [100; 1; 2; 1; 1; 1]; file6 [100; 1; 2; 1; 1; 1]]) bad_base /\ bound [1; 2] 2 2 = 3.
Proof. split; [cbn; tauto|unfold bound; cbn; lra]. Qed.
(** In general the largest value of each row is never compared to anything when there are nInter^2 folders: moving it up changes nothing. *)
Theorem C122_last_rank_refuted : forall rnd nInter bs rows row x y k, (2 <= nInter)%nat -> List.length row = (nInter * nInter - 1)%nat -> bad_block rnd nInter bs (rows ++ [row ++ [x]]) k = bad_block rnd nInter bs (rows ++ [row ++ [y]]) k.
Proof.
  intros rnd nInter bs rows row x y k Hn L. unfold bad_block. assert (E : flat_map (block nInter k) (rows ++ [row ++ [x]]) = flat_map (block nInter k) (rows ++ [row ++ [y]])); [|now rewrite E]. rewrite !flat_map_app. f_equal. cbn [flat_map]. f_equal. unfold block.
  destruct (le_lt_dec nInter k) as [H|H].
  - rewrite !skipn_all2 by (rewrite app_length, L; cbn [List.length]; nia). reflexivity.
  - assert (K : (k * nInter + nInter <= nInter * nInter)%nat) by nia. rewrite !skipn_app, !firstn_app. f_equal. rewrite skipn_length, L. replace (nInter - 1 - (nInter * nInter - 1 - k * nInter))%nat with 0%nat by lia. reflexivity.
Qed.

Print Assumptions C122_recover.
Print Assumptions C122_recover_refused.
Print Assumptions C122_file.
Print Assumptions C122_file_refused.
Print Assumptions C122_static.
Print Assumptions C122_verify.
Print Assumptions C122_counts.
Print Assumptions C122_single_refuted.
Print Assumptions C122_out_of_range_refuted.
Print Assumptions C122_last_rank_refuted.
