(** Property C121: reading the results of a network and measuring its accuracy. *)
From Coq Require Import Reals List Arith ZArith Bool Lia Lra String Sorted Permutation.
From Verif Require Import Base_Py Base_Sum M_Image M_Tools M_Atmo M_Freq M_Metric M_Deep S_Tools L_Tools L_Atmo L_Model L_Model3 L_Metric L_Flux P_Diag5 P_Aniso2 P_Psfr3.
Import ListNotations.
Open Scope R_scope.

(** * Lemmas *)
Lemma mapM_app {A B} (f : A -> result B) l m : M_Tools.mapM f (l ++ m) = (do a <- M_Tools.mapM f l; do b <- M_Tools.mapM f m; Ok (a ++ b)).
Proof. induction l as [|x l IH]; cbn [app M_Tools.mapM bind]; [destruct (M_Tools.mapM f m); reflexivity|]. destruct (f x); cbn [bind]; [|reflexivity]. rewrite IH. destruct (M_Tools.mapM f l); cbn [bind]; [|reflexivity]. destruct (M_Tools.mapM f m); reflexivity. Qed.
Lemma tofloat_nums v : M_Tools.mapM tofloat (map TN v) = Ok v.
Proof. induction v as [|x v IH]; [reflexivity|]. cbn [map M_Tools.mapM tofloat bind]. now rewrite IH. Qed.
Lemma tofloat_inv l v : M_Tools.mapM tofloat l = Ok v -> l = map TN v.
Proof. revert v. induction l as [|t l IH]; intros v H; cbn [M_Tools.mapM] in H; [apply Ok_inj in H; now subst|]. destruct t; cbn [tofloat bind] in H; [|discriminate]. destruct (M_Tools.mapM tofloat l) as [w|]; cbn [bind] in H; [|discriminate]. apply Ok_inj in H. subst v. cbn [map]. f_equal. now apply IH. Qed.
Lemma tofloat_err l e : M_Tools.mapM tofloat l = Err e -> e = ValueError.
Proof. induction l as [|t l IH]; cbn [M_Tools.mapM]; [discriminate|]. destruct t; cbn [tofloat bind]; [|intros H; injection H as <-; reflexivity]. destruct (M_Tools.mapM tofloat l); cbn [bind]; [discriminate|]. intros H. injection H as ->. auto. Qed.
Lemma fill_ok n v : List.length v = n -> fill n v = Ok v.
Proof. intros H. unfold fill. rewrite H, Nat.eqb_refl. reflexivity. Qed.

(** * Reading *)
(** A file: a first line with as many numbers as parameters, a line of labels, lines of 2 n numbers (the truth, then the
    estimate) and one more line. Each of these lines gives its truth and its estimate, in order. *)
Theorem C121_read : forall first lab rows lst, let n := List.length (filter is_float first) in
  (forall r, In r rows -> List.length (fst r) = n /\ List.length (snd r) = n) ->
  read_txt (first :: lab :: map (fun r => map TN (fst r ++ snd r)) rows ++ [lst]) = Ok (n, rows, labels_of lab).
Proof.
  intros first lab rows lst n H. unfold read_txt. cbn [nth skipn]. change (n_param first) with n. rewrite app_length, map_length. cbn [List.length]. destruct (Z.ltb_spec (Z.of_nat (List.length rows + 1) - 1) 0); [lia|]. replace (Z.to_nat (Z.of_nat (List.length rows + 1) - 1)) with (List.length (map (fun r : list R * list R => map TN (fst r ++ snd r)) rows) + 0)%nat by (rewrite map_length; lia). rewrite firstn_app_2. cbn [firstn]. rewrite app_nil_r.
  assert (E : M_Tools.mapM (read_line n) (map (fun r => map TN (fst r ++ snd r)) rows) = Ok rows); [|rewrite E; reflexivity]. clear - H. induction rows as [|[g e] rows IH]; [reflexivity|]. cbn [map M_Tools.mapM]. destruct (H (g, e) (or_introl eq_refl)) as [Hg He]. cbn [fst snd] in *. unfold read_line at 1. rewrite tofloat_nums. cbn [bind].
  rewrite firstn_app, Hg, Nat.sub_diag. cbn [firstn]. rewrite app_nil_r, firstn_all2 by lia. rewrite fill_ok by exact Hg. cbn [bind]. rewrite skipn_app, Hg, Nat.sub_diag. cbn [skipn]. rewrite skipn_all2 by lia. cbn [app]. rewrite fill_ok by exact He. cbn [bind]. rewrite IH; [reflexivity|]. intros r Hr. apply H. now right.
Qed.
(** The labels are those of the first half of the line of labels, after its first word. *)
Theorem C121_labels : forall head l m, List.length l = List.length m -> labels_of (head :: l ++ m) = l.
Proof.
  intros head l m H. unfold labels_of. cbn [List.length]. rewrite app_length, H. replace (Z.quot (Z.of_nat (S (List.length m + List.length m)) - 1 + 2) 2) with (Z.of_nat (S (List.length m))) by (replace (Z.of_nat (S (List.length m + List.length m)) - 1 + 2)%Z with (Z.of_nat (S (List.length m)) * 2)%Z by lia; now rewrite Z.quot_mul by lia).
  change 1%Z with (Z.of_nat 1). rewrite pyslice_nat; [|lia|cbn [List.length]; rewrite app_length; lia]. cbn [skipn]. replace (S (List.length m) - 1)%nat with (List.length l + 0)%nat by lia. rewrite firstn_app_2. cbn [firstn]. apply app_nil_r.
Qed.
(** a file of two parameters and two samples: the second sample is not read *)
Example C121_ex_read : let f := [TW "x"; TN 1; TN 2] in
  read_txt [f; [TW "labels"; TW "a"; TW "b"; TW "a"; TW "b"]; map TN [1; 2; 3; 4]; map TN [5; 6; 7; 8]] = Ok (2%nat, [([1; 2], [3; 4])], [TW "a"; TW "b"]).
Proof. cbv zeta. exact (C121_read [TW "x"; TN 1; TN 2] [TW "labels"; TW "a"; TW "b"; TW "a"; TW "b"] [([1; 2], [3; 4])] (map TN [5; 6; 7; 8]) ltac:(intros r [ <-|[]]; split; reflexivity)). Qed.

(** The last line of the file is never read: replacing it by anything (even by words) changes nothing, so the last sample
    of a set is silently dropped. *)
Theorem C121_last_line_refuted : forall first lab body l l', read_txt (first :: lab :: body ++ [l]) = read_txt (first :: lab :: body ++ [l']).
Proof.
  intros. unfold read_txt. cbn [nth skipn]. rewrite !app_length. cbn [List.length]. replace (Z.to_nat (Z.of_nat (List.length body + 1) - 1)) with (List.length body + 0)%nat by lia. rewrite !firstn_app_2. reflexivity.
Qed.
(** A line with one number after the truth is accepted: this number is taken as the estimate of every parameter. *)
Theorem C121_repeat_refuted : forall n g x, List.length g = n -> read_line n (map TN (g ++ [x])) = Ok (g, repeat x n).
Proof.
  intros n g x H. unfold read_line. rewrite tofloat_nums. cbn [bind]. rewrite firstn_app, H, Nat.sub_diag. cbn [firstn]. rewrite app_nil_r, firstn_all2 by lia. rewrite fill_ok by exact H. cbn [bind]. rewrite skipn_app, H, Nat.sub_diag. cbn [skipn]. rewrite skipn_all2 by lia. cbn [app]. unfold fill. cbn [List.length]. destruct (Nat.eqb_spec 1 n) as [<-|Q]; reflexivity.
Qed.
(** What is accepted: numbers only, as many truths and estimates as parameters, or one value repeated. *)
Theorem C121_refused : forall n l, (2 <= n)%nat ->
  (forall r, read_line n l = Ok r -> exists g v, l = map TN (g ++ v) /\ fst r = g /\ List.length g = n /\ (snd r = v /\ List.length v = n \/ exists x, v = [x] /\ snd r = repeat x n)) /\
  (forall w, In (TW w) l -> read_line n l = Err ValueError) /\
  ((List.length l <> 2 * n)%nat -> (List.length l <> n + 1)%nat -> read_line n l = Err ValueError).
Proof.
  intros n l Hn. assert (FE : forall v, (List.length v <> n)%nat -> (List.length v <> 1)%nat -> fill n v = Err ValueError).
  { intros v H H1. unfold fill. destruct (Nat.eqb_spec (List.length v) n); [contradiction|]. destruct v as [|x [|y v]]; cbn [List.length] in *; [reflexivity|lia|reflexivity]. }
  split; [|split].
  - intros r H. unfold read_line in H. destruct (M_Tools.mapM tofloat l) as [v|] eqn:E; cbn [bind] in H; [|discriminate]. apply tofloat_inv in E. destruct (fill n (firstn n v)) as [g|] eqn:G; cbn [bind] in H; [|discriminate]. destruct (fill n (skipn n v)) as [e|] eqn:Ee; cbn [bind] in H; [|discriminate]. apply Ok_inj in H. subst r. cbn [fst snd].
    assert (Lv : (n <= List.length v)%nat). { unfold fill in Ee. pose proof (skipn_length n v) as S. destruct (Nat.eqb_spec (List.length (skipn n v)) n); [lia|]. destruct (skipn n v) as [|x [|y t]]; cbn [List.length] in *; try discriminate. lia. }
    exists (firstn n v), (skipn n v). rewrite firstn_skipn. split; [exact E|]. assert (Lg : List.length (firstn n v) = n) by (rewrite firstn_length; lia). rewrite fill_ok in G by exact Lg. apply Ok_inj in G. subst g. split; [reflexivity|]. split; [exact Lg|].
    unfold fill in Ee. destruct (Nat.eqb_spec (List.length (skipn n v)) n) as [Q|Q]; [apply Ok_inj in Ee; subst; auto|]. destruct (skipn n v) as [|x [|y t]]; try discriminate. right. exists x. apply Ok_inj in Ee. subst. auto.
  - intros w H. unfold read_line. destruct (M_Tools.mapM tofloat l) as [v|e] eqn:E; cbn [bind]; [|apply tofloat_err in E; now subst]. apply tofloat_inv in E. subst l. apply in_map_iff in H. destruct H as (x & X & _). discriminate.
  - intros H1 H2. unfold read_line. destruct (M_Tools.mapM tofloat l) as [v|e] eqn:E; cbn [bind]; [|apply tofloat_err in E; now subst]. apply tofloat_inv in E. subst l. rewrite map_length in *. destruct (le_lt_dec n (List.length v)) as [Q|Q].
    + rewrite fill_ok by (rewrite firstn_length; lia). cbn [bind]. rewrite FE; [reflexivity| |]; rewrite skipn_length; lia.
    + rewrite (firstn_all2 v) by lia. rewrite (skipn_all2 v) by lia. destruct (Nat.eq_dec (List.length v) 1) as [O|O].
      * destruct v as [|x [|y v]]; try discriminate. unfold fill at 1. cbn [List.length]. destruct (Nat.eqb_spec 1 n); [lia|]. cbn [bind]. unfold fill. cbn [List.length]. destruct (Nat.eqb_spec 0 n); [lia|]. reflexivity.
      * rewrite FE by lia. reflexivity.
Qed.

(** * Metrics *)
Lemma sub2_length a b : List.length a = List.length b -> List.length (sub2 a b) = List.length a.
Proof. intros H. unfold sub2. rewrite map_length, combine_length. lia. Qed.
Lemma sub2_sum a : forall b, List.length a = List.length b -> M_Tools.lsum (sub2 a b) = M_Tools.lsum a - M_Tools.lsum b.
Proof. induction a as [|x a IH]; intros [|y b] H; cbn [List.length] in H; try discriminate; [cbn; lra|]. unfold sub2 in *. cbn [combine map M_Tools.lsum fold_right fst snd]. unfold M_Tools.lsum in IH. rewrite IH by lia. lra. Qed.
Lemma INR_len {A} (l : list A) : l <> [] -> 0 < INR (List.length l).
Proof. intros H. destruct l; [contradiction|]. cbn [List.length]. rewrite S_INR. pose proof (pos_INR (List.length l)). lra. Qed.
Lemma nanstd_val l : l <> [] -> nanstd l = Ok (sqrt (lmean (map (fun v => (v - lmean l) * (v - lmean l)) l))).
Proof. intros H. unfold nanstd. destruct l; [contradiction|reflexivity]. Qed.
Lemma sub_metrics_ok v : v <> [] -> exists m s, sub_metrics v = Ok (lmean v, m, s) /\ median v = Ok m /\ s = sqrt (lmean (map (fun x => (x - lmean v) ^ 2) v)).
Proof.
  intros H. destruct (median_def v H) as (m & Em). unfold sub_metrics. rewrite Em, nanstd_val by exact H. cbn [bind]. exists m, (sqrt (lmean (map (fun x => (x - lmean v) * (x - lmean v)) v))). split; [reflexivity|]. split; [reflexivity|]. f_equal. f_equal. apply map_ext. intros x. ring.
Qed.
Lemma lsum_map_const {A} (l : list A) c : M_Tools.lsum (map (fun _ => c) l) = INR (List.length l) * c.
Proof. induction l as [|x l IH]; [cbn; ring|]. cbn [map M_Tools.lsum fold_right List.length]. unfold M_Tools.lsum in IH. rewrite IH, S_INR. ring. Qed.
Lemma lmean_const {A} (l : list A) c : l <> [] -> lmean (map (fun _ => c) l) = c.
Proof. intros H. unfold lmean. rewrite lsum_map_const, map_length. field. apply Rgt_not_eq, INR_len, H. Qed.

(** ** the median is within one standard deviation of the mean *)
Lemma nth_le l : StronglySorted Rle l -> forall i j, (i <= j)%nat -> (j < List.length l)%nat -> nth i l 0 <= nth j l 0.
Proof.
  intros S. induction S as [|x l S IH F]; intros i j H1 H2; cbn [List.length] in H2; [lia|]. destruct i, j; cbn [nth]; [lra| |lia|apply IH; lia]. rewrite Forall_forall in F. apply F, nth_In. lia.
Qed.
Lemma lsum_rev_nth l (f : R -> R) : M_Tools.lsum (map f l) = rsum (List.length l) (fun i => f (nth i l 0)).
Proof. rewrite lsum_nth, map_length. apply rsum_ext. intros i Hi. rewrite (nth_indep _ 0 (f 0)) by (rewrite map_length; exact Hi). apply map_nth. Qed.
Lemma median_sorted l m : median l = Ok m -> forall i, (i < List.length l)%nat -> (i <= List.length l - 1 - i)%nat -> nth i (rsort l) 0 <= m <= nth (List.length l - 1 - i) (rsort l) 0.
Proof.
  intros H i Hi Hs. pose proof (rsort_sorted l) as S. pose proof (Permutation_length (rsort_perm l)) as L. pose proof (nth_le _ S) as M. rewrite <- L in M. unfold median in H. destruct (Nat.eqb_spec (List.length l) 0); [lia|]. pose proof (Nat.div_mod (List.length l) 2 ltac:(lia)) as D. destruct (Nat.odd (List.length l)) eqn:O.
  - destruct (nth_error (rsort l) (List.length l / 2)) as [w|] eqn:E; [|discriminate]. apply Ok_inj in H. subst w. apply nth_error_nth with (d := 0) in E. subst m. assert (List.length l mod 2 = 1)%nat by (apply Nat.odd_spec in O; destruct O as (q & ->); rewrite Nat.add_mod, Nat.mul_comm, Nat.mod_mul by lia; reflexivity). split; apply M; lia.
  - destruct (nth_error (rsort l) (List.length l / 2 - 1)) as [u|] eqn:E; [|discriminate]. destruct (nth_error (rsort l) (List.length l / 2)) as [w|] eqn:E'; [|discriminate]. apply Ok_inj in H. subst m. apply nth_error_nth with (d := 0) in E. apply nth_error_nth with (d := 0) in E'. subst u w.
    assert (List.length l mod 2 = 0)%nat by (rewrite <- Nat.negb_even in O; apply negb_false_iff, Nat.even_spec in O; destruct O as (q & ->); rewrite Nat.mul_comm; apply Nat.mod_mul; lia).
    assert (nth i (rsort l) 0 <= nth (List.length l / 2 - 1) (rsort l) 0) by (apply M; lia). assert (nth i (rsort l) 0 <= nth (List.length l / 2) (rsort l) 0) by (apply M; lia). assert (nth (List.length l / 2 - 1) (rsort l) 0 <= nth (List.length l - 1 - i) (rsort l) 0) by (apply M; lia). assert (nth (List.length l / 2) (rsort l) 0 <= nth (List.length l - 1 - i) (rsort l) 0) by (apply M; lia). lra.
Qed.
Lemma median_best l m c : median l = Ok m -> M_Tools.lsum (map (fun x => Rabs (x - m)) l) <= M_Tools.lsum (map (fun x => Rabs (x - c)) l).
Proof.
  intros H. pose proof (rsort_perm l) as P. rewrite (lsum_perm _ _ (Permutation_map (fun x => Rabs (x - m)) P)), (lsum_perm _ _ (Permutation_map (fun x => Rabs (x - c)) P)). rewrite !lsum_rev_nth. pose proof (Permutation_length P) as L. rewrite <- L. set (s := rsort l) in *. set (n := List.length l) in *.
  assert (Q : forall f, rsum n (fun i => f (nth i s 0)) = rsum n (fun i => (f (nth i s 0) + f (nth (n - 1 - i) s 0)) / 2)).
  { intros f. rewrite rsum_div, rsum_plus. rewrite <- (rsum_rev n (fun i => f (nth i s 0))). field. }
  rewrite (Q (fun x => Rabs (x - m))), (Q (fun x => Rabs (x - c))). apply rsum_le. intros i Hi.
  assert (B : nth i s 0 <= m <= nth (n - 1 - i) s 0 \/ nth (n - 1 - i) s 0 <= m <= nth i s 0).
  { destruct (le_lt_dec i (n - 1 - i)) as [J|J]; [left; now apply median_sorted|right]. pose proof (median_sorted l m H (n - 1 - i)) as W. fold n s in W. replace (n - 1 - (n - 1 - i))%nat with i in W by lia. apply W; lia. }
  unfold Rdiv. apply Rmult_le_compat_r; [lra|]. unfold Rabs. destruct B; repeat destruct (Rcase_abs _); lra.
Qed.
Lemma lsum_abs {A} (f : A -> R) l : Rabs (M_Tools.lsum (map f l)) <= M_Tools.lsum (map (fun x => Rabs (f x)) l).
Proof. induction l as [|x l IH]; cbn [map M_Tools.lsum fold_right]; [rewrite Rabs_R0; lra|]. unfold M_Tools.lsum in IH. eapply Rle_trans; [apply Rabs_triang|]. lra. Qed.
Lemma mean_abs_std l : l <> [] -> M_Tools.lsum (map Rabs l) / INR (List.length l) <= sqrt (M_Tools.lsum (map (fun x => x ^ 2) l) / INR (List.length l)).
Proof.
  intros H. pose proof (INR_len l H) as N. set (n := INR (List.length l)) in *. assert (A0 : 0 <= M_Tools.lsum (map Rabs l)) by (apply L_Model.lsum_nonneg; intros x Hx; apply in_map_iff in Hx; destruct Hx as (y & <- & _); apply Rabs_pos).
  rewrite <- (sqrt_pow2 (M_Tools.lsum (map Rabs l) / n)) by (apply Rmult_le_pos; [exact A0|apply Rlt_le, Rinv_0_lt_compat, N]). apply sqrt_le_1_alt.
  pose proof (cauchy (map (fun x => (Rabs x, 1)) l)) as C. rewrite !map_map in C. cbn [fst snd] in C. rewrite (map_ext (fun x => Rabs x * 1) Rabs) in C by (intros; ring). rewrite (map_ext (fun x => Rabs x * Rabs x) (fun x => x ^ 2)) in C by (intros x; rewrite <- Rabs_mult, Rabs_right; [ring|apply Rle_ge; pose proof (pow2_ge_0 x); lra]). rewrite lsum_map_const in C. fold n in C.
  replace (M_Tools.lsum (map (fun x => x ^ 2) l) / n) with (M_Tools.lsum (map (fun x => x ^ 2) l) * (n * (1 * 1)) / n ^ 2) by (field; lra). replace ((M_Tools.lsum (map Rabs l) / n) ^ 2) with (M_Tools.lsum (map Rabs l) ^ 2 / n ^ 2) by (field; lra). unfold Rdiv. apply Rmult_le_compat_r; [apply Rlt_le, Rinv_0_lt_compat; nra|exact C].
Qed.
Lemma mean_median l m : median l = Ok m -> Rabs (lmean l - m) <= sqrt (lmean (map (fun x => (x - lmean l) ^ 2) l)).
Proof.
  intros H. assert (Hl : l <> []) by (intros ->; discriminate). pose proof (INR_len l Hl) as N. eapply Rle_trans; [|eapply Rle_trans; [apply (mean_abs_std (map (fun x => x - lmean l) l)); destruct l; [contradiction|discriminate]|]].
  - rewrite map_length, map_map. set (n := INR (List.length l)) in *.
    replace (lmean l - m) with (M_Tools.lsum (map (fun x => x - m) l) / n).
    + unfold Rdiv. rewrite Rabs_mult, (Rabs_right (/ n)) by (apply Rle_ge, Rlt_le, Rinv_0_lt_compat, N). apply Rmult_le_compat_r; [apply Rlt_le, Rinv_0_lt_compat, N|]. eapply Rle_trans; [apply lsum_abs|]. apply median_best, H.
    + unfold lmean. fold n. rewrite (map_ext (fun x => x - m) (fun x => x + - m)) by (intros; ring). rewrite lsum_map_plus, map_id, lsum_map_const. fold n. field. lra.
  - rewrite map_length, map_map. unfold lmean at 2. rewrite map_length. lra.
Qed.

Lemma cov2_self x : cov2 x x = M_Tools.lsum (map (fun v => (v - lmean x) ^ 2) x).
Proof. unfold cov2. set (c := lmean x). clearbody c. induction x as [|v x IH]; [reflexivity|]. cbn [combine map M_Tools.lsum fold_right fst snd]. unfold M_Tools.lsum in IH. rewrite IH. ring. Qed.
Lemma lsum_sq_zero {A} (f : A -> R) l : M_Tools.lsum (map (fun v => f v ^ 2) l) = 0 -> forall v, In v l -> f v = 0.
Proof.
  induction l as [|x l IH]; intros H v Hv; [destruct Hv|]. cbn [map M_Tools.lsum fold_right] in H. assert (0 <= M_Tools.lsum (map (fun v => f v ^ 2) l)) by (apply L_Model.lsum_nonneg; intros y Hy; apply in_map_iff in Hy; destruct Hy as (z & <- & _); apply pow2_ge_0). unfold M_Tools.lsum in *. pose proof (pow2_ge_0 (f x)). destruct Hv as [<-|Hv]; [|apply IH; [lra|exact Hv]].
  assert (f x * f x = 0) by lra. destruct (Rmult_integral _ _ H2); assumption.
Qed.
Lemma cov2_nonneg x : 0 <= cov2 x x.
Proof. rewrite cov2_self. apply L_Model.lsum_nonneg. intros y Hy. apply in_map_iff in Hy. destruct Hy as (z & <- & _). apply pow2_ge_0. Qed.
Lemma cov2_pos x : (exists a b, In a x /\ In b x /\ a <> b) -> 0 < cov2 x x.
Proof.
  intros (a & b & Ha & Hb & N). destruct (Rle_lt_or_eq_dec 0 _ (cov2_nonneg x)) as [H|H]; [exact H|]. rewrite cov2_self in H. pose proof (lsum_sq_zero (fun v => v - lmean x) x (eq_sym H)) as Z. pose proof (Z a Ha). pose proof (Z b Hb). lra.
Qed.
Lemma lmean_all x c : x <> [] -> (forall a, In a x -> a = c) -> lmean x = c.
Proof. intros H Hc. rewrite <- (lmean_const x c H). f_equal. rewrite <- (map_id x) at 1. apply map_ext_in. exact Hc. Qed.
Lemma cov2_const x c : x <> [] -> (forall a, In a x -> a = c) -> cov2 x x = 0.
Proof. intros H Hc. rewrite cov2_self, (lmean_all x c H Hc). rewrite <- (Rmult_0_r (INR (List.length x))), <- lsum_map_const. f_equal. apply map_ext_in. intros a Ha. rewrite (Hc a Ha). ring. Qed.
Lemma cov2_cs x y : List.length x = List.length y -> cov2 x y ^ 2 <= cov2 x x * cov2 y y.
Proof.
  intros H. pose proof (cauchy (map (fun p => (fst p - lmean x, snd p - lmean y)) (combine x y))) as C. rewrite !map_map in C. cbn [fst snd] in C. unfold cov2 at 1. eapply Rle_trans; [exact C|]. apply Req_le. f_equal; rewrite cov2_self.
  - transitivity (M_Tools.lsum (map (fun v => (v - lmean x) ^ 2) (map fst (combine x y)))); [|now rewrite (combine_fst x y H)]. rewrite map_map. f_equal. apply map_ext. intros p. ring.
  - transitivity (M_Tools.lsum (map (fun v => (v - lmean y) ^ 2) (map snd (combine x y)))); [|now rewrite (combine_snd x y H)]. rewrite map_map. f_equal. apply map_ext. intros p. ring.
Qed.
Lemma pearson_val x y : List.length x = List.length y -> 0 < cov2 x x -> 0 < cov2 y y -> let r := cov2 x y / (sqrt (cov2 x x) * sqrt (cov2 y y)) in pearson x y = Ok r /\ -1 <= r <= 1.
Proof.
  intros H Hx Hy r. pose proof (sqrt_lt_R0 _ Hx) as Sx. pose proof (sqrt_lt_R0 _ Hy) as Sy. pose proof (Rmult_lt_0_compat _ _ Sx Sy) as D. unfold pearson. rewrite rdiv_ok by lra. cbn [bind]. fold r.
  assert (B : r ^ 2 <= 1).
  { unfold r. pose proof (cov2_cs x y H) as C. unfold Rdiv. rewrite Rpow_mult_distr, pow_inv. apply Rmult_le_reg_r with ((sqrt (cov2 x x) * sqrt (cov2 y y)) ^ 2); [apply pow_lt, D|]. rewrite Rmult_assoc, Rinv_l, Rmult_1_r, Rmult_1_l by (apply Rgt_not_eq, pow_lt, D). rewrite Rpow_mult_distr, !pow2_sqrt by lra. exact C. }
  assert (-1 <= r <= 1) by (split; nra). split; [|assumption]. rewrite Rmax_right by lra. rewrite Rmin_right by lra. reflexivity.
Qed.

(** For paired lists, no zero among the truths and neither list constant: the difference of the means, the two standard
    deviations, the median of the differences within one standard deviation of their mean (in absolute and in relative
    value), the correlation in [-1, 1] and equal to the covariance over the product of the deviations. *)
Theorem C121_metrics : forall truth est, List.length truth = List.length est -> (forall t, In t truth -> t <> 0) ->
  (exists a b, In a truth /\ In b truth /\ a <> b) -> (exists a b, In a est /\ In b est /\ a <> b) ->
  exists M, get_parameters_metrics truth est = Ok M /\
    m_amean M = lmean est - lmean truth /\ m_rmean M = 100 * lmean (map (fun p => (snd p - fst p) / fst p) (combine truth est)) /\
    m_astd M = sqrt (lmean (map (fun p => ((snd p - fst p) - m_amean M) ^ 2) (combine truth est))) /\
    Rabs (m_amean M - m_amed M) <= m_astd M /\ Rabs (m_rmean M - m_rmed M) <= m_rstd M /\
    -1 <= m_corr M <= 1 /\
    let dev l := sqrt (M_Tools.lsum (map (fun v => (v - lmean l) ^ 2) l)) in
    m_corr M * (dev truth * dev est) = M_Tools.lsum (map (fun p => (fst p - lmean truth) * (snd p - lmean est)) (combine truth est)).
Proof.
  intros truth est H Z Ht He. unfold get_parameters_metrics. rewrite H, Nat.eqb_refl. cbn [negb]. set (d := sub2 est truth).
  assert (Nt : truth <> []) by (destruct Ht as (a & _ & Ha & _); intros ->; destruct Ha). assert (Ld : List.length d = List.length truth) by (unfold d; rewrite sub2_length; congruence). assert (Nd : d <> []) by (destruct d; [destruct truth; [contradiction|discriminate]|discriminate]).
  destruct (sub_metrics_ok d Nd) as (m & s & E & Em & Es). cbv zeta. rewrite E. cbn [bind].
  rewrite (P_Diag5.mapM_ok _ (fun p => 10 ^ 2 * fst p / snd p)) by (intros [x t] Hp; cbn [fst snd]; apply rdiv_ok, Z, (in_combine_r _ _ _ _ Hp)). cbn [bind]. set (rel := map (fun p => 10 ^ 2 * fst p / snd p) (combine d truth)).
  assert (Nr : rel <> []) by (unfold rel; destruct d; [contradiction|]; destruct truth; [contradiction|discriminate]). destruct (sub_metrics_ok rel Nr) as (m' & s' & E' & Em' & Es'). rewrite E'. cbn [bind].
  destruct (pearson_val truth est H (cov2_pos _ Ht) (cov2_pos _ He)) as [Ep B]. rewrite Ep. cbn [bind fst snd]. eexists. split; [reflexivity|]. cbn [m_amean m_amed m_astd m_rmean m_rmed m_rstd m_corr].
  assert (Em0 : lmean d = lmean est - lmean truth). { unfold lmean at 1. rewrite Ld. unfold d. rewrite sub2_sum by congruence. unfold lmean. rewrite H. field. apply Rgt_not_eq, INR_len. destruct est; [destruct truth; [contradiction|discriminate]|discriminate]. }
  assert (Dd : d = map (fun p => snd p - fst p) (combine truth est)) by (unfold d, sub2; clear - H; revert est H; induction truth as [|t truth IH]; intros [|e est] H; cbn [List.length] in H; try discriminate; [reflexivity|]; cbn [combine map fst snd]; f_equal; apply IH; lia).
  split; [exact Em0|]. split; [|split; [|split; [|split; [|split]]]].
  - assert (Er : rel = map (fun p => 100 * ((snd p - fst p) / fst p)) (combine truth est)).
    { unfold rel. rewrite Dd. clear - H. revert est H; induction truth as [|t truth IH]; intros [|e est] H; cbn [List.length] in H; try discriminate; [reflexivity|]; cbn [combine map fst snd]. f_equal; [unfold Rdiv; ring|apply IH; lia]. }
    rewrite Er. unfold lmean. rewrite lsum_map_scal, !map_length. unfold Rdiv. ring.
  - rewrite Es. f_equal. f_equal. transitivity (map (fun x => (x - lmean d) ^ 2) (map (fun p => snd p - fst p) (combine truth est))); [now rewrite <- Dd|]. rewrite map_map. reflexivity.
  - rewrite Es. apply mean_median, Em.
  - rewrite Es'. apply mean_median, Em'.
  - exact B.
  - rewrite <- !cov2_self. fold (cov2 truth est). field. pose proof (sqrt_lt_R0 _ (cov2_pos _ Ht)). pose proof (sqrt_lt_R0 _ (cov2_pos _ He)). split; lra.
Qed.
(** A perfect network: no error, correlation one. *)
Theorem C121_perfect : forall truth, (forall t, In t truth -> t <> 0) -> (exists a b, In a truth /\ In b truth /\ a <> b) ->
  get_parameters_metrics truth truth = Ok (mkMet 0 0 0 0 0 0 1).
Proof.
  intros truth Z Ht. destruct (C121_metrics truth truth eq_refl Z Ht Ht) as (M & E & A1 & A2 & A3 & A4 & A5 & A6 & A7). rewrite E. f_equal. destruct M as [a b c d e f g]. cbn [m_amean m_amed m_astd m_rmean m_rmed m_rstd m_corr] in *.
  assert (Nt : truth <> []) by (destruct Ht as (x & _ & Hx & _); intros ->; destruct Hx). assert (SP : forall p, In p (combine truth truth) -> fst p = snd p) by (clear; induction truth as [|t truth IH]; intros p Hp; [destruct Hp|]; destruct Hp as [<-|Hp]; [reflexivity|auto]).
  assert (Nc : combine truth truth <> []) by (destruct truth; [contradiction|discriminate]).
  assert (a = 0) by lra. subst a. assert (c = 0). { rewrite A3. rewrite (map_ext_in _ (fun _ => 0)) by (intros p Hp; rewrite (SP p Hp); ring). rewrite lmean_const by exact Nc. apply sqrt_0. }
  assert (d = 0). { rewrite A2. rewrite (map_ext_in _ (fun _ => 0)) by (intros p Hp; rewrite (SP p Hp); unfold Rdiv; ring). rewrite lmean_const by exact Nc. ring. }
  subst c d. assert (b = 0) by (revert A4; unfold Rabs; destruct (Rcase_abs _); lra). subst b.
  assert (g = 1). { cbv zeta in A7. rewrite sqrt_sqrt in A7 by (rewrite <- cov2_self; apply cov2_nonneg). fold (cov2 truth truth) in A7. rewrite <- cov2_self in A7. pose proof (cov2_pos _ Ht). apply Rmult_eq_reg_r with (cov2 truth truth); lra. } subst g.
  assert (f = 0); [|subst f; assert (e = 0) by (revert A5; unfold Rabs; destruct (Rcase_abs _); lra); subst e; f_equal; assumption].
  clear - E Z Nt. unfold get_parameters_metrics in E. rewrite Nat.eqb_refl in E. cbn [negb] in E. set (dd := sub2 truth truth) in E. assert (Hd : dd = map (fun _ => 0) truth) by (unfold dd, sub2; clear; induction truth; [reflexivity|]; cbn [combine map fst snd]; f_equal; [ring|assumption]).
  destruct (sub_metrics dd) as [x|]; cbn [bind] in E; [|discriminate]. rewrite (P_Diag5.mapM_ok _ (fun _ => 0)) in E by (intros [x0 t] Hp; cbn [fst snd]; rewrite rdiv_ok by (apply Z, (in_combine_r _ _ _ _ Hp)); apply in_combine_l in Hp; rewrite Hd in Hp; apply in_map_iff in Hp; destruct Hp as (q & <- & _); f_equal; unfold Rdiv; ring). cbn [bind] in E.
  assert (Nc : combine dd truth <> []) by (rewrite Hd; destruct truth; [contradiction|discriminate]).
  destruct (sub_metrics_ok (map (fun _ => 0) (combine dd truth))) as (m & s & E1 & _ & Es); [destruct (combine dd truth); [contradiction|discriminate]|]. rewrite E1 in E. cbn [bind] in E. destruct (pearson truth truth) as [q|]; cbn [bind] in E; [|discriminate]. apply Ok_inj in E. injection E as _ _ _ _ _ F _. rewrite <- F. cbn [snd]. rewrite Es. rewrite lmean_const by exact Nc. rewrite map_map. rewrite lmean_const by exact Nc. rewrite Rminus_0_r. replace (0 ^ 2) with 0 by ring. apply sqrt_0.
Qed.
(** An estimate that is an affine function of the truth has a correlation of +1 or -1, according to the sign of the slope. *)
Lemma lmean_affine a b l : l <> [] -> lmean (map (fun x => a * x + b) l) = a * lmean l + b.
Proof. intros H. unfold lmean. rewrite lsum_map_plus, lsum_map_scal, map_id, lsum_map_const, map_length. field. apply Rgt_not_eq, INR_len, H. Qed.
Theorem C121_affine : forall truth a b M, get_parameters_metrics truth (map (fun x => a * x + b) truth) = Ok M -> (0 < a -> m_corr M = 1) /\ (a < 0 -> m_corr M = -1) /\ a <> 0.
Proof.
  intros truth a b M H. unfold get_parameters_metrics in H. rewrite map_length, Nat.eqb_refl in H. cbn [negb] in H. destruct (sub_metrics _) as [x|] eqn:ES; cbn [bind] in H; [|discriminate]. destruct (M_Tools.mapM _ _) as [r|]; cbn [bind] in H; [|discriminate]. destruct (sub_metrics r) as [y|]; cbn [bind] in H; [|discriminate]. destruct (pearson truth _) as [c|] eqn:E; cbn [bind] in H; [|discriminate]. apply Ok_inj in H. subst M. cbn [m_corr].
  assert (Nt : truth <> []) by (intros ->; discriminate).
  assert (C1 : cov2 truth (map (fun x => a * x + b) truth) = a * cov2 truth truth).
  { unfold cov2. rewrite lmean_affine by exact Nt. rewrite <- lsum_map_scal. set (m := lmean truth). clearbody m. clear. induction truth as [|t truth IH]; [reflexivity|]. cbn [map combine M_Tools.lsum fold_right fst snd]. unfold M_Tools.lsum in IH. rewrite IH. ring. }
  assert (C2 : cov2 (map (fun x => a * x + b) truth) (map (fun x => a * x + b) truth) = a ^ 2 * cov2 truth truth).
  { rewrite !cov2_self, map_map, lmean_affine by exact Nt. rewrite <- lsum_map_scal. f_equal. apply map_ext. intros t. ring. }
  unfold pearson in E. rewrite C1, C2 in E. destruct (rdiv _ _) as [q|] eqn:R1; cbn [bind] in E; [|discriminate]. destruct (rdiv_inv' _ _ _ R1) as [D ->]. apply Ok_inj in E. subst c.
  assert (Na : a <> 0) by (intros ->; apply D; replace (0 ^ 2 * cov2 truth truth) with 0 by ring; rewrite sqrt_0; ring).
  assert (V : 0 < cov2 truth truth) by (destruct (Rle_lt_or_eq_dec _ _ (cov2_nonneg truth)) as [X|X]; [exact X|exfalso; apply D; rewrite <- X, sqrt_0; ring]).
  rewrite sqrt_mult by (lra || apply pow2_ge_0). assert (Sq : sqrt (a ^ 2) = Rabs a) by (rewrite <- Rsqr_pow2; apply sqrt_Rsqr_abs). rewrite Sq.
  assert (Q : a * cov2 truth truth / (sqrt (cov2 truth truth) * (Rabs a * sqrt (cov2 truth truth))) = a / Rabs a). { replace (sqrt (cov2 truth truth) * (Rabs a * sqrt (cov2 truth truth))) with (Rabs a * (sqrt (cov2 truth truth) * sqrt (cov2 truth truth))) by ring. rewrite sqrt_sqrt by lra. field. split; [apply Rabs_no_R0, Na|lra]. }
  rewrite Q. split; [|split; [|exact Na]]; intros S.
  - rewrite Rabs_right by lra. replace (a / a) with 1 by (field; lra). rewrite Rmax_right by lra. apply Rmin_left. lra.
  - rewrite Rabs_left by lra. replace (a / - a) with (-1) by (field; lra). rewrite Rmax_left by lra. apply Rmin_right. lra.
Qed.
Example C121_ex_metrics : exists M, get_parameters_metrics [1; 2; 4] [3; 5; 9] = Ok M /\ m_corr M = 1 /\ m_amean M = 10 / 3.
Proof.
  destruct (C121_metrics [1; 2; 4] [3; 5; 9] eq_refl) as (M & E & A & _); [intros t [<-|[<-|[<-|[]]]]; lra|exists 1, 2; cbn; repeat split; auto; lra|exists 3, 5; cbn; repeat split; auto; lra|]. exists M. split; [exact E|]. split.
  - replace [3; 5; 9] with (map (fun x => 2 * x + 1) [1; 2; 4]) in E by (cbn [map]; repeat (f_equal; try lra)). destruct (C121_affine _ _ _ _ E) as (P & _). apply P. lra.
  - rewrite A. unfold lmean. cbn. lra.
Qed.
(** No answer (not-a-number) when a truth is zero, when the truth or the estimate is constant, or with no sample; lists of different lengths are refused. *)
Theorem C121_undefined : forall truth est, (List.length truth <> List.length est -> get_parameters_metrics truth est = Err ValueError) /\
  (List.length truth = List.length est -> In 0 truth \/ (exists c, forall a, In a truth -> a = c) \/ (exists c, forall a, In a est -> a = c) -> exists e, get_parameters_metrics truth est = Err e).
Proof.
  intros truth est. split.
  - intros H. unfold get_parameters_metrics. destruct (Nat.eqb_spec (List.length truth) (List.length est)); [contradiction|reflexivity].
  - intros L H. destruct (get_parameters_metrics truth est) as [M|e] eqn:E; [exfalso|eauto]. unfold get_parameters_metrics in E. rewrite L, Nat.eqb_refl in E. cbn [negb] in E. destruct (sub_metrics _) as [x|] eqn:ES; cbn [bind] in E; [|discriminate]. destruct (M_Tools.mapM _ _) as [r|] eqn:Er; cbn [bind] in E; [|discriminate]. destruct (sub_metrics r) as [y|]; cbn [bind] in E; [|discriminate]. destruct (pearson truth est) as [c|] eqn:Ec; cbn [bind] in E; [|discriminate].
    assert (Ld : List.length (sub2 est truth) = List.length truth) by (rewrite sub2_length; congruence).
    assert (Nt : truth <> []) by (intros ->; destruct est; [discriminate|discriminate]).
    assert (Ne : est <> []) by (intros ->; destruct truth; [contradiction|discriminate]).
    assert (Vz : cov2 truth truth <> 0 /\ cov2 est est <> 0). { unfold pearson in Ec. destruct (rdiv _ _) as [q|] eqn:R1; cbn [bind] in Ec; [|discriminate]. destruct (rdiv_inv' _ _ _ R1) as [D _]. split; intros X; apply D; rewrite X, sqrt_0; ring. }
    destruct H as [H|[(k & H)|(k & H)]]; [|now apply (proj1 Vz), (cov2_const truth k)|now apply (proj2 Vz), (cov2_const est k)].
    assert (W : exists v, In (v, 0) (combine (sub2 est truth) truth)). { apply In_nth with (d := 0) in H. destruct H as (i & Hi & Ei). exists (nth i (sub2 est truth) 0). rewrite <- Ei. rewrite <- combine_nth by exact Ld. apply nth_In. rewrite combine_length. lia. }
    destruct W as (v & W). clear - Er W. revert r Er. induction (combine (sub2 est truth) truth) as [|p l IH]; intros r Er; [destruct W|]. cbn [M_Tools.mapM] in Er. destruct (rdiv (10 ^ 2 * fst p) (snd p)) as [q|] eqn:Q; cbn [bind] in Er; [|discriminate]. destruct (M_Tools.mapM _ l) as [l'|]; cbn [bind] in Er; [|discriminate]. destruct W as [->|W]; [|now apply (IH W l')]. destruct (rdiv_inv' _ _ _ Q) as [D _]. now apply D.
Qed.

(** * Units *)
Lemma rinsert_map k x l : 0 < k -> rinsert (k * x) (map (Rmult k) l) = map (Rmult k) (rinsert x l).
Proof. intros H. induction l as [|y l IH]; [reflexivity|]. cbn [map rinsert]. destruct (Rle_dec (k * x) (k * y)) as [A|A], (Rle_dec x y) as [B|B]; cbn [map]; [reflexivity|exfalso; apply B; nra|exfalso; apply A; nra|now rewrite IH]. Qed.
Lemma rsort_map k l : 0 < k -> rsort (map (Rmult k) l) = map (Rmult k) (rsort l).
Proof. intros H. induction l as [|x l IH]; [reflexivity|]. cbn [map]. change (rsort (k * x :: map (Rmult k) l)) with (rinsert (k * x) (rsort (map (Rmult k) l))). rewrite IH. now apply rinsert_map. Qed.
Lemma median_map k l m : 0 < k -> median l = Ok m -> median (map (Rmult k) l) = Ok (k * m).
Proof.
  intros H E. unfold median in *. rewrite map_length, rsort_map by exact H. destruct (Nat.eqb _ 0); [discriminate|]. destruct (Nat.odd _).
  - rewrite nth_error_map. destruct (nth_error (rsort l) (List.length l / 2)) as [v|]; [|discriminate]. apply Ok_inj in E. now subst.
  - rewrite !nth_error_map. destruct (nth_error (rsort l) (List.length l / 2 - 1)) as [u|]; [|discriminate]. destruct (nth_error (rsort l) (List.length l / 2)) as [v|]; [|discriminate]. apply Ok_inj in E. subst. cbn [option_map]. f_equal. field.
Qed.
Lemma lmean_scal k l : lmean (map (Rmult k) l) = k * lmean l.
Proof. unfold lmean. rewrite map_length, (lsum_map_scal (fun x => x)), map_id. unfold Rdiv. ring. Qed.
Lemma std_scal k l : 0 < k -> sqrt (lmean (map (fun x => (x - lmean (map (Rmult k) l)) ^ 2) (map (Rmult k) l))) = k * sqrt (lmean (map (fun x => (x - lmean l) ^ 2) l)).
Proof.
  intros H. rewrite lmean_scal, map_map. rewrite (map_ext _ (fun x => k ^ 2 * (x - lmean l) ^ 2)) by (intros; ring). rewrite <- (map_map (fun x => (x - lmean l) ^ 2) (Rmult (k ^ 2))), lmean_scal. rewrite sqrt_mult_alt by apply pow2_ge_0. rewrite sqrt_pow2 by lra. reflexivity.
Qed.
Lemma sub_metrics_scal k l a : 0 < k -> sub_metrics l = Ok a -> sub_metrics (map (Rmult k) l) = Ok (k * fst (fst a), k * snd (fst a), k * snd a).
Proof.
  intros H E. assert (N : l <> []) by (intros ->; discriminate). destruct (sub_metrics_ok l N) as (m & s & E1 & Em & Es). rewrite E1 in E. apply Ok_inj in E. subst a. cbn [fst snd]. unfold sub_metrics. rewrite (median_map k l m H Em). cbn [bind]. rewrite nanstd_val by (destruct l; [contradiction|discriminate]). cbn [bind]. rewrite lmean_scal. f_equal. f_equal. rewrite Es, <- std_scal by exact H. rewrite lmean_scal. f_equal. f_equal. apply map_ext. intros x. ring.
Qed.
Lemma cov2_scal k x y : cov2 (map (Rmult k) x) (map (Rmult k) y) = k ^ 2 * cov2 x y.
Proof. unfold cov2. rewrite !lmean_scal, <- lsum_map_scal. f_equal. revert y. generalize (lmean x) as a. intros a. induction x as [|u x IH]; intros y; [reflexivity|]. destruct y as [|v y]; [reflexivity|]. cbn [map combine fst snd]. f_equal; [ring|]. generalize dependent (lmean (v :: y)). intros r. clear IH. revert y. induction x as [|w x IH]; intros [|z y]; cbn [map combine fst snd]; [reflexivity|reflexivity|reflexivity|f_equal; [ring|apply IH]]. Qed.
(** Changing the unit of a parameter: the absolute errors follow, the relative ones and the correlation do not change. *)
Theorem C121_units : forall truth est M k, 0 < k -> get_parameters_metrics truth est = Ok M ->
  get_parameters_metrics (map (Rmult k) truth) (map (Rmult k) est) = Ok (mkMet (k * m_amean M) (k * m_amed M) (k * m_astd M) (m_rmean M) (m_rmed M) (m_rstd M) (m_corr M)).
Proof.
  intros truth est M k H E. unfold get_parameters_metrics in *. rewrite !map_length. destruct (Nat.eqb_spec (List.length truth) (List.length est)) as [L|L]; [|discriminate]. cbn [negb] in *.
  assert (Sd : sub2 (map (Rmult k) est) (map (Rmult k) truth) = map (Rmult k) (sub2 est truth)) by (unfold sub2; clear; revert truth; induction est as [|e est IH]; intros [|t truth]; cbn [map combine fst snd]; [reflexivity|reflexivity|reflexivity|f_equal; [ring|apply IH]]). rewrite Sd. set (d := sub2 est truth) in *.
  destruct (sub_metrics d) as [a|] eqn:Ea; cbn [bind] in E; [|discriminate]. rewrite (sub_metrics_scal k d a H Ea). cbn [bind].
  destruct (M_Tools.mapM _ (combine d truth)) as [rel|] eqn:Er; cbn [bind] in E; [|discriminate].
  assert (Er' : M_Tools.mapM (fun p => rdiv (10 ^ 2 * fst p) (snd p)) (combine (map (Rmult k) d) (map (Rmult k) truth)) = Ok rel).
  { clearbody d. clear - Er H. revert truth rel Er. induction d as [|x l IH]; intros [|t truth] rel Er; cbn [map combine M_Tools.mapM fst snd] in *; try exact Er. destruct (rdiv (10 ^ 2 * x) t) as [q|] eqn:Q; cbn [bind] in Er; [|discriminate]. destruct (rdiv_inv' _ _ _ Q) as [Nt ->]. rewrite rdiv_ok by (intros Z; destruct (Rmult_integral _ _ Z); lra). cbn [bind]. destruct (M_Tools.mapM _ (combine l truth)) as [r|] eqn:R; cbn [bind] in Er; [|discriminate]. rewrite (IH _ _ R). cbn [bind]. apply Ok_inj in Er. subst rel. f_equal. f_equal. field. split; lra. }
  rewrite Er'. cbn [bind]. destruct (sub_metrics rel) as [r|]; cbn [bind] in *; [|discriminate]. destruct (pearson truth est) as [c|] eqn:Ec; cbn [bind] in E; [|discriminate]. apply Ok_inj in E. subst M. cbn [m_amean m_amed m_astd m_rmean m_rmed m_rstd m_corr fst snd].
  assert (Ep : pearson (map (Rmult k) truth) (map (Rmult k) est) = Ok c); [|rewrite Ep; reflexivity]. unfold pearson in *. destruct (rdiv _ _) as [q|] eqn:Q; cbn [bind] in Ec; [|discriminate]. destruct (rdiv_inv' _ _ _ Q) as [D ->]. rewrite !cov2_scal, !sqrt_mult_alt by apply pow2_ge_0. rewrite sqrt_pow2 by lra. assert (k <> 0) by lra.
  assert (D' : k * sqrt (cov2 truth truth) * (k * sqrt (cov2 est est)) <> 0) by (replace (k * sqrt (cov2 truth truth) * (k * sqrt (cov2 est est))) with (k * k * (sqrt (cov2 truth truth) * sqrt (cov2 est est))) by ring; apply Rmult_integral_contrapositive_currified; [apply Rmult_integral_contrapositive_currified; lra|exact D]).
  rewrite rdiv_ok by exact D'. cbn [bind]. rewrite <- Ec. f_equal. f_equal. f_equal. field. repeat split; try lra; intros Z; apply D; rewrite Z; ring.
Qed.

(** * Labels and parameters of the PSF model *)
(** Without static mode: the six labels go to the parameters 0-4 and 6 of the model, whose ratio, flux and positions are
    neutral, and come back. *)
Theorem C121_p2x : forall x, List.length x = 6%nat -> exists y, p2x x = Ok y /\ List.length y = 14%nat /\ x2p y = Ok x /\ nth 5 y 1 = 0 /\ nth 10 y 0 = 1 /\ (forall i, In i [7; 8; 9; 11; 12; 13]%nat -> nth i y 1 = 0).
Proof.
  intros x H. destruct x as [|a [|b [|c [|d [|e [|f [|g x]]]]]]]; try discriminate. eexists. split; [reflexivity|]. split; [reflexivity|]. split; [reflexivity|]. split; [reflexivity|]. split; [reflexivity|]. intros i Hi. cbn [In] in Hi. repeat (destruct Hi as [<-|Hi]; [reflexivity|]). destruct Hi.
Qed.
(** With static modes, the last one is dropped before the PSF is computed: two estimates that differ only by it give the same PSF. *)
Theorem C121_last_mode_refuted : forall x, (6 <= List.length x)%nat -> exists y, (forall a, p2x (x ++ [a]) = Ok y) /\ List.length y = (14 + (List.length x - 6))%nat /\ x2p y = Ok x.
Proof.
  intros x H. destruct x as [|a [|b [|c [|d [|e [|f x]]]]]]; cbn [List.length] in H; try lia. exists ([a; b; c; d; e] ++ [0; f; 0; 0; 0; 1; 0; 0; 0] ++ x). split; [|split; [cbn; lia|unfold x2p; change 6%Z with (Z.of_nat 6); rewrite (pyindex_some _ 6 f) by reflexivity; reflexivity]]. intros z. unfold p2x. cbn [app]. change 5%Z with (Z.of_nat 5). rewrite (pyindex_some _ 5 f) by reflexivity. cbn [bind firstn]. f_equal. cbn [app]. do 14 f_equal. cbn [List.length]. rewrite app_length. cbn [List.length].
  replace (Z.of_nat (S (S (S (S (S (S (List.length x + 1)))))) ) - 1)%Z with (Z.of_nat (6 + List.length x)) by lia. change 6%Z with (Z.of_nat 6). rewrite pyslice_nat; [|lia|cbn [List.length]; rewrite app_length; cbn [List.length]; lia]. cbn [skipn]. replace (6 + List.length x - 6)%nat with (List.length x + 0)%nat by lia. rewrite firstn_app_2. cbn [firstn]. apply app_nil_r.
Qed.

(** * PSFs *)
(** At each pixel the mean absolute difference is at most the quadratic one; both vanish exactly when no PSF differs there. *)
Theorem C121_diff : forall ps, ps <> [] -> 0 <= diff_mean (List.length ps) ps <= diff_std (List.length ps) ps /\
  (diff_std (List.length ps) ps = 0 <-> forall p, In p ps -> fst p = snd p).
Proof.
  intros ps H. pose proof (INR_len ps H) as N. set (n := INR (List.length ps)) in *. unfold diff_mean, diff_std. fold n.
  assert (E1 : M_Tools.lsum (map (fun p : R * R => Rabs (fst p - snd p) / n) ps) = M_Tools.lsum (map Rabs (map (fun p => fst p - snd p) ps)) / n) by (rewrite map_map; rewrite (map_ext _ (fun p : R * R => / n * Rabs (fst p - snd p))) by (intros; unfold Rdiv; ring); rewrite lsum_map_scal; unfold Rdiv; ring).
  assert (E2 : M_Tools.lsum (map (fun p : R * R => (fst p - snd p) ^ 2 / n) ps) = M_Tools.lsum (map (fun x => x ^ 2) (map (fun p => fst p - snd p) ps)) / n) by (rewrite map_map; rewrite (map_ext _ (fun p : R * R => / n * (fst p - snd p) ^ 2)) by (intros; unfold Rdiv; ring); rewrite lsum_map_scal; unfold Rdiv; ring).
  rewrite E1, E2. assert (Nz : map (fun p : R * R => fst p - snd p) ps <> []) by (destruct ps; [contradiction|discriminate]). pose proof (mean_abs_std _ Nz) as B. rewrite map_length in B. fold n in B. pose proof (Rinv_0_lt_compat n N) as In_.
  assert (P2 : 0 <= M_Tools.lsum (map (fun x => x ^ 2) (map (fun p : R * R => fst p - snd p) ps))) by (apply L_Model.lsum_nonneg; intros y Hy; apply in_map_iff in Hy; destruct Hy as (z & <- & _); apply pow2_ge_0).
  split; [split; [|exact B]|].
  - apply Rmult_le_pos; [|lra]. apply L_Model.lsum_nonneg. intros y Hy. apply in_map_iff in Hy. destruct Hy as (z & <- & _). apply Rabs_pos.
  - split.
    + intros Z p Hp. apply sqrt_eq_0 in Z; [|apply Rmult_le_pos; [exact P2|lra]]. assert (Z' : M_Tools.lsum (map (fun x => x ^ 2) (map (fun p : R * R => fst p - snd p) ps)) = 0) by (apply (Rmult_eq_reg_r (/ n)); [unfold Rdiv in Z; rewrite Z; ring|lra]). rewrite map_map in Z'. pose proof (lsum_sq_zero _ _ Z' p Hp) as W. cbn beta in W. lra.
    + intros Z. rewrite map_map. rewrite (map_ext_in _ (fun _ => 0)) by (intros p Hp; rewrite (Z p Hp); ring). rewrite lsum_map_const. unfold Rdiv. rewrite Rmult_0_r, Rmult_0_l. apply sqrt_0.
Qed.
(** The error of a PSF (percent): defined for a PSF of nonzero flux, zero exactly for the same PSF, independent of a common factor, 100 |c-1| sqrt(sum p^2)/sum p for c times the PSF. *)
Theorem C121_mse : forall ml tr, List.length ml = List.length tr ->
  (M_Tools.lsum tr = 0 -> mse ml tr = Err NonFinite) /\
  (0 < M_Tools.lsum tr -> exists v, mse ml tr = Ok v /\ 0 <= v /\ (v = 0 <-> ml = tr) /\ (forall c, 0 < c -> mse (map (Rmult c) ml) (map (Rmult c) tr) = Ok v)) /\
  (0 < M_Tools.lsum tr -> forall c, mse (map (Rmult c) tr) tr = Ok (100 * Rabs (c - 1) * sqrt (M_Tools.lsum (map (fun p => p ^ 2) tr)) / M_Tools.lsum tr)).
Proof.
  intros ml tr H. split; [|split].
  { intros Z. unfold mse, rdiv. destruct (Req_EM_T _ 0); [reflexivity|contradiction]. }
  2: { intros F c. unfold mse. rewrite rdiv_ok by lra. f_equal. f_equal. assert (E : M_Tools.lsum (map (fun p => (fst p - snd p) ^ 2) (combine (map (Rmult c) tr) tr)) = (c - 1) ^ 2 * M_Tools.lsum (map (fun p => p ^ 2) tr)).
    { rewrite <- lsum_map_scal. f_equal. clear. induction tr as [|a tr IH]; [reflexivity|]. cbn [map combine fst snd]. f_equal; [ring|exact IH]. }
    rewrite E, sqrt_mult_alt by apply pow2_ge_0. assert (Sq : sqrt ((c - 1) ^ 2) = Rabs (c - 1)) by (rewrite <- Rsqr_pow2; apply sqrt_Rsqr_abs). rewrite Sq. ring. }
  intros F. unfold mse. rewrite rdiv_ok by lra. eexists. split; [reflexivity|]. pose proof (Rinv_0_lt_compat _ F) as I. set (S := M_Tools.lsum (map (fun p => (fst p - snd p) ^ 2) (combine ml tr))).
  assert (S0 : 0 <= S) by (apply L_Model.lsum_nonneg; intros y Hy; apply in_map_iff in Hy; destruct Hy as (z & <- & _); apply pow2_ge_0). split; [|split].
  - apply Rmult_le_pos; [|lra]. pose proof (sqrt_pos S). lra.
  - split.
    + intros Z. assert (Q : S = 0) by (apply sqrt_eq_0; [exact S0|]; apply (Rmult_eq_reg_r (/ M_Tools.lsum tr)); [unfold Rdiv in Z; nra|lra]). pose proof (lsum_sq_zero (fun p : R * R => fst p - snd p) _ Q) as W. clear - W H. revert tr H W. induction ml as [|a ml IH]; intros [|b tr] H W; cbn [List.length] in H; try discriminate; [reflexivity|]. f_equal; [specialize (W (a, b) (or_introl eq_refl)); cbn [fst snd] in W; lra|]. apply IH; [lia|]. intros p Hp. apply W. now right.
    + intros ->. assert (Q : S = 0); [|rewrite Q, sqrt_0; unfold Rdiv; ring]. unfold S. clear. induction tr as [|a tr IH]; [reflexivity|]. cbn [combine map M_Tools.lsum fold_right fst snd]. unfold M_Tools.lsum in IH. rewrite IH. ring.
  - intros c Hc. assert (E1 : M_Tools.lsum (map (Rmult c) tr) = c * M_Tools.lsum tr) by (rewrite (lsum_map_scal (fun x => x)), map_id; reflexivity). rewrite E1. rewrite rdiv_ok by (intros Z; destruct (Rmult_integral _ _ Z); lra).
    assert (E2 : M_Tools.lsum (map (fun p => (fst p - snd p) ^ 2) (combine (map (Rmult c) ml) (map (Rmult c) tr))) = c ^ 2 * S). { unfold S. rewrite <- lsum_map_scal. f_equal. clear. revert tr. induction ml as [|a ml IH]; intros [|b tr]; cbn [map combine fst snd]; [reflexivity|reflexivity|reflexivity|f_equal; [ring|apply IH]]. }
    rewrite E2, sqrt_mult_alt by apply pow2_ge_0. rewrite sqrt_pow2 by lra. f_equal. field. split; lra.
Qed.

(** * Accuracy over several tests *)
Lemma lmean_bounds l lo hi : l <> [] -> (forall x, In x l -> lo <= x <= hi) -> lo <= lmean l <= hi.
Proof.
  intros H B. pose proof (INR_len l H) as N. unfold lmean. assert (Q : INR (List.length l) * lo <= M_Tools.lsum l <= INR (List.length l) * hi).
  { clear H N. induction l as [|x l IH]; [cbn; lra|]. cbn [M_Tools.lsum fold_right List.length]. unfold M_Tools.lsum in IH. rewrite S_INR. pose proof (B x (or_introl eq_refl)). pose proof (IH (fun y Hy => B y (or_intror Hy))). lra. }
  split; [apply Rmult_le_reg_r with (INR (List.length l))|apply Rmult_le_reg_r with (INR (List.length l))]; try exact N; unfold Rdiv; rewrite Rmult_assoc, Rinv_l by lra; lra.
Qed.
(** One row per parameter; the bias and the deviation are between the extreme relative medians and deviations of the tests,
    the precisions are nonnegative, and zero when all tests agree. *)
Theorem C121_accuracy : forall tests n, tests <> [] -> (forall t, In t tests -> List.length t = n) ->
  exists rows, measure_accuracy tests = Ok rows /\ List.length rows = n /\
  forall k r, nth_error rows k = Some r ->
    (forall lo hi, (forall t M, In t tests -> nth_error t k = Some M -> lo <= m_rmed M <= hi) -> lo <= ac_bias r <= hi) /\
    (forall lo hi, (forall t M, In t tests -> nth_error t k = Some M -> lo <= m_rstd M <= hi) -> lo <= ac_std r <= hi) /\
    0 <= ac_biasp r /\ 0 <= ac_stdp r /\
    (forall M, (forall t, In t tests -> nth_error t k = Some M) -> r = mkAcc (m_rmed M) 0 (m_rstd M) 0).
Proof.
  intros tests n H L. unfold measure_accuracy. destruct tests as [|t0 ts]; [contradiction|]. rewrite (L t0 (or_introl eq_refl)). set (tests := t0 :: ts) in *.
  assert (F : forallb (fun t : list metrics => (List.length t =? n)%nat) tests = true) by (apply forallb_forall; intros t Ht; apply Nat.eqb_eq, L, Ht). rewrite F. cbn [negb].
  set (row := fun k => let b := map (fun t => m_rmed (nth k t met0)) tests in let s := map (fun t => m_rstd (nth k t met0)) tests in
    mkAcc (lmean b) (sqrt (lmean (map (fun v => (v - lmean b) * (v - lmean b)) b))) (lmean s) (sqrt (lmean (map (fun v => (v - lmean s) * (v - lmean s)) s)))).
  rewrite (P_Diag5.mapM_ok _ row) by (intros k _; rewrite !nanstd_val by discriminate; reflexivity). eexists. split; [reflexivity|]. split; [now rewrite map_length, seq_length|]. intros k r Hr.
  assert (Hk : (k < n)%nat) by (apply nth_error_Some_bound_index in Hr || (assert (nth_error (map row (seq 0 n)) k <> None) as Q by congruence; apply nth_error_Some in Q; rewrite map_length, seq_length in Q; exact Q)).
  apply nth_error_nth with (d := row 0%nat) in Hr. rewrite map_nth, seq_nth in Hr by exact Hk. cbn [Nat.add] in Hr. subst r.
  assert (NE : forall t, In t tests -> nth_error t k = Some (nth k t met0)) by (intros t Ht; apply nth_error_nth'; rewrite (L t Ht); exact Hk).
  unfold row; cbv zeta; cbn [ac_bias ac_biasp ac_std ac_stdp]. split; [|split; [|split; [apply sqrt_pos|split; [apply sqrt_pos|]]]].
  - intros lo hi B. apply lmean_bounds; [discriminate|]. intros x Hx. apply in_map_iff in Hx. destruct Hx as (t & <- & Ht). apply (B t _ Ht), NE, Ht.
  - intros lo hi B. apply lmean_bounds; [discriminate|]. intros x Hx. apply in_map_iff in Hx. destruct Hx as (t & <- & Ht). apply (B t _ Ht), NE, Ht.
  - intros M HM. assert (Q : forall t, In t tests -> nth k t met0 = M) by (intros t Ht; pose proof (NE t Ht); rewrite (HM t Ht) in H0; congruence).
    rewrite (map_ext_in (fun t => m_rmed (nth k t met0)) (fun _ => m_rmed M)) by (intros t Ht; now rewrite (Q t Ht)). rewrite (map_ext_in (fun t => m_rstd (nth k t met0)) (fun _ => m_rstd M)) by (intros t Ht; now rewrite (Q t Ht)). rewrite !lmean_const by discriminate. rewrite !map_map, !lmean_const by discriminate. f_equal; rewrite Rminus_diag_eq, Rmult_0_l by reflexivity; apply sqrt_0.
Qed.
(** The column named "mean bias" is not a mean error: a network that misses one value out of three by 25 percent, the others being right, has a mean bias of zero. *)
Theorem C121_mean_bias_refuted : exists M, get_parameters_metrics [1; 2; 4] [1; 2; 5] = Ok M /\ m_rmean M = 25 / 3 /\ exists s, measure_accuracy [[M]] = Ok [mkAcc 0 0 s 0].
Proof.
  destruct (C121_metrics [1; 2; 4] [1; 2; 5] eq_refl) as (M & E & _ & A & _); [intros t [<-|[<-|[<-|[]]]]; lra|exists 1, 2; cbn; repeat split; auto; lra|exists 1, 2; cbn; repeat split; auto; lra|]. exists M. split; [exact E|]. split; [rewrite A; unfold lmean; cbn; lra|].
  destruct (C121_accuracy [[M]] 1) as (rows & Er & Lr & B); [discriminate|intros t [<-|[]]; reflexivity|]. exists (m_rstd M). rewrite Er. f_equal. destruct rows as [|r [|]]; try discriminate. f_equal. destruct (B 0%nat r eq_refl) as (_ & _ & _ & _ & Q). rewrite (Q M) by (intros t [<-|[]]; reflexivity). f_equal.
  unfold get_parameters_metrics in E. cbn [List.length Nat.eqb negb] in E. unfold sub2 in E. cbn [combine map fst snd M_Tools.mapM] in E. destruct (sub_metrics [1 - 1; 2 - 2; 5 - 4]) as [a|]; cbn [bind] in E; [|discriminate]. rewrite !rdiv_ok in E by lra. cbn [bind] in E. destruct (sub_metrics _) as [r'|] eqn:Er'; cbn [bind] in E; [|discriminate]. destruct (pearson _ _); cbn [bind] in E; [|discriminate]. apply Ok_inj in E. subst M. cbn [m_rmed].
  unfold sub_metrics in Er'. destruct (median _) as [m|] eqn:Em; cbn [bind] in Er'; [|discriminate]. destruct (nanstd _); cbn [bind] in Er'; [|discriminate]. apply Ok_inj in Er'. subst r'. cbn [fst snd].
  replace (10 ^ 2 * (1 - 1) / 1) with 0 in Em by field. replace (10 ^ 2 * (2 - 2) / 2) with 0 in Em by field. replace (10 ^ 2 * (5 - 4) / 4) with 25 in Em by field. unfold median in Em. cbn in Em. repeat (destruct (Rle_dec _ _) in Em; cbn in Em; try (exfalso; lra)). injection Em as <-. reflexivity.
Qed.

Print Assumptions C121_read.
Print Assumptions C121_labels.
Print Assumptions C121_last_line_refuted.
Print Assumptions C121_repeat_refuted.
Print Assumptions C121_refused.
Print Assumptions C121_metrics.
Print Assumptions C121_perfect.
Print Assumptions C121_affine.
Print Assumptions C121_undefined.
Print Assumptions C121_units.
Print Assumptions C121_p2x.
Print Assumptions C121_last_mode_refuted.
Print Assumptions C121_diff.
Print Assumptions C121_mse.
Print Assumptions C121_accuracy.
Print Assumptions C121_mean_bias_refuted.
