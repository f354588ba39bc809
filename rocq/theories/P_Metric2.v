(** C93, continued: consequences for the user: constant images, bounds,
    encircled energy, and the radii of a square image. *)
From Coq Require Import Reals List Arith ZArith Lia Lra Bool Permutation Sorting.Sorted.
From Flocq Require Import Core.
From Verif Require Import Base_Py Base_Sum M_Image M_Tools L_Image2 L_Tools2 S_Metric M_Metric L_Metric P_Metric.
Import ListNotations.
Open Scope R_scope.

Lemma count_pos r c P i j : (i < r)%nat -> (j < c)%nat -> P i j = true -> 0 < count_where r c P.
Proof.
  intros Hi Hj HP. unfold count_where, sum_where.
  apply (Rlt_le_trans _ (rsum c (fun j => if P i j then 1 else 0))).
  - apply (Rlt_le_trans _ 1); [lra|]. apply (Rle_trans _ (if P i j then 1 else 0)); [rewrite HP; lra|].
    apply (rsum_term_le c (fun j => if P i j then 1 else 0) j); [intros k _; destruct (P i k); lra|exact Hj].
  - apply (rsum_term_le r (fun i => rsum c (fun j => if P i j then 1 else 0)) i); [|exact Hi].
    intros k _. apply rsum_nonneg. intros l _. destruct (P k l); lra.
Qed.

Lemma sum_where_le r c P f g : (forall i j, (i < r)%nat -> (j < c)%nat -> P i j = true -> f i j <= g i j) ->
  sum_where r c P f <= sum_where r c P g.
Proof.
  intros H. unfold sum_where. apply rsum_le. intros i Hi. apply rsum_le. intros j Hj.
  destruct (P i j) eqn:E; [apply H; assumption|lra].
Qed.
Lemma sum_where_const r c P k : sum_where r c P (fun _ _ => k) = k * count_where r c P.
Proof.
  unfold count_where, sum_where. rewrite <- rsum_scal. apply rsum_ext. intros i _. rewrite <- rsum_scal. apply rsum_ext.
  intros j _. destruct (P i j); lra.
Qed.

Lemma ring_sel_present pa_of cx cy ps bs w r c z :
  ring_present r c (in_wedge pa_of cx cy w) (ring_no cx cy ps bs) z -> 0 < count_where r c (sel_ring pa_of cx cy ps bs w z).
Proof.
  intros (i & j & Hi & Hj & Hw & Hz). apply (count_pos _ _ _ i j Hi Hj). unfold sel_ring. rewrite Hw, Hz, Z.eqb_refl. reflexivity.
Qed.

(** C93. The profile stays within the range of the image: if every pixel is
    between lo and hi, so is every value of the profile; in particular a
    uniform image has a uniform profile. *)
Theorem C93_range argsort pa_of a ps center binsize w im o lo hi :
  sorts argsort ->
  radial_profile argsort pa_of a ps center binsize None NormNone w = Ok (im, o) ->
  (forall i j, (i < rows a)%nat -> (j < cols a)%nat -> lo <= px a i j <= hi) ->
  im = a /\ rp_prof o <> [] /\ Forall (fun v => lo <= v <= hi) (rp_prof o).
Proof.
  intros Hs H Hr.
  assert (Him : im = a).
  { unfold radial_profile in H. cbn [rp_normalize bind] in H. destruct (rp_center _ _ _). destruct (Req_EM_T _ 0); [discriminate|].
    cbv zeta in H. destruct (rp_profile _ _); [|discriminate]. cbn [bind] in H. destruct (list_min _); [|discriminate]. cbn [bind] in H.
    destruct (list_max _); [|discriminate]. cbn [bind] in H. destruct (Req_EM_T _ 0); [discriminate|]. apply Ok_inj in H. congruence. }
  subst im. destruct (C93_profile _ _ _ _ _ _ _ _ _ _ Hs H) as (zs & mx & Hz & Hne & Hp & _).
  split; [reflexivity|]. split. { rewrite Hp. intros E. apply map_eq_nil in E. contradiction. }
  rewrite Hp. apply Forall_forall. intros v Hv. apply in_map_iff in Hv. destruct Hv as [z [<- Hin]].
  destruct Hz as [_ Hz]. apply Hz in Hin. destruct Hin as [Hin _]. apply (ring_sel_present pa_of) in Hin.
  unfold mean_where. set (P := sel_ring _ _ _ _ _ _ z) in *.
  assert (A : lo * count_where (rows a) (cols a) P <= sum_where (rows a) (cols a) P (px a) <= hi * count_where (rows a) (cols a) P).
  { rewrite <- !sum_where_const. split; apply sum_where_le; intros i j Hi Hj _; apply Hr; assumption. }
  split; [apply (Rmult_le_reg_r (count_where (rows a) (cols a) P))|apply (Rmult_le_reg_r (count_where (rows a) (cols a) P))];
    try exact Hin; unfold Rdiv; rewrite Rmult_assoc, Rinv_l, Rmult_1_r by lra; apply A.
Qed.

Lemma disc_mono pa_of cx cy ps bs w r c f z z' : (z <= z')%Z -> (forall i j, (i < r)%nat -> (j < c)%nat -> 0 <= f i j) ->
  sum_where r c (sel_disc pa_of cx cy ps bs w z) f <= sum_where r c (sel_disc pa_of cx cy ps bs w z') f.
Proof.
  intros Hz Hf. unfold sum_where. apply rsum_le. intros i Hi. apply rsum_le. intros j Hj. unfold sel_disc.
  specialize (Hf i j Hi Hj). destruct (in_wedge pa_of cx cy w i j); simpl; [|lra].
  destruct (Z.leb_spec (ring_no cx cy ps bs i j) z), (Z.leb_spec (ring_no cx cy ps bs i j) z'); try lra; lia.
Qed.

Lemma last_In {A} (l : list A) d : l <> [] -> In (last l d) l.
Proof. induction l as [|x l IH]; intros H; [contradiction|]. destruct l as [|y l]; [left; reflexivity|]. right. apply IH. discriminate. Qed.
Lemma SS_last {A} (Rel : A -> A -> Prop) l d : StronglySorted Rel l -> l <> [] -> forall x, In x l -> x = last l d \/ Rel x (last l d).
Proof.
  induction 1 as [|y l Hl IH Hy]; intros Hne x Hx; [contradiction|]. destruct l as [|y' l']; simpl.
  - destruct Hx as [ ->|[]]; left; reflexivity.
  - destruct Hx as [ ->|Hx].
    + right. rewrite Forall_forall in Hy. apply Hy. exact (last_In (y' :: l') d ltac:(discriminate)).
    + exact (IH ltac:(discriminate) x Hx).
Qed.
Lemma last_map {A B} (f : A -> B) l d : l <> [] -> last (map f l) (f d) = f (last l d).
Proof. induction l as [|x l IH]; intros H; [contradiction|]. destruct l as [|y l]; [reflexivity|]. simpl in *. apply IH. discriminate. Qed.

(** C93. Encircled energy of a non-negative image: it grows from the centre
    outwards, lies in [0,1] and its last value is exactly 1. *)
Theorem C93_encircled argsort pa_of a ps center ee rr :
  sorts argsort ->
  getEncircledEnergy argsort pa_of a ps center = Ok (ee, rr) ->
  (forall i j, (i < rows a)%nat -> (j < cols a)%nat -> 0 <= px a i j) ->
  length ee = length rr /\ StronglySorted Rle ee /\ Forall (fun v => 0 <= v <= 1) ee /\ last ee 1 = 1 /\ ee <> [].
Proof.
  intros Hs H Hpos. unfold getEncircledEnergy in H.
  destruct (radial_profile _ _ _ _ _ _ _ _ _) as [[im o]|e] eqn:E; [|discriminate]. cbn [bind snd] in H. apply Ok_inj in H. injection H as <- <-.
  pose proof (C93_range _ _ _ _ _ _ _ _ _ (Rmin 0 (match img_min a with Ok m => m | _ => 0 end)) (match img_max a with Ok m => m | _ => 0 end) Hs E) as Hr.
  assert (Him : im = a).
  { unfold radial_profile in E. cbn [rp_normalize bind] in E. destruct (rp_center _ _ _). destruct (Req_EM_T _ 0); [discriminate|].
    cbv zeta in E. destruct (rp_profile _ _); [|discriminate]. cbn [bind] in E. destruct (list_min _); [|discriminate]. cbn [bind] in E.
    destruct (list_max _); [|discriminate]. cbn [bind] in E. destruct (Req_EM_T _ 0); [discriminate|]. apply Ok_inj in E. congruence. }
  subst im. clear Hr. destruct (C93_profile _ _ _ _ _ _ _ _ _ _ Hs E) as (zs & mx & Hz & Hne & _ & Hlen & He & Hm0 & Hm1 & (zm & Hzm & Ezm)).
  set (cx := fst (image_center (rows a) (cols a) center)) in *. set (cy := snd (image_center (rows a) (cols a) center)) in *. cbv zeta in *.
  set (S z := sum_where (rows a) (cols a) (sel_disc pa_of cx cy ps ps None z) (px a)) in *.
  assert (Hmono : forall z z', (z <= z')%Z -> S z <= S z') by (intros z z' Hzz; apply disc_mono; assumption).
  assert (Hnn : forall z, 0 <= S z).
  { intros z. unfold S, sum_where. apply rsum_nonneg. intros i Hi. apply rsum_nonneg. intros j Hj. destruct (sel_disc _ _ _ _ _ _ _ _); [apply Hpos; assumption|lra]. }
  assert (Hmp : 0 < mx). { pose proof (Hnn zm). unfold S in H. fold (S zm) in H. change (S zm = mx) in Ezm. lra. }
  assert (Hin : forall z, S z / mx >= 0). { intros z. apply Rle_ge. apply Rmult_le_pos; [apply Hnn|]. left. apply Rinv_0_lt_compat. exact Hmp. }
  split; [rewrite He, map_length; symmetry; exact Hlen|].
  split.
  { rewrite He. destruct Hz as [Hz _]. revert Hz. apply SS_map. intros x y Hxy. apply Rmult_le_compat_r; [left; apply Rinv_0_lt_compat; exact Hmp|]. apply Hmono. lia. }
  split.
  { rewrite He. apply Forall_forall. intros v Hv. apply in_map_iff in Hv. destruct Hv as [z [<- Hzin]].
    split; [apply Rge_le, Hin|]. apply (Rmult_le_reg_r mx); [exact Hmp|]. unfold Rdiv. rewrite Rmult_assoc, Rinv_l, Rmult_1_r, Rmult_1_l by lra. apply Hm1. exact Hzin. }
  split.
  2:{ rewrite He. intros E0. apply map_eq_nil in E0. contradiction. }
  rewrite He. destruct (exists_last Hne) as [l0 [b Eb]].
  assert (Hb : S b = mx).
  { apply Rle_antisym; [apply Hm1; rewrite Eb; apply in_or_app; right; left; reflexivity|]. rewrite <- Ezm.
    destruct Hz as [Hz _]. destruct (SS_last Z.lt zs 0%Z Hz Hne zm Hzm) as [Hl|Hl]; rewrite Eb, last_last in Hl; apply Hmono; lia. }
  rewrite Eb, map_app. cbn [map]. rewrite last_last. fold (S b). rewrite Hb. unfold Rdiv. apply Rinv_r. lra.
Qed.

Print Assumptions C93_range.
Print Assumptions C93_encircled.
