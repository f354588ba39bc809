(** C93, continued: the standard-deviation profile. *)
From Coq Require Import Reals List Arith ZArith Lia Lra Bool Permutation Sorting.Sorted.
From Flocq Require Import Core.
From Verif Require Import Base_Py Base_Sum M_Image M_Tools L_Image2 L_Tools2 S_Metric M_Metric L_Metric P_Metric P_Metric2 P_Metric3 P_Metric4.
Import ListNotations.
Open Scope R_scope.

Lemma sum_samples a cx cy ps bs (P : R -> bool) (g : R -> R) :
  lsum (map g (map snd (filter (fun p => P (fst p)) (rp_samples (fun _ _ => 0) a cx cy ps bs None)))) =
  sum_where (rows a) (cols a) (fun i j => P (dist_bins cx cy ps bs i j)) (fun i j => g (px a i j)).
Proof.
  rewrite map_map. unfold rp_samples. rewrite lsum_filter, map_map. rewrite lsum_flat2. reflexivity.
Qed.
Lemma nanstd_where a cx cy ps bs (P : R -> bool) :
  nanstd (map snd (filter (fun p => P (fst p)) (rp_samples (fun _ _ => 0) a cx cy ps bs None))) =
  (if Req_EM_T (count_where (rows a) (cols a) (fun i j => P (dist_bins cx cy ps bs i j))) 0 then Err NonFinite
   else Ok (std_where (rows a) (cols a) (fun i j => P (dist_bins cx cy ps bs i j)) (px a))).
Proof.
  pose proof (sum_samples a cx cy ps bs P (fun _ => 1)) as E1. pose proof (sum_samples a cx cy ps bs P) as E.
  set (l := map snd (filter _ _)) in *. rewrite lsum_one in E1. unfold count_where. rewrite <- E1. unfold nanstd.
  destruct (Nat.eqb_spec (length l) 0) as [H0|H0]; destruct (Req_EM_T (INR (length l)) 0) as [H1|H1].
  - reflexivity.
  - exfalso. apply H1. rewrite H0. reflexivity.
  - exfalso. apply H0. apply INR_eq. exact H1.
  - f_equal. unfold std_where. unfold lmean at 1. rewrite map_length. f_equal. unfold mean_where, count_where.
    rewrite <- E1. f_equal.
    assert (Em : lmean l = sum_where (rows a) (cols a) (fun i j => P (dist_bins cx cy ps bs i j)) (px a) / INR (length l)).
    { unfold lmean. f_equal. rewrite <- (map_id l). exact (E (fun v => v)). }
    rewrite <- Em. rewrite <- (E (fun v => Rsqr (v - lmean l))). reflexivity.
Qed.

(** C93. With a bin of one unit (bin size 1) and at least one ring below the
    outermost, each value of the standard-deviation profile is the standard
    deviation of the pixels within half a bin of the radius returned beside it
    (for the first value: of all the pixels closer than that). *)
Theorem C93_stddev argsort a ps center rr sd :
  radial_stddev argsort a ps center (Some 1) = Ok (rr, sd) ->
  let cx := fst (image_center (rows a) (cols a) center) in
  let cy := snd (image_center (rows a) (cols a) center) in
  length sd = length rr /\
  forall m, (m < length rr)%nat ->
    nth m sd 0 = std_where (rows a) (cols a) (fun i j =>
       (match m with O => true | _ => if Rle_dec (nth m rr 0 - / 2) (dist_bins cx cy ps 1 i j) then true else false end)
       && (if Rlt_dec (dist_bins cx cy ps 1 i j) (nth m rr 0 + / 2) then true else false)) (px a).
Proof.
  intros H. unfold radial_stddev in H. change (image_center (rows a) (cols a) center) with (rp_center (rows a) (cols a) center).
  destruct (rp_center (rows a) (cols a) center) as [cx cy]. cbn [fst snd]. destruct (Req_EM_T 1 0) as [E0|_]; [lra|]. cbv zeta in H.
  destruct (rp_profile _ _) as [prof|]; [|discriminate]. cbn [bind] in H. destruct (list_min _) as [rmin|]; [|discriminate]. cbn [bind] in H.
  destruct (mapM _ _) as [sd'|] eqn:Em; [|discriminate]. cbn [bind] in H. apply Ok_inj in H. injection H as <- <-.
  assert (G : forall (f : nat -> result R) l o, mapM f l = Ok o -> length o = length l /\ forall m, (m < length l)%nat -> f (nth m l 0%nat) = Ok (nth m o 0)).
  { intros f. induction l as [|x l IH]; intros o Ho; simpl in Ho.
    - apply Ok_inj in Ho. subst o. split; [reflexivity|]. simpl. lia.
    - destruct (f x) as [y|] eqn:Ef; [|discriminate]. cbn [bind] in Ho. destruct (mapM f l) as [o'|]; [|discriminate]. cbn [bind] in Ho.
      apply Ok_inj in Ho. subst o. destruct (IH o' eq_refl) as [L N]. split; [simpl; congruence|]. intros [|m] Hm; simpl in *; [exact Ef|apply N; lia]. }
  destruct (G _ _ _ Em) as [L N]. rewrite seq_length in L, N. rewrite map_length, seq_length. split; [exact L|].
  intros m Hm. specialize (N m Hm). rewrite seq_nth in N by exact Hm. cbn [plus] in N.
  rewrite nth_map_seq by exact Hm. unfold rp_std_bin in N.
  set (rad := (rmin + INR m) * 1) in *.
  match type of N with nanstd (map snd (filter ?F _)) = _ => set (Q := F) in N end.
  set (P := fun d : R => (match m with O => true | _ => if Rle_dec (rad - / 2) d then true else false end) && (if Rlt_dec d (rad + / 2) then true else false)).
  assert (EQ : forall p : R * R, Q p = P (fst p)).
  { intros p. unfold Q, P. replace (1 / 2) with (/ 2) by lra. rewrite Rmult_1_r. destruct m; simpl.
    - reflexivity.
    - destruct (Rle_dec _ _); reflexivity. }
  rewrite (filter_ext _ _ EQ) in N. rewrite nanstd_where in N. destruct (Req_EM_T _ 0) as [E|E]; [discriminate|]. apply Ok_inj in N.
  rewrite <- N. reflexivity.
Qed.

(** C93, refuted reading. "The first value of the standard-deviation profile
    is that of the innermost ring, whatever the pixel scale": false. The first
    selection compares a distance in bins with a radius in physical units:
    with a pixel of 10 units the first value of a 3x3 image covers the nine
    pixels, though the innermost ring is the central pixel alone (deviation
    0). *)
Definition std_img : img := mkImg 3 3 (fun i j => if (i =? 1)%nat && (j =? 1)%nat then 9 else 0).
Theorem C93_stddev_refuted : forall argsort, sorts argsort -> exists sd,
  radial_stddev argsort std_img 10 None None = Ok ([0], [sd]) /\ 0 < sd /\
  std_where 3 3 (fun i j => (sq_ring 3 i j =? 0)%Z) (px std_img) = 0.
Proof.
  intros argsort Hs.
  destruct (C93_square argsort (fun _ _ => 0) std_img 3 10 Hs ltac:(lia) eq_refl eq_refl ltac:(lra)) as (o & E & H).
  { intros i j _ _. simpl. destruct (_ && _); lra. } { simpl. lra. }
  cbv zeta in H. rewrite near_sqrt2 in H. simpl Nat.even in H. cbv iota in H. destruct H as (_ & L & L' & Hm).
  destruct (Hm 0%nat ltac:(simpl; lia)) as (_ & Hrr & _). change (Z.to_nat (1 - 0)) with 1%nat in L, L'.
  unfold radial_profile in E. cbn [rp_normalize bind rp_center] in E. unfold radial_stddev. cbn [rp_center].
  set (cx := (INR (cols std_img) - 1) / 2) in *. set (cy := (INR (rows std_img) - 1) / 2) in *. cbv zeta in E. cbv zeta.
  destruct (Req_EM_T 10 0) as [E0|_]; [lra|].
  destruct (rp_profile _ _) as [prof|]; [|discriminate]. cbn [bind] in *. destruct (list_min _) as [rmin|]; [|discriminate]. cbn [bind] in *.
  destruct (list_max _) as [mx|]; [|discriminate]. cbn [bind] in *. destruct (Req_EM_T mx 0); [discriminate|]. apply Ok_inj in E. injection E as <-.
  cbn [rp_rr rp_prof] in *.
  destruct (rpw_len (map (fun m => (rmin + INR m) * 10) (seq 0 (length prof))) prof) as [E2 E3]; [rewrite map_length, seq_length; reflexivity|].
  rewrite E2, E3 in *. rewrite L in *. cbn [seq map nth] in Hrr |- *. cbn [mapM]. rewrite Hrr.
  assert (Erad : (0 + INR 0) * 10 = 0) by (simpl; lra). rewrite Erad.
  unfold rp_std_bin.
  change (Nat.eqb 0 0) with true. cbv iota.
  pose proof (nanstd_where std_img cx cy 10 10 (fun d => if Rlt_dec d (0 + 10 / 2) then true else false)) as Ns.
  match type of Ns with _ = ?X => match goal with |- context [nanstd ?l] => assert (En : nanstd l = X) by exact Ns end end.
  rewrite En. clear En Ns.
  assert (HP : forall i j, (i < 3)%nat -> (j < 3)%nat -> (if Rlt_dec (dist_bins cx cy 10 10 i j) (0 + 10 / 2) then true else false) = true).
  { intros i j Hi Hj. destruct (Rlt_dec _ _) as [|K]; [reflexivity|]. exfalso. apply K. unfold dist_bins.
    replace (sqrt (Rsqr (INR j - cx) + Rsqr (INR i - cy)) * 10 / 10) with (sqrt (Rsqr (INR j - cx) + Rsqr (INR i - cy))) by lra.
    rewrite <- (sqrt_Rsqr (0 + 10 / 2)) by lra. apply sqrt_lt_1_alt.
    assert (B : forall k, (k < 3)%nat -> 0 <= Rsqr (INR k - 1) <= 1).
    { intros k Hk. destruct k as [|[|[|]]]; try lia; simpl; unfold Rsqr; lra. }
    replace cx with 1 by (unfold cx; simpl; lra). replace cy with 1 by (unfold cy; simpl; lra).
    pose proof (B i Hi). pose proof (B j Hj). unfold Rsqr in *. lra. }
  assert (Sw : forall f, sum_where 3 3 (fun i j => if Rlt_dec (dist_bins cx cy 10 10 i j) (0 + 10 / 2) then true else false) f = rsum 3 (fun i => rsum 3 (f i))).
  { intros f. unfold sum_where. apply rsum_ext. intros i Hi. apply rsum_ext. intros j Hj. rewrite HP by assumption. reflexivity. }
  change (rows std_img) with 3%nat. change (cols std_img) with 3%nat.
  set (PP := fun i j => if Rlt_dec (dist_bins cx cy 10 10 i j) (0 + 10 / 2) then true else false) in *.
  assert (Hc : count_where 3 3 PP = 9) by (unfold count_where; rewrite (Sw (fun _ _ => 1)); simpl; lra).
  rewrite Hc. destruct (Req_EM_T 9 0) as [K|_]; [exfalso; lra|]. cbn [bind].
  eexists. split; [reflexivity|]. split.
  - unfold std_where, mean_where. rewrite Hc, !Sw. apply sqrt_lt_R0. simpl. unfold Rsqr. lra.
  - assert (R0 : forall i j, (i < 3)%nat -> (j < 3)%nat -> (sq_ring 3 i j =? 0)%Z = ((i =? 1) && (j =? 1))%nat).
    { intros i j Hi Hj. unfold sq_ring, ring_no, dist_bins. replace ((INR 3 - 1) / 2) with 1 by (simpl; lra).
      set (d := sqrt (Rsqr (INR j - 1) + Rsqr (INR i - 1)) * 1 / 1).
      assert (D : ((i =? 1) && (j =? 1))%nat = true /\ d = 0 \/ ((i =? 1) && (j =? 1))%nat = false /\ 1 <= d).
      { assert (Q : forall x y, 1 <= Rsqr x + Rsqr y -> 1 <= sqrt (Rsqr x + Rsqr y) * 1 / 1).
        { intros x y Hxy. unfold Rdiv. rewrite Rinv_1, !Rmult_1_r. rewrite <- sqrt_1. apply sqrt_le_1_alt. exact Hxy. }
        destruct i as [|[|[|]]]; try lia; destruct j as [|[|[|]]]; try lia; simpl (_ && _);
        try (right; split; [reflexivity|]; apply Q; simpl; unfold Rsqr; lra).
        left. split; [reflexivity|]. unfold d. simpl. replace (Rsqr (1 - 1) + Rsqr (1 - 1)) with 0 by (unfold Rsqr; lra). rewrite sqrt_0. lra. }
      destruct D as [[ -> ->]|[ -> D]].
      - rewrite (near_int 0). reflexivity.
      - apply Z.eqb_neq. pose proof (Zrnd_le ZnearestE _ _ D) as K. rewrite (near_int 1) in K. lia. }
    assert (Sz : forall f, sum_where 3 3 (fun i j => (sq_ring 3 i j =? 0)%Z) f = f 1%nat 1%nat).
    { intros f. unfold sum_where. transitivity (rsum 3 (fun i => rsum 3 (fun j => if ((i =? 1) && (j =? 1))%nat then f i j else 0))).
      - apply rsum_ext. intros i Hi. apply rsum_ext. intros j Hj. rewrite R0 by assumption. reflexivity.
      - simpl. lra. }
    unfold std_where, mean_where, count_where. rewrite !Sz. simpl. replace (Rsqr (9 - 9 / 1) / 1) with 0 by (unfold Rsqr; lra). apply sqrt_0.
Qed.

Print Assumptions C93_stddev.
Print Assumptions C93_stddev_refuted.
