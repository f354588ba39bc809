(** C94, continued: invariances, failures and the dispatch of [getFWHM]. *)
From Coq Require Import Reals List Arith ZArith Lia Lra Bool.
From Flocq Require Import Core.
From Verif Require Import Base_Py Base_Sum M_Image M_Tools L_Image2 S_Metric M_Metric M_Metric2 P_Metric6.
Import ListNotations.
Open Scope R_scope.

Section Scale.
  Variable c : R.
  Hypothesis Hc : 0 < c.
  Lemma sc_lt x y : (c * x < c * y) <-> x < y.
  Proof. split; intros H; [apply (Rmult_lt_reg_l c); assumption|apply Rmult_lt_compat_l; assumption]. Qed.
  Lemma sc_le x y : (c * x <= c * y) <-> x <= y.
  Proof. split; intros H; [apply (Rmult_le_reg_l c); assumption|apply Rmult_le_compat_l; lra]. Qed.
  Lemma fold_max_sc l : forall x, fold_left Rmax (map (Rmult c) l) (c * x) = c * fold_left Rmax l x.
  Proof.
    induction l as [|y l IH]; intros x; [reflexivity|]. simpl. rewrite <- IH. f_equal. unfold Rmax.
    destruct (Rle_dec (c * x) (c * y)) as [A|A], (Rle_dec x y) as [B|B]; try reflexivity; rewrite sc_le in A; lra.
  Qed.
  Lemma fold_min_sc l : forall x, fold_left Rmin (map (Rmult c) l) (c * x) = c * fold_left Rmin l x.
  Proof.
    induction l as [|y l IH]; intros x; [reflexivity|]. simpl. rewrite <- IH. f_equal. unfold Rmin.
    destruct (Rle_dec (c * x) (c * y)) as [A|A], (Rle_dec x y) as [B|B]; try reflexivity; rewrite sc_le in A; lra.
  Qed.
  Definition sres (r : result R) : result R := match r with Ok v => Ok (c * v) | Err e => Err e end.
  Lemma list_max_sc l : list_max (map (Rmult c) l) = sres (list_max l).
  Proof. destruct l as [|x l]; [reflexivity|]. simpl. rewrite fold_max_sc. reflexivity. Qed.
  Lemma list_min_sc l : list_min (map (Rmult c) l) = sres (list_min l).
  Proof. destruct l as [|x l]; [reflexivity|]. simpl. rewrite fold_min_sc. reflexivity. Qed.
  Definition sp (p : R * R) : R * R := (c * fst p, snd p).
  Lemma combine_sc xs : forall ys, combine (map (Rmult c) xs) ys = map sp (combine xs ys).
  Proof. induction xs as [|x xs IH]; intros [|y ys]; simpl; try reflexivity. rewrite IH. reflexivity. Qed.
  Lemma pinsert_sc x l : pinsert (sp x) (map sp l) = map sp (pinsert x l).
  Proof.
    induction l as [|y l IH]; [reflexivity|]. simpl. destruct (Rle_dec (c * fst x) (c * fst y)) as [A|A], (Rle_dec (fst x) (fst y)) as [B|B]; rewrite ?sc_le in A; try lra; try reflexivity.
    simpl. rewrite IH. reflexivity.
  Qed.
  Lemma psort_sc l : psort (map sp l) = map sp (psort l).
  Proof. induction l as [|x l IH]; [reflexivity|]. unfold psort in *. simpl. rewrite IH. apply pinsert_sc. Qed.
  Lemma interp_sc xs ys t : interp1d (map (Rmult c) xs) ys (c * t) = interp1d xs ys t.
  Proof.
    unfold interp1d. rewrite map_length. destruct (negb _); [reflexivity|]. rewrite combine_sc, psort_sc.
    set (s := psort (combine xs ys)). cbv zeta.
    assert (E : length (filter (fun p => if Rlt_dec (fst p) (c * t) then true else false) (map sp s)) = length (filter (fun p => if Rlt_dec (fst p) t then true else false) s)).
    { clearbody s. induction s as [|p s IH]; [reflexivity|]. simpl. destruct (Rlt_dec (c * fst p) (c * t)) as [A|A], (Rlt_dec (fst p) t) as [B|B]; rewrite ?sc_lt in A; try lra; simpl; congruence. }
    rewrite E, map_length, !nth_error_map.
    destruct (nth_error s _) as [a|]; [|reflexivity]. destruct (nth_error s _) as [b|]; [|reflexivity]. simpl.
    destruct (Req_EM_T (c * fst b) (c * fst a)) as [A|A], (Req_EM_T (fst b) (fst a)) as [B|B]; try reflexivity.
    - exfalso. apply B. apply (Rmult_eq_reg_l c); lra.
    - exfalso. apply A. rewrite B. reflexivity.
    - f_equal. field. split; lra.
  Qed.
  Lemma nth_sc p k : nth k (map (Rmult c) p) 0 = c * nth k p 0.
  Proof. replace 0 with (c * 0) at 1 by lra. apply map_nth. Qed.
  Lemma above_sc p h : above_half (map (Rmult c) p) (c * h) = above_half p h.
  Proof.
    unfold above_half. rewrite map_length. apply filter_ext. intros k. rewrite nth_sc.
    destruct (Rle_dec (c * h) (c * nth k p 0)) as [A|A], (Rle_dec h (nth k p 0)) as [B|B]; try reflexivity; rewrite sc_le in A; lra.
  Qed.
  Lemma edge_sc p h k : edge_cross (map (Rmult c) p) (c * h) k = edge_cross p h k.
  Proof.
    unfold edge_cross. cbv zeta. rewrite <- (interp_sc (pyslice p _ _)). f_equal. unfold pyslice. rewrite map_length, skipn_map, firstn_map. reflexivity.
  Qed.
  Lemma fwhm_sc p : fwhm_1d (map (Rmult c) p) = fwhm_1d p.
  Proof.
    unfold fwhm_1d. rewrite list_max_sc, list_min_sc. destruct (list_max p) as [mx|]; [|reflexivity]. cbn [sres bind].
    destruct (list_min p) as [mn|]; [|reflexivity]. cbn [sres bind].
    rewrite map_length. destruct (Rle_dec (/ 2 * (c * mx)) (c * mn)) as [A|A], (Rle_dec (/ 2 * mx) mn) as [B|B]; try reflexivity.
    - exfalso. apply B. apply sc_le. lra.
    - exfalso. apply A. apply sc_le in B. lra.
    - cbv zeta. replace (c * mx / 2) with (c * (mx / 2)) by lra. rewrite above_sc, !edge_sc. reflexivity.
  Qed.
End Scale.

(** C94. The width of a profile does not depend on its flux: multiplying every
    sample by the same positive number changes neither the value nor the
    failures. *)
Theorem C94_scale p c : 0 < c -> fwhm_1d (map (fun v => c * v) p) = fwhm_1d p.
Proof. intros Hc. exact (fwhm_sc c Hc p). Qed.

Lemma pyslice_start0 (p : list R) : (3 <= length p)%nat -> length (pyslice p (Z.of_nat 0 - 1) (Z.of_nat 0 + 2)) = 0%nat.
Proof. intros H. unfold pyslice, slice_len, slice_bound. rewrite firstn_length. simpl. lia. Qed.

(** C94, refuted reading. "A peak next to the border has a width": false. If
    the first sample is at or above half maximum, at least two samples are and
    at least two are not, the call raises ValueError (the three-sample window
    around the edge is empty); likewise for the last sample. *)
Theorem C94_border_refuted : forall p mx, list_max p = Ok mx ->
  (exists k, (k < length p)%nat /\ nth k p 0 < mx / 2) ->
  (2 <= length (above_half p (mx / 2)))%nat -> (S (length (above_half p (mx / 2))) < length p)%nat ->
  mx / 2 <= nth 0 p 0 \/ (first_above p (mx / 2) 1 /\ nth 1 p 0 <= nth 2 p 0 /\ mx / 2 <= nth (length p - 1) p 0) ->
  fwhm_1d p = Err ValueError.
Proof.
  intros p mx Hmx (k & Hk1 & Hk2) H2 Hn Hcase. unfold fwhm_1d. rewrite Hmx. cbn [bind]. destruct (list_min p) as [mn|e] eqn:Emn.
  2:{ destruct p; [simpl in Hk1; lia|discriminate]. }
  cbn [bind]. apply list_min_spec in Emn. destruct Emn as [Lo _].
  assert (Hm : mn < mx / 2). { apply (Rle_lt_trans _ (nth k p 0)); [|exact Hk2]. apply Lo. apply nth_In. exact Hk1. }
  destruct (Rle_dec (/ 2 * mx) mn) as [K|_]; [lra|]. cbv zeta.
  destruct (Nat.ltb_spec (length (above_half p (mx / 2))) 2) as [K|_]; [lia|].
  destruct (Z.leb_spec (Z.of_nat (length p) - 1) (Z.of_nat (length (above_half p (mx / 2))))) as [K|_]; [lia|].
  destruct Hcase as [H0|(Hf & Hup & Hl)].
  - rewrite (above_hd p (mx / 2) 0). 2:{ split; [lia|]. split; [exact H0|]. intros j Hj. lia. }
    unfold edge_cross at 1. cbv zeta. unfold interp1d at 1. rewrite pyslice_start0 by lia. reflexivity.
  - rewrite (above_hd p (mx / 2) 1 Hf).
    rewrite (above_last p (mx / 2) (length p - 1)). 2:{ split; [lia|]. split; [exact Hl|]. intros j Hj. lia. }
    unfold edge_cross at 1. cbv zeta. rewrite (slice3 p 1) by lia.
    destruct Hf as (F1 & F2 & F3). specialize (F3 0%nat ltac:(lia)).
    rewrite (interp_left (nth (1 - 1) p 0) (nth 1 p 0) (nth 2 p 0)) by (simpl; lra). cbn [bind].
    unfold edge_cross, interp1d. cbv zeta.
    replace (length (pyslice p (Z.of_nat (length p - 1) - 1) (Z.of_nat (length p - 1) + 2))) with 2%nat. { reflexivity. }
    unfold pyslice, slice_len, slice_bound. rewrite firstn_length, skipn_length. 
    destruct (Z.ltb_spec (Z.of_nat (length p - 1) - 1) 0); [lia|]. destruct (Z.ltb_spec (Z.of_nat (length p - 1) + 2) 0); [lia|]. lia.
Qed.
Example C94_border_ex : fwhm_1d [4; 3; 0; 0; 0] = Err ValueError.
Proof.
  apply (C94_border_refuted _ 4).
  - simpl. f_equal. unfold Rmax. repeat (destruct (Rle_dec _ _); try lra).
  - exists 2%nat. simpl. split; [lia|lra].
  - unfold above_half. simpl. repeat (destruct (Rle_dec _ _); try lra). simpl. lia.
  - unfold above_half. simpl. repeat (destruct (Rle_dec _ _); try lra). simpl. lia.
  - left. simpl. lra.
Qed.

(** C94, refuted reading. "The width is the distance between the half-maximum
    crossings" fails without the rising/falling hypothesis of [C94_width]:
    (a) when the first sample above half maximum is the peak itself, the left
    crossing is interpolated between the sample before and the sample AFTER the
    peak (width 1 instead of 11/6); (b) a flat-topped symmetric profile is
    measured differently on its two sides (1.5 instead of 2). *)
Theorem C94_steep_refuted :
  fwhm_1d [0; 0; 4; 3; 0; 0] = Ok 1 /\ outer_crossings [0; 0; 4; 3; 0; 0] 2 (3 / 2) (10 / 3) /\
  fwhm_1d [0; 1; 1; 0] = Ok (3 / 2) /\ outer_crossings [0; 1; 1; 0] (1 / 2) (1 / 2) (5 / 2).
Proof.
  assert (M1 : list_max [0; 0; 4; 3; 0; 0] = Ok 4) by (simpl; f_equal; unfold Rmax; repeat (destruct (Rle_dec _ _); try lra)).
  assert (N1 : list_min [0; 0; 4; 3; 0; 0] = Ok 0) by (simpl; f_equal; unfold Rmin; repeat (destruct (Rle_dec _ _); try lra)).
  assert (M2 : list_max [0; 1; 1; 0] = Ok 1) by (simpl; f_equal; unfold Rmax; repeat (destruct (Rle_dec _ _); try lra)).
  assert (N2 : list_min [0; 1; 1; 0] = Ok 0) by (simpl; f_equal; unfold Rmin; repeat (destruct (Rle_dec _ _); try lra)).
  assert (A1 : above_half [0; 0; 4; 3; 0; 0] (4 / 2) = [2; 3]%nat) by (unfold above_half; simpl; repeat (destruct (Rle_dec _ _); try lra); reflexivity).
  assert (A2 : above_half [0; 1; 1; 0] (1 / 2) = [1; 2]%nat) by (unfold above_half; simpl; repeat (destruct (Rle_dec _ _); try lra); reflexivity).
  split; [|split; [|split]].
  - unfold fwhm_1d. rewrite M1, N1. cbn [bind]. destruct (Rle_dec (/ 2 * 4) 0); [lra|]. cbv zeta. rewrite A1. cbn [length Nat.ltb Nat.leb].
    replace (Z.of_nat 6 - 1 <=? Z.of_nat 2)%Z with false by reflexivity. cbn [hd last]. unfold edge_cross. cbv zeta.
    rewrite (slice3 _ 2) by (simpl; lia). rewrite (slice3 _ 3) by (simpl; lia). cbn [nth Nat.sub].
    assert (I1 : interp1d [0; 4; 3] [INR 2 - 1; INR 2; INR 2 + 1] (4 / 2) = Ok (7 / 3)).
    { unfold interp1d. simpl. repeat (destruct (Rle_dec _ _); try lra; simpl). repeat (destruct (Rlt_dec _ _); try lra; simpl). destruct (Req_EM_T 3 0); [lra|]. f_equal. lra. }
    rewrite I1. rewrite (interp_right 4 3 0) by lra. cbn [bind]. f_equal. simpl. rewrite Rabs_pos_eq; lra.
  - unfold outer_crossings. simpl length. replace (INR 6 - 1) with 5 by (simpl; lra). split; [lra|]. split; [lra|]. split.
    { rewrite (polyline_in _ 1) by (simpl; lra). simpl. lra. }
    split. { rewrite (polyline_in _ 3) by (simpl; lra). simpl. lra. }
    split.
    { intros x Hx. destruct (floor_cell x ltac:(lra)) as [k Hk]. rewrite (polyline_in _ k) by exact Hk.
      destruct k as [|[|k]]; simpl INR in *; [simpl; lra|simpl; lra|]. exfalso. assert (2 <= INR (S (S k))) by (rewrite !S_INR; pose proof (pos_INR k); lra). simpl INR in H. lra. }
    { intros x Hx. destruct (floor_cell x ltac:(lra)) as [k Hk]. rewrite (polyline_in _ k) by exact Hk.
      destruct k as [|[|[|[|[|[|k]]]]]]; try (exfalso; simpl INR in Hk; lra); simpl INR in *; simpl; try lra. destruct k; simpl; lra. }
  - unfold fwhm_1d. rewrite M2, N2. cbn [bind]. destruct (Rle_dec (/ 2 * 1) 0); [lra|]. cbv zeta. rewrite A2. cbn [length Nat.ltb Nat.leb].
    replace (Z.of_nat 4 - 1 <=? Z.of_nat 2)%Z with false by reflexivity. cbn [hd last]. unfold edge_cross. cbv zeta.
    rewrite (slice3 _ 1) by (simpl; lia). rewrite (slice3 _ 2) by (simpl; lia). cbn [nth Nat.sub].
    rewrite (interp_left 0 1 1) by lra.
    assert (I1 : interp1d [1; 1; 0] [INR 2 - 1; INR 2; INR 2 + 1] (1 / 2) = Ok 2).
    { unfold interp1d. simpl. repeat (destruct (Rle_dec _ _); try lra; simpl). repeat (destruct (Rlt_dec _ _); try lra; simpl). destruct (Req_EM_T 1 0); [lra|]. f_equal. lra. }
    rewrite I1. cbn [bind]. f_equal. simpl. rewrite Rabs_pos_eq; lra.
  - unfold outer_crossings. simpl length. replace (INR 4 - 1) with 3 by (simpl; lra). split; [lra|]. split; [lra|]. split.
    { rewrite (polyline_in _ 0) by (simpl; lra). simpl. lra. }
    split. { rewrite (polyline_in _ 2) by (simpl; lra). simpl. lra. }
    split.
    { intros x Hx. destruct (floor_cell x ltac:(lra)) as [k Hk]. rewrite (polyline_in _ k) by exact Hk.
      destruct k as [|k]; simpl INR in *; [simpl; lra|]. exfalso. assert (1 <= INR (S k)) by (rewrite !S_INR; pose proof (pos_INR k); lra). simpl INR in H. lra. }
    { intros x Hx. destruct (floor_cell x ltac:(lra)) as [k Hk]. rewrite (polyline_in _ k) by exact Hk.
      destruct k as [|[|[|[|k]]]]; try (exfalso; simpl INR in Hk; lra); simpl INR in *; simpl; try lra. destruct k; simpl; lra. }
Qed.

Print Assumptions C94_scale.
Print Assumptions C94_border_refuted.
Print Assumptions C94_steep_refuted.
