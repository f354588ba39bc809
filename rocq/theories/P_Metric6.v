(** C94: the full width at half maximum of a 1-D profile. *)
From Coq Require Import Reals List Arith ZArith Lia Lra Bool.
From Flocq Require Import Core.
From Verif Require Import Base_Py Base_Sum M_Image M_Tools L_Image2 S_Metric M_Metric M_Metric2.
Import ListNotations.
Open Scope R_scope.

Lemma interp_left a b c x0 x1 x2 h : a < h -> h <= b -> b <= c ->
  interp1d [a; b; c] [x0; x1; x2] h = Ok ((x1 - x0) / (b - a) * (h - a) + x0).
Proof.
  intros H1 H2 H3. unfold interp1d. cbn [length Nat.eqb negb combine psort fold_right pinsert fst].
  destruct (Rle_dec b c); [|lra]. cbn [pinsert fst]. destruct (Rle_dec a b); [|lra]. cbn [filter fst].
  destruct (Rlt_dec a h); [|lra]. destruct (Rlt_dec b h); [lra|]. destruct (Rlt_dec c h); [lra|].
  cbn [length Nat.min Nat.max Nat.sub nth_error fst snd]. destruct (Req_EM_T b a); [lra|]. reflexivity.
Qed.
Lemma interp_right a b c x0 x1 x2 h : c < h -> h <= b -> b < a ->
  interp1d [a; b; c] [x0; x1; x2] h = Ok ((x1 - x2) / (b - c) * (h - c) + x2).
Proof.
  intros H1 H2 H3. unfold interp1d. cbn [length Nat.eqb negb combine psort fold_right pinsert fst].
  destruct (Rle_dec b c); [lra|]. cbn [pinsert fst]. destruct (Rle_dec a c); [lra|]. cbn [pinsert fst]. destruct (Rle_dec a b); [lra|]. cbn [filter fst].
  destruct (Rlt_dec c h); [|lra]. destruct (Rlt_dec b h); [lra|]. destruct (Rlt_dec a h); [lra|].
  cbn [length Nat.min Nat.max Nat.sub nth_error fst snd]. destruct (Req_EM_T b c); [lra|]. reflexivity.
Qed.

Lemma skipn_nth {A} (d : A) l k : (k < length l)%nat -> skipn k l = nth k l d :: skipn (S k) l.
Proof. revert k. induction l as [|x l IH]; intros [|k] Hk; simpl in *; try lia; [reflexivity|]. apply IH. lia. Qed.
Lemma slice3 (p : list R) k : (1 <= k)%nat -> (S k < length p)%nat ->
  pyslice p (Z.of_nat k - 1) (Z.of_nat k + 2) = [nth (k - 1) p 0; nth k p 0; nth (S k) p 0].
Proof.
  intros H1 H2. unfold pyslice. rewrite slice_len_in, slice_bound_in by lia.
  replace (Z.to_nat (Z.of_nat k + 2 - (Z.of_nat k - 1))) with 3%nat by lia.
  replace (Z.to_nat (Z.of_nat k - 1)) with (k - 1)%nat by lia.
  rewrite (skipn_nth 0 p (k - 1)) by lia. replace (S (k - 1)) with k by lia.
  rewrite (skipn_nth 0 p k) by lia. rewrite (skipn_nth 0 p (S k)) by lia. reflexivity.
Qed.

Lemma floor_nat k x : INR k <= x < INR k + 1 -> Z.to_nat (Zfloor x) = k.
Proof. intros H. rewrite (Zfloor_imp (Z.of_nat k)); [lia|]. rewrite plus_IZR, <- INR_IZR_INZ. exact H. Qed.
Lemma polyline_in p k x : INR k <= x < INR k + 1 -> polyline p x = nth k p 0 + (x - INR k) * (nth (S k) p 0 - nth k p 0).
Proof. intros H. unfold polyline. rewrite (floor_nat k x H). reflexivity. Qed.
Lemma polyline_node p k x : x = INR k -> polyline p x = nth k p 0.
Proof. intros ->. rewrite (polyline_in p k) by lra. replace (INR k - INR k) with 0 by lra. lra. Qed.
Lemma floor_cell x : 0 <= x -> exists k, INR k <= x < INR k + 1.
Proof.
  intros H. exists (Z.to_nat (Zfloor x)). rewrite INR_IZR_INZ, Z2Nat.id.
  - split; [apply Zfloor_lb|]. apply Zfloor_ub.
  - apply Zfloor_lub. exact H.
Qed.

Lemma above_In p h k : In k (above_half p h) <-> (k < length p)%nat /\ h <= nth k p 0.
Proof. unfold above_half. rewrite filter_In, in_seq. destruct (Rle_dec h (nth k p 0)); intuition (try lia; try lra; try discriminate). Qed.

(** The first and last sample at or above h. *)
Definition first_above (p : list R) (h : R) (l : nat) : Prop :=
  (l < length p)%nat /\ h <= nth l p 0 /\ forall k, (k < l)%nat -> nth k p 0 < h.
Definition last_above (p : list R) (h : R) (r : nat) : Prop :=
  (r < length p)%nat /\ h <= nth r p 0 /\ forall k, (r < k < length p)%nat -> nth k p 0 < h.

Lemma filter_hd (P : nat -> bool) n : forall s l, (s <= l < s + n)%nat -> P l = true -> (forall k, (s <= k < l)%nat -> P k = false) ->
  hd 0%nat (filter P (seq s n)) = l.
Proof.
  induction n as [|n IH]; intros s l Hl Hp Hk; [lia|]. simpl. destruct (Nat.eq_dec s l) as [ ->|Hne].
  - rewrite Hp. reflexivity.
  - rewrite (Hk s) by lia. apply IH; try lia; try assumption. intros k Hk'. apply Hk. lia.
Qed.
Lemma filter_last (P : nat -> bool) n : forall s r, (s <= r < s + n)%nat -> P r = true -> (forall k, (r < k < s + n)%nat -> P k = false) ->
  last (filter P (seq s n)) 0%nat = r.
Proof.
  induction n as [|n IH]; intros s r Hr Hp Hk; [lia|]. rewrite seq_S, filter_app. simpl. destruct (Nat.eq_dec r (s + n)) as [ ->|Hne].
  - rewrite Hp. apply last_last.
  - rewrite (Hk (s + n)%nat) by lia. rewrite app_nil_r. apply IH; try lia; try assumption. intros k Hk'. apply Hk. lia.
Qed.
Lemma above_hd p h l : first_above p h l -> hd 0%nat (above_half p h) = l.
Proof.
  intros (H1 & H2 & H3). apply filter_hd; [lia| |].
  - destruct (Rle_dec h (nth l p 0)); [reflexivity|lra].
  - intros k Hk. specialize (H3 k ltac:(lia)). destruct (Rle_dec h (nth k p 0)); [lra|reflexivity].
Qed.
Lemma above_last p h r : last_above p h r -> last (above_half p h) 0%nat = r.
Proof.
  intros (H1 & H2 & H3). apply filter_last; [lia| |].
  - destruct (Rle_dec h (nth r p 0)); [reflexivity|lra].
  - intros k Hk. specialize (H3 k ltac:(lia)). destruct (Rle_dec h (nth k p 0)); [lra|reflexivity].
Qed.
Lemma above_len_ge p h l r : first_above p h l -> last_above p h r -> (l < r)%nat -> (2 <= length (above_half p h))%nat.
Proof.
  intros Hl Hr Hlr. assert (A : In l (above_half p h)) by (apply above_In; destruct Hl as (? & ? & _); auto).
  assert (B : In r (above_half p h)) by (apply above_In; destruct Hr as (? & ? & _); auto).
  destruct (above_half p h) as [|x [|y t]]; simpl in *; [contradiction|lia|lia].
Qed.
Lemma filter_len_le {A} (P : A -> bool) l : (length (filter P l) <= length l)%nat.
Proof. induction l as [|x l IH]; simpl; [lia|]. destruct (P x); simpl; lia. Qed.
Lemma above_len_le p h l r : first_above p h l -> last_above p h r -> (length (above_half p h) <= S r - l)%nat.
Proof.
  intros (H1 & H2 & H3) (G1 & G2 & G3).
  assert (E : exists q, above_half p h = q /\ (length q <= S r - l)%nat); [|destruct E as [q [-> E]]; exact E].
  exists (above_half p h). split; [reflexivity|]. unfold above_half.
  destruct (le_lt_dec l r) as [Hlr|Hlr].
  2:{ exfalso. specialize (H3 r Hlr). lra. }
  replace (length p) with (l + ((S r - l) + (length p - S r)))%nat at 1 by lia.
  rewrite !seq_app, !filter_app, !app_length. cbn [plus].
  assert (Z : forall (Q : nat -> bool) t, (forall k, In k t -> Q k = false) -> length (filter Q t) = 0%nat).
  { intros Q t. induction t as [|x t IH]; intros HQ; [reflexivity|]. simpl. rewrite (HQ x) by (left; reflexivity). apply IH. intros k Hk. apply HQ. right; exact Hk. }
  rewrite (Z _ (seq 0 l)).
  2:{ intros k Hk. apply in_seq in Hk. specialize (H3 k ltac:(lia)). destruct (Rle_dec h (nth k p 0)); [lra|reflexivity]. }
  rewrite (Z _ (seq (l + (S r - l)) (length p - S r))).
  2:{ intros k Hk. apply in_seq in Hk. specialize (G3 k ltac:(lia)). destruct (Rle_dec h (nth k p 0)); [lra|reflexivity]. }
  pose proof (filter_len_le (fun k => if Rle_dec h (nth k p 0) then true else false) (seq l (S r - l))) as L. rewrite seq_length in L. lia.
Qed.

(** C94. Full width at half maximum of a profile whose half-maximum region
    lies inside the profile and whose samples keep rising just after the first
    sample above half maximum and fall towards the last one: the distance
    between the outermost points where the profile, its samples joined by
    straight lines, crosses half of its maximum. *)
Theorem C94_width p mx l r :
  list_max p = Ok mx ->
  first_above p (mx / 2) l -> last_above p (mx / 2) r -> (1 <= l)%nat -> (l < r)%nat -> (S r < length p)%nat ->
  nth l p 0 <= nth (S l) p 0 -> nth r p 0 < nth (r - 1) p 0 ->
  exists x1 x2, outer_crossings p (mx / 2) x1 x2 /\ INR l - 1 < x1 <= INR l /\ INR r <= x2 < INR r + 1 /\
    fwhm_1d p = Ok (x2 - x1).
Proof.
  intros Hmx Hl Hr Hl1 Hlr Hrn Hup Hdn. set (h := mx / 2) in *.
  assert (Hfl : first_above p h l) by assumption. assert (Hfr : last_above p h r) by assumption.
  destruct Hl as (L1 & L2 & L3). destruct Hr as (R1 & R2 & R3).
  pose proof (L3 (l - 1)%nat ltac:(lia)) as La. pose proof (R3 (S r) ltac:(lia)) as Rc.
  set (a := nth (l - 1) p 0) in *. set (b := nth l p 0) in *. set (b' := nth r p 0) in *. set (c := nth (S r) p 0) in *.
  set (x1 := (INR l - (INR l - 1)) / (b - a) * (h - a) + (INR l - 1)).
  set (x2 := (INR r - (INR r + 1)) / (b' - c) * (h - c) + (INR r + 1)).
  assert (F1 : x1 = INR l - 1 + (h - a) / (b - a)) by (unfold x1; field; lra).
  assert (F2 : x2 = INR r + 1 - (h - c) / (b' - c)) by (unfold x2; field; lra).
  assert (T1 : 0 < (h - a) / (b - a) <= 1).
  { split; [apply Rdiv_lt_0_compat; lra|]. apply (Rmult_le_reg_r (b - a)); [lra|]. unfold Rdiv. rewrite Rmult_assoc, Rinv_l by lra. lra. }
  assert (T2 : 0 < (h - c) / (b' - c) <= 1).
  { split; [apply Rdiv_lt_0_compat; lra|]. apply (Rmult_le_reg_r (b' - c)); [lra|]. unfold Rdiv. rewrite Rmult_assoc, Rinv_l by lra. lra. }
  set (t1 := (h - a) / (b - a)) in *. set (t2 := (h - c) / (b' - c)) in *.
  assert (S1 : t1 * (b - a) = h - a) by (unfold t1; field; lra).
  assert (S2 : t2 * (b' - c) = h - c) by (unfold t2; field; lra).
  assert (Hl1' : 1 <= INR l) by (apply (le_INR 1); lia).
  assert (Hlr' : INR l + 1 <= INR r) by (rewrite <- S_INR; apply le_INR; lia).
  assert (Hrn' : INR r + 1 <= INR (length p) - 1).
  { assert (E : INR (S (S r)) <= INR (length p)) by (apply le_INR; lia). rewrite !S_INR in E. lra. }
  assert (Hlm : INR (l - 1) = INR l - 1) by (rewrite minus_INR by lia; simpl; lra).
  assert (Sl : S (l - 1) = l) by lia.
  exists x1, x2. split; [|split; [lra|split; [lra|]]].
  - unfold outer_crossings. split; [lra|]. split; [lra|]. split.
    { destruct (Req_dec t1 1) as [Et|Et].
      - rewrite (polyline_node p l) by lra. fold b. rewrite Et in S1. lra.
      - rewrite (polyline_in p (l - 1)) by (rewrite Hlm; lra). rewrite Sl. fold a b. rewrite Hlm.
        replace (x1 - (INR l - 1)) with t1 by lra. lra. }
    split.
    { rewrite (polyline_in p r) by lra. fold b' c. replace (x2 - INR r) with (1 - t2) by lra. lra. }
    split.
    { intros x [Hx0 Hx]. destruct (floor_cell x Hx0) as [k Hk]. rewrite (polyline_in p k) by exact Hk.
      assert (Kl : (k < l)%nat) by (apply INR_lt; lra).
      destruct (Nat.eq_dec (S k) l) as [E|E].
      - assert (k = (l - 1)%nat) by lia. subst k. rewrite Sl. fold a b. rewrite Hlm in *.
        assert (Hu : x - (INR l - 1) < t1) by lra. assert (0 < b - a) by lra.
        apply (Rmult_lt_compat_r (b - a)) in Hu; [|assumption]. lra.
      - pose proof (L3 k Kl) as A1. pose proof (L3 (S k) ltac:(lia)) as A2.
        set (u := x - INR k). assert (Hu : 0 <= u < 1) by (unfold u; lra).
        assert (B1 : (1 - u) * nth k p 0 < (1 - u) * h) by (apply Rmult_lt_compat_l; lra).
        assert (B2 : u * nth (S k) p 0 <= u * h) by (apply Rmult_le_compat_l; lra). lra. }
    { intros x [Hx Hxn]. destruct (floor_cell x ltac:(lra)) as [k Hk]. rewrite (polyline_in p k) by exact Hk.
      assert (Kr : (r <= k)%nat). { assert (E : INR r < INR (S k)) by (rewrite S_INR; lra). apply INR_lt in E. lia. }
      assert (Kn : (k < length p)%nat) by (apply INR_lt; lra).
      set (u := x - INR k). assert (Hu : 0 <= u < 1) by (unfold u; lra).
      destruct (Nat.eq_dec k r) as [ ->|E].
      - fold b' c. assert (Hv : 1 - t2 < u) by (unfold u; lra). assert (P : 0 < b' - c) by lra.
        apply (Rmult_lt_compat_r (b' - c)) in Hv; [|exact P]. lra.
      - pose proof (R3 k ltac:(lia)) as A1. destruct (Nat.eq_dec (S k) (length p)) as [E'|E'].
        + assert (Eu : u = 0). { unfold u. assert (INR (length p) = INR k + 1) by (rewrite <- E', S_INR; lra). lra. }
          rewrite Eu. lra.
        + pose proof (R3 (S k) ltac:(lia)) as A2.
          assert (B1 : (1 - u) * nth k p 0 < (1 - u) * h) by (apply Rmult_lt_compat_l; lra).
          assert (B2 : u * nth (S k) p 0 <= u * h) by (apply Rmult_le_compat_l; lra). lra. }
  - unfold fwhm_1d. rewrite Hmx. cbn [bind]. destruct (list_min p) as [mn|e] eqn:Emn.
    2:{ destruct p; [simpl in L1; lia|discriminate]. }
    cbn [bind]. apply list_min_spec in Emn. destruct Emn as [Lo _].
    assert (Hm : mn < h). { apply (Rle_lt_trans _ a); [|exact La]. apply Lo. apply nth_In. lia. }
    replace (/ 2 * mx) with h by (unfold h; lra). destruct (Rle_dec h mn) as [K|_]; [lra|]. cbv zeta. fold h.
    pose proof (above_len_ge p h l r Hfl Hfr Hlr) as G1. pose proof (above_len_le p h l r Hfl Hfr) as G2.
    destruct (Nat.ltb_spec (length (above_half p h)) 2) as [K|_]; [lia|].
    destruct (Z.leb_spec (Z.of_nat (length p) - 1) (Z.of_nat (length (above_half p h)))) as [K|_]; [lia|].
    rewrite (above_hd p h l Hfl), (above_last p h r Hfr). unfold edge_cross.
    rewrite (slice3 p l), (slice3 p r) by lia. fold a b b' c.
    rewrite (interp_left a b (nth (S l) p 0)) by (assumption || lra).
    rewrite (interp_right (nth (r - 1) p 0) b' c) by (assumption || lra). cbn [bind]. fold x1 x2. f_equal.
    apply Rabs_pos_eq. lra.
Qed.

(** Non-vacuity: 0,2,3,1,0 has half maximum 1.5. *)
Example C94_ex : exists w, fwhm_1d [0; 1; 3; 4; 3; 1; 0] = Ok w /\ w = 3.
Proof.
  destruct (C94_width [0; 1; 3; 4; 3; 1; 0] 4 2 4) as (x1 & x2 & (_ & _ & E1 & E2 & _) & B1 & B2 & E).
  - simpl. f_equal. unfold Rmax. repeat (destruct (Rle_dec _ _); try lra).
  - split; [simpl; lia|]. split; [simpl; lra|]. intros [|[|k]] Hk; try lia; simpl; lra.
  - split; [simpl; lia|]. split; [simpl; lra|]. intros k Hk. simpl in Hk. destruct k as [|[|[|[|[|[|[|k]]]]]]]; try lia; simpl; lra.
  - lia.
  - lia.
  - simpl; lia.
  - simpl; lra.
  - simpl; lra.
  - rewrite E. exists (x2 - x1). split; [reflexivity|]. simpl in B1, B2.
    assert (X1 : x1 = 3 / 2).
    { destruct (Req_dec x1 2) as [ ->|N].
      - exfalso. rewrite (polyline_node _ 2) in E1 by (simpl; lra). simpl in E1. lra.
      - rewrite (polyline_in _ 1) in E1 by (simpl; lra). simpl in E1. lra. }
    assert (X2 : x2 = 9 / 2).
    { rewrite (polyline_in _ 4) in E2 by (simpl; lra). simpl in E2. lra. }
    lra.
Qed.

Print Assumptions C94_width.
