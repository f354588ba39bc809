(** C93, continued: square images with the default centre: no ring is skipped,
    and the radii returned are those of the rings. *)
From Coq Require Import Reals List Arith ZArith Lia Lra Bool Permutation Sorting.Sorted.
From Flocq Require Import Core.
From Verif Require Import Base_Py Base_Sum M_Image M_Tools L_Image2 L_Tools2 S_Metric M_Metric L_Metric P_Metric P_Metric2.
Import ListNotations.
Open Scope R_scope.

(** Distance of the middle pixel(s) from the centre along one axis: 0 for odd
    n, 1/2 for even n. *)
Definition off (n : nat) : R := if Nat.even n then / 2 else 0.

Section Square.
  Variable n : nat.
  Hypothesis Hn : (1 <= n)%nat.
  Let c := (INR n - 1) / 2.
  Let i0 := (n / 2)%nat.
  Let H := (n - 1 - i0)%nat.

  Lemma n_cases : (n = 2 * i0 /\ H = i0 - 1 /\ (1 <= i0)%nat /\ Nat.even n = true)%nat \/ (n = 2 * i0 + 1 /\ H = i0 /\ Nat.even n = false)%nat.
  Proof.
    unfold H, i0. destruct (Nat.even n) eqn:E.
    - apply Nat.even_spec in E. destruct E as [k ->]. left. rewrite (Nat.mul_comm 2 k), Nat.div_mul by lia. lia.
    - right. assert (Ho : Nat.odd n = true) by (unfold Nat.odd; rewrite E; reflexivity). apply Nat.odd_spec in Ho. destruct Ho as [k ->].
      replace ((2 * k + 1) / 2)%nat with k. 2:{ rewrite Nat.mul_comm, Nat.div_add_l by lia. simpl. lia. } lia.
  Qed.
  Lemma off_i0 : INR i0 - c = off n.
  Proof.
    unfold c, off. destruct n_cases as [(E & _ & _ & Hev)|(E & _ & Hev)]; rewrite Hev.
    - assert (INR n = 2 * INR i0) by (rewrite E, mult_INR; simpl; lra). lra.
    - assert (INR n = 2 * INR i0 + 1) by (rewrite E, plus_INR, mult_INR; simpl; lra). lra.
  Qed.
  Lemma off_H : off n + INR H = c.
  Proof.
    unfold c, off. destruct n_cases as [(E & EH & Hi & Hev)|(E & EH & Hev)]; rewrite Hev.
    - assert (INR n = 2 * INR i0) by (rewrite E, mult_INR; simpl; lra).
      assert (INR H = INR i0 - 1) by (rewrite EH, minus_INR by lia; simpl; lra). lra.
    - assert (INR n = 2 * INR i0 + 1) by (rewrite E, plus_INR, mult_INR; simpl; lra).
      assert (INR H = INR i0) by (rewrite EH; reflexivity). lra.
  Qed.
  Lemma off_nn : 0 <= off n <= / 2. Proof. unfold off. destruct (Nat.even n); lra. Qed.

  Lemma axis_bounds j : (j < n)%nat -> off n <= Rabs (INR j - c) <= c.
  Proof.
    intros Hj. assert (Hc : 0 <= INR j <= INR n - 1).
    { split; [apply pos_INR|]. assert (E : INR (S j) <= INR n) by (apply le_INR; lia). rewrite S_INR in E. lra. }
    split.
    - pose proof off_i0 as E0. unfold off in *. destruct n_cases as [(E & EH & Hi & Hev)|(E & EH & Hev)]; rewrite Hev in *.
      + destruct (le_lt_dec i0 j) as [Hl|Hl].
        * apply le_INR in Hl. rewrite Rabs_pos_eq by lra. lra.
        * assert (INR j <= INR i0 - 1) by (assert (E1 : INR (S j) <= INR i0) by (apply le_INR; lia); rewrite S_INR in E1; lra).
          rewrite Rabs_left by lra. lra.
      + apply Rabs_pos.
    - unfold c in *. apply Rabs_le. lra.
  Qed.

  Definition sq (x y : R) := sqrt (Rsqr x + Rsqr y).
  Lemma dist_sq i j : 0 < 1 -> dist_bins c c 1 1 i j = sq (INR j - c) (INR i - c).
  Proof. intros _. unfold dist_bins, sq. lra. Qed.
  Lemma sq_mono x y x' y' : Rabs x <= Rabs x' -> Rabs y <= Rabs y' -> sq x y <= sq x' y'.
  Proof. intros Hx Hy. unfold sq. apply sqrt_le_1_alt. apply Rplus_le_compat; apply Rsqr_le_abs_1; assumption. Qed.

  Lemma sq_step x y : 0 <= x -> 0 < y -> sq (x + 1) y < sq x y + 1.
  Proof.
    intros Hx Hy. unfold sq.
    assert (A : 0 < Rsqr y) by (apply Rsqr_pos_lt; lra).
    assert (B : x < sqrt (Rsqr x + Rsqr y)).
    { rewrite <- (sqrt_Rsqr x) at 1 by assumption. apply sqrt_lt_1_alt. pose proof (Rle_0_sqr x). lra. }
    set (t := sqrt (Rsqr x + Rsqr y)) in *.
    assert (Ht : t * t = Rsqr x + Rsqr y). { unfold t. apply sqrt_sqrt. pose proof (Rle_0_sqr x). lra. }
    apply Rsqr_incrst_0; [|apply sqrt_pos|lra].
    rewrite Rsqr_sqrt by (pose proof (Rle_0_sqr (x + 1)); lra). unfold Rsqr in *. nra.
  Qed.
  Lemma sq_comm x y : sq x y = sq y x. Proof. unfold sq. f_equal. lra. Qed.

  Lemma near_half x : x <= IZR (ZnearestE x) + / 2 /\ IZR (ZnearestE x) <= x + / 2.
  Proof.
    pose proof (Znearest_half (fun z => negb (Z.even z)) x) as Hh. apply Rabs_le_inv in Hh. lra.
  Qed.
  Lemma near_step r r' : r' < r + 1 -> (ZnearestE r' <= ZnearestE r + 1)%Z.
  Proof.
    intros Hr. destruct (near_half r) as [A _]. destruct (near_half r') as [_ B].
    apply Zlt_succ_le. apply lt_IZR. unfold Z.succ. rewrite !plus_IZR. simpl. lra.
  Qed.
  Lemma near_int z : ZnearestE (IZR z) = z.
  Proof. apply (Zrnd_IZR ZnearestE). Qed.

  (** the path: along the row to the edge, then along the column to the corner *)
  Definition path (t : nat) : nat * nat := if (t <=? H)%nat then (i0, i0 + t)%nat else (i0 + (t - H), i0 + H)%nat.
  Lemma i0H : (i0 + H = n - 1)%nat. Proof. destruct n_cases as [?|?]; lia. Qed.
  Lemma path_in t : (t <= 2 * H)%nat -> (fst (path t) < n)%nat /\ (snd (path t) < n)%nat.
  Proof. intros Ht. pose proof i0H. unfold path. destruct (Nat.leb_spec t H); simpl; lia. Qed.
  Definition pd (t : nat) : R := sq (INR (snd (path t)) - c) (INR (fst (path t)) - c).
  Lemma pd_low t : (t <= H)%nat -> pd t = sq (off n + INR t) (off n).
  Proof. intros Ht. unfold pd, path. destruct (Nat.leb_spec t H); [|lia]. simpl. rewrite plus_INR. pose proof off_i0. f_equal; lra. Qed.
  Lemma pd_high t : (H <= t)%nat -> pd t = sq c (off n + INR (t - H)).
  Proof.
    intros Ht. unfold pd, path. destruct (Nat.leb_spec t H); simpl.
    - assert (t = H) by lia. subst t. rewrite Nat.sub_diag, plus_INR. pose proof off_i0. pose proof off_H. simpl. f_equal; lra.
    - rewrite !plus_INR. pose proof off_i0. pose proof off_H. f_equal; lra.
  Qed.
  Lemma pd_step t : (t < 2 * H)%nat -> (ZnearestE (pd (S t)) <= ZnearestE (pd t) + 1)%Z.
  Proof.
    intros Ht. pose proof off_nn as Ho. pose proof off_H as EH. pose proof (pos_INR H) as HH. destruct (le_lt_dec (S t) H) as [Hl|Hl].
    - rewrite !pd_low by lia. rewrite S_INR. pose proof (pos_INR t). destruct (Req_EM_T (off n) 0) as [Hz|Hz].
      + rewrite Hz. unfold sq. replace (Rsqr (0 + (INR t + 1)) + Rsqr 0) with (Rsqr (INR t + 1)) by (unfold Rsqr; lra).
        replace (Rsqr (0 + INR t) + Rsqr 0) with (Rsqr (INR t)) by (unfold Rsqr; lra). rewrite !sqrt_Rsqr by lra.
        rewrite !INR_IZR_INZ. rewrite <- plus_IZR, !near_int. lia.
      + apply near_step. replace (off n + (INR t + 1)) with (off n + INR t + 1) by lra. apply sq_step; lra.
    - rewrite !pd_high by lia. replace (S t - H)%nat with (S (t - H)) by lia. rewrite S_INR.
      apply near_step. rewrite (sq_comm c), (sq_comm c). replace (off n + (INR (t - H) + 1)) with (off n + INR (t - H) + 1) by lra.
      apply sq_step; [pose proof (pos_INR (t - H)); lra|]. assert (1 <= H)%nat by lia. apply (le_INR 1) in H0. simpl in H0. lra.
  Qed.
  Lemma pd_ivt z : forall t, (t <= 2 * H)%nat -> (ZnearestE (pd 0) <= z)%Z -> (z <= ZnearestE (pd t))%Z -> exists u, (u <= t)%nat /\ ZnearestE (pd u) = z.
  Proof.
    induction t as [|t IH]; intros Ht H0 H1.
    - exists 0%nat. split; [lia|]. lia.
    - destruct (Z_le_gt_dec z (ZnearestE (pd t))) as [Hl|Hl].
      + destruct (IH ltac:(lia) H0 Hl) as [u [Hu Eu]]. exists u. split; [lia|assumption].
      + exists (S t). split; [lia|]. pose proof (pd_step t ltac:(lia)). lia.
  Qed.
  Lemma pd_0 : pd 0 = sq (off n) (off n).
  Proof. rewrite pd_low by lia. simpl. f_equal. lra. Qed.
  Lemma pd_end : pd (2 * H) = sq c c.
  Proof. rewrite pd_high by lia. replace (2 * H - H)%nat with H by lia. f_equal. apply off_H. Qed.

  Definition zfirst : Z := ZnearestE (sq (off n) (off n)).
  Definition zlast : Z := ZnearestE (sq c c).
  Lemma all_present z : (exists i j, (i < n)%nat /\ (j < n)%nat /\ ZnearestE (sq (INR j - c) (INR i - c)) = z) <-> (zfirst <= z <= zlast)%Z.
  Proof.
    unfold zfirst, zlast. split.
    - intros (i & j & Hi & Hj & <-). pose proof (axis_bounds i Hi) as [A1 A2]. pose proof (axis_bounds j Hj) as [B1 B2]. pose proof off_nn.
      split; apply (Zrnd_le ZnearestE); apply sq_mono; rewrite ?(Rabs_pos_eq (off n)), ?(Rabs_pos_eq c) by lra; lra.
    - intros [Hz1 Hz2]. destruct (pd_ivt z (2 * H) (le_n _)) as [u [Hu Eu]]; [rewrite pd_0; exact Hz1|rewrite pd_end; exact Hz2|].
      exists (fst (path u)), (snd (path u)). destruct (path_in u Hu). auto.
  Qed.
  Lemma zfirst_val : zfirst = if Nat.even n then 1%Z else 0%Z.
  Proof.
    unfold zfirst, off. destruct (Nat.even n).
    - apply Znearest_imp. unfold sq. apply Rabs_lt. replace (Rsqr (/ 2) + Rsqr (/ 2)) with (/ 2) by (unfold Rsqr; lra).
      assert (A : / 2 < sqrt (/ 2)). { rewrite <- (sqrt_Rsqr (/ 2)) at 1 by lra. apply sqrt_lt_1_alt. unfold Rsqr. lra. }
      assert (B : sqrt (/ 2) < 1). { rewrite <- sqrt_1. apply sqrt_lt_1_alt. lra. } simpl. lra.
    - unfold sq. replace (Rsqr 0 + Rsqr 0) with 0 by (unfold Rsqr; lra). rewrite sqrt_0. apply (near_int 0).
  Qed.
End Square.

Lemma strict_sorted_unique : forall l l' : list Z, StronglySorted Z.lt l -> StronglySorted Z.lt l' ->
  (forall z, In z l <-> In z l') -> l = l'.
Proof.
  induction l as [|x l IH]; intros l' Hl Hl' Hin.
  - destruct l' as [|y l']; [reflexivity|]. exfalso. apply (Hin y). left; reflexivity.
  - destruct l' as [|y l']; [exfalso; apply (Hin x); left; reflexivity|].
    apply StronglySorted_inv in Hl, Hl'. destruct Hl as [Hl Fx], Hl' as [Hl' Fy]. rewrite Forall_forall in Fx, Fy.
    assert (E : x = y).
    { pose proof (proj1 (Hin x) (or_introl eq_refl)) as [ ->|H1]; [reflexivity|].
      pose proof (proj2 (Hin y) (or_introl eq_refl)) as [ ->|H2]; [reflexivity|]. specialize (Fx _ H2). specialize (Fy _ H1). lia. }
    subst y. f_equal. apply IH; try assumption. intros z. specialize (Hin z). split; intros Hz.
    + destruct (proj1 Hin (or_intror Hz)) as [E|]; [|assumption]. subst z. specialize (Fx _ Hz). lia.
    + destruct (proj2 Hin (or_intror Hz)) as [E|]; [|assumption]. subst z. specialize (Fy _ Hz). lia.
Qed.

Lemma range_sorted z0 n : StronglySorted Z.lt (map (fun m => (z0 + Z.of_nat m)%Z) (seq 0 n)).
Proof.
  assert (G : forall s, StronglySorted lt (seq s n)).
  { induction n as [|k IH]; intros s; simpl; constructor; [apply IH|]. apply Forall_forall. intros x Hx. apply in_seq in Hx. lia. }
  apply (SS_map _ lt); [|apply G]. intros x y Hxy. lia.
Qed.
Lemma range_In z0 n z : In z (map (fun m => (z0 + Z.of_nat m)%Z) (seq 0 n)) <-> (z0 <= z < z0 + Z.of_nat n)%Z.
Proof.
  rewrite in_map_iff. split.
  - intros [m [<- Hm]]. apply in_seq in Hm. lia.
  - intros Hz. exists (Z.to_nat (z - z0)). split; [lia|]. apply in_seq. lia.
Qed.

(** Ring of a pixel of an n x n image around its centre, in pixels. *)
Definition sq_ring (n : nat) := ring_no ((INR n - 1) / 2) ((INR n - 1) / 2) 1 1.

Lemma ring_scale cx cy ps i j : ps <> 0 -> ring_no cx cy ps ps i j = ring_no cx cy 1 1 i j.
Proof. intros Hp. unfold ring_no, dist_bins. f_equal. unfold Rdiv. rewrite Rmult_assoc, Rinv_r by assumption. lra. Qed.
Lemma radius_scale cx cy ps i j : ps <> 0 -> rp_radius cx cy ps ps i j = sq (INR j - cx) (INR i - cy).
Proof. intros Hp. unfold rp_radius, sq, Rsqr. unfold Rdiv. rewrite Rmult_assoc, Rinv_r by assumption. lra. Qed.

Lemma nth_map_seq {A} (f : nat -> A) n m d : (m < n)%nat -> nth m (map f (seq 0 n)) d = f m.
Proof. intros Hm. rewrite (nth_indep _ d (f 0%nat)) by (rewrite map_length, seq_length; exact Hm). rewrite map_nth, seq_nth by exact Hm. reflexivity. Qed.

Section SquareProfile.
  Variable n : nat.
  Hypothesis Hn : (1 <= n)%nat.
  Variable ps : R.
  Hypothesis Hps : 0 < ps.
  Let c := (INR n - 1) / 2.
  Lemma sq_present pa_of z : ring_present n n (in_wedge pa_of c c None) (ring_no c c ps ps) z <-> (zfirst n <= z <= zlast n)%Z.
  Proof.
    rewrite <- (all_present n Hn z). unfold ring_present. split; intros (i & j & Hi & Hj & Hz).
    - destruct Hz as [_ Hz]. exists i, j. repeat split; auto. rewrite <- Hz, ring_scale by lra. unfold ring_no, dist_bins, sq, c. f_equal. lra.
    - exists i, j. repeat split; auto. rewrite ring_scale by lra. rewrite <- Hz. unfold ring_no, dist_bins, sq, c. f_equal. lra.
  Qed.
  Lemma sq_rings pa_of zs : rings_but_last n n (in_wedge pa_of c c None) (ring_no c c ps ps) zs ->
    zs = map (fun m => (zfirst n + Z.of_nat m)%Z) (seq 0 (Z.to_nat (zlast n - zfirst n))).
  Proof.
    intros [Hs Hin]. apply strict_sorted_unique; [exact Hs|apply range_sorted|]. intros z. rewrite Hin, range_In.
    assert (Hle : (zfirst n <= zlast n)%Z).
    { assert (E : (zfirst n <= zfirst n <= zlast n)%Z); [|lia]. rewrite <- (sq_present pa_of).
      destruct (proj1 (all_present n Hn (ZnearestE (sq (INR 0 - c) (INR 0 - c)))) ) as [A B].
      { exists 0%nat, 0%nat. repeat split; lia. }
      rewrite sq_present. lia. }
    split.
    - intros [A [z' [B C]]]. rewrite sq_present in A, C. lia.
    - intros A. split; [rewrite sq_present; lia|]. exists (zlast n). split; [lia|]. rewrite sq_present. lia.
  Qed.
  Lemma sq_rmin rmin : list_min (flat2 n n (rp_radius c c ps ps)) = Ok rmin -> rmin = sq (off n) (off n).
  Proof.
    intros H. apply list_min_spec in H. destruct H as [Hlo Hin]. apply flat2_In in Hin. destruct Hin as (i & j & Hi & Hj & E).
    rewrite radius_scale in E by lra. apply Rle_antisym.
    - specialize (Hlo (pd n 0)). rewrite (pd_0 n Hn) in Hlo. apply Hlo. apply flat2_In.
      exists (n / 2)%nat, (n / 2)%nat. pose proof (Nat.div_lt n 2 ltac:(lia) ltac:(lia)) as Hd. repeat split; auto.
      rewrite radius_scale by lra. unfold c. rewrite (off_i0 n Hn). reflexivity.
    - rewrite E. pose proof (axis_bounds n Hn i Hi) as [A1 _]. pose proof (axis_bounds n Hn j Hj) as [B1 _]. pose proof (off_nn n).
      apply sq_mono; rewrite (Rabs_pos_eq (off n)) by lra; assumption.
  Qed.
  Lemma zlast_gt : (3 <= n)%nat -> (zfirst n < zlast n)%Z.
  Proof.
    intros H3. rewrite (zfirst_val n). unfold zlast. fold c.
    assert (Hc : 1 <= c). { unfold c. apply le_INR in H3. simpl in H3. lra. }
    assert (A : sq 1 1 <= sq c c). { apply sq_mono; rewrite !Rabs_pos_eq by lra; lra. }
    destruct (Nat.even n) eqn:E.
    - assert (H4 : (4 <= n)%nat). { destruct (Nat.eq_dec n 3) as [ ->|]; [discriminate|lia]. }
      assert (Hc' : 3 / 2 <= c). { unfold c. apply le_INR in H4. simpl in H4. lra. }
      assert (B : sq (3/2) (3/2) <= sq c c). { apply sq_mono; rewrite !Rabs_pos_eq by lra; lra. }
      assert (C : ZnearestE (sq (3/2) (3/2)) = 2%Z).
      { apply Znearest_imp. unfold sq. replace (Rsqr (3/2) + Rsqr (3/2)) with (9/2) by (unfold Rsqr; lra).
        apply Rabs_lt. assert (3/2 < sqrt (9/2)). { rewrite <- (sqrt_Rsqr (3/2)) at 1 by lra. apply sqrt_lt_1_alt. unfold Rsqr. lra. }
        assert (sqrt (9/2) < 5/2). { rewrite <- (sqrt_Rsqr (5/2)) by lra. apply sqrt_lt_1_alt. unfold Rsqr. lra. } simpl. lra. }
      pose proof (Zrnd_le ZnearestE _ _ B). rewrite C in H. lia.
    - assert (C : ZnearestE (sq 1 1) = 1%Z).
      { apply Znearest_imp. unfold sq. replace (Rsqr 1 + Rsqr 1) with 2 by (unfold Rsqr; lra).
        apply Rabs_lt. assert (1 < sqrt 2). { rewrite <- sqrt_1 at 1. apply sqrt_lt_1_alt. lra. }
        assert (sqrt 2 < 3/2). { rewrite <- (sqrt_Rsqr (3/2)) by lra. apply sqrt_lt_1_alt. unfold Rsqr. lra. } simpl. lra. }
      pose proof (Zrnd_le ZnearestE _ _ A). rewrite C in H. lia.
  Qed.
End SquareProfile.

(** C93. On a square image (n >= 3 pixels a side) with a non-negative content
    and a positive central pixel, with the default centre and bin size, the
    call succeeds and leaves the image unchanged; no ring is skipped: value
    number m is the mean over the pixels whose distance from the centre rounds
    to m (odd n) or m+1 (even n) pixels, for every ring but the outermost one,
    and the radius returned for it is m pixels for odd n, m+0.707... for even n
    (that is, within one third of a pixel of the ring's own radius). *)
Theorem C93_square argsort pa_of a n ps :
  sorts argsort -> (3 <= n)%nat -> rows a = n -> cols a = n -> 0 < ps ->
  (forall i j, (i < n)%nat -> (j < n)%nat -> 0 <= px a i j) -> 0 < px a (n / 2) (n / 2) ->
  exists o, radial_profile argsort pa_of a ps None None None NormNone None = Ok (a, o) /\
  let first := if Nat.even n then 1%Z else 0%Z in
  let last := ZnearestE (sqrt 2 * ((INR n - 1) / 2)) in
  (first < last)%Z /\
  length (rp_prof o) = Z.to_nat (last - first) /\
  length (rp_rr o) = Z.to_nat (last - first) /\
  forall m, (m < Z.to_nat (last - first))%nat ->
    nth m (rp_prof o) 0 = mean_where n n (fun i j => (sq_ring n i j =? first + Z.of_nat m)%Z) (px a) /\
    nth m (rp_rr o) 0 = ((if Nat.even n then sqrt (/ 2) else 0) + INR m) * ps /\
    Rabs (nth m (rp_rr o) 0 / ps - IZR (first + Z.of_nat m)) < / 3.
Proof.
  intros Hs H3 Hr Hcl Hps Hpos Hc0.
  assert (Hn : (1 <= n)%nat) by lia.
  set (c := (INR n - 1) / 2).
  assert (Ezf : (if Nat.even n then 1%Z else 0%Z) = zfirst n) by (symmetry; apply zfirst_val).
  assert (Ezl : ZnearestE (sqrt 2 * ((INR n - 1) / 2)) = zlast n).
  { unfold zlast, sq. f_equal. fold c. replace (Rsqr c + Rsqr c) with (2 * Rsqr c) by lra.
    assert (0 <= c). { unfold c. apply le_INR in H3. simpl in H3. lra. }
    rewrite sqrt_mult_alt, sqrt_Rsqr by lra. reflexivity. }
  set (s := rp_sorted argsort (rp_samples pa_of a c c ps ps None)).
  set (q := binned s).
  assert (Hq : StronglySorted (fun a b : Z * R => (fst a <= fst b)%Z) q) by (apply q_sorted; assumption).
  assert (Hzs : zs q = map (fun m => (zfirst n + Z.of_nat m)%Z) (seq 0 (Z.to_nat (zlast n - zfirst n)))).
  { apply (sq_rings n Hn ps Hps pa_of). pose proof (zs_rings argsort Hs pa_of a c c ps ps None) as Hz. rewrite Hr, Hcl in Hz. exact Hz. }
  pose proof (zlast_gt n ltac:(lia) H3) as Hlt.
  assert (Hnn : zs q <> []).
  { rewrite Hzs. intros E. apply map_eq_nil in E. apply (f_equal (@length nat)) in E. rewrite seq_length in E. simpl in E. lia. }
  destruct (rp_profile (map snd q) (rp_rind (map fst q))) as [prof|e] eqn:Ep.
  2:{ exfalso. unfold rp_profile in Ep. apply Hnn. unfold zs. destruct (rp_rind (map fst q)); [reflexivity|discriminate]. }
  pose proof (profile_means q Hq prof Ep) as Hprof.
  destruct (list_min (flat2 n n (rp_radius c c ps ps))) as [rmin|e] eqn:Em.
  2:{ exfalso. destruct (flat2 n n (rp_radius c c ps ps)) as [|x l] eqn:Ef; [|discriminate].
      assert (Hin : In (rp_radius c c ps ps 0 0) (flat2 n n (rp_radius c c ps ps))) by (apply flat2_In; exists 0%nat, 0%nat; repeat split; lia).
      rewrite Ef in Hin. exact Hin. }
  pose proof (sq_rmin n Hn ps Hps rmin Em) as Hrm.
  assert (Hsum : forall z, encl q snd z = sum_where n n (sel_disc pa_of c c ps ps None z) (px a)).
  { intros z. unfold encl, upto. pose proof (q_sum argsort Hs pa_of a c c ps ps None (fun y => (y <=? z)%Z) snd) as E. rewrite Hr, Hcl in E. exact E. }
  assert (Hpz : forall z, In z (zs q) -> 0 < encl q snd z).
  { intros z Hz. rewrite Hsum. unfold sum_where. pose proof (Nat.div_lt n 2 ltac:(lia) ltac:(lia)) as Hd.
    assert (Hz' : (zfirst n <= z)%Z) by (rewrite Hzs in Hz; apply range_In in Hz; lia).
    assert (Hsel : sel_disc pa_of c c ps ps None z (n / 2) (n / 2) = true).
    { unfold sel_disc. cbn [in_wedge andb]. apply Z.leb_le. rewrite ring_scale by lra. unfold ring_no, dist_bins. unfold c. rewrite (off_i0 n Hn).
      unfold zfirst, sq in Hz'. replace (sqrt (Rsqr (off n) + Rsqr (off n)) * 1 / 1) with (sqrt (Rsqr (off n) + Rsqr (off n))) by lra. exact Hz'. }
    assert (Hg : forall i j, (i < n)%nat -> (j < n)%nat -> 0 <= (if sel_disc pa_of c c ps ps None z i j then px a i j else 0)).
    { intros i j Hi Hj. destruct (sel_disc pa_of c c ps ps None z i j); [apply Hpos; assumption|lra]. }
    apply (Rlt_le_trans _ (rsum n (fun j => if sel_disc pa_of c c ps ps None z (n / 2) j then px a (n / 2) j else 0))).
    - apply (Rlt_le_trans _ (px a (n / 2) (n / 2))); [exact Hc0|].
      pose proof (rsum_term_le n (fun j => if sel_disc pa_of c c ps ps None z (n / 2) j then px a (n / 2) j else 0) (n / 2)) as E.
      cbv beta in E. rewrite Hsel in E. apply E; [intros k Hk; apply Hg; assumption|assumption].
    - apply (rsum_term_le n (fun i => rsum n (fun j => if sel_disc pa_of c c ps ps None z i j then px a i j else 0))); [|assumption].
      intros i Hi. apply rsum_nonneg. intros j Hj. apply Hg; assumption. }
  assert (Hrun : exists o, radial_profile argsort pa_of a ps None None None NormNone None = Ok (a, o) /\
     rp_prof o = prof /\ rp_rr o = map (fun m => (rmin + INR m) * ps) (seq 0 (length prof))).
  { unfold radial_profile. cbn [rp_normalize bind rp_center]. rewrite Hr, Hcl. fold c. cbv zeta.
    destruct (Req_EM_T ps 0) as [E0|E0]; [lra|].
    pose proof (q_fst argsort pa_of a c c ps ps None) as Qf. pose proof (q_snd argsort pa_of a c c ps ps None) as Qs.
    fold s in Qf, Qs |- *. fold q in Qf, Qs. rewrite <- Qf, <- Qs. rewrite Ep. cbn [bind]. rewrite Em. cbn [bind].
    rewrite (ee_encl q Hq). destruct (list_max (map (encl q snd) (zs q))) as [mx|e] eqn:Ex.
    2:{ exfalso. destruct (zs q); [contradiction|discriminate]. }
    cbn [bind]. apply list_max_spec in Ex. destruct Ex as [_ Ex]. apply in_map_iff in Ex. destruct Ex as [z [Ez Hz]].
    specialize (Hpz z Hz). destruct (Req_EM_T mx 0) as [E1|E1]; [lra|].
    eexists. split; [reflexivity|]. cbn [rp_prof rp_rr].
    destruct (rpw_len (map (fun m => (rmin + INR m) * ps) (seq 0 (length prof))) prof) as [E2 E3]; [rewrite map_length, seq_length; reflexivity|].
    rewrite E2, E3. auto. }
  destruct Hrun as (o & Hrun & Hop & Hor). exists o. split; [exact Hrun|]. cbv zeta. fold c in Ezl. rewrite Ezf, Ezl.
  split; [exact Hlt|].
  assert (Hlen : length prof = Z.to_nat (zlast n - zfirst n)) by (rewrite Hprof, map_length, Hzs, map_length, seq_length; reflexivity).
  split; [rewrite Hop; exact Hlen|]. split; [rewrite Hor, map_length, seq_length; exact Hlen|].
  assert (Hoff : rmin = if Nat.even n then sqrt (/ 2) else 0).
  { rewrite Hrm. unfold sq, off. destruct (Nat.even n).
    - f_equal. unfold Rsqr. lra.
    - replace (Rsqr 0 + Rsqr 0) with 0 by (unfold Rsqr; lra). apply sqrt_0. }
  intros m Hm.
  assert (Err : nth m (rp_rr o) 0 = ((if Nat.even n then sqrt (/ 2) else 0) + INR m) * ps).
  { rewrite Hor. rewrite nth_map_seq by lia. rewrite Hoff. reflexivity. }
  split.
  { rewrite Hop, Hprof, Hzs, map_map, nth_map_seq by exact Hm. unfold mean_where, count_where. 
    pose proof (fun g => q_sum argsort Hs pa_of a c c ps ps None (fun y => (y =? zfirst n + Z.of_nat m)%Z) g) as E. rewrite Hr, Hcl in E.
    assert (Ex : forall f, sum_where n n (fun i j => in_wedge pa_of c c None i j && (ring_no c c ps ps i j =? zfirst n + Z.of_nat m)%Z) f
                 = sum_where n n (fun i j => (sq_ring n i j =? zfirst n + Z.of_nat m)%Z) f).
    { intros f. unfold sum_where. apply rsum_ext. intros i _. apply rsum_ext. intros j _. simpl. rewrite ring_scale by lra. reflexivity. }
    f_equal; [|f_equal]; rewrite <- Ex.
    - exact (E snd).
    - exact (E (fun _ => 1)). }
  split; [exact Err|]. rewrite Err. unfold Rdiv. rewrite Rmult_assoc, Rinv_r, Rmult_1_r by lra.
  rewrite plus_IZR, <- INR_IZR_INZ, <- Ezf. destruct (Nat.even n); simpl.
  - apply Rabs_lt. assert (A : 2 / 3 < sqrt (/ 2)). { rewrite <- (sqrt_Rsqr (2/3)) by lra. apply sqrt_lt_1_alt. unfold Rsqr. lra. }
    assert (B : sqrt (/ 2) < 1). { rewrite <- sqrt_1. apply sqrt_lt_1_alt. lra. } lra.
  - replace (0 + INR m - (0 + INR m)) with 0 by lra. rewrite Rabs_R0. lra.
Qed.

Print Assumptions C93_square.
