(** C93: the radial profile is the mean of the image over each ring, whatever
    the order in which equal radii are sorted. *)
From Coq Require Import Reals List Arith ZArith Lia Lra Bool Permutation Sorting.Sorted.
From Flocq Require Import Core.
From Verif Require Import Base_Py Base_Sum M_Image M_Tools L_Image2 L_Tools2 S_Metric M_Metric L_Metric.
Import ListNotations.
Open Scope R_scope.

Lemma radius_spec cx cy ps bs i j : rp_radius cx cy ps bs i j = dist_bins cx cy ps bs i j.
Proof. reflexivity. Qed.

Definition binned (s : list (R * R)) : list (Z * R) := map (fun p => (rp_bin (fst p), snd p)) s.

Lemma map_nth_seq {A} (d : A) l : map (fun k => nth k l d) (seq 0 (length l)) = l.
Proof.
  induction l as [|x l IH]; [reflexivity|]. cbn [length seq map nth]. f_equal.
  rewrite <- seq_shift, map_map. exact IH.
Qed.

Lemma sorted_perm argsort s : sorts argsort -> Permutation (rp_sorted argsort s) s.
Proof.
  intros H. destruct (H (map fst s)) as [Hp _]. unfold rp_sorted.
  rewrite map_length in Hp. rewrite (Permutation_map _ Hp). rewrite map_nth_seq. reflexivity.
Qed.

Lemma SS_map {A B} (f : A -> B) (RA : A -> A -> Prop) (RB : B -> B -> Prop) l :
  (forall x y, RA x y -> RB (f x) (f y)) -> StronglySorted RA l -> StronglySorted RB (map f l).
Proof.
  intros Hf. induction 1 as [|x l Hl IH Hx]; simpl; constructor; [assumption|].
  apply Forall_forall. intros y Hy. apply in_map_iff in Hy. destruct Hy as [w [<- Hw]].
  rewrite Forall_forall in Hx. apply Hf. apply Hx. assumption.
Qed.

Lemma binned_sorted argsort s : sorts argsort ->
  StronglySorted (fun a b : Z * R => (fst a <= fst b)%Z) (binned (rp_sorted argsort s)).
Proof.
  intros H. destruct (H (map fst s)) as [Hp Hs].
  assert (E : map (fun k => nth k (map fst s) 0) (argsort (map fst s)) = map fst (rp_sorted argsort s)).
  { unfold rp_sorted. rewrite map_map. apply map_ext. intros k. exact (map_nth fst s (0, 0) k). }
  rewrite E in Hs. unfold binned. clear -Hs. remember (rp_sorted argsort s) as l. clear Heql.
  assert (G : StronglySorted (fun a b : R * R => fst a <= fst b) l).
  { induction l as [|x l IH]; simpl in *; [constructor|]. apply StronglySorted_inv in Hs. destruct Hs as [H1 H2].
    constructor; [auto|]. apply Forall_forall. intros y Hy. rewrite Forall_forall in H2. apply H2. apply in_map_iff. exists y; auto. }
  revert G. apply SS_map. intros x y Hxy. simpl. apply bin_mono. exact Hxy.
Qed.

Definition wedge (pa_of : R -> R -> R) cx cy w := fun p : nat * nat => in_wedge pa_of cx cy w (fst p) (snd p).

Lemma samples_spec pa_of a cx cy ps bs w :
  rp_samples pa_of a cx cy ps bs w =
  map (fun p => (rp_radius cx cy ps bs (fst p) (snd p), px a (fst p) (snd p)))
      (filter (wedge pa_of cx cy w) (flat2 (rows a) (cols a) (fun i j => (i, j)))).
Proof.
  unfold rp_samples. f_equal. destruct w as [[lo hi]|].
  - reflexivity.
  - generalize (flat2 (rows a) (cols a) (fun i j => (i, j))) as l.
    induction l as [|x l IH]; [reflexivity|]. cbn [filter]. unfold wedge at 1. simpl. f_equal. exact IH.
Qed.

Lemma ring_sum_where pa_of a cx cy ps bs w (P : Z -> bool) (g : Z * R -> R) :
  lsum (map g (filter (fun p => P (fst p)) (binned (rp_samples pa_of a cx cy ps bs w))))
  = sum_where (rows a) (cols a)
      (fun i j => in_wedge pa_of cx cy w i j && P (ring_no cx cy ps bs i j))
      (fun i j => g (ring_no cx cy ps bs i j, px a i j)).
Proof.
  rewrite samples_spec. unfold binned. rewrite map_map. rewrite lsum_filter, map_map.
  rewrite lsum_filter. rewrite lsum_flat2. unfold sum_where. apply rsum_ext. intros i _. apply rsum_ext. intros j _.
  unfold wedge. cbn [fst snd]. destruct (in_wedge pa_of cx cy w i j); reflexivity.
Qed.

Lemma binned_in pa_of a cx cy ps bs w z :
  In z (map fst (binned (rp_samples pa_of a cx cy ps bs w))) <->
  ring_present (rows a) (cols a) (in_wedge pa_of cx cy w) (ring_no cx cy ps bs) z.
Proof.
  rewrite samples_spec. unfold binned. rewrite !map_map. cbn [fst snd]. rewrite in_map_iff. unfold ring_present. split.
  - intros [[i j] [Hz Hin]]. apply filter_In in Hin. destruct Hin as [Hin Hw]. apply flat2_In in Hin.
    destruct Hin as (i' & j' & Hi & Hj & E). injection E as -> ->. exists i', j'. repeat split; auto.
  - intros (i & j & Hi & Hj & Hw & Hz). exists (i, j). split; [exact Hz|]. apply filter_In. split; [|exact Hw].
    apply flat2_In. exists i, j. auto.
Qed.

Section Ring.
  Variable argsort : list R -> list nat.
  Hypothesis Hsort : sorts argsort.
  Variable pa_of : R -> R -> R.
  Variables (a : img) (cx cy ps bs : R) (w : option (R * R)).
  Let s := rp_sorted argsort (rp_samples pa_of a cx cy ps bs w).
  Let q := binned s.
  Lemma q_sorted : StronglySorted (fun a b : Z * R => (fst a <= fst b)%Z) q.
  Proof. apply binned_sorted. exact Hsort. Qed.
  Lemma q_perm : Permutation q (binned (rp_samples pa_of a cx cy ps bs w)).
  Proof. unfold q, binned. apply Permutation_map. apply sorted_perm. exact Hsort. Qed.
  Lemma q_fst : map fst q = map (fun p => rp_bin (fst p)) s.
  Proof. unfold q, binned. rewrite map_map. reflexivity. Qed.
  Lemma q_snd : map snd q = map snd s.
  Proof. unfold q, binned. rewrite map_map. reflexivity. Qed.
  Lemma q_sum (P : Z -> bool) g : lsum (map g (filter (fun p => P (fst p)) q)) =
    sum_where (rows a) (cols a) (fun i j => in_wedge pa_of cx cy w i j && P (ring_no cx cy ps bs i j))
      (fun i j => g (ring_no cx cy ps bs i j, px a i j)).
  Proof.
    rewrite <- ring_sum_where. apply lsum_perm. apply Permutation_map.
    assert (G : forall l l', Permutation l l' -> Permutation (filter (fun p : Z * R => P (fst p)) l) (filter (fun p => P (fst p)) l')).
    { induction 1; simpl.
      - constructor.
      - destruct (P (fst x)); [constructor|]; assumption.
      - destruct (P (fst x)), (P (fst y)); try reflexivity. apply perm_swap.
      - etransitivity; eassumption. }
    apply G. exact q_perm.
  Qed.
  Lemma q_in z : In z (map fst q) <-> ring_present (rows a) (cols a) (in_wedge pa_of cx cy w) (ring_no cx cy ps bs) z.
  Proof.
    rewrite <- binned_in. split; intros H.
    - apply (Permutation_in _ (Permutation_map fst q_perm)). exact H.
    - apply (Permutation_in _ (Permutation_sym (Permutation_map fst q_perm))). exact H.
  Qed.
  Lemma zs_rings : rings_but_last (rows a) (cols a) (in_wedge pa_of cx cy w) (ring_no cx cy ps bs) (zs q).
  Proof.
    split; [apply zs_sorted; exact q_sorted|]. intros z. rewrite (zs_In q q_sorted). rewrite q_in.
    split; intros [H1 [z' [H2 H3]]]; (split; [exact H1|]); exists z'; (split; [exact H2|]); apply q_in; exact H3.
  Qed.
End Ring.

Lemma rpw_len {A B} (l1 : list A) (l2 : list B) : length l1 = length l2 -> map fst (combine l1 l2) = l1 /\ map snd (combine l1 l2) = l2.
Proof. revert l2. induction l1 as [|x l1 IH]; intros [|y l2] H; simpl in *; try discriminate; [auto|]. injection H as H. destruct (IH l2 H) as [-> ->]. auto. Qed.

(** C93. Without [maxradius], for every image, centre, pixel scale, bin size,
    normalisation, position-angle range and sorting routine: the m-th value of
    the profile is the mean of the (normalised) image over the m-th ring that
    contains a pixel, rings taken from the innermost outwards and the outermost
    one left out; the m-th encircled energy is proportional to the sum of the
    image inside the m-th ring. *)
Theorem C93_profile argsort pa_of a ps center binsize norm w im o :
  sorts argsort ->
  radial_profile argsort pa_of a ps center binsize None norm w = Ok (im, o) ->
  exists zs mx, let c := image_center (rows im) (cols im) center in
  let cx := fst c in let cy := snd c in
  let bs := match binsize with Some b => b | None => ps end in
  rings_but_last (rows im) (cols im) (in_wedge pa_of cx cy w) (ring_no cx cy ps bs) zs /\
  zs <> [] /\
  rp_prof o = map (fun z => mean_where (rows im) (cols im) (sel_ring pa_of cx cy ps bs w z) (px im)) zs /\
  length (rp_rr o) = length zs /\
  rp_ee o = map (fun z => sum_where (rows im) (cols im) (sel_disc pa_of cx cy ps bs w z) (px im) / mx) zs /\
  mx <> 0 /\
  (forall z, In z zs -> sum_where (rows im) (cols im) (sel_disc pa_of cx cy ps bs w z) (px im) <= mx) /\
  (exists z, In z zs /\ sum_where (rows im) (cols im) (sel_disc pa_of cx cy ps bs w z) (px im) = mx).
Proof.
  intros Hsort H. unfold radial_profile in H.
  destruct (rp_normalize norm a) as [im'|e] eqn:En; [|discriminate]. cbn [bind] in H.
  set (bs := match binsize with Some b => b | None => ps end) in *.
  destruct (rp_center (rows im') (cols im') center) as [cx cy] eqn:Ec.
  destruct (Req_EM_T bs 0) as [Hb|Hb]; [discriminate|].
  set (s := rp_sorted argsort (rp_samples pa_of im' cx cy ps bs w)) in *.
  cbv zeta in H.
  pose proof (q_fst argsort pa_of im' cx cy ps bs w) as Qf. pose proof (q_snd argsort pa_of im' cx cy ps bs w) as Qs.
  fold s in Qf, Qs. set (q := binned s) in *. rewrite <- Qf, <- Qs in H.
  destruct (rp_profile (map snd q) (rp_rind (map fst q))) as [prof|e] eqn:Ep; [|discriminate]. cbn [bind] in H.
  destruct (list_min _) as [rmin|e]; [|discriminate]. cbn [bind] in H.
  destruct (list_max _) as [mx|e] eqn:Em; [|discriminate]. cbn [bind] in H.
  destruct (Req_EM_T mx 0) as [Hm|Hm]; [discriminate|]. apply Ok_inj in H. injection H as -> <-.
  assert (Hq : StronglySorted (fun a b : Z * R => (fst a <= fst b)%Z) q) by (apply q_sorted; assumption).
  pose proof (profile_means q Hq prof Ep) as Hprof.
  assert (Hsum : forall z, encl q snd z = sum_where (rows im) (cols im) (sel_disc pa_of cx cy ps bs w z) (px im)).
  { intros z. unfold encl, upto. exact (q_sum argsort Hsort pa_of im cx cy ps bs w (fun y => (y <=? z)%Z) snd). }
  exists (zs q), mx. change (image_center (rows im) (cols im) center) with (rp_center (rows im) (cols im) center). rewrite Ec. cbn [fst snd]. cbv zeta. cbn [rp_prof rp_rr rp_ee].
  destruct (rpw_len (map (fun m => (rmin + INR m) * bs) (seq 0 (length prof))) prof) as [E1 E2].
  { rewrite map_length, seq_length. reflexivity. }
  rewrite E1, E2.
  split; [apply zs_rings; assumption|]. split.
  { intros Hz. unfold rp_profile in Ep. unfold zs in Hz. destruct (rp_rind (map fst q)); [discriminate|discriminate]. }
  split.
  { rewrite Hprof. apply map_ext. intros z. unfold mean_where, count_where. f_equal.
    - exact (q_sum argsort Hsort pa_of im cx cy ps bs w (fun y => (y =? z)%Z) snd).
    - f_equal. exact (q_sum argsort Hsort pa_of im cx cy ps bs w (fun y => (y =? z)%Z) (fun _ => 1)). }
  split. { rewrite map_length, seq_length, Hprof, map_length. reflexivity. }
  assert (Ee : map (rp_csim (map snd q)) (rp_rind (map fst q)) = map (fun z => sum_where (rows im) (cols im) (sel_disc pa_of cx cy ps bs w z) (px im)) (zs q)).
  { rewrite (ee_encl q Hq). apply map_ext. exact Hsum. }
  rewrite Ee in Em |- *. split; [rewrite map_map; reflexivity|]. split; [exact Hm|].
  apply list_max_spec in Em. destruct Em as [M1 M2]. split.
  - intros z Hz. apply M1. apply in_map_iff. exists z. auto.
  - apply in_map_iff in M2. destruct M2 as [z [Ez Hz]]. exists z. auto.
Qed.

Print Assumptions C93_profile.
