(** C93, continued: what the profile and the encircled energy do not do. *)
From Coq Require Import Reals List Arith ZArith Lia Lra Bool Permutation Sorting.Sorted.
From Flocq Require Import Core.
From Verif Require Import Base_Py Base_Sum M_Image M_Tools L_Image2 L_Tools2 S_Metric M_Metric L_Metric P_Metric P_Metric2 P_Metric3.
Import ListNotations.
Open Scope R_scope.

(** A sorting routine exists (insertion into a sorted list of positions). *)
Fixpoint ins (l : list R) (k : nat) (t : list nat) : list nat :=
  match t with [] => [k] | j :: r => if Rle_dec (nth k l 0) (nth j l 0) then k :: t else j :: ins l k r end.
Definition isort (l : list R) : list nat := fold_right (ins l) [] (seq 0 (length l)).
Lemma ins_perm l k t : Permutation (ins l k t) (k :: t).
Proof. induction t as [|j t IH]; simpl; [reflexivity|]. destruct (Rle_dec _ _); [reflexivity|]. rewrite IH. apply perm_swap. Qed.
Lemma ins_sorted l k t : StronglySorted Rle (map (fun i => nth i l 0) t) -> StronglySorted Rle (map (fun i => nth i l 0) (ins l k t)).
Proof.
  induction t as [|j t IH]; intros H; simpl; [repeat constructor|]. simpl in H. destruct (Rle_dec (nth k l 0) (nth j l 0)) as [Hle|Hle].
  - simpl. constructor; [exact H|]. apply StronglySorted_inv in H. destruct H as [_ F]. constructor; [exact Hle|].
    eapply Forall_impl; [|exact F]. simpl. intros x Hx. lra.
  - simpl. apply StronglySorted_inv in H. destruct H as [Hs F]. constructor; [apply IH; exact Hs|].
    apply Forall_forall. intros x Hx. apply in_map_iff in Hx. destruct Hx as [i [<- Hi]].
    apply (Permutation_in _ (ins_perm l k t)) in Hi. destruct Hi as [<-|Hi]; [lra|].
    rewrite Forall_forall in F. apply F. apply in_map_iff. exists i. auto.
Qed.
Lemma isort_sorts : sorts isort.
Proof.
  intros l. unfold isort. generalize (seq 0 (length l)) as s. intros s. split.
  - induction s as [|x s IH]; simpl; [reflexivity|]. rewrite ins_perm, IH. reflexivity.
  - induction s as [|x s IH]; simpl; [constructor|]. apply ins_sorted. exact IH.
Qed.

Definition uni (n : nat) (v : R) : img := mkImg n n (fun _ _ => v).

Lemma near_sqrt2 : ZnearestE (sqrt 2 * ((INR 3 - 1) / 2)) = 1%Z.
Proof.
  apply Znearest_imp. replace ((INR 3 - 1) / 2) with 1 by (simpl; lra). apply Rabs_lt.
  assert (1 < sqrt 2). { rewrite <- sqrt_1 at 1. apply sqrt_lt_1_alt. lra. }
  assert (sqrt 2 < 3/2). { rewrite <- (sqrt_Rsqr (3/2)) by lra. apply sqrt_lt_1_alt. unfold Rsqr. lra. } simpl. lra.
Qed.

(** Non-vacuity of [C93_square], [C93_range] and [C93_encircled]. *)
Example C93_ex : exists o, radial_profile isort position_angle (uni 3 2) 10 None None None NormNone None = Ok (uni 3 2, o)
  /\ length (rp_prof o) = 1%nat /\ nth 0 (rp_prof o) 0 = 2.
Proof.
  destruct (C93_square isort position_angle (uni 3 2) 3 10 isort_sorts ltac:(lia) eq_refl eq_refl ltac:(lra)) as (o & E & H); [simpl; intros; lra|simpl; lra|].
  cbv zeta in H. rewrite near_sqrt2 in H. simpl Nat.even in H. cbv iota in H. destruct H as (_ & L & _ & _).
  exists o. split; [exact E|]. split; [exact L|].
  destruct (C93_range _ _ _ _ _ _ _ _ _ 2 2 isort_sorts E) as (_ & _ & F); [simpl; intros; lra|].
  destruct (rp_prof o) as [|v l]; [discriminate|]. simpl. rewrite Forall_forall in F. specialize (F v (or_introl eq_refl)). lra.
Qed.

(** C93, refuted reading. "The last value of the encircled energy is reached
    when all the light is enclosed": false. Every curve is scaled to end at 1
    BEFORE the outermost ring: a uniform 3x3 image has an encircled energy of 1
    at radius 0, where 1/9 of the flux is. *)
Theorem C93_encircled_refuted : forall argsort pa_of, sorts argsort ->
  exists a rr, getEncircledEnergy argsort pa_of a 1 None = Ok ([1], rr) /\ rr = [0] /\
    px a 1 1 = / 9 * img_sum a /\ 0 < px a 1 1.
Proof.
  intros argsort pa_of Hs.
  destruct (C93_square argsort pa_of (uni 3 1) 3 1 Hs ltac:(lia) eq_refl eq_refl ltac:(lra)) as (o & E & H); [simpl; intros; lra|simpl; lra|].
  cbv zeta in H. rewrite near_sqrt2 in H. simpl Nat.even in H. cbv iota in H. destruct H as (_ & L & L' & Hm).
  destruct (Hm 0%nat ltac:(simpl; lia)) as (_ & Hrr & _).
  assert (G : getEncircledEnergy argsort pa_of (uni 3 1) 1 None = Ok (rp_ee o, rp_rr o)) by (unfold getEncircledEnergy; rewrite E; reflexivity).
  destruct (C93_encircled _ _ _ _ _ _ _ Hs G) as (Hl & _ & _ & Hlast & _); [simpl; intros; lra|].
  exists (uni 3 1), (rp_rr o). rewrite G.
  change (Z.to_nat (1 - 0)) with 1%nat in L'. rewrite L' in Hl.
  destruct (rp_ee o) as [|e [|]]; try discriminate. simpl in Hlast. subst e.
  destruct (rp_rr o) as [|r [|]]; try discriminate. simpl in Hrr.
  split; [reflexivity|]. split; [f_equal; lra|]. unfold img_sum, uni. simpl. lra.
Qed.

(** C93, refuted reading. "radial_profile does not modify its argument":
    false with normalize='peak' or 'total': the caller's array is divided in
    place. *)
Theorem C93_inplace_refuted : forall argsort pa_of a ps im o,
  radial_profile argsort pa_of a ps None None None NormTotal None = Ok (im, o) ->
  img_sum a <> 1 -> (exists i j, px a i j <> 0) -> exists i j, px im i j <> px a i j.
Proof.
  intros argsort pa_of a ps im o H Hs (i & j & Hij). unfold radial_profile in H. cbn [rp_normalize] in H. unfold img_div in H.
  destruct (Req_EM_T (img_sum a) 0) as [H0|H0]; [discriminate|]. cbn [bind] in H.
  destruct (rp_center _ _ _). destruct (Req_EM_T _ 0); [discriminate|].
  cbv zeta in H. destruct (rp_profile _ _); [|discriminate]. cbn [bind] in H. destruct (list_min _); [|discriminate]. cbn [bind] in H.
  destruct (list_max _); [|discriminate]. cbn [bind] in H. destruct (Req_EM_T _ 0); [discriminate|]. apply Ok_inj in H. injection H as <- _.
  exists i, j. unfold img_map. cbn [px]. intros E. apply Hs.
  assert (E2 : px a i j = px a i j * img_sum a). { rewrite <- E at 2. unfold Rdiv. rewrite Rmult_assoc, Rinv_l by assumption. lra. }
  apply (Rmult_eq_reg_l (px a i j)); lra.
Qed.

(** C93, refuted reading. "An image always has a profile": a 1x1 or 2x2 image
    has a single ring and the call raises IndexError. *)
Theorem C93_small_refuted : forall argsort pa_of a n ps, sorts argsort -> (1 <= n <= 2)%nat -> rows a = n -> cols a = n -> 0 < ps ->
  radial_profile argsort pa_of a ps None None None NormNone None = Err IndexError.
Proof.
  intros argsort pa_of a n ps Hs Hn Hr Hc Hps. unfold radial_profile. cbn [rp_normalize bind rp_center]. rewrite Hr, Hc.
  destruct (Req_EM_T ps 0) as [E0|_]; [lra|]. cbv zeta.
  set (c := (INR n - 1) / 2).
  set (s := rp_sorted argsort (rp_samples pa_of a c c ps ps None)).
  pose proof (q_fst argsort pa_of a c c ps ps None) as Qf. fold s in Qf. rewrite <- Qf. set (q := binned s) in *.
  assert (Hq : StronglySorted (fun a b : Z * R => (fst a <= fst b)%Z) q) by (apply q_sorted; assumption).
  assert (Hz : zs q = []).
  { pose proof (zs_rings argsort Hs pa_of a c c ps ps None) as Hz. rewrite Hr, Hc in Hz. fold s in Hz. fold q in Hz.
    apply (sq_rings n ltac:(lia) ps Hps pa_of) in Hz. rewrite Hz. replace (Z.to_nat (zlast n - zfirst n)) with 0%nat; [reflexivity|].
    assert (E : zlast n = zfirst n); [|lia]. unfold zlast, zfirst.
    replace ((INR n - 1) / 2) with (off n); [reflexivity|].
    assert (D : n = 1%nat \/ n = 2%nat) by lia. destruct D as [D|D]; rewrite D; unfold off; simpl; lra. }
  unfold zs in Hz. apply map_eq_nil in Hz. rewrite Hz. reflexivity.
Qed.

(** C93. [maxradius] keeps exactly the points whose radius is below it; the
    encircled energy is the same as without it (and so longer than the radii
    as soon as one point is dropped). *)
Theorem C93_maxradius argsort pa_of a ps center binsize norm w rm im o :
  radial_profile argsort pa_of a ps center binsize None norm w = Ok (im, o) ->
  exists o', radial_profile argsort pa_of a ps center binsize (Some rm) norm w = Ok (im, o') /\
    combine (rp_rr o') (rp_prof o') = filter (fun p => if Rlt_dec (fst p) rm then true else false) (combine (rp_rr o) (rp_prof o)) /\
    length (rp_rr o') = length (rp_prof o') /\
    rp_ee o' = rp_ee o.
Proof.
  intros H. unfold radial_profile in *. destruct (rp_normalize norm a) as [im'|]; [|discriminate]. cbn [bind] in *.
  destruct (rp_center (rows im') (cols im') center) as [cx cy]. destruct (Req_EM_T _ 0); [discriminate|]. cbv zeta in *.
  destruct (rp_profile _ _) as [prof|]; [|discriminate]. cbn [bind] in *. destruct (list_min _) as [rmin|]; [|discriminate]. cbn [bind] in *.
  destruct (list_max _) as [mx|]; [|discriminate]. cbn [bind] in *. destruct (Req_EM_T mx 0); [discriminate|]. apply Ok_inj in H. injection H as <- <-.
  eexists. split; [reflexivity|]. cbn [rp_rr rp_prof rp_ee].
  assert (G : forall l : list (R * R), combine (map fst l) (map snd l) = l) by (induction l as [|[x y] l IH]; simpl; congruence).
  rewrite !G. split; [reflexivity|]. split; [rewrite !map_length; reflexivity|reflexivity].
Qed.

(** * Position-angle range *)
Lemma pa90 x y : position_angle x y = 90 <-> y = 0 /\ x < 0.
Proof.
  pose proof PI_RGT_0 as HP. unfold position_angle.
  assert (E : forall t, t * 180 / PI = 90 <-> t = PI / 2).
  { intros t. split; intros H.
    - apply (Rmult_eq_reg_r (180 / PI)); [|apply Rgt_not_eq; apply Rdiv_lt_0_compat; lra].
      replace (t * (180 / PI)) with (t * 180 / PI) by (field; lra). rewrite H. field. lra.
    - subst t. field. lra. }
  rewrite E. unfold arctan2.
  destruct (Rlt_dec 0 y) as [H1|H1].
  { split; [|lra]. intros H. pose proof (atan_bound (- x / y)). lra. }
  destruct (Rlt_dec y 0) as [H2|H2].
  { split; [|lra]. intros H. destruct (Rle_dec 0 (- x)) as [H3|H3].
    - pose proof (atan_bound (- x / y)). lra.
    - pose proof (atan_bound (- x / y)). lra. }
  assert (y = 0) by lra. subst y.
  destruct (Rlt_dec 0 (- x)) as [H3|H3]; [split; [intros; lra|reflexivity]|].
  destruct (Rlt_dec (- x) 0); split; lra.
Qed.

Definition wedge_img : img := mkImg 5 5 (fun i j => if (i =? 2)%nat && (j =? 2)%nat then 100 else if (i =? 2)%nat && (j =? 1)%nat then 1 else 0).

(** C93, refuted reading. "The radius returned beside a value is the radius of
    its ring": false with a position-angle range that does not contain the
    central pixel: radii are counted from the smallest radius of the WHOLE
    image. Here the wedge at 90 degrees holds the pixels at distances 1 and 2;
    the mean at distance 1 is returned beside the radius 0. *)
Theorem C93_wedge_refuted : forall argsort, sorts argsort -> exists o,
  radial_profile argsort position_angle wedge_img 1 None None None NormNone (Some (90, 90)) = Ok (wedge_img, o) /\
  rp_rr o = [0] /\ rp_prof o = [1] /\ px wedge_img 2 1 = 1 /\ px wedge_img 2 2 = 100.
Proof.
  intros argsort Hs.
  set (w := Some (90, 90)). set (a := wedge_img).
  assert (Hw : forall i j, (j < 5)%nat -> in_wedge position_angle 2 2 w i j = ((i =? 2) && (j <? 2))%nat).
  { intros i j Hj. unfold in_wedge, w. pose proof (pa90 (INR j - 2) (INR i - 2)) as HP.
    assert (Ei : INR i - 2 = 0 <-> i = 2%nat). { split; [intros E; apply INR_eq; simpl; lra|intros ->; simpl; lra]. }
    assert (Ej : INR j - 2 < 0 <-> (j < 2)%nat). { split; [intros E; apply INR_lt; simpl; lra|intros E; apply lt_INR in E; simpl in E; lra]. }
    rewrite Ei, Ej in HP.
    set (pa := position_angle (INR j - 2) (INR i - 2)) in *.
    destruct (Rle_dec 90 pa) as [A|A]; [destruct (Rle_dec pa 90) as [B|B]|];
    destruct (Nat.eqb_spec i 2), (Nat.ltb_spec j 2); simpl; try reflexivity; exfalso;
      try (assert (K : i = 2%nat /\ (j < 2)%nat) by (apply HP; lra); lia);
      try (assert (K : pa = 90) by (apply HP; lia); lra). }
  assert (Hring : forall j, (j < 2)%nat -> ring_no 2 2 1 1 2 j = (2 - Z.of_nat j)%Z).
  { intros j Hj. unfold ring_no, dist_bins. replace (sqrt (Rsqr (INR j - 2) + Rsqr (INR 2 - 2)) * 1 / 1) with (IZR (2 - Z.of_nat j)).
    - apply near_int.
    - replace (Rsqr (INR 2 - 2)) with 0 by (unfold Rsqr; simpl; lra). rewrite Rplus_0_r.
      replace (Rsqr (INR j - 2)) with (Rsqr (2 - INR j)) by (unfold Rsqr; lra). apply lt_INR in Hj. simpl in Hj.
      rewrite sqrt_Rsqr by lra. rewrite minus_IZR, <- INR_IZR_INZ. lra. }
  set (s := rp_sorted argsort (rp_samples position_angle a 2 2 1 1 w)). set (q := binned s).
  assert (Hq : StronglySorted (fun a b : Z * R => (fst a <= fst b)%Z) q) by (apply q_sorted; assumption).
  assert (Hz : zs q = [1%Z]).
  { apply strict_sorted_unique; [apply zs_sorted; exact Hq|repeat constructor|]. intros z.
    destruct (zs_rings argsort Hs position_angle a 2 2 1 1 w) as [_ Hin]. fold s in Hin. fold q in Hin. rewrite Hin.
    assert (P : forall z, ring_present (rows a) (cols a) (in_wedge position_angle 2 2 w) (ring_no 2 2 1 1) z <-> (z = 1 \/ z = 2)%Z).
    { intros z'. unfold ring_present. split.
      - intros (i & j & Hi & Hj & A & B). rewrite Hw in A by exact Hj. apply andb_prop in A. destruct A as [A1 A2]. apply Nat.eqb_eq in A1. apply Nat.ltb_lt in A2. subst i.
        rewrite Hring in B by exact A2. lia.
      - intros [ ->| ->]; [exists 2%nat, 1%nat|exists 2%nat, 0%nat]; (split; [simpl; lia|]); (split; [simpl; lia|]); (split; [apply Hw; lia|]); apply Hring; lia. }
    rewrite P. split.
    - intros [A [z' [B C]]]. rewrite P in C. simpl. lia.
    - intros [<-|[]]. split; [left; reflexivity|]. exists 2%Z. split; [lia|]. apply P. auto. }
  assert (Hsum : forall P : Z -> bool, P 1%Z = true -> P 2%Z = false -> forall g : Z * R -> R, lsum (map g (filter (fun p => P (fst p)) q)) = g (1%Z, 1)).
  { intros P P1 P2 g. pose proof (q_sum argsort Hs position_angle a 2 2 1 1 w P g) as E. fold s in E. fold q in E. rewrite E.
    unfold sum_where. change (rows a) with 5%nat. change (cols a) with 5%nat.
    rewrite (rsum_single 5 2) by (lia || (intros i Hi Hne; apply rsum_zero; intros j Hj; rewrite Hw by exact Hj;
       destruct (Nat.eqb_spec i 2); [lia|]; reflexivity)).
    rewrite (rsum_single 5 1) by (lia || (intros j Hj Hne; rewrite Hw by exact Hj;
       destruct (Nat.ltb_spec j 2); [|reflexivity]; assert (j = 0%nat) by lia; subst j; rewrite (Hring 0%nat) by lia; simpl Z.of_nat; rewrite Z.sub_0_r, P2; reflexivity)).
    rewrite Hw by lia. rewrite (Hring 1%nat) by lia. change (2 - Z.of_nat 1)%Z with 1%Z. rewrite P1. simpl. reflexivity. }
  destruct (rp_profile (map snd q) (rp_rind (map fst q))) as [prof|e] eqn:Ep.
  2:{ exfalso. unfold rp_profile in Ep. assert (N : zs q <> []) by (rewrite Hz; discriminate). apply N. unfold zs. destruct (rp_rind (map fst q)); [reflexivity|discriminate]. }
  pose proof (profile_means q Hq prof Ep) as Hprof. rewrite Hz in Hprof. cbn [map] in Hprof.
  unfold ring in Hprof. rewrite !(Hsum (fun y => (y =? 1)%Z) eq_refl eq_refl) in Hprof. cbn [snd] in Hprof.
  assert (Em : list_min (flat2 5 5 (rp_radius 2 2 1 1)) = Ok 0).
  { destruct (list_min (flat2 5 5 (rp_radius 2 2 1 1))) as [r|e] eqn:Em; [|discriminate]. f_equal.
    apply list_min_spec in Em. destruct Em as [L I]. apply Rle_antisym.
    - apply L. apply flat2_In. exists 2%nat, 2%nat. repeat split; try lia. unfold rp_radius. replace (_ + _) with 0 by (simpl; lra). rewrite sqrt_0. lra.
    - apply flat2_In in I. destruct I as (i & j & _ & _ & ->). unfold rp_radius. unfold Rdiv. rewrite Rinv_1, !Rmult_1_r. apply sqrt_pos. }
  unfold radial_profile. cbn [rp_normalize bind rp_center]. change (rows a) with 5%nat. change (cols a) with 5%nat.
  replace ((INR 5 - 1) / 2) with 2 by (simpl; lra). cbv zeta.
  destruct (Req_EM_T 1 0) as [E0|_]; [lra|]. fold s.
  pose proof (q_fst argsort position_angle a 2 2 1 1 w) as Qf. pose proof (q_snd argsort position_angle a 2 2 1 1 w) as Qs.
  fold s in Qf, Qs. fold q in Qf, Qs. rewrite <- Qf, <- Qs, Ep. cbn [bind]. rewrite Em. cbn [bind].
  rewrite (ee_encl q Hq), Hz. cbn [map]. unfold encl, upto. rewrite (Hsum (fun y => (y <=? 1)%Z) eq_refl eq_refl).
  cbn [list_max fold_left bind snd]. destruct (Req_EM_T 1 0) as [E0|_]; [lra|].
  eexists. split; [reflexivity|]. cbn [rp_rr rp_prof]. rewrite Hprof. cbn [length seq map combine fst snd INR].
  split; [f_equal; lra|]. split; [f_equal; lra|]. split; reflexivity.
Qed.

Print Assumptions C93_encircled_refuted.
Print Assumptions C93_inplace_refuted.
Print Assumptions C93_small_refuted.
Print Assumptions C93_maxradius.
Print Assumptions C93_wedge_refuted.
