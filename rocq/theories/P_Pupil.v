(** C88: assembly of the segmented pupil. *)
From Coq Require Import Reals List Arith ZArith Lia Lra Psatz Permutation.
From Coq Require Import ZifyBool ZifyNat.
From Flocq Require Import Core.Raux.
From Verif Require Import Base_Py Base_Sum Base_DFT M_Image M_Fourier M_Tools M_Freq L_Tools2 M_Pupil S_Pupil L_Pupil M_Tools.
From Coquelicot Require Import Complex.
Import ListNotations.
Open Scope R_scope.

(** C88: a polygonal segment has its reflectivity and phase error inside the polygon and zero
    outside, and turning it by 360 degrees changes nothing. *)
Theorem C88_segment : forall poly nS ang shrink refl ph nP, (0 < nS)%nat -> exists m sh,
  make_segment poly nS ang shrink refl ph nP = Ok (m, sh) /\ crows m = nP /\ ccols m = nP /\
  (forall i j, (sh i j = 1 /\ cpx m i j = Cmult (RtoC refl) (cos ph, sin ph)) \/ (sh i j = 0 /\ cpx m i j = RtoC 0)) /\
  forall k : Z, exists m' sh', make_segment poly nS (ang + 360 * IZR k) shrink refl (ph + 2 * PI * IZR k) nP = Ok (m', sh') /\ ceq m m' /\ forall i j, sh' i j = sh i j.
Proof.
  intros poly nS ang shrink refl ph nP H. unfold make_segment. destruct (Nat.eqb_spec nS 0); [lia|]. eexists _, _. split; [reflexivity|]. cbn [crows ccols cpx]. split; [reflexivity|]. split; [reflexivity|]. split.
  - intros i j. unfold seg_shape. destruct (poly _ _ _ _); [left|right]; split; try reflexivity.
    + rewrite Rmult_1_l. reflexivity.
    + rewrite Rmult_0_l. unfold Cmult, RtoC, cisp. cbn. f_equal; ring.
  - intros k.
    assert (PC : forall x (z : Z), cos (x + 2 * PI * IZR z) = cos x /\ sin (x + 2 * PI * IZR z) = sin x).
    { intros x z. destruct z as [|p|p].
      - rewrite Rmult_0_r, Rplus_0_r. split; reflexivity.
      - pose proof (cos_period x (Pos.to_nat p)) as PC1. pose proof (sin_period x (Pos.to_nat p)) as PS1.
        assert (E : x + 2 * INR (Pos.to_nat p) * PI = x + 2 * PI * IZR (Z.pos p)). { rewrite INR_IZR_INZ, positive_nat_Z. ring. }
        rewrite E in PC1, PS1. split; assumption.
      - pose proof (cos_period (x + 2 * PI * IZR (Z.neg p)) (Pos.to_nat p)) as PC1. pose proof (sin_period (x + 2 * PI * IZR (Z.neg p)) (Pos.to_nat p)) as PS1.
        assert (E : x + 2 * PI * IZR (Z.neg p) + 2 * INR (Pos.to_nat p) * PI = x). { change (Z.neg p) with (- Z.pos p)%Z. rewrite opp_IZR, INR_IZR_INZ, positive_nat_Z. ring. }
        rewrite E in PC1, PS1. split; symmetry; assumption. }
    assert (SH : forall i j, seg_shape poly nS (ang + 360 * IZR k) shrink nP i j = seg_shape poly nS ang shrink nP i j).
    { intros i j. unfold seg_shape. cbv zeta. assert (V : forall siz, verts cos nS (ang + 360 * IZR k) siz = verts cos nS ang siz /\ verts sin nS (ang + 360 * IZR k) siz = verts sin nS ang siz).
      { intros siz. unfold verts. split; apply map_ext; intros t; f_equal; (replace (t + (ang + 360 * IZR k) * PI / 180) with (t + ang * PI / 180 + 2 * PI * IZR k) by field); apply PC. }
      destruct (V ((INR nP + 1) * shrink)) as [-> ->]. reflexivity. }
    eexists _, _. split; [reflexivity|]. split; [|exact SH]. split; [reflexivity|]. split; [reflexivity|]. cbn [cpx]. intros i j _ _. rewrite SH. unfold cisp. destruct (PC ph k) as [-> ->]. reflexivity.
Qed.
Print Assumptions C88_segment.

(** C88 (finding): a circular segment (no sides) can never be built. *)
Theorem C88_circle_refuted : forall poly ang shrink refl ph nP, make_segment poly 0 ang shrink refl ph nP = Err AttributeError.
Proof. reflexivity. Qed.

(** ** assembly *)
Lemma rmax_l_spec l m : rmax_l l = Ok m -> In m l /\ forall x, In x l -> x <= m.
Proof.
  destruct l as [|a l]; [discriminate|]. cbn [rmax_l]. intros H. apply Ok_inj in H. subst m. revert a. induction l as [|b l IH]; intros a; cbn [fold_left].
  - split; [left; reflexivity|]. intros x [<-|[]]; lra.
  - destruct (IH (Rmax a b)) as [I B]. split.
    + destruct I as [E|I]; [|right; right; exact I]. rewrite <- E. unfold Rmax. destruct (Rle_dec a b); [right; left; reflexivity|left; reflexivity].
    + intros x [<-|[<-|Hx]]; [| |apply B; right; exact Hx]; (eapply Rle_trans; [|apply B; left; reflexivity]); [apply Rmax_l|apply Rmax_r].
Qed.
Lemma rmin_l_spec l m : rmin_l l = Ok m -> In m l /\ forall x, In x l -> m <= x.
Proof.
  destruct l as [|a l]; [discriminate|]. cbn [rmin_l]. intros H. apply Ok_inj in H. subst m. revert a. induction l as [|b l IH]; intros a; cbn [fold_left].
  - split; [left; reflexivity|]. intros x [<-|[]]; lra.
  - destruct (IH (Rmin a b)) as [I B]. split.
    + destruct I as [E|I]; [|right; right; exact I]. rewrite <- E. unfold Rmin. destruct (Rle_dec a b); [left; reflexivity|right; left; reflexivity].
    + intros x [<-|[<-|Hx]]; [| |apply B; right; exact Hx]; (eapply Rle_trans; [apply B; left; reflexivity|]); [apply Rmin_l|apply Rmin_r].
Qed.
Lemma mapM_ok_map {A B} (f : A -> result B) (g : A -> B) l : (forall a, f a = Ok (g a)) -> mapM f l = Ok (map g l).
Proof. intros H. induction l as [|a l IH]; [reflexivity|]. cbn [mapM map]. rewrite H. cbn [bind]. rewrite IH. reflexivity. Qed.
Lemma coords_in coords x : In x (coords_list coords) <-> exists xy, In xy coords /\ (x = fst xy \/ x = snd xy).
Proof.
  unfold coords_list. rewrite in_flat_map. split.
  - intros (xy & I & [H|[H|[]]]); exists xy; split; auto.
  - intros (xy & I & [H|H]); exists xy; split; auto; cbn; auto.
Qed.

(** a field of segment centres: within [-h,h] on both axes and reaching both ends *)
Definition centred_field (h : R) (coords : list (R * R)) : Prop :=
  (forall xy, In xy coords -> Rabs (fst xy) <= h /\ Rabs (snd xy) <= h) /\
  (exists xy, In xy coords /\ (fst xy = h \/ snd xy = h)) /\ (exists xy, In xy coords /\ (fst xy = - h \/ snd xy = - h)).

Definition fresh (poly : polytest) (g : segref) (xy : R * R) : segm :=
  mkSeg (g_mat g) (seg_shape poly (g_sides g) 0 1 (g_np g)) (fst xy) (snd xy) 0 0 1 0 (g_np g).
Lemma seg_list_ok poly g coords : (0 < g_sides g)%nat -> make_seg_list poly g coords = Ok (map (fresh poly g) coords).
Proof.
  intros H. unfold make_seg_list. apply mapM_ok_map. intros xy. unfold make_segment. destruct (Nat.eqb_spec (g_sides g) 0); [lia|]. reflexivity.
Qed.
Lemma no_offset poly g coords : fold_left Rmax (map (fun s => Rmax (s_ex s) (s_ey s)) (map (fresh poly g) coords)) 0 = 0.
Proof. rewrite map_map. induction coords as [|a l IH]; [reflexivity|]. cbn [map fold_left]. change (Rmax (s_ex (fresh poly g a)) (s_ey (fresh poly g a))) with (Rmax 0 0). rewrite !(Rmax_left 0 0) by lra. exact IH. Qed.

Lemma corner_fits ratio np h d : 0 <= ratio -> 0 <= h -> Rabs d <= h ->
  let n := (Z.to_nat (Zceil (2 * h * ratio)) + np)%nat in
  (0 <= corner (INR n / 2) ratio np d)%Z /\ (corner (INR n / 2) ratio np d + Z.of_nat np <= Z.of_nat n)%Z.
Proof.
  intros Hr Hh Hd n. apply Raux.Rabs_le_inv in Hd.
  assert (0 <= h * ratio) by (apply Rmult_le_pos; assumption). assert (K0 : (0 <= Zceil (2 * h * ratio))%Z) by (apply (le_IZR 0); pose proof (Zceil_ub (2 * h * ratio)); lra).
  assert (N : INR n = IZR (Zceil (2 * h * ratio)) + INR np). { unfold n. rewrite plus_INR. f_equal. rewrite INR_IZR_INZ, Z2Nat.id by exact K0. reflexivity. }
  assert (B1 : - (h * ratio) <= ratio * d <= h * ratio). { split; [|rewrite Rmult_comm; apply Rmult_le_compat_r; lra]. replace (- (h * ratio)) with (ratio * - h) by ring. apply Rmult_le_compat_l; lra. }
  pose proof (Zceil_ub (2 * h * ratio)) as U. unfold corner. rewrite N. replace ((IZR (Zceil (2 * h * ratio)) + INR np) / 2 - INR np / 2 + ratio * d) with (IZR (Zceil (2 * h * ratio)) / 2 + ratio * d) by field. split.
  - apply le_IZR. pose proof (Zceil_ub (IZR (Zceil (2 * h * ratio)) / 2 + ratio * d)). lra.
  - assert ((Zceil (IZR (Zceil (2 * h * ratio)) / 2 + ratio * d) <= Zceil (2 * h * ratio))%Z) by (apply Zceil_glb; lra). unfold n. lia.
Qed.

(** C88: on a centred field every segment is within the array, whose size is that of the field
    plus one segment; each pixel of the pupil is the sum of the segments placed there, times
    the transmission of obstruction and spiders. *)
Theorem C88_assembly : forall poly g coords h cobs spi, (0 < g_sides g)%nat -> 0 < g_radius g ->
  crows (g_mat g) = g_np g -> ccols (g_mat g) = g_np g -> centred_field h coords ->
  (forall f n, spi = Some f -> rows (f n) = n /\ cols (f n) = n) -> exists p,
  new_pupil poly g coords cobs spi false = Ok (g, p) /\ coherent p /\
  p_ratio p = INR (g_np g) / (2 * g_radius g) /\
  Z.of_nat (p_n p) = (Zceil (2 * h * p_ratio p) + Z.of_nat (g_np g))%Z /\ p_c p = INR (p_n p) / 2 /\ p_cobs p = cobs /\
  Forall2 (fun s xy => s_posX s = fst xy /\ s_posY s = snd xy /\ s_ex s = 0 /\ s_ey s = 0 /\ s_np s = g_np g /\ s_mat s = g_mat g) (p_segs p) coords /\
  forall i j, cpx (p_mat p) i j = Cmult (RtoC (transmission p i j)) (ctotal (map (fun s => over (p_c p) (p_ratio p) s (cpx (g_mat g)) i j) (p_segs p))).
Proof.
  intros poly g coords h cobs spi HS HR Gr Gc (Hin & (a & Ia & Ea) & (b & Ib & Eb)) Hspi.
  assert (Hh : 0 <= h). { destruct (Hin a Ia) as [A _]. pose proof (Rabs_pos (fst a)). lra. }
  unfold new_pupil, ref_ratio. destruct (Req_EM_T (2 * g_radius g) 0) as [Hz|Hz]; [lra|]. cbn [bind]. set (ratio := INR (g_np g) / (2 * g_radius g)).
  assert (Hr : 0 <= ratio) by (unfold ratio, Rdiv; apply Rmult_le_pos; [apply pos_INR|apply Rlt_le, Rinv_0_lt_compat; lra]).
  rewrite (seg_list_ok poly g coords HS). cbn [bind].
  assert (Cn : coords_list coords <> []). { intros E. assert (In (fst a) (coords_list coords)) by (apply coords_in; exists a; auto). rewrite E in H. destruct H. }
  assert (Bd : forall x, In x (coords_list coords) -> - h <= x <= h). { intros x Hx. apply coords_in in Hx. destruct Hx as (xy & I & [->| ->]); destruct (Hin xy I) as [A B]; apply Raux.Rabs_le_inv; assumption. }
  assert (Hmax : rmax_l (coords_list coords) = Ok h).
  { destruct (rmax_l (coords_list coords)) as [m|e] eqn:E; [|destruct (coords_list coords); [contradiction|discriminate]]. f_equal. destruct (rmax_l_spec _ _ E) as [I B]. destruct (Bd m I). assert (h <= m); [|lra]. apply B. apply coords_in. exists a. split; [exact Ia|]. destruct Ea as [<-|<-]; auto. }
  assert (Hmin : rmin_l (coords_list coords) = Ok (- h)).
  { destruct (rmin_l (coords_list coords)) as [m|e] eqn:E; [|destruct (coords_list coords); [contradiction|discriminate]]. f_equal. destruct (rmin_l_spec _ _ E) as [I B]. destruct (Bd m I). assert (m <= - h); [|lra]. apply B. apply coords_in. exists b. split; [exact Ib|]. destruct Eb as [<-|<-]; auto. }
  rewrite Hmax, Hmin. cbn [bind]. rewrite no_offset. replace ((h - - h + 2 * 0) * ratio) with (2 * h * ratio) by ring.
  set (n := (Z.to_nat (Zceil (2 * h * ratio)) + g_np g)%nat).
  assert (F : forall s, In s (map (fresh poly g) coords) -> fits n (INR n / 2) ratio s).
  { intros s Hs. apply in_map_iff in Hs. destruct Hs as (xy & <- & I). destruct (Hin xy I) as [A B]. unfold fits, top, left. cbn [fresh s_mat s_np s_posX s_posY s_ex s_ey]. rewrite !Rplus_0_r. split; [exact Gr|]. split; [exact Gc|].
    destruct (corner_fits ratio (g_np g) h (snd xy) Hr Hh B) as [T1 T2]. destruct (corner_fits ratio (g_np g) h (fst xy) Hr Hh A) as [L1 L2]. fold n in T1, T2, L1, L2. auto. }
  unfold make_pupil. destruct (assemble_ok n ratio (INR n / 2) (map (fresh poly g) coords) (mkC n n (fun _ _ => RtoC 0)) eq_refl eq_refl F) as (m & -> & Mr & Mc & MV). cbn [bind].
  set (spm := match spi with Some f => Some (f n) | None => None end).
  set (p0 := mkPup n ratio (INR n / 2) cobs spm m (mkImg 0 0 (fun _ _ => 0)) (map (fresh poly g) coords)).
  assert (HS0 : forall s, p_spi p0 = Some s -> rows s = p_n p0 /\ cols s = p_n p0). { intros s. cbn [p0 p_spi p_n]. unfold spm. destruct spi as [f|]; [|discriminate]. intros E. injection E as <-. apply Hspi. reflexivity. }
  destruct (masks_ok p0 m Mr Mc HS0) as (mm & Em & Mr' & Mc' & Vm). cbn [p0 p_n p_cobs p_spi] in Em, Mr', Mc'. rewrite Em. cbn [bind].
  eexists. split; [reflexivity|]. split.
  { split; [exact Mr'|]. split; [exact Mc'|]. split; [exact HS0|]. exact F. }
  cbn [p_ratio p_n p_c p_cobs p_segs p_mat]. split; [reflexivity|]. split.
  { assert (0 <= h * ratio) by (apply Rmult_le_pos; assumption). assert (K0 : (0 <= Zceil (2 * h * ratio))%Z) by (apply (le_IZR 0); pose proof (Zceil_ub (2 * h * ratio)); lra). unfold n. lia. }
  split; [reflexivity|]. split; [reflexivity|]. split.
  { clear. induction coords as [|xy l IH]; constructor; [|exact IH]. cbn. repeat split. }
  intros i j. rewrite Vm. rewrite MV. cbn [cpx]. rewrite Cplus_0_l. f_equal. rewrite !map_map. reflexivity.
Qed.
Print Assumptions C88_assembly.

Lemma ctotal_perm l l' : Permutation l l' -> ctotal l = ctotal l'.
Proof. induction 1; cbn [ctotal]; [reflexivity|rewrite IHPermutation; reflexivity|ring|congruence]. Qed.
Lemma over_pos c ratio s s' f i j : s_posX s = s_posX s' -> s_posY s = s_posY s' -> s_ex s = s_ex s' -> s_ey s = s_ey s' -> s_np s = s_np s' -> over c ratio s f i j = over c ratio s' f i j.
Proof. intros A B D E F. unfold over, inside, top, left. rewrite A, B, D, E, F. reflexivity. Qed.

(** C88: the pupil does not depend on the order of the segments. *)
Theorem C88_order : forall poly g coords coords' h cobs spi, (0 < g_sides g)%nat -> 0 < g_radius g ->
  crows (g_mat g) = g_np g -> ccols (g_mat g) = g_np g -> centred_field h coords -> Permutation coords coords' ->
  (forall f n, spi = Some f -> rows (f n) = n /\ cols (f n) = n) -> exists p p',
  new_pupil poly g coords cobs spi false = Ok (g, p) /\ new_pupil poly g coords' cobs spi false = Ok (g, p') /\ ceq (p_mat p) (p_mat p').
Proof.
  intros poly g coords coords' h cobs spi HS HR Gr Gc Hf HP Hspi.
  assert (Hf' : centred_field h coords').
  { destruct Hf as (A & (a & Ia & Ea) & (b & Ib & Eb)). split; [intros xy I; apply A; apply (Permutation_in xy (Permutation_sym HP)); exact I|]. split; [exists a|exists b]; (split; [eapply Permutation_in; eassumption|assumption]). }
  destruct (C88_assembly poly g coords h cobs spi HS HR Gr Gc Hf Hspi) as (p & E & Co & Ra & N & Ce & Cb & F & V).
  destruct (C88_assembly poly g coords' h cobs spi HS HR Gr Gc Hf' Hspi) as (p' & E' & Co' & Ra' & N' & Ce' & Cb' & F' & V').
  exists p, p'. split; [exact E|]. split; [exact E'|]. assert (RR : p_ratio p = p_ratio p') by congruence. assert (NN : p_n p = p_n p') by (rewrite RR in N; lia). assert (CC : p_c p = p_c p') by (rewrite Ce, Ce', NN; reflexivity).
  destruct Co as (Cr & Cc & _). destruct Co' as (Cr' & Cc' & _). split; [congruence|]. split; [congruence|]. intros i j _ _. rewrite V, V'. f_equal.
  - f_equal. unfold transmission. rewrite NN, Cb, Cb'. f_equal. assert (SP : p_spi p = p_spi p'); [|rewrite SP; reflexivity].
    assert (Q : forall c0 q, new_pupil poly g c0 cobs spi false = Ok (g, q) -> p_spi q = match spi with Some f => Some (f (p_n q)) | None => None end).
    { intros c0 q H. unfold new_pupil in H. apply bindOk in H. destruct H as (x1 & _ & H). apply bindOk in H. destruct H as (x2 & _ & H). apply bindOk in H. destruct H as (x3 & _ & H). apply bindOk in H. destruct H as (x4 & _ & H). cbv zeta in H. apply bindOk in H. destruct H as (x5 & _ & H). cbn [bind] in H. apply bindOk in H. destruct H as (x6 & _ & H). apply Ok_inj in H. injection H as <-. reflexivity. }
    rewrite (Q _ _ E), (Q _ _ E'), NN. reflexivity.
  - rewrite CC, RR.
    assert (M : forall segs l, Forall2 (fun s xy => s_posX s = fst xy /\ s_posY s = snd xy /\ s_ex s = 0 /\ s_ey s = 0 /\ s_np s = g_np g /\ s_mat s = g_mat g) segs l ->
      map (fun s => over (p_c p') (p_ratio p') s (cpx (g_mat g)) i j) segs = map (fun xy => over (p_c p') (p_ratio p') (fresh poly g xy) (cpx (g_mat g)) i j) l).
    { intros segs l H. induction H as [|s xy segs l (A & B & D & G & K & L) H IH]; [reflexivity|]. cbn [map]. rewrite IH. f_equal. apply over_pos; cbn; assumption. }
    rewrite (M _ _ F), (M _ _ F'). apply ctotal_perm. apply Permutation_map. exact HP.
Qed.
Print Assumptions C88_order.

(** flux *)
Lemma csum_window n k (r : Z) (f : nat -> C) : (0 <= r)%Z -> (r + Z.of_nat k <= Z.of_nat n)%Z ->
  csum n (fun i => if ((r <=? Z.of_nat i) && (Z.of_nat i <? r + Z.of_nat k))%Z%bool then f (Z.to_nat (Z.of_nat i - r)) else RtoC 0) = csum k f.
Proof.
  intros H0. induction k as [|k IH]; intros H1.
  - cbn [csum]. apply csum_zero. intros i Hi. destruct (Z.leb_spec r (Z.of_nat i)); destruct (Z.ltb_spec (Z.of_nat i) (r + Z.of_nat 0)); cbn [andb]; try reflexivity. lia.
  - cbn [csum]. assert (K : (Z.to_nat r + k < n)%nat) by lia. rewrite <- IH by lia.
    rewrite (csum_ext n _ (fun i => Cplus (if ((r <=? Z.of_nat i) && (Z.of_nat i <? r + Z.of_nat k))%Z%bool then f (Z.to_nat (Z.of_nat i - r)) else RtoC 0) (if (i =? Z.to_nat r + k)%nat then f k else RtoC 0))).
    + rewrite csum_plus. f_equal. symmetry. rewrite (csum_single n (Z.to_nat r + k) _ K). { rewrite Nat.eqb_refl. reflexivity. } intros i Hi N. destruct (Nat.eqb_spec i (Z.to_nat r + k)); [contradiction|reflexivity].
    + intros i Hi. destruct (Z.leb_spec r (Z.of_nat i)); destruct (Z.ltb_spec (Z.of_nat i) (r + Z.of_nat (S k))); destruct (Z.ltb_spec (Z.of_nat i) (r + Z.of_nat k)); destruct (Nat.eqb_spec i (Z.to_nat r + k)); cbn [andb]; try lia; try ring.
      subst i. replace (Z.to_nat (Z.of_nat (Z.to_nat r + k) - r)) with k by lia. ring.
Qed.
Lemma over_flux n c ratio s f : (0 <= top c ratio s)%Z -> (top c ratio s + Z.of_nat (s_np s) <= Z.of_nat n)%Z -> (0 <= left c ratio s)%Z -> (left c ratio s + Z.of_nat (s_np s) <= Z.of_nat n)%Z ->
  csum n (fun i => csum n (fun j => over c ratio s f i j)) = csum (s_np s) (fun a => csum (s_np s) (fun b => f a b)).
Proof.
  intros T1 T2 L1 L2. rewrite <- (csum_window n (s_np s) (top c ratio s) (fun a => csum (s_np s) (fun b => f a b)) T1 T2). apply csum_ext. intros i _.
  unfold over, inside. destruct ((top c ratio s <=? Z.of_nat i) && (Z.of_nat i <? top c ratio s + Z.of_nat (s_np s)))%Z%bool eqn:E; cbn [andb].
  - rewrite <- (csum_window n (s_np s) (left c ratio s) _ L1 L2). reflexivity.
  - apply csum_zero. reflexivity.
Qed.

(** C88: without obstruction and spiders the sum over the pupil is the number of segments times
    the sum over a segment. *)
Theorem C88_flux : forall poly g coords h, (0 < g_sides g)%nat -> 0 < g_radius g ->
  crows (g_mat g) = g_np g -> ccols (g_mat g) = g_np g -> centred_field h coords -> exists p,
  new_pupil poly g coords 0 None false = Ok (g, p) /\
  csum (p_n p) (fun i => csum (p_n p) (fun j => cpx (p_mat p) i j)) =
  Cmult (RtoC (INR (length coords))) (csum (g_np g) (fun a => csum (g_np g) (fun b => cpx (g_mat g) a b))).
Proof.
  intros poly g coords h HS HR Gr Gc Hf.
  destruct (C88_assembly poly g coords h 0 None HS HR Gr Gc Hf) as (p & E & Co & Ra & N & Ce & Cb & F & V); [discriminate|]. exists p. split; [exact E|].
  assert (SP : p_spi p = None). { unfold new_pupil in E. apply bindOk in E. destruct E as (x1 & _ & H). apply bindOk in H. destruct H as (x2 & _ & H). apply bindOk in H. destruct H as (x3 & _ & H). apply bindOk in H. destruct H as (x4 & _ & H). cbv zeta in H. apply bindOk in H. destruct H as (x5 & _ & H). cbn [bind] in H. apply bindOk in H. destruct H as (x6 & _ & H). apply Ok_inj in H. injection H as <-. reflexivity. }
  rewrite (csum_ext (p_n p) _ (fun i => csum (p_n p) (fun j => ctotal (map (fun s => over (p_c p) (p_ratio p) s (cpx (g_mat g)) i j) (p_segs p))))).
  2:{ intros i _. apply csum_ext. intros j _. rewrite V. unfold transmission. rewrite Cb, SP. destruct (Req_EM_T 0 0); [|contradiction]. rewrite Rmult_1_l. ring. }
  destruct Co as (_ & _ & _ & Fit). clear E V Hf. revert F Fit. generalize (p_segs p). intros segs F. induction F as [|s xy segs l (A & B & D & G & K & L) F IH]; intros Fit.
  - cbn [map ctotal length]. rewrite csum_zero by (intros; apply csum_zero; reflexivity). cbn [INR]. ring.
  - cbn [map ctotal length]. rewrite (csum_ext (p_n p) _ (fun i => Cplus (csum (p_n p) (fun j => over (p_c p) (p_ratio p) s (cpx (g_mat g)) i j)) (csum (p_n p) (fun j => ctotal (map (fun s => over (p_c p) (p_ratio p) s (cpx (g_mat g)) i j) segs))))) by (intros; apply csum_plus).
    rewrite csum_plus. destruct (Fit s (or_introl eq_refl)) as (_ & _ & T1 & T2 & L1 & L2). rewrite (over_flux (p_n p) _ _ s _ T1 T2 L1 L2). rewrite K. rewrite IH by (intros; apply Fit; right; assumption). rewrite S_INR, RtoC_plus. ring.
Qed.
Print Assumptions C88_flux.

(** C88 (finding): the size of the array is computed from the extent of the field, but the
    segments are placed from its origin: a single segment off the centre is refused. *)
Theorem C88_off_centre_refuted : forall poly g d cobs spi fill, (0 < g_sides g)%nat -> 0 < g_radius g ->
  crows (g_mat g) = g_np g -> ccols (g_mat g) = g_np g -> (2 <= g_np g)%nat ->
  (0 < d \/ d * (INR (g_np g) / (2 * g_radius g)) <= -1) ->
  new_pupil poly g [(d, d)] cobs spi fill = Err ValueError.
Proof.
  intros poly g d cobs spi fill HS HR Gr Gc Hn Hd. unfold new_pupil, ref_ratio. destruct (Req_EM_T (2 * g_radius g) 0) as [Hz|Hz]; [lra|]. cbn [bind]. set (ratio := INR (g_np g) / (2 * g_radius g)) in *.
  assert (Hp : 0 < INR (g_np g)) by (apply lt_0_INR; lia).
  assert (Hr : 0 < ratio) by (unfold ratio; apply Rdiv_lt_0_compat; lra).
  rewrite (seg_list_ok poly g _ HS). cbn [bind]. cbn [coords_list flat_map fst snd app rmax_l rmin_l fold_left]. rewrite (Rmax_left d d), (Rmin_left d d) by lra. cbn [bind]. cbv zeta. rewrite no_offset. replace ((d - d + 2 * 0) * ratio) with (IZR 0) by ring. rewrite Zceil_IZR. cbn [Z.to_nat Nat.add bind]. cbv zeta.
  unfold make_pupil. cbn [map assemble]. unfold add_at. rewrite (pos_fit ratio (INR (g_np g) / 2) (fresh poly g (d, d)) Gr Gc).
  set (t := top (INR (g_np g) / 2) ratio (fresh poly g (d, d))). cbn [fresh s_np s_mat r0 r1 c0 c1].
  assert (T : t = Zceil (ratio * d)). { unfold t, top, corner. cbn [fresh s_np s_posY s_ey snd]. f_equal. field. }
  assert (TT : (1 <= t \/ t <= -1)%Z).
  { rewrite T. destruct Hd as [Hd|Hd].
    - left. assert (0 < ratio * d) by (apply Rmult_lt_0_compat; assumption). assert (0 < Zceil (ratio * d))%Z; [|lia]. apply lt_IZR. pose proof (Zceil_ub (ratio * d)). lra.
    - right. apply Zceil_glb. rewrite Rmult_comm. exact Hd. }
  unfold cadd_slice at 1. cbv zeta. cbn [crows ccols].
  assert (NE : (Z.to_nat (slice_len (Z.of_nat (g_np g)) t (t + Z.of_nat (g_np g))) <> g_np g)%nat).
  { unfold slice_len, slice_bound. destruct (Z.ltb_spec t 0); destruct (Z.ltb_spec (t + Z.of_nat (g_np g)) 0); lia. }
  rewrite Gr, Gc. destruct (Nat.eqb_spec (g_np g) (Z.to_nat (slice_len (Z.of_nat (g_np g)) t (t + Z.of_nat (g_np g))))); [congruence|]. destruct (Nat.eqb_spec (g_np g) 1); [lia|]. reflexivity.
Qed.
Print Assumptions C88_off_centre_refuted.

(** non-vacuity: three segments in a row *)
Example C88_field : centred_field 1 [(-1, 0); (0, 0); (1, 0)].
Proof.
  split; [|split; [exists (1, 0)|exists (-1, 0)]; cbn; auto].
  intros xy [<-|[<-|[<-|[]]]]; cbn; split; apply Rabs_le; lra.
Qed.
Example C88_ex : exists p, new_pupil (fun _ _ _ _ => true) (mkRef 6 1 4 (mkC 4 4 (fun _ _ => RtoC 1))) [(-1, 0); (0, 0); (1, 0)] 0 None false = Ok (mkRef 6 1 4 (mkC 4 4 (fun _ _ => RtoC 1)), p) /\
  csum (p_n p) (fun i => csum (p_n p) (fun j => cpx (p_mat p) i j)) = RtoC 48.
Proof.
  destruct (C88_flux (fun _ _ _ _ => true) (mkRef 6 1 4 (mkC 4 4 (fun _ _ => RtoC 1))) [(-1, 0); (0, 0); (1, 0)] 1) as (p & E & F); try reflexivity; try (cbn; lia); try (cbn; lra); [exact C88_field|].
  exists p. split; [exact E|]. rewrite F. cbn [g_np g_mat cpx csum length INR]. unfold Cmult, Cplus, RtoC. cbn. f_equal; lra.
Qed.

Print Assumptions C88_circle_refuted.
