(** C92: construction of the pupil with the gaps between segments filled. *)
From Coq Require Import Reals List Arith ZArith Lia Lra Psatz Permutation.
From Coq Require Import ZifyBool ZifyNat.
From Flocq Require Import Core.Raux Core.Generic_fmt Core.Round_NE.
From Verif Require Import Base_Py Base_Sum Base_DFT M_Image M_Fourier M_Tools M_Freq L_Tools2 M_Pupil S_Pupil L_Pupil P_Pupil P_Pupil2 P_Pupil3 P_Pupil4 M_Tools.
From Coquelicot Require Import Complex.
Import ListNotations.
Open Scope R_scope.

(** half of the rows, rounded to nearest, ties to even *)
Definition half_rows (m : carr) : nat := Z.to_nat (ZnearestE (INR (crows m) / 2)).
(** filling only adds to the upper half *)
Lemma fill_shape g t g' : fill_gap g t = Ok g' -> crows g' = crows g /\ ccols g' = ccols g /\
  exists inf, first_row g = Some inf /\ (forall i j, (inf <= i < half_rows g)%nat -> cpx g' i j = Cplus (cpx g i j) (gap_of (cpx t i j))) /\
  (forall i j, (inf <= i)%nat -> (half_rows g <= i)%nat -> cpx g' i j = cpx g i j).
Proof.
  unfold fill_gap. destruct (first_row g) as [inf|] eqn:F; [|discriminate]. cbv zeta. destruct (negb _); [discriminate|]. destruct (nz_cols _ inf) as [|y ys]; [discriminate|]. intros H. apply Ok_inj in H. subst g'. cbn [crows ccols cpx]. split; [reflexivity|]. split; [reflexivity|]. exists inf. split; [reflexivity|]. split.
  - intros i j Hi. fold (half_rows g). replace (i <? inf)%nat with false by lia. cbn [andb]. replace (_ && _)%bool with true by lia. reflexivity.
  - intros i j H1 H2. fold (half_rows g). replace (i <? inf)%nat with false by lia. cbn [andb]. replace (_ && _)%bool with false by lia. reflexivity.
Qed.
Lemma first_row_zero g inf : first_row g = Some inf -> (inf < crows g)%nat /\ (exists j, (j < ccols g)%nat /\ cpx g inf j <> RtoC 0) /\ forall i j, (i < inf)%nat -> (j < ccols g)%nat -> cpx g i j = RtoC 0.
Proof.
  unfold first_row. intros H. assert (Q := find_some _ _ H). destruct Q as [I E]. apply in_seq in I. apply existsb_seq in E. destruct E as (j & Hj & E). split; [lia|]. split.
  - exists j. split; [exact Hj|]. unfold cnz in E. destruct (Ceq_dec (cpx g inf j) (RtoC 0)); [discriminate|assumption].
  - intros i j' Hi Hj'. assert (G : forall n b, find (fun i => existsb (fun j => cnz (cpx g i j)) (seq 0 (ccols g))) (seq b n) = Some inf -> forall i, (b <= i < inf)%nat -> existsb (fun j => cnz (cpx g i j)) (seq 0 (ccols g)) = false).
    { clear. induction n as [|n IH]; intros b F i Hi; [discriminate|]. cbn [seq find] in F. destruct (existsb (fun j => cnz (cpx g b j)) (seq 0 (ccols g))) eqn:X; [injection F as ->; lia|]. destruct (Nat.eq_dec i b) as [->|]; [exact X|]. apply (IH (S b) F). lia. }
    specialize (G (crows g) 0%nat H i ltac:(lia)). destruct (Ceq_dec (cpx g i j') (RtoC 0)) as [Z|Z]; [exact Z|exfalso]. assert (existsb (fun j => cnz (cpx g i j)) (seq 0 (ccols g)) = true); [|congruence]. apply existsb_seq. exists j'. split; [exact Hj'|]. unfold cnz. destruct (Ceq_dec (cpx g i j') (RtoC 0)); [contradiction|reflexivity].
Qed.

(** C92: with the gaps filled the pupil is still the sum of its segments, all of which use the
    modified matrix of the reference segment; the lit pixels of its lower half are unchanged. *)
Theorem C92_filled : forall poly g coords h cobs spi g' p, (0 < g_sides g)%nat -> 0 < g_radius g ->
  crows (g_mat g) = g_np g -> ccols (g_mat g) = g_np g -> centred_field h coords ->
  (forall f n, spi = Some f -> rows (f n) = n /\ cols (f n) = n) ->
  new_pupil poly g coords cobs spi true = Ok (g', p) ->
  coherent p /\ (forall s, In s (p_segs p) -> s_mat s = g_mat g') /\ length (p_segs p) = length coords /\
  g_sides g' = g_sides g /\ g_radius g' = g_radius g /\ g_np g' = g_np g /\
  (forall i j, (half_rows (g_mat g) <= i)%nat -> cpx (g_mat g) i j <> RtoC 0 -> (j < g_np g)%nat -> (i < g_np g)%nat -> cpx (g_mat g') i j = cpx (g_mat g) i j) /\
  forall i j, cpx (p_mat p) i j = Cmult (RtoC (transmission p i j)) (ctotal (map (fun s => over (p_c p) (p_ratio p) s (cpx (g_mat g')) i j) (p_segs p))).
Proof.
  intros poly g coords h cobs spi g' p HS HR Gr Gc Hf Hspi E. pose proof Hf as (Hin & (a & Ia & Ea) & (b & Ib & Eb)).
  assert (Hh : 0 <= h). { destruct (Hin a Ia) as [A _]. pose proof (Rabs_pos (fst a)). lra. }
  unfold new_pupil in E. apply bindOk in E. destruct E as (ratio & Er & E). apply bindOk in E. destruct E as (segs & Es & E). rewrite (seg_list_ok poly g coords HS) in Es. apply Ok_inj in Es. subst segs.
  apply bindOk in E. destruct E as (mx & Emx & E). apply bindOk in E. destruct E as (mn & Emn & E). cbv zeta in E. rewrite no_offset in E.
  unfold ref_ratio in Er. destruct (Req_EM_T (2 * g_radius g) 0) as [Hz|Hz]; [lra|]. apply Ok_inj in Er.
  assert (Hr : 0 <= ratio) by (rewrite <- Er; unfold Rdiv; apply Rmult_le_pos; [apply pos_INR|apply Rlt_le, Rinv_0_lt_compat; lra]).
  assert (Bd : forall x, In x (coords_list coords) -> - h <= x <= h). { intros x Hx. apply coords_in in Hx. destruct Hx as (xy & I & [->| ->]); destruct (Hin xy I) as [A B]; apply Raux.Rabs_le_inv; assumption. }
  assert (Hmax : mx = h). { destruct (rmax_l_spec _ _ Emx) as [I B]. destruct (Bd mx I). assert (h <= mx); [|lra]. apply B. apply coords_in. exists a. split; [exact Ia|]. destruct Ea as [<-|<-]; auto. }
  assert (Hmin : mn = - h). { destruct (rmin_l_spec _ _ Emn) as [I B]. destruct (Bd mn I). assert (mn <= - h); [|lra]. apply B. apply coords_in. exists b. split; [exact Ib|]. destruct Eb as [<-|<-]; auto. }
  subst mx mn. replace ((h - - h + 2 * 0) * ratio) with (2 * h * ratio) in E by ring. set (n := (Z.to_nat (Zceil (2 * h * ratio)) + g_np g)%nat) in *.
  assert (F : forall g0, crows (g_mat g0) = g_np g -> ccols (g_mat g0) = g_np g -> g_np g0 = g_np g -> forall s, In s (map (fresh poly g0) coords) -> fits n (INR n / 2) ratio s).
  { intros g0 G1 G2 G3 s Hs. apply in_map_iff in Hs. destruct Hs as (xy & <- & I). destruct (Hin xy I) as [A B]. unfold fits, top, left. cbn [fresh s_mat s_np s_posX s_posY s_ex s_ey]. rewrite !Rplus_0_r, G3. split; [exact G1|]. split; [exact G2|].
    destruct (corner_fits ratio (g_np g) h (snd xy) Hr Hh B) as [T1 T2]. destruct (corner_fits ratio (g_np g) h (fst xy) Hr Hh A) as [L1 L2]. fold n in T1, T2, L1, L2. auto. }
  apply bindOk in E. destruct E as (m & Em & E). apply bindOk in E. destruct E as ([[g1 segs1] m1] & E1 & E). apply bindOk in E. destruct E as (mm & Emm & E). apply Ok_inj in E. injection E as <- <-.
  apply bindOk in E1. destruct E1 as (k & Ek & E1). destruct (nth_error (map (fresh poly g) coords) k) as [s|]; [|discriminate]. cbv zeta in E1. apply bindOk in E1. destruct E1 as (gm & Egm & E1). apply bindOk in E1. destruct E1 as (segs' & Es' & E1). apply bindOk in E1. destruct E1 as (m' & Em' & E1). apply Ok_inj in E1. injection E1 as <- <- <-.
  destruct (fill_shape _ _ _ Egm) as (R1 & C1 & inf & Hi & P1 & P2). destruct (first_row_zero _ _ Hi) as (I1 & _ & I2).
  set (g1 := mkRef (g_sides g) (g_radius g) (g_np g) gm) in *. rewrite (seg_list_ok poly g1 coords) in Es' by exact HS. apply Ok_inj in Es'. subst segs'.
  assert (F1 := F g1 ltac:(cbn; congruence) ltac:(cbn; congruence) eq_refl).
  unfold make_pupil in Em'. destruct (assemble_ok n ratio (INR n / 2) (map (fresh poly g1) coords) (mkC n n (fun _ _ => RtoC 0)) eq_refl eq_refl F1) as (m2 & Q & Mr & Mc & MV). rewrite Em' in Q. apply Ok_inj in Q. subst m2.
  set (spm := match spi with Some f => Some (f n) | None => None end) in *.
  set (p0 := mkPup n ratio (INR n / 2) cobs spm m' (mkImg 0 0 (fun _ _ => 0)) (map (fresh poly g1) coords)).
  assert (HS0 : forall s, p_spi p0 = Some s -> rows s = p_n p0 /\ cols s = p_n p0). { intros s0. cbn [p0 p_spi p_n]. unfold spm. destruct spi as [f|]; [|discriminate]. intros Q. injection Q as <-. apply Hspi. reflexivity. }
  destruct (masks_ok p0 m' Mr Mc HS0) as (mm' & Em0 & Mr' & Mc' & Vm). cbn [p0 p_n p_cobs p_spi] in Em0, Mr', Mc'. rewrite Emm in Em0. apply Ok_inj in Em0. subst mm'.
  split; [split; [exact Mr'|]; split; [exact Mc'|]; split; [exact HS0|exact F1]|]. cbn [p_segs g1 g_sides g_radius g_np g_mat p_mat p_c p_ratio]. split.
  { intros s0 Is. apply in_map_iff in Is. destruct Is as (xy & <- & _). reflexivity. }
  split; [apply map_length|]. repeat (split; [reflexivity|]). split.
  { intros i j H1 N Hj Hi'. apply P2; [|exact H1]. destruct (le_lt_dec inf i) as [L|L]; [exact L|]. exfalso. apply N. apply I2; [exact L|lia]. }
  intros i j. rewrite Vm, MV. cbn [cpx]. rewrite Cplus_0_l. f_equal. rewrite !map_map. reflexivity.
Qed.
Print Assumptions C92_filled.

(** C92 (finding): a pupil of one segment has no gap, but filling is the default and turns every
    row between the top of the segment and its middle into a full row, in the pupil and in the
    caller's reference segment. *)
Theorem C92_single_refuted : forall poly g inf, (0 < g_sides g)%nat -> 0 < g_radius g ->
  crows (g_mat g) = g_np g -> ccols (g_mat g) = g_np g ->
  (forall i j, cpx (g_mat g) i j = RtoC 0 \/ cpx (g_mat g) i j = RtoC 1) ->
  first_row (g_mat g) = Some inf -> (inf < half_rows (g_mat g))%nat -> exists g' p,
  new_pupil poly g [(0, 0)] 0 None true = Ok (g', p) /\ p_n p = g_np g /\
  forall i j, (inf <= i < half_rows (g_mat g))%nat -> (i < g_np g)%nat -> (j < g_np g)%nat -> cpx (g_mat g') i j = RtoC 1 /\ cpx (p_mat p) i j = RtoC 1.
Proof.
  intros poly g inf HS HR Gr Gc H01 Hi Hh. destruct (first_row_zero _ _ Hi) as (I1 & (j1 & Hj1 & N1) & _). set (np := g_np g) in *.
  assert (Hf : centred_field 0 [(0, 0)]). { split; [intros xy [<-|[]]; cbn; rewrite Rabs_R0; lra|]. split; exists (0, 0); (split; [left; reflexivity|left; cbn; lra]). }
  assert (EX : exists g' p, new_pupil poly g [(0, 0)] 0 None true = Ok (g', p) /\ p_n p = np /\ g_np g' = np /\ p_ratio p = INR np / (2 * g_radius g) /\ p_c p = INR np / 2 /\ p_cobs p = 0 /\ p_spi p = None /\ p_segs p = [fresh poly g' (0, 0)] /\
            exists t, fill_gap (g_mat g) t = Ok (g_mat g') /\ forall i j, (i < np)%nat -> (j < np)%nat -> cpx t i j = cpx (g_mat g) i j).
  { unfold new_pupil, ref_ratio. destruct (Req_EM_T (2 * g_radius g) 0) as [Hz|Hz]; [lra|]. cbn [bind]. set (ratio := INR (g_np g) / (2 * g_radius g)). rewrite (seg_list_ok poly g _ HS). cbn [bind map coords_list flat_map app rmax_l rmin_l fold_left fst snd].
    cbv zeta. cbn [fresh s_ex s_ey]. rewrite !Rmax_left, !Rmin_left by lra. replace ((0 - 0 + 2 * 0) * ratio) with 0 by ring. replace (Zceil 0) with 0%Z by (symmetry; apply (Zceil_IZR 0)). change (Z.to_nat 0) with 0%nat. rewrite Nat.add_0_l. fold np.
    assert (FT : forall g0, top (INR np / 2) ratio (fresh poly g0 (0, 0)) = corner (INR np / 2) ratio (g_np g0) 0 /\ left (INR np / 2) ratio (fresh poly g0 (0, 0)) = corner (INR np / 2) ratio (g_np g0) 0) by (intros g0; unfold top, left; cbn [fresh s_posX s_posY s_ex s_ey s_np fst snd]; rewrite Rplus_0_r; split; reflexivity).
    assert (C0 : corner (INR np / 2) ratio np 0 = 0%Z). { unfold corner. replace (INR np / 2 - INR np / 2 + ratio * 0) with 0 by ring. apply (Zceil_IZR 0). }
    assert (F : forall g0, crows (g_mat g0) = np -> ccols (g_mat g0) = np -> g_np g0 = np -> forall s, In s [fresh poly g0 (0, 0)] -> fits np (INR np / 2) ratio s).
    { intros g0 A B C s [<-|[]]. unfold fits. destruct (FT g0) as [-> ->]. cbn [fresh s_mat s_np]. rewrite C, C0. split; [exact A|]. split; [exact B|]. lia. }
    unfold make_pupil. destruct (assemble_ok np ratio (INR np / 2) [fresh poly g (0, 0)] (mkC np np (fun _ _ => RtoC 0)) eq_refl eq_refl (F g Gr Gc eq_refl)) as (m & Em & Mr & Mc & MV). change (mkSeg (g_mat g) (seg_shape poly (g_sides g) 0 1 np) 0 0 0 0 1 0 np) with (fresh poly g (0, 0)). rewrite Em. cbn [bind].
    assert (OV : forall g0 f i j, g_np g0 = np -> (i < np)%nat -> (j < np)%nat -> over (INR np / 2) ratio (fresh poly g0 (0, 0)) f i j = f i j).
    { intros g0 f i j G0 Hi' Hj'. unfold over, inside. destruct (FT g0) as [-> ->]. cbn [fresh s_np]. rewrite G0, C0. replace (_ && _)%bool with true by lia. f_equal; lia. }
    assert (PS : pos_seg ratio (INR np / 2) (fresh poly g (0, 0)) = mkPos 0 (Z.of_nat np) 0 (Z.of_nat np)).
    { rewrite pos_fit by (cbn; assumption). destruct (FT g) as [-> ->]. cbn [fresh s_np]. fold np. rewrite C0. reflexivity. }
    cbn [find_best]. rewrite PS. cbn [r0 r1 c0 c1]. set (t := cslice m 0 (Z.of_nat np) 0 (Z.of_nat np)).
    assert (T1 : crows t = np /\ ccols t = np). { unfold t, cslice. cbv zeta. cbn [crows ccols]. rewrite Mr, Mc, !slice_len_in by lia. lia. } destruct T1 as [T1 T2].
    assert (T3 : forall i j, (i < np)%nat -> (j < np)%nat -> cpx t i j = cpx (g_mat g) i j).
    { intros i j Hi' Hj'. unfold t, cslice. cbv zeta. cbn [cpx]. rewrite Mr, Mc, !slice_bound_in by lia. cbn [Z.to_nat Nat.add]. rewrite MV. cbn [cpx map ctotal]. rewrite (OV g) by (try reflexivity; assumption). cbn [fresh s_mat]. ring. }
    assert (SU : exists f, surrounded t = Ok f). { unfold surrounded. cbv zeta. rewrite T1, T2. replace ((np =? 0) || (np =? 0))%nat%bool with false by lia. eauto. }
    destruct SU as (fl & ->). cbn [bind]. assert (KK : (if fl then Ok 0%nat else Ok 0%nat) = Ok 0%nat) by (destruct fl; reflexivity). rewrite KK. cbn [bind nth_error]. rewrite PS. cbn [r0 r1 c0 c1]. fold t.
    assert (FG : exists gm, fill_gap (g_mat g) t = Ok gm).
    { unfold fill_gap. rewrite Hi. cbv zeta. rewrite T1, T2, Gr, Gc, !Nat.eqb_refl. cbn [andb negb]. match goal with |- context [nz_cols ?a ?b] => destruct (nz_cols a b) as [|y ys] eqn:NZ end; [exfalso|eauto].
      assert (In j1 []); [|assumption]. rewrite <- NZ. unfold nz_cols. cbn [ccols cpx]. apply filter_In. split; [apply in_seq; lia|]. rewrite <- Gr at 1. fold (half_rows (g_mat g)). replace ((inf <=? inf) && (inf <? half_rows (g_mat g)))%nat%bool with true by lia.
      rewrite T3 by lia. destruct (H01 inf j1) as [Z|Z]; [contradiction|]. rewrite Z. unfold cnz. destruct (Ceq_dec _ _) as [Q|Q]; [exfalso|reflexivity]. unfold gap_of in Q. destruct (Ceq_dec (RtoC 1) (RtoC 0)) as [Q'|_]; [apply RtoC_inj in Q'; lra|]. destruct (cge (RtoC 1) (RtoC 0)).
      - rewrite Cplus_0_r in Q. apply RtoC_inj in Q. lra.
      - rewrite <- RtoC_plus in Q. apply RtoC_inj in Q. lra. }
    destruct FG as (gm & FG). rewrite FG. cbn [bind]. set (g1 := mkRef (g_sides g) (g_radius g) np gm). rewrite (seg_list_ok poly g1) by exact HS. cbn [bind map].
    destruct (fill_shape _ _ _ FG) as (R1 & C1 & _).
    destruct (assemble_ok np ratio (INR np / 2) [fresh poly g1 (0, 0)] (mkC np np (fun _ _ => RtoC 0)) eq_refl eq_refl (F g1 ltac:(cbn; congruence) ltac:(cbn; congruence) eq_refl)) as (m' & Em' & _). rewrite Em'. cbn [bind].
    unfold masks, make_cobs, make_spiders. destruct (Req_EM_T 0 0); [|lra]. cbn [bind]. eexists g1, _. split; [reflexivity|]. cbn [p_n p_ratio p_c p_cobs p_spi p_segs]. repeat (split; [reflexivity|]). exists t. split; [exact FG|exact T3]. }
  destruct EX as (g' & p & E & En & Gn & Er & Ec & Eco & Esp & Esg & t & FG & T). exists g', p. split; [exact E|]. split; [exact En|]. intros i j Hi1 Hi2 Hj.
  destruct (C92_filled poly g [(0, 0)] 0 0 None g' p HS HR Gr Gc Hf ltac:(discriminate) E) as (Co & Sm & _ & _ & _ & _ & _ & V).
  destruct (fill_shape _ _ _ FG) as (R1 & C1 & inf' & Hi' & P1 & _). rewrite Hi in Hi'. injection Hi' as <-.
  assert (G1 : cpx (g_mat g') i j = RtoC 1).
  { rewrite P1 by exact Hi1. rewrite T by assumption. unfold gap_of. destruct (H01 i j) as [-> | ->].
    - destruct (Ceq_dec (RtoC 0) (RtoC 0)); [ring|contradiction].
    - destruct (Ceq_dec (RtoC 1) (RtoC 0)) as [Q'|_]; [apply RtoC_inj in Q'; lra|]. assert (CG : cge (RtoC 1) (RtoC 0) = true); [|rewrite CG; ring]. unfold cge. cbn. destruct (Rlt_dec 0 1); [|lra]. reflexivity. }
  split; [exact G1|]. rewrite V, Esg. cbn [map ctotal]. unfold transmission. rewrite Eco, Esp. destruct (Req_EM_T 0 0) as [_|Q]; [|contradiction Q; reflexivity].
  assert (OV : over (p_c p) (p_ratio p) (fresh poly g' (0, 0)) (cpx (g_mat g')) i j = cpx (g_mat g') i j).
  { unfold over, inside, top, left, corner. cbn [fresh s_posX s_posY s_ex s_ey s_np fst snd]. rewrite Gn, Ec. replace (INR np / 2 - INR np / 2 + p_ratio p * (0 + 0)) with 0 by ring. rewrite (Zceil_IZR 0). replace (_ && _)%bool with true by lia. f_equal; lia. }
  rewrite OV, G1, Rmult_1_r, Cplus_0_r. ring.
Qed.
Print Assumptions C92_single_refuted.

(** non-vacuity: a diamond-like segment of 4 pixels whose corner is dark: it gets filled *)
Example C92_ex : let m := mkC 4 4 (fun i j => if ((i =? 0) && (j =? 0))%nat%bool then RtoC 0 else RtoC 1) in
  first_row m = Some 0%nat /\ (0 < half_rows m)%nat /\ forall i j, cpx m i j = RtoC 0 \/ cpx m i j = RtoC 1.
Proof.
  cbv zeta. split; [|split].
  - unfold first_row. cbn [crows ccols seq find existsb cpx Nat.eqb andb]. unfold cnz. destruct (Ceq_dec (RtoC 0) (RtoC 0)); [|contradiction]. destruct (Ceq_dec (RtoC 1) (RtoC 0)) as [Q|_]; [apply RtoC_inj in Q; lra|]. reflexivity.
  - unfold half_rows. cbn [crows]. replace (INR 4 / 2) with (IZR 2) by (cbn; lra). rewrite (Znearest_imp (fun z => negb (Z.even z)) (IZR 2) 2); [cbn; lia|]. rewrite Rminus_diag_eq by reflexivity. rewrite Rabs_R0. lra.
  - intros i j. cbn [cpx]. destruct (_ && _)%bool; auto.
Qed.
