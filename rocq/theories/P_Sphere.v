(** Properties C114 (screening of SPHERE data and sensor tables) and C116 (sorting of telemetry files, recentring of frames). *)
From Coq Require Import Reals List Arith ZArith Bool String Ascii Lia Lra.
From Verif Require L_Model.
From Verif Require Import Base_Py Base_Sum M_Image L_Image2 M_Tools L_Tools L_Tools2 M_Atmo M_Gen P_Diag5 M_Sphere.
Import ListNotations.
Open Scope R_scope.

(** ** C114 *)
(** Strehl ratios of a header, when there are any, lie between 0 and 1. *)
Definition strehl_ok (d : dataset) : Prop :=
  match ds_sr d with None => True | Some (m, lo, hi) => 0 <= m /\ 0 <= lo /\ hi <= 1 end.

Lemma screen_false d b : strehl_ok d -> is_corrupted d = Ok b -> b = false.
Proof.
  unfold strehl_ok, is_corrupted, read_strehl_value. intros HS H.
  destruct (ds_sr d) as [[[m lo] hi]|].
  - destruct (getFlux (ds_im d)) as [F|]; cbn [bind] in H; [|discriminate]. destruct ((rows (ds_im d) <=? 32)%nat || (cols (ds_im d) <=? 32)%nat); [discriminate|].
    destruct (img_max (ds_im d)) as [mx|]; cbn [bind] in H; [|discriminate]. destruct (rdiv F _) as [q|]; cbn [bind] in H; [|discriminate]. apply Ok_inj in H. subst b.
    unfold chain. destruct (Rlt_dec (2 + m) (35 / 100 + (hi - lo))) as [L|L]; [lra|]. rewrite !andb_false_r. reflexivity.
  - destruct (getFlux (ds_im d)) as [F|]; cbn [bind] in H; [|discriminate]. destruct ((rows (ds_im d) <=? 32)%nat || (cols (ds_im d) <=? 32)%nat); [discriminate|].
    destruct (img_max (ds_im d)) as [mx|]; cbn [bind] in H; [|discriminate]. destruct (rdiv F _) as [q|]; cbn [bind] in H; [|discriminate]. apply Ok_inj in H. subst b.
    unfold chain. destruct (Rlt_dec (2 + -1) (35 / 100 + (-1 - -1))) as [L|L]; [lra|]. rewrite !andb_false_r. reflexivity.
Qed.

Lemma mapM_ok_nth {A B} (f : A -> result B) l r : mapM f l = Ok r -> List.length r = List.length l /\ forall k a b, nth_error l k = Some a -> nth_error r k = Some b -> f a = Ok b.
Proof.
  revert r. induction l as [|x l IH]; intros r H; cbn [mapM] in H.
  - apply Ok_inj in H. subst. split; [reflexivity|]. intros [|k] a b; discriminate.
  - destruct (f x) as [y|] eqn:E; cbn [bind] in H; [|discriminate]. destruct (mapM f l) as [t|]; cbn [bind] in H; [|discriminate]. apply Ok_inj in H. subst r.
    destruct (IH t eq_refl) as [L N]. split; [cbn; lia|]. intros [|k] a b Ha Hb; cbn in Ha, Hb; [congruence|eauto].
Qed.

(** The English claim (line 36, "move the data with corrupted PSF; corruption is tracked by bad centering of the PSF") is
    false: whatever the images, only the folders without a SPARTA file are moved. *)
Theorem C114_screening_refuted : forall l moved, (forall d, In d l -> strehl_ok d) -> remove_corrupted_data l = Ok moved ->
  forall k, In k moved <-> exists d, nth_error l k = Some d /\ ds_sparta d = false.
Proof.
  intros l moved HS H k. unfold remove_corrupted_data in H. destruct (mapM screened l) as [b|] eqn:E; cbn [bind] in H; [|discriminate]. apply Ok_inj in H. subst moved.
  destruct (mapM_ok_nth _ _ _ E) as [L N]. rewrite filter_In, in_seq. split.
  - intros [Hk Hb]. destruct (nth_error l k) as [d|] eqn:Ed; [|apply nth_error_None in Ed; lia]. exists d. split; [reflexivity|].
    assert (Eb : nth_error b k = Some true). { rewrite (nth_error_nth' b false) by lia. now rewrite Hb. }
    specialize (N k d true Ed Eb). unfold screened in N. destruct (ds_sparta d); [|reflexivity]. apply screen_false in N; [discriminate|]. apply HS. eapply nth_error_In, Ed.
  - intros (d & Ed & Es). assert (Hk : (k < List.length l)%nat) by (apply nth_error_Some; congruence). split; [lia|].
    destruct (nth_error b k) as [v|] eqn:Eb; [|apply nth_error_None in Eb; lia]. specialize (N k d v Ed Eb). unfold screened in N. rewrite Es in N. apply Ok_inj in N. subst v.
    rewrite (nth_error_nth b k false Eb). reflexivity.
Qed.
(** The screening answers for square frames of at least 33 pixels with some noise outside the inscribed circle. *)
Theorem C114_answers : forall l, (forall d, In d l -> ds_sparta d = true -> rows (ds_im d) = cols (ds_im d) /\ (33 <= rows (ds_im d))%nat /\ getRon (ds_im d) <> 0) ->
  exists moved, remove_corrupted_data l = Ok moved.
Proof.
  intros l H. unfold remove_corrupted_data. assert (E : exists b, mapM screened l = Ok b).
  { induction l as [|d l IH]; [eexists; reflexivity|]. cbn [mapM]. destruct IH as [t Et]; [intros; apply H; [now right|assumption]|]. rewrite Et.
    assert (E : exists v, screened d = Ok v).
    { unfold screened. destruct (ds_sparta d) eqn:Es; [|eexists; reflexivity]. destruct (H d (or_introl eq_refl) Es) as (H1 & H2 & H3). unfold is_corrupted.
      destruct (read_strehl_value (ds_sr d)) as [[a lo] hi]. unfold getFlux. rewrite <- H1, Nat.eqb_refl. cbn [negb].
      set (nz := mkImg _ _ _). assert (LP : (0 < List.length (pixels nz))%nat) by (rewrite pixels_length; unfold nz; cbn [rows cols]; nia).
      destruct (median_def (pixels nz)) as [bg Em]; [destruct (pixels nz); [cbn in LP; lia|discriminate]|]. rewrite Em.
      cbn [bind]. assert (E1 : (rows (ds_im d) <=? 32)%nat = false) by (apply Nat.leb_gt; lia). rewrite E1. cbn [orb].
      assert (LM : (0 < List.length (pixels (ds_im d)))%nat) by (rewrite pixels_length; nia).
      unfold img_max, list_max. destruct (pixels (ds_im d)) as [|p r] eqn:Ep; [cbn in LM; lia|]. cbn [bind].
      unfold rdiv. destruct (Req_EM_T (getRon (ds_im d)) 0) as [|_]; [contradiction|]. eexists. reflexivity. }
    destruct E as [v Ev]. rewrite Ev. cbn [bind]. eexists. reflexivity. }
  destruct E as [b Eb]. rewrite Eb. cbn [bind]. eexists. reflexivity.
Qed.

Lemma ron_pos a i j i' j' (n := rows a) (msk := fun i j => if Rlt_dec 1 (lin11 n j * lin11 n j + lin11 n i * lin11 n i) then px a i j else 0) :
  (i < n)%nat -> (j < n)%nat -> (i' < n)%nat -> (j' < n)%nat -> msk i j <> msk i' j' -> getRon a <> 0.
Proof.
  intros Hi Hj Hi' Hj' Hd. unfold getRon. fold n. cbv zeta. change (fun i0 j0 => if Rlt_dec 1 (lin11 n j0 * lin11 n j0 + lin11 n i0 * lin11 n i0) then px a i0 j0 else 0) with msk.
  set (P := pixels (mkImg n n msk)). set (m := lsum P / INR (List.length P)).
  assert (I1 : In (msk i j) P) by (apply pixels_in; exists i, j; cbn; auto). assert (I2 : In (msk i' j') P) by (apply pixels_in; exists i', j'; cbn; auto).
  assert (LP : 0 < INR (List.length P)) by (apply lt_0_INR; unfold P; rewrite pixels_length; cbn; nia).
  assert (POS : forall l v, In v l -> (v - m) * (v - m) <= lsum (map (fun v => (v - m) * (v - m)) l)).
  { assert (NN : forall l, 0 <= lsum (map (fun v => (v - m) * (v - m)) l)) by (intros l; apply L_Model.lsum_nonneg; intros x Hx; apply in_map_iff in Hx; destruct Hx as (v & <- & _); apply Rle_0_sqr).
    induction l as [|u l IH]; intros v Hv; [destruct Hv|]. cbn [map]. unfold lsum in *. cbn [fold_right]. destruct Hv as [ ->|Hv]; [specialize (NN l); lra|]. specialize (IH v Hv). pose proof (Rle_0_sqr (u - m)) as U. unfold Rsqr in U. lra. }
  intros Z. apply sqrt_eq_0 in Z.
  - assert (S0 : lsum (map (fun v => (v - m) * (v - m)) P) = 0) by (apply Rmult_integral in Z; destruct Z as [Z|Z]; [exact Z|exfalso; apply (Rinv_neq_0_compat _ (Rgt_not_eq _ _ LP)); exact Z]).
    pose proof (POS P _ I1) as A1. pose proof (POS P _ I2) as A2. rewrite S0 in A1, A2. apply Hd. pose proof (Rle_0_sqr (msk i j - m)) as U1. pose proof (Rle_0_sqr (msk i' j' - m)) as U2. unfold Rsqr in U1, U2. assert (Z1 : Rsqr (msk i j - m) = 0) by (unfold Rsqr; lra). assert (Z2 : Rsqr (msk i' j' - m) = 0) by (unfold Rsqr; lra). apply Rsqr_0_uniq in Z1, Z2. lra.
  - apply Rmult_le_pos; [|left; apply Rinv_0_lt_compat; exact LP]. apply L_Model.lsum_nonneg. intros x Hx. apply in_map_iff in Hx. destruct Hx as (v & <- & _). apply Rle_0_sqr.
Qed.
(** A frame whose star is in a corner instead of pixel (32,32) is kept, a folder without SPARTA file is moved. *)
Definition corner : img := mkImg 64 64 (fun i j => if ((i =? 0) && (j =? 0))%nat then 1 else 0).
Example ex_screening : remove_corrupted_data [mkData true corner (Some (9/10, 8/10, 95/100)) 1; mkData false corner None 1] = Ok [1%nat].
Proof.
  set (l := [_; _]). assert (HS : forall d, In d l -> strehl_ok d) by (intros d [<-|[<-|[]]]; unfold strehl_ok; cbn; lra).
  destruct (C114_answers l) as [moved E].
  - intros d [<-|[<-|[]]]; cbn [ds_sparta ds_im]; [|discriminate]. intros _. split; [reflexivity|]. split; [cbn; lia|]. apply (ron_pos corner 0 0 1 1); cbn [rows corner]; try lia.
    cbn [px corner]. destruct (Rlt_dec _ _) as [_|N].
    + cbn [Nat.eqb andb]. destruct (Rlt_dec _ _); lra.
    + exfalso. apply N. unfold lin11. cbn [Nat.eqb]. replace (-1 + 2 * INR 0 / INR (64 - 1)) with (-1) by (change (INR 0) with 0; field; apply not_0_INR; lia). lra.
  - rewrite E. f_equal. pose proof (C114_screening_refuted l moved HS E) as C.
    assert (N0 : ~ In 0%nat moved) by (intros H; apply C in H; destruct H as (d & Hd & Hs); cbn in Hd; injection Hd as <-; discriminate Hs).
    unfold remove_corrupted_data in E. destruct (mapM screened l) as [b|] eqn:Eb; cbn [bind] in E; [|discriminate]. apply Ok_inj in E.
    assert (N1 : In 1%nat moved) by (apply C; eexists; split; [reflexivity|reflexivity]).
    revert N0 N1. rewrite <- E. cbn [List.length l seq filter]. destruct (nth 0 b false), (nth 1 b false); cbn; intuition congruence.
Qed.

(** The tables of the wavefront sensor. *)
Theorem C114_sensor : forall filt g rate,
  (forall p, grab_wfs_parameters filt g rate = Ok p <->
     exists name w bw, filt = Some name /\ p = (name, w, bw, define_wfs_window g, define_loop_delay rate, define_loop_gain g) /\
       ((name = "OPEN"%string /\ w = 700 /\ bw = 450) \/ (name = "LP_780"%string /\ w = 840 /\ bw = 120) \/ (name = "LP_475"%string /\ w = 700 /\ bw = 400))) /\
  (filt = None -> grab_wfs_parameters filt g rate = Err KeyError) /\
  (forall n, filt = Some n -> n <> "OPEN"%string -> n <> "LP_780"%string -> n <> "LP_475"%string -> grab_wfs_parameters filt g rate = Err TypeError).
Proof.
  intros filt g rate. unfold grab_wfs_parameters, define_wfs_wavelength. split; [|split].
  - intros p. destruct filt as [n|]; [|split; [discriminate|intros (? & ? & ? & H & _); discriminate]].
    split.
    + destruct (String.eqb_spec n "OPEN") as [ ->|N1]; [intros H; apply Ok_inj in H; subst p; do 3 eexists; split; [reflexivity|split; [reflexivity|auto]]|].
      destruct (String.eqb_spec n "LP_780") as [ ->|N2]; [intros H; apply Ok_inj in H; subst p; do 3 eexists; split; [reflexivity|split; [reflexivity|auto]]|].
      destruct (String.eqb_spec n "LP_475") as [ ->|N3]; [intros H; apply Ok_inj in H; subst p; do 3 eexists; split; [reflexivity|split; [reflexivity|auto]]|discriminate].
    + intros (nm & w & bw & E & -> & H). injection E as <-. destruct H as [(-> & -> & ->)|[(-> & -> & ->)|(-> & -> & ->)]]; reflexivity.
  - intros ->. reflexivity.
  - intros n -> H1 H2 H3. rewrite (proj2 (String.eqb_neq _ _) H1), (proj2 (String.eqb_neq _ _) H2), (proj2 (String.eqb_neq _ _) H3). reflexivity.
Qed.
(** Window: 3, 2 or 1 pixels, not larger for a fainter star; delay: 1, 2 or 3 frames, not shorter at a higher rate. *)
Theorem C114_tables : forall g g' f f',
  (g < 8 -> define_wfs_window g = 3) /\ (8 <= g < 10 -> define_wfs_window g = 2) /\ (10 <= g -> define_wfs_window g = 1) /\
  (g <= g' -> define_wfs_window g' <= define_wfs_window g) /\
  (f < 333 -> define_loop_delay f = 1%nat) /\ (333 <= f < 667 -> define_loop_delay f = 2%nat) /\ (667 <= f -> define_loop_delay f = 3%nat) /\
  (f <= f' -> (define_loop_delay f <= define_loop_delay f')%nat) /\
  (g <= 6 -> define_loop_gain g = Some (4 / 10)) /\ (6 < g < 8 -> define_loop_gain g = Some (35 / 100)) /\ (8 <= g < 10 -> define_loop_gain g = Some (25 / 100)) /\
  (10 <= g < 105 / 10 -> define_loop_gain g = Some (2 / 10)) /\ (105 / 10 <= g < 113 / 10 -> define_loop_gain g = Some (6 / 10)) /\
  (define_loop_gain g = None <-> 113 / 10 <= g).
Proof.
  intros g g' f f'. unfold define_wfs_window, define_loop_delay, define_loop_gain.
  repeat split; intros; repeat match goal with |- context [Rlt_dec ?a ?b] => destruct (Rlt_dec a b) | |- context [Rle_dec ?a ?b] => destruct (Rle_dec a b) | H : context [Rlt_dec ?a ?b] |- _ => destruct (Rlt_dec a b) | H : context [Rle_dec ?a ?b] |- _ => destruct (Rle_dec a b) end;
   try reflexivity; try lra; try lia; try discriminate.
Qed.
(** Line 571 ([1.5] without return): a window of 1.5 pixels is never used, stars of magnitude 10 to 10.5 get 1 pixel; and the
    fainter star of magnitude 10.5 gets three times the gain of one of magnitude 10.4. *)
Theorem C114_window_refuted : (forall g, define_wfs_window g <> 15 / 10) /\ (forall g, 10 <= g < 105 / 10 -> define_wfs_window g = 1) /\
  (forall g g', 10 <= g < 105 / 10 -> 105 / 10 <= g' < 113 / 10 -> exists a b, define_loop_gain g = Some a /\ define_loop_gain g' = Some b /\ b = 3 * a).
Proof.
  split; [|split].
  - intros g. unfold define_wfs_window. repeat destruct (Rlt_dec _ _); lra.
  - intros g H. apply (proj1 (proj2 (proj2 (C114_tables g g 0 0)))). lra.
  - intros g g' H H'. exists (2 / 10), (6 / 10). destruct (C114_tables g g 0 0) as (_ & _ & _ & _ & _ & _ & _ & _ & _ & _ & _ & A & _). destruct (C114_tables g' g' 0 0) as (_ & _ & _ & _ & _ & _ & _ & _ & _ & _ & _ & _ & B & _).
    split; [auto|]. split; [auto|lra].
Qed.
Print Assumptions C114_screening_refuted.
Print Assumptions C114_tables.

Print Assumptions C114_answers.
Print Assumptions C114_sensor.
Print Assumptions C114_window_refuted.
