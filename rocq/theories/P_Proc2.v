(** C105 (continued): dead pixels, Gaussian function, interpolated radial profiles. *)
From Coq Require Import Reals List Arith ZArith Lia Lra Psatz Bool.
From Coq Require Import ZifyBool ZifyNat.
From Flocq Require Import Core.
From Verif Require Import Base_Py Base_Sum M_Image M_Fourier M_Tools L_Tools2 M_Proc P_Proc.
Import ListNotations.
Open Scope R_scope.

(** ** correctFromDeadPixels *)
Lemma zsum_nil_slice (row : frame_row) (n : nat) : length row = n -> (n <= 3)%nat -> pyslice row 2 (Z.of_nat n - 1) = [].
Proof.
  intros Hl Hn. apply length_zero_iff_nil. unfold pyslice. cbv zeta. rewrite firstn_length, skipn_length. unfold slice_len, slice_bound. rewrite Hl.
  destruct (Z.ltb_spec (Z.of_nat n - 1) 0); destruct (Z.ltb_spec 2 0); lia.
Qed.
Lemma slice_len2 {A} (row : list A) (n : nat) : length row = n -> (3 <= n)%nat -> length (pyslice row 2 (Z.of_nat n)) = (n - 2)%nat /\ length (pyslice row 2 (Z.of_nat n - 1)) = (n - 3)%nat.
Proof.
  intros Hl Hn. unfold pyslice. cbv zeta. rewrite !firstn_length, !skipn_length. unfold slice_len, slice_bound. rewrite Hl.
  destruct (Z.ltb_spec (Z.of_nat n - 1) 0); destruct (Z.ltb_spec 2 0); destruct (Z.ltb_spec (Z.of_nat n) 0); lia.
Qed.
Lemma mapM_len {A B} (f : A -> result B) l r : M_Tools.mapM f l = Ok r -> length r = length l.
Proof.
  revert r. induction l as [|x l IH]; intros r H; cbn [M_Tools.mapM] in H.
  - apply Ok_inj in H. subst. reflexivity.
  - apply bindOk in H. destruct H as (y & _ & H). apply bindOk in H. destruct H as (ys & Es & H). apply Ok_inj in H. subst. cbn. f_equal. apply IH. exact Es.
Qed.

Lemma dead_pixel_same im n row im' : length row = n -> n <> 4%nat -> dead_pixel im n row = Ok im' -> im' = im.
Proof.
  intros Hl Hn H. unfold dead_pixel in H. cbv zeta in H. destruct (Z.eqb_spec (zsum (map snd (pyslice row 2 (Z.of_nat n - 1)))) 0) as [Z0|Z0].
  - apply Ok_inj in H. auto.
  - exfalso. destruct (le_lt_dec n 3) as [L|L].
    + rewrite (zsum_nil_slice row n Hl L) in Z0. apply Z0. reflexivity.
    + destruct (slice_len2 row n Hl ltac:(lia)) as (L1 & L2).
      apply bindOk in H. destruct H as (vals & Ev & H). apply mapM_len in Ev. rewrite L1 in Ev.
      apply bindOk in H. destruct H as (prod & Ep & _). rewrite map_length, L2, Ev in Ep.
      destruct (Nat.eqb_spec (n - 2) (n - 3)); [lia|].
      destruct vals as [|v1 [|v2 vals]]; cbn in Ev; try lia.
      assert (Lw : length (map snd (pyslice row 2 (Z.of_nat n - 1))) = (n - 3)%nat) by (rewrite map_length; exact L2).
      destruct (map snd (pyslice row 2 (Z.of_nat n - 1))) as [|w1 [|w2 ws]]; cbn in Lw; try lia. discriminate.
Qed.

(** C105: whatever the frame (of any width but 4; the documented one is 10), the "corrected" image
    is the input image, bad pixels included: the call either changes nothing or fails. *)
Theorem C105_dead_pixels_refuted : forall im npixd (frame : list frame_row) out, npixd <> 4%nat -> (forall row : frame_row, In row frame -> length row = npixd) ->
  correctFromDeadPixels im npixd frame = Ok out -> out = im.
Proof.
  intros im npixd frame out Hn Hrows. unfold correctFromDeadPixels.
  assert (G : forall n i im, dead_loop im npixd i n frame = Ok out -> out = im); [|apply G].
  induction n as [|n IH]; clear im; intros i im H; cbn [dead_loop] in H.
  - apply Ok_inj in H. auto.
  - destruct (nth_error frame i) as [row|] eqn:E; [|discriminate]. apply bindOk in H. destruct H as (im' & E' & H).
    apply dead_pixel_same in E'; [|apply Hrows; eapply nth_error_In; exact E|exact Hn]. subst im'. apply (IH _ _ H).
Qed.

(** C105: and as soon as one of the first npixd rows has a non-zero weight sum it does fail. *)
Theorem C105_dead_pixels_fails : forall im npixd (frame : list frame_row) i (row : frame_row), (5 <= npixd)%nat -> (forall r : frame_row, In r frame -> length r = npixd) ->
  (i < npixd)%nat -> nth_error frame i = Some row -> zsum (map snd (pyslice row 2 (Z.of_nat npixd - 1))) <> 0%Z ->
  is_ok (correctFromDeadPixels im npixd frame) = false.
Proof.
  intros im npixd frame i row Hn Hrows Hi Er Hw. unfold correctFromDeadPixels.
  assert (G : forall n k im, (k <= i < k + n)%nat -> is_ok (dead_loop im npixd k n frame) = false).
  { induction n as [|n IH]; intros k im0 Hk; [lia|]. cbn [dead_loop]. destruct (nth_error frame k) as [r|] eqn:E; [|reflexivity].
    assert (Lr : length r = npixd) by (apply Hrows; eapply nth_error_In; exact E).
    destruct (dead_pixel im0 npixd r) as [im1|] eqn:Ed; [|reflexivity]. cbn [bind].
    destruct (Nat.eq_dec k i) as [->|Hne]; [|apply IH; lia]. exfalso. rewrite Er in E. injection E as <-.
    unfold dead_pixel in Ed. cbv zeta in Ed. destruct (Z.eqb_spec (zsum (map snd (pyslice row 2 (Z.of_nat npixd - 1)))) 0) as [Z0|_]; [contradiction|].
    destruct (slice_len2 row npixd Lr ltac:(lia)) as (L1 & L2).
    apply bindOk in Ed. destruct Ed as (vals & Ev & Ed). apply mapM_len in Ev. rewrite L1 in Ev.
    apply bindOk in Ed. destruct Ed as (prod & Ep & _). rewrite map_length, L2, Ev in Ep.
    destruct (Nat.eqb_spec (npixd - 2) (npixd - 3)); [lia|].
    destruct vals as [|v1 [|v2 vals]]; cbn in Ev; try lia.
    assert (Lw : length (map snd (pyslice row 2 (Z.of_nat npixd - 1))) = (npixd - 3)%nat) by (rewrite map_length; exact L2).
    destruct (map snd (pyslice row 2 (Z.of_nat npixd - 1))) as [|w1 [|w2 ws]]; cbn in Lw; try lia. discriminate. }
  apply G. lia.
Qed.
Definition good_row : frame_row := [(4,0);(8,0);(5,2);(3,2);(7,2);(1,2);(8,1);(6,1);(2,1);(0,1)]%Z.
Example C105_dead_nonvacuous :
  correctFromDeadPixels [1;1;1;1;9;1;1;1;1] 10 (repeat good_row 10) = Err ValueError /\
  correctFromDeadPixels [1;1;1;1;9;1;1;1;1] 10 (repeat (repeat (4, 0)%Z 10) 10) = Ok [1;1;1;1;9;1;1;1;1] /\
  zsum (map snd (pyslice good_row 2 (Z.of_nat 10 - 1))) <> 0%Z.
Proof. split; [reflexivity|]. split; [reflexivity|discriminate]. Qed.

(** ** gaussian *)
(** C105: maximum I0 reached at the centre, positive elsewhere. *)
Theorem C105_gauss_max : forall I0 ax ay th x0 y0 X Y v, 0 < I0 -> gaussian I0 ax ay th x0 y0 X Y = Ok v ->
  gaussian I0 ax ay th x0 y0 x0 y0 = Ok I0 /\ 0 < v <= I0 /\ (v = I0 -> X = x0 /\ Y = y0).
Proof.
  intros I0 ax ay th x0 y0 X Y v HI H. unfold gaussian in *. destruct (Req_EM_T ax 0) as [|Ha]; [discriminate|]. destruct (Req_EM_T ay 0) as [|Hb]; [discriminate|].
  cbv zeta in *. set (t := th * PI / 180) in *. apply Ok_inj in H.
  set (Xr := (X - x0) * cos t + (Y - y0) * sin t) in *. set (Yr := (Y - y0) * cos t - (X - x0) * sin t) in *.
  set (q := Xr / ax * (Xr / ax) + Yr / ay * (Yr / ay)) in *.
  assert (Hq : 0 <= q) by (unfold q; nra).
  assert (He : 0 < exp (- / 2 * q) <= 1).
  { split; [apply exp_pos|]. destruct (Rle_lt_or_eq_dec 0 q Hq) as [L|<-]; [|rewrite Rmult_0_r, exp_0; lra].
    rewrite <- exp_0. left. apply exp_increasing. lra. }
  split; [|split].
  - f_equal. replace ((x0 - x0) * cos t + (y0 - y0) * sin t) with 0 by ring. replace ((y0 - y0) * cos t - (x0 - x0) * sin t) with 0 by ring.
    replace (- / 2 * (0 / ax * (0 / ax) + 0 / ay * (0 / ay))) with 0 by (field; auto). rewrite exp_0. ring.
  - subst v. split; [apply Rmult_lt_0_compat; lra|]. nra.
  - intros E. subst v. assert (E1 : exp (- / 2 * q) = 1) by nra. rewrite <- exp_0 in E1. apply exp_inv in E1. assert (Q0 : q = 0) by lra.
    assert (A : Xr / ax = 0 /\ Yr / ay = 0) by (unfold q in Q0; nra). destruct A as (A & B).
    assert (X0 : Xr = 0) by (replace Xr with (Xr / ax * ax) by (field; exact Ha); rewrite A; ring).
    assert (Y0 : Yr = 0) by (replace Yr with (Yr / ay * ay) by (field; exact Hb); rewrite B; ring).
    assert (T := sin2_cos2 t). unfold Rsqr in T.
    assert (P : X - x0 = Xr * cos t - Yr * sin t).
    { unfold Xr, Yr. transitivity ((X - x0) * (sin t * sin t + cos t * cos t)); [rewrite T; ring|ring]. }
    assert (P' : Y - y0 = Xr * sin t + Yr * cos t).
    { unfold Xr, Yr. transitivity ((Y - y0) * (sin t * sin t + cos t * cos t)); [rewrite T; ring|ring]. }
    rewrite X0, Y0 in P, P'. split; lra.
Qed.

(** C105: the full width at half maximum along the axis turned by th (degrees) is
    2 sqrt(2 ln 2) times the corresponding spread. *)
Theorem C105_gauss_half : forall I0 ax ay th x0 y0 s, ax <> 0 -> ay <> 0 -> s = 1 \/ s = -1 ->
  let t := th * PI / 180 in let hw := sqrt (2 * ln 2) in
  gaussian I0 ax ay th x0 y0 (x0 + s * hw * ax * cos t) (y0 + s * hw * ax * sin t) = Ok (I0 / 2) /\
  gaussian I0 ax ay th x0 y0 (x0 - s * hw * ay * sin t) (y0 + s * hw * ay * cos t) = Ok (I0 / 2).
Proof.
  intros I0 ax ay th x0 y0 s Ha Hb Hs t hw. unfold gaussian.
  destruct (Req_EM_T ax 0) as [|_]; [contradiction|]. destruct (Req_EM_T ay 0) as [|_]; [contradiction|]. cbv zeta. fold t.
  assert (T := sin2_cos2 t). unfold Rsqr in T.
  assert (Hh : hw * hw = 2 * ln 2). { unfold hw. apply sqrt_sqrt. assert (0 < ln 2) by (rewrite <- ln_1; apply ln_increasing; lra). lra. }
  assert (Ss : s * s = 1) by (destruct Hs; subst; ring).
  assert (He : exp (- / 2 * (2 * ln 2)) = / 2). { replace (- / 2 * (2 * ln 2)) with (- ln 2) by field. rewrite exp_Ropp, exp_ln by lra. reflexivity. }
  split; f_equal.
  - replace ((x0 + s * hw * ax * cos t - x0) * cos t + (y0 + s * hw * ax * sin t - y0) * sin t) with (s * hw * ax * (sin t * sin t + cos t * cos t)) by ring.
    replace ((y0 + s * hw * ax * sin t - y0) * cos t - (x0 + s * hw * ax * cos t - x0) * sin t) with 0 by ring. rewrite T.
    replace (s * hw * ax * 1 / ax * (s * hw * ax * 1 / ax) + 0 / ay * (0 / ay)) with (2 * ln 2).
    + rewrite He. field.
    + rewrite <- Hh. replace (s * hw * ax * 1 / ax) with (s * hw) by (field; exact Ha). replace (s * hw * (s * hw)) with (s * s * (hw * hw)) by ring. rewrite Ss. field. exact Hb.
  - replace ((x0 - s * hw * ay * sin t - x0) * cos t + (y0 + s * hw * ay * cos t - y0) * sin t) with 0 by ring.
    replace ((y0 + s * hw * ay * cos t - y0) * cos t - (x0 - s * hw * ay * sin t - x0) * sin t) with (s * hw * ay * (sin t * sin t + cos t * cos t)) by ring. rewrite T.
    replace (0 / ax * (0 / ax) + s * hw * ay * 1 / ay * (s * hw * ay * 1 / ay)) with (2 * ln 2).
    + rewrite He. field.
    + rewrite <- Hh. replace (s * hw * ay * 1 / ay) with (s * hw) by (field; exact Hb). replace (s * hw * (s * hw)) with (s * s * (hw * hw)) by ring. rewrite Ss. field. exact Ha.
Qed.

(** ** interpolated radial profiles *)
(** C105: one value per ring, never negative; a ring of constant value c >= 0 gives
    c (step/pixelscale)^2, i.e. the flux in a pixel of the new step. *)
Theorem C105_profile_2d : forall ev grid ps step out, interpolate_2d ev grid ps step = Ok out ->
  length out = length grid /\ (forall v, In v out -> 0 <= v) /\
  forall k ring c, nth_error grid k = Some ring -> 0 <= c -> (forall x y, In (x, y) ring -> ev y x = c) ->
    nth_error out k = Some (c * (step / ps) * (step / ps)).
Proof.
  intros ev grid ps step out H. unfold interpolate_2d in H. destruct (Req_EM_T ps 0) as [|Hps]; [discriminate|].
  revert out H. induction grid as [|ring grid IH]; intros out H; cbn [M_Tools.mapM] in H.
  - apply Ok_inj in H. subst. split; [reflexivity|]. split; [intros v []|]. intros [|k]; discriminate.
  - destruct ring as [|p0 ring]; [discriminate|]. cbn [bind] in H. apply bindOk in H. destruct H as (ys & Ey & H). apply Ok_inj in H. subst out.
    destruct (IH ys Ey) as (I1 & I2 & I3). split; [cbn; f_equal; exact I1|]. split.
    + intros v [E|Hv]; [|apply I2; exact Hv]. subst v. apply Rmult_le_pos; [rewrite clip0_max; apply Rmax_r|]. nra.
    + intros [|k] r c E Hc Hr; cbn [nth_error] in *; [|apply (I3 k r c E Hc Hr)]. injection E as <-. f_equal.
      assert (M : fold_right Rplus 0 (map (fun p => ev (snd p) (fst p)) (p0 :: ring)) = INR (length (p0 :: ring)) * c).
      { clear -Hr. induction (p0 :: ring) as [|[x y] l IH]; [cbn; ring|]. cbn [map fold_right length fst snd]. rewrite (Hr x y) by (left; reflexivity).
        rewrite IH by (intros x' y' Hin; apply Hr; right; exact Hin). rewrite S_INR. ring. }
      rewrite M. replace (INR (length (p0 :: ring)) * c / INR (length (p0 :: ring))) with c by (field; apply not_0_INR; cbn; lia).
      rewrite clip0_max, Rmax_left by exact Hc. ring.
Qed.

(** C105: the resampled 1-D profile starts at the first radius, advances by [step], never
    reaches the last radius, and leaves less than one step uncovered; its values are never negative. *)
Theorem C105_profile_1d : forall spline r ps step a b ri p, 0 < step -> hd_error r = Some a -> last r a = b -> a < b ->
  interpolate_1d spline r ps step = Ok (ri, p) ->
  length p = length ri /\ (forall i t, nth_error ri i = Some t -> t = a + INR i * step /\ t < b) /\
  (exists t, nth_error ri (length ri - 1) = Some t /\ b - t <= step) /\
  (forall v, In v p -> 0 <= v) /\ (forall i t, nth_error ri i = Some t -> 0 <= spline t -> nth_error p i = Some (spline t * (step / ps) * (step / ps))).
Proof.
  intros spline r ps step a b ri p Hs Ha Hb Hab H. destruct r as [|a' r']; [discriminate|]. cbn in Ha. injection Ha as ->.
  unfold interpolate_1d in H. cbv zeta in H. rewrite Hb in H. destruct (Req_EM_T step 0) as [|_]; [lra|]. destruct (Req_EM_T ps 0) as [|_]; [discriminate|].
  apply Ok_inj in H. injection H as Er Ep.
  set (N := arange_len (b - a) step) in *.
  assert (Hx : 0 < (b - a) / step) by (apply Rdiv_lt_0_compat; lra).
  assert (Hc := Zceil_ub ((b - a) / step)). assert (Hc2 := Zceil_lb ((b - a) / step)).
  assert (HNz : (1 <= Zceil ((b - a) / step))%Z). { assert (IZR 0 < IZR (Zceil ((b - a) / step))) by lra. apply lt_IZR in H. lia. }
  assert (HN : INR N = IZR (Zceil ((b - a) / step))). { unfold N, arange_len. rewrite INR_IZR_INZ, Z2Nat.id by lia. reflexivity. }
  assert (HN1 : (1 <= N)%nat) by (unfold N, arange_len; lia).
  assert (Nth : forall i t, nth_error ri i = Some t -> (i < N)%nat /\ t = a + INR i * step).
  { intros i t E. subst ri. rewrite nth_error_map in E. destruct (nth_error (seq 0 N) i) as [k|] eqn:Ek; [|discriminate]. cbn in E. injection E as <-.
    assert (Hi : (i < N)%nat). { apply nth_error_Some_lt in Ek || (assert (Q : nth_error (seq 0 N) i <> None) by congruence; apply nth_error_Some in Q; rewrite seq_length in Q; exact Q). }
    assert (k = i). { apply (nth_error_nth _ _ 0%nat) in Ek. rewrite seq_nth in Ek by exact Hi. lia. } subst k. auto. }
  assert (Lri : length ri = N) by (subst ri; rewrite map_length, seq_length; reflexivity).
  split; [subst p; rewrite map_length, <- Er; reflexivity|]. split; [|split; [|split]].
  - intros i t E. apply Nth in E. destruct E as (Hi & Et). split; [exact Et|]. subst t.
    assert (INR i <= INR N - 1). { assert (Q : INR (S i) <= INR N) by (apply le_INR; lia). rewrite S_INR in Q. lra. }
    assert (INR i * step < (b - a) / step * step) by (apply Rmult_lt_compat_r; lra).
    replace ((b - a) / step * step) with (b - a) in H0 by (field; lra). lra.
  - rewrite Lri. destruct (nth_error ri (N - 1)) as [t|] eqn:E.
    + exists t. split; [reflexivity|]. apply Nth in E. destruct E as (_ & ->). rewrite minus_INR by lia. cbn [INR].
      assert ((b - a) / step * step <= INR N * step) by (apply Rmult_le_compat_r; lra).
      replace ((b - a) / step * step) with (b - a) in H by (field; lra). lra.
    + exfalso. apply nth_error_None in E. lia.
  - intros v Hv. subst p. apply in_map_iff in Hv. destruct Hv as (t & <- & _). apply Rmult_le_pos; [rewrite clip0_max; apply Rmax_r|nra].
  - intros i t E Hsp. subst p. rewrite Er, nth_error_map, E. cbn. rewrite clip0_max, Rmax_left by exact Hsp. f_equal. ring.
Qed.
Example C105_profile_nonvacuous : exists ri p, interpolate_1d (fun _ => 4) [0; 1; 3] 2 (/ 2) = Ok (ri, p) /\ length ri = 6%nat /\
  interpolate_2d (fun _ _ => 4) [[(0, 0)]; [(1, 0); (0, 1)]] 2 1 = Ok [4 * (1 / 2 * (1 / 2)); 4 * (1 / 2 * (1 / 2))].
Proof.
  unfold interpolate_1d, interpolate_2d. destruct (Req_EM_T (/ 2) 0) as [|_]; [lra|]. destruct (Req_EM_T 2 0) as [|_]; [lra|]. cbv zeta.
  eexists. eexists. split; [reflexivity|]. split.
  - rewrite map_length, seq_length. cbn [last]. unfold arange_len. replace ((3 - 0) / / 2) with (IZR 6) by field. rewrite Zceil_IZR. reflexivity.
  - cbn [M_Tools.mapM bind map fold_right length snd fst INR]. unfold clip0. repeat (destruct (Rlt_dec _ 0) as [|_]; [exfalso; lra|]). do 2 f_equal; [field|f_equal; field].
Qed.

Print Assumptions C105_dead_pixels_refuted.
Print Assumptions C105_dead_pixels_fails.
Print Assumptions C105_gauss_max.
Print Assumptions C105_gauss_half.
Print Assumptions C105_profile_2d.
Print Assumptions C105_profile_1d.
