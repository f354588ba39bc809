(** C79 (end): covariance of the commands and the phase structure function per source. *)
From Coq Require Import Reals List Arith ZArith Bool Lia Lra Psatz FunctionalExtensionality.
From Verif Require Import Base_Py Base_Sum Base_DFT M_Image M_Fourier S_Fourier M_Tools M_Atmo M_Zernike2 M_Model M_Model2 M_Psf M_Psfr S_Psfr L_Tools L_Atmo L_Fourier L_Model3 L_Fit P_FocalAniso P_Aniso2.
Import ListNotations.
Open Scope R_scope.

(** default of [nth] on lists of images *)
Definition empty_img : img := mkImg 0 0 (fun _ _ => 0).
(** ** covariance of the residual commands, lines 195-198 *)
Definition frame (com : list (list R)) (t i : nat) : R := nth i (nth t com []) 0.
Lemma lsub_nth a b i : length a = length b -> nth i (lsub a b) 0 = nth i a 0 - nth i b 0.
Proof.
  revert b i. induction a as [|x a IH]; intros [|y b] i H; try discriminate; unfold lsub; cbn [combine map]; destruct i; cbn [nth fst snd]; try ring. apply (IH b i). now injection H.
Qed.
Lemma lsub_len a b : length a = length b -> length (lsub a b) = length a.
Proof. intros H. unfold lsub. rewrite map_length, combine_length. lia. Qed.
Lemma diffs_len com : length (diffs com) = (length com - 1)%nat.
Proof. induction com as [|a [|b r] IH]; [reflexivity|reflexivity|]. cbn [diffs length] in *. rewrite IH. lia. Qed.
Lemma diffs_nth com : forall t, (S t < length com)%nat -> nth t (diffs com) [] = lsub (nth (S t) com []) (nth t com []).
Proof.
  induction com as [|a [|b r] IH]; intros t H; [cbn in H; lia|cbn in H; lia|]. destruct t; [reflexivity|]. change (diffs (a :: b :: r)) with (lsub b a :: diffs (b :: r)). change (nth (S t) (lsub b a :: diffs (b :: r)) []) with (nth t (diffs (b :: r)) []). rewrite IH by (cbn in *; lia). reflexivity.
Qed.
(** C79: the covariance of the residual is the mean over the recording of the products of the
    increments of the commands, divided by the square of the loop gain. *)
Theorem C79_commands : forall com n gain i j, (2 <= length com)%nat -> (forall f, In f com -> length f = n) -> gain <> 0 -> (i < n)%nat -> (j < n)%nat ->
  cao_dm com gain i j = Ok (rsum (length com - 1) (fun t => (frame com (t + 1) i - frame com t i) * (frame com (t + 1) j - frame com t j)) / INR (length com - 1) / gain ^ 2).
Proof.
  intros com n gain i j HT HF Hg Hi Hj. unfold cao_dm, dm_increments.
  rewrite (mapM_map (mapM (fun x => rdiv x gain)) (map (fun x => x / gain))) by (intros f _; apply mapM_map; intros x _; now apply rdiv_ok). cbn [bind].
  unfold emp_cov. rewrite map_length, diffs_len. assert (P : INR (length com - 1) <> 0) by (apply not_0_INR; lia). rewrite rdiv_ok by exact P. f_equal.
  rewrite map_map, lsum_nth, map_length, diffs_len.
  match goal with |- ?a / ?m = ?b / ?m / _ => replace a with (/ gain ^ 2 * b); [unfold Rdiv; ring|] end.
  rewrite <- rsum_scal. apply rsum_ext. intros t Ht.
  match goal with |- _ = nth t (map ?F _) 0 => rewrite (nth_indep _ 0 (F [])) by (rewrite map_length, diffs_len; lia); rewrite (map_nth F (diffs com) [] t) end.
  rewrite diffs_nth by lia. set (a := nth (S t) com []). set (b := nth t com []).
  assert (La : length a = n) by (apply HF, nth_In; lia). assert (Lb : length b = n) by (apply HF, nth_In; lia).
  assert (N : forall k, (k < n)%nat -> nth k (map (fun x => x / gain) (lsub a b)) 0 = (nth k a 0 - nth k b 0) / gain).
  { intros k Hk. rewrite (nth_indep _ 0 (0 / gain)) by (rewrite map_length, lsub_len; lia). rewrite (map_nth (fun x => x / gain)). rewrite lsub_nth by lia. reflexivity. }
  rewrite !N by assumption. unfold frame. rewrite Nat.add_1_r. fold a b. field. exact Hg.
Qed.
Print Assumptions C79_commands.
(** C79: hence a covariance: symmetric and non-negative on every combination of actuators;
    unchanged by a static offset of the mirror; scaling as the inverse square of the gain. *)
Theorem C79_commands_cov : forall com n gain, (2 <= length com)%nat -> (forall f, In f com -> length f = n) -> gain <> 0 ->
  exists C, (forall i j, (i < n)%nat -> (j < n)%nat -> cao_dm com gain i j = Ok (C i j)) /\ (forall i j, C i j = C j i) /\
    (forall v, 0 <= rsum n (fun i => rsum n (fun j => v i * C i j * v j))) /\
    (forall k i j, k <> 0 -> (i < n)%nat -> (j < n)%nat -> cao_dm com (k * gain) i j = Ok (C i j / k ^ 2)) /\
    (forall o i j, length o = n -> (i < n)%nat -> (j < n)%nat -> cao_dm (map (fun f => map (fun xy => fst xy + snd xy) (combine f o)) com) gain i j = Ok (C i j)).
Proof.
  intros com n gain HT HF Hg.
  exists (fun i j => rsum (length com - 1) (fun t => (frame com (t + 1) i - frame com t i) * (frame com (t + 1) j - frame com t j)) / INR (length com - 1) / gain ^ 2).
  assert (PT : 0 < INR (length com - 1)) by (apply lt_0_INR; lia). assert (PG : 0 < gain ^ 2) by (destruct (Rle_lt_or_eq_dec _ _ (pow2_ge_0 gain)) as [|E]; [assumption|symmetry in E; exfalso; revert E; now apply pow_nonzero]).
  split; [intros i j Hi Hj; now apply (C79_commands com n)|]. split; [|split; [|split]].
  - intros i j. f_equal. f_equal. apply rsum_ext. intros t _. ring.
  - intros v. assert (E : rsum n (fun i => rsum n (fun j => v i * (rsum (length com - 1) (fun t => (frame com (t + 1) i - frame com t i) * (frame com (t + 1) j - frame com t j)) / INR (length com - 1) / gain ^ 2) * v j)) =
      / INR (length com - 1) * / gain ^ 2 * rsum (length com - 1) (fun t => (rsum n (fun i => v i * (frame com (t + 1) i - frame com t i))) ^ 2)).
    { transitivity (/ INR (length com - 1) * / gain ^ 2 * rsum n (fun i => rsum n (fun j => rsum (length com - 1) (fun t => (v i * (frame com (t + 1) i - frame com t i)) * (v j * (frame com (t + 1) j - frame com t j)))))).
      - rewrite <- rsum_scal. apply rsum_ext. intros i _. rewrite <- rsum_scal. apply rsum_ext. intros j _. unfold Rdiv.
        replace (rsum (length com - 1) (fun t => v i * (frame com (t + 1) i - frame com t i) * (v j * (frame com (t + 1) j - frame com t j)))) with (v i * v j * rsum (length com - 1) (fun t => (frame com (t + 1) i - frame com t i) * (frame com (t + 1) j - frame com t j))); [ring|]. rewrite <- rsum_scal. apply rsum_ext. intros t _. ring.
      - f_equal. etransitivity; [apply rsum_ext; intros i _; apply rsum_swap|]. rewrite rsum_swap. apply rsum_ext. intros t _. set (g := fun i => v i * (frame com (t + 1) i - frame com t i)). change (rsum n (fun i => rsum n (fun j => g i * g j)) = rsum n g ^ 2).
        replace (rsum n g ^ 2) with (rsum n g * rsum n g) by ring. rewrite <- rsum_scal. apply rsum_ext. intros i _. rewrite rsum_scal. ring. }
    rewrite E. apply Rmult_le_pos; [apply Rmult_le_pos; left; now apply Rinv_0_lt_compat|]. apply rsum_nonneg. intros t _. apply pow2_ge_0.
  - intros k i j Hk Hi Hj. rewrite (C79_commands com n) by (assumption || (apply Rmult_integral_contrapositive_currified; assumption)). f_equal. field. repeat split; try assumption; lra.
  - intros o i j Ho Hi Hj. set (com' := map _ com). assert (L : length com' = length com) by (unfold com'; apply map_length).
    rewrite (C79_commands com' n); [|lia| |exact Hg|exact Hi|exact Hj].
    + rewrite L. f_equal. f_equal. f_equal. apply rsum_ext. intros t Ht.
      assert (V : forall u k, (u < length com)%nat -> (k < n)%nat -> frame com' u k = frame com u k + nth k o 0).
      { intros u k Hu Hk. unfold frame, com'. set (F := fun f : list R => map (fun xy => fst xy + snd xy) (combine f o)). rewrite (nth_indep _ [] (F [])) by (rewrite map_length; exact Hu). rewrite (map_nth F). unfold F. set (f := nth u com []).
        assert (Lf : length f = n) by (apply HF, nth_In; exact Hu). clearbody f. clear - Lf Ho Hk.
        change 0 with ((fun xy : R * R => fst xy + snd xy) (0, - 0)) at 1 || idtac.
        rewrite (nth_indep _ 0 ((fun xy : R * R => fst xy + snd xy) (0, 0))) by (rewrite map_length, combine_length; lia). rewrite (map_nth (fun xy : R * R => fst xy + snd xy)). rewrite combine_nth by lia. reflexivity. }
      rewrite !V by lia. ring.
    + intros f Hf. unfold com' in Hf. apply in_map_iff in Hf. destruct Hf as (g & <- & Hg'). rewrite map_length, combine_length, (HF g Hg'). lia.
Qed.
Print Assumptions C79_commands_cov.
(** Finding: a recording of one frame, or a null gain, has no covariance (nan). *)
Theorem C79_commands_undefined : (forall f gain i j, cao_dm [f] gain i j = Err NonFinite) /\
  (forall f g r x, cao_dm ((x :: f) :: (x :: g) :: r) 0 0 0 = Err NonFinite).
Proof.
  split.
  - intros f gain i j. unfold cao_dm. cbn [dm_increments diffs mapM bind]. unfold dm_increments. cbn [diffs mapM bind]. unfold emp_cov, rdiv. cbn. destruct (Req_EM_T 0 0); [reflexivity|congruence].
  - intros f g r x. unfold cao_dm, dm_increments. change (diffs ((x :: f) :: (x :: g) :: r)) with (lsub (x :: g) (x :: f) :: diffs ((x :: g) :: r)). unfold lsub. cbn [combine map mapM]. unfold rdiv at 1. destruct (Req_EM_T 0 0); [reflexivity|congruence].
Qed.
Print Assumptions C79_commands_undefined.

Lemma py0 (a b : R) x : pyindex (a :: b :: x) 0 = Ok a.
Proof. exact (pyindex_nth 0 (a :: b :: x) 0 ltac:(cbn; lia)). Qed.
Lemma py1 (a b : R) x : pyindex (a :: b :: x) 1 = Ok b.
Proof. exact (pyindex_nth 0 (a :: b :: x) 1 ltac:(cbn; lia)). Qed.
(** ** one structure function per source, lines 258-273 *)
(** C79: without anisoplanatism every source has the on-axis structure function
    gho*AO + gtt*jitter + r0^(-5/3) (fitting + aliasing). *)
Theorem C79_sum_onaxis : forall n nSrc ao tt fit alias r0 gho gtt x Cn2, 0 < r0 ->
  psfr_sf n nSrc ao tt fit alias r0 (gho :: gtt :: x) None Cn2 =
  Ok (repeat (mkImg n n (fun i j => gho * ao i j + gtt * tt i j + Rpower r0 (- 5 / 3) * (fit i j + alias i j))) nSrc).
Proof.
  intros n nSrc ao tt fit alias r0 gho gtt x Cn2 Hr. unfold psfr_sf. rewrite py0, py1, rpow_pos by exact Hr. reflexivity.
Qed.
Print Assumptions C79_sum_onaxis.
(** C79: with anisoplanatism and one weight per layer, the source s gets in addition the sum
    over the layers of its own anisoplanatism weighted by the profile. *)
Theorem C79_sum_aniso : forall n nSrc ao tt fit alias r0 gho gtt x planes c, 0 < r0 -> (forall ls, In ls planes -> length ls = length c) ->
  exists out, psfr_sf n nSrc ao tt fit alias r0 (gho :: gtt :: x) (Some (length c, planes)) (Some c) = Ok out /\ length out = length planes /\
    forall s, (s < length planes)%nat -> rows (nth s out empty_img) = n /\ forall i j,
      px (nth s out empty_img) i j = gho * ao i j + gtt * tt i j + Rpower r0 (- 5 / 3) * (fit i j + alias i j) +
        rsum (length c) (fun l => nth l (nth s planes []) (fun _ _ => 0) i j * nth l c 0).
Proof.
  intros n nSrc ao tt fit alias r0 gho gtt x planes c Hr HL. unfold psfr_sf. rewrite py0, py1, rpow_pos by exact Hr. cbn [bind]. rewrite Nat.eqb_refl. eexists. split; [reflexivity|]. split; [apply map_length|].
  intros s Hs. match goal with |- context [map ?F planes] => set (G := F) end. rewrite (nth_indep _ empty_img (G [])) by (rewrite map_length; exact Hs). rewrite (map_nth G). unfold G. split; [reflexivity|]. intros i j. cbn [px]. f_equal.
  set (ls := nth s planes []). assert (L : length ls = length c) by (apply HL, nth_In; exact Hs). rewrite lsum_nth, map_length, combine_length, L, Nat.min_id. apply rsum_ext. intros l Hl.
  match goal with |- nth l (map ?F _) 0 = _ => rewrite (nth_indep _ 0 (F (fun _ _ => 0, 0))) by (rewrite map_length, combine_length; lia); rewrite (map_nth F) end. rewrite combine_nth by exact L. reflexivity.
Qed.
Print Assumptions C79_sum_aniso.
(** C79: consequently non-negative for non-negative terms and gains, null where they all are
    (the centre), and increasing with each of the gains. *)
Theorem C79_sum_range : forall n nSrc ao tt fit alias r0 gho gtt gho' gtt' planes c out out' s i j, 0 < r0 -> (forall ls, In ls planes -> length ls = length c) -> (s < length planes)%nat ->
  0 <= ao i j -> 0 <= tt i j -> 0 <= fit i j -> 0 <= alias i j -> (forall ls l, In ls planes -> 0 <= nth l ls (fun _ _ => 0) i j) -> (forall w, In w c -> 0 <= w) ->
  0 <= gho <= gho' -> 0 <= gtt <= gtt' ->
  psfr_sf n nSrc ao tt fit alias r0 [gho; gtt] (Some (length c, planes)) (Some c) = Ok out ->
  psfr_sf n nSrc ao tt fit alias r0 [gho'; gtt'] (Some (length c, planes)) (Some c) = Ok out' ->
  0 <= px (nth s out empty_img) i j <= px (nth s out' empty_img) i j.
Proof.
  intros n nSrc ao tt fit alias r0 gho gtt gho' gtt' planes c out out' s i j Hr HL Hs A1 A2 A3 A4 A5 A6 G1 G2 E E'.
  destruct (C79_sum_aniso n nSrc ao tt fit alias r0 gho gtt [] planes c Hr HL) as (o & Eo & _ & V). rewrite E in Eo. injection Eo as <-.
  destruct (C79_sum_aniso n nSrc ao tt fit alias r0 gho' gtt' [] planes c Hr HL) as (o & Eo & _ & V'). rewrite E' in Eo. injection Eo as <-.
  destruct (V s Hs) as (_ & ->). destruct (V' s Hs) as (_ & ->).
  assert (0 <= rsum (length c) (fun l => nth l (nth s planes []) (fun _ _ => 0) i j * nth l c 0)). { apply rsum_nonneg. intros l Hl. apply Rmult_le_pos; [apply A5, nth_In, Hs|apply A6, nth_In, Hl]. }
  assert (0 <= Rpower r0 (- 5 / 3) * (fit i j + alias i j)) by (apply Rmult_le_pos; [left; apply exp_pos|lra]). nra.
Qed.
Print Assumptions C79_sum_range.
(** Finding: a profile whose length is not the number of layers is not refused: the
    anisoplanatism is silently dropped for every source. *)
Theorem C79_profile_length_refuted : forall n nSrc ao tt fit alias r0 x nlay planes c, length c <> nlay ->
  psfr_sf n nSrc ao tt fit alias r0 x (Some (nlay, planes)) (Some c) = psfr_sf n nSrc ao tt fit alias r0 x None (Some c).
Proof.
  intros. unfold psfr_sf. destruct (pyindex x 0); [|reflexivity]. cbn [bind]. destruct (pyindex x 1); [|reflexivity]. cbn [bind]. destruct (rpow r0 _); [|reflexivity]. cbn [bind]. destruct (Nat.eqb_spec (length c) nlay); [contradiction|reflexivity].
Qed.
Print Assumptions C79_profile_length_refuted.

(** Examples *)
Example C79_commands_example : cao_dm [[0; 1]; [1; 1]; [3; 0]] (/ 2) 0 1 = Ok (- 4).
Proof.
  rewrite (C79_commands _ 2); [|cbn; lia|intros f [ <-|[ <-|[ <-|[]]]]; reflexivity|lra|lia|lia]. f_equal. cbn. field.
Qed.
Example C79_sum_example : exists out, psfr_sf 2 1 (fun _ _ => 1) (fun _ _ => 2) (fun _ _ => 3) (fun _ _ => 4) 1 [1; 1] (Some (1%nat, [[fun _ _ => 5]])) (Some [1]) = Ok out /\ px (nth 0 out empty_img) 0 0 = 15.
Proof.
  destruct (C79_sum_aniso 2 1 (fun _ _ => 1) (fun _ _ => 2) (fun _ _ => 3) (fun _ _ => 4) 1 1 1 [] [[fun _ _ => 5]] [1]) as (o & Eo & _ & V); [lra|intros ls [ <-|[]]; reflexivity|]. exists o. split; [exact Eo|].
  destruct (V 0%nat) as (_ & ->); [cbn; lia|]. cbn. replace (Rpower 1 (- 5 / 3)) with 1; [ring|]. unfold Rpower. rewrite ln_1, Rmult_0_r, exp_0. reflexivity.
Qed.
