(** C91: reset, padding and trimming of the pupil. *)
From Coq Require Import Reals List Arith ZArith Lia Lra Psatz Permutation.
From Coq Require Import ZifyBool ZifyNat.
From Flocq Require Import Core.Raux Core.Generic_fmt Core.Round_NE.
From Verif Require Import Base_Py Base_Sum Base_DFT M_Image M_Fourier M_Tools M_Freq L_Tools2 M_Pupil S_Pupil L_Pupil P_Pupil P_Pupil2 P_Pupil3 P_Pupil4 M_Tools.
From Coquelicot Require Import Complex.
Import ListNotations.
Open Scope R_scope.

(** the operations of the user on the segments *)
Inductive segop :=
  | ORemove (ind : list nat) | OShift (ind : list nat) (x y : list R) | ORotate (ind : list nat) (ang : list R)
  | OPhase (ind : list nat) (nJ : nat) (modes : list (nat -> nat -> R)) (coefs : list (list R))
  | ORefl (ind : list nat) (coef : list R) | OReset.
Definition do_op (p : pup) (o : segop) : pup :=
  fst match o with
      | ORemove ind => remove p ind
      | OShift ind x y => shift_segment p ind x y
      | ORotate ind ang => rotate_segment p ind ang
      | OPhase ind nJ modes coefs => apply_phase_segment p ind nJ modes coefs
      | ORefl ind coef => apply_reflexivity_segment p ind coef
      | OReset => reset p
      end.

(** what no operation touches *)
Definition frame (p q : pup) : Prop :=
  p_n q = p_n p /\ p_ratio q = p_ratio p /\ p_c q = p_c p /\ p_cobs q = p_cobs p /\ p_spi q = p_spi p /\ p_pupil q = p_pupil p.
Lemma frame_refl p : frame p p. Proof. repeat split. Qed.
Lemma frame_trans p q r : frame p q -> frame q r -> frame p r.
Proof. intros (A1 & A2 & A3 & A4 & A5 & A6) (B1 & B2 & B3 & B4 & B5 & B6). repeat split; congruence. Qed.
Lemma remove_frame ind : forall p, frame p (fst (remove p ind)).
Proof.
  induction ind as [|k ind IH]; intros p; [apply frame_refl|]. cbn [remove]. destruct (nth_error (p_segs p) k); [|apply frame_refl]. destruct (remove_one _ _ _ _); [|apply frame_refl].
  apply (frame_trans p (set_mat p a)); [repeat split|apply IH].
Qed.
Lemma finish_frame p : frame p (fst (finish p)).
Proof. unfold finish. destruct (make_cobs _ _ _); [destruct (make_spiders _ _)|]; repeat split. Qed.
Lemma then_frame p r f : frame p (fst r) -> (forall q, frame q (fst (f q))) -> frame p (fst (andthen r f)).
Proof. intros H F. unfold andthen. destruct (snd r); [exact H|]. eapply frame_trans; [exact H|apply F]. Qed.
Lemma loop_frame {A} (f : pup -> A -> pup * option exn) l : (forall q a, frame q (fst (f q a))) -> forall p, frame p (fst (loop f p l)).
Proof. intros F. induction l as [|a l IH]; intros p; [apply frame_refl|]. cbn [loop]. apply then_frame; [apply F|exact IH]. Qed.
Lemma op_frame o p : frame p (do_op p o).
Proof.
  destruct o; unfold do_op.
  - apply remove_frame.
  - unfold shift_segment. apply then_frame; [apply remove_frame|]. intros q. apply then_frame; [|apply finish_frame]. apply loop_frame. intros r [k i]. unfold shift_one.
    destruct (nth_error x k); [|apply frame_refl]. destruct (nth_error y k); [|apply frame_refl]. destruct (nth_error (p_segs r) i); [|apply frame_refl]. cbv zeta.
    destruct (Req_EM_T _ _); [apply frame_refl|]. repeat (match goal with |- context [Rlt_dec ?a ?b] => destruct (Rlt_dec a b) end; [apply remove_frame|]). destruct (add_at _ _ _ _ _); repeat split.
  - unfold rotate_segment. apply then_frame; [apply remove_frame|]. intros q. destruct ind as [|i ind]; [apply finish_frame|]. destruct (nth_error (p_segs q) i); [destruct ang|]; apply frame_refl.
  - unfold apply_phase_segment. destruct (_ || _)%bool; [apply frame_refl|]. apply then_frame; [apply remove_frame|]. intros q. apply then_frame; [|apply finish_frame]. apply loop_frame. intros r [k i]. unfold phase_one.
    destruct (nth_error (p_segs r) i); [|apply frame_refl]. destruct (apply_phase _ _ _); [|apply frame_refl]. cbv zeta. destruct (add_at _ _ _ _ _); repeat split.
  - unfold apply_reflexivity_segment. cbv zeta. destruct (_ && _)%bool; [apply frame_refl|]. destruct (_ || _)%bool; [apply frame_refl|]. apply then_frame; [apply remove_frame|]. intros q. apply then_frame; [|apply finish_frame]. apply loop_frame. intros r [k x]. unfold refl_one.
    destruct (nth_error (p_segs r) k); [|apply frame_refl]. destruct (add_at _ _ _ _ _); repeat split.
  - unfold reset. cbv zeta. destruct (masks _ _ _ _); repeat split.
Qed.
Lemma built_pupil poly g coords cobs spi fill g' p : new_pupil poly g coords cobs spi fill = Ok (g', p) ->
  p_pupil p = mkImg (crows (p_mat p)) (ccols (p_mat p)) (fun i j => if cnz (cpx (p_mat p) i j) then 1 else 0).
Proof.
  intros E. unfold new_pupil in E. apply bindOk in E. destruct E as (x1 & _ & H). apply bindOk in H. destruct H as (x2 & _ & H). apply bindOk in H. destruct H as (x3 & _ & H). apply bindOk in H. destruct H as (x4 & _ & H). cbv zeta in H. apply bindOk in H. destruct H as (x5 & _ & H). apply bindOk in H. destruct H as ([[a b] c] & _ & H). apply bindOk in H. destruct H as (x6 & _ & H). apply Ok_inj in H. injection H as <- <-. reflexivity.
Qed.

(** C91: whatever was done to the segments, and whichever of these operations raised, reset
    gives back the matrix of the pupil as it was built (segments that do not overlap). *)
Theorem C91_reset : forall poly g coords cobs spi fill g' p ops, new_pupil poly g coords cobs spi fill = Ok (g', p) -> pristine p ->
  exists m, reset (fold_left do_op ops p) = (set_mat (fold_left do_op ops p) m, None) /\ ceq m (p_mat p).
Proof.
  intros poly g coords cobs spi fill g' p ops E H.
  assert (F : frame p (fold_left do_op ops p)). { clear E H. revert p. induction ops as [|o ops IH]; intros p; [apply frame_refl|]. cbn [fold_left]. eapply frame_trans; [apply op_frame|apply IH]. }
  set (q := fold_left do_op ops p) in *. destruct F as (N & Ra & Ce & Co & Sp & Pu). pose proof H as ((Cr & Cc & H3 & HF) & HB & HS & HP & HM & HD).
  pose proof (built_pupil _ _ _ _ _ _ _ _ E) as BP. unfold reset. cbv zeta. rewrite Pu, BP.
  assert (H3' : forall s, p_spi q = Some s -> rows s = p_n q /\ cols s = p_n q) by (rewrite Sp, N; exact H3).
  destruct (masks_ok q (to_c (mkImg (crows (p_mat p)) (ccols (p_mat p)) (fun i j => if cnz (cpx (p_mat p) i j) then 1 else 0)))) as (m & Em & R1 & C1 & V); [cbn; congruence|cbn; congruence|exact H3'|].
  rewrite Em. exists m. split; [reflexivity|]. split; [congruence|]. split; [congruence|]. intros i j _ _. rewrite V. cbn [to_c cpx px].
  assert (TT : transmission q i j = transmission p i j) by (unfold transmission; rewrite N, Co, Sp; reflexivity). rewrite TT.
  assert (Z01 : cpx (p_mat p) i j = RtoC 0 \/ cpx (p_mat p) i j = RtoC (transmission p i j)).
  { destruct (existsb (fun s => is_one (mat_at p s i j)) (p_segs p)) eqn:X.
    - right. apply existsb_exists in X. destruct X as (s & Is & X). apply is_one_iff in X. apply In_nth_error in Is. destruct Is as (k & Es). destruct (mat_at_01 p s i j H (nth_error_In _ _ Es)) as [Z|[_ B]]; [rewrite Z, Cmod_0 in X; lra|]. apply (pristine_pixel p k s i j H Es B).
    - left. rewrite HM, ctotal_zero; [ring|]. intros z Hz. apply in_map_iff in Hz. destruct Hz as (s & <- & Is). destruct (mat_at_01 p s i j H Is) as [Z|[Z _]]; [exact Z|exfalso]. assert (existsb (fun s => is_one (mat_at p s i j)) (p_segs p) = true); [|congruence]. apply existsb_exists. exists s. split; [exact Is|]. apply is_one_iff. rewrite Z. apply Cmod_1. }
  unfold cnz. destruct (Ceq_dec (cpx (p_mat p) i j) (RtoC 0)) as [Z|Z].
  - rewrite Z. ring.
  - destruct Z01 as [Q|Q]; [contradiction|]. rewrite Q. ring.
Qed.
Print Assumptions C91_reset.

(** C91 (finding): reset does not put the segments back: after a shift and a reset the pupil
    looks as built, but removing the segment takes the pixels of the displaced place. *)
Theorem C91_reset_positions_refuted : forall poly g coords cobs spi fill g' p k s dx dy, new_pupil poly g coords cobs spi fill = Ok (g', p) -> pristine p -> 0 < p_ratio p ->
  nth_error (p_segs p) k = Some s -> accepted p s dx dy -> fits (p_n p) (p_c p) (p_ratio p) (moved s dx dy) ->
  exists m m', reset (do_op p (OShift [k] [dx] [dy])) = (set_mat (set_segs p (upd_at (p_segs p) k (moved s dx dy))) m, None) /\ ceq m (p_mat p) /\
  remove (set_mat (set_segs p (upd_at (p_segs p) k (moved s dx dy))) m) [k] = (set_mat (set_segs p (upd_at (p_segs p) k (moved s dx dy))) m', None) /\
  forall i j, ~ belongs p (moved s dx dy) i j -> cpx m' i j = cpx m i j.
Proof.
  intros poly g coords cobs spi fill g' p k s dx dy E H Hr Es Ha Hf. pose proof H as (Hco & _). pose proof Hco as (Cr & Cc & H3 & HF).
  assert (Lk : (k < length (p_segs p))%nat) by (apply nth_error_Some; congruence).
  destruct (C91_reset poly g coords cobs spi fill g' p [OShift [k] [dx] [dy]] E H) as (m & Em & Q). cbn [fold_left] in Em.
  destruct (shift_effect p k s dx dy Hco Hr Es Ha Hf) as (m1 & E1 & R1 & C1 & V1). cbv zeta in E1. unfold do_op in *. rewrite E1 in *. cbn [fst] in *.
  set (p1 := set_segs p (upd_at (p_segs p) k (moved s dx dy))) in *. change (set_mat (set_mat p1 m1) m) with (set_mat p1 m) in Em.
  assert (Hco1 : coherent (set_mat p1 m)). { destruct Q as (Q1 & Q2 & _). split; [cbn; congruence|]. split; [cbn; congruence|]. split; [exact H3|]. intros s' Is. cbn [p1 p_segs set_mat set_segs] in Is. apply upd_In in Is. destruct Is as [->|Is]; [exact Hf|apply HF; exact Is]. }
  destruct (remove_ok [k] (set_mat p1 m) Hco1) as (m' & E' & _ & _ & V'); [intros q [<-|[]]; cbn [p1 p_segs set_mat set_segs]; rewrite upd_length; exact Lk|].
  exists m, m'. split; [exact Em|]. split; [exact Q|]. split; [exact E'|]. intros i j NB. rewrite V'. destruct (taken (set_mat p1 m) [k] i j) eqn:T; [|reflexivity]. exfalso. apply taken_iff in T. destruct T as (q & s' & [<-|[]] & Es' & B). cbn [p1 p_segs set_mat set_segs] in Es'. rewrite upd_nth in Es' by exact Lk. rewrite Nat.eqb_refl in Es'. injection Es' as <-. apply NB. exact B.
Qed.
Print Assumptions C91_reset_positions_refuted.

(** ** zero padding *)
(** C91: padding by a factor r > 1 adds the same even number of pixels on each side, keeps every
    pixel at the same distance from the centre and adds only zeros. *)
Theorem C91_zero_pad : forall p ratio b, 1 < ratio -> crows (p_mat p) = ccols (p_mat p) -> exists d : nat,
  let q := zero_pad p ratio b in let n := crows (p_mat p) in
  Rabs (INR d - INR n * (ratio - 1) / 2) <= /2 /\ crows (p_mat q) = (n + 2 * d)%nat /\ ccols (p_mat q) = (n + 2 * d)%nat /\
  (forall i j, (i < n)%nat -> (j < n)%nat -> cpx (p_mat q) (d + i) (d + j) = cpx (p_mat p) i j) /\
  (forall i j, ~ (d <= i < d + n)%nat \/ ~ (d <= j < d + n)%nat -> cpx (p_mat q) i j = RtoC 0).
Proof.
  intros p ratio b H Hs. exists (Z.to_nat (ZnearestE (INR (crows (p_mat p)) * (ratio - 1) / 2))). cbv zeta. set (x := INR (crows (p_mat p)) * (ratio - 1) / 2).
  assert (Hx : 0 <= x) by (unfold x; pose proof (pos_INR (crows (p_mat p))); apply Rmult_le_pos; [apply Rmult_le_pos; lra|lra]).
  assert (Hz : (0 <= ZnearestE x)%Z). { pose proof (Znearest_half (fun z => negb (Z.even z)) x) as Q. apply Raux.Rabs_le_inv in Q. apply Z.lt_succ_r. apply lt_IZR. unfold Z.succ. rewrite plus_IZR. lra. }
  assert (E : p_mat (zero_pad p ratio b) = cpad (p_mat p) (Z.to_nat (ZnearestE x)) (Z.to_nat (ZnearestE x))).
  { unfold zero_pad. destruct (Rlt_dec 1 ratio); [|lra]. rewrite <- Hs. fold x. destruct b; reflexivity. }
  rewrite E. cbn [cpad crows ccols cpx]. split; [|split; [lia|split; [lia|split]]].
  - rewrite INR_IZR_INZ, Z2Nat.id by exact Hz. rewrite Rabs_minus_sym. apply Znearest_half.
  - intros i j Hi Hj. rewrite <- Hs. replace (_ && _)%bool with true by lia. f_equal; lia.
  - intros i j Hij. rewrite <- Hs. replace (_ && _)%bool with false by lia. reflexivity.
Qed.
Print Assumptions C91_zero_pad.

Definition padded_by (p : pup) (ratio : R) : nat := Z.to_nat (ZnearestE (INR (crows (p_mat p)) * (ratio - 1) / 2)).
(** C91 (finding): padding with flagReplace moves the segments twice: by d pixels with the
    centre, and by d more through their positions; removing a segment afterwards does not take
    its pixels. *)
Theorem C91_pad_positions_refuted : forall p ratio k s, 1 < ratio -> coherent p -> 0 < p_ratio p -> p_c p = INR (p_n p) / 2 -> nth_error (p_segs p) k = Some s -> exists s',
  let q := zero_pad p ratio true in nth_error (p_segs q) k = Some s' /\
  top (p_c q) (p_ratio q) s' = (top (p_c p) (p_ratio p) s + 2 * Z.of_nat (padded_by p ratio))%Z /\
  left (p_c q) (p_ratio q) s' = (left (p_c p) (p_ratio p) s + 2 * Z.of_nat (padded_by p ratio))%Z.
Proof.
  intros p ratio k s H (Cr & Cc & _) Hr Hc Es. unfold zero_pad. destruct (Rlt_dec 1 ratio); [|lra]. cbv zeta. cbn [recentre p_segs p_c p_ratio crows cpad]. fold (padded_by p ratio). rewrite Cc. rewrite <- Cr. fold (padded_by p ratio). set (d := padded_by p ratio).
  rewrite nth_error_map, Es. cbn [option_map]. eexists. split; [reflexivity|]. unfold top, left, corner. cbn [s_posX s_posY s_ex s_ey s_np].
  assert (X : forall y e, INR (d + crows (p_mat p) + d) / 2 - INR (s_np s) / 2 + p_ratio p * (y - (p_c p - INR (d + crows (p_mat p) + d) / 2) / p_ratio p + e) = p_c p - INR (s_np s) / 2 + p_ratio p * (y + e) + IZR (2 * Z.of_nat d)).
  { intros y e. rewrite Hc, !plus_INR, Cr, mult_IZR, <- INR_IZR_INZ. field. lra. }
  rewrite !X, !Zceil_addZ. split; reflexivity.
Qed.
Print Assumptions C91_pad_positions_refuted.

(** ** removal of the zero border *)
Lemma nz_in m x : In x (nz_indices m) <-> exists i j, (i < crows m)%nat /\ (j < ccols m)%nat /\ cpx m i j <> RtoC 0 /\ (x = i \/ x = j).
Proof.
  unfold nz_indices. rewrite in_flat_map. split.
  - intros (i & Ii & H). apply in_seq in Ii. apply in_flat_map in H. destruct H as (j & Ij & H). apply in_seq in Ij. unfold cnz in H. destruct (Ceq_dec (cpx m i j) (RtoC 0)); [destruct H|]. exists i, j. repeat split; try lia; [assumption|]. destruct H as [<-|[<-|[]]]; auto.
  - intros (i & j & Hi & Hj & N & H). exists i. split; [apply in_seq; lia|]. apply in_flat_map. exists j. split; [apply in_seq; lia|]. unfold cnz. destruct (Ceq_dec (cpx m i j) (RtoC 0)); [contradiction|]. destruct H as [->| ->]; cbn; auto.
Qed.
Lemma fmin_spec l x : In (fold_left Nat.min l x) (x :: l) /\ forall y, In y (x :: l) -> (fold_left Nat.min l x <= y)%nat.
Proof.
  revert x. induction l as [|a l IH]; intros x; cbn [fold_left]; [split; [left; reflexivity|intros y [<-|[]]; lia]|]. destruct (IH (Nat.min x a)) as [I B]. split.
  - destruct I as [I|I]; [|right; right; exact I]. rewrite <- I. destruct (Nat.min_spec x a) as [[_ ->]|[_ ->]]; [left|right; left]; reflexivity.
  - intros y [<-|[<-|Hy]]; [| |apply B; right; exact Hy]; (eapply Nat.le_trans; [apply B; left; reflexivity|lia]).
Qed.
Lemma fmax_spec l x : In (fold_left Nat.max l x) (x :: l) /\ forall y, In y (x :: l) -> (y <= fold_left Nat.max l x)%nat.
Proof.
  revert x. induction l as [|a l IH]; intros x; cbn [fold_left]; [split; [left; reflexivity|intros y [<-|[]]; lia]|]. destruct (IH (Nat.max x a)) as [I B]. split.
  - destruct I as [I|I]; [|right; right; exact I]. rewrite <- I. destruct (Nat.max_spec x a) as [[_ ->]|[_ ->]]; [right; left|left]; reflexivity.
  - intros y [<-|[<-|Hy]]; [| |apply B; right; exact Hy]; (eapply Nat.le_trans; [|apply B; left; reflexivity]); lia.
Qed.

(** C91: removal of the zero border of a square pupil: a square array, cut from the pupil at the
    same offset on both axes; what is dropped before the cut is zero. *)
Theorem C91_border : forall p b i0 j0, crows (p_mat p) = ccols (p_mat p) -> (i0 < crows (p_mat p))%nat -> (j0 < crows (p_mat p))%nat -> cpx (p_mat p) i0 j0 <> RtoC 0 ->
  exists (z w : nat) q, remove_zero_border p b = (q, None) /\ (z + w < crows (p_mat p))%nat /\ crows (p_mat q) = w /\ ccols (p_mat q) = w /\
  (forall i j, cpx (p_mat q) i j = cpx (p_mat p) (z + i) (z + j)) /\
  (forall i j, (i < crows (p_mat p))%nat -> (j < crows (p_mat p))%nat -> (i < z \/ j < z \/ z + w < i \/ z + w < j)%nat -> cpx (p_mat p) i j = RtoC 0) /\
  (exists k, (k < crows (p_mat p))%nat /\ (cpx (p_mat p) (z + w) k <> RtoC 0 \/ cpx (p_mat p) k (z + w) <> RtoC 0)).
Proof.
  intros p b i0 j0 Hs Hi Hj Nz. unfold remove_zero_border. pose proof (nz_in (p_mat p)) as NZ. destruct (nz_indices (p_mat p)) as [|x r].
  { exfalso. apply (NZ i0). exists i0, j0. rewrite <- Hs. auto. }
  destruct (fmin_spec r x) as [I1 B1]. destruct (fmax_spec r x) as [I2 B2]. set (z1 := fold_left Nat.min r x) in *. set (z2 := fold_left Nat.max r x) in *.
  pose proof (B1 z2 I2) as L12. pose proof (proj1 (NZ z2) I2) as (a & c & Ha & Hc & Nac & Eac). assert (Hz2 : (z2 < crows (p_mat p))%nat) by (destruct Eac; lia).
  exists z1, (z2 - z1)%nat, (if b then recentre p (cslice (p_mat p) (Z.of_nat z1) (Z.of_nat z2) (Z.of_nat z1) (Z.of_nat z2)) else set_mat p (cslice (p_mat p) (Z.of_nat z1) (Z.of_nat z2) (Z.of_nat z1) (Z.of_nat z2))).
  split; [destruct b; reflexivity|].
  assert (EM : p_mat (if b then recentre p (cslice (p_mat p) (Z.of_nat z1) (Z.of_nat z2) (Z.of_nat z1) (Z.of_nat z2)) else set_mat p (cslice (p_mat p) (Z.of_nat z1) (Z.of_nat z2) (Z.of_nat z1) (Z.of_nat z2))) = cslice (p_mat p) (Z.of_nat z1) (Z.of_nat z2) (Z.of_nat z1) (Z.of_nat z2)) by (destruct b; reflexivity). rewrite EM.
  unfold cslice. cbv zeta. cbn [crows ccols cpx]. rewrite <- Hs. rewrite !slice_len_in by lia. rewrite !slice_bound_in by lia. split; [lia|]. split; [lia|]. split; [lia|]. split; [intros i j; rewrite Nat2Z.id; reflexivity|]. split.
  - intros i j Hi' Hj' O. destruct (Ceq_dec (cpx (p_mat p) i j) (RtoC 0)) as [Z|Z]; [exact Z|exfalso]. assert (Ii : In i (x :: r)) by (apply NZ; exists i, j; rewrite <- Hs; auto). assert (Ij : In j (x :: r)) by (apply NZ; exists i, j; rewrite <- Hs; auto). pose proof (B1 i Ii). pose proof (B1 j Ij). pose proof (B2 i Ii). pose proof (B2 j Ij). lia.
  - replace (z1 + (z2 - z1))%nat with z2 by lia. destruct Eac as [-> | ->]; [exists c; split; [lia|left; exact Nac]|exists a; split; [lia|right; exact Nac]].
Qed.
Print Assumptions C91_border.
(** C91 (finding): the last non-zero row or column is dropped with the border. A pupil that has
    no zero border, with light on its first row and on its last row, still loses its last row
    and its last column. *)
Theorem C91_border_refuted : forall p b n j0 j1, crows (p_mat p) = S n -> ccols (p_mat p) = S n -> (j0 <= n)%nat -> (j1 <= n)%nat ->
  cpx (p_mat p) 0 j0 <> RtoC 0 -> cpx (p_mat p) n j1 <> RtoC 0 ->
  exists q, remove_zero_border p b = (q, None) /\ crows (p_mat q) = n /\ ccols (p_mat q) = n /\ forall i j, cpx (p_mat q) i j = cpx (p_mat p) i j.
Proof.
  intros p b n j0 j1 Hr Hc H0 H1 N0 N1. destruct (C91_border p b 0%nat j0) as (z & w & q & E & L & R1 & C1 & V & O & _); try lia; [exact N0|].
  assert (z = 0)%nat. { destruct z as [|z]; [reflexivity|]. exfalso. apply N0. apply O; lia. }
  assert (z + w = n)%nat. { destruct (Nat.eq_dec (z + w) n) as [Q|Q]; [exact Q|]. exfalso. apply N1. apply O; lia. }
  exists q. split; [exact E|]. split; [lia|]. split; [lia|]. intros i j. rewrite V. f_equal; lia.
Qed.
Print Assumptions C91_border_refuted.

(** non-vacuity: the built pupil of C89_ex *)
Example C91_ex : exists p q, new_pupil (fun _ _ _ _ => true) (mkRef 4 1 2 (mkC 2 2 (fun _ _ => RtoC 1))) [(0, 0)] 0 None false = Ok (mkRef 4 1 2 (mkC 2 2 (fun _ _ => RtoC 1)), p) /\ pristine p /\
  calls p [mkCall [0%nat] [fun i j => INR i] [[2]]] = (q, None) /\ Forall (regular (length (p_segs p))) [mkCall [0%nat] [fun i j => INR i] [[2]]].
Proof.
  destruct C89_ex as (p & E & H & L).
  assert (F : Forall (regular (length (p_segs p))) [mkCall [0%nat] [fun i j => INR i] [[2]]]).
  { constructor; [|constructor]. rewrite L. split; [discriminate|]. split; [constructor; [intros []|constructor]|]. split; [intros k [<-|[]]; lia|]. split; [discriminate|]. split; [reflexivity|]. intros l [<-|[]]. reflexivity. }
  destruct (C90_phase_history p _ H F) as (q & Eq & _). exists p, q. auto.
Qed.
