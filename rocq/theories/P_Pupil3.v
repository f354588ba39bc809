(** C90: shifts and phase aberrations of the segments; reset. *)
From Coq Require Import Reals List Arith ZArith Lia Lra Psatz Permutation.
From Coq Require Import ZifyBool ZifyNat.
From Flocq Require Import Core.Raux.
From Verif Require Import Base_Py Base_Sum Base_DFT M_Image M_Fourier M_Tools M_Freq L_Tools2 M_Pupil S_Pupil L_Pupil P_Pupil P_Pupil2 M_Tools.
From Coquelicot Require Import Complex.
Import ListNotations.
Open Scope R_scope.

(** a segment displaced by dx, dy metres *)
Definition moved (s : segm) (dx dy : R) : segm :=
  mkSeg (s_mat s) (s_shape s) (s_posX s) (s_posY s) (s_ex s + dx) (s_ey s + dy) (s_refl s) (s_ph s) (s_np s).

Lemma upd_nth {A} (l : list A) k x q : (k < length l)%nat -> nth_error (upd_at l k x) q = if (q =? k)%nat then Some x else nth_error l q.
Proof.
  revert k q. induction l as [|a l IH]; intros k q H; [cbn in H; lia|]. destruct k as [|k], q as [|q]; cbn [upd_at nth_error Nat.eqb]; try reflexivity. apply IH. cbn in H. lia.
Qed.
Lemma upd_In {A} (l : list A) k (x y : A) : In y (upd_at l k x) -> y = x \/ In y l.
Proof. revert k. induction l as [|a l IH]; intros [|k] H; cbn in *; [destruct H|destruct H|destruct H; auto|]. destruct H as [H|H]; [auto|]. destruct (IH k H); auto. Qed.
Lemma upd_length {A} (l : list A) k (x : A) : length (upd_at l k x) = length l.
Proof. revert k. induction l as [|a l IH]; intros [|k]; cbn; auto. Qed.

(** the limits actually tested by shiftSegment *)
Definition accepted (p : pup) (s : segm) (dx dy : R) : Prop :=
  let n := INR (p_n p) in let t := IZR (top (p_c p) (p_ratio p) s) in let l := IZR (left (p_c p) (p_ratio p) s) in let w := INR (s_np s) in
  (t - n) / p_ratio p <= dx <= (n - (t + w)) / p_ratio p /\ (l - n) / p_ratio p <= dy <= (n - (l + w)) / p_ratio p.

Lemma shift_one_cases p k s dx dy : coherent p -> 0 < p_ratio p -> nth_error (p_segs p) k = Some s ->
  (accepted p s dx dy -> shift_one [dx] [dy] p (0%nat, k) =
     let p' := set_segs p (upd_at (p_segs p) k (moved s dx dy)) in
     match add_at (p_ratio p) (p_c p) (p_mat p) (moved s dx dy) (s_mat s) with Err e => (p', Some e) | Ok m => (set_mat p' m, None) end) /\
  (~ accepted p s dx dy -> shift_one [dx] [dy] p (0%nat, k) = remove p [k]).
Proof.
  intros H Hr Es. destruct H as (_ & _ & _ & HF). destruct (HF s (nth_error_In _ _ Es)) as (F1 & F2 & _). unfold shift_one. cbn [nth_error]. rewrite Es. rewrite (pos_fit (p_ratio p) (p_c p) s F1 F2). cbv zeta. cbn [r0 r1 c0 c1].
  destruct (Req_EM_T (p_ratio p) 0) as [Z|_]; [lra|].
  replace (Z.max (top (p_c p) (p_ratio p) s) (top (p_c p) (p_ratio p) s + Z.of_nat (s_np s))) with (top (p_c p) (p_ratio p) s + Z.of_nat (s_np s))%Z by lia.
  replace (Z.min (top (p_c p) (p_ratio p) s) (top (p_c p) (p_ratio p) s + Z.of_nat (s_np s))) with (top (p_c p) (p_ratio p) s) by lia.
  replace (Z.max (left (p_c p) (p_ratio p) s) (left (p_c p) (p_ratio p) s + Z.of_nat (s_np s))) with (left (p_c p) (p_ratio p) s + Z.of_nat (s_np s))%Z by lia.
  replace (Z.min (left (p_c p) (p_ratio p) s) (left (p_c p) (p_ratio p) s + Z.of_nat (s_np s))) with (left (p_c p) (p_ratio p) s) by lia.
  unfold accepted. cbv zeta. rewrite !plus_IZR, <- !INR_IZR_INZ.
  replace (- INR (p_n p) + IZR (top (p_c p) (p_ratio p) s)) with (IZR (top (p_c p) (p_ratio p) s) - INR (p_n p)) by ring. replace (- INR (p_n p) + IZR (left (p_c p) (p_ratio p) s)) with (IZR (left (p_c p) (p_ratio p) s) - INR (p_n p)) by ring.
  set (a := (INR (p_n p) - (IZR (top (p_c p) (p_ratio p) s) + INR (s_np s))) / p_ratio p). set (b := (IZR (top (p_c p) (p_ratio p) s) - INR (p_n p)) / p_ratio p).
  set (c := (INR (p_n p) - (IZR (left (p_c p) (p_ratio p) s) + INR (s_np s))) / p_ratio p). set (d := (IZR (left (p_c p) (p_ratio p) s) - INR (p_n p)) / p_ratio p).
  destruct (Rlt_dec a dx); [split; [intros Q; lra|reflexivity]|]. destruct (Rlt_dec dx b); [split; [intros Q; lra|reflexivity]|]. destruct (Rlt_dec c dy); [split; [intros Q; lra|reflexivity]|]. destruct (Rlt_dec dy d); [split; [intros Q; lra|reflexivity]|].
  split; [reflexivity|]. intros Q. exfalso. apply Q. lra.
Qed.

(** effect of the shift of one segment, when accepted and still inside the array *)
Lemma shift_effect p k s dx dy : coherent p -> 0 < p_ratio p -> nth_error (p_segs p) k = Some s -> accepted p s dx dy -> fits (p_n p) (p_c p) (p_ratio p) (moved s dx dy) ->
  let p' := set_segs p (upd_at (p_segs p) k (moved s dx dy)) in exists m,
  shift_segment p [k] [dx] [dy] = (set_mat p' m, None) /\ crows m = p_n p /\ ccols m = p_n p /\
  forall i j, cpx m i j = Cmult (RtoC (transmission p i j)) (Cplus (if taken p [k] i j then RtoC 0 else cpx (p_mat p) i j) (over (p_c p) (p_ratio p) (moved s dx dy) (cpx (s_mat s)) i j)).
Proof.
  intros H Hr Es Ha Hf p'. assert (V : valid p [k]) by (intros q [<-|[]]; apply nth_error_Some; congruence).
  destruct (remove_ok [k] p H V) as (m1 & E1 & R1 & C1 & V1). unfold shift_segment. rewrite E1. unfold andthen. cbn [snd fst length seq combine loop].
  assert (H1 : coherent (set_mat p m1)) by (destruct H as (_ & _ & H3 & H4); split; [exact R1|]; split; [exact C1|]; split; [exact H3|exact H4]).
  destruct (shift_one_cases (set_mat p m1) k s dx dy H1 Hr Es) as [SC _]. rewrite (SC Ha). cbv zeta. clear SC. cbn [p_ratio p_c p_mat set_mat p_segs].
  pose proof Hf as (F1 & F2 & _). destruct (add_at_ok (p_n p) (p_ratio p) (p_c p) m1 (moved s dx dy) (s_mat s) R1 C1 Hf F1 F2) as (m2 & -> & R2 & C2 & V2). cbn [snd fst].
  unfold andthen. cbn [snd fst].
  destruct (finish_ok (set_mat (set_segs (set_mat p m1) (upd_at (p_segs p) k (moved s dx dy))) m2) R2 C2) as (m3 & E & R3 & C3 & V3); [destruct H as (_ & _ & H3 & _); exact H3|].
  exists m3. split; [rewrite E; reflexivity|]. split; [exact R3|]. split; [exact C3|]. intros i j. rewrite V3. f_equal. cbn [p_mat set_mat]. rewrite V2, V1. reflexivity.
Qed.

Lemma moved0 s : moved s 0 0 = s.
Proof. destruct s. unfold moved. cbn. rewrite !Rplus_0_r. reflexivity. Qed.
Lemma upd_same {A} (l : list A) k x : nth_error l k = Some x -> upd_at l k x = l.
Proof. revert k. induction l as [|a l IH]; intros [|k] H; cbn in *; try discriminate; [congruence|]. rewrite IH by exact H. reflexivity. Qed.

(** C90: a null shift of a segment of a pupil as built changes nothing. *)
Theorem C90_shift_zero : forall p k s, pristine p -> 0 < p_ratio p -> nth_error (p_segs p) k = Some s -> exists m,
  shift_segment p [k] [0] [0] = (set_mat p m, None) /\ ceq m (p_mat p).
Proof.
  intros p k s H Hr Es. pose proof H as (Hco & HB & _ & _ & HM & _). pose proof Hco as (Cr & Cc & _ & HF). pose proof (HF s (nth_error_In _ _ Es)) as Fs. pose proof Fs as (F1 & F2 & F3 & F4 & F5 & F6).
  assert (Ha : accepted p s 0 0). { unfold accepted. cbv zeta. apply IZR_le in F3, F4, F5, F6. rewrite plus_IZR, <- !INR_IZR_INZ in F4, F6. pose proof (pos_INR (s_np s)). assert (Hi : 0 < / p_ratio p) by (apply Rinv_0_lt_compat; exact Hr). unfold Rdiv. 
    assert (Q1 : forall x, 0 <= x -> 0 <= x * / p_ratio p) by (intros; apply Rmult_le_pos; lra). assert (Q2 : forall x, x <= 0 -> x * / p_ratio p <= 0). { intros x Hx. pose proof (Q1 (- x)). rewrite <- Ropp_mult_distr_l in H1. lra. }
    split; split; first [apply Q1; lra|apply Q2; lra]. }
  destruct (shift_effect p k s 0 0 Hco Hr Es Ha) as (m & E & R1 & C1 & V); [rewrite moved0; exact Fs|]. cbv zeta in E. rewrite moved0 in E, V. rewrite (upd_same _ _ _ Es) in E. exists m. split; [rewrite E; destruct p; reflexivity|]. split; [congruence|]. split; [congruence|]. intros i j _ _. rewrite V.
  destruct (taken p [k] i j) eqn:T.
  - apply taken_iff in T. destruct T as (q & s' & [<-|[]] & Es' & B). assert (s' = s) by congruence. subst s'. rewrite (pristine_pixel p k s i j H Es B). destruct (mat_at_01 p s i j H (nth_error_In _ _ Es)) as [Z|[Z _]]; unfold mat_at in Z.
    + destruct B as [_ B]. rewrite Z, Cmod_0 in B. lra.
    + rewrite Z. ring.
  - destruct (mat_at_01 p s i j H (nth_error_In _ _ Es)) as [Z|[_ B]]; [|exfalso; assert (taken p [k] i j = true) by (apply taken_iff; exists k, s; split; [left; reflexivity|auto]); congruence]. unfold mat_at in Z. rewrite Z, Cplus_0_r. rewrite HM. destruct (transmission_01 p i j HB) as [-> | ->]; ring.
Qed.
Print Assumptions C90_shift_zero.

Lemma nth_ext' {A} (l l' : list A) : (forall q, nth_error l q = nth_error l' q) -> l = l'.
Proof. revert l'. induction l as [|a l IH]; intros [|b l'] H; [reflexivity|specialize (H 0%nat); discriminate|specialize (H 0%nat); discriminate|]. pose proof (H 0%nat) as H0. cbn in H0. injection H0 as ->. f_equal. apply IH. intros q. apply (H (S q)). Qed.

(** C90: moving a segment to a free place and back restores the pupil. *)
Theorem C90_shift_back : forall p k s dx dy, pristine p -> 0 < p_ratio p -> nth_error (p_segs p) k = Some s ->
  accepted p s dx dy -> fits (p_n p) (p_c p) (p_ratio p) (moved s dx dy) -> accepted p (moved s dx dy) (- dx) (- dy) ->
  (forall k' s' i j, k' <> k -> nth_error (p_segs p) k' = Some s' -> mat_at p s' i j = RtoC 0 \/ mat_at p (moved s dx dy) i j = RtoC 0) ->
  exists p1 m, shift_segment p [k] [dx] [dy] = (p1, None) /\ shift_segment p1 [k] [- dx] [- dy] = (set_mat p m, None) /\ ceq m (p_mat p).
Proof.
  intros p k s dx dy H Hr Es Ha Hf Ha' Free. pose proof H as (Hco & HB & HSh & _ & HM & HD). pose proof Hco as (Cr & Cc & H3 & HF). pose proof (HF s (nth_error_In _ _ Es)) as Fs.
  assert (Lk : (k < length (p_segs p))%nat) by (apply nth_error_Some; congruence).
  destruct (shift_effect p k s dx dy Hco Hr Es Ha Hf) as (m1 & E1 & R1 & C1 & V1). cbv zeta in E1. set (p1 := set_mat (set_segs p (upd_at (p_segs p) k (moved s dx dy))) m1) in *.
  assert (Hco1 : coherent p1). { split; [exact R1|]. split; [exact C1|]. split; [exact H3|]. intros s' Is. cbn [p1 p_segs set_mat set_segs] in Is. apply upd_In in Is. destruct Is as [->|Is]; [exact Hf|apply HF; exact Is]. }
  assert (Es1 : nth_error (p_segs p1) k = Some (moved s dx dy)) by (cbn [p1 p_segs set_mat set_segs]; rewrite upd_nth by exact Lk; rewrite Nat.eqb_refl; reflexivity).
  assert (MM : moved (moved s dx dy) (- dx) (- dy) = s). { destruct s. unfold moved. cbn. f_equal; ring. }
  destruct (shift_effect p1 k (moved s dx dy) (- dx) (- dy) Hco1 Hr Es1 Ha') as (m2 & E2 & R2 & C2 & V2); [rewrite MM; exact Fs|]. cbv zeta in E2. rewrite MM in E2, V2. exists p1, m2. split; [exact E1|]. split.
  { rewrite E2. cbn [p1 p_segs set_mat set_segs]. assert (UU : upd_at (upd_at (p_segs p) k (moved s dx dy)) k s = p_segs p). { apply nth_ext'. intros q. rewrite upd_nth by (rewrite upd_length; exact Lk). rewrite upd_nth by exact Lk. destruct (Nat.eqb_spec q k) as [->|]; [congruence|reflexivity]. } rewrite UU. destruct p; reflexivity. }
  cbn [p_n p1 set_mat set_segs] in R2, C2. split; [congruence|]. split; [congruence|]. intros i j _ _. rewrite V2. change (transmission p1 i j) with (transmission p i j). cbn [p_mat p1 set_mat p_c p_ratio set_segs]. change (s_mat (moved s dx dy)) with (s_mat s) in *. rewrite V1.
  set (T := transmission p i j). assert (HT := transmission_01 p i j HB). fold T in HT.
  (* the pixels of the displaced segment *)
  assert (T1 : taken p1 [k] i j = true <-> mat_at p (moved s dx dy) i j = RtoC 1).
  { rewrite taken_iff. unfold belongs_any, belongs. cbn [p1 p_c p_ratio set_mat set_segs]. fold p1.
    assert (Z01 : mat_at p (moved s dx dy) i j = RtoC 0 \/ (inside (p_c p) (p_ratio p) (moved s dx dy) i j = true /\ mat_at p (moved s dx dy) i j = RtoC 1)).
    { unfold mat_at, over. change (s_mat (moved s dx dy)) with (s_mat s). destruct (inside (p_c p) (p_ratio p) (moved s dx dy) i j) eqn:I; [|left; reflexivity].
      destruct (HSh s (nth_error_In _ _ Es) (Z.to_nat (Z.of_nat i - top (p_c p) (p_ratio p) (moved s dx dy))) (Z.to_nat (Z.of_nat j - left (p_c p) (p_ratio p) (moved s dx dy)))) as [[Z|Z] EM]; rewrite EM, Z; auto. }
    split.
    - intros (q & s' & [<-|[]] & Es' & I & U). rewrite Es1 in Es'. injection Es' as <-. fold (mat_at p (moved s dx dy) i j) in U. destruct Z01 as [Z|[_ Z]]; [rewrite Z, Cmod_0 in U; lra|exact Z].
    - intros Z. exists k, (moved s dx dy). split; [left; reflexivity|]. split; [exact Es1|]. destruct Z01 as [Z'|[I _]]; [rewrite Z in Z'; apply RtoC_inj in Z'; lra|]. split; [exact I|]. fold (mat_at p (moved s dx dy) i j). rewrite Z. apply Cmod_1. }
  assert (M1 : mat_at p (moved s dx dy) i j = RtoC 0 \/ mat_at p (moved s dx dy) i j = RtoC 1).
  { unfold mat_at, over. change (s_mat (moved s dx dy)) with (s_mat s). destruct (inside (p_c p) (p_ratio p) (moved s dx dy) i j); [|left; reflexivity].
    destruct (HSh s (nth_error_In _ _ Es) (Z.to_nat (Z.of_nat i - top (p_c p) (p_ratio p) (moved s dx dy))) (Z.to_nat (Z.of_nat j - left (p_c p) (p_ratio p) (moved s dx dy)))) as [[Z|Z] EM]; rewrite EM, Z; auto. }
  destruct (taken p [k] i j) eqn:TK.
  - apply taken_iff in TK. destruct TK as (q & s' & [<-|[]] & Es' & B). assert (s' = s) by congruence. subst s'. rewrite (pristine_pixel p k s i j H Es B). fold T.
    destruct (mat_at_01 p s i j H (nth_error_In _ _ Es)) as [Z|[Z _]]; unfold mat_at in Z; [destruct B as [_ B]; rewrite Z, Cmod_0 in B; lra|]. rewrite Z.
    destruct (taken p1 [k] i j) eqn:TK1; [ring|]. destruct M1 as [M1|M1]; [|apply T1 in M1; congruence]. unfold mat_at in M1. change (s_mat (moved s dx dy)) with (s_mat s) in M1. rewrite M1. ring.
  - assert (Z : over (p_c p) (p_ratio p) s (cpx (s_mat s)) i j = RtoC 0). { destruct (mat_at_01 p s i j H (nth_error_In _ _ Es)) as [Z|[_ B]]; [exact Z|exfalso]. assert (taken p [k] i j = true) by (apply taken_iff; exists k, s; split; [left; reflexivity|auto]). congruence. }
    rewrite Z. destruct (taken p1 [k] i j) eqn:TK1.
    + clear TK1. pose proof (proj1 T1 eq_refl) as TK1. (* the place was free *)
      rewrite HM. fold T. assert (Z0 : ctotal (map (fun s0 => mat_at p s0 i j) (p_segs p)) = RtoC 0).
      { apply (ctotal_single _ k); [rewrite nth_error_map, Es; cbn; f_equal; exact Z|]. intros k' z' N Q. rewrite nth_error_map in Q. destruct (nth_error (p_segs p) k') as [s'|] eqn:Es'; [|discriminate]. cbn in Q. injection Q as <-. destruct (Free k' s' i j N Es') as [Q|Q]; [exact Q|]. rewrite TK1 in Q. apply RtoC_inj in Q. lra. }
      rewrite Z0. ring.
    + destruct M1 as [M1|M1]; [|apply T1 in M1; congruence]. unfold mat_at in M1. change (s_mat (moved s dx dy)) with (s_mat s) in M1. rewrite M1, !Cplus_0_r. rewrite HM. fold T. destruct HT as [-> | ->]; ring.
Qed.
Print Assumptions C90_shift_back.

(** C90 (finding): the limits of the shift along x are computed from the rows and those along y
    from the columns. A segment on the last column may be pushed out of the array: the shift
    raises and the segment is gone. *)
Theorem C90_shift_out_refuted : forall p k s dx, coherent p -> 0 < p_ratio p -> nth_error (p_segs p) k = Some s -> (2 <= s_np s)%nat ->
  (left (p_c p) (p_ratio p) s + Z.of_nat (s_np s) = Z.of_nat (p_n p))%Z ->
  1 <= p_ratio p * dx -> accepted p s dx 0 ->
  exists m, shift_segment p [k] [dx] [0] = (set_mat (set_segs p (upd_at (p_segs p) k (moved s dx 0))) m, Some ValueError) /\
  forall i j, belongs p s i j -> cpx m i j = RtoC 0.
Proof.
  intros p k s dx H Hr Es Hn Hl Hd Ha. assert (V : valid p [k]) by (intros q [<-|[]]; apply nth_error_Some; congruence). pose proof H as (Cr & Cc & H3 & H4). pose proof (H4 s (nth_error_In _ _ Es)) as (F1 & F2 & F3 & F4 & F5 & F6).
  destruct (remove_ok [k] p H V) as (m1 & E1 & R1 & C1 & V1). exists m1. split.
  - unfold shift_segment. rewrite E1. unfold andthen. cbn [snd fst length seq combine loop].
    assert (H1 : coherent (set_mat p m1)) by (split; [exact R1|]; split; [exact C1|]; split; [exact H3|exact H4]).
    destruct (shift_one_cases (set_mat p m1) k s dx 0 H1 Hr Es) as [SC _]. rewrite (SC Ha). cbv zeta. cbn [p_ratio p_c p_mat set_mat p_segs].
    assert (A : add_at (p_ratio p) (p_c p) m1 (moved s dx 0) (s_mat s) = Err ValueError).
    { unfold add_at. rewrite (pos_fit (p_ratio p) (p_c p) (moved s dx 0) F1 F2). cbn [r0 r1 c0 c1].
      assert (TT : top (p_c p) (p_ratio p) (moved s dx 0) = top (p_c p) (p_ratio p) s) by (unfold top; cbn [moved s_posY s_ey s_np]; rewrite Rplus_0_r; reflexivity). rewrite TT.
      assert (LL : (left (p_c p) (p_ratio p) s + 1 <= left (p_c p) (p_ratio p) (moved s dx 0))%Z). { unfold left, corner. cbn [moved s_posX s_ex s_np]. rewrite <- Zceil_addZ. apply Zceil_le. cbn. lra. }
      change (s_np (moved s dx 0)) with (s_np s). set (l' := left (p_c p) (p_ratio p) (moved s dx 0)) in *. unfold cadd_slice. cbv zeta. rewrite R1, C1.
      assert (NE : (Z.to_nat (slice_len (Z.of_nat (p_n p)) l' (l' + Z.of_nat (s_np s))) <> s_np s)%nat). { unfold slice_len, slice_bound. destruct (Z.ltb_spec l' 0); destruct (Z.ltb_spec (l' + Z.of_nat (s_np s)) 0); lia. }
      rewrite F1, F2. destruct (Nat.eqb_spec (s_np s) (Z.to_nat (slice_len (Z.of_nat (p_n p)) l' (l' + Z.of_nat (s_np s))))); [congruence|]. destruct (Nat.eqb_spec (s_np s) 1); [lia|]. cbn [orb]. rewrite andb_false_r. reflexivity. }
    rewrite A. reflexivity.
  - intros i j B. rewrite V1. assert (T : taken p [k] i j = true) by (apply taken_iff; exists k, s; split; [left; reflexivity|auto]). rewrite T. reflexivity.
Qed.
Print Assumptions C90_shift_out_refuted.

(** C90 (finding): conversely a segment on the last row cannot be moved along x at all: it is
    removed instead, without an exception. *)
Theorem C90_shift_lost_refuted : forall p k s dx, coherent p -> 0 < p_ratio p -> nth_error (p_segs p) k = Some s ->
  (top (p_c p) (p_ratio p) s + Z.of_nat (s_np s) = Z.of_nat (p_n p))%Z -> 0 < dx ->
  exists m, shift_segment p [k] [dx] [0] = (set_mat p m, None) /\ forall i j, belongs p s i j -> cpx m i j = RtoC 0.
Proof.
  intros p k s dx H Hr Es Ht Hd. assert (V : valid p [k]) by (intros q [<-|[]]; apply nth_error_Some; congruence). pose proof H as (Cr & Cc & H3 & H4).
  destruct (remove_ok [k] p H V) as (m1 & E1 & R1 & C1 & V1). unfold shift_segment. rewrite E1. unfold andthen at 1. cbn [snd fst length seq combine loop].
  assert (H1 : coherent (set_mat p m1)) by (split; [exact R1|]; split; [exact C1|]; split; [exact H3|exact H4]).
  destruct (shift_one_cases (set_mat p m1) k s dx 0 H1 Hr Es) as [_ SC]. rewrite SC.
  2:{ unfold accepted. cbv zeta. cbn [p_n set_mat p_c p_ratio]. intros [[_ Q] _]. apply (f_equal IZR) in Ht. rewrite plus_IZR, <- !INR_IZR_INZ in Ht. rewrite Ht in Q. replace (INR (p_n p) - INR (p_n p)) with 0 in Q by ring. unfold Rdiv in Q. rewrite Rmult_0_l in Q. lra. }
  destruct (remove_ok [k] (set_mat p m1) H1 V) as (m2 & -> & R2 & C2 & V2). unfold andthen. cbn [snd fst].
  destruct (finish_ok (set_mat (set_mat p m1) m2) R2 C2 H3) as (m3 & E & R3 & C3 & V3). exists m3. split; [rewrite E; reflexivity|]. intros i j B. rewrite V3. cbn [p_mat set_mat]. rewrite V2.
  assert (T : taken (set_mat p m1) [k] i j = true) by (apply taken_iff; exists k, s; split; [left; reflexivity|auto]). rewrite T. ring.
Qed.
Print Assumptions C90_shift_lost_refuted.
