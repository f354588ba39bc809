(** Property C40: what a fit does with the parameters, for every minimiser. *)
From Coq Require Import Reals List Arith ZArith Bool Lia Lra.
From Flocq Require Import Core.Raux.
From Verif Require Import Base_Py Base_Sum M_Image L_Image2 M_Tools M_Atmo L_Atmo L_Freq M_Model2 M_Fit L_Fit.
Import ListNotations.
Open Scope R_scope.

(** ** Specification *)
Definition is_fixed (o : fitargs) (i : nat) : Prop := exists f, f_fixed o = Some f /\ nth_error f i = Some true.
Definition is_free (o : fitargs) (n i : nat) : Prop := (i < n)%nat /\ ~ is_fixed o i.
(** outcome of the call [f]: parameter vectors tried, result *)
Definition tried (c : list (list R) * result fitres * img) : list (list R) := fst (fst c).
Definition outcome (c : list (list R) * result fitres * img) : result fitres := snd (fst c).
Definition image_after (c : list (list R) * result fitres * img) : img := snd c.
(** a parameter vector of the call: tried by the minimisation, or the answer *)
Definition vector_of (c : list (list R) * result fitres * img) (x : list R) : Prop := In x (tried c) \/ exists r, outcome c = Ok r /\ r_x r = x.
(** the minimiser keeps to the bounds it is given *)
Definition respects_bounds (solver : list R -> option (list ext * list ext) -> strat) : Prop :=
  forall y0 b, feasible b y0 = true -> obeys (fun y => feasible b y = true) (solver y0 (Some b)).
Definition keeps_length (solver : list R -> option (list ext * list ext) -> strat) : Prop :=
  forall y0 b, obeys (fun y => length y = length y0) (solver y0 b).

(** ** Analysis of a call *)
Lemma fit_vectors solver inv m image x0 o x : vector_of (psfFitting solver inv m image x0 o) x ->
  exists y0 b cst y, input2mini x0 (f_fixed o) = Ok y0 /\
    (f_trf o = true -> exists bb, b = Some bb /\ get_bounds (p_bounds m) (f_bounds o) (f_fixed o) = Ok bb /\ bounds_ok bb y0 = true) /\
    (forall f, f_fixed o = Some f -> length f = length x0) /\
    (In y (fst (run cst (solver y0 b))) \/ exists fv j, snd (run cst (solver y0 b)) = Ok (y, fv, j)) /\
    mini2input x0 (f_fixed o) false y = Ok x.
Proof.
  unfold vector_of, tried, outcome, psfFitting. intros H.
  match type of H with context [match ?c with Ok _ => _ | Err _ => _ end] => destruct c as [[w im]|e] eqn:E1 end; [|cbn in H; destruct H as [[]|(r & H & _)]; discriminate].
  match type of H with context [match ?c with Ok _ => _ | Err _ => _ end] => destruct c as [[[[imn p] y0] b]|e] eqn:E2 end; [|cbn in H; destruct H as [[]|(r & H & _)]; discriminate].
  apply bind_ok in E2. destruct E2 as ([imn' p'] & _ & E2). apply bind_ok in E2. destruct E2 as (u & Ef & E2). apply bind_ok in E2. destruct E2 as (y0' & Ey & E2). apply bind_ok in E2. destruct E2 as (b' & Eb & E2).
  apply Ok_inj in E2. injection E2 as -> -> -> ->. cbv zeta in H. cbn [fst snd] in H.
  set (cst := fun y => do x <- mini2input x0 (f_fixed o) false y; cost m o w imn p x) in H. exists y0, b, cst.
  assert (G1 : f_trf o = true -> exists bb, b = Some bb /\ get_bounds (p_bounds m) (f_bounds o) (f_fixed o) = Ok bb /\ bounds_ok bb y0 = true).
  { intros T. rewrite T in Eb. apply bind_ok in Eb. destruct Eb as (bb & G & Eb). destruct (bounds_ok bb y0) eqn:K; [|discriminate]. apply Ok_inj in Eb. exists bb. rewrite Eb. auto. }
  assert (G2 : forall f, f_fixed o = Some f -> length f = length x0).
  { intros f F. rewrite F in Ef. destruct (length f =? length x0)%nat eqn:K; [now apply Nat.eqb_eq|discriminate]. }
  destruct H as [H|(r & H & Hx)].
  - apply in_flat_map in H. destruct H as (y & Hy & H). destruct (mini2input x0 (f_fixed o) false y) as [x'|] eqn:C; [|destruct H]. destruct H as [<-|[]]. exists y. split; [exact Ey|]. split; [exact G1|]. split; [exact G2|]. split; [left; exact Hy|exact C].
  - apply bind_ok in H. destruct H as ([[y fv] j] & Hr & H). apply bind_ok in H. destruct H as (x' & C & H).
    apply bind_ok in H. destruct H as (? & _ & H). apply bind_ok in H. destruct H as (? & _ & H). apply bind_ok in H. destruct H as (? & _ & H). apply bind_ok in H. destruct H as (? & _ & H). apply bind_ok in H. destruct H as (? & _ & H). apply bind_ok in H. destruct H as (? & _ & H). apply bind_ok in H. destruct H as (? & _ & H).
    apply Ok_inj in H. subst r. cbn in Hx. subst x'. exists y. split; [exact Ey|]. split; [exact G1|]. split; [exact G2|]. split; [right; eauto|exact C].
Qed.
Lemma mini2input_spec x0 f y x z : length f = length x0 -> mini2input x0 (Some f) z y = Ok x ->
  (length y <= length (indfree f))%nat /\ length x = length x0 /\
  (forall i, ~ In i (firstn (length y) (indfree f)) -> nth_error x i = nth_error (if z then map (fun _ => 0) x0 else map num_R x0) i) /\
  (forall k i v, nth_error (indfree f) k = Some i -> nth_error y k = Some v -> nth_error x i = Some (stored x0 v)).
Proof.
  intros L H. cbn [mini2input] in H.
  assert (HB : forall i, In i (indfree f) -> (i < @length R (if z then map (fun _ => 0%R) x0 else map num_R x0))%nat) by (intros i Hi; destruct z; rewrite map_length, <- L; now apply indfree_lt).
  destruct (scatter_spec _ _ _ _ _ (indfree_nodup f) HB H) as (A & B & C & D).
  split; [exact A|]. split; [rewrite B; destruct z; now rewrite map_length|]. split; [exact C|exact D].
Qed.

(** ** C40: fixed parameters are never changed *)
Theorem C40_fixed_parameters_kept : forall solver inv m image x0 o x, vector_of (psfFitting solver inv m image x0 o) x ->
  forall f, f_fixed o = Some f -> length x = length x0 /\ forall i, is_fixed o i -> nth_error x i = nth_error (map num_R x0) i.
Proof.
  intros solver inv m image x0 o x H f F. destruct (fit_vectors _ _ _ _ _ _ _ H) as (y0 & b & cst & y & _ & _ & L & _ & C). rewrite F in C.
  destruct (mini2input_spec _ _ _ _ _ (L f F) C) as (_ & Ln & O & _). split; [exact Ln|]. intros i (f' & F' & Hi). rewrite F in F'. injection F' as <-.
  apply O. intros Hin. assert (In i (indfree f)) as Hf by (rewrite <- (firstn_skipn (length y) (indfree f)); apply in_or_app; now left). apply indfree_spec in Hf. congruence.
Qed.
Print Assumptions C40_fixed_parameters_kept.

(** ** C40: the minimiser moves the free parameters, in their order. One real per free
    parameter; every vector that has the fixed values can be reached (the guess being
    floats), by one vector of the minimiser only. *)
Theorem C40_free_parameters_bijection : forall x0 f, length f = length x0 -> all_ints x0 = false ->
  (forall y, length y = length (indfree f) -> exists x, mini2input x0 (Some f) false y = Ok x /\ take x (indfree f) = Ok y) /\
  (forall x, length x = length x0 -> (forall i, nth_error f i = Some true -> nth_error x i = nth_error (map num_R x0) i) ->
     exists y, length y = length (indfree f) /\ take x (indfree f) = Ok y /\ mini2input x0 (Some f) false y = Ok x).
Proof.
  intros x0 f L I. assert (ST : forall v, stored x0 v = v) by (intros v; unfold stored; now rewrite I). split.
  - intros y Hy. destruct (scatter_total (stored x0) (indfree f) (map num_R x0) y ltac:(lia)) as [x Hx]. exists x. split; [exact Hx|].
    destruct (mini2input_spec x0 f y x false L Hx) as (_ & Ln & _ & D). apply take_spec. clear Hx.
    revert y Hy D. generalize (indfree f) as ind. induction ind as [|i ind IH]; intros [|v y] Hy D; cbn in Hy; try lia; constructor.
    + rewrite (D 0%nat i v eq_refl eq_refl). now rewrite ST.
    + apply IH; [lia|]. intros k j u Hk Hu. exact (D (S k) j u Hk Hu).
  - intros x Lx Fx. destruct (take_total x (indfree f)) as [y Hy]; [intros i Hi; apply indfree_lt in Hi; lia|]. pose proof Hy as Hy'. apply take_spec in Hy'.
    assert (Ly : length y = length (indfree f)) by (symmetry; eapply F2_length; exact Hy'). exists y. split; [exact Ly|]. split; [exact Hy|].
    destruct (scatter_total (stored x0) (indfree f) (map num_R x0) y ltac:(lia)) as [x' Hx']. cbn [mini2input]. rewrite Hx'. f_equal.
    destruct (mini2input_spec x0 f y x' false L Hx') as (_ & Ln & O & D). apply nth_error_ext. intros i.
    destruct (in_dec Nat.eq_dec i (indfree f)) as [Hi|Hi].
    + apply In_nth_error in Hi. destruct Hi as [k Hk]. destruct (F2_nth _ _ _ Hy' k i Hk) as (v & Hv & Hx). rewrite (D k i v Hk Hv), ST. now rewrite Hx.
    + rewrite O by (intros Hin; apply Hi; rewrite <- (firstn_skipn (length y) (indfree f)); apply in_or_app; now left).
      destruct (lt_dec i (length f)) as [Hl|Hl].
      * symmetry. apply Fx. destruct (nth_error f i) as [[]|] eqn:E; [reflexivity| |]; [exfalso; apply Hi; now apply indfree_spec|apply nth_error_None in E; lia].
      * transitivity (@None R); [apply nth_error_None; rewrite map_length; lia|symmetry; apply nth_error_None; lia].
Qed.
Print Assumptions C40_free_parameters_bijection.
(** the starting point of the minimiser stands for the guess itself, integers or not *)
Theorem C40_starts_at_guess : forall x0 fixed y0, (forall f, fixed = Some f -> length f = length x0) -> input2mini x0 fixed = Ok y0 -> mini2input x0 fixed false y0 = Ok (map num_R x0).
Proof.
  intros x0 [f|] y0 L H; cbn [input2mini] in H; [|cbn; now rewrite <- H]. specialize (L f eq_refl). pose proof H as Hy. apply take_spec in Hy.
  assert (Ly : length y0 = length (indfree f)) by (symmetry; eapply F2_length; exact Hy).
  destruct (scatter_total (stored x0) (indfree f) (map num_R x0) y0 ltac:(lia)) as [x Hx]. cbn [mini2input]. rewrite Hx. f_equal.
  destruct (mini2input_spec x0 f y0 x false L Hx) as (_ & Ln & O & D). apply nth_error_ext. intros i.
  destruct (in_dec Nat.eq_dec i (indfree f)) as [Hi|Hi].
  - apply In_nth_error in Hi. destruct Hi as [k Hk]. destruct (F2_nth _ _ _ Hy k i Hk) as (v & Hv & Hn). rewrite (D k i v Hk Hv), Hn. f_equal. unfold stored.
    destruct (all_ints x0) eqn:A; [|reflexivity]. unfold all_ints in A. rewrite forallb_forall in A. rewrite nth_error_map in Hn. destruct (nth_error x0 i) as [n|] eqn:En; [|discriminate]. cbn in Hn. injection Hn as <-.
    specialize (A n (nth_error_In _ _ En)). destruct n; [|discriminate]. cbn. now rewrite Ztrunc_IZR.
  - apply O. intros Hin; apply Hi; rewrite <- (firstn_skipn (length y0) (indfree f)); apply in_or_app; now left.
Qed.
Print Assumptions C40_starts_at_guess.

(** Finding: with a guess made of integers only and a mask, the free parameters are
    truncated: every vector given to the model, and the answer, is made of integers. *)
Theorem C40_integer_guess_refuted : forall solver inv m image x0 o x f, vector_of (psfFitting solver inv m image x0 o) x -> f_fixed o = Some f -> all_ints x0 = true ->
  forall i v, nth_error x i = Some v -> exists z, v = IZR z.
Proof.
  intros solver inv m image x0 o x f H F A i v Hv. destruct (fit_vectors _ _ _ _ _ _ _ H) as (y0 & b & cst & y & _ & _ & L & _ & C). rewrite F in C.
  destruct (mini2input_spec _ _ _ _ _ (L f F) C) as (Ly & Ln & O & D).
  destruct (in_dec Nat.eq_dec i (firstn (length y) (indfree f))) as [Hi|Hi].
  - apply In_nth_error in Hi. destruct Hi as [k Hk]. assert (K : (k < length y)%nat). { assert (k < length (firstn (length y) (indfree f)))%nat by (apply nth_error_Some; congruence). rewrite firstn_length in *. lia. }
    assert (Hk' : nth_error (indfree f) k = Some i). { rewrite <- Hk. clear - K. revert K. generalize (length y). revert k. induction (indfree f) as [|a l IH]; intros [|k] [|n] K; cbn; try lia; try reflexivity. apply IH. lia. }
    destruct (nth_error y k) as [u|] eqn:Eu; [|apply nth_error_None in Eu; lia]. rewrite (D k i u Hk' Eu) in Hv. injection Hv as <-. unfold stored. rewrite A. eauto.
  - rewrite (O i Hi), nth_error_map in Hv. destruct (nth_error x0 i) as [n|] eqn:En; [|discriminate]. cbn in Hv. injection Hv as <-.
    unfold all_ints in A. rewrite forallb_forall in A. specialize (A n (nth_error_In _ _ En)). destruct n; [|discriminate]. cbn. eauto.
Qed.
Print Assumptions C40_integer_guess_refuted.

(** ** C40: bounds. With a minimiser that keeps to the bounds it is given, every free
    parameter of every vector stays between the bounds of the caller, or those of the
    model when none are given. *)
Theorem C40_bounds_respected : forall solver inv m image x0 o x, respects_bounds solver -> f_trf o = true -> all_ints x0 = false ->
  vector_of (psfFitting solver inv m image x0 o) x ->
  let b := match f_bounds o with Some b => b | None => p_bounds m end in
  forall i v, is_free o (length x0) i -> nth_error x i = Some v ->
  exists lo up, nth_error (fst b) i = Some lo /\ nth_error (snd b) i = Some up /\ ext_le lo (Val v) = true /\ ext_le (Val v) up = true.
Proof.
  intros solver inv m image x0 o x HS T A H b i v [Hi Hfree] Hv. destruct (fit_vectors _ _ _ _ _ _ _ H) as (y0 & b0 & cst & y & Ey & G & L & R & C).
  destruct (G T) as (bb & -> & Gb & K). unfold bounds_ok in K. apply andb_true_iff in K. destruct K as [K _].
  destruct (run_obeys _ cst _ (HS y0 bb K)) as [P1 P2]. assert (Fy : feasible bb y = true) by (destruct R as [R|(fv & j & R)]; eauto). apply feasible_spec in Fy. destruct Fy as (L1 & L2 & Fy).
  destruct (f_fixed o) as [f|] eqn:F.
  - destruct (mini2input_spec _ _ _ _ _ (L f eq_refl) C) as (Ly & Ln & O & D).
    assert (Gt : take (fst b) (indfree f) = Ok (fst bb) /\ take (snd b) (indfree f) = Ok (snd bb)).
    { unfold get_bounds in Gb. subst b. destruct (f_bounds o) as [ub|]; apply bind_ok in Gb; destruct Gb as (l & T1 & Gb); apply bind_ok in Gb; destruct Gb as (u & T2 & Gb); apply Ok_inj in Gb; subst bb; auto. }
    destruct Gt as [G1 G2]. apply take_spec in G1. apply take_spec in G2.
    assert (Hf : In i (indfree f)). { apply indfree_spec. destruct (nth_error f i) as [[]|] eqn:E; [exfalso; apply Hfree; exists f; auto|reflexivity|apply nth_error_None in E; rewrite (L f eq_refl) in E; lia]. }
    apply In_nth_error in Hf. destruct Hf as [k Hk]. destruct (F2_nth _ _ _ G1 k i Hk) as (lo & B1 & B2). destruct (F2_nth _ _ _ G2 k i Hk) as (up & B3 & B4).
    assert (Ky : (k < length y)%nat) by (rewrite <- L1; apply nth_error_Some; congruence). destruct (nth_error y k) as [u|] eqn:Eu; [|apply nth_error_None in Eu; lia].
    rewrite (D k i u Hk Eu) in Hv. injection Hv as <-. unfold stored. rewrite A. destruct (Fy k lo u up B1 Eu B3) as [I1 I2]. exists lo, up. auto.
  - cbn in C. apply Ok_inj in C. subst y. unfold get_bounds in Gb. subst b. destruct (f_bounds o) as [ub|]; [discriminate|]. apply Ok_inj in Gb. subst bb.
    assert (Kx : (i < length x)%nat) by (apply nth_error_Some; congruence). destruct (nth_error (fst (p_bounds m)) i) as [lo|] eqn:E1; [|apply nth_error_None in E1; lia]. destruct (nth_error (snd (p_bounds m)) i) as [up|] eqn:E2; [|apply nth_error_None in E2; lia].
    exists lo, up. destruct (Fy i lo v up E1 Hv E2). auto.
Qed.
Print Assumptions C40_bounds_respected.
(** Findings: bounds given without a mask of fixed parameters are never accepted; with
    any other method than 'trf' the bounds are silently ignored. *)
Theorem C40_bounds_need_mask_refuted : forall solver inv m image x0 o b, f_trf o = true -> f_bounds o = Some b -> f_fixed o = None ->
  exists e, outcome (psfFitting solver inv m image x0 o) = Err e /\ tried (psfFitting solver inv m image x0 o) = [].
Proof.
  intros solver inv m image x0 o b T B F. unfold outcome, tried, psfFitting.
  match goal with |- context [match ?c with Ok _ => _ | Err _ => _ end] => destruct c as [[w im]|e] eqn:E1 end; [|eexists; split; reflexivity].
  rewrite T, B, F. cbn [input2mini get_bounds bind]. destruct (normalizeImage im (f_norm o)) as [n|e]; cbn [bind fst snd]; eexists; split; reflexivity.
Qed.
Theorem C40_other_methods_ignore_bounds_refuted : forall solver inv m image x0 o o' b1 b2 b3,
  f_trf o = false -> o' = mkFA (f_weights o) (f_fixed o) false (f_spectral o) (f_spatial o) (f_norm o) b1 (f_alpha o) ->
  psfFitting solver inv (mkPM (p_call m) b2 (p_sat m) (p_inst m)) image x0 o' = psfFitting solver inv (mkPM (p_call m) b3 (p_sat m) (p_inst m)) image x0 o.
Proof. intros solver inv m image x0 [w f t sp st n b a] o' b1 b2 b3 T ->. cbn in T. subst t. reflexivity. Qed.
Print Assumptions C40_bounds_need_mask_refuted.
Print Assumptions C40_other_methods_ignore_bounds_refuted.
