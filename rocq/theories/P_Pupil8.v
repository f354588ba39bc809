(** Property C119: phase of the petals, rotation and resizing of a pupil. *)
From Coq Require Import Reals List Arith ZArith Bool Lia Lra.
From Verif Require Import Base_Py Base_Sum Base_DFT M_Image M_Fourier M_Zernike M_Tools M_Pupil M_Interp M_Pupil2 P_Zernike2 P_Interp.
From Coquelicot Require Import Complex.
Import ListNotations.
Open Scope R_scope.

(** * Specification *)
Definition binary (a : img) : Prop := forall i j, px a i j = 0 \/ px a i j = 1.
Definition square (n : nat) (a : img) : Prop := rows a = n /\ cols a = n.
(** a pupil as built with petals: square arrays of one size, binary masks *)
Definition petal_pupil (p : pst) (petals : list img) : Prop :=
  q_petals p = Some (Some petals) /\ crows (q_mat p) = q_n p /\ ccols (q_mat p) = q_n p /\ square (q_n p) (q_phase p) /\ square (q_n p) (q_pupil p) /\ binary (q_pupil p) /\
  (forall s, In s petals -> square (q_n p) s /\ binary s) /\ (forall s, q_spi p = Some s -> square (q_n p) s /\ binary s).
(** pixel outside the central obscuration and the spiders *)
Definition is_open (p : pst) (a b : nat) : Prop :=
  (q_cobs p <> 0 -> q_cobs p <= sqrt (lspace (-1) 1 (q_n p) b * lspace (-1) 1 (q_n p) b + lspace (-1) 1 (q_n p) a * lspace (-1) 1 (q_n p) a)) /\
  (forall s, q_spi p = Some s -> px s a b = 1).
(** pixel of the petal s *)
Definition in_petal (p : pst) (s : img) (a b : nat) : Prop := px s a b = 1 /\ px (q_pupil p) a b = 1 /\ is_open p a b.
(** value at pixel (a,b) of the modes of Noll indices l on the grid of the pupil *)
Definition zern (n : nat) (l : list Z) (i a b : nat) : R :=
  match make_zernike (Some l) n (Some (fun _ _ => true)) false CDefault 0 with Ok z => mv (z_modes z) i a b | Err _ => 0 end.
Definition ez : img := mkImg 0 0 (fun _ _ => 0).

(** * Lemmas *)
Lemma mapM_rel {A B} (f : A -> result B) (P : A -> B -> Prop) l : (forall x, In x l -> exists y, f x = Ok y /\ P x y) -> exists r, mapM f l = Ok r /\ Forall2 P l r.
Proof.
  induction l as [|x l IH]; intros H; [exists []; split; [reflexivity|constructor]|]. destruct (H x (or_introl eq_refl)) as (y & E & Py). destruct (IH (fun z Hz => H z (or_intror Hz))) as (r & Er & F).
  exists (y :: r). cbn [mapM]. rewrite E. cbn [bind]. rewrite Er. cbn [bind]. split; [reflexivity|constructor; assumption].
Qed.
Lemma Forall2_nth' {A B} (P : A -> B -> Prop) l r k da db : Forall2 P l r -> (k < List.length l)%nat -> P (nth k l da) (nth k r db).
Proof. intros F. revert k. induction F as [|x y l r H F IH]; intros k Hk; cbn in Hk; [lia|]. destruct k; cbn; [exact H|apply IH; lia]. Qed.
Lemma Forall2_len' {A B} (P : A -> B -> Prop) l r : Forall2 P l r -> List.length r = List.length l.
Proof. induction 1; cbn; lia. Qed.
Lemma bin_mul x y : (x = 0 \/ x = 1) -> (y = 0 \/ y = 1) -> (x * y = 0 \/ x * y = 1) /\ (x * y = 1 <-> x = 1 /\ y = 1).
Proof. intros [ ->| ->] [ ->| ->]; (split; [lra|split; [intros; lra|intros [? ?]; lra]]). Qed.
Lemma bin_abs x : (x = 0 \/ x = 1) -> Rabs x = x.
Proof. intros [ ->| ->]; rewrite ?Rabs_R0, ?Rabs_R1; reflexivity. Qed.
Lemma cobs_bin n c a b : (cobs_mask n c a b = 0 \/ cobs_mask n c a b = 1) /\ (cobs_mask n c a b = 1 <-> c <= sqrt (lspace (-1) 1 n b * lspace (-1) 1 n b + lspace (-1) 1 n a * lspace (-1) 1 n a)).
Proof. unfold cobs_mask. cbv zeta. destruct (Rle_dec _ _); (split; [lra|split; intros; [assumption || lra|lra || contradiction]]). Qed.

Lemma mask_spec p petals s : petal_pupil p petals -> In s petals -> exists m, petal_mask p s = Ok m /\ forall a b, m a b = true <-> in_petal p s a b.
Proof.
  intros (_ & _ & _ & _ & HP & BP & HS & HSp) Is. destruct (HS s Is) as [[Sr Sc] Bs]. destruct HP as [Pr Pc]. unfold petal_mask. rewrite Sr, Sc, Pr, Pc, Nat.eqb_refl. cbn [andb negb].
  unfold masks, make_cobs.
  set (m0 := to_c _). assert (R0 : crows m0 = q_n p) by reflexivity. assert (C0 : ccols m0 = q_n p) by reflexivity.
  assert (V0 : forall a b, cpx m0 a b = RtoC (px s a b * px (q_pupil p) a b)) by (intros; unfold m0, to_c; cbn [cpx px]; rewrite (bin_abs _ (Bs a b)); reflexivity).
  assert (S1 : exists m1, (if Req_EM_T (q_cobs p) 0 then Ok m0 else if ((crows m0 =? q_n p) && (ccols m0 =? q_n p))%nat then Ok (cscale m0 (cobs_mask (q_n p) (q_cobs p))) else Err ValueError) = Ok m1 /\ crows m1 = q_n p /\ ccols m1 = q_n p /\
     forall a b, exists v, cpx m1 a b = RtoC v /\ (v = 0 \/ v = 1) /\ (v = 1 <-> px s a b = 1 /\ px (q_pupil p) a b = 1 /\ (q_cobs p <> 0 -> q_cobs p <= sqrt (lspace (-1) 1 (q_n p) b * lspace (-1) 1 (q_n p) b + lspace (-1) 1 (q_n p) a * lspace (-1) 1 (q_n p) a)))).
  { destruct (Req_EM_T (q_cobs p) 0) as [Z|Z].
    - exists m0. split; [reflexivity|]. split; [exact R0|]. split; [exact C0|]. intros a b. exists (px s a b * px (q_pupil p) a b). split; [apply V0|]. destruct (bin_mul _ _ (Bs a b) (BP a b)) as [Q1 Q2]. split; [exact Q1|]. rewrite Q2. split; [intros [? ?]; split; [assumption|split; [assumption|intros; contradiction]]|intros (? & ? & _); split; assumption].
    - rewrite R0, C0, Nat.eqb_refl. cbn [andb]. eexists. split; [reflexivity|]. split; [exact R0|]. split; [exact C0|]. intros a b. exists (px s a b * px (q_pupil p) a b * cobs_mask (q_n p) (q_cobs p) a b).
      destruct (bin_mul _ _ (Bs a b) (BP a b)) as [Q1 Q2]. destruct (cobs_bin (q_n p) (q_cobs p) a b) as [K1 K2]. destruct (bin_mul _ _ Q1 K1) as [W1 W2].
      split; [unfold cscale; cbn [cpx]; rewrite V0; unfold RtoC; cbn [fst snd]; f_equal; ring|]. split; [exact W1|]. rewrite W2, Q2, K2. tauto. }
  destruct S1 as (m1 & E1 & R1 & C1 & V1). rewrite E1. cbn [bind]. unfold make_spiders.
  assert (EQ : forall (z : C) v, z = RtoC v -> ((if Ceq_dec z (RtoC 1) then true else false) = true <-> v = 1)).
  { intros z v ->. destruct (Ceq_dec (RtoC v) (RtoC 1)) as [Q|Q]; split; intros H; try reflexivity; try discriminate; [now apply RtoC_inj in Q|subst; contradiction]. }
  destruct (q_spi p) as [sp|] eqn:ES.
  - destruct (HSp sp eq_refl) as [[Tr Tc] Bt]. rewrite Tr, Tc, R1, C1, Nat.eqb_refl. cbn [andb bind]. eexists. split; [reflexivity|]. intros a b. destruct (V1 a b) as (v & Ev & Bv & Iv). destruct (bin_mul v (px sp a b) Bv (Bt a b)) as [W1 W2].
    cbn [cscale cpx]. rewrite (EQ _ (v * px sp a b)). 2:{ rewrite Ev. rewrite (bin_abs _ (Bt a b)). unfold RtoC. cbn [fst snd]. f_equal. ring. }
    rewrite W2, Iv. unfold in_petal, is_open. rewrite ES. split.
    + intros ((A & B & C) & D). split; [exact A|]. split; [exact B|]. split; [exact C|]. intros s' H. injection H as <-. exact D.
    + intros (A & B & C & D). split; [auto|]. now apply D.
  - cbn [bind]. eexists. split; [reflexivity|]. intros a b. destruct (V1 a b) as (v & Ev & Bv & Iv). cbv beta. rewrite (EQ _ v Ev). rewrite Iv. unfold in_petal, is_open. rewrite ES. split.
    + intros (A & B & C). split; [exact A|]. split; [exact B|]. split; [exact C|]. discriminate.
    + intros (A & B & C & D). auto.
Qed.
Lemma modes_spec p petals l : petal_pupil p petals -> l <> [] -> (forall j, In j l -> (1 <= j)%Z) ->
  exists ms, petal_modes p petals l = Ok ms /\ List.length ms = List.length petals /\
    forall k i a b, (k < List.length petals)%nat -> (i < List.length l)%nat ->
      (in_petal p (nth k petals ez) a b -> nth k ms (fun _ _ _ => 0) i a b = zern (q_n p) l i a b) /\ (~ in_petal p (nth k petals ez) a b -> nth k ms (fun _ _ _ => 0) i a b = 0).
Proof.
  intros W N H. pose proof W as (_ & Mr & Mc & _). unfold petal_modes. rewrite Mr, Mc, Nat.eqb_refl. cbn [negb].
  destruct (make_default l (q_n p) (Some (fun _ _ => true)) 0 N H) as (z0 & E0 & _ & _ & _ & _ & _ & F0).
  set (P := fun (s : img) (md : nat -> nat -> nat -> R) => forall i a b, (i < List.length l)%nat -> (in_petal p s a b -> md i a b = zern (q_n p) l i a b) /\ (~ in_petal p s a b -> md i a b = 0)).
  edestruct (mapM_rel (fun s => do m <- petal_mask p s; do z <- make_zernike (Some l) (q_n p) (Some m) false CDefault 0; Ok (mv (z_modes z))) P petals) as (ms & E & F).
  { intros s Is. destruct (mask_spec p petals s W Is) as (m & Em & Vm). rewrite Em. cbn [bind]. destruct (make_default l (q_n p) (Some m) 0 N H) as (z & Ez & _ & _ & _ & _ & _ & Fz). rewrite Ez. cbn [bind]. eexists. split; [reflexivity|].
    intros i a b Hi. destruct (nth_error l i) as [j|] eqn:EJ; [|apply nth_error_None in EJ; lia]. destruct (Fz i j a b EJ) as (n1 & m1 & Ef & _ & O & I). cbn [the_pupil] in O, I. rewrite Vm in O, I. split; [|exact O].
    intros A. rewrite (I A). unfold zern. rewrite E0. destruct (F0 i j a b EJ) as (n2 & m2 & Ef2 & _ & _ & I2). rewrite (I2 eq_refl). rewrite Ef in Ef2. apply Ok_inj in Ef2. injection Ef2 as <- <-. reflexivity. }
  exists ms. split; [exact E|]. split; [exact (Forall2_len' _ _ _ F)|]. intros k i a b Hk Hi. exact (Forall2_nth' P petals ms k ez (fun _ _ _ => 0) F Hk i a b Hi).
Qed.
Lemma wrap_in n i : (0 <= i < Z.of_nat n)%Z -> wrap n i = Ok (Z.to_nat i).
Proof. intros H. unfold wrap. destruct (Z.ltb_spec i 0); [lia|]. destruct (Z.ltb_spec i 0); [lia|]. destruct (Z.leb_spec (Z.of_nat n) i); [lia|]. reflexivity. Qed.
Lemma mapM_wrap n ind : (forall i, In i ind -> (0 <= i < Z.of_nat n)%Z) -> mapM (wrap n) ind = Ok (map Z.to_nat ind).
Proof. induction ind as [|i ind IH]; intros H; [reflexivity|]. cbn [mapM map]. rewrite wrap_in by (apply H; left; reflexivity). cbn [bind]. rewrite IH by (intros; apply H; now right). reflexivity. Qed.
Lemma none_bad n ind : (forall i, In i ind -> (0 <= i < Z.of_nat n)%Z) -> existsb negb (map (fun i => (i <? Z.of_nat n)%Z) ind) = false.
Proof. induction ind as [|i ind IH]; intros H; [reflexivity|]. cbn [map existsb]. rewrite IH by (intros; apply H; now right). destruct (Z.ltb_spec i (Z.of_nat n)); [reflexivity|]. specialize (H i (or_introl eq_refl)). lia. Qed.
Lemma cisp_mod t : Cmod (cisp t) = 1.
Proof. unfold cisp, Cmod. cbn [fst snd]. replace (cos t ^ 2 + sin t ^ 2) with 1; [apply sqrt_1|]. pose proof (sin2_cos2 t). unfold Rsqr in H. lra. Qed.
Lemma lsum_nth {A} (f : A -> R) l d : M_Tools.lsum (map f l) = rsum (List.length l) (fun t => f (nth t l d)).
Proof.
  induction l as [|x l IH] using rev_ind; [reflexivity|]. rewrite map_app. unfold M_Tools.lsum in *. rewrite fold_right_app. cbn [map fold_right].
  assert (G : forall (u : list R) c, fold_right Rplus c u = fold_right Rplus 0 u + c) by (intros u c; induction u as [|y u IHu]; cbn; [ring|rewrite IHu; ring]).
  rewrite G, IH, app_length. cbn [List.length]. replace (List.length l + 1)%nat with (S (List.length l)) by lia. cbn [rsum]. rewrite app_nth2, Nat.sub_diag by lia. cbn [nth]. rewrite Rplus_0_r. f_equal.
  apply rsum_ext. intros t Ht. rewrite app_nth1 by assumption. reflexivity.
Qed.

(** * Phase of the petals *)
(** The matrix keeps its amplitude everywhere; its phase becomes the recorded phase plus, for each selected petal, the
    combination of the modes on the pixels of that petal and nothing elsewhere. No other attribute changes. *)
Theorem C119_petal : forall p petals ind l coefs, petal_pupil p petals -> ind <> [] -> l <> [] -> (forall j, In j l -> (1 <= j)%Z) -> (forall i, In i ind -> (0 <= i < Z.of_nat (List.length petals))%Z) -> List.length coefs = List.length ind ->
  exists p', apply_phase_petal p ind l (List.length l) coefs = Ok (Some p') /\
    q_n p' = q_n p /\ q_ratio p' = q_ratio p /\ q_c p' = q_c p /\ q_cobs p' = q_cobs p /\ q_spi p' = q_spi p /\ q_petals p' = q_petals p /\ q_pupil p' = q_pupil p /\ q_phase p' = q_phase p /\ q_refl p' = q_refl p /\ q_ang p' = q_ang p /\
    crows (q_mat p') = q_n p /\ ccols (q_mat p') = q_n p /\
    forall a b, Cmod (cpx (q_mat p') a b) = Cmod (cpx (q_mat p) a b) /\
      exists term, cpx (q_mat p') a b = Cmult (RtoC (Cmod (cpx (q_mat p) a b))) (cisp (px (q_phase p) a b + rsum (List.length ind) term)) /\
        forall t, (t < List.length ind)%nat -> let s := nth (Z.to_nat (nth t ind 0%Z)) petals ez in
          (in_petal p s a b -> term t = rsum (List.length l) (fun j => nth j (nth t coefs []) 0 * zern (q_n p) l j a b)) /\ (~ in_petal p s a b -> term t = 0).
Proof.
  intros p petals ind l coefs W Ni Nl Hl Hi Hc. destruct (modes_spec p petals l W Nl Hl) as (ms & Em & Lm & Vm). pose proof W as (Ep & Mr & Mc & [Fr Fc] & _).
  unfold apply_phase_petal. rewrite Ep. destruct ind as [|i0 ind0]; [contradiction|]. destruct l as [|j0 l0]; [contradiction|]. cbv iota zeta. set (ind := i0 :: ind0) in *. set (l := j0 :: l0) in *. clearbody ind l.
  rewrite none_bad by exact Hi. cbn [bind fst snd]. rewrite Hc, !Nat.eqb_refl. cbn [negb orb]. rewrite Em. cbn [bind]. rewrite mapM_wrap by exact Hi. cbn [bind]. rewrite Mr, Fr, Fc, Nat.eqb_refl. cbn [andb negb].
  eexists. split; [reflexivity|]. cbn [q_n q_ratio q_c q_cobs q_spi q_petals q_pupil q_phase q_refl q_ang q_mat crows ccols cpx]. repeat (split; [reflexivity|]).
  intros a b. split. { rewrite Cmod_mult, cisp_mod, Rmult_1_r, Cmod_R. apply Rabs_pos_eq, Cmod_ge_0. }
  exists (fun t => petal_term ms (List.length l) (Z.to_nat (nth t ind 0%Z)) (nth t coefs []) a b). split.
  - f_equal. f_equal. f_equal. unfold petal_phase. rewrite (lsum_nth _ _ (0%nat, [])). rewrite combine_length, map_length, Hc, Nat.min_id. apply rsum_ext. intros t Ht. rewrite combine_nth by (rewrite map_length; lia). cbn [fst snd]. change 0%nat with (Z.to_nat 0) at 1. rewrite map_nth. reflexivity.
  - intros t Ht. cbv zeta. set (k := Z.to_nat (nth t ind 0%Z)). assert (Hk : (k < List.length petals)%nat) by (specialize (Hi _ (nth_In ind 0%Z Ht)); unfold k; lia). unfold petal_term. split; intros A.
    + apply rsum_ext. intros j Hj. destruct (Vm k j a b Hk Hj) as [V _]. rewrite (V A). reflexivity.
    + apply rsum_zero. intros j Hj. destruct (Vm k j a b Hk Hj) as [_ V]. rewrite (V A). ring.
Qed.
(** The petals do not overlap: on a petal selected once the phase added is its own combination of modes; for piston alone
    (Noll index 1) it is the coefficient; pixels of no selected petal get the recorded phase. *)
Lemma zern_piston n a b : zern n [1%Z] 0 a b = 1.
Proof.
  unfold zern. destruct (C61_modes [1%Z] n (Some (fun _ _ => true)) 0 ltac:(discriminate) ltac:(intros j [<-|[]]; lia)) as (z & E & _ & _ & _ & V). rewrite E. destruct (V 0%nat 1%Z a b eq_refl) as [_ Q]. now apply (proj1 (Q eq_refl)).
Qed.
Theorem C119_pistons : forall p petals ind cs, petal_pupil p petals -> NoDup ind -> ind <> [] -> (forall i, In i ind -> (0 <= i < Z.of_nat (List.length petals))%Z) -> List.length cs = List.length ind ->
  (forall a b k k', (k < List.length petals)%nat -> (k' < List.length petals)%nat -> px (nth k petals ez) a b = 1 -> px (nth k' petals ez) a b = 1 -> k = k') ->
  exists p', apply_phase_petal p ind [1%Z] 1 (map (fun c => [c]) cs) = Ok (Some p') /\
    (forall t a b, (t < List.length ind)%nat -> in_petal p (nth (Z.to_nat (nth t ind 0%Z)) petals ez) a b -> cpx (q_mat p') a b = Cmult (RtoC (Cmod (cpx (q_mat p) a b))) (cisp (px (q_phase p) a b + nth t cs 0))) /\
    (forall a b, (forall i, In i ind -> ~ in_petal p (nth (Z.to_nat i) petals ez) a b) -> cpx (q_mat p') a b = Cmult (RtoC (Cmod (cpx (q_mat p) a b))) (cisp (px (q_phase p) a b))).
Proof.
  intros p petals ind cs W ND Ni Hi Hc DJ. destruct (C119_petal p petals ind [1%Z] (map (fun c => [c]) cs) W Ni ltac:(discriminate) ltac:(intros j [<-|[]]; lia) Hi ltac:(rewrite map_length; exact Hc)) as (p' & E & H). exists p'. split; [exact E|].
  do 12 (destruct H as [_ H]). split.
  - intros t a b Ht A. destruct (H a b) as (_ & term & V & T). rewrite V. f_equal. f_equal. f_equal. rewrite (rsum_single _ t _ Ht).
    2:{ intros u Hu Nu. apply (proj2 (T u Hu)). intros B. apply Nu. apply (proj1 (NoDup_nth ind 0%Z) ND); [exact Hu|exact Ht|].
        pose proof (Hi _ (nth_In ind 0%Z Ht)) as R1. pose proof (Hi _ (nth_In ind 0%Z Hu)) as R2. apply Z2Nat.inj; [lia|lia|]. apply (DJ a b); [lia|lia|exact (proj1 B)|exact (proj1 A)]. }
    rewrite (proj1 (T t Ht) A). cbn [List.length rsum]. rewrite zern_piston. replace (nth t (map (fun c => [c]) cs) []) with [nth t cs 0]. { cbn [nth]. ring. } rewrite <- Hc in Ht. clear -Ht. revert t Ht. induction cs as [|c cs IH]; intros [|t] Ht; cbn in *; try lia; [reflexivity|apply IH; lia].
  - intros a b A. destruct (H a b) as (_ & term & V & T). rewrite V. f_equal. f_equal. rewrite rsum_zero; [ring|]. intros t Ht. apply (proj2 (T t Ht)). apply A. now apply nth_In.
Qed.

(** * Histories *)
Lemma apply_inv p ind l w coefs p' : apply_phase_petal p ind l w coefs = Ok (Some p') ->
  exists petals ms ic, q_petals p = Some (Some petals) /\ petal_modes p petals l = Ok ms /\ crows (q_mat p) = q_n p /\ ccols (q_mat p) = q_n p /\
    p' = mkPst (q_n p) (q_ratio p) (q_c p) (q_cobs p) (q_spi p) (q_petals p) (mkC (q_n p) (q_n p) (fun a b => Cmult (RtoC (Cmod (cpx (q_mat p) a b))) (cisp (px (q_phase p) a b + petal_phase ms (List.length l) ic a b)))) (q_pupil p) (q_phase p) (q_refl p) (q_ang p).
Proof.
  intros H. unfold apply_phase_petal in H. destruct (q_petals p) as [[petals|]|] eqn:EP; [|destruct ind, l; discriminate|discriminate].
  destruct ind as [|i0 ind0]; [discriminate|]. destruct l as [|j0 l0]; [discriminate|]. cbv iota zeta in H. set (ind := i0 :: ind0) in *. set (l := j0 :: l0) in *. clearbody ind l.
  match type of H with bind ?x _ = _ => destruct x as [ic|] end; cbn [bind] in H; [|discriminate]. destruct (_ || _)%bool; [discriminate|]. destruct (petal_modes p petals l) as [ms|] eqn:EM; cbn [bind] in H; [|discriminate].
  destruct (mapM _ _) as [ks|]; cbn [bind] in H; [|discriminate]. destruct (Nat.eqb_spec (crows (q_mat p)) (q_n p)) as [E1|]; cbn [andb negb] in H; [|discriminate]. destruct (_ && _)%bool; cbn [negb] in H; [|discriminate].
  apply Ok_inj in H. injection H as <-. exists petals, ms, (combine ks (snd ic)). split; [reflexivity|]. split; [exact EM|]. split; [exact E1|]. split; [|reflexivity].
  unfold petal_modes in EM. destruct (Nat.eqb_spec (crows (q_mat p)) (ccols (q_mat p))); cbn [negb] in EM; [congruence|discriminate].
Qed.
(** The phases of successive calls do not add up: the recorded phase is not updated, so a second call erases the first. *)
Theorem C119_twice_refuted : forall p indA lA wA cA p1 indB lB wB cB, apply_phase_petal p indA lA wA cA = Ok (Some p1) ->
  forall p2, apply_phase_petal p1 indB lB wB cB = Ok (Some p2) -> exists p3, apply_phase_petal p indB lB wB cB = Ok (Some p3) /\ crows (q_mat p3) = crows (q_mat p2) /\ ccols (q_mat p3) = ccols (q_mat p2) /\ forall a b, cpx (q_mat p3) a b = cpx (q_mat p2) a b.
Proof.
  intros p indA lA wA cA p1 indB lB wB cB HA p2 HB. destruct (apply_inv _ _ _ _ _ _ HA) as (petals & ms & ic & EP & EM & Mr & Mc & ->). clear HA.
  unfold apply_phase_petal in *. cbn [q_n q_ratio q_c q_cobs q_spi q_petals q_mat q_pupil q_phase q_refl q_ang crows ccols cpx] in HB. rewrite EP in *.
  destruct indB as [|i0 ind0]; [discriminate|]. destruct lB as [|j0 l0]; [discriminate|]. cbv iota zeta in HB |- *. set (ind := i0 :: ind0) in *. set (l := j0 :: l0) in *. clearbody ind l.
  match type of HB with bind ?x _ = _ => destruct x as [jc|] end; cbn [bind] in HB |- *; [|discriminate]. destruct (_ || _)%bool; [discriminate|].
  assert (PM : forall c, petal_modes (mkPst (q_n p) (q_ratio p) (q_c p) (q_cobs p) (q_spi p) (Some (Some petals)) (mkC (q_n p) (q_n p) c) (q_pupil p) (q_phase p) (q_refl p) (q_ang p)) petals l = petal_modes p petals l).
  { intros c. unfold petal_modes. cbn [q_mat crows ccols]. rewrite Mr, Mc, Nat.eqb_refl. reflexivity. }
  rewrite PM in HB. destruct (petal_modes p petals l) as [mB|]; cbn [bind] in HB |- *; [|discriminate]. destruct (mapM _ _) as [ks|]; cbn [bind] in HB |- *; [|discriminate].
  rewrite Nat.eqb_refl in HB. rewrite Mr, Nat.eqb_refl. destruct (_ && _)%bool; cbn [negb] in HB |- *; [|discriminate]. apply Ok_inj in HB. injection HB as <-. eexists. split; [reflexivity|]. split; [reflexivity|]. split; [reflexivity|].
  intros a b. cbn [q_mat cpx]. rewrite Cmod_mult, cisp_mod, Rmult_1_r, Cmod_R, (Rabs_pos_eq _ (Cmod_ge_0 _)). reflexivity.
Qed.
(** Indices of petals that do not exist are dropped with their coefficients. *)
Lemma filter_pair {A} (f : Z -> bool) (ic : list (Z * A)) : map snd (filter fst (combine (map f (map fst ic)) (map snd ic))) = map snd (filter (fun x => f (fst x)) ic) /\ map snd (filter fst (combine (map f (map fst ic)) (map fst ic))) = map fst (filter (fun x => f (fst x)) ic).
Proof. induction ic as [|[i c] ic [IH1 IH2]]; [split; reflexivity|]. cbn [map combine filter fst snd]. destruct (f i); cbn [map snd fst]; rewrite ?IH1, ?IH2; split; reflexivity. Qed.
Theorem C119_dropped : forall p petals ic l w, q_petals p = Some (Some petals) -> let kept := filter (fun x => (fst x <? Z.of_nat (List.length petals))%Z) ic in kept <> [] ->
  apply_phase_petal p (map fst ic) l w (map snd ic) = apply_phase_petal p (map fst kept) l w (map (@snd Z (list R)) kept).
Proof.
  intros p petals ic l w EP kept NK. unfold apply_phase_petal. rewrite EP. set (f := fun i => (i <? Z.of_nat (List.length petals))%Z).
  assert (NI : ic <> []) by (intros ->; now apply NK). 
  assert (KB : existsb negb (map f (map fst kept)) = false). { unfold kept. clear. induction ic as [|[i c] ic IH]; [reflexivity|]. cbn [filter fst]. change (i <? Z.of_nat (List.length petals))%Z with (f i). destruct (f i) eqn:E; [|exact IH]. cbn [map fst existsb]. rewrite E. exact IH. }
  assert (M1 : exists a b, map fst ic = a :: b) by (destruct ic; [contradiction|cbn; eauto]). assert (M2 : exists a b, map fst kept = a :: b) by (destruct kept; [contradiction|cbn; eauto]).
  destruct (filter_pair f ic) as [F1 F2]. change (filter (fun x => f (fst x)) ic) with kept in F1, F2.
  set (U := map fst ic) in *. set (V := map fst kept) in *. set (CU := map snd ic) in *. set (CV := map snd kept) in *. assert (LU : List.length CU = List.length U) by (unfold CU, U; rewrite !map_length; reflexivity).
  assert (SAME : existsb negb (map f U) = false -> kept = ic). { unfold kept, U. clear. induction ic as [|[i c] ic IH]; [reflexivity|]. cbn [map fst existsb filter]. change (i <? Z.of_nat (List.length petals))%Z with (f i). destruct (f i); cbn [negb orb]; [|discriminate]. intros H. now rewrite (IH H). }
  destruct M1 as (u0 & u1 & EU). destruct M2 as (v0 & v1 & EV). destruct l as [|j0 l0]; [rewrite EU, EV; reflexivity|]. set (l := j0 :: l0).
  rewrite EU, EV. cbv iota zeta. rewrite <- EU, <- EV. fold f. rewrite KB. destruct (existsb negb (map f U)) eqn:EB.
  - rewrite LU, Nat.eqb_refl. cbn [negb]. rewrite F1, F2. reflexivity.
  - specialize (SAME eq_refl). unfold U, V, CU, CV. rewrite SAME. reflexivity.
Qed.
(** Negative indices are not refused: i stands for the petal n+i, counted from the last one; below -n the call fails. *)
Theorem C119_negative_refuted : forall p petals ind l coefs, petal_pupil p petals -> ind <> [] -> l <> [] -> (forall j, In j l -> (1 <= j)%Z) -> (forall i, In i ind -> (i < Z.of_nat (List.length petals))%Z) -> List.length coefs = List.length ind ->
  ((forall i, In i ind -> (- Z.of_nat (List.length petals) <= i)%Z) ->
     apply_phase_petal p ind l (List.length l) coefs = apply_phase_petal p (map (fun i => if (i <? 0)%Z then (i + Z.of_nat (List.length petals))%Z else i) ind) l (List.length l) coefs) /\
  ((exists i, In i ind /\ (i < - Z.of_nat (List.length petals))%Z) -> apply_phase_petal p ind l (List.length l) coefs = Err IndexError).
Proof.
  intros p petals ind l coefs W Hi Hl HJ HI HC. pose proof W as (EP & _). set (n := List.length petals) in *. set (g := fun i => if (i <? 0)%Z then (i + Z.of_nat n)%Z else i).
  assert (NB : forall u, (forall i, In i u -> (i < Z.of_nat n)%Z) -> existsb negb (map (fun i => (i <? Z.of_nat n)%Z) u) = false).
  { induction u as [|i u IH]; intros H; [reflexivity|]. cbn [map existsb]. rewrite IH by (intros; apply H; now right). destruct (Z.ltb_spec i (Z.of_nat n)); [reflexivity|]. specialize (H i (or_introl eq_refl)). lia. }
  assert (ST : forall u, u <> [] -> (forall i, In i u -> (i < Z.of_nat n)%Z) -> List.length coefs = List.length u -> apply_phase_petal p u l (List.length l) coefs =
     (do modes <- petal_modes p petals l; do ks <- mapM (wrap n) u;
        if negb ((crows (q_mat p) =? q_n p) && (rows (q_phase p) =? q_n p) && (cols (q_phase p) =? q_n p))%nat then Err ValueError else
        Ok (Some (mkPst (q_n p) (q_ratio p) (q_c p) (q_cobs p) (q_spi p) (q_petals p)
                    (mkC (q_n p) (q_n p) (fun a b => Cmult (RtoC (Cmod (cpx (q_mat p) a b))) (cisp (px (q_phase p) a b + petal_phase modes (List.length l) (combine ks coefs) a b))))
                    (q_pupil p) (q_phase p) (q_refl p) (q_ang p))))).
  { intros u Hu HU HL. unfold apply_phase_petal. rewrite EP. destruct u as [|i0 u0]; [contradiction|]. destruct l as [|j0 l0]; [contradiction|]. cbv iota zeta. fold n. rewrite (NB _ HU). cbn [bind fst snd]. rewrite HL, !Nat.eqb_refl. reflexivity. }
  destruct (modes_spec p petals l W Hl HJ) as (ms & EM & _). split.
  - intros HN. rewrite (ST ind Hi HI HC). rewrite (ST (map g ind)).
    + rewrite EM. cbn [bind]. assert (mapM (wrap n) (map g ind) = mapM (wrap n) ind) as ->; [|reflexivity]. clear - HN HI. induction ind as [|i u IH]; [reflexivity|]. cbn [map mapM]. rewrite IH by (intros; (apply HN || apply HI); now right).
      assert (wrap n (g i) = wrap n i) as ->; [|reflexivity]. specialize (HN i (or_introl eq_refl)). unfold wrap, g. destruct (i <? 0)%Z eqn:L; [|rewrite ?L; reflexivity]. apply Z.ltb_lt in L. cbv zeta. replace (i + Z.of_nat n <? 0)%Z with false by (symmetry; apply Z.ltb_ge; lia). cbv iota. replace (i + Z.of_nat n <? 0)%Z with false by (symmetry; apply Z.ltb_ge; lia). reflexivity.
    + destruct ind; [contradiction|discriminate].
    + intros i H. apply in_map_iff in H as (x & <- & Hx). specialize (HI x Hx). unfold g. destruct (Z.ltb_spec x 0); lia.
    + now rewrite map_length.
  - intros (i & Ii & Li). rewrite (ST ind Hi HI HC), EM. cbn [bind]. assert (mapM (wrap n) ind = Err IndexError) as ->; [|reflexivity]. clear - Ii Li HI. induction ind as [|x u IH]; [contradiction|]. cbn [mapM].
    destruct (wrap n x) as [k|e] eqn:E; cbn [bind].
    + destruct Ii as [ ->|Ii]; [exfalso; unfold wrap in E; destruct (Z.ltb_spec i 0); [|lia]; destruct (Z.ltb_spec (i + Z.of_nat n) 0); [discriminate|lia]|]. rewrite IH; auto. intros; apply HI; now right.
    + unfold wrap in E. destruct (_ || _)%bool; [|discriminate]. injection E as <-. reflexivity.
Qed.
(** A pupil whose spiders were built without petals (the default) is refused; without spiders, indices or modes, or with a
    number of coefficients that does not match, nothing is done. *)
Theorem C119_nothing : forall p ind l w coefs,
  (q_petals p = None \/ ind = [] \/ l = [] -> apply_phase_petal p ind l w coefs = Ok None \/ apply_phase_petal p ind l w coefs = Err AttributeError) /\
  (q_petals p = None -> apply_phase_petal p ind l w coefs = Ok None) /\
  (q_petals p = Some None -> ind <> [] -> l <> [] -> apply_phase_petal p ind l w coefs = Err AttributeError) /\
  (forall petals, q_petals p = Some (Some petals) -> ind <> [] -> l <> [] -> (forall i, In i ind -> (0 <= i < Z.of_nat (List.length petals))%Z) -> List.length coefs <> List.length ind \/ w <> List.length l -> apply_phase_petal p ind l w coefs = Ok None).
Proof.
  intros p ind l w coefs. unfold apply_phase_petal. split; [|split; [|split]].
  - intros [ ->|[ ->| ->]]; [now left| |]; destruct (q_petals p) as [[]|]; try (destruct ind); auto.
  - intros ->. reflexivity.
  - intros -> Hi Hl. destruct ind; [contradiction|]. destruct l; [contradiction|]. reflexivity.
  - intros petals -> Hi Hl HR HD. destruct ind as [|i0 ind0]; [contradiction|]. destruct l as [|j0 l0]; [contradiction|]. cbv iota zeta. set (ind := i0 :: ind0) in *. set (l := j0 :: l0) in *. clearbody ind l.
    rewrite none_bad by exact HR. cbn [bind fst snd]. destruct (Nat.eqb_spec (List.length coefs) (List.length ind)) as [E1|E1]; cbn [negb orb]; [|reflexivity]. destruct (Nat.eqb_spec w (List.length l)) as [E2|E2]; cbn [negb]; [|reflexivity]. destruct HD; contradiction.
Qed.

(** * Rotation *)
(** After a rotation the matrix is the reflectivity times the exponential of the phase, the reflectivity is non-negative and
    the pupil is its support; phases below 1e-3 rad are set to zero. A null angle changes nothing but the recorded angle. *)
Theorem C119_rotation : forall rot p ang, let p' := rotate_pupil rot p ang in
  q_ang p' = ang /\ q_n p' = q_n p /\ q_petals p' = q_petals p /\ q_spi p' = q_spi p /\
  (ang = 0 -> q_mat p' = q_mat p /\ q_pupil p' = q_pupil p /\ q_phase p' = q_phase p /\ q_refl p' = q_refl p) /\
  (ang <> 0 -> forall a b, cpx (q_mat p') a b = Cmult (RtoC (px (q_refl p') a b)) (cisp (px (q_phase p') a b)) /\ Cmod (cpx (q_mat p') a b) = px (q_refl p') a b /\
     0 <= px (q_refl p') a b /\ (px (q_pupil p') a b = 0 \/ px (q_pupil p') a b = 1) /\ (px (q_pupil p') a b = 1 <-> 0 < px (q_refl p') a b) /\
     px (q_refl p') a b = Rmax 0 (px (rot ang (amp (q_mat p))) a b) /\
     (px (q_phase p') a b = 0 \/ (px (q_phase p') a b = px (rot ang (q_phase p)) a b /\ / 1000 <= Rabs (px (q_phase p') a b)))).
Proof.
  intros rot p ang. cbv zeta. unfold rotate_pupil. destruct (Req_EM_T ang 0) as [Z|Z]; cbn [q_ang q_n q_petals q_spi q_mat q_pupil q_phase q_refl cpx]; repeat (split; [reflexivity|]).
  - split; [auto|]. intros; contradiction.
  - split; [intros; contradiction|]. intros _ a b. cbn [img_map px]. set (v := px (rot ang (amp (q_mat p))) a b). set (u := px (rot ang (q_phase p)) a b).
    assert (P : 0 <= clip0 v) by (unfold clip0; destruct (Rlt_dec v 0); lra). split; [reflexivity|]. split; [rewrite Cmod_mult, cisp_mod, Rmult_1_r, Cmod_R; now apply Rabs_pos_eq|]. split; [exact P|].
    split; [destruct (Req_EM_T (clip0 v) 0); auto|]. split; [destruct (Req_EM_T (clip0 v) 0); split; intros; lra|]. split; [unfold clip0, Rmax; destruct (Rlt_dec v 0), (Rle_dec 0 v); lra|].
    unfold clip_phase. destruct (Rlt_dec (Rabs u) (/ 1000)); [now left|right; split; [reflexivity|lra]].
Qed.
(** Rotations accumulate but only the last angle is recorded: with a rotation operator that adds angles, turning by a then by b
    leaves a pupil turned by a+b that reports b. *)
Theorem C119_angle_refuted : forall rot p a b, a <> 0 -> b <> 0 -> (forall x y i, rot x (rot y i) = rot (y + x) i) -> (forall x i u v, 0 <= px (rot x i) u v) ->
  let p' := rotate_pupil rot (rotate_pupil rot p a) b in
  q_ang p' = b /\ (amp (q_mat (rotate_pupil rot p a)) = rot a (amp (q_mat p)) -> forall u v, Cmod (cpx (q_mat p') u v) = px (rot (a + b) (amp (q_mat p))) u v).
Proof.
  intros rot p a b Na Nb AD PO. cbv zeta. destruct (C119_rotation rot (rotate_pupil rot p a) b) as (A & _ & _ & _ & _ & V). split; [exact A|]. intros EQ u v. destruct (V Nb u v) as (_ & M & _ & _ & _ & K & _). rewrite M, K, EQ, AD. apply Rmax_right, PO.
Qed.

(** * Resizing *)
Lemma nearest_cplx spl m n : (1 <= crows m)%nat -> (1 <= ccols m)%nat -> (2 <= n)%nat ->
  exists o f g, interp_cplx spl KNearest m (Z.of_nat n) (Z.of_nat n) = Ok o /\ crows o = n /\ ccols o = n /\ (forall a b, cpx o a b = cpx m (f a) (g b)) /\ (forall a, (a < n)%nat -> (f a < crows m)%nat) /\ (forall b, (b < n)%nat -> (g b < ccols m)%nat).
Proof.
  intros Hr Hc Hn. unfold interp_cplx, interp_real. cbv zeta. cbn [re_img im_img rows cols px]. destruct ((Z.of_nat (crows m) =? Z.of_nat n) && (Z.of_nat (ccols m) =? Z.of_nat n))%Z eqn:E.
  - apply andb_prop in E. destruct E as [E1 E2]. apply Z.eqb_eq in E1, E2. apply Nat2Z.inj in E1, E2. cbn [bind rows cols px]. eexists. exists (fun a => a), (fun b => b). split; [reflexivity|]. cbn [crows ccols cpx]. split; [exact E1|]. split; [exact E2|]. split; [intros a b; unfold re_img, im_img; cbn [px]; destruct (cpx m a b); reflexivity|]. rewrite E1, E2. split; intros; assumption.
  - destruct (Z.ltb_spec (Z.of_nat n) 0); [lia|]. cbn [orb]. destruct (Nat.eqb_spec (crows m) 0); [lia|]. destruct (Nat.eqb_spec (ccols m) 0); [lia|]. cbn [orb bind rows cols px]. rewrite Nat2Z.id. eexists. exists (near_ix (crows m) n), (near_ix (ccols m) n). split; [reflexivity|]. cbn [crows ccols cpx].
    split; [reflexivity|]. split; [reflexivity|]. split; [intros a b; unfold re_img, im_img; cbn [px]; destruct (cpx m _ _); reflexivity|]. split; intros; apply near_range; lia.
Qed.
(** A resized matrix is a square of the new size whose every pixel is a pixel of the former one; with the nearest method. The
    other arrays keep their size. With flagReplace the number of pixels, the centre and the pixels per metre follow, so that the
    physical size is kept. *)
Theorem C119_resize : forall spl p n (flag : bool), (1 <= crows (q_mat p))%nat -> (1 <= ccols (q_mat p))%nat -> (2 <= n)%nat -> (0 < q_n p)%nat -> n <> q_n p ->
  exists p', resize spl p (Z.of_nat n) flag KNearest = Ok p' /\ crows (q_mat p') = n /\ ccols (q_mat p') = n /\
    q_pupil p' = q_pupil p /\ q_phase p' = q_phase p /\ q_refl p' = q_refl p /\
    (forall a b, (a < n)%nat -> (b < n)%nat -> exists i j, (i < crows (q_mat p))%nat /\ (j < ccols (q_mat p))%nat /\ cpx (q_mat p') a b = cpx (q_mat p) i j) /\
    (flag = true -> q_n p' = n /\ q_c p' = INR n / 2 /\ (q_ratio p <> 0 -> INR (q_n p') / q_ratio p' = INR (q_n p) / q_ratio p)) /\
    (flag = false -> q_n p' = q_n p /\ q_c p' = q_c p /\ q_ratio p' = q_ratio p).
Proof.
  intros spl p n flag Hr Hc Hn H0 ND. unfold resize. destruct (Z.eqb_spec (Z.of_nat n) (Z.of_nat (q_n p))); [lia|].
  destruct (nearest_cplx spl (q_mat p) n Hr Hc Hn) as (m & f & g & E & R1 & R2 & V & F & G). rewrite E. cbn [bind].
  assert (PX : forall a b, (a < n)%nat -> (b < n)%nat -> exists i j, (i < crows (q_mat p))%nat /\ (j < ccols (q_mat p))%nat /\ cpx m a b = cpx (q_mat p) i j) by (intros a b Ha Hb; exists (f a), (g b); auto).
  assert (0 < INR (q_n p)) by (apply lt_0_INR; lia). assert (0 < INR n) by (apply lt_0_INR; lia).
  destruct flag; eexists; (split; [reflexivity|]); cbn [q_mat q_pupil q_phase q_refl q_n q_c q_ratio]; repeat (split; [assumption || reflexivity|]); (split; [|]); try discriminate; intros _.
  - split; [exact R1|]. split; [now rewrite R1|]. intros NR. rewrite R1, <- INR_IZR_INZ. field. repeat split; lra || assumption.
  - auto.
Qed.
(** Without flagReplace (the default) the size cannot be restored: the recorded number of pixels is still the first one, so
    asking for it does nothing. *)
Theorem C119_resize_back_refuted : forall spl p n p', resize spl p n false KNearest = Ok p' -> resize spl p' (Z.of_nat (q_n p)) false KNearest = Ok p'.
Proof.
  intros spl p n p' H. unfold resize in *. assert (q_n p' = q_n p) as ->. { destruct (_ =? _)%Z; [apply Ok_inj in H; now subst|]. destruct (interp_cplx _ _ _ _ _); cbn [bind] in H; [|discriminate]. apply Ok_inj in H. now subst. }
  rewrite Z.eqb_refl. reflexivity.
Qed.
(** With flagReplace the reference pupil keeps its former size: resetting a resized pupil with a central obscuration fails. *)
Theorem C119_reset_refuted : forall spl p n p', q_cobs p <> 0 -> rows (q_pupil p) = q_n p -> (0 <= n)%Z -> n <> Z.of_nat (q_n p) -> (1 <= crows (q_mat p))%nat -> (1 <= ccols (q_mat p))%nat -> (2 <= n)%Z ->
  resize spl p n true KNearest = Ok p' -> reset_q p' = Err ValueError.
Proof.
  intros spl p n p' HC HP Hn ND Hr Hc H2 H. unfold resize in H. destruct (Z.eqb_spec n (Z.of_nat (q_n p))); [contradiction|].
  destruct (nearest_cplx spl (q_mat p) (Z.to_nat n) Hr Hc ltac:(lia)) as (m & f & g & E & R1 & _). rewrite Z2Nat.id in E by exact Hn. rewrite E in H. cbn [bind] in H. apply Ok_inj in H. subst p'. unfold reset_q, masks, make_cobs. cbn [q_n q_cobs q_spi q_pupil].
  destruct (Req_EM_T (q_cobs p) 0); [contradiction|]. cbn [to_c crows ccols]. rewrite HP, R1. destruct (Nat.eqb_spec (q_n p) (Z.to_nat n)); [lia|]. reflexivity.
Qed.

(** * A case: 4 x 4 pupil of two petals (left and right halves) without obscuration *)
Definition half_l : img := mkImg 4 4 (fun _ j => if (j <? 2)%nat then 1 else 0).
Definition half_r : img := mkImg 4 4 (fun _ j => if (j <? 2)%nat then 0 else 1).
Definition ones : img := mkImg 4 4 (fun _ _ => 1).
Definition zeros : img := mkImg 4 4 (fun _ _ => 0).
Definition ex_p : pst := mkPst 4 1 2 0 (Some ones) (Some (Some [half_l; half_r])) (to_c ones) ones zeros ones 0.
Example C119_ex : petal_pupil ex_p [half_l; half_r] /\ in_petal ex_p half_l 0 1 /\ ~ in_petal ex_p half_r 0 1 /\
  (forall a b k k', (k < 2)%nat -> (k' < 2)%nat -> px (nth k [half_l; half_r] ez) a b = 1 -> px (nth k' [half_l; half_r] ez) a b = 1 -> k = k').
Proof.
  assert (B : binary half_l /\ binary half_r) by (split; intros i j; unfold half_l, half_r; cbn [px]; destruct (j <? 2)%nat; auto). split; [|split; [|split]].
  - split; [reflexivity|]. split; [reflexivity|]. split; [reflexivity|]. split; [split; reflexivity|]. split; [split; reflexivity|]. split; [intros i j; right; reflexivity|]. split.
    + intros s [<-|[<-|[]]]; (split; [split; reflexivity|apply B]).
    + intros s H. injection H as <-. split; [split; reflexivity|intros i j; right; reflexivity].
  - split; [reflexivity|]. split; [reflexivity|]. split; [intros N; exfalso; apply N; reflexivity|]. intros s H. injection H as <-. reflexivity.
  - intros (A & _). unfold half_r in A. cbn [px] in A. change (1 <? 2)%nat with true in A. cbv iota in A. lra.
  - intros a b k k' Hk Hk' A A'. destruct k as [|[|k]], k' as [|[|k']]; try reflexivity; try lia; exfalso; cbn [nth] in A, A'; unfold half_l, half_r in A, A'; cbn [px] in A, A'; destruct (b <? 2)%nat; lra.
Qed.

Print Assumptions C119_petal.
Print Assumptions C119_pistons.
Print Assumptions C119_twice_refuted.
Print Assumptions C119_dropped.
Print Assumptions C119_negative_refuted.
Print Assumptions C119_nothing.
Print Assumptions C119_rotation.
Print Assumptions C119_angle_refuted.
Print Assumptions C119_resize.
Print Assumptions C119_resize_back_refuted.
Print Assumptions C119_reset_refuted.
