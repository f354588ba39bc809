(** C89: operations on the segments of a pupil: removal, reflectivity, rotation. *)
From Coq Require Import Reals List Arith ZArith Lia Lra Psatz Permutation.
From Coq Require Import ZifyBool ZifyNat.
From Flocq Require Import Core.Raux.
From Verif Require Import Base_Py Base_Sum Base_DFT M_Image M_Fourier M_Tools M_Freq L_Tools2 M_Pupil S_Pupil L_Pupil P_Pupil M_Tools.
From Coquelicot Require Import Complex.
Import ListNotations.
Open Scope R_scope.

(** pixel (i,j) belongs to segment s: the matrix of the segment has unit modulus there *)
Definition belongs (p : pup) (s : segm) (i j : nat) : Prop :=
  inside (p_c p) (p_ratio p) s i j = true /\ Cmod (over (p_c p) (p_ratio p) s (cpx (s_mat s)) i j) = 1.
Definition belongs_any (p : pup) (ind : list nat) (i j : nat) : Prop :=
  exists k s, In k ind /\ nth_error (p_segs p) k = Some s /\ belongs p s i j.
Definition valid (p : pup) (ind : list nat) : Prop := forall k, In k ind -> (k < length (p_segs p))%nat.

Lemma is_one_iff z : is_one z = true <-> Cmod z = 1.
Proof. unfold is_one. destruct (Req_EM_T (Cmod z) 1); split; intros; congruence || assumption || reflexivity. Qed.
Lemma taken_iff p ind i j : taken p ind i j = true <-> belongs_any p ind i j.
Proof.
  unfold taken, belongs_any, belongs. rewrite existsb_exists. split.
  - intros (k & I & H). destruct (nth_error (p_segs p) k) as [s|] eqn:E; [|discriminate]. apply andb_true_iff in H. destruct H as [H1 H2]. apply is_one_iff in H2. exists k, s. auto.
  - intros (k & s & I & E & H1 & H2). exists k. split; [exact I|]. rewrite E, H1. apply is_one_iff in H2. rewrite H2. reflexivity.
Qed.

(** C89: removing segments sets their pixels to zero and leaves every other pixel, and the
    list of segments, untouched. *)
Theorem C89_remove : forall p ind, coherent p -> valid p ind -> exists m, remove p ind = (set_mat p m, None) /\ coherent (set_mat p m) /\
  forall i j, (belongs_any p ind i j -> cpx m i j = RtoC 0) /\ (~ belongs_any p ind i j -> cpx m i j = cpx (p_mat p) i j).
Proof.
  intros p ind H V. destruct (remove_ok ind p H V) as (m & E & Mr & Mc & P). exists m. split; [exact E|]. split.
  - destruct H as (_ & _ & H3 & H4). split; [exact Mr|]. split; [exact Mc|]. split; [exact H3|exact H4].
  - intros i j. rewrite P. pose proof (taken_iff p ind i j) as T. destruct (taken p ind i j); split; intros B; try reflexivity.
    + exfalso. apply B, T. reflexivity.
    + exfalso. apply T in B. discriminate.
Qed.
Print Assumptions C89_remove.

(** C89: removing twice is removing once, and the order does not matter. *)
Theorem C89_remove_order : forall p ind ind', coherent p -> valid p ind -> (forall k, In k ind <-> In k ind') -> exists m m' m'',
  remove p ind = (set_mat p m, None) /\ remove p ind' = (set_mat p m', None) /\ remove (set_mat p m) ind' = (set_mat p m'', None) /\
  ceq m m' /\ ceq m m''.
Proof.
  intros p ind ind' H V S. assert (V' : valid p ind') by (intros k Hk; apply V, S, Hk).
  destruct (remove_ok ind p H V) as (m & E & Mr & Mc & P). destruct (remove_ok ind' p H V') as (m' & E' & Mr' & Mc' & P').
  assert (H2 : coherent (set_mat p m)) by (destruct H as (_ & _ & H3 & H4); split; [exact Mr|]; split; [exact Mc|]; split; [exact H3|exact H4]).
  destruct (remove_ok ind' (set_mat p m) H2 V') as (m'' & E'' & Mr'' & Mc'' & P'').
  assert (T : forall i j, taken p ind i j = taken p ind' i j).
  { intros i j. pose proof (taken_iff p ind i j) as T1. pose proof (taken_iff p ind' i j) as T2. assert (belongs_any p ind i j <-> belongs_any p ind' i j) by (unfold belongs_any; split; intros (k & s & I & Q); exists k, s; (split; [apply S; exact I|exact Q])).
    destruct (taken p ind i j), (taken p ind' i j); try reflexivity; [symmetry; apply T2, H0, T1; reflexivity|apply T1, H0, T2; reflexivity]. }
  exists m, m', m''. split; [exact E|]. split; [exact E'|]. split; [exact E''|]. cbn [p_n set_mat] in Mr'', Mc''. split; (split; [congruence|]; split; [congruence|]); intros i j _ _.
  - rewrite P, P', T. reflexivity.
  - rewrite P''. unfold taken at 1. cbn [p_segs set_mat p_c p_ratio p_mat]. fold (taken p ind' i j). rewrite P, T. destruct (taken p ind' i j); reflexivity.
Qed.
Print Assumptions C89_remove_order.

(** ** reflectivity *)
Definition contrib (p : pup) (i j : nat) (ir : nat * R) : C :=
  match nth_error (p_segs p) (fst ir) with
  | Some s => over (p_c p) (p_ratio p) s (fun a b => Cmult (RtoC (s_shape s a b * snd ir)) (cisp (s_ph s))) i j
  | None => RtoC 0 end.
Lemma refl_loop l : forall p, coherent p -> (forall ir, In ir l -> (fst ir < length (p_segs p))%nat) ->
  exists m, loop refl_one p l = (set_mat p m, None) /\ crows m = p_n p /\ ccols m = p_n p /\
  forall i j, cpx m i j = Cplus (cpx (p_mat p) i j) (ctotal (map (contrib p i j) l)).
Proof.
  induction l as [|[k r] l IH]; intros p H V.
  - exists (p_mat p). destruct H as (H1 & H2 & _). split; [destruct p; reflexivity|]. repeat split; try assumption. intros; cbn; ring.
  - pose proof H as (H1 & H2 & H3 & H4). cbn [loop]. assert (Hk : (k < length (p_segs p))%nat) by (apply (V (k, r)); left; reflexivity). destruct (nth_error (p_segs p) k) as [s|] eqn:E; [|apply nth_error_None in E; lia].
    pose proof (H4 s (nth_error_In _ _ E)) as F. unfold refl_one. rewrite E. destruct (add_at_ok (p_n p) (p_ratio p) (p_c p) (p_mat p) s (apply_reflexivity s r) H1 H2 F eq_refl eq_refl) as (m1 & -> & R1 & C1 & V1). unfold andthen. cbn [snd fst].
    fold refl_one. destruct (IH (set_mat p m1)) as (m & Em & Mr & Mc & P); [split; [exact R1|]; split; [exact C1|]; split; [exact H3|exact H4]|intros ir I; apply V; right; exact I|].
    exists m. split; [exact Em|]. split; [exact Mr|]. split; [exact Mc|]. intros i j. rewrite P. cbn [p_mat set_mat]. rewrite V1. cbn [map ctotal]. unfold contrib at 2. cbn [fst snd]. rewrite E. cbn [apply_reflexivity cpx]. rewrite <- Cplus_assoc. reflexivity.
Qed.
Lemma combine_fst_In {A B} (l : list A) (l' : list B) x : In x (combine l l') -> In (fst x) l.
Proof. destruct x as [a b]. intros H. apply in_combine_l in H. exact H. Qed.

(** effect of applyReflexivitySegment at every pixel *)
Lemma refl_effect p ind coef : coherent p -> valid p ind -> ind <> [] -> length coef = length ind -> exists m,
  apply_reflexivity_segment p ind coef = (set_mat p m, None) /\ crows m = p_n p /\ ccols m = p_n p /\
  forall i j, cpx m i j = Cmult (RtoC (transmission p i j)) (Cplus (if taken p ind i j then RtoC 0 else cpx (p_mat p) i j) (ctotal (map (contrib p i j) (combine ind coef)))).
Proof.
  intros H V N L. unfold apply_reflexivity_segment. cbv zeta.
  assert (X : existsb (fun k => length (p_segs p) <=? k)%nat ind = false). { destruct (existsb _ ind) eqn:E; [|reflexivity]. apply existsb_exists in E. destruct E as (k & I & Hk). apply Nat.leb_le in Hk. specialize (V k I). lia. }
  rewrite X. cbn [andb]. rewrite L, Nat.eqb_refl. assert (L0 : length ind <> 0%nat) by (destruct ind; [contradiction|cbn; lia]). destruct (Nat.eqb_spec (length ind) 0); [contradiction|]. cbn [orb negb].
  destruct (remove_ok ind p H V) as (m1 & -> & R1 & C1 & V1). unfold andthen at 1. cbn [snd fst].
  assert (H1 : coherent (set_mat p m1)) by (destruct H as (_ & _ & H3 & H4); split; [exact R1|]; split; [exact C1|]; split; [exact H3|exact H4]).
  destruct (refl_loop (combine ind coef) (set_mat p m1) H1) as (m2 & -> & R2 & C2 & V2); [intros ir I; apply V; apply combine_fst_In in I; exact I|]. unfold andthen. cbn [snd fst].
  destruct (finish_ok (set_mat (set_mat p m1) m2) R2 C2) as (m3 & E & R3 & C3 & V3); [destruct H as (_ & _ & H3 & _); exact H3|].
  exists m3. split; [rewrite E; reflexivity|]. split; [exact R3|]. split; [exact C3|]. intros i j. rewrite V3. f_equal. cbn [p_mat set_mat]. rewrite V2. cbn [p_mat set_mat]. rewrite V1. reflexivity.
Qed.

(** the polygon of a segment is where its matrix has unit modulus at most, values 0 or 1 *)
Definition shape_ok (s : segm) : Prop := forall a b, s_shape s a b = 0 \/ (s_shape s a b = 1 /\ Cmod (cpx (s_mat s) a b) = 1).
Definition binary_spider (p : pup) : Prop := forall s i j, p_spi p = Some s -> px s i j = 0 \/ px s i j = 1.
Lemma transmission_01 p i j : binary_spider p -> transmission p i j = 0 \/ transmission p i j = 1.
Proof.
  intros B. unfold transmission. assert (X : (if Req_EM_T (p_cobs p) 0 then 1 else cobs_mask (p_n p) (p_cobs p) i j) = 0 \/ (if Req_EM_T (p_cobs p) 0 then 1 else cobs_mask (p_n p) (p_cobs p) i j) = 1).
  { destruct (Req_EM_T (p_cobs p) 0); [right; reflexivity|]. unfold cobs_mask. cbv zeta. destruct (Rle_dec _ _); [right|left]; reflexivity. }
  destruct (p_spi p) as [s|] eqn:E; [|rewrite Rmult_1_r; exact X].
  destruct (B s i j E) as [-> | ->]; rewrite ?Rabs_R0, ?Rabs_R1; destruct X as [-> | ->]; rewrite ?Rmult_0_r, ?Rmult_1_r; auto.
Qed.
Lemma contrib_zero p i j ir : (forall s, In s (p_segs p) -> shape_ok s) -> taken p [fst ir] i j = false -> contrib p i j ir = RtoC 0.
Proof.
  intros HS T. unfold contrib. destruct (nth_error (p_segs p) (fst ir)) as [s|] eqn:E; [|reflexivity]. unfold over. destruct (inside (p_c p) (p_ratio p) s i j) eqn:I; [|reflexivity].
  destruct (HS s (nth_error_In _ _ E) (Z.to_nat (Z.of_nat i - top (p_c p) (p_ratio p) s)) (Z.to_nat (Z.of_nat j - left (p_c p) (p_ratio p) s))) as [Z|[Z U]].
  - rewrite Z. rewrite Rmult_0_l. unfold Cmult, RtoC. cbn. f_equal; ring.
  - exfalso. unfold taken in T. cbn [existsb] in T. rewrite E in T. rewrite orb_false_r in T. unfold over in T. rewrite I in T. apply is_one_iff in U. rewrite U in T. discriminate.
Qed.
Lemma taken_cons p ind i j : taken p ind i j = false -> forall k, In k ind -> taken p [k] i j = false.
Proof.
  intros T k Hk. destruct (taken p [k] i j) eqn:E; [|reflexivity]. apply taken_iff in E. destruct E as (k' & s & [<-|[]] & Es & B).
  assert (taken p ind i j = true) by (apply taken_iff; exists k, s; auto). congruence.
Qed.
Lemma contribs_zero p ind (coef : list R) i j : (forall s, In s (p_segs p) -> shape_ok s) -> taken p ind i j = false -> ctotal (map (contrib p i j) (combine ind coef)) = RtoC 0.
Proof.
  intros HS T. pose proof (taken_cons p ind i j T) as Q. clear T. revert coef. induction ind as [|k ind IH]; intros [|r coef]; try reflexivity. cbn [combine map ctotal]. rewrite contrib_zero; [|exact HS|cbn; apply Q; left; reflexivity]. rewrite IH by (intros k' Hk; apply Q; right; exact Hk). ring.
Qed.

(** C89: setting the reflectivity of some segments twice is the same as setting it once with the
    last values. *)
Theorem C89_last_wins : forall p ind r1 r2, coherent p -> valid p ind -> ind <> [] -> length r1 = length ind -> length r2 = length ind ->
  (forall s, In s (p_segs p) -> shape_ok s) -> binary_spider p -> exists m1 m2 m12,
  apply_reflexivity_segment p ind r1 = (set_mat p m1, None) /\ apply_reflexivity_segment p ind r2 = (set_mat p m2, None) /\
  apply_reflexivity_segment (set_mat p m1) ind r2 = (set_mat p m12, None) /\ ceq m12 m2.
Proof.
  intros p ind r1' r2' H V N L1 L2 HS HB. destruct (refl_effect p ind r1' H V N L1) as (m1 & E1 & R1 & C1 & V1). destruct (refl_effect p ind r2' H V N L2) as (m2 & E2 & R2 & C2 & V2).
  assert (H1 : coherent (set_mat p m1)) by (destruct H as (_ & _ & H3 & H4); split; [exact R1|]; split; [exact C1|]; split; [exact H3|exact H4]).
  destruct (refl_effect (set_mat p m1) ind r2' H1 V N L2) as (m12 & E12 & R12 & C12 & V12). exists m1, m2, m12. split; [exact E1|]. split; [exact E2|]. split; [exact E12|].
  cbn [p_n set_mat] in R12, C12. split; [congruence|]. split; [congruence|]. intros i j _ _. rewrite V12, V2.
  change (taken (set_mat p m1) ind i j) with (taken p ind i j). change (transmission (set_mat p m1) i j) with (transmission p i j). change (contrib (set_mat p m1) i j) with (contrib p i j). cbn [p_mat set_mat]. rewrite V1.
  destruct (taken p ind i j) eqn:T; [reflexivity|]. rewrite !(contribs_zero p ind _ i j HS T). destruct (transmission_01 p i j HB) as [-> | ->]; ring.
Qed.
Print Assumptions C89_last_wins.

(** ** pristine pupils: as built, with segments that do not overlap *)
Definition mat_at (p : pup) (s : segm) (i j : nat) : C := over (p_c p) (p_ratio p) s (cpx (s_mat s)) i j.
Definition pristine (p : pup) : Prop :=
  coherent p /\ binary_spider p /\
  (forall s, In s (p_segs p) -> forall a b, (s_shape s a b = 0 \/ s_shape s a b = 1) /\ cpx (s_mat s) a b = RtoC (s_shape s a b)) /\ (forall s, In s (p_segs p) -> s_ph s = 0 /\ s_refl s = 1) /\
  (forall i j, cpx (p_mat p) i j = Cmult (RtoC (transmission p i j)) (ctotal (map (fun s => mat_at p s i j) (p_segs p)))) /\
  forall k k' s s' i j, nth_error (p_segs p) k = Some s -> nth_error (p_segs p) k' = Some s' -> k <> k' -> mat_at p s i j = RtoC 0 \/ mat_at p s' i j = RtoC 0.

Lemma Cmod_1 : Cmod (RtoC 1) = 1. Proof. rewrite Cmod_R. apply Rabs_R1. Qed.
Lemma pristine_shape p s : pristine p -> In s (p_segs p) -> shape_ok s.
Proof. intros (_ & _ & P & _) I a b. destruct (P s I a b) as [[Z|Z] E]; [left; exact Z|right]. split; [exact Z|]. rewrite E, Z. apply Cmod_1. Qed.
Lemma mat_at_01 p s i j : pristine p -> In s (p_segs p) -> mat_at p s i j = RtoC 0 \/ (mat_at p s i j = RtoC 1 /\ belongs p s i j).
Proof.
  intros (_ & _ & P & _) I. unfold mat_at, belongs, over. destruct (inside (p_c p) (p_ratio p) s i j) eqn:Q; [|left; reflexivity].
  destruct (P s I (Z.to_nat (Z.of_nat i - top (p_c p) (p_ratio p) s)) (Z.to_nat (Z.of_nat j - left (p_c p) (p_ratio p) s))) as [[Z|Z] E]; rewrite E, Z; [left; reflexivity|right]. split; [reflexivity|]. split; [reflexivity|]. apply Cmod_1.
Qed.
Lemma ctotal_single (l : list C) k z : nth_error l k = Some z -> (forall k' z', k' <> k -> nth_error l k' = Some z' -> z' = RtoC 0) -> ctotal l = z.
Proof.
  revert k. induction l as [|x l IH]; intros [|k] E Z; try discriminate.
  - injection E as ->. cbn [ctotal]. assert (ctotal l = RtoC 0); [|rewrite H; ring]. clear IH. assert (Q : forall y, In y l -> y = RtoC 0) by (intros y Hy; apply In_nth_error in Hy; destruct Hy as (q & Hq); apply (Z (S q) y); [lia|exact Hq]).
    clear Z. induction l as [|y l IH]; [reflexivity|]. cbn [ctotal]. rewrite (Q y) by (left; reflexivity). rewrite IH by (intros; apply Q; right; assumption). ring.
  - cbn [ctotal]. rewrite (Z 0%nat x) by (try lia; reflexivity). rewrite (IH k E). { ring. } intros k' z' N Q. apply (Z (S k') z'); [lia|exact Q].
Qed.
Lemma pristine_pixel p k s i j : pristine p -> nth_error (p_segs p) k = Some s -> belongs p s i j -> cpx (p_mat p) i j = RtoC (transmission p i j).
Proof.
  intros H E B. pose proof H as (_ & _ & _ & _ & M & D). rewrite M. destruct (mat_at_01 p s i j H (nth_error_In _ _ E)) as [Z|[Z _]]; [exfalso; destruct B as [_ B]; unfold mat_at in Z; rewrite Z, Cmod_0 in B; lra|].
  rewrite (ctotal_single _ k (RtoC 1)); [ring|rewrite nth_error_map, E; cbn; rewrite Z; reflexivity|]. intros k' z' N Q. rewrite nth_error_map in Q. destruct (nth_error (p_segs p) k') as [s'|] eqn:E'; [|discriminate]. cbn in Q. injection Q as <-.
  destruct (D k k' s s' i j E E') as [Q|Q]; [auto|exfalso; rewrite Z in Q; apply RtoC_inj in Q; lra|exact Q].
Qed.

(** C89: on a pupil as built, setting the reflectivity r of a segment gives r (times the
    transmission of the masks) on its pixels and leaves the pixels of the others. *)
Theorem C89_reflectivity : forall p ind coef, pristine p -> valid p ind -> ind <> [] -> NoDup ind -> length coef = length ind -> exists m,
  apply_reflexivity_segment p ind coef = (set_mat p m, None) /\ crows m = crows (p_mat p) /\ ccols m = ccols (p_mat p) /\ forall i j,
  (forall q k s r, nth_error ind q = Some k -> nth_error (p_segs p) k = Some s -> nth_error coef q = Some r -> belongs p s i j -> cpx m i j = RtoC (transmission p i j * r)) /\
  (~ belongs_any p ind i j -> cpx m i j = cpx (p_mat p) i j).
Proof.
  intros p ind coef H V N ND L. pose proof H as (Hco & HB & HSh & HPh & HM & HD). pose proof Hco as (Cr & Cc & _).
  destruct (refl_effect p ind coef Hco V N L) as (m & E & R1 & C1 & V1). exists m. split; [exact E|]. split; [congruence|]. split; [congruence|]. intros i j. split.
  - intros q k s r Eq Es Er B. rewrite V1. assert (T : taken p ind i j = true) by (apply taken_iff; exists k, s; split; [eapply nth_error_In; exact Eq|]; auto). rewrite T.
    assert (CT : ctotal (map (contrib p i j) (combine ind coef)) = RtoC r).
    { apply (ctotal_single _ q).
      - rewrite nth_error_map. assert (X : nth_error (combine ind coef) q = Some (k, r)). { clear - Eq Er. revert ind coef Eq Er. induction q as [|q IH]; intros [|x ind] [|y coef] A B; try discriminate; cbn in *; [congruence|]. apply IH; assumption. }
        rewrite X. cbn [option_map]. f_equal. unfold contrib. cbn [fst snd]. rewrite Es. unfold belongs, over in *. destruct B as [I U]. rewrite I in *. destruct (HSh s (nth_error_In _ _ Es) (Z.to_nat (Z.of_nat i - top (p_c p) (p_ratio p) s)) (Z.to_nat (Z.of_nat j - left (p_c p) (p_ratio p) s))) as [[Z|Z] EM].
        + rewrite EM, Z, Cmod_0 in U. lra.
        + rewrite Z. destruct (HPh s (nth_error_In _ _ Es)) as [-> _]. unfold cisp. rewrite cos_0, sin_0, Rmult_1_l. unfold Cmult, RtoC. cbn. f_equal; ring.
      - intros q' z' Nq Q. rewrite nth_error_map in Q. destruct (nth_error (combine ind coef) q') as [[k' r']|] eqn:X; [|discriminate]. cbn [option_map] in Q. injection Q as <-.
        assert (X1 : nth_error ind q' = Some k'). { clear - X. revert ind coef X. induction q' as [|q IH]; intros [|x ind] [|y coef] A; try discriminate; cbn in *; [congruence|]. eapply IH; eassumption. }
        assert (k' <> k). { intros ->. apply Nq. eapply NoDup_nth_error; [exact ND|apply nth_error_Some; congruence|congruence]. }
        unfold contrib. cbn [fst snd]. destruct (nth_error (p_segs p) k') as [s'|] eqn:Es'; [|reflexivity].
        destruct (HD k k' s s' i j Es Es') as [Q|Q]; [auto|exfalso; unfold mat_at in Q; destruct B as [_ B]; rewrite Q, Cmod_0 in B; lra|].
        unfold mat_at, over in *. destruct (inside (p_c p) (p_ratio p) s' i j); [|reflexivity]. destruct (HSh s' (nth_error_In _ _ Es') (Z.to_nat (Z.of_nat i - top (p_c p) (p_ratio p) s')) (Z.to_nat (Z.of_nat j - left (p_c p) (p_ratio p) s'))) as [_ EM]. rewrite EM in Q. apply RtoC_inj in Q. rewrite Q, Rmult_0_l. ring. }
    rewrite CT, Cplus_0_l. rewrite RtoC_mult. reflexivity.
  - intros NB. rewrite V1. destruct (taken p ind i j) eqn:T; [exfalso; apply NB, taken_iff; exact T|]. rewrite (contribs_zero p ind coef i j (fun s Hs => pristine_shape p s H Hs) T). rewrite Cplus_0_r. rewrite HM. destruct (transmission_01 p i j HB) as [-> | ->]; ring.
Qed.
Print Assumptions C89_reflectivity.

(** C89: in particular a reflectivity of one changes nothing. *)
Theorem C89_unit : forall p ind, pristine p -> valid p ind -> ind <> [] -> NoDup ind -> exists m,
  apply_reflexivity_segment p ind (repeat 1 (length ind)) = (set_mat p m, None) /\ ceq m (p_mat p).
Proof.
  intros p ind H V N ND. destruct (C89_reflectivity p ind (repeat 1 (length ind)) H V N ND) as (m & E & R1 & C1 & P); [apply repeat_length|]. exists m. split; [exact E|]. split; [exact R1|]. split; [exact C1|]. intros i j _ _. destruct (P i j) as [P1 P2].
  destruct (taken p ind i j) eqn:T; [|apply P2; rewrite <- taken_iff; congruence].
  apply taken_iff in T. destruct T as (k & s & Ik & Es & B). apply In_nth_error in Ik. destruct Ik as (q & Eq). rewrite (P1 q k s 1 Eq Es); [|apply nth_error_repeat; apply nth_error_Some; congruence|exact B]. rewrite Rmult_1_r. symmetry. apply (pristine_pixel p k s i j H Es B).
Qed.
Print Assumptions C89_unit.

(** C89: a pupil built without gap filling, with the shapes of the default orientation and
    segments that do not overlap, is pristine. *)
Theorem C89_built : forall poly g coords h cobs spi p, (0 < g_sides g)%nat -> 0 < g_radius g -> centred_field h coords ->
  g_mat g = mkC (g_np g) (g_np g) (fun i j => RtoC (seg_shape poly (g_sides g) 0 1 (g_np g) i j)) ->
  (forall f n, spi = Some f -> rows (f n) = n /\ cols (f n) = n /\ forall i j, px (f n) i j = 0 \/ px (f n) i j = 1) ->
  new_pupil poly g coords cobs spi false = Ok (g, p) ->
  (forall k k' s s' i j, nth_error (p_segs p) k = Some s -> nth_error (p_segs p) k' = Some s' -> k <> k' -> mat_at p s i j = RtoC 0 \/ mat_at p s' i j = RtoC 0) ->
  pristine p.
Proof.
  intros poly g coords h cobs spi p HS HR Hf Gm Hspi E D.
  destruct (C88_assembly poly g coords h cobs spi HS HR) as (p' & E' & Co & Ra & Nn & Ce & Cb & F & V); [rewrite Gm; reflexivity|rewrite Gm; reflexivity|exact Hf|intros f n Ef; destruct (Hspi f n Ef) as (A & B & _); split; assumption|].
  rewrite E in E'. apply Ok_inj in E'. injection E' as <-.
  assert (Q : p_spi p = match spi with Some f => Some (f (p_n p)) | None => None end /\ p_segs p = map (fresh poly g) coords).
  { unfold new_pupil in E. apply bindOk in E. destruct E as (x1 & _ & H). apply bindOk in H. destruct H as (x2 & E2 & H). rewrite (seg_list_ok poly g coords HS) in E2. apply Ok_inj in E2. subst x2. apply bindOk in H. destruct H as (x3 & _ & H). apply bindOk in H. destruct H as (x4 & _ & H). cbv zeta in H. apply bindOk in H. destruct H as (x5 & _ & H). cbn [bind] in H. apply bindOk in H. destruct H as (x6 & _ & H). apply Ok_inj in H. injection H as <-. split; reflexivity. }
  destruct Q as [QS QL]. split; [exact Co|]. split.
  { intros s i j Es. rewrite QS in Es. destruct spi as [f|]; [|discriminate]. injection Es as <-. destruct (Hspi f (p_n p) eq_refl) as (_ & _ & X). apply X. }
  split.
  { intros s Is a b. rewrite QL in Is. apply in_map_iff in Is. destruct Is as (xy & <- & _). cbn [fresh s_shape s_mat]. split; [|rewrite Gm; reflexivity]. unfold seg_shape. destruct (poly _ _ _ _); auto. }
  split.
  { intros s Is. rewrite QL in Is. apply in_map_iff in Is. destruct Is as (xy & <- & _). split; reflexivity. }
  split; [|exact D].
  intros i j. rewrite V. f_equal. f_equal. rewrite QL. rewrite !map_map. apply map_ext. intros xy. reflexivity.
Qed.
Print Assumptions C89_built.

(** C89 (finding): where the gap between segments was filled (the matrix is one outside the
    polygon), any setting of the reflectivity, even to one, reopens the gap. *)
Theorem C89_gap_refuted : forall p k s r i j, coherent p -> nth_error (p_segs p) k = Some s -> belongs p s i j ->
  s_shape s (Z.to_nat (Z.of_nat i - top (p_c p) (p_ratio p) s)) (Z.to_nat (Z.of_nat j - left (p_c p) (p_ratio p) s)) = 0 ->
  cpx (p_mat (fst (apply_reflexivity_segment p [k] [r]))) i j = RtoC 0.
Proof.
  intros p k s r i j H Es B Z. destruct (refl_effect p [k] [r] H) as (m & E & _ & _ & V); [intros k' [<-|[]]; apply nth_error_Some; congruence|discriminate|reflexivity|]. rewrite E. cbn [fst p_mat set_mat]. rewrite V.
  assert (T : taken p [k] i j = true) by (apply taken_iff; exists k, s; split; [left; reflexivity|auto]). rewrite T. cbn [combine map ctotal]. unfold contrib. cbn [fst snd]. rewrite Es. unfold over. destruct B as [I _]. rewrite I, Z, Rmult_0_l. ring.
Qed.
Print Assumptions C89_gap_refuted.

(** C89 (finding): rotating (or shrinking) segments always raises, after having removed them. *)
Theorem C89_rotate_refuted : forall p ind a ang, coherent p -> valid p ind -> ind <> [] -> exists m,
  rotate_segment p ind (a :: ang) = (set_mat p m, Some ValueError) /\ forall i j, belongs_any p ind i j -> cpx m i j = RtoC 0.
Proof.
  intros p ind a ang H V N. destruct (remove_ok ind p H V) as (m & E & _ & _ & P). exists m. unfold rotate_segment. rewrite E. unfold andthen. cbn [snd fst]. split.
  - destruct ind as [|k ind]; [contradiction|]. cbn [p_segs set_mat]. destruct (nth_error (p_segs p) k) as [s|] eqn:Es; [reflexivity|]. apply nth_error_None in Es. specialize (V k (or_introl eq_refl)). lia.
  - intros i j B. rewrite P. apply taken_iff in B. rewrite B. reflexivity.
Qed.
Print Assumptions C89_rotate_refuted.

Lemma F2_length {A B} (P : A -> B -> Prop) l l' : Forall2 P l l' -> length l = length l'.
Proof. induction 1; cbn; congruence. Qed.
(** non-vacuity: one square segment *)
Example C89_ex : exists p, new_pupil (fun _ _ _ _ => true) (mkRef 4 1 2 (mkC 2 2 (fun _ _ => RtoC 1))) [(0, 0)] 0 None false = Ok (mkRef 4 1 2 (mkC 2 2 (fun _ _ => RtoC 1)), p) /\ pristine p /\ length (p_segs p) = 1%nat.
Proof.
  set (g := mkRef 4 1 2 (mkC 2 2 (fun _ _ => RtoC 1))).
  assert (Hf : centred_field 0 [(0, 0)]). { split; [intros xy [<-|[]]; cbn; rewrite Rabs_R0; lra|]. split; exists (0, 0); (split; [left; reflexivity|left; cbn; lra]). }
  destruct (C88_assembly (fun _ _ _ _ => true) g [(0, 0)] 0 0 None) as (p & E & _ & _ & _ & _ & _ & F & _); try reflexivity; try (cbn; lia); try (cbn; lra); [exact Hf|discriminate|]. exists p. split; [exact E|]. split; [|apply F2_length in F; exact F].
  apply (C89_built (fun _ _ _ _ => true) g [(0, 0)] 0 0 None p); try reflexivity; try (cbn; lia); try (cbn; lra); [exact Hf|discriminate|exact E|].
  apply F2_length in F. cbn in F. intros k k' s s' i j A B N. assert (k < 1)%nat by (rewrite <- F; apply nth_error_Some; congruence). assert (k' < 1)%nat by (rewrite <- F; apply nth_error_Some; congruence). lia.
Qed.
