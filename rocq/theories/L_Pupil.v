(** Lemmas on the segmented pupil. *)
From Coq Require Import Reals List Arith ZArith Lia Lra Psatz.
From Coq Require Import ZifyBool ZifyNat.
From Flocq Require Import Core.Raux.
From Verif Require Import Base_Py Base_Sum M_Image M_Fourier M_Tools M_Freq L_Tools2 M_Pupil S_Pupil.
From Coquelicot Require Import Complex.
Import ListNotations.
Open Scope R_scope.

Lemma Zceil_addZ x k : Zceil (x + IZR k) = (Zceil x + k)%Z.
Proof.
  apply Zceil_imp. rewrite minus_IZR, plus_IZR. pose proof (Zceil_ub x). pose proof (Zceil_lb x). split; lra.
Qed.
Lemma pos_fit (ratio c : R) (s : segm) : crows (s_mat s) = s_np s -> ccols (s_mat s) = s_np s ->
  pos_seg ratio c s = mkPos (top c ratio s) (top c ratio s + Z.of_nat (s_np s)) (left c ratio s) (left c ratio s + Z.of_nat (s_np s)).
Proof.
  intros Hr Hc. unfold pos_seg, top, left, corner. cbv zeta. rewrite Hr, Hc. rewrite <- !Zceil_addZ, <- !INR_IZR_INZ.
  f_equal; f_equal; field.
Qed.

Lemma cadd_ok a (ra ca : Z) b : (0 <= ra)%Z -> (ra + Z.of_nat (crows b) <= Z.of_nat (crows a))%Z -> (0 <= ca)%Z -> (ca + Z.of_nat (ccols b) <= Z.of_nat (ccols a))%Z ->
  exists m, cadd_slice a ra (ra + Z.of_nat (crows b)) ca (ca + Z.of_nat (ccols b)) b = Ok m /\ crows m = crows a /\ ccols m = ccols a /\
  forall i j, cpx m i j = if ((ra <=? Z.of_nat i) && (Z.of_nat i <? ra + Z.of_nat (crows b)) && (ca <=? Z.of_nat j) && (Z.of_nat j <? ca + Z.of_nat (ccols b)))%Z%bool
                          then Cplus (cpx a i j) (cpx b (Z.to_nat (Z.of_nat i - ra)) (Z.to_nat (Z.of_nat j - ca))) else cpx a i j.
Proof.
  intros H1 H2 H3 H4. unfold cadd_slice. cbv zeta. rewrite !slice_len_in by lia.
  replace (ra + Z.of_nat (crows b) - ra)%Z with (Z.of_nat (crows b)) by lia. replace (ca + Z.of_nat (ccols b) - ca)%Z with (Z.of_nat (ccols b)) by lia.
  rewrite !Nat2Z.id, !Nat.eqb_refl. cbn [orb andb]. eexists. split; [reflexivity|]. cbn [crows ccols cpx]. split; [reflexivity|]. split; [reflexivity|].
  intros i j. unfold in_sl. rewrite !slice_len_in by lia. rewrite !slice_bound_in by lia.
  replace (ra + (ra + Z.of_nat (crows b) - ra))%Z with (ra + Z.of_nat (crows b))%Z by lia. replace (ca + (ca + Z.of_nat (ccols b) - ca))%Z with (ca + Z.of_nat (ccols b))%Z by lia.
  destruct (Z.leb_spec ra (Z.of_nat i)); destruct (Z.ltb_spec (Z.of_nat i) (ra + Z.of_nat (crows b))); destruct (Z.leb_spec ca (Z.of_nat j)); destruct (Z.ltb_spec (Z.of_nat j) (ca + Z.of_nat (ccols b))); cbn [andb]; try reflexivity.
  f_equal. f_equal.
  - destruct (Nat.eqb_spec (crows b) 1); lia.
  - destruct (Nat.eqb_spec (ccols b) 1); lia.
Qed.

Lemma add_at_ok n ratio c m s b : crows m = n -> ccols m = n -> fits n c ratio s -> crows b = s_np s -> ccols b = s_np s ->
  exists m', add_at ratio c m s b = Ok m' /\ crows m' = n /\ ccols m' = n /\
  forall i j, cpx m' i j = Cplus (cpx m i j) (over c ratio s (cpx b) i j).
Proof.
  intros Hr Hc (F1 & F2 & F3 & F4 & F5 & F6) Br Bc. unfold add_at. rewrite (pos_fit _ _ _ F1 F2). cbn [r0 r1 c0 c1].
  replace (top c ratio s + Z.of_nat (s_np s))%Z with (top c ratio s + Z.of_nat (crows b))%Z by (rewrite Br; reflexivity). replace (left c ratio s + Z.of_nat (s_np s))%Z with (left c ratio s + Z.of_nat (ccols b))%Z by (rewrite Bc; reflexivity). destruct (cadd_ok m (top c ratio s) (left c ratio s) b) as (m' & E & Er & Ec & V); try (rewrite ?Br, ?Bc, ?Hr, ?Hc; lia).
  exists m'. split; [exact E|]. split; [congruence|]. split; [congruence|]. intros i j. rewrite V. unfold over, inside. rewrite Br, Bc.
  destruct (((top c ratio s <=? Z.of_nat i) && (Z.of_nat i <? top c ratio s + Z.of_nat (s_np s)) && (left c ratio s <=? Z.of_nat j) && (Z.of_nat j <? left c ratio s + Z.of_nat (s_np s)))%Z%bool); [reflexivity|].
  ring.
Qed.

Lemma assemble_ok n ratio c l : forall m, crows m = n -> ccols m = n -> (forall s, In s l -> fits n c ratio s) ->
  exists m', assemble ratio c m l = Ok m' /\ crows m' = n /\ ccols m' = n /\
  forall i j, cpx m' i j = Cplus (cpx m i j) (ctotal (map (fun s => over c ratio s (cpx (s_mat s)) i j) l)).
Proof.
  induction l as [|s l IH]; intros m Hr Hc F.
  - exists m. cbn. repeat split; try assumption. intros; ring.
  - cbn [assemble]. pose proof (F s (or_introl eq_refl)) as Fs. pose proof Fs as (F1 & F2 & _). destruct (add_at_ok n ratio c m s (s_mat s) Hr Hc Fs F1 F2) as (m1 & -> & R1 & C1 & V1). cbn [bind].
    destruct (IH m1 R1 C1) as (m' & E & R2 & C2 & V2); [intros; apply F; right; assumption|]. exists m'. split; [exact E|]. split; [exact R2|]. split; [exact C2|].
    intros i j. rewrite V2, V1. cbn [map ctotal]. ring.
Qed.

(** masks *)
Lemma masks_ok p m : crows m = p_n p -> ccols m = p_n p -> (forall s, p_spi p = Some s -> rows s = p_n p /\ cols s = p_n p) ->
  exists m', masks (p_n p) (p_cobs p) (p_spi p) m = Ok m' /\ crows m' = p_n p /\ ccols m' = p_n p /\
  forall i j, cpx m' i j = Cmult (RtoC (transmission p i j)) (cpx m i j).
Proof.
  intros Hr Hc Hs. unfold masks, make_cobs, make_spiders, transmission.
  assert (CM : forall (z : C) a, (fst z * a, snd z * a) = Cmult (RtoC a) z) by (intros [x y] a; unfold Cmult, RtoC; cbn; f_equal; ring).
  destruct (Req_EM_T (p_cobs p) 0) as [E|E].
  - cbn [bind]. destruct (p_spi p) as [s|] eqn:Es.
    + destruct (Hs s eq_refl) as [-> ->]. rewrite Hr, Hc, !Nat.eqb_refl. cbn [andb]. eexists. split; [reflexivity|]. cbn [crows ccols cpx cscale]. split; [exact Hr|]. split; [exact Hc|]. intros i j. rewrite CM. f_equal. f_equal. ring.
    + eexists. split; [reflexivity|]. split; [exact Hr|]. split; [exact Hc|]. intros i j. rewrite Rmult_1_r. ring.
  - rewrite Hr, Hc, !Nat.eqb_refl. cbn [andb bind]. destruct (p_spi p) as [s|] eqn:Es.
    + destruct (Hs s eq_refl) as [-> ->]. cbn [crows ccols cscale]. rewrite Hr, Hc, !Nat.eqb_refl. cbn [andb]. eexists. split; [reflexivity|]. cbn [crows ccols cpx cscale]. split; [exact Hr|]. split; [exact Hc|]. intros i j. rewrite !CM. rewrite <- Cmult_assoc || idtac. rewrite RtoC_mult. ring.
    + eexists. split; [reflexivity|]. cbn [crows ccols cpx cscale]. split; [exact Hr|]. split; [exact Hc|]. intros i j. rewrite CM. f_equal. f_equal. ring.
Qed.
Lemma finish_ok p : crows (p_mat p) = p_n p -> ccols (p_mat p) = p_n p -> (forall s, p_spi p = Some s -> rows s = p_n p /\ cols s = p_n p) ->
  exists m', finish p = (set_mat p m', None) /\ crows m' = p_n p /\ ccols m' = p_n p /\
  forall i j, cpx m' i j = Cmult (RtoC (transmission p i j)) (cpx (p_mat p) i j).
Proof.
  intros Hr Hc Hs. destruct (masks_ok p (p_mat p) Hr Hc Hs) as (m' & E & R1 & C1 & V). exists m'. split; [|repeat split; assumption].
  unfold masks in E. apply bindOk in E. destruct E as (m1 & E1 & E2). unfold finish. rewrite E1, E2. reflexivity.
Qed.

(** removal *)
Lemma existsb_seq f n : existsb f (seq 0 n) = true <-> exists i, (i < n)%nat /\ f i = true.
Proof. rewrite existsb_exists. split; [intros (i & I & H); exists i; apply in_seq in I; split; [lia|exact H]|intros (i & I & H); exists i; split; [apply in_seq; lia|exact H]]. Qed.
Lemma remove_one_ok n ratio c m s : crows m = n -> ccols m = n -> fits n c ratio s ->
  exists m', remove_one ratio c m s = Ok m' /\ crows m' = n /\ ccols m' = n /\
  forall i j, cpx m' i j = if (inside c ratio s i j && is_one (over c ratio s (cpx (s_mat s)) i j))%bool then RtoC 0 else cpx m i j.
Proof.
  intros Hr Hc (F1 & F2 & F3 & F4 & F5 & F6). unfold remove_one. rewrite (pos_fit _ _ _ F1 F2). cbv zeta. cbn [r0 r1 c0 c1]. rewrite Hr, Hc. rewrite !slice_len_in by lia.
  destruct (seg_any (s_mat s)) eqn:A.
  - rewrite F1, F2. replace (Z.to_nat (top c ratio s + Z.of_nat (s_np s) - top c ratio s)) with (s_np s) by lia. replace (Z.to_nat (left c ratio s + Z.of_nat (s_np s) - left c ratio s)) with (s_np s) by lia.
    rewrite !Nat.eqb_refl. cbn [andb]. eexists. split; [reflexivity|]. cbn [crows ccols cpx]. split; [reflexivity|]. split; [reflexivity|]. intros i j.
    unfold over, inside, in_sl. rewrite !slice_len_in by lia. rewrite !slice_bound_in by lia.
    replace (top c ratio s + (top c ratio s + Z.of_nat (s_np s) - top c ratio s))%Z with (top c ratio s + Z.of_nat (s_np s))%Z by lia. replace (left c ratio s + (left c ratio s + Z.of_nat (s_np s) - left c ratio s))%Z with (left c ratio s + Z.of_nat (s_np s))%Z by lia.
    destruct (Z.leb_spec (top c ratio s) (Z.of_nat i)); destruct (Z.ltb_spec (Z.of_nat i) (top c ratio s + Z.of_nat (s_np s))); destruct (Z.leb_spec (left c ratio s) (Z.of_nat j)); destruct (Z.ltb_spec (Z.of_nat j) (left c ratio s + Z.of_nat (s_np s))); cbn [andb]; try reflexivity.
    replace (i - Z.to_nat (top c ratio s))%nat with (Z.to_nat (Z.of_nat i - top c ratio s)) by lia. replace (j - Z.to_nat (left c ratio s))%nat with (Z.to_nat (Z.of_nat j - left c ratio s)) by lia. reflexivity.
  - exists m. split; [reflexivity|]. split; [exact Hr|]. split; [exact Hc|]. intros i j. unfold over. destruct (inside c ratio s i j) eqn:I; [|reflexivity]. cbn [andb].
    destruct (is_one (cpx (s_mat s) (Z.to_nat (Z.of_nat i - top c ratio s)) (Z.to_nat (Z.of_nat j - left c ratio s)))) eqn:O; [|reflexivity]. exfalso. unfold inside in I.
    assert (seg_any (s_mat s) = true); [|congruence]. unfold seg_any. apply existsb_seq. exists (Z.to_nat (Z.of_nat i - top c ratio s)). split; [lia|]. apply existsb_seq. exists (Z.to_nat (Z.of_nat j - left c ratio s)). split; [lia|exact O].
Qed.

(** the pixels taken away by the removal of a list of segments *)
Definition taken (p : pup) (ind : list nat) (i j : nat) : bool :=
  existsb (fun k => match nth_error (p_segs p) k with
                    | Some s => (inside (p_c p) (p_ratio p) s i j && is_one (over (p_c p) (p_ratio p) s (cpx (s_mat s)) i j))%bool
                    | None => false end) ind.
Lemma remove_ok ind : forall p, coherent p -> (forall k, In k ind -> (k < length (p_segs p))%nat) ->
  exists m', remove p ind = (set_mat p m', None) /\ crows m' = p_n p /\ ccols m' = p_n p /\
  forall i j, cpx m' i j = if taken p ind i j then RtoC 0 else cpx (p_mat p) i j.
Proof.
  induction ind as [|k ind IH]; intros p H I.
  - exists (p_mat p). destruct H as (H1 & H2 & _). split; [destruct p; reflexivity|]. split; [exact H1|]. split; [exact H2|]. reflexivity.
  - pose proof H as (H1 & H2 & H3 & H4). cbn [remove]. destruct (nth_error (p_segs p) k) as [s|] eqn:E; [|apply nth_error_None in E; specialize (I k (or_introl eq_refl)); lia].
    destruct (remove_one_ok (p_n p) (p_ratio p) (p_c p) (p_mat p) s H1 H2 (H4 s (nth_error_In _ _ E))) as (m1 & -> & R1 & C1 & V1).
    destruct (IH (set_mat p m1)) as (m' & E' & R2 & C2 & V2).
    + split; [exact R1|]. split; [exact C1|]. split; [exact H3|exact H4].
    + intros k' Hk. apply I. right. exact Hk.
    + exists m'. split; [exact E'|]. split; [exact R2|]. split; [exact C2|]. intros i j. rewrite V2. unfold taken. cbn [existsb p_segs set_mat p_c p_ratio p_mat]. rewrite E, V1.
      destruct (inside (p_c p) (p_ratio p) s i j && is_one (over (p_c p) (p_ratio p) s (cpx (s_mat s)) i j))%bool; cbn [orb]; [|reflexivity]. destruct (existsb _ ind); reflexivity.
Qed.
