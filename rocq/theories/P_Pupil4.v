(** C90 (continued): phase aberrations of the segments, for every history of calls. *)
From Coq Require Import Reals List Arith ZArith Lia Lra Psatz Permutation.
From Coq Require Import ZifyBool ZifyNat.
From Flocq Require Import Core.Raux.
From Verif Require Import Base_Py Base_Sum Base_DFT M_Image M_Fourier M_Tools M_Freq L_Tools2 M_Pupil S_Pupil L_Pupil P_Pupil P_Pupil2 P_Pupil3 M_Tools.
From Coquelicot Require Import Complex.
Import ListNotations.
Open Scope R_scope.

(** specification: the pupil carries the phase map [phi k] on its k-th segment. Segments do not
    overlap and have sharp edges. *)
Definition shape_at (p : pup) (s : segm) (i j : nat) : R :=
  if inside (p_c p) (p_ratio p) s i j then s_shape s (Z.to_nat (Z.of_nat i - top (p_c p) (p_ratio p) s)) (Z.to_nat (Z.of_nat j - left (p_c p) (p_ratio p) s)) else 0.
Definition carries (p : pup) (phi : nat -> nat -> nat -> R) : Prop :=
  coherent p /\ binary_spider p /\
  (forall k s, nth_error (p_segs p) k = Some s -> s_refl s = 1 /\ forall a b, (s_shape s a b = 0 \/ s_shape s a b = 1) /\ cpx (s_mat s) a b = Cmult (RtoC (s_shape s a b)) (cisp (phi k a b))) /\
  (forall i j, cpx (p_mat p) i j = Cmult (RtoC (transmission p i j)) (ctotal (map (fun s => mat_at p s i j) (p_segs p)))) /\
  forall k k' s s' i j, nth_error (p_segs p) k = Some s -> nth_error (p_segs p) k' = Some s' -> k <> k' -> shape_at p s i j = 0 \/ shape_at p s' i j = 0.

(** one call of applyPhaseErrorSegment: segments, Zernike modes, coefficients (one list per mode) *)
Record phcall := mkCall { pc_ind : list nat; pc_modes : list (nat -> nat -> R); pc_coefs : list (list R) }.
Definition call (p : pup) (c : phcall) : pup * option exn := apply_phase_segment p (pc_ind c) (length (pc_modes c)) (pc_modes c) (pc_coefs c).
Definition regular (nS : nat) (c : phcall) : Prop :=
  pc_ind c <> [] /\ NoDup (pc_ind c) /\ (forall k, In k (pc_ind c) -> (k < nS)%nat) /\ pc_modes c <> [] /\
  length (pc_coefs c) = length (pc_modes c) /\ forall l, In l (pc_coefs c) -> length l = length (pc_ind c).
(** phase it asks for on the segment k: that segment's combination of the modes, if listed *)
Fixpoint index_of (k : nat) (l : list nat) : option nat :=
  match l with [] => None | x :: l => if (x =? k)%nat then Some 0%nat else option_map S (index_of k l) end.
Definition asked (c : phcall) (k a b : nat) : option R :=
  match index_of k (pc_ind c) with
  | Some q => Some (rsum (length (pc_modes c)) (fun m => nth q (nth m (pc_coefs c) []) 0 * nth m (pc_modes c) (fun _ _ => 0) a b))
  | None => None end.
Definition after_call (phi : nat -> nat -> nat -> R) (c : phcall) (k a b : nat) : R := match asked c k a b with Some x => x | None => phi k a b end.

Lemma cisp_mod t : Cmod (cisp t) = 1.
Proof. unfold Cmod, cisp. cbn [fst snd]. replace (cos t ^ 2 + sin t ^ 2) with 1; [apply sqrt_1|]. pose proof (sin2_cos2 t) as H. unfold Rsqr in H. lra. Qed.

Definition aber (modes : list (nat -> nat -> R)) (coefs : list (list R)) (k : nat) (s : segm) : segm :=
  mkSeg (mkC (s_np s) (s_np s) (fun i j => Cmult (RtoC (s_shape s i j * s_refl s)) (cisp (seg_phase modes (map (fun c => nth k c 0) coefs) i j))))
        (s_shape s) (s_posX s) (s_posY s) (s_ex s) (s_ey s) (s_refl s) (s_ph s) (s_np s).
Definition pcontrib (p : pup) modes coefs (i j : nat) (ki : nat * nat) : C :=
  match nth_error (p_segs p) (snd ki) with Some s => mat_at p (aber modes coefs (fst ki) s) i j | None => RtoC 0 end.

Lemma phase_loop modes coefs l : forall p, coherent p -> (length coefs <= length modes)%nat -> NoDup (map snd l) -> (forall ki, In ki l -> (snd ki < length (p_segs p))%nat) ->
  exists sg m, loop (phase_one modes coefs) p l = (set_mat (set_segs p sg) m, None) /\ crows m = p_n p /\ ccols m = p_n p /\ length sg = length (p_segs p) /\
  (forall i j, cpx m i j = Cplus (cpx (p_mat p) i j) (ctotal (map (pcontrib p modes coefs i j) l))) /\
  (forall q, ~ In q (map snd l) -> nth_error sg q = nth_error (p_segs p) q) /\
  (forall k q s, In (k, q) l -> nth_error (p_segs p) q = Some s -> nth_error sg q = Some (aber modes coefs k s)).
Proof.
  induction l as [|[k q] l IH]; intros p H HL ND V.
  - exists (p_segs p), (p_mat p). destruct H as (H1 & H2 & _). split; [destruct p; reflexivity|]. split; [exact H1|]. split; [exact H2|]. split; [reflexivity|]. split; [intros; cbn; ring|]. split; [reflexivity|]. intros ? ? ? [].
  - pose proof H as (H1 & H2 & H3 & H4). assert (Hq : (q < length (p_segs p))%nat) by (apply (V (k, q)); left; reflexivity). destruct (nth_error (p_segs p) q) as [s|] eqn:E; [|apply nth_error_None in E; lia].
    cbn [map snd] in ND. apply NoDup_cons_iff in ND. destruct ND as [Nq ND].
    cbn [loop]. unfold phase_one at 1. rewrite E. unfold apply_phase. rewrite map_length. destruct (Nat.ltb_spec (length modes) (length coefs)); [lia|].
    pose proof (H4 s (nth_error_In _ _ E)) as F. fold (aber modes coefs k s).
    assert (F' : fits (p_n p) (p_c p) (p_ratio p) (aber modes coefs k s)) by (destruct F as (_ & _ & F); split; [reflexivity|]; split; [reflexivity|exact F]).
    change (mkC (s_np s) (s_np s) (fun i j => Cmult (RtoC (s_shape s i j * s_refl s)) (cisp (seg_phase modes (map (fun c => nth k c 0) coefs) i j)))) with (s_mat (aber modes coefs k s)).
    destruct (add_at_ok (p_n p) (p_ratio p) (p_c p) (p_mat p) (aber modes coefs k s) (s_mat (aber modes coefs k s)) H1 H2 F' eq_refl eq_refl) as (m1 & E1 & R1 & C1 & V1).
    fold (aber modes coefs k s). rewrite E1. unfold andthen. cbn [snd fst].
    set (p1 := set_mat (set_segs p (upd_at (p_segs p) q (aber modes coefs k s))) m1).
    destruct (IH p1) as (sg & m & Em & Mr & Mc & Lg & P & Q1 & Q2); [|exact HL|exact ND| |].
    { split; [exact R1|]. split; [exact C1|]. split; [exact H3|]. intros s' Is. cbn [p1 p_segs set_mat set_segs] in Is. apply upd_In in Is. destruct Is as [->|Is]; [exact F'|apply H4; exact Is]. }
    { intros ki I. cbn [p1 p_segs set_mat set_segs]. rewrite upd_length. apply V. right. exact I. }
    exists sg, m. split; [exact Em|]. split; [exact Mr|]. split; [exact Mc|]. split; [rewrite Lg; apply upd_length|]. cbn [p1 p_segs set_mat set_segs p_mat] in *. split; [|split].
    + intros i j. rewrite P, V1. cbn [map ctotal]. unfold pcontrib at 2. cbn [fst snd]. rewrite E. unfold mat_at at 1. rewrite <- Cplus_assoc. do 2 f_equal. f_equal. apply map_ext_in. intros [k' q'] I. unfold pcontrib. cbn [fst snd p1 p_segs set_mat set_segs]. rewrite upd_nth by exact Hq.
      destruct (Nat.eqb_spec q' q) as [->|_]; [exfalso; apply Nq; apply (in_map snd) in I; exact I|reflexivity].
    + intros x Hx. cbn [map snd] in Hx. rewrite Q1; [|intros I; apply Hx; right; exact I]. rewrite upd_nth by exact Hq. destruct (Nat.eqb_spec x q) as [->|_]; [exfalso; apply Hx; left; reflexivity|reflexivity].
    + intros k' q' s' [I|I] E'.
      * injection I as <- <-. rewrite Q1 by exact Nq. rewrite upd_nth by exact Hq. rewrite Nat.eqb_refl. congruence.
      * apply Q2; [exact I|]. rewrite upd_nth by exact Hq. destruct (Nat.eqb_spec q' q) as [->|_]; [exfalso; apply Nq; apply (in_map snd) in I; exact I|exact E'].
Qed.

Lemma index_nth k l q : index_of k l = Some q -> nth_error l q = Some k.
Proof. revert q. induction l as [|x l IH]; intros q H; [discriminate|]. cbn in H. destruct (Nat.eqb_spec x k) as [->|]; [injection H as <-; reflexivity|]. destruct (index_of k l) as [r|]; [|discriminate]. injection H as <-. cbn. apply IH. reflexivity. Qed.
Lemma index_none k l : index_of k l = None -> ~ In k l.
Proof. induction l as [|x l IH]; intros H; [intros []|]. cbn in H. destruct (Nat.eqb_spec x k) as [->|N]; [discriminate|]. destruct (index_of k l); [discriminate|]. intros [Q|Q]; [contradiction|]. apply IH; [reflexivity|exact Q]. Qed.
Lemma in_enum {A} (l : list A) q x : In (q, x) (combine (seq 0 (length l)) l) <-> nth_error l q = Some x.
Proof.
  assert (G : forall b q, In (q, x) (combine (seq b (length l)) l) <-> (b <= q)%nat /\ nth_error l (q - b) = Some x).
  { induction l as [|y l IH]; intros b r.
    - cbn. split; [intros []|intros [_ Q]; destruct (r - b)%nat; discriminate].
    - cbn [length seq combine In]. rewrite IH. split.
      + intros [Q|[L Q]]; [injection Q as <- <-; rewrite Nat.sub_diag; split; [lia|reflexivity]|]. split; [lia|]. replace (r - b)%nat with (S (r - S b)) by lia. exact Q.
      + intros [L Q]. destruct (Nat.eq_dec r b) as [->|N]; [left; rewrite Nat.sub_diag in Q; cbn in Q; congruence|right]. split; [lia|]. replace (r - b)%nat with (S (r - S b)) in Q by lia. exact Q. }
  rewrite G. rewrite Nat.sub_0_r. split; [tauto|intros Q; split; [lia|exact Q]].
Qed.
Lemma enum_snd {A} (l : list A) b : map snd (combine (seq b (length l)) l) = l.
Proof. revert b. induction l as [|y l IH]; intros b; [reflexivity|]. cbn. rewrite IH. reflexivity. Qed.

Lemma seg_phase_sum modes coefs q a b : length coefs = length modes ->
  seg_phase modes (map (fun c => nth q c 0) coefs) a b = rsum (length modes) (fun m => nth q (nth m coefs []) 0 * nth m modes (fun _ _ => 0) a b).
Proof.
  revert coefs. induction modes as [|f modes IH]; intros [|c coefs] L; try discriminate; [reflexivity|]. unfold seg_phase in *. cbn [map combine fold_right length fst snd]. injection L as L. rewrite (IH coefs L). rewrite rsum_S_l. cbn [nth]. ring.
Qed.

Lemma mat_at_shape p k s i j phi : carries p phi -> nth_error (p_segs p) k = Some s ->
  (shape_at p s i j = 0 /\ mat_at p s i j = RtoC 0) \/ (shape_at p s i j = 1 /\ belongs p s i j /\ mat_at p s i j = cisp (phi k (Z.to_nat (Z.of_nat i - top (p_c p) (p_ratio p) s)) (Z.to_nat (Z.of_nat j - left (p_c p) (p_ratio p) s)))).
Proof.
  intros (_ & _ & HS & _) E. unfold shape_at, belongs, mat_at, over. destruct (inside (p_c p) (p_ratio p) s i j) eqn:I; [|left; auto].
  destruct (HS k s E) as [_ Q]. destruct (Q (Z.to_nat (Z.of_nat i - top (p_c p) (p_ratio p) s)) (Z.to_nat (Z.of_nat j - left (p_c p) (p_ratio p) s))) as [[Z|Z] ->]; rewrite Z; [left; split; [reflexivity|ring]|right].
  split; [reflexivity|]. rewrite Cmult_1_l. split; [split; [reflexivity|apply cisp_mod]|reflexivity].
Qed.
Lemma ctotal_zero (l : list C) : (forall z, In z l -> z = RtoC 0) -> ctotal l = RtoC 0.
Proof. induction l as [|z l IH]; intros H; [reflexivity|]. cbn [ctotal]. rewrite (H z) by (left; reflexivity). rewrite IH by (intros; apply H; right; assumption). ring. Qed.

(** one call *)
Lemma one_call p phi c : carries p phi -> regular (length (p_segs p)) c ->
  exists p', call p c = (p', None) /\ carries p' (after_call phi c) /\ length (p_segs p') = length (p_segs p) /\
  p_n p' = p_n p /\ p_ratio p' = p_ratio p /\ p_c p' = p_c p /\ p_cobs p' = p_cobs p /\ p_spi p' = p_spi p /\ p_pupil p' = p_pupil p /\
  (forall k s, nth_error (p_segs p) k = Some s -> exists s', nth_error (p_segs p') k = Some s' /\ s_np s' = s_np s /\ s_posX s' = s_posX s /\ s_posY s' = s_posY s /\ s_ex s' = s_ex s /\ s_ey s' = s_ey s /\ s_shape s' = s_shape s /\ s_ph s' = s_ph s).
Proof.
  intros H (Hi & ND & HV & Hm & HL & HC). pose proof H as (Hco & HB & HS & HM & HD). pose proof Hco as (Cr & Cc & H3 & HF).
  unfold call, apply_phase_segment. destruct c as [ind modes coefs]. cbn [pc_ind pc_modes pc_coefs] in *.
  assert (G : ((length ind =? 0) || (length modes =? 0) || negb (length coefs =? length modes) || negb (forallb (fun c => length c =? length ind) coefs))%nat%bool = false).
  { destruct ind; [contradiction|]. destruct modes; [contradiction|]. rewrite HL, Nat.eqb_refl. cbn [length Nat.eqb orb negb]. apply negb_false_iff, forallb_forall. intros x Hx. apply Nat.eqb_eq. apply HC, Hx. }
  rewrite G. clear G. destruct (remove_ok ind p Hco HV) as (m1 & E1 & R1 & C1 & V1). rewrite E1. unfold andthen at 1. cbn [snd fst].
  assert (Hco1 : coherent (set_mat p m1)) by (split; [exact R1|]; split; [exact C1|]; split; [exact H3|exact HF]).
  destruct (phase_loop modes coefs (combine (seq 0 (length ind)) ind) (set_mat p m1) Hco1) as (sg & m2 & E2 & R2 & C2 & Lg & V2 & Q1 & Q2); [lia|rewrite enum_snd; exact ND|intros [k q] I; apply in_combine_r in I; apply HV, I|].
  rewrite E2. unfold andthen. cbn [snd fst]. rewrite enum_snd in Q1. cbn [p_segs set_mat] in Q1, Q2, Lg.
  set (p2 := set_mat (set_segs (set_mat p m1) sg) m2).
  destruct (finish_ok p2 R2 C2 H3) as (m3 & E3 & R3 & C3 & V3). rewrite E3. eexists. split; [reflexivity|].
  set (p3 := set_mat p2 m3).
  assert (Hseg : forall k s, nth_error (p_segs p) k = Some s -> exists s', nth_error sg k = Some s' /\ s_np s' = s_np s /\ s_posX s' = s_posX s /\ s_posY s' = s_posY s /\ s_ex s' = s_ex s /\ s_ey s' = s_ey s /\ s_shape s' = s_shape s /\ s_refl s' = s_refl s /\
    (s' = s \/ (crows (s_mat s') = s_np s /\ ccols (s_mat s') = s_np s)) /\
    match index_of k ind with None => s' = s | Some q => s' = aber modes coefs q s end).
  { intros k s Es. destruct (index_of k ind) as [q|] eqn:Ix.
    - apply index_nth in Ix. exists (aber modes coefs q s). split; [apply Q2; [apply in_enum; exact Ix|exact Es]|]. repeat (split; [reflexivity|]). split; [right; split; reflexivity|reflexivity].
    - exists s. split; [rewrite Q1 by (apply index_none; exact Ix); exact Es|]. repeat (split; [reflexivity|]). split; [left; reflexivity|reflexivity]. }
  assert (Hinv : forall k s', nth_error sg k = Some s' -> exists s, nth_error (p_segs p) k = Some s).
  { intros k s' E. destruct (nth_error (p_segs p) k) as [s|] eqn:Es; [eauto|]. apply nth_error_None in Es. assert (k < length sg)%nat by (apply nth_error_Some; congruence). lia. }
  assert (SH : forall k s s' i j, nth_error (p_segs p) k = Some s -> nth_error sg k = Some s' -> shape_at p3 s' i j = shape_at p s i j).
  { intros k s s' i j Es Es'. destruct (Hseg k s Es) as (s'' & E & A1 & A2 & A3 & A4 & A5 & A6 & _). rewrite Es' in E. injection E as <-. unfold shape_at, inside, top, left. cbn [p3 p2 p_c p_ratio set_mat set_segs]. rewrite A1, A2, A3, A4, A5, A6. reflexivity. }
  assert (Car : carries p3 (after_call phi (mkCall ind modes coefs))).
  { split.
    { split; [exact R3|]. split; [exact C3|]. split; [exact H3|]. intros s' Is. cbn [p3 p2 p_segs set_mat set_segs] in Is. apply In_nth_error in Is. destruct Is as (k & Es'). destruct (Hinv k s' Es') as (s & Es). destruct (Hseg k s Es) as (s'' & E & A1 & A2 & A3 & A4 & A5 & A6 & A7 & A8 & _). rewrite Es' in E. injection E as <-.
      destruct (HF s (nth_error_In _ _ Es)) as (F1 & F2 & F3 & F4 & F5 & F6). destruct A8 as [->|[A8 A9]]; [split; [exact F1|]; split; [exact F2|auto]|]. unfold fits, top, left in *. cbn [p3 p2 p_c p_ratio p_n set_mat set_segs]. rewrite A1, A2, A3, A4, A5 in *. auto 10. }
    split; [exact HB|]. split.
    { intros k s' Es'. cbn [p3 p2 p_segs set_mat set_segs] in Es'. destruct (Hinv k s' Es') as (s & Es). destruct (Hseg k s Es) as (s'' & E & A1 & A2 & A3 & A4 & A5 & A6 & A7 & A8 & A9). rewrite Es' in E. injection E as <-. destruct (HS k s Es) as [S1 S2]. split; [congruence|]. intros a b. rewrite A6. destruct (S2 a b) as [S3 S4]. split; [exact S3|]. unfold after_call, asked. cbn [pc_ind pc_modes pc_coefs].
      destruct (index_of k ind) as [q|]; subst s'; [|exact S4]. cbn [aber s_mat cpx]. rewrite S1, Rmult_1_r, seg_phase_sum by exact HL. reflexivity. }
    split.
    2:{ intros k k' s s' i j E E' N. cbn [p3 p2 p_segs set_mat set_segs] in E, E'. destruct (Hinv k s E) as (s0 & E0). destruct (Hinv k' s' E') as (s0' & E0'). rewrite (SH k s0 s i j E0 E), (SH k' s0' s' i j E0' E'). apply (HD k k'); assumption. }
    intros i j. transitivity (Cmult (RtoC (transmission p i j)) (ctotal (map (fun s => mat_at p s i j) sg))); [|reflexivity].
    change (cpx (p_mat p3) i j) with (cpx m3 i j). rewrite V3. change (transmission p2 i j) with (transmission p i j). change (p_mat p2) with m2. rewrite V2. change (p_mat (set_mat p m1)) with m1. rewrite V1.
    assert (PC : forall q k, pcontrib (set_mat p m1) modes coefs i j (q, k) = match nth_error (p_segs p) k with Some s => mat_at p (aber modes coefs q s) i j | None => RtoC 0 end) by reflexivity.
    assert (AB : forall k s q, nth_error (p_segs p) k = Some s -> shape_at p s i j = 0 -> mat_at p (aber modes coefs q s) i j = RtoC 0).
    { intros k s q Es Z. unfold shape_at in Z. unfold mat_at, over. change (inside (p_c p) (p_ratio p) (aber modes coefs q s) i j) with (inside (p_c p) (p_ratio p) s i j). destruct (inside (p_c p) (p_ratio p) s i j); [|reflexivity]. cbn [aber s_mat cpx]. change (top (p_c p) (p_ratio p) (aber modes coefs q s)) with (top (p_c p) (p_ratio p) s). change (left (p_c p) (p_ratio p) (aber modes coefs q s)) with (left (p_c p) (p_ratio p) s). rewrite Z, Rmult_0_l. ring. }
    (* which segment, if any, covers the pixel *)
    destruct (existsb (fun s => if Req_EM_T (shape_at p s i j) 1 then true else false) (p_segs p)) eqn:X.
    - apply existsb_exists in X. destruct X as (s & Is & X). destruct (Req_EM_T (shape_at p s i j) 1) as [X1|]; [|discriminate]. clear X. apply In_nth_error in Is. destruct Is as (k & Es).
      destruct (mat_at_shape p k s i j phi H Es) as [[Z _]|[_ [B Mv]]]; [lra|].
      assert (Oth : forall k' s', k' <> k -> nth_error (p_segs p) k' = Some s' -> shape_at p s' i j = 0) by (intros k' s' N Es'; destruct (HD k k' s s' i j Es Es'); [auto|lra|assumption]).
      destruct (Hseg k s Es) as (s1 & Es1 & A1 & A2 & A3 & A4 & A5 & A6 & A7 & A8 & A9).
      assert (TS : ctotal (map (fun s0 => mat_at p s0 i j) sg) = mat_at p s1 i j).
      { apply (ctotal_single _ k); [rewrite nth_error_map, Es1; reflexivity|]. intros k' z' N Q. rewrite nth_error_map in Q. destruct (nth_error sg k') as [s'|] eqn:Es'; [|discriminate]. cbn in Q. injection Q as <-. destruct (Hinv k' s' Es') as (s0 & E0). destruct (Hseg k' s0 E0) as (s'' & E'' & B1 & B2 & B3 & B4 & B5 & B6 & B7 & B8 & B9). rewrite Es' in E''. injection E'' as <-.
        pose proof (Oth k' s0 N E0) as Z. change (mat_at p s' i j = RtoC 0). destruct (index_of k' ind); subst s'; [apply (AB k' s0); assumption|]. destruct (mat_at_shape p k' s0 i j phi H E0) as [[_ ?]|[Z1 _]]; [assumption|lra]. }
      rewrite TS. clear TS.
      destruct (index_of k ind) as [q|] eqn:Ix.
      + pose proof (index_nth _ _ _ Ix) as Iq. assert (T : taken p ind i j = true) by (apply taken_iff; exists k, s; split; [eapply nth_error_In; exact Iq|auto]). rewrite T, Cplus_0_l. f_equal. subst s1.
        apply (ctotal_single _ q).
        * rewrite nth_error_map. assert (X : nth_error (combine (seq 0 (length ind)) ind) q = Some (q, k)).
          { assert (G : forall (l : list nat) b q, nth_error l q = Some k -> nth_error (combine (seq b (length l)) l) q = Some ((b + q)%nat, k)).
            { induction l as [|y l IH]; intros b [|r] Q; try discriminate; cbn in *; [rewrite Nat.add_0_r; congruence|]. rewrite (IH (S b) r Q). do 2 f_equal. lia. }
            apply (G ind 0%nat q Iq). }
          rewrite X. cbn [option_map]. rewrite PC, Es. reflexivity.
        * intros q' z' N Q. rewrite nth_error_map in Q. destruct (nth_error (combine (seq 0 (length ind)) ind) q') as [[a k']|] eqn:X; [|discriminate]. cbn [option_map] in Q. injection Q as <-. rewrite PC.
          assert (Y : nth_error ind q' = Some k' /\ a = q').
          { assert (G : forall (l : list nat) b q, nth_error (combine (seq b (length l)) l) q = Some (a, k') -> nth_error l q = Some k' /\ a = (b + q)%nat).
            { induction l as [|y l IH]; intros b [|r] Q; try discriminate; cbn in *; [injection Q as <- <-; split; [reflexivity|lia]|]. destruct (IH (S b) r Q) as [U W]. split; [exact U|lia]. }
            destruct (G ind 0%nat q' X) as [U W]. split; [exact U|lia]. }
          destruct Y as [Y _]. assert (k' <> k). { intros ->. apply N. eapply NoDup_nth_error; [exact ND|apply nth_error_Some; congruence|congruence]. }
          destruct (nth_error (p_segs p) k') as [s'|] eqn:Es'; [|reflexivity]. apply (AB k' s'); [exact Es'|]. apply (Oth k'); assumption.
      + subst s1. pose proof (index_none _ _ Ix) as Nk.
        assert (T : taken p ind i j = false). { destruct (taken p ind i j) eqn:T; [|reflexivity]. exfalso. apply taken_iff in T. destruct T as (k' & s' & Ik & Es' & B'). assert (k' <> k) by (intros ->; contradiction). destruct (mat_at_shape p k' s' i j phi H Es') as [[_ Z]|[Z _]]; [destruct B' as [_ B']; unfold mat_at in Z; rewrite Z, Cmod_0 in B'; lra|]. pose proof (Oth k' s' H0 Es'). lra. }
        rewrite T. rewrite ctotal_zero.
        2:{ intros z Hz. apply in_map_iff in Hz. destruct Hz as ([q' k'] & <- & I). rewrite PC. apply in_enum in I. destruct (nth_error (p_segs p) k') as [s'|] eqn:Es'; [|reflexivity]. apply (AB k' s'); [exact Es'|]. apply (Oth k'); [intros ->; apply Nk; eapply nth_error_In; exact I|exact Es']. }
        rewrite Cplus_0_r, HM. rewrite (ctotal_single _ k (mat_at p s i j)); [|rewrite nth_error_map, Es; reflexivity|].
        2:{ intros k' z' N Q. rewrite nth_error_map in Q. destruct (nth_error (p_segs p) k') as [s'|] eqn:Es'; [|discriminate]. cbn in Q. injection Q as <-. destruct (mat_at_shape p k' s' i j phi H Es') as [[_ Z]|[Z _]]; [exact Z|]. pose proof (Oth k' s' N Es'). lra. }
        destruct (transmission_01 p i j HB) as [-> | ->]; ring.
    - assert (Non : forall k s, nth_error (p_segs p) k = Some s -> shape_at p s i j = 0).
      { intros k s Es. destruct (mat_at_shape p k s i j phi H Es) as [[Z _]|[Z _]]; [exact Z|exfalso]. assert (existsb (fun s => if Req_EM_T (shape_at p s i j) 1 then true else false) (p_segs p) = true); [|congruence]. apply existsb_exists. exists s. split; [eapply nth_error_In; exact Es|]. destruct (Req_EM_T (shape_at p s i j) 1); [reflexivity|contradiction]. }
      rewrite !ctotal_zero.
      + rewrite Cplus_0_r. destruct (taken p ind i j); [reflexivity|]. rewrite HM. rewrite ctotal_zero; [ring|]. intros z Hz. apply in_map_iff in Hz. destruct Hz as (s & <- & Is). apply In_nth_error in Is. destruct Is as (k & Es). destruct (mat_at_shape p k s i j phi H Es) as [[_ Z]|[Z _]]; [exact Z|]. pose proof (Non k s Es). lra.
      + intros z Hz. apply in_map_iff in Hz. destruct Hz as (s' & <- & Is). apply In_nth_error in Is. destruct Is as (k & Es'). destruct (Hinv k s' Es') as (s0 & E0). destruct (Hseg k s0 E0) as (s'' & E'' & B1 & B2 & B3 & B4 & B5 & B6 & B7 & B8 & B9). rewrite Es' in E''. injection E'' as <-. change (mat_at p s' i j = RtoC 0).
        destruct (index_of k ind); subst s'; [apply (AB k s0); [exact E0|apply (Non k); exact E0]|]. destruct (mat_at_shape p k s0 i j phi H E0) as [[_ ?]|[Z1 _]]; [assumption|]. pose proof (Non k s0 E0). lra.
      + intros z Hz. apply in_map_iff in Hz. destruct Hz as ([q k] & <- & _). rewrite PC. destruct (nth_error (p_segs p) k) as [s|] eqn:Es; [|reflexivity]. apply (AB k s); [exact Es|apply (Non k); exact Es]. }
  split; [exact Car|]. cbn [p3 p2 p_segs set_mat set_segs p_n p_ratio p_c p_cobs p_spi p_pupil]. split; [exact Lg|]. repeat (split; [reflexivity|]). intros k s Es. destruct (Hseg k s Es) as (s' & E & A1 & A2 & A3 & A4 & A5 & A6 & _ & _ & A9). exists s'. repeat (split; [assumption|]). destruct (index_of k ind); subst s'; reflexivity.
Qed.

(** any number of calls *)
Fixpoint calls (p : pup) (l : list phcall) : pup * option exn :=
  match l with [] => (p, None) | c :: l => andthen (call p c) (fun p' => calls p' l) end.
(** phase of the latest call that lists the segment k, none before *)
Definition latest (l : list phcall) (k a b : nat) : R :=
  fold_left (fun acc c => match asked c k a b with Some x => x | None => acc end) l 0.

Lemma calls_ok l : forall p phi, carries p phi -> Forall (regular (length (p_segs p))) l ->
  exists p' phi', calls p l = (p', None) /\ carries p' phi' /\ (forall k a b, phi' k a b = fold_left (fun acc c => match asked c k a b with Some x => x | None => acc end) l (phi k a b)) /\
  length (p_segs p') = length (p_segs p) /\ (forall i j, transmission p' i j = transmission p i j) /\ p_n p' = p_n p /\ p_ratio p' = p_ratio p /\ p_c p' = p_c p /\
  (forall k s, nth_error (p_segs p) k = Some s -> exists s', nth_error (p_segs p') k = Some s' /\ s_np s' = s_np s /\ s_posX s' = s_posX s /\ s_posY s' = s_posY s /\ s_ex s' = s_ex s /\ s_ey s' = s_ey s /\ s_shape s' = s_shape s /\ s_ph s' = s_ph s).
Proof.
  induction l as [|c l IH]; intros p phi H F.
  - exists p, phi. split; [reflexivity|]. split; [exact H|]. repeat (split; [reflexivity|]). intros k s E. exists s. auto 10.
  - inversion F as [|? ? Fc Fl]. subst. destruct (one_call p phi c H Fc) as (p1 & E1 & C1 & L1 & N1 & Ra1 & Ce1 & Co1 & Sp1 & _ & S1). cbn [calls]. rewrite E1. unfold andthen. cbn [snd fst].
    destruct (IH p1 (after_call phi c) C1) as (p' & phi' & E & C & Ph & L & T & N & Ra & Ce & S); [rewrite L1; exact Fl|]. exists p', phi'. split; [exact E|]. split; [exact C|]. split; [exact Ph|]. split; [congruence|]. split.
    { intros i j. rewrite T. unfold transmission. rewrite N1, Co1, Sp1. reflexivity. }
    split; [congruence|]. split; [congruence|]. split; [congruence|]. intros k s Es. destruct (S1 k s Es) as (s1 & Es1 & A1 & A2 & A3 & A4 & A5 & A6 & A7). destruct (S k s1 Es1) as (s' & Es' & B1 & B2 & B3 & B4 & B5 & B6 & B7). exists s'. split; [exact Es'|]. repeat split; congruence.
Qed.
Lemma pristine_carries p : pristine p -> carries p (fun _ _ _ => 0).
Proof.
  intros H. pose proof H as (Hco & HB & HS & HP & HM & HD). split; [exact Hco|]. split; [exact HB|]. split.
  - intros k s E. destruct (HP s (nth_error_In _ _ E)) as [_ R1]. split; [exact R1|]. intros a b. destruct (HS s (nth_error_In _ _ E) a b) as [Q ->]. split; [exact Q|]. unfold cisp. rewrite cos_0, sin_0. change (1, 0) with (RtoC 1). ring.
  - split; [exact HM|]. assert (SA : forall s i j, In s (p_segs p) -> mat_at p s i j = RtoC (shape_at p s i j)). { intros s i j Is. unfold mat_at, over, shape_at. destruct (inside (p_c p) (p_ratio p) s i j); [|reflexivity]. apply HS. exact Is. }
    intros k k' s s' i j E E' N. destruct (HD k k' s s' i j E E' N) as [Q|Q]; rewrite SA in Q by (eapply nth_error_In; eassumption); apply RtoC_inj in Q; auto.
Qed.
Lemma carries_pixel p phi k s i j : carries p phi -> nth_error (p_segs p) k = Some s -> shape_at p s i j = 1 ->
  cpx (p_mat p) i j = Cmult (RtoC (transmission p i j)) (cisp (phi k (Z.to_nat (Z.of_nat i - top (p_c p) (p_ratio p) s)) (Z.to_nat (Z.of_nat j - left (p_c p) (p_ratio p) s)))).
Proof.
  intros H E Z. pose proof H as (_ & _ & _ & HM & HD). rewrite HM. f_equal. apply (ctotal_single _ k).
  - rewrite nth_error_map, E. cbn. f_equal. destruct (mat_at_shape p k s i j phi H E) as [[Z0 _]|(_ & _ & Q)]; [lra|exact Q].
  - intros k' z' N Q. rewrite nth_error_map in Q. destruct (nth_error (p_segs p) k') as [s'|] eqn:E'; [|discriminate]. cbn in Q. injection Q as <-. destruct (mat_at_shape p k' s' i j phi H E') as [[_ Q]|(Q & _)]; [exact Q|]. destruct (HD k k' s s' i j E E'); [auto|lra|lra].
Qed.
Lemma carries_outside p phi i j : carries p phi -> (forall k s, nth_error (p_segs p) k = Some s -> shape_at p s i j = 0) -> cpx (p_mat p) i j = RtoC 0.
Proof.
  intros H Z. pose proof H as (_ & _ & _ & HM & _). rewrite HM, ctotal_zero; [ring|]. intros z Hz. apply in_map_iff in Hz. destruct Hz as (s & <- & Is). apply In_nth_error in Is. destruct Is as (k & E). destruct (mat_at_shape p k s i j phi H E) as [[_ Q]|(Q & _)]; [exact Q|]. rewrite (Z k s E) in Q. lra.
Qed.

(** C90: after any sequence of regular calls of applyPhaseErrorSegment on a pupil as built, every
    pixel of a segment carries the phase asked by the latest call that listed the segment (zero
    if none did), with its amplitude untouched; pixels outside the segments stay zero. *)
Theorem C90_phase_history : forall p l, pristine p -> Forall (regular (length (p_segs p))) l -> exists p', calls p l = (p', None) /\
  crows (p_mat p') = crows (p_mat p) /\ ccols (p_mat p') = ccols (p_mat p) /\ forall i j,
  Cmod (cpx (p_mat p') i j) = Cmod (cpx (p_mat p) i j) /\
  (forall k s, nth_error (p_segs p) k = Some s -> belongs p s i j ->
     cpx (p_mat p') i j = Cmult (cpx (p_mat p) i j) (cisp (latest l k (Z.to_nat (Z.of_nat i - top (p_c p) (p_ratio p) s)) (Z.to_nat (Z.of_nat j - left (p_c p) (p_ratio p) s))))) /\
  ((forall k s, nth_error (p_segs p) k = Some s -> ~ belongs p s i j) -> cpx (p_mat p') i j = RtoC 0).
Proof.
  intros p l H F. pose proof (pristine_carries p H) as C. destruct (calls_ok l p _ C F) as (p' & phi' & E & C' & Ph & L & T & N & Ra & Ce & S). exists p'. split; [exact E|].
  pose proof H as ((Cr & Cc & _) & HB & _). pose proof C' as ((Cr' & Cc' & _) & _). split; [congruence|]. split; [congruence|]. intros i j.
  assert (SH : forall k s s', nth_error (p_segs p) k = Some s -> nth_error (p_segs p') k = Some s' -> shape_at p' s' i j = shape_at p s i j /\ top (p_c p') (p_ratio p') s' = top (p_c p) (p_ratio p) s /\ left (p_c p') (p_ratio p') s' = left (p_c p) (p_ratio p) s).
  { intros k s s' Es Es'. destruct (S k s Es) as (s'' & E'' & A1 & A2 & A3 & A4 & A5 & A6 & A7). rewrite Es' in E''. injection E'' as <-. unfold shape_at, inside, top, left. rewrite A1, A2, A3, A4, A5, A6, Ra, Ce. auto. }
  assert (M1 : forall k s, nth_error (p_segs p) k = Some s -> shape_at p s i j = 1 -> cpx (p_mat p') i j = Cmult (cpx (p_mat p) i j) (cisp (latest l k (Z.to_nat (Z.of_nat i - top (p_c p) (p_ratio p) s)) (Z.to_nat (Z.of_nat j - left (p_c p) (p_ratio p) s))))).
  { intros k s Es Z. destruct (S k s Es) as (s' & Es' & _). destruct (SH k s s' Es Es') as (Z' & Et & El). rewrite (carries_pixel p' phi' k s' i j C' Es') by congruence. rewrite (carries_pixel p _ k s i j C Es Z). rewrite Et, El, T, Ph. unfold latest. unfold cisp at 2. rewrite cos_0, sin_0. change (1, 0) with (RtoC 1). ring. }
  assert (M0 : (forall k s, nth_error (p_segs p) k = Some s -> shape_at p s i j = 0) -> cpx (p_mat p') i j = RtoC 0).
  { intros Z. apply (carries_outside p' phi' i j C'). intros k s' Es'. destruct (nth_error (p_segs p) k) as [s|] eqn:Es; [|apply nth_error_None in Es; assert (k < length (p_segs p'))%nat by (apply nth_error_Some; congruence); lia]. destruct (SH k s s' Es Es') as (-> & _). apply (Z k). exact Es. }
  assert (BS : forall k s, nth_error (p_segs p) k = Some s -> belongs p s i j <-> shape_at p s i j = 1).
  { intros k s Es. destruct (mat_at_shape p k s i j _ C Es) as [[Z Q]|(Z & B & _)]; [|tauto]. split; [|lra]. intros [_ B]. unfold mat_at in Q. rewrite Q, Cmod_0 in B. lra. }
  split; [|split].
  - destruct (existsb (fun s => if Req_EM_T (shape_at p s i j) 1 then true else false) (p_segs p)) eqn:X.
    + apply existsb_exists in X. destruct X as (s & Is & X). destruct (Req_EM_T (shape_at p s i j) 1) as [X1|]; [|discriminate]. apply In_nth_error in Is. destruct Is as (k & Es). rewrite (M1 k s Es X1), Cmod_mult, cisp_mod. ring.
    + assert (Non : forall k s, nth_error (p_segs p) k = Some s -> shape_at p s i j = 0).
      { intros k s Es. destruct (mat_at_shape p k s i j _ C Es) as [[Z _]|[Z _]]; [exact Z|exfalso]. assert (existsb (fun s => if Req_EM_T (shape_at p s i j) 1 then true else false) (p_segs p) = true); [|congruence]. apply existsb_exists. exists s. split; [eapply nth_error_In; exact Es|]. destruct (Req_EM_T (shape_at p s i j) 1); [reflexivity|contradiction]. }
      rewrite (M0 Non), (carries_outside p _ i j C Non). reflexivity.
  - intros k s Es B. apply (M1 k s Es). apply (BS k s Es). exact B.
  - intros NB. apply M0. intros k s Es. destruct (mat_at_shape p k s i j _ C Es) as [[Z _]|(_ & B & _)]; [exact Z|]. exfalso. exact (NB k s Es B).
Qed.
Print Assumptions C90_phase_history.

(** C90: a call whose numbers of segments, modes and coefficients do not match changes nothing. *)
Theorem C90_phase_inconsistent : forall p c, pc_ind c = [] \/ pc_modes c = [] \/ length (pc_coefs c) <> length (pc_modes c) \/ (exists l, In l (pc_coefs c) /\ length l <> length (pc_ind c)) ->
  call p c = (p, None).
Proof.
  intros p [ind modes coefs] H. unfold call, apply_phase_segment. cbn [pc_ind pc_modes pc_coefs] in *.
  assert (G : ((length ind =? 0) || (length modes =? 0) || negb (length coefs =? length modes) || negb (forallb (fun c => length c =? length ind) coefs))%nat%bool = true); [|rewrite G; reflexivity].
  destruct H as [->|[->|[H|(l & I & H)]]]; [reflexivity|cbn; rewrite orb_true_r; reflexivity| |].
  - apply Nat.eqb_neq in H. rewrite H. cbn [negb]. rewrite !orb_true_r. reflexivity.
  - assert (forallb (fun c => (length c =? length ind)%nat) coefs = false); [|rewrite H0; cbn [negb]; apply orb_true_r]. destruct (forallb _ coefs) eqn:Q; [|reflexivity]. rewrite forallb_forall in Q. specialize (Q l I). apply Nat.eqb_eq in Q. contradiction.
Qed.
Print Assumptions C90_phase_inconsistent.

(** C90 (finding): setting the reflectivity of a segment, even to one, erases the phase
    aberration put on it before. *)
Theorem C90_reflectivity_erases_refuted : forall p l k s r i j, pristine p -> Forall (regular (length (p_segs p))) l ->
  nth_error (p_segs p) k = Some s -> belongs p s i j -> exists p' m,
  calls p l = (p', None) /\ apply_reflexivity_segment p' [k] [r] = (set_mat p' m, None) /\ cpx m i j = Cmult (RtoC r) (cpx (p_mat p) i j).
Proof.
  intros p l k s r i j H F Es B. pose proof (pristine_carries p H) as C. destruct (calls_ok l p _ C F) as (p' & phi' & E & C' & Ph & L & T & N & Ra & Ce & S).
  destruct (S k s Es) as (s' & Es' & A1 & A2 & A3 & A4 & A5 & A6 & A7).
  assert (Z : shape_at p s i j = 1) by (destruct (mat_at_shape p k s i j _ C Es) as [[_ Q]|(Z & _)]; [destruct B as [_ B]; unfold mat_at in Q; rewrite Q, Cmod_0 in B; lra|exact Z]).
  assert (Z' : shape_at p' s' i j = 1) by (rewrite <- Z; unfold shape_at, inside, top, left; rewrite A1, A2, A3, A4, A5, A6, Ra, Ce; reflexivity).
  pose proof C' as (Hco & _). destruct (refl_effect p' [k] [r] Hco) as (m & Em & _ & _ & V); [intros q [<-|[]]; apply nth_error_Some; congruence|discriminate|reflexivity|].
  exists p', m. split; [exact E|]. split; [exact Em|]. rewrite V.
  assert (B' : belongs p' s' i j) by (destruct (mat_at_shape p' k s' i j _ C' Es') as [[Q _]|(_ & Q & _)]; [lra|exact Q]).
  assert (TK : taken p' [k] i j = true) by (apply taken_iff; exists k, s'; split; [left; reflexivity|auto]). rewrite TK. cbn [combine map ctotal]. unfold contrib. cbn [fst snd]. rewrite Es'. unfold over. unfold shape_at in Z'. destruct (inside (p_c p') (p_ratio p') s' i j); [|lra]. rewrite Z'.
  pose proof H as (_ & _ & _ & HP & _). destruct (HP s (nth_error_In _ _ Es)) as [P0 _]. rewrite A7, P0. rewrite (carries_pixel p _ k s i j C Es Z). unfold cisp. rewrite cos_0, sin_0. change (1, 0) with (RtoC 1). rewrite T, Rmult_1_l. ring.
Qed.
Print Assumptions C90_reflectivity_erases_refuted.
