(** Property C71: interpolation of PSFs over the field, and spatial variation of the
    parameters. *)
From Coq Require Import Reals List Arith ZArith Bool Lia Lra Psatz Permutation Sorted.
From Flocq Require Import Core.Raux.
From Verif Require Import Base_Py Base_Sum M_Image L_Image2 M_Tools L_Tools M_Model2 M_Atmo L_Atmo L_Config M_Fit L_Fit M_Grid P_Grid P_Grid2.
Import ListNotations.
Open Scope R_scope.

Lemma rdiv_ok x y : y <> 0 -> rdiv x y = Ok (x / y).
Proof. intros H. unfold rdiv. destruct (Req_EM_T y 0); [contradiction|reflexivity]. Qed.
Lemma lsum_pos l : l <> [] -> (forall x, In x l -> 0 < x) -> 0 < lsum l.
Proof.
  destruct l as [|a l]; [easy|]. intros _ H. assert (G : forall m, (forall x, In x m -> 0 < x) -> 0 <= lsum m). { induction m as [|z m IH]; intros Hm; [cbn; lra|]. change (lsum (z :: m)) with (z + lsum m). specialize (Hm z (or_introl eq_refl)) as Hz. assert (0 <= lsum m) by (apply IH; intros; apply Hm; now right). lra. }
  change (lsum (a :: l)) with (a + lsum l). pose proof (H a (or_introl eq_refl)). assert (0 <= lsum l) by (apply G; intros; apply H; now right). lra.
Qed.
Lemma lsum_scal (k : R) l : lsum (map (fun x => x / k) l) = lsum l / k.
Proof. induction l as [|a l IH]; [cbn; unfold Rdiv; ring|]. cbn [map]. change (lsum (?a :: ?l)) with (a + lsum l). change (lsum (a :: l)) with (a + lsum l). rewrite IH. unfold Rdiv. ring. Qed.

Lemma F2_impl_in {A B} (P Q : A -> B -> Prop) l m : Forall2 P l m -> (forall a b, In a l -> P a b -> Q a b) -> Forall2 Q l m.
Proof. induction 1 as [|a b l m H F IH]; intros I; constructor; [apply I; [now left|exact H]|apply IH; intros; apply I; [now right|assumption]]. Qed.

(** ** Specification *)
(** [ks], [ws]: numbers of the PSFs used and their weights *)
Definition weighted (psfs : list img) (ks : list nat) (ws : list R) (i j : nat) : R :=
  lsum (map (fun kw => px (nth (fst kw) psfs (mkImg 0 0 (fun _ _ => 0))) i j * snd kw) (combine ks ws)).
Definition away (coo : list (R * R)) (out : R * R) : Prop := forall k c, nth_error coo k = Some c -> distance (fst out) (snd out) (fst c) (snd c) <> 0.

(** ** The weights of the fit *)
Section W.
Variables (mse : list R) (nMax nSeg : nat).
Hypothesis Len : length mse = (nMax * nSeg)%nat.
Hypothesis Pos : forall m, In m mse -> 0 < m.
Lemma mse_pos k : (k < nMax * nSeg)%nat -> 0 < nth k mse 0.
Proof. intros H. apply Pos. apply nth_In. now rewrite Len. Qed.
Definition wspec (p : nat) : R := 1 / nth p mse 0 / lsum (map (fun a => 1 / nth (a * nSeg + p mod nSeg) mse 0) (seq 0 nMax)).
Lemma w_mse_ok p : (p < nMax * nSeg)%nat -> w_mse mse nMax nSeg p = Ok (wspec p) /\ 0 < wspec p.
Proof.
  intros Hp. unfold w_mse, wspec. assert (nSeg <> 0)%nat by nia. assert (nMax <> 0)%nat by nia. pose proof (Nat.mod_upper_bound p nSeg ltac:(assumption)) as Mp.
  rewrite (mapM_map _ (fun a => 1 / nth (a * nSeg + p mod nSeg) mse 0)). 2:{ intros a Ha. apply in_seq in Ha. apply rdiv_ok. apply Rgt_not_eq. apply mse_pos. nia. }
  cbn [bind]. rewrite rdiv_ok by (apply Rgt_not_eq; now apply mse_pos). cbn [bind].
  assert (S0 : 0 < lsum (map (fun a => 1 / nth (a * nSeg + p mod nSeg) mse 0) (seq 0 nMax))).
  { apply lsum_pos. - destruct nMax; [contradiction|discriminate]. - intros x Hx. apply in_map_iff in Hx. destruct Hx as (a & <- & Ha). apply in_seq in Ha. apply Rdiv_lt_0_compat; [lra|]. apply mse_pos. nia. }
  rewrite rdiv_ok by lra. split; [reflexivity|]. apply Rdiv_lt_0_compat; [|exact S0]. apply Rdiv_lt_0_compat; [lra|now apply mse_pos].
Qed.
End W.

(** ** Theorems *)
(** the general form: each output is a convex combination of the nNeigh PSFs of smallest
    weighted distance *)
Lemma interp_form argsort psfs coo w nNeigh n out : is_argsort argsort -> nNeigh <> 0%nat -> psfs <> [] -> length coo = length psfs -> length w = length psfs -> (forall x, In x w -> 0 < x) -> away coo out ->
  let d k := nth k w 0 * distance (fst out) (snd out) (fst (nth k coo (0, 0))) (snd (nth k coo (0, 0))) in
  exists img ks ws, interp_one argsort psfs coo w nNeigh n out = Ok img /\ rows img = n /\ cols img = n /\ length ks = Nat.min nNeigh (length psfs) /\ NoDup ks /\ (forall k, In k ks -> (k < length psfs)%nat) /\
    (forall k k', In k ks -> (k' < length psfs)%nat -> ~ In k' ks -> d k <= d k') /\ (forall k, (k < length psfs)%nat -> 0 < d k) /\
    ws = map (fun k => 1 / d k / lsum (map (fun k => 1 / d k) ks)) ks /\ (forall x, In x ws -> 0 < x) /\ lsum ws = 1 /\ forall i j, px img i j = weighted psfs ks ws i j.
Proof.
  intros AS Hn Hp Lc Lw Pw Aw d. unfold interp_one.
  set (D := map (fun k => nth k w 0 * hypot (fst out - fst (nth k coo (0, 0))) (snd out - snd (nth k coo (0, 0)))) (seq 0 (length psfs))).
  assert (LD : length D = length psfs) by (unfold D; now rewrite map_length, seq_length).
  assert (Dk : forall k, (k < length psfs)%nat -> nth k D 0 = d k).
  { intros k Hk. unfold D, d. rewrite nth_indep with (d' := (fun k => nth k w 0 * hypot (fst out - fst (nth k coo (0, 0))) (snd out - snd (nth k coo (0, 0)))) 0%nat) by (now rewrite map_length, seq_length).
    rewrite (map_nth (fun k => nth k w 0 * hypot (fst out - fst (nth k coo (0, 0))) (snd out - snd (nth k coo (0, 0))))). rewrite seq_nth by exact Hk. reflexivity. }
  assert (Dp : forall k, (k < length psfs)%nat -> 0 < d k).
  { intros k Hk. unfold d. apply Rmult_lt_0_compat; [apply Pw, nth_In; lia|]. destruct (nth_error coo k) as [c|] eqn:E; [|apply nth_error_None in E; lia]. pose proof (Aw k c E) as Q. rewrite (nth_error_nth _ _ (0, 0) E). pose proof (sqrt_pos ((fst out - fst c) ^ 2 + (snd out - snd c) ^ 2)) as Q2. fold (distance (fst out) (snd out) (fst c) (snd c)) in Q2. lra. }
  set (o := argsort D). set (ks := firstn nNeigh o). assert (Lo : length o = length psfs) by (unfold o; rewrite argsort_length by exact AS; exact LD).
  assert (Fs : ks ++ skipn nNeigh o = o) by apply firstn_skipn.
  assert (Kl : forall k, In k ks -> (k < length psfs)%nat) by (intros k Hk; rewrite <- LD; apply (argsort_lt argsort D k AS); fold o; rewrite <- Fs; apply in_or_app; now left).
  rewrite (mapM_map _ (fun k => 1 / d k)). 2:{ intros k Hk. rewrite Dk by auto. apply rdiv_ok. apply Rgt_not_eq. apply Dp. auto. }
  cbn [bind]. set (inv := map (fun k => 1 / d k) ks). assert (Lk : length ks = Nat.min nNeigh (length psfs)) by (unfold ks; rewrite firstn_length; lia).
  assert (Pi : forall x, In x inv -> 0 < x) by (intros x Hx; apply in_map_iff in Hx; destruct Hx as (k & <- & Hk); apply Rdiv_lt_0_compat; [lra|apply Dp; auto]).
  assert (Ne : inv <> []) by (intros Q; apply (f_equal (@length R)) in Q; unfold inv in Q; rewrite map_length, Lk in Q; destruct psfs; [contradiction|cbn in Q; lia]).
  pose proof (lsum_pos inv Ne Pi) as Sp.
  rewrite (mapM_map _ (fun v => v / lsum inv)) by (intros; apply rdiv_ok; lra). cbn [bind].
  exists (mkImg n n (fun i j => weighted psfs ks (map (fun v => v / lsum inv) inv) i j)), ks, (map (fun v => v / lsum inv) inv). split; [reflexivity|]. split; [reflexivity|]. split; [reflexivity|]. split; [exact Lk|].
  pose proof (argsort_nodup argsort D AS) as Nd. fold o in Nd. rewrite <- Fs in Nd. apply NoDup_app_l in Nd. destruct Nd as (N1 & _ & _). split; [exact N1|]. split; [exact Kl|].
  split. { intros k k' Hk Hk' Nk. rewrite <- !Dk by auto. destruct (AS D) as [_ Ss]. fold o in Ss. rewrite <- Fs in Ss. apply SS_app in Ss. destruct Ss as [_ Ss]. apply Ss; [exact Hk|].
    assert (Q : In k' (ks ++ skipn nNeigh o)) by (rewrite Fs; apply argsort_all; [exact AS|lia]). apply in_app_or in Q. tauto. }
  split; [exact Dp|]. split; [unfold inv; rewrite map_map; reflexivity|]. split; [intros x Hx; apply in_map_iff in Hx; destruct Hx as (v & <- & Hv); apply Rdiv_lt_0_compat; auto|].
  split; [rewrite lsum_scal; field; lra|]. reflexivity.
Qed.
Lemma away_dec coo out : away coo out \/ exists k c, nth_error coo k = Some c /\ distance (fst out) (snd out) (fst c) (snd c) = 0.
Proof.
  unfold away. induction coo as [|c coo IH]; [left; intros [|k] c H; discriminate|]. destruct (Req_EM_T (distance (fst out) (snd out) (fst c) (snd c)) 0) as [E|E]; [right; exists 0%nat, c; auto|].
  destruct IH as [A|(k & c' & H)]; [|right; exists (S k), c'; exact H]. left. intros [|k] c' H; [cbn in H; injection H as <-; exact E|eapply A; exact H].
Qed.
(** each output PSF is a convex combination of nNeigh different input PSFs: the weights
    are positive and sum to one. Hypotheses: nMax PSFs per segment, mean-square errors of
    the fits positive, no target on an input position. *)
Theorem C71_convex : forall argsort n psfs coo outs mse nMax nNeigh, is_argsort argsort -> nMax <> 0%nat -> nNeigh <> 0%nat -> psfs <> [] ->
  (length psfs mod nMax = 0)%nat -> length coo = length psfs -> length mse = length psfs -> (forall m, In m mse -> 0 < m) -> (forall out, In out outs -> away coo out) ->
  exists l, interpolate_psfs_in_fov argsort n psfs coo outs mse nMax nNeigh = Ok l /\
  Forall2 (fun out im => rows im = n /\ cols im = n /\ exists ks ws, length ks = Nat.min nNeigh (length psfs) /\ length ws = length ks /\ NoDup ks /\ (forall k, In k ks -> (k < length psfs)%nat) /\
    (forall x, In x ws -> 0 < x) /\ lsum ws = 1 /\ forall i j, px im i j = weighted psfs ks ws i j) outs l.
Proof.
  intros argsort n psfs coo outs mse nMax nNeigh AS Hm Hn Hp Md Lc Lm Pm Aw. unfold interpolate_psfs_in_fov. destruct (Nat.eqb_spec nMax 0); [contradiction|]. cbv zeta.
  set (nSeg := (length psfs / nMax)%nat). assert (E : (nMax * nSeg)%nat = length psfs) by (pose proof (Nat.div_mod (length psfs) nMax Hm); unfold nSeg; lia).
  rewrite E, Lc, Lm, Nat.eqb_refl. cbn [andb negb].
  rewrite (mapM_map _ (wspec mse nMax nSeg)). 2:{ intros p Hin. apply in_seq in Hin. apply (w_mse_ok mse nMax nSeg); [lia|exact Pm|lia]. }
  cbn [bind]. apply mapM_all. intros out Ho.
  destruct (interp_form argsort psfs coo (map (wspec mse nMax nSeg) (seq 0 (length psfs))) nNeigh n out AS Hn Hp Lc) as (im & ks & ws & H1 & H2 & H3 & H4 & H5 & H6 & _ & _ & H7 & H8 & H9 & H10).
  - now rewrite map_length, seq_length.
  - intros x Hx. apply in_map_iff in Hx. destruct Hx as (p & <- & Hin). apply in_seq in Hin. apply (w_mse_ok mse nMax nSeg); [lia|exact Pm|lia].
  - now apply Aw.
  - exists im. split; [exact H1|]. split; [exact H2|]. split; [exact H3|]. exists ks, ws. split; [exact H4|]. split; [rewrite H7; apply map_length|]. auto.
Qed.
Print Assumptions C71_convex.
(** with one PSF per segment: the nNeigh nearest PSFs, weighted by the inverse of their
    distance; the quality of the fits plays no part *)
Theorem C71_inverse_distance : forall argsort n psfs coo outs mse nNeigh l, is_argsort argsort -> nNeigh <> 0%nat -> psfs <> [] -> length coo = length psfs -> length mse = length psfs ->
  (forall m, In m mse -> 0 < m) -> (forall out, In out outs -> away coo out) -> interpolate_psfs_in_fov argsort n psfs coo outs mse 1 nNeigh = Ok l ->
  Forall2 (fun out im => let d k := distance (fst out) (snd out) (fst (nth k coo (0, 0))) (snd (nth k coo (0, 0))) in
    exists ks, length ks = Nat.min nNeigh (length psfs) /\ NoDup ks /\ (forall k, In k ks -> (k < length psfs)%nat) /\ (forall k k', In k ks -> (k' < length psfs)%nat -> ~ In k' ks -> d k <= d k') /\
    forall i j, px im i j = weighted psfs ks (map (fun k => / d k / lsum (map (fun k => / d k) ks)) ks) i j) outs l.
Proof.
  intros argsort n psfs coo outs mse nNeigh l AS Hn Hp Lc Lm Pm Aw H. unfold interpolate_psfs_in_fov in H. cbn [Nat.eqb] in H. cbv zeta in H. rewrite Nat.div_1_r, Nat.mul_1_l, Lc, Lm, Nat.eqb_refl in H. cbn [andb negb] in H.
  assert (W1 : forall p, (p < length psfs)%nat -> wspec mse 1 (length psfs) p = 1).
  { intros p Hi. unfold wspec. cbn [seq map]. rewrite Nat.mod_small by exact Hi. cbn [Nat.mul Nat.add]. assert (0 < nth p mse 0) by (apply Pm, nth_In; lia). unfold lsum; cbn [fold_right]. field. lra. }
  rewrite (mapM_map _ (fun _ => 1)) in H. 2:{ intros p Hi. apply in_seq in Hi. destruct (w_mse_ok mse 1 (length psfs) ltac:(lia) Pm p ltac:(lia)) as [Q _]. rewrite Q, W1 by lia. reflexivity. }
  cbn [bind] in H. apply mapM_F2 in H. eapply F2_impl_in; [exact H|]. intros out im Ho E. cbn beta in E.
  destruct (interp_form argsort psfs coo (map (fun _ => 1) (seq 0 (length psfs))) nNeigh n out AS Hn Hp Lc) as (im' & ks & ws & H1 & H2 & H3 & H4 & H5 & H6 & H7 & H8 & H9 & H10 & H11 & H12).
  - now rewrite map_length, seq_length.
  - intros x Hx. apply in_map_iff in Hx. destruct Hx as (? & <- & _). lra.
  - now apply Aw.
  - rewrite E in H1. apply Ok_inj in H1. subst im'.
    assert (D : forall k, (k < length psfs)%nat -> nth k (map (fun _ => 1) (seq 0 (length psfs))) 0 = 1).
    { intros k Hk. rewrite nth_indep with (d' := (fun _ : nat => 1) 0%nat) by (now rewrite map_length, seq_length). exact (map_nth (fun _ : nat => 1) (seq 0 (length psfs)) 0%nat k). }
    cbv zeta. exists ks. split; [exact H4|]. split; [exact H5|]. split; [exact H6|]. split; [intros k k' Hk Hk' Nk; specialize (H7 k k' Hk Hk' Nk); rewrite !D in H7 by auto; lra|].
    intros i j. rewrite H12, H9. f_equal.
    assert (V : forall k, In k ks -> 1 / (nth k (map (fun _ => 1) (seq 0 (length psfs))) 0 * distance (fst out) (snd out) (fst (nth k coo (0, 0))) (snd (nth k coo (0, 0)))) = / distance (fst out) (snd out) (fst (nth k coo (0, 0))) (snd (nth k coo (0, 0)))) by (intros k Hk; rewrite D by auto; rewrite Rmult_1_l; unfold Rdiv; apply Rmult_1_l).
    apply map_ext_in. intros k Hk. rewrite V by exact Hk. f_equal. f_equal. apply map_ext_in. exact V.
Qed.
Print Assumptions C71_inverse_distance.
(** the flux of a convex combination of PSFs of equal flux *)
Lemma weighted_flux psfs ks ws n F : (forall k, In k ks -> exists p, nth_error psfs k = Some p /\ rows p = n /\ cols p = n /\ img_sum p = F) -> length ws = length ks -> lsum ws = 1 ->
  rsum n (fun i => rsum n (fun j => weighted psfs ks ws i j)) = F.
Proof.
  intros H L S1. transitivity (lsum ws * F); [|rewrite S1; ring]. clear S1. revert ws L. induction ks as [|k ks IH]; intros [|w ws] L; try discriminate.
  - cbn. unfold weighted. cbn. rewrite rsum_zero; [ring|]. intros. apply rsum_zero. reflexivity.
  - cbn in L. change (lsum (w :: ws)) with (w + lsum ws). rewrite Rmult_plus_distr_r, <- (IH ltac:(intros; apply H; now right) ws ltac:(lia)).
    destruct (H k (or_introl eq_refl)) as (p & Ep & R1 & R2 & Sf).
    transitivity (rsum n (fun i => rsum n (fun j => px p i j * w)) + rsum n (fun i => rsum n (fun j => weighted psfs ks ws i j))).
    + rewrite <- rsum_plus. apply rsum_ext. intros i _. rewrite <- rsum_plus. apply rsum_ext. intros j _. unfold weighted. cbn [combine map]. change (lsum (?a :: ?l)) with (a + lsum l). cbn [fst snd]. now rewrite (nth_error_nth _ _ _ Ep).
    + f_equal. rewrite <- Sf. unfold img_sum. rewrite R1, R2. rewrite Rmult_comm, <- rsum_scal_r. apply rsum_ext. intros i _. now rewrite rsum_scal_r.
Qed.
Theorem C71_flux : forall argsort n psfs coo outs mse nMax nNeigh l F, is_argsort argsort -> nMax <> 0%nat -> nNeigh <> 0%nat -> psfs <> [] ->
  (length psfs mod nMax = 0)%nat -> length coo = length psfs -> length mse = length psfs -> (forall m, In m mse -> 0 < m) -> (forall out, In out outs -> away coo out) ->
  (forall p, In p psfs -> rows p = n /\ cols p = n /\ img_sum p = F) ->
  interpolate_psfs_in_fov argsort n psfs coo outs mse nMax nNeigh = Ok l -> forall im, In im l -> img_sum im = F.
Proof.
  intros argsort n psfs coo outs mse nMax nNeigh l F AS Hm Hn Hp Md Lc Lm Pm Aw Sh H im Him.
  destruct (C71_convex argsort n psfs coo outs mse nMax nNeigh AS Hm Hn Hp Md Lc Lm Pm Aw) as (l' & E & Fa). rewrite H in E. apply Ok_inj in E. subst l'.
  apply In_nth_error in Him. destruct Him as [q Hq]. destruct (F2_nth_r _ _ _ Fa _ _ Hq) as (out & _ & R1 & R2 & ks & ws & _ & Lw & _ & Kl & _ & S1 & P).
  unfold img_sum. rewrite R1, R2. rewrite <- (weighted_flux psfs ks ws n F); [| |exact Lw|exact S1].
  - apply rsum_ext. intros i _. apply rsum_ext. intros j _. apply P.
  - intros k Hk. specialize (Kl k Hk). destruct (nth_error psfs k) as [p|] eqn:Ep; [|apply nth_error_None in Ep; lia]. exists p. split; [reflexivity|]. apply Sh. eapply nth_error_In; exact Ep.
Qed.
Print Assumptions C71_flux.
(** Finding: a target at the very position of an input PSF gives no finite result (if that
    PSF is among the neighbours kept; always the case here: one PSF) *)
Theorem C71_on_position_refuted : forall argsort n p c m nNeigh, is_argsort argsort -> nNeigh <> 0%nat -> m <> 0 -> interpolate_psfs_in_fov argsort n [p] [c] [c] [m] 1 nNeigh = Err NonFinite.
Proof.
  intros argsort n p c m nNeigh AS Hn Hm. unfold interpolate_psfs_in_fov. cbn [Nat.eqb length Nat.div Nat.divmod Nat.mul Nat.add fst negb andb seq mapM]. unfold w_mse. cbn [seq mapM Nat.mul Nat.add Nat.modulo Nat.divmod snd Nat.sub nth]. rewrite rdiv_ok by exact Hm. cbn [bind]. unfold lsum. cbn [fold_right].
  rewrite rdiv_ok by (rewrite Rplus_0_r; unfold Rdiv; rewrite Rmult_1_l; now apply Rinv_neq_0_compat). cbn [bind]. unfold interp_one. cbn [length seq map nth].
  replace (hypot (fst c - fst c) (snd c - snd c)) with 0 by (unfold hypot; rewrite <- sqrt_0; f_equal; ring). rewrite Rmult_0_r.
  assert (A : argsort [0] = [0%nat]). { destruct (AS [0]) as [P _]. cbn in P. apply Permutation_sym in P. now apply Permutation_length_1_inv in P. }
  rewrite A. destruct nNeigh; [contradiction|]. cbn [firstn]. replace (firstn nNeigh ([] : list nat)) with ([] : list nat) by (now destruct nNeigh). cbn [mapM nth]. unfold rdiv. destruct (Req_EM_T 0 0); [|lra]. reflexivity.
Qed.
(** Finding: with several PSFs per segment the worst fits weigh the most: two PSFs at the
    same distance are averaged with weights proportional to their mean-square errors *)
Theorem C71_bad_fits_favoured_refuted : forall argsort n p q c1 c2 out a b l, is_argsort argsort -> 0 < a -> 0 < b ->
  distance (fst out) (snd out) (fst c1) (snd c1) = distance (fst out) (snd out) (fst c2) (snd c2) -> distance (fst out) (snd out) (fst c1) (snd c1) <> 0 ->
  interpolate_psfs_in_fov argsort n [p; q] [c1; c2] [out] [a; b] 2 2 = Ok l -> exists im, l = [im] /\ forall i j, px im i j = a / (a + b) * px p i j + b / (a + b) * px q i j.
Proof.
  intros argsort n p q c1 c2 out a b l AS Ha Hb De Dn H. unfold interpolate_psfs_in_fov in H. cbn [Nat.eqb] in H. cbv zeta in H. change (length [p; q] / 2)%nat with 1%nat in H. cbn [length Nat.mul Nat.add Nat.eqb andb negb] in H.
  destruct (w_mse_ok [a; b] 2 1 eq_refl ltac:(intros m [ <-|[ <-|[]]]; lra) 0 ltac:(lia)) as [W0 P0]. destruct (w_mse_ok [a; b] 2 1 eq_refl ltac:(intros m [ <-|[ <-|[]]]; lra) 1 ltac:(lia)) as [W1 P1].
  cbn [seq mapM] in H. rewrite W0, W1 in H. cbn [bind] in H.
  assert (V0 : wspec [a; b] 2 1 0 = b / (a + b)) by (unfold wspec, lsum; cbn; field; lra). assert (V1 : wspec [a; b] 2 1 1 = a / (a + b)) by (unfold wspec, lsum; cbn; field; lra). rewrite V0, V1 in *.
  destruct (interp_form argsort [p; q] [c1; c2] [b / (a + b); a / (a + b)] 2 n out AS ltac:(lia) ltac:(discriminate) eq_refl eq_refl) as (im & ks & ws & H1 & _ & _ & H4 & H5 & H6 & _ & _ & H9 & _ & _ & H12).
  - intros x [ <-|[ <-|[]]]; assumption.
  - intros [|[|k]] c E; cbn in E; try (injection E as <-); [exact Dn|rewrite <- De; exact Dn|destruct k; discriminate].
  - rewrite H1 in H. cbn [bind] in H. apply Ok_inj in H. exists im. split; [now rewrite <- H|]. intros i j. rewrite H12, H9. clear H12 H9 H1 H.
    cbn [length] in H4, H6. change (Nat.min 2 2) with 2%nat in H4. destruct ks as [|k1 [|k2 [|? ?]]]; try discriminate. pose proof (H6 k1 (or_introl eq_refl)) as K1. pose proof (H6 k2 (or_intror (or_introl eq_refl))) as K2.
    inversion H5 as [|? ? N1 _]; subst. assert (k1 <> k2) by (intros ->; apply N1; now left).
    set (D := distance (fst out) (snd out) (fst c1) (snd c1)) in *.
    destruct k1 as [|[|?]]; [| |lia]; (destruct k2 as [|[|?]]; [| |lia]); try contradiction; unfold weighted, lsum; cbn [map combine fold_right fst snd nth]; rewrite <- De; fold D; field; repeat split; nra.
Qed.
Print Assumptions C71_bad_fits_favoured_refuted.

(** ** Spatial variation of the parameters *)
Lemma wmean_spec v e : length v = length e -> v <> [] -> (forall x, In x e -> 0 < x) -> exists m, wmean v e = Ok m /\ m * lsum (map (fun x => / x) e) = lsum (map (fun p => fst p / snd p) (combine v e)) /\
  forall lo hi, (forall x, In x v -> lo <= x <= hi) -> lo <= m <= hi.
Proof.
  intros L Nv P. unfold wmean.
  rewrite (mapM_map _ (fun p => fst p / snd p)). 2:{ intros [x y] Hxy. apply in_combine_r in Hxy. cbn [fst snd]. rewrite rdiv_ok by (apply Rgt_not_eq; now apply P). f_equal. unfold Rdiv. ring. }
  cbn [bind]. rewrite (mapM_map _ (fun x => / x)). 2:{ intros x Hx. rewrite rdiv_ok by (apply Rgt_not_eq; now apply P). f_equal. unfold Rdiv. ring. }
  cbn [bind]. assert (Sp : 0 < lsum (map (fun x => / x) e)).
  { apply lsum_pos. - destruct e; [destruct v; [contradiction|discriminate]|discriminate]. - intros x Hx. apply in_map_iff in Hx. destruct Hx as (y & <- & Hy). apply Rinv_0_lt_compat. now apply P. }
  rewrite rdiv_ok by lra. eexists. split; [reflexivity|]. split; [field; lra|]. intros lo hi B.
  assert (G : lo * lsum (map (fun x => / x) e) <= lsum (map (fun p => fst p / snd p) (combine v e)) <= hi * lsum (map (fun x => / x) e)).
  { clear Sp Nv. revert e L P. induction v as [|x v IH]; intros [|y e] L P; try discriminate; [cbn; lra|]. cbn [combine map fst snd]. change (lsum (?a :: ?l)) with (a + lsum l). cbn in L. specialize (IH ltac:(intros; apply B; now right) e ltac:(lia) ltac:(intros; apply P; now right)).
    pose proof (B x (or_introl eq_refl)). pose proof (Rinv_0_lt_compat _ (P y (or_introl eq_refl))). unfold Rdiv in *. nra. }
  split; [apply Rmult_le_reg_r with (1 := Sp)|apply Rmult_le_reg_r with (1 := Sp)]; unfold Rdiv; rewrite Rmult_assoc, Rinv_l by lra; lra.
Qed.
Lemma polyval_const order m x : polyval (repeat 0 order ++ [m]) x = m.
Proof.
  unfold polyval. rewrite fold_left_app. assert (E : forall k, fold_left (fun acc a => acc * x + a) (repeat 0 k) 0 = 0) by (induction k; cbn; [reflexivity|]; rewrite Rmult_0_l, Rplus_0_l; exact IHk). rewrite E. cbn. ring.
Qed.
(** r0, background, alpha, angle and beta do not vary over the field: they are means of
    the fitted values weighted by the inverse of their error (no fitted error is 0 or
    negative), so each lies between the smallest and the largest fitted value; the two
    other ones follow the fitted polynomial of the distance to the centre *)
Theorem C71_parameters : forall polyfit X order n, n <> 0%nat -> (forall k, (k < 14)%nat -> length (X k) = n) -> (forall k x, (7 <= k < 14)%nat -> In x (X k) -> 0 < x) ->
  exists M, create_spatial_variations_psf_model polyfit X order = Ok M /\ forall y x, exists r0 C ax th be,
    grid_params M y x = [r0; C; polyval (polyfit (X 16%nat) (X 2%nat)) (sqrt (y ^ 2 + x ^ 2)); ax; polyval (polyfit (X 16%nat) (X 4%nat)) (sqrt (y ^ 2 + x ^ 2)); th; be; 0; 0; 0; 1; 0; 0; 0] /\
    (forall y' x', exists A p, grid_params M y' x' = [r0; C; A; ax; p; th; be; 0; 0; 0; 1; 0; 0; 0]) /\
    (forall k v, In (k, v) [(0, r0); (1, C); (3, ax); (5, th); (6, be)]%nat -> forall lo hi, (forall z, In z (X k) -> lo <= z <= hi) -> lo <= v <= hi) /\
    (forall k v, In (k, v) [(0, r0); (3, ax); (5, th); (6, be)]%nat -> v * lsum (map (fun x => / x) (X (k + 7)%nat)) = lsum (map (fun p => fst p / snd p) (combine (X k) (X (k + 7)%nat)))).
Proof.
  intros polyfit X order n Hn L P. unfold create_spatial_variations_psf_model.
  assert (Ne : forall k, (k < 7)%nat -> X k <> []) by (intros k Hk Q; specialize (L k ltac:(lia)); rewrite Q in L; cbn in L; lia).
  destruct (wmean_spec (X 0%nat) (X 7%nat)) as (r0 & E0 & F0 & B0); [rewrite !L by lia; reflexivity|apply Ne; lia|intros x Hx; eapply P; [|exact Hx]; lia|].
  destruct (wmean_spec (X 1%nat) (map (fun v => v + / 10 ^ 20) (X 8%nat))) as (C & E1 & F1 & B1); [rewrite map_length, !L by lia; reflexivity|apply Ne; lia|intros x Hx; apply in_map_iff in Hx; destruct Hx as (z & <- & Hz); specialize (P 8%nat z ltac:(lia) Hz); pose proof (Rinv_0_lt_compat (10 ^ 20) ltac:(apply pow_lt; lra)); lra|].
  destruct (wmean_spec (X 3%nat) (X 10%nat)) as (ax & E3 & F3 & B3); [rewrite !L by lia; reflexivity|apply Ne; lia|intros x Hx; eapply P; [|exact Hx]; lia|].
  destruct (wmean_spec (X 5%nat) (X 12%nat)) as (th & E5 & F5 & B5); [rewrite !L by lia; reflexivity|apply Ne; lia|intros x Hx; eapply P; [|exact Hx]; lia|].
  destruct (wmean_spec (X 6%nat) (X 13%nat)) as (be & E6 & F6 & B6); [rewrite !L by lia; reflexivity|apply Ne; lia|intros x Hx; eapply P; [|exact Hx]; lia|].
  cbv zeta. rewrite E0. cbn [bind]. rewrite E1. cbn [bind]. rewrite E3. cbn [bind]. rewrite E5. cbn [bind]. rewrite E6. cbn [bind]. eexists. split; [reflexivity|]. intros y x. exists r0, C, ax, th, be.
  unfold grid_params, hypot. cbn [map app]. rewrite !polyval_const. split; [reflexivity|]. split; [intros y' x'; rewrite !polyval_const; do 2 eexists; reflexivity|].
  split; [intros k v [Q|[Q|[Q|[Q|[Q|[]]]]]]; injection Q as <- <-; assumption|]. intros k v [Q|[Q|[Q|[Q|[]]]]]; injection Q as <- <-; assumption.
Qed.
Print Assumptions C71_parameters.
(** an instance: three fields *)
Example C71_ex : forall argsort, is_argsort argsort -> exists l, interpolate_psfs_in_fov argsort 1 [mkImg 1 1 (fun _ _ => 2); mkImg 1 1 (fun _ _ => 4)] [(0, 0); (0, 3)] [(0, 1)] [1; 2] 1 2 = Ok l.
Proof.
  intros argsort AS. assert (M : forall m, In m [1; 2] -> 0 < m) by (intros m [ <-|[ <-|[]]]; lra).
  assert (A : forall out, In out [(0, 1)] -> away [(0, 0); (0, 3)] out) by (intros out [ <-|[]] [|[|k]] c Q; cbn in Q; [injection Q as <-|injection Q as <-|destruct k; discriminate]; unfold distance; cbn [fst snd]; apply Rgt_not_eq, sqrt_lt_R0; lra).
  destruct (C71_convex argsort 1 [mkImg 1 1 (fun _ _ => 2); mkImg 1 1 (fun _ _ => 4)] [(0, 0); (0, 3)] [(0, 1)] [1; 2] 1 2 AS ltac:(lia) ltac:(lia) ltac:(discriminate) eq_refl eq_refl eq_refl M A) as (l & E & _). now exists l.
Qed.

Print Assumptions C71_on_position_refuted.
