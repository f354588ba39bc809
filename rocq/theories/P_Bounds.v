(** C31: the fit bounds of the PSF models PSFAO21 and PSF-R. *)
From Coq Require Import Reals List Arith ZArith Bool Lia Lra.
From Verif Require Import Base_Py M_Tools M_Model2 P_Memory M_Bounds.
Import ListNotations.
Open Scope R_scope.

Lemma Forall2_app' {A B} (P : A -> B -> Prop) a b c d : Forall2 P a b -> Forall2 P c d -> Forall2 P (a ++ c) (b ++ d).
Proof. induction 1; intros H2; cbn; [exact H2|]. constructor; [assumption|]. apply IHForall2. exact H2. Qed.
Lemma Forall2_repeat {A B} (P : A -> B -> Prop) a b n : P a b -> Forall2 P (repeat a n) (repeat b n).
Proof. intros H. induction n; cbn; [constructor|constructor; assumption]. Qed.
Lemma half_box n : (0 <= n)%Z -> IZR (- n / 2) <= IZR (n / 2).
Proof. intros H. apply IZR_le. assert (D := Z.div_mod n 2 ltac:(lia)). assert (M := Z.mod_pos_bound n 2 ltac:(lia)). assert (D1 := Z.div_mod (- n) 2 ltac:(lia)). assert (M1 := Z.mod_pos_bound (- n) 2 ltac:(lia)). lia. Qed.

(** C31: the bounds of PSFAO21: as many as parameters (one per reconstructed
    layer, six PSD parameters, three jitters, per source and wavelength a flux and
    two positions, per wavelength a background, per mode an aberration); every
    lower bound is at most its upper bound. *)
Theorem C31_psfao_bounds :
  forall nL nRec nSrc nwvl npix wmax nModes, (0 <= npix)%Z -> 0 <= wmax ->
  let b := psfao_bounds nL nRec nSrc nwvl npix wmax nModes in
  length (fst b) = (Nat.min nL nRec + 6 + 3 + nSrc * nwvl + 2 * nSrc * nwvl + nwvl + nModes)%nat /\
  length (snd b) = length (fst b) /\ Forall2 ext_le (fst b) (snd b).
Proof.
  intros nL nRec nSrc nwvl npix wmax nModes Hn Hw b. unfold b, psfao_bounds. cbn [fst snd]. assert (PP := PI_RGT_0). assert (PP4 := PI_4).
  split; [rewrite !app_length, !repeat_length; cbn [length]; lia|]. split; [rewrite !app_length, !repeat_length; reflexivity|].
  repeat apply Forall2_app'; try (apply Forall2_repeat; cbn [ext_le]; first [exact I|apply half_box; exact Hn|lra]).
  - repeat constructor; cbn [ext_le]; lra.
  - repeat constructor.
Qed.
Print Assumptions C31_psfao_bounds.
(** C31: the same for PSF-R. *)
Theorem C31_psfr_bounds :
  forall nL nSrc npix wvlRef nModes, (0 <= npix)%Z -> 0 <= wvlRef ->
  let b := psfr_bounds nL nSrc npix wvlRef nModes in
  length (fst b) = (nL + 2 + nSrc + 2 * nSrc + 1 + nModes)%nat /\ length (snd b) = length (fst b) /\ Forall2 ext_le (fst b) (snd b).
Proof.
  intros nL nSrc npix wvlRef nModes Hn Hw b. unfold b, psfr_bounds. cbn [fst snd].
  split; [rewrite !app_length, !repeat_length; cbn [length]; lia|]. split; [rewrite !app_length, !repeat_length; reflexivity|].
  repeat apply Forall2_app'; try (apply Forall2_repeat; cbn [ext_le]; first [exact I|apply half_box; exact Hn|lra]); repeat constructor.
Qed.
Print Assumptions C31_psfr_bounds.

Lemma update_inv b x err sig wmax nM b' : update_bounds b x err sig wmax nM = Ok b' ->
  length (firstn 7 x) = length (firstn 7 err) /\ length (firstn 7 x) = length (firstn 7 (fst b)) /\ length (firstn 7 x) = length (firstn 7 (snd b)).
Proof.
  intros H. unfold update_bounds in H. cbv zeta in H. destruct (_ && _ && _)%bool eqn:E; [|discriminate]. apply andb_true_iff in E. destruct E as (E & E3). apply andb_true_iff in E. destruct E as (E1 & E2).
  apply Nat.eqb_eq in E1. apply Nat.eqb_eq in E2. apply Nat.eqb_eq in E3. auto.
Qed.
(** C31: after the first step of a split fit the bounds are a box around the
    solution inside the previous bounds; they stay well ordered when the solution
    respects the previous bounds. *)
Theorem C31_update_bounds :
  forall b x err sig wmax nM b', update_bounds b x err sig wmax nM = Ok b' -> 0 <= sig -> 0 <= wmax -> (forall e, In e err -> 0 <= e) ->
  (forall k, (k < 7)%nat -> ext_le (nth k (fst b) NegInf) (Val (nth k x 0)) /\ ext_le (Val (nth k x 0)) (nth k (snd b) PosInf)) ->
  Forall2 ext_le (fst b') (snd b') /\
  forall k, (k < Nat.min 7 (length x))%nat ->
    ext_le (nth k (fst b) NegInf) (nth k (fst b') NegInf) /\ ext_le (nth k (snd b') PosInf) (nth k (snd b) PosInf) /\
    ext_le (nth k (fst b') NegInf) (Val (nth k x 0)) /\ ext_le (Val (nth k x 0)) (nth k (snd b') PosInf).
Proof.
  intros b x err sig wmax nM b' H Hs Hw He Hx. destruct (update_inv _ _ _ _ _ _ _ H) as (L1 & L2 & L3). unfold update_bounds in H. cbv zeta in H.
  destruct (negb _); [discriminate|]. apply Ok_inj in H. subst b'. cbn [fst snd].
  rewrite !firstn_length in L1, L2, L3.
  assert (LC : forall l : list ext, length (firstn 7 x) = length (firstn 7 l) -> length (combine (combine (firstn 7 x) (firstn 7 err)) (firstn 7 l)) = Nat.min 7 (length x)).
  { intros l Hl. rewrite !combine_length, <- Hl, !firstn_length, <- L1. lia. }
  assert (NT : forall (l : list ext) d k, (k < Nat.min 7 (length x))%nat -> length (firstn 7 x) = length (firstn 7 l) ->
     nth k (combine (combine (firstn 7 x) (firstn 7 err)) (firstn 7 l)) ((0, 0), d) = ((nth k x 0, nth k err 0), nth k l d)).
  { intros l d k Hk Hl. rewrite combine_nth by (rewrite combine_length, <- Hl, !firstn_length, <- L1; lia).
    rewrite combine_nth by (rewrite !firstn_length; exact L1).
    assert (N : forall {A} (m : list A) dd, nth k (firstn 7 m) dd = nth k m dd).
    { intros A m dd. rewrite <- (firstn_skipn 7 m) at 2. destruct (Nat.lt_ge_cases k (length (firstn 7 m))) as [Q|Q]; [rewrite app_nth1 by exact Q; reflexivity|].
      rewrite app_nth2 by exact Q. rewrite nth_overflow by exact Q. rewrite firstn_length in Q. rewrite nth_overflow; [reflexivity|]. rewrite skipn_length. lia. }
    rewrite !N. reflexivity. }
  assert (E1 : length (firstn 7 x) = length (firstn 7 (fst b))) by (rewrite !firstn_length; exact L2).
  assert (E2 : length (firstn 7 x) = length (firstn 7 (snd b))) by (rewrite !firstn_length; exact L3).
  set (lo := map _ (combine _ (firstn 7 (fst b)))). set (hi := map _ (combine _ (firstn 7 (snd b)))).
  assert (Llo : length lo = Nat.min 7 (length x)) by (unfold lo; rewrite map_length; apply LC; exact E1).
  assert (Lhi : length hi = Nat.min 7 (length x)) by (unfold hi; rewrite map_length; apply LC; exact E2).
  assert (VL : forall k, (k < Nat.min 7 (length x))%nat -> nth k lo NegInf = ext_max (Val (nth k x 0 - sig / 3 * nth k err 0)) (nth k (fst b) NegInf)).
  { intros k Hk. unfold lo. set (f := fun p => ext_max _ _). rewrite (nth_indep _ NegInf (f ((0, 0), NegInf))) by (fold lo; rewrite map_length, LC by exact E1; exact Hk). rewrite map_nth, NT by assumption. reflexivity. }
  assert (VH : forall k, (k < Nat.min 7 (length x))%nat -> nth k hi PosInf = ext_min (Val (nth k x 0 + sig / 3 * nth k err 0)) (nth k (snd b) PosInf)).
  { intros k Hk. unfold hi. set (f := fun p => ext_min _ _). rewrite (nth_indep _ PosInf (f ((0, 0), PosInf))) by (rewrite map_length, LC by exact E2; exact Hk). rewrite map_nth, NT by assumption. reflexivity. }
  assert (PE : forall k, 0 <= nth k err 0). { intros k. destruct (Nat.lt_ge_cases k (length err)); [apply He, nth_In; assumption|rewrite nth_overflow by assumption; lra]. }
  assert (K : forall k, (k < Nat.min 7 (length x))%nat ->
    ext_le (nth k (fst b) NegInf) (nth k lo NegInf) /\ ext_le (nth k hi PosInf) (nth k (snd b) PosInf) /\ ext_le (nth k lo NegInf) (Val (nth k x 0)) /\ ext_le (Val (nth k x 0)) (nth k hi PosInf)).
  { intros k Hk. destruct (Hx k ltac:(lia)) as (A & B). rewrite VL, VH by exact Hk. assert (P := PE k). assert (Q : 0 <= sig / 3 * nth k err 0) by (apply Rmult_le_pos; lra). set (q := sig / 3 * nth k err 0) in *. clearbody q.
    destruct (nth k (fst b) NegInf) as [|l|] eqn:El, (nth k (snd b) PosInf) as [|h|] eqn:Eh; cbn [ext_le ext_max ext_min] in *; try contradiction; repeat split; try lra;
    try (assert (T := Rmax_r (nth k x 0 - q) l); lra); try (assert (T := Rmin_r (nth k x 0 + q) h); lra); try (apply Rmax_lub; lra); try (apply Rmin_glb; lra). }
  split.
  - apply Forall2_app'; [|apply Forall2_app'; [repeat constructor|apply Forall2_repeat; cbn [ext_le]; lra]].
    assert (G : forall (l1 l2 : list ext), length l1 = length l2 -> (forall k, (k < length l1)%nat -> ext_le (nth k l1 NegInf) (nth k l2 PosInf)) -> Forall2 ext_le l1 l2).
    { induction l1 as [|a l1 IH]; intros [|c l2] Hl Hk; try discriminate; constructor; [apply (Hk 0%nat); cbn; lia|]. apply IH; [cbn in Hl; lia|]. intros k Hk2. apply (Hk (S k)). cbn. lia. }
    apply G; [congruence|]. intros k Hk. rewrite Llo in Hk. destruct (K k Hk) as (_ & _ & A & B). destruct (nth k lo NegInf), (nth k hi PosInf); cbn [ext_le] in *; try exact I; try contradiction; lra.
  - intros k Hk. rewrite !app_nth1 by lia. apply K. exact Hk.
Qed.
Print Assumptions C31_update_bounds.
(** C31 (refuted): the updated bounds have a fixed layout (seven PSD parameters,
    one source, one wavelength): they do not match the parameters of any other
    configuration, and they allow negative jitters, refused before. *)
Theorem C31_update_layout_refuted :
  forall nL nRec nSrc nwvl npix wmax nModes x err sig b',
  update_bounds (psfao_bounds nL nRec nSrc nwvl npix wmax nModes) x err sig wmax nModes = Ok b' -> (7 <= length x)%nat ->
  length (fst b') = (7 + 7 + nModes)%nat /\ nth 7 (fst b') PosInf = NegInf /\
  (Nat.min nL nRec = 1%nat -> (length (fst b') = length (fst (psfao_bounds nL nRec nSrc nwvl npix wmax nModes)) <-> (3 * nSrc * nwvl + nwvl = 4)%nat) /\
     nth 7 (fst (psfao_bounds nL nRec nSrc nwvl npix wmax nModes)) PosInf = Val 0).
Proof.
  intros nL nRec nSrc nwvl npix wmax nModes x err sig b' H Hx. destruct (update_inv _ _ _ _ _ _ _ H) as (L1 & L2 & L3). unfold update_bounds in H. cbv zeta in H.
  destruct (negb _); [discriminate|]. apply Ok_inj in H. subst b'. cbn [fst snd].
  set (B := psfao_bounds _ _ _ _ _ _ _) in *. set (lo := map _ _).
  assert (Llo : length lo = 7%nat) by (unfold lo; rewrite map_length, !combine_length, <- L2, <- L1, !firstn_length; lia).
  split; [rewrite !app_length, repeat_length, Llo; cbn; lia|]. split; [rewrite app_nth2 by lia; rewrite Llo; reflexivity|].
  intros H1. split.
  - rewrite !app_length, repeat_length, Llo. unfold B, psfao_bounds. cbn [fst]. rewrite !app_length, !repeat_length, H1. cbn [length]. lia.
  - unfold B, psfao_bounds. cbn [fst]. rewrite H1. reflexivity.
Qed.
Print Assumptions C31_update_layout_refuted.
Example C31_ex : exists b', update_bounds (psfao_bounds 1 1 1 1 64 (/ 10 ^ 6) 0) [1; 1; 1; 1; 1; 1; 2] [1; 1; 1; 1; 1; 1; 1] 5 (/ 10 ^ 6) 0 = Ok b'.
Proof. eexists. reflexivity. Qed.
