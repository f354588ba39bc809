(** C26 (assembly of the total), C28 (extra errors), C27 (error breakdown). *)
From Coq Require Import Reals List Arith ZArith Bool String Lia Lra FunctionalExtensionality.
From Flocq Require Import Core.Raux.
From Verif Require Import Base_Py Base_Sum M_Tools S_Tools L_Tools L_Tools2 M_Freq L_Freq P_Freq M_Atmo S_Atmo L_Atmo M_Sensor M_Model S_Model L_Model L_Model2 P_Model P_Model2 M_Model2 S_Model2 L_Model3.
Import ListNotations.
Open Scope R_scope.

Lemma area_off_centred n r : centred_at n r (area_off n r).
Proof.
  unfold centred_at, area_off. assert (D := Nat.div_mod (n - r + 1) 2 ltac:(lia)). assert (M := Nat.mod_upper_bound (n - r + 1) 2 ltac:(lia)). lia.
Qed.
Lemma Req_bool_spec' x : Req_bool x 0 = (if Req_EM_T x 0 then true else false).
Proof. destruct (Req_EM_T x 0); [apply Req_bool_true; assumption|apply Req_bool_false; assumption]. Qed.
Lemma isSLAO_spec c : isSLAO c = one_laser c.
Proof. unfold isSLAO, one_laser. rewrite Req_bool_spec'. destruct (Req_EM_T _ _); reflexivity. Qed.
Lemma isMcao_spec c : isMcaoCone c = many_lasers c.
Proof. unfold isMcaoCone, many_lasers. rewrite Req_bool_spec'. destruct (Req_EM_T _ _); reflexivity. Qed.
Lemma inside_spec o r a b : inside o r a b = true <-> (o <= a < o + r /\ o <= b < o + r)%nat.
Proof. unfold inside. rewrite !andb_true_iff, !Nat.leb_le, !Nat.ltb_lt. lia. Qed.

Section A.
Variables (c : psdcfg) (p : parts) (n r : nat).
Hypotheses (Hn : k_n c = Z.of_nat n) (Hr : k_r c = Z.of_nat r) (Hr1 : (1 <= r)%nat) (Hrn : (r <= n)%nat).
Lemma embed_when A a b : embed c A a b = when (inside (area_off n r) r a b) (A (a - area_off n r)%nat (b - area_off n r)%nat).
Proof.
  destruct (inside (area_off n r) r a b) eqn:E; cbn [when].
  - apply inside_spec in E. rewrite <- (embed_in c n r Hn Hr Hr1 Hrn A) by lia. f_equal; lia.
  - apply (embed_out c n r Hn Hr Hr1 Hrn). intros H. apply inside_spec in H. congruence.
Qed.
Lemma psd_cone_eq s a b : psd_cone c p s a b = correction_errors c p (area_off n r) r s a b.
Proof.
  unfold psd_cone, psd_area, correction_errors. rewrite isSLAO_spec, !embed_when. unfold when at 7.
  destruct (inside _ _ _ _); cbn [when]; ring.
Qed.
Lemma psd_mcao_eq s a b : psd_mcao c p s a b =
  correction_errors c p (area_off n r) r s a b + when (many_lasers c) (p_mcao p (correction_errors c p (area_off n r) r) s a b).
Proof.
  unfold psd_mcao. rewrite psd_cone_eq, isMcao_spec. f_equal. unfold when. destruct (many_lasers c); [|reflexivity]. f_equal.
  do 3 (apply functional_extensionality; intros). apply psd_cone_eq.
Qed.
Lemma when_nonneg b x : (b = true -> 0 <= x) -> 0 <= when b x.
Proof. intros H. unfold when. destruct b; [apply H; reflexivity|lra]. Qed.
Lemma psd_mcao_nonneg s a b : parts_nonneg n r (k_src c) p -> (s < k_src c)%nat -> (a < n)%nat -> (b < n)%nat -> 0 <= psd_mcao c p s a b.
Proof.
  intros (P1 & P2 & P3 & P4 & _) Hs Ha Hb. rewrite psd_mcao_eq. unfold correction_errors.
  assert (0 <= when (one_laser c) (p_cone p a b)) by (apply when_nonneg; intros _; apply P3; assumption).
  assert (0 <= when (many_lasers c) (p_mcao p (correction_errors c p (area_off n r) r) s a b)) by (apply when_nonneg; intros _; apply P4; assumption).
  fold (correction_errors c p (area_off n r) r). 
  match goal with |- 0 <= when ?b ?x + _ + _ => assert (0 <= when b x) end; [|lra].
  apply when_nonneg. intros I. apply inside_spec in I. set (i := (a - _)%nat). set (j := (b - _)%nat).
  assert (Hi : (i < r)%nat) by (unfold i; lia). assert (Hj : (j < r)%nat) by (unfold j; lia).
  destruct (P1 s i j Hs Hi Hj) as (A1 & A2 & A3 & A4). destruct (P2 i j Hi Hj) as (B1 & _). lra.
Qed.
End A.

(** C26: the total PSD (in nm^2) is the sum of the contributions: inside the
    centred corrected area all of them, outside only those defined on the whole
    grid. [x] is the extra error of this source. *)
Theorem C26_total_is_the_sum :
  forall (c : psdcfg) (p : parts) (n r : nat), k_n c = Z.of_nat n -> k_r c = Z.of_nat r -> (1 <= r)%nat -> (r <= n)%nat ->
  k_wfe c = None -> k_tiltOn c = false ->
  exists o, centred_at n r o /\ forall s a b x, psd_extra c p s a b = Ok x ->
    powerSpectrumDensity c p s a b = Ok (all_errors c p o r s a b x * (k_dk c * k_rad2nm c) ^ 2).
Proof.
  intros c p n r Hn Hr Hr1 Hrn Hw Ht. exists (area_off n r). split; [apply area_off_centred|]. intros s a b x Hx.
  unfold powerSpectrumDensity. rewrite (embed_ok_true c n r Hn Hr Hr1 Hrn). cbn [negb]. unfold psd_norm. rewrite Hw. cbn [bind]. rewrite Hx. cbn [bind].
  do 2 f_equal. unfold psd_filtered, all_errors. rewrite Ht, (psd_mcao_eq c p n r Hn Hr Hr1 Hrn), (embed_when c n r Hn Hr Hr1 Hrn). cbn [negb andb].
  f_equal. f_equal. unfold when. destruct (k_wind c); reflexivity.
Qed.
Print Assumptions C26_total_is_the_sum.

(** C26: which extra error a source gets: the last sources are the low-order stars
    (in order) when the PSD is computed at their positions, the others get the
    scientific extra error, if positive. *)
Theorem C26_extra_error_of_source :
  forall (c : psdcfg) (p : parts) (s a b : nat), (s < k_src c)%nat ->
  (forall k gs, k_ngsPos c = true -> 0 <= k_loSum c -> p_lo p = LoMany gs -> length gs = k_nLO c -> (k_nLO c <= k_src c)%nat ->
     s = (k_src c - k_nLO c + k)%nat -> psd_extra c p s a b = Ok (grid_at (nth k gs []) a b)) /\
  (forall g, k_ngsPos c = true -> 0 <= k_loSum c -> p_lo p = LoOne g -> (k_src c - k_nLO c <= s)%nat -> (0 < k_nLO c)%nat -> psd_extra c p s a b = Ok (grid_at g a b)) /\
  (k_ngsPos c = false \/ k_loSum c < 0 \/ (s < k_src c - k_nLO c)%nat \/ k_nLO c = 0%nat -> 
     (0 < k_extra c -> psd_extra c p s a b = Ok (p_extra p a b)) /\ (k_extra c <= 0 -> psd_extra c p s a b = Ok 0)).
Proof.
  intros c p s a b Hs. split; [|split].
  - intros k gs HN HL Hp Hl Hle Hk. unfold psd_extra, nLO_. rewrite HN, Hp. destruct (Rle_dec 0 (k_loSum c)); [|lra]. cbn [andb].
    assert (K : (k < k_nLO c)%nat) by lia. destruct (Nat.ltb_spec 0 (k_nLO c)); [|lia]. cbn [andb]. destruct (Nat.leb_spec (k_src c - s) (k_nLO c)); [|lia]. cbn [andb].
    replace (Z.of_nat s - Z.of_nat (k_src c) + Z.of_nat (k_nLO c))%Z with (Z.of_nat k) by lia.
    rewrite (pyindex_nth [] gs k) by lia. reflexivity.
  - intros g HN HL Hp Hle Hpos. unfold psd_extra, nLO_. rewrite HN, Hp. destruct (Rle_dec 0 (k_loSum c)); [|lra]. cbn [andb].
    destruct (Nat.ltb_spec 0 (k_nLO c)); [|lia]. cbn [andb]. destruct (Nat.leb_spec (k_src c - s) (k_nLO c)); [|lia]. reflexivity.
  - intros H. assert (E : psd_extra c p s a b = Ok (if Rlt_dec 0 (k_extra c) then p_extra p a b else 0)).
    { unfold psd_extra, nLO_. destruct (k_ngsPos c); [|reflexivity]. destruct (Rle_dec 0 (k_loSum c)) as [P|P]; [|reflexivity]. cbn [andb].
      destruct (Nat.ltb_spec 0 (k_nLO c)) as [Q|Q]; [|reflexivity]. cbn [andb]. destruct (Nat.leb_spec (k_src c - s) (k_nLO c)) as [T|T]; [|reflexivity].
      destruct H as [H|[H|[H|H]]]; [discriminate|lra|lia|lia]. }
    rewrite E. split; intros Hx; destruct (Rlt_dec 0 (k_extra c)); first [reflexivity|lra].
Qed.
Print Assumptions C26_extra_error_of_source.

(** C26: non-negative contributions give a non-negative total, with every option
    (normalisation to a given error, vibrations, tilt filter, extra errors). *)
Theorem C26_total_nonnegative :
  forall (c : psdcfg) (p : parts) (n r s a b : nat) (v : R), k_n c = Z.of_nat n -> k_r c = Z.of_nat r -> (1 <= r)%nat -> (r <= n)%nat ->
  parts_nonneg n r (k_src c) p -> (s < k_src c)%nat -> (a < n)%nat -> (b < n)%nat ->
  powerSpectrumDensity c p s a b = Ok v -> 0 <= v.
Proof.
  intros c p n r s a b v Hn Hr Hr1 Hrn HP Hs Ha Hb H. unfold powerSpectrumDensity in H. rewrite (embed_ok_true c n r Hn Hr Hr1 Hrn) in H. cbn [negb] in H.
  apply bindOk in H. destruct H as (f & Ef & H). apply bindOk in H. destruct H as (x & Ex & H). apply Ok_inj in H. subst v.
  apply Rmult_le_pos; [|apply pow2_ge_0].
  assert (M := fun s a b => psd_mcao_nonneg c p n r Hn Hr Hr1 Hrn s a b HP).
  assert (F : 0 <= f s a b).
  { unfold psd_norm in Ef. destruct (k_wfe c) as [w|]; [|apply Ok_inj in Ef; subst f; apply M; assumption].
    cbv zeta in Ef. match type of Ef with (if Req_EM_T ?S 0 then _ else _) = _ => assert (PS : 0 <= S) end.
    { unfold psd_all_sum. apply rsum_nonneg. intros s' Hs'. apply gsum_nonneg. unfold nOtf_. rewrite Hn, Nat2Z.id. intros i j Hi Hj. apply Rmult_le_pos; [apply M; assumption|apply pow2_ge_0]. }
    destruct (Req_EM_T _ 0) as [|NE]; [discriminate|]. apply Ok_inj in Ef. subst f. cbv beta. apply Rmult_le_pos; [apply Rmult_le_pos; [apply M; assumption|apply pow2_ge_0]|].
    unfold Rdiv. apply Rmult_le_pos; [apply pow2_ge_0|]. left. apply Rinv_0_lt_compat. lra. }
  destruct HP as (P1 & P2 & P3 & P4 & P5). destruct (P3 a b Ha Hb) as (_ & Pf & Pt & Pe).
  assert (X : 0 <= x).
  { unfold psd_extra in Ex. destruct (_ && _ && _)%bool.
    - destruct (p_lo p) as [g|gs]; [apply Ok_inj in Ex; subst x; apply P5; assumption|]. apply bindOk in Ex. destruct Ex as (g & Eg & Ex). apply Ok_inj in Ex. subst x. apply P5; try assumption.
      unfold pyindex in Eg. destruct (_ || _)%bool; [discriminate|]. destruct (nth_error gs _) eqn:E; [|discriminate]. apply Ok_inj in Eg. subst g. apply nth_error_In in E. exact E.
    - apply Ok_inj in Ex. subst x. destruct (Rlt_dec _ _); [exact Pe|lra]. }
  assert (V : 0 <= f s a b + p_fit p a b + (if negb (k_tiltOn c) && k_wind c then embed c (p_vib p) a b else 0)).
  { assert (0 <= if negb (k_tiltOn c) && k_wind c then embed c (p_vib p) a b else 0); [|lra]. destruct (_ && _)%bool; [|lra]. apply (embed_nonneg c n r Hn Hr Hr1 Hrn). intros i j Hi Hj. apply P2; assumption. }
  unfold psd_filtered. cbv zeta. destruct (k_tiltOn c); [|lra]. assert (0 <= p_tilt p a b) by exact Pt. nra.
Qed.
Print Assumptions C26_total_nonnegative.
(** ... in particular for every valid single-guide-star system on a natural guide
    star. *)
Theorem C26_scao_total_nonnegative :
  forall (c : psdcfg) (y : fsys) (MV : R) (ch nTh nF nT n : nat) (dir : nat -> R * R) (p : parts) (s a b : nat) (v : R),
  valid_sys y -> weight_sum y <= 1 -> (1 <= nTh)%nat -> / 500 <= y_rate y -> 0 <= MV ->
  k_n c = Z.of_nat n -> k_r c = Z.of_nat (y_res y) -> (1 <= y_res y)%nat -> (y_res y <= n)%nat ->
  scao_parts y MV ch nTh nF nT n dir p ->
  k_nGs c = 1%nat -> k_h c = 0 -> k_tiltOn c = false -> k_wind c = false -> k_extra c <= 0 -> k_ngsPos c = false ->
  (s < k_src c)%nat -> (a < n)%nat -> (b < n)%nat ->
  powerSpectrumDensity c p s a b = Ok v -> 0 <= v.
Proof.
  intros c y MV ch nTh nF nT n dir p s a b v HV HW Hth Hrate HM Hn Hr Hr1 Hrn [S1 S2 S3 S4 S5 S6] Hg Hh Ht Hw He Hl Hs Ha Hb H.
  set (p' := mkParts (p_noise p) (p_alias p) (p_diff p) (p_chrom p) (p_st p) (fun _ _ => 0) (fun _ _ _ _ => 0) (p_fit p) (fun _ _ => 0) (fun _ _ => 0) (fun _ _ => 0) (LoMany [])).
  apply (C26_total_nonnegative c p' n (y_res y) s a b v Hn Hr Hr1 Hrn); try assumption.
  - assert (N := fun i j v => C26_contributions_nonnegative y MV nTh nF nT ch i j v HV HW Hth Hrate HM). unfold parts_nonneg, p'. cbn.
    split; [|split; [|split; [|split]]].
    + intros s0 i j _ Hi Hj. repeat split; apply (N i j).
      * left. apply S1; assumption.
      * do 6 right. left. apply S3; assumption.
      * do 7 right. left. apply S4; assumption.
      * right; right; left. eexists _, _. apply S5; assumption.
    + intros i j Hi Hj. split; [|lra]. apply (N i j). right; left. apply S2; assumption.
    + intros a0 b0 Ha0 Hb0. repeat split; try lra. apply (N 0%nat 0%nat). do 8 right. eexists _, _. apply S6; assumption.
    + intros. lra.
    + intros g a0 b0 [].
  - rewrite <- H. unfold powerSpectrumDensity, psd_extra, psd_filtered, psd_norm, psd_mcao, psd_cone, isMcaoCone, isSLAO, nLO_. rewrite Hg, Hh, Ht, Hw, Hl.
    destruct (Req_EM_T 0 0); [|congruence]. cbn [Nat.eqb negb andb Nat.ltb Nat.leb]. rewrite !andb_false_r.
    destruct (Rlt_dec 0 (k_extra c)); [lra|]. reflexivity.
Qed.
Print Assumptions C26_scao_total_nonnegative.

(** C26: a corrected area larger than the grid is refused. *)
Theorem C26_area_must_fit :
  forall (c : psdcfg) (p : parts) (s a b n r : nat), k_n c = Z.of_nat n -> k_r c = Z.of_nat r -> (2 <= r)%nat -> (n < r)%nat ->
  powerSpectrumDensity c p s a b = Err ValueError.
Proof.
  intros c p s a b n r Hn Hr H2 Hlt. unfold powerSpectrumDensity, embed_ok. rewrite Hn, Hr.
  destruct (Z.eqb_spec (slice_len (Z.of_nat n) (id1 (Z.of_nat n) (Z.of_nat r)) (id2 (Z.of_nat n) (Z.of_nat r))) (Z.of_nat r)) as [E|_].
  - apply C24_embedding_size in E; lia.
  - destruct (Z.eqb_spec (Z.of_nat r) 1); [lia|]. reflexivity.
Qed.
Print Assumptions C26_area_must_fit.

(** C26 (refuted): normalising to a given wavefront error does not give that error:
    the sum over the pixels and all the sources of the correction errors is
    wfe^2 times the conversion factor applied a second time. *)
Theorem C26_normalisation_refuted :
  forall (c : psdcfg) (p : parts) (n r : nat) (w : R) (g : nat -> nat -> nat -> R), k_n c = Z.of_nat n -> k_r c = Z.of_nat r -> (1 <= r)%nat -> (r <= n)%nat ->
  k_wfe c = Some w -> k_tiltOn c = false -> k_wind c = false -> k_extra c <= 0 -> k_ngsPos c = false -> (forall a b, p_fit p a b = 0) ->
  (forall s a b, (s < k_src c)%nat -> (a < n)%nat -> (b < n)%nat -> powerSpectrumDensity c p s a b = Ok (g s a b)) -> (1 <= k_src c)%nat ->
  rsum (k_src c) (fun s => gsum n (g s)) = w ^ 2 * (k_dk c * k_rad2nm c) ^ 2.
Proof.
  intros c p n r w g Hn Hr Hr1 Hrn Hw Ht Hwi He Hl Hf H Hsrc.
  set (u := (k_dk c * k_rad2nm c) ^ 2). set (q := fun s a b => psd_mcao c p s a b * u). set (S := psd_all_sum c q).
  assert (NS : nOtf_ c = n) by (unfold nOtf_; rewrite Hn; apply Nat2Z.id).
  assert (E : S <> 0 /\ forall s a b, (s < k_src c)%nat -> (a < n)%nat -> (b < n)%nat -> g s a b = q s a b * (w ^ 2 / S) * u).
  { assert (K : forall s a b, powerSpectrumDensity c p s a b = if Req_EM_T S 0 then Err NonFinite else Ok (q s a b * (w ^ 2 / S) * u)).
    { intros s a b. unfold powerSpectrumDensity. rewrite (embed_ok_true c n r Hn Hr Hr1 Hrn). cbn [negb]. unfold psd_norm. rewrite Hw. cbv zeta. fold u. fold q. fold S.
      destruct (Req_EM_T S 0); [reflexivity|]. cbn [bind]. unfold psd_extra, nLO_. rewrite Hl. cbn [andb Nat.ltb Nat.leb]. destruct (Rlt_dec 0 (k_extra c)); [lra|]. cbn [bind].
      unfold psd_filtered. rewrite Ht, Hwi, Hf. cbn [negb andb]. fold u. f_equal. unfold q. ring. }
    assert (K0 := H 0%nat 0%nat 0%nat ltac:(lia) ltac:(lia) ltac:(lia)). rewrite K in K0. destruct (Req_EM_T S 0) as [|NE]; [discriminate|]. split; [exact NE|].
    intros s a b Hs Ha Hb. assert (X := H s a b Hs Ha Hb). rewrite K in X. destruct (Req_EM_T S 0); [contradiction|]. apply Ok_inj in X. congruence. }
  destruct E as (NE & E).
  rewrite (rsum_ext _ _ (fun s => (w ^ 2 / S * u) * gsum n (q s))).
  - rewrite rsum_scal. fold S. assert (EQ : rsum (k_src c) (fun s => gsum n (q s)) = S) by (unfold S, psd_all_sum; rewrite NS; reflexivity). rewrite EQ. unfold u. field. exact NE.
  - intros s Hs. rewrite <- gsum_scal. apply gsum_ext. intros a b Ha Hb. rewrite E by assumption. ring.
Qed.
Print Assumptions C26_normalisation_refuted.
