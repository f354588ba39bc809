(** C80: error breakdown of the PSF reconstruction (psfR.py:284-402). *)
From Coq Require Import Reals List Arith ZArith Bool Lia Lra Psatz FunctionalExtensionality.
From Verif Require Import Base_Py Base_Sum Base_DFT M_Image M_Fourier S_Fourier M_Tools M_Atmo M_Zernike2 M_Model M_Model2 M_Psf M_Psfr S_Psfr L_Tools L_Tools2 L_Atmo L_Fourier L_Model3 L_Fit L_Config P_FocalAniso P_Aniso2 P_Psfr3 P_Psfr4 P_Psfr5.
Import ListNotations.
Open Scope R_scope.

Tactic Notation "bnext" hyp(H) ident(x) ident(E) := apply bindOk in H; destruct H as (x & E & H).
Lemma rsqrt_inv x r : rsqrt x = Ok r -> 0 <= x /\ r = sqrt x.
Proof. unfold rsqrt. destruct (Rlt_dec x 0); [discriminate|]. intros H. injection H as <-. split; [lra|reflexivity]. Qed.
Lemma rsqrt_nonneg x r : rsqrt x = Ok r -> 0 <= r.
Proof. intros H. apply rsqrt_inv in H. destruct H as (_ & ->). apply sqrt_pos. Qed.
Lemma sr2fwe_inv wvl x w : 0 < wvl -> sr2fwe wvl x = Ok w -> 0 < x <= 1 /\ 0 <= w /\ x = exp (- (2 * PI * w * / 10 ^ 9 / wvl) ^ 2).
Proof.
  intros Hw H. unfold sr2fwe in H. destruct (Rle_dec x 0) as [|Hx]; [discriminate|]. destruct (rsqrt (- ln x)) as [s|] eqn:Es; cbn [bind] in H; [|discriminate]. apply Ok_inj in H. subst w.
  apply rsqrt_inv in Es. destruct Es as (Hl & ->). assert (Px : 0 < x) by lra. pose proof PI_RGT_0. assert (T : 0 < 10 ^ 9) by (apply pow_lt; lra).
  split; [|split].
  - split; [exact Px|]. destruct (Rle_lt_dec x 1) as [|L]; [assumption|]. exfalso. apply ln_increasing in L; [|lra]. rewrite ln_1 in L. lra.
  - apply Rmult_le_pos; [|left; now apply Rinv_0_lt_compat]. apply Rmult_le_pos; [|lra]. apply Rmult_le_pos; [|lra]. apply Rmult_le_pos; [apply sqrt_pos|lra].
  - replace (2 * PI * (sqrt (- ln x) * wvl * 10 ^ 9 / 2 / PI) * / 10 ^ 9 / wvl) with (sqrt (- ln x)) by (field; lra).
    rewrite pow2_sqrt by exact Hl. rewrite Ropp_involutive. symmetry. now apply exp_ln.
Qed.
Lemma sr2fwe_ok wvl x : 0 < x <= 1 -> exists w, sr2fwe wvl x = Ok w.
Proof.
  intros (H1 & H2). unfold sr2fwe. destruct (Rle_dec x 0); [lra|]. unfold rsqrt. destruct (Rlt_dec (- ln x) 0) as [L|]; [|eexists; reflexivity]. exfalso.
  assert (ln x <= 0) by (rewrite <- ln_1; now apply Rcomplements.ln_le). lra.
Qed.
(** C80: each term deduced from a structure function is the wavefront error (nm rms) whose
    Marechal Strehl ratio is the Strehl ratio of that term alone; non-negative, defined
    for every non-negative structure function, null for a null one. *)
Theorem C80_term : forall wvl n dl sf, 0 < wvl -> (forall i j, (i < n)%nat -> (j < n)%nat -> 0 <= dl i j) -> 0 < gsum n dl ->
  (forall i j, (i < n)%nat -> (j < n)%nat -> 0 <= sf i j) ->
  exists w, wfe_of_sf wvl n dl sf = Ok w /\ 0 <= w /\
    exp (- (2 * PI * w * / 10 ^ 9 / wvl) ^ 2) = gsum n (fun i j => dl i j * exp (- / 2 * sf i j)) / gsum n dl /\
    ((forall i j, (i < n)%nat -> (j < n)%nat -> sf i j = 0) -> w = 0).
Proof.
  intros wvl n dl sf Hw Hd HS Hsf. unfold wfe_of_sf, sr_of. rewrite rdiv_ok by lra. cbn [bind].
  set (x := gsum n (fun i j => dl i j * exp (- / 2 * sf i j)) / gsum n dl).
  assert (U : gsum n (fun i j => dl i j * exp (- / 2 * sf i j)) <= gsum n dl).
  { unfold gsum. apply rsum_le. intros i Hi. apply rsum_le. intros j Hj. specialize (Hd i j Hi Hj). specialize (Hsf i j Hi Hj).
    assert (exp (- / 2 * sf i j) <= 1). { rewrite <- exp_0. destruct (Rle_lt_or_eq_dec _ _ Hsf) as [L|<-]; [left; apply exp_increasing; lra|right; f_equal; ring]. } nra. }
  assert (P : 0 < gsum n (fun i j => dl i j * exp (- / 2 * sf i j))).
  { assert (exists i j, (i < n)%nat /\ (j < n)%nat /\ 0 < dl i j) as (i & j & Hi & Hj & Hp).
    { destruct (Classical_Prop.classic (exists i j, (i < n)%nat /\ (j < n)%nat /\ 0 < dl i j)) as [H|H]; [exact H|]. exfalso. assert (gsum n dl <= 0); [|lra]. unfold gsum. rewrite rsum_zero; [lra|]. intros i Hi. apply rsum_zero. intros j Hj. apply Rle_antisym; [|now apply Hd]. destruct (Rle_lt_dec (dl i j) 0); [assumption|]. exfalso. apply H. now exists i, j. }
    assert (N : forall i j, (i < n)%nat -> (j < n)%nat -> 0 <= dl i j * exp (- / 2 * sf i j)) by (intros a b Ha Hb; apply Rmult_le_pos; [now apply Hd|left; apply exp_pos]).
    apply Rlt_le_trans with (dl i j * exp (- / 2 * sf i j)); [apply Rmult_lt_0_compat; [exact Hp|apply exp_pos]|]. unfold gsum.
    eapply Rle_trans; [exact (rsum_term_le n (fun b => dl i b * exp (- / 2 * sf i b)) j (fun b Hb => N i b Hi Hb) Hj)|].
    exact (rsum_term_le n (fun a => rsum n (fun b => dl a b * exp (- / 2 * sf a b))) i (fun a Ha => rsum_nonneg n _ (fun b Hb => N a b Ha Hb)) Hi). }
  assert (X : 0 < x <= 1). { unfold x. split; [now apply Rdiv_lt_0_compat|]. apply Rmult_le_reg_r with (gsum n dl); [exact HS|]. unfold Rdiv. rewrite Rmult_assoc, Rinv_l by lra. lra. }
  destruct (sr2fwe_ok wvl x X) as (w & Ew). exists w. split; [exact Ew|]. destruct (sr2fwe_inv wvl x w Hw Ew) as (_ & Pw & Ex). split; [exact Pw|]. split; [now rewrite <- Ex|].
  intros Z. assert (x = 1). { unfold x. replace (gsum n (fun i j => dl i j * exp (- / 2 * sf i j))) with (gsum n dl); [field; lra|]. unfold gsum. apply rsum_ext. intros i Hi. apply rsum_ext. intros j Hj. rewrite (Z i j Hi Hj), Rmult_0_r, exp_0. ring. }
  clearbody x. clear Ex. subst x. unfold sr2fwe in Ew. destruct (Rle_dec 1 0); [lra|]. rewrite ln_1, Ropp_0 in Ew. unfold rsqrt in Ew. destruct (Rlt_dec 0 0); [lra|]. cbn [bind] in Ew. apply Ok_inj in Ew; subst w. rewrite sqrt_0. unfold Rdiv. ring.
Qed.
Print Assumptions C80_term.
Lemma marechal_dec wvl a b : 0 < wvl -> 0 <= a -> a < b -> exp (- (2 * PI * b * / 10 ^ 9 / wvl) ^ 2) < exp (- (2 * PI * a * / 10 ^ 9 / wvl) ^ 2).
Proof.
  intros Hw Ha Hb. apply exp_increasing, Ropp_lt_contravar. assert (K : 0 < 2 * PI * / 10 ^ 9 / wvl) by (pose proof PI_RGT_0; apply Rdiv_lt_0_compat; [apply Rmult_lt_0_compat; [lra|apply Rinv_0_lt_compat, pow_lt; lra]|exact Hw]).
  replace (2 * PI * b * / 10 ^ 9 / wvl) with (2 * PI * / 10 ^ 9 / wvl * b) by (unfold Rdiv; ring). replace (2 * PI * a * / 10 ^ 9 / wvl) with (2 * PI * / 10 ^ 9 / wvl * a) by (unfold Rdiv; ring).
  rewrite !Rpow_mult_distr. apply Rmult_lt_compat_l; [now apply pow_lt|nra].
Qed.
(** C80: a larger structure function has a larger wavefront error. *)
Theorem C80_term_monotone : forall wvl n dl sf sf' w w', 0 < wvl -> (forall i j, (i < n)%nat -> (j < n)%nat -> 0 <= dl i j) -> 0 < gsum n dl ->
  (forall i j, (i < n)%nat -> (j < n)%nat -> 0 <= sf i j <= sf' i j) ->
  wfe_of_sf wvl n dl sf = Ok w -> wfe_of_sf wvl n dl sf' = Ok w' -> w <= w'.
Proof.
  intros wvl n dl sf sf' w w' Hw Hd HS Hsf E E'.
  destruct (C80_term wvl n dl sf Hw Hd HS) as (v & Ev & Pv & Xv & _); [intros; now apply Hsf|]. rewrite E in Ev. injection Ev as <-.
  destruct (C80_term wvl n dl sf' Hw Hd HS) as (v & Ev & Pv' & Xv' & _); [intros i j Hi Hj; specialize (Hsf i j Hi Hj); lra|]. rewrite E' in Ev. injection Ev as <-.
  assert (L : exp (- (2 * PI * w' * / 10 ^ 9 / wvl) ^ 2) <= exp (- (2 * PI * w * / 10 ^ 9 / wvl) ^ 2)).
  { rewrite Xv, Xv'. unfold Rdiv. apply Rmult_le_compat_r; [left; now apply Rinv_0_lt_compat|]. unfold gsum. apply rsum_le. intros i Hi. apply rsum_le. intros j Hj. apply Rmult_le_compat_l; [now apply Hd|]. destruct (Hsf i j Hi Hj) as (_ & L). destruct (Rle_lt_or_eq_dec _ _ L) as [L'|L']; [left; apply exp_increasing; lra|right; now rewrite L']. }
  destruct (Rle_lt_dec w w') as [|G]; [assumption|]. exfalso. apply (Rlt_not_le _ _ (marechal_dec wvl w' w Hw Pv' G)). exact L.
Qed.
Print Assumptions C80_term_monotone.

(** C80: total of the breakdown. *)
Theorem C80_total : forall b w, 0 < b_wvl b -> psfr_breakdown b = Ok w ->
  w_tot w ^ 2 = w_ncpa w ^ 2 + w_fit w ^ 2 + w_hon w ^ 2 + w_ttn w ^ 2 + w_servo w ^ 2 + w_tt w ^ 2 + w_ani w ^ 2 /\
  w_totpix w ^ 2 = w_tot w ^ 2 + w_pix w ^ 2 /\
  (forall t, In t [w_ncpa w; w_fit w; w_hon w; w_ttn w; w_servo w; w_tt w; w_ani w] -> 0 <= t <= w_tot w) /\ 0 <= w_alias w /\ 0 <= w_pix w /\
  w_tot w <= w_totpix w /\ 0 < w_srpix w <= w_sr w /\ w_sr w <= 100.
Proof.
  intros b w Hw H. unfold psfr_breakdown in H.
  bnext H ncpa Ecp. bnext H fa Efa. bnext H nt Ent. bnext H sv Esv. bnext H tj Ett. bnext H pix Epx. bnext H an Ean. apply Ok_inj in H. subst w. cbn [w_tot w_totpix w_ncpa w_fit w_alias w_hon w_ttn w_servo w_tt w_pix w_ani w_sr w_srpix].
  assert (N0 : 0 <= ncpa). { destruct (existsb _ _) in Ecp; [|apply Ok_inj in Ecp; lra]. unfold rstd in Ecp. bnext Ecp m Em. bnext Ecp v Evv. now apply rsqrt_nonneg in Ecp. }
  assert (WN : forall n d f v, wfe_of_sf (b_wvl b) n d f = Ok v -> 0 <= v). { intros n d f v E. unfold wfe_of_sf in E. bnext E s Es. now destruct (sr2fwe_inv _ _ _ Hw E) as (_ & ? & _). }
  assert (N1 : 0 <= fst fa /\ 0 <= snd fa). { unfold psfr_fit_terms in Efa. bnext Efa r0 E0. bnext Efa r Er. bnext Efa f Ef. bnext Efa a Ea. apply Ok_inj in Efa. subst fa. cbn [fst snd]. split; eapply WN; eassumption. }
  assert (N2 : 0 <= fst nt /\ 0 <= snd nt). { unfold psfr_noise_terms in Ent. bnext Ent m Em. bnext Ent h Eh. bnext Ent g Eg. bnext Ent t Et. apply Ok_inj in Ent. subst nt. cbn [fst snd]. split; [|eapply WN; eassumption]. apply rsqrt_nonneg in Eh. apply Rmult_le_pos; [apply pow_le; lra|exact Eh]. }
  assert (N3 : 0 <= sv). { unfold psfr_servo in Esv. bnext Esv t Et. bnext Esv s Es. apply Ok_inj in Esv. subst sv. apply rsqrt_nonneg in Es. apply Rmult_le_pos; [apply pow_le; lra|exact Es]. }
  assert (N4 : 0 <= tj). { unfold psfr_tt in Ett. destruct (b_jit b); [|apply Ok_inj in Ett; lra]. bnext Ett v Evv. now apply rsqrt_nonneg in Ett. }
  assert (N5 : 0 <= pix). { unfold psfr_pix in Epx. bnext Epx s Es. now destruct (sr2fwe_inv _ _ _ Hw Epx) as (_ & ? & _). }
  assert (N6 : 0 <= an). { unfold psfr_ani in Ean. destruct (b_ani b); [eapply WN; eassumption|apply Ok_inj in Ean; lra]. }
  destruct N1 as (N1 & N1'). destruct N2 as (N2 & N2'). clear Ecp Efa Ent Esv Ett Epx Ean WN. destruct fa as (f, al). destruct nt as (hn, tn). cbn [fst snd] in *.
  set (T := ncpa ^ 2 + f ^ 2 + hn ^ 2 + tn ^ 2 + sv ^ 2 + tj ^ 2 + an ^ 2).
  assert (PT : 0 <= T) by (unfold T; pose proof (pow2_ge_0 ncpa); pose proof (pow2_ge_0 f); pose proof (pow2_ge_0 hn); pose proof (pow2_ge_0 tn); pose proof (pow2_ge_0 sv); pose proof (pow2_ge_0 tj); pose proof (pow2_ge_0 an); lra).
  assert (S1 : sqrt T ^ 2 = T) by (now apply pow2_sqrt). rewrite S1.
  assert (PP : 0 <= T + pix ^ 2) by (pose proof (pow2_ge_0 pix); lra).
  assert (S2 : sqrt (T + pix ^ 2) ^ 2 = T + pix ^ 2) by (now apply pow2_sqrt).
  split; [reflexivity|]. split; [exact S2|].
  assert (LE : sqrt T <= sqrt (T + pix ^ 2)) by (apply sqrt_le_1; [lra|lra|pose proof (pow2_ge_0 pix); lra]).
  split; [|split; [exact N1'|split; [exact N5|split; [exact LE|]]]].
  - assert (Q : forall t, 0 <= t -> t ^ 2 <= T -> 0 <= t <= sqrt T) by (intros t H1 H2; split; [exact H1|]; rewrite <- (sqrt_pow2 t) by exact H1; apply sqrt_le_1; [apply pow2_ge_0|exact PT|exact H2]).
    intros t Ht. cbn [In] in Ht. apply Q; [decompose [or] Ht; try contradiction; subst t; assumption|]. unfold T. pose proof (pow2_ge_0 ncpa); pose proof (pow2_ge_0 f); pose proof (pow2_ge_0 hn); pose proof (pow2_ge_0 tn); pose proof (pow2_ge_0 sv); pose proof (pow2_ge_0 tj); pose proof (pow2_ge_0 an). cbn [In] in Ht. decompose [or] Ht; try contradiction; subst t; lra.
  - unfold marechal. assert (F : forall v, v * 2 * PI * / 10 ^ 9 / b_wvl b = 2 * PI * v * / 10 ^ 9 / b_wvl b) by (intros; unfold Rdiv; ring). rewrite !F. split; [split|].
    + apply Rmult_lt_0_compat; [lra|apply exp_pos].
    + apply Rmult_le_compat_l; [lra|]. destruct (Rle_lt_or_eq_dec _ _ LE) as [L|E]; [|rewrite E; lra]. left. apply marechal_dec; [exact Hw|apply sqrt_pos|exact L].
    + rewrite <- (Rmult_1_r 100) at 2. apply Rmult_le_compat_l; [lra|]. rewrite <- exp_0. match goal with |- exp (- ?x) <= _ => assert (Z : 0 <= x) by apply pow2_ge_0 end. destruct (Rle_lt_or_eq_dec _ _ Z) as [L|E]; [left; apply exp_increasing; lra|rewrite <- E, Ropp_0; lra].
Qed.
Print Assumptions C80_total.
(** Finding: the total ignores the aliasing error: two systems that differ only by it have
    the same total wavefront error and the same Strehl ratio. *)
Theorem C80_aliasing_refuted : forall b al w w',
  let b' := mkPin (b_n b) (b_wvl b) (b_dl b) (b_ncpa b) (b_atm_r0 b) (b_atm_wvl b) (b_r0 b) (b_fit b) al (b_pn_ho b) (b_cn_diag b) (b_samp b) (b_ang b) (b_pn_tt b) (b_cn_tt b) (b_tr_cao b) (b_tr_cn b) (b_ncom b) (b_jit b) (b_pix b) (b_ani b) in
  psfr_breakdown b = Ok w -> psfr_breakdown b' = Ok w' -> w_tot w' = w_tot w /\ w_totpix w' = w_totpix w /\ w_sr w' = w_sr w.
Proof.
  intros b al w w' b' H H'. unfold psfr_breakdown in H, H'.
  change (psfr_noise_terms b') with (psfr_noise_terms b) in H'. change (psfr_servo b') with (psfr_servo b) in H'. change (psfr_tt b') with (psfr_tt b) in H'. change (psfr_pix b') with (psfr_pix b) in H'. change (psfr_ani b') with (psfr_ani b) in H'. change (b_ncpa b') with (b_ncpa b) in H'. change (b_wvl b') with (b_wvl b) in H'.
  bnext H ncpa Ecp. bnext H fa Efa. bnext H nt Ent. bnext H sv Esv. bnext H tj Ett. bnext H pix Epx. bnext H an Ean. apply Ok_inj in H. subst w.
  rewrite Ecp in H'. cbn [bind] in H'. bnext H' fa' Efa'. rewrite Ent, Esv in H'. cbn [bind] in H'. rewrite Ett, Epx, Ean in H'. cbn [bind] in H'. apply Ok_inj in H'. subst w'. cbn [w_tot w_totpix w_sr].
  assert (E : fst fa' = fst fa); [|now rewrite E]. unfold psfr_fit_terms in Efa, Efa'. change (psfr_r0 b') with (psfr_r0 b) in Efa'. bnext Efa r0 E0. rewrite E0 in Efa'. cbn [bind] in Efa'. bnext Efa r Er. rewrite Er in Efa'. cbn [bind] in Efa'. bnext Efa f Ef. change (wfe_of_sf (b_wvl b') (b_n b') (b_dl b') (fun i j => r * b_fit b' i j)) with (wfe_of_sf (b_wvl b) (b_n b) (b_dl b) (fun i j => r * b_fit b i j)) in Efa'. rewrite Ef in Efa'. cbn [bind] in Efa'. bnext Efa a Ea. bnext Efa' a' Ea'. apply Ok_inj in Efa. apply Ok_inj in Efa'. now subst.
Qed.
Print Assumptions C80_aliasing_refuted.
(** Finding: a jitter smaller than the noise estimate (for instance none), or a covariance of
    the residual whose trace is under (1 + noise gain) times that of the noise, has no
    breakdown: the term and the total are nan. *)
Theorem C80_noise_exceeds_refuted :
  (forall b d ttn w, b_jit b = Some d -> wfe_of_sf (b_wvl b) (b_n b) (b_dl b) d = Ok w -> 0 <= w < ttn -> psfr_tt b ttn = Err NonFinite) /\
  (forall b, 0 < b_ncom b -> b_tr_cao b < (1 + b_pn_ho b) * b_tr_cn b -> psfr_servo b = Err NonFinite).
Proof.
  split.
  - intros b d ttn w Hj Hd Hw. unfold psfr_tt. rewrite Hj, Hd. cbn [bind]. unfold rsqrt. destruct (Rlt_dec _ 0) as [|N]; [reflexivity|]. exfalso. apply N. nra.
  - intros b Hn Ht. unfold psfr_servo. rewrite rdiv_ok by lra. cbn [bind]. unfold rsqrt. destruct (Rlt_dec _ 0) as [|N]; [reflexivity|]. exfalso. apply N. assert (0 < / b_ncom b) by now apply Rinv_0_lt_compat. unfold Rdiv. nra.
Qed.
Print Assumptions C80_noise_exceeds_refuted.

(** ** parameters given to the model after the breakdown, lines 398-402 *)
(** C80: one layer: the vector is (r0, 1, 1); several layers, all reconstructed: the
    weights (of sum 1) times r0^(-5/3), from which the model recovers r0 and the profile. *)
Theorem C80_params : forall nL nRec nSrc nwvl nframe trans dx dy r0 weights, 0 < r0 -> (1 <= nL)%nat -> length weights = nL -> (1 <= nRec)%nat -> (nL = 1%nat \/ (1 < nRec)%nat) -> lsum weights = 1 ->
  length trans = nwvl -> length dx = nwvl -> length dy = nwvl ->
  exists x s, psfr_params nL r0 weights = Ok x /\ sort_params (psfr_inst nL nRec nSrc nwvl nframe trans dx dy) x = Ok s /\
    s_r0 s = Some r0 /\ s_dphi s = Some [1; 1] /\
    ((1 < nL)%nat -> s_Cn2 s = Some (map (fun w => w * Rpower r0 (- 5 / 3)) weights)).
Proof.
  intros nL nRec nSrc nwvl nframe trans dx dy r0 weights Hr HL Lw HR1 HR Sw Ht Hx Hy. unfold psfr_params. destruct (Nat.eqb_spec nL 1) as [E|E].
  - exists [r0; 1; 1]. subst nL. rewrite E. unfold sort_params, sort_atm. cbn [i_atm psfr_inst i_nL i_nRec i_dphi i_jit]. replace (Nat.min 1 nRec) with 1%nat by lia. cbn [Nat.ltb Nat.leb andb]. rewrite py0. cbn [bind]. cbv zeta.
    unfold sort_stellar. cbn [i_star i_wvl i_frame psfr_inst length Nat.add Nat.ltb Nat.leb i_trans i_dispx i_dispy]. rewrite (bmul_ones' _ _ Ht), (bmul_ones' _ _ Hx), (bmul_ones' _ _ Hy). cbn [bind]. eexists. split; [reflexivity|]. split; [reflexivity|]. cbn [s_r0 s_dphi s_Cn2]. split; [reflexivity|]. split; [reflexivity|lia].
  - destruct HR as [|HR]; [contradiction|]. rewrite rpow_pos by exact Hr. cbn [bind]. set (cs := map (fun w => w * Rpower r0 (- 5 / 3)) weights).
    assert (Lc : length cs = nL) by (unfold cs; rewrite map_length; exact Lw). exists (cs ++ [1; 1]).
    assert (SC : lsum cs = Rpower r0 (- 5 / 3)). { unfold cs. rewrite (map_ext _ (fun w => Rpower r0 (- 5 / 3) * w)) by (intros; ring). rewrite (lsum_map_scal (fun w => w)), map_id, Sw. ring. }
    assert (RR : Rpower (Rpower r0 (- 5 / 3)) (- 3 / 5) = r0). { rewrite Rpower_mult. replace (- 5 / 3 * (- 3 / 5)) with 1 by field. now apply Rpower_1. }
    unfold sort_params, sort_atm. cbn [i_atm psfr_inst i_nL i_nRec i_dphi i_jit]. replace (0 <? Nat.min nL nRec)%nat with true by (symmetry; apply Nat.ltb_lt; lia). replace ((1 <? nL) && (1 <? nRec))%nat%bool with true by lia. cbv zeta.
    rewrite <- Lc. rewrite firstn_app, Nat.sub_diag, firstn_all, firstn_O, app_nil_r, SC. rewrite rpow_pos by apply exp_pos. cbn [bind]. rewrite RR.
    unfold sort_stellar. cbn [i_star i_wvl i_frame psfr_inst i_trans i_dispx i_dispy]. rewrite app_length. cbn [length]. replace (length cs + 2 <? length cs + 2)%nat with false by lia. rewrite (bmul_ones' _ _ Ht), (bmul_ones' _ _ Hx), (bmul_ones' _ _ Hy). cbn [bind]. eexists. split; [reflexivity|]. split; [reflexivity|]. cbn [s_r0 s_dphi s_Cn2]. split; [reflexivity|]. split; [|reflexivity].
    replace (0 <? length cs + 2)%nat with true by lia. unfold seg. rewrite skipn_app, skipn_all, Nat.sub_diag. replace (length cs + 2 - length cs)%nat with 2%nat by lia. reflexivity.
Qed.
Print Assumptions C80_params.
(** Finding: several layers but a single reconstructed one: the vector still lists the
    weights, and the model reads its first entry, w_1 r0^(-5/3), as r0 and the next two as
    the gains. *)
Theorem C80_params_refuted : forall nSrc nwvl nframe trans dx dy r0 w1 w2 ws, 0 < r0 -> (nwvl = 1)%nat ->
  exists x s, psfr_params (S (S (length ws))) r0 (w1 :: w2 :: ws) = Ok x /\ sort_params (psfr_inst (S (S (length ws))) 1 nSrc nwvl nframe trans dx dy) x = Ok s /\
    s_r0 s = Some (w1 * Rpower r0 (- 5 / 3)) /\ s_Cn2 s = None /\ exists g, s_dphi s = Some [w2 * Rpower r0 (- 5 / 3); g].
Proof.
  intros nSrc nwvl nframe trans dx dy r0 w1 w2 ws Hr Hw. unfold psfr_params. cbn [Nat.eqb]. rewrite rpow_pos by exact Hr. cbn [bind map app]. do 2 eexists. split; [reflexivity|].
  unfold sort_params, sort_atm. cbn [i_atm psfr_inst i_nL i_nRec i_dphi i_jit]. replace (Nat.min (S (S (length ws))) 1) with 1%nat by lia. cbn [Nat.ltb Nat.leb andb]. try rewrite andb_false_r. rewrite py0. cbn [bind]. cbv zeta.
  unfold sort_stellar. cbn [i_star i_wvl i_frame psfr_inst i_trans i_dispx i_dispy]. subst nwvl. cbn [Nat.eqb].
  match goal with |- context [(?a <? ?b)%nat] => replace (a <? b)%nat with true by (symmetry; apply Nat.ltb_lt; cbn [length]; rewrite app_length; cbn [length]; lia) end.
  cbn [bind]. split; [reflexivity|]. cbn [s_r0 s_dphi s_Cn2]. split; [reflexivity|]. split; [reflexivity|].
  unfold seg. cbn [skipn Nat.add Nat.sub Nat.ltb Nat.leb]. destruct ws as [|w3 ws]; cbn [map app firstn]; eexists; reflexivity.
Qed.
Print Assumptions C80_params_refuted.

(** ** psfrUtils.sr2wfe and wfe2sr *)
(** C80: inverse of each other (Strehl ratios in (0, 1], wavefront errors >= 0). *)
Theorem C80_roundtrip : forall wvl, 0 < wvl ->
  (forall s, 0 < s <= 1 -> exists w, sr2wfe s wvl = Ok w /\ 0 <= w /\ wfe2sr w wvl = Ok s) /\
  (forall w, 0 <= w -> exists s, wfe2sr w wvl = Ok s /\ 0 < s <= 1 /\ sr2wfe s wvl = Ok w).
Proof.
  intros wvl Hw. assert (HP := PI_RGT_0). assert (T : 0 < 10 ^ 9) by (apply pow_lt; lra). split.
  - intros s Hs. unfold sr2wfe. destruct (Rle_dec s 0); [lra|]. assert (L : 0 <= - ln s). { assert (ln s <= 0) by (rewrite <- ln_1; apply Rcomplements.ln_le; lra). lra. }
    rewrite rsqrt_ok by exact L. cbn [bind]. eexists. split; [reflexivity|]. split.
    + unfold Rdiv. repeat apply Rmult_le_pos; try apply sqrt_pos; try (left; apply Rinv_0_lt_compat; lra); lra.
    + unfold wfe2sr. rewrite rdiv_ok by lra. cbn [bind]. f_equal. replace (2 * PI * (10 ^ 9 * sqrt (- ln s) * wvl / 2 / PI) * / 10 ^ 9 / wvl) with (sqrt (- ln s)) by (field; lra). rewrite pow2_sqrt, Ropp_involutive by exact L. apply exp_ln. lra.
  - intros w H0. unfold wfe2sr. rewrite rdiv_ok by lra. cbn [bind]. eexists. split; [reflexivity|]. set (x := 2 * PI * w * / 10 ^ 9 / wvl).
    assert (I9 : 0 < / 10 ^ 9) by (now apply Rinv_0_lt_compat). assert (IW : 0 < / wvl) by (now apply Rinv_0_lt_compat). assert (Px : 0 <= x). { unfold x, Rdiv. apply Rmult_le_pos; [|lra]. apply Rmult_le_pos; [|lra]. apply Rmult_le_pos; lra. } split; [split; [apply exp_pos|]|].
    + rewrite <- exp_0. destruct (Rle_lt_or_eq_dec _ _ (pow2_ge_0 x)) as [L|E]; [left; apply exp_increasing; lra|rewrite <- E, Ropp_0; lra].
    + unfold sr2wfe. destruct (Rle_dec (exp (- x ^ 2)) 0) as [C|_]; [pose proof (exp_pos (- x ^ 2)); lra|]. rewrite ln_exp, Ropp_involutive, rsqrt_ok by apply pow2_ge_0. cbn [bind]. rewrite sqrt_pow2 by exact Px. f_equal. unfold x. field. lra.
Qed.
Print Assumptions C80_roundtrip.

(** C80: the breakdown is defined for every consistent telemetry. *)
Lemma lsum_nn l : (forall x, In x l -> 0 <= x) -> 0 <= lsum l.
Proof. unfold lsum. induction l as [|a l IH]; cbn; intros H; [lra|]. assert (0 <= a) by (apply H; now left). assert (0 <= fold_right Rplus 0 l) by (apply IH; intros; apply H; now right). lra. Qed.
Lemma rmean_nn l : l <> [] -> (forall x, In x l -> 0 <= x) -> exists m, rmean l = Ok m /\ 0 <= m.
Proof.
  intros Hl H. unfold rmean. assert (P : 0 < INR (length l)) by (apply lt_0_INR; destruct l; [contradiction|cbn; lia]). rewrite rdiv_ok by lra. eexists. split; [reflexivity|]. apply Rmult_le_pos; [now apply lsum_nn|left; now apply Rinv_0_lt_compat].
Qed.
Theorem C80_defined : forall b, 0 < b_wvl b -> 0 < b_atm_wvl b -> 0 < b_atm_r0 b -> (b_r0 b = None \/ exists r, b_r0 b = Some r /\ 0 < r) ->
  (forall i j, (i < b_n b)%nat -> (j < b_n b)%nat -> 0 <= b_dl b i j) -> 0 < gsum (b_n b) (b_dl b) ->
  (forall i j, (i < b_n b)%nat -> (j < b_n b)%nat -> 0 <= b_fit b i j /\ 0 <= b_alias b i j /\ 0 < b_pix b i j <= 1) ->
  b_cn_diag b <> [] -> (forall x, In x (b_cn_diag b) -> 0 <= x) -> 0 <= b_pn_ho b -> 0 <= b_pn_tt b ->
  (let c := b_cn_tt b in fst (snd c) = snd (fst c) /\ 0 <= fst (fst c) /\ 0 <= snd (snd c) /\ snd (fst c) ^ 2 <= fst (fst c) * snd (snd c)) ->
  0 < b_ncom b -> (1 + b_pn_ho b) * b_tr_cn b <= b_tr_cao b ->
  (forall d ttn, b_jit b = Some d -> psfr_noise_terms b = Ok ttn -> (forall i j, (i < b_n b)%nat -> (j < b_n b)%nat -> 0 <= d i j) /\ exists w, wfe_of_sf (b_wvl b) (b_n b) (b_dl b) d = Ok w /\ snd ttn <= w) ->
  (forall d, b_ani b = Some d -> forall i j, (i < b_n b)%nat -> (j < b_n b)%nat -> 0 <= d i j) ->
  exists w, psfr_breakdown b = Ok w.
Proof.
  intros b Hw Haw Har Hr0 Hd HS Hfa Hc0 Hc Hp Hpt Ht Hn Hs Hj Ha.
  assert (C1 : exists v, (if existsb (fun x => if Req_EM_T x 0 then false else true) (b_ncpa b) then rstd (b_ncpa b) else Ok 0) = Ok v).
  { destruct (existsb _ _) eqn:E; [|now exists 0]. unfold rstd, rmean. assert (L : b_ncpa b <> []) by (intros E'; rewrite E' in E; discriminate). assert (P : 0 < INR (length (b_ncpa b))) by (apply lt_0_INR; destruct (b_ncpa b); [contradiction|cbn; lia]). rewrite rdiv_ok by lra. cbn [bind]. rewrite map_length, rdiv_ok by lra. cbn [bind]. eexists. apply rsqrt_ok. apply Rmult_le_pos; [|left; now apply Rinv_0_lt_compat]. apply lsum_nn. intros x Hx. apply in_map_iff in Hx. destruct Hx as (y & <- & _). apply pow2_ge_0. }
  destruct C1 as (ncpa & E1).
  assert (C2 : exists r, psfr_r0 b = Ok r /\ 0 < r). { assert (D : exists r, (do t <- rdiv (b_wvl b) (b_atm_wvl b); do p <- rpow t (12 / 10); Ok (b_atm_r0 b * p)) = Ok r /\ 0 < r).
    { rewrite rdiv_ok by lra. cbn [bind]. rewrite rpow_pos by (now apply Rdiv_lt_0_compat). cbn [bind]. eexists. split; [reflexivity|]. apply Rmult_lt_0_compat; [exact Har|apply exp_pos]. }
    unfold psfr_r0. destruct Hr0 as [ ->|(r & -> & Hr)]; [exact D|]. destruct (Req_EM_T r 0); [lra|]. now exists r. }
  destruct C2 as (r0 & E2 & P2).
  assert (C3 : exists fa, psfr_fit_terms b = Ok fa).
  { unfold psfr_fit_terms. rewrite E2. cbn [bind]. rewrite rpow_pos by exact P2. cbn [bind]. assert (PR : 0 < Rpower r0 (- 5 / 3)) by apply exp_pos.
    destruct (C80_term (b_wvl b) (b_n b) (b_dl b) (fun i j => Rpower r0 (- 5 / 3) * b_fit b i j) Hw Hd HS) as (f & Ef & _); [intros i j Hi Hj'; apply Rmult_le_pos; [lra|now apply Hfa]|]. rewrite Ef. cbn [bind].
    destruct (C80_term (b_wvl b) (b_n b) (b_dl b) (fun i j => Rpower r0 (- 5 / 3) * b_alias b i j) Hw Hd HS) as (a & Ea & _); [intros i j Hi Hj'; apply Rmult_le_pos; [lra|now apply Hfa]|]. rewrite Ea. cbn [bind]. eexists; reflexivity. }
  destruct C3 as (fa & E3).
  assert (C4 : exists nt, psfr_noise_terms b = Ok nt /\ 0 <= snd nt).
  { unfold psfr_noise_terms. destruct (rmean_nn _ Hc0 Hc) as (m & -> & Pm). cbn [bind]. rewrite rsqrt_ok by (now apply Rmult_le_pos). cbn [bind].
    assert (J : forall i j, exists d, tt_noise_sf b i j = Ok d /\ 0 <= d). { intros i j. destruct Ht as (H1 & H2 & H3 & H4). unfold tt_noise_sf. edestruct (C79_jitter_range (b_n b) (b_samp b) (b_wvl b) (b_ang b)) as (d & Ed & Pd & _); [lra| | | | |exists d; split; [exact Ed|exact Pd]]; cbn [fst snd]; [now rewrite H1|now apply Rmult_le_pos|now apply Rmult_le_pos|].
      replace ((b_pn_tt b * snd (fst (b_cn_tt b))) ^ 2) with (b_pn_tt b ^ 2 * snd (fst (b_cn_tt b)) ^ 2) by ring. replace (b_pn_tt b * fst (fst (b_cn_tt b)) * (b_pn_tt b * snd (snd (b_cn_tt b)))) with (b_pn_tt b ^ 2 * (fst (fst (b_cn_tt b)) * snd (snd (b_cn_tt b)))) by ring. apply Rmult_le_compat_l; [apply pow2_ge_0|exact H4]. }
    destruct (grid_res_total (b_n b) (tt_noise_sf b)) as (g & Eg); [intros i j _ _; destruct (J i j) as (d & Ed & _); now exists d|]. rewrite Eg. cbn [bind]. destruct (grid_res_spec _ _ _ Eg) as (_ & _ & Vg).
    destruct (C80_term (b_wvl b) (b_n b) (b_dl b) (grid_at g) Hw Hd HS) as (t & Et & Pt & _). { intros i j Hi Hj'. destruct (J i j) as (d & Ed & Pd). rewrite (Vg i j Hi Hj') in Ed. apply Ok_inj in Ed. now rewrite Ed. }
    rewrite Et. cbn [bind]. eexists. split; [reflexivity|exact Pt]. }
  destruct C4 as (nt & E4 & P4).
  assert (C5 : exists sv, psfr_servo b = Ok sv). { unfold psfr_servo. rewrite rdiv_ok by lra. cbn [bind]. rewrite rsqrt_ok; [cbn [bind]; eexists; reflexivity|]. apply Rmult_le_pos; [lra|left; now apply Rinv_0_lt_compat]. }
  destruct C5 as (sv & E5).
  assert (C6 : exists t, psfr_tt b (snd nt) = Ok t). { unfold psfr_tt. destruct (b_jit b) as [d|]; [|now exists 0]. destruct (Hj d nt eq_refl E4) as (_ & v & -> & Lv). cbn [bind]. rewrite rsqrt_ok by nra. eexists; reflexivity. }
  destruct C6 as (tj & E6).
  assert (C7 : exists p, psfr_pix b = Ok p).
  { unfold psfr_pix, sr_of. rewrite rdiv_ok by lra. cbn [bind]. apply sr2fwe_ok. 
    assert (exists i j, (i < b_n b)%nat /\ (j < b_n b)%nat /\ 0 < b_dl b i j) as (i & j & Hi & Hj' & Hpos).
    { destruct (Classical_Prop.classic (exists i j, (i < b_n b)%nat /\ (j < b_n b)%nat /\ 0 < b_dl b i j)) as [H|H]; [exact H|]. exfalso. assert (gsum (b_n b) (b_dl b) <= 0); [|lra]. unfold gsum. rewrite rsum_zero; [lra|]. intros i Hi. apply rsum_zero. intros j Hj'. apply Rle_antisym; [|now apply Hd]. destruct (Rle_lt_dec (b_dl b i j) 0); [assumption|]. exfalso. apply H. now exists i, j. }
    assert (N : forall i j, (i < b_n b)%nat -> (j < b_n b)%nat -> 0 <= b_dl b i j * b_pix b i j <= b_dl b i j). { intros k l Hk Hl. destruct (Hfa k l Hk Hl) as (_ & _ & P). specialize (Hd k l Hk Hl). nra. }
    split.
    - apply Rdiv_lt_0_compat; [|exact HS]. apply Rlt_le_trans with (b_dl b i j * b_pix b i j); [apply Rmult_lt_0_compat; [exact Hpos|now apply (Hfa i j)]|]. unfold gsum.
      eapply Rle_trans; [exact (rsum_term_le (b_n b) (fun l => b_dl b i l * b_pix b i l) j (fun l Hl => proj1 (N i l Hi Hl)) Hj')|].
      exact (rsum_term_le (b_n b) (fun k => rsum (b_n b) (fun l => b_dl b k l * b_pix b k l)) i (fun k Hk => rsum_nonneg (b_n b) _ (fun l Hl => proj1 (N k l Hk Hl))) Hi).
    - apply Rmult_le_reg_r with (gsum (b_n b) (b_dl b)); [exact HS|]. unfold Rdiv. rewrite Rmult_assoc, Rinv_l, Rmult_1_r, Rmult_1_l by lra. unfold gsum. apply rsum_le. intros k Hk. apply rsum_le. intros l Hl. now apply N. }
  destruct C7 as (p & E7).
  assert (C8 : exists a, psfr_ani b = Ok a). { unfold psfr_ani. destruct (b_ani b) as [d|] eqn:E; [|now exists 0]. destruct (C80_term (b_wvl b) (b_n b) (b_dl b) d Hw Hd HS) as (a & Ea & _); [intros i j Hi Hj'; now apply (Ha d eq_refl)|now exists a]. }
  destruct C8 as (a & E8).
  unfold psfr_breakdown. rewrite E1. cbn [bind]. rewrite E3. cbn [bind]. rewrite E4. cbn [bind]. rewrite E5. cbn [bind]. rewrite E6. cbn [bind]. rewrite E7. cbn [bind]. rewrite E8. cbn [bind]. eexists; reflexivity.
Qed.
Print Assumptions C80_defined.
Example C80_example : exists w, psfr_breakdown (mkPin 2 1 (fun _ _ => 1) [1; 2] 1 1 None (fun _ _ => 1) (fun _ _ => 2) 1 [1] 2 0 1 ((1, 0), (0, 1)) 3 1 4 None (fun _ _ => 1) (Some (fun _ _ => 1))) = Ok w.
Proof.
  apply C80_defined; cbn [b_n b_wvl b_dl b_ncpa b_atm_r0 b_atm_wvl b_r0 b_fit b_alias b_pn_ho b_cn_diag b_samp b_ang b_pn_tt b_cn_tt b_tr_cao b_tr_cn b_ncom b_jit b_pix b_ani fst snd]; try lra; try discriminate.
  - now left.
  - intros. repeat split; lra.
  - unfold gsum. cbn. lra.
  - intros. repeat split; lra.
  - intros x [ <-|[]]; lra.
  - intros d [= <-] i j _ _. lra.
Qed.
