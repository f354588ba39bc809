(** C86: autocorrelation of the modes (systemDiagnosis.get_wind_speed). *)
From Coq Require Import Reals List Arith ZArith Lia Lra Psatz.
From Coq Require Import ZifyBool ZifyNat.
From Verif Require Import Base_Py Base_Sum Base_DFT M_Image M_Tools M_Freq M_Atmo M_Model M_Model2 M_Diag L_Atmo L_Tools2 L_Model3 M_Tools.
From Coquelicot Require Import Complex.
Import ListNotations.
Open Scope R_scope.

Lemma cabs2_conj c : RtoC (cabs2 c) = Cmult c (Cconj c).
Proof. apply C_eq; unfold cabs2, Cmult, Cconj, RtoC; cbn [fst snd]; ring. Qed.

Lemma autocorr_core M (p : nat -> R) k : (0 < M)%nat ->
  idft1 M (fun q => RtoC (cabs2 (dft1 M (fun t => RtoC (p t)) q))) k =
  csum M (fun a => csum M (fun b => Cmult (RtoC (p a * p b)) (if ((Z.of_nat a - Z.of_nat b - Z.of_nat k) mod Z.of_nat M =? 0)%Z then RtoC 1 else RtoC 0))).
Proof.
  intros HM. assert (HI : INR M <> 0) by (apply not_0_INR; lia). unfold idft1.
  rewrite (csum_ext M _ (fun q => csum M (fun a => csum M (fun b => Cmult (RtoC (p a * p b)) (W M ((Z.of_nat a - Z.of_nat b - Z.of_nat k) * Z.of_nat q)))))).
  - rewrite csum_swap. rewrite <- csum_scal. apply csum_ext. intros a Ha.
    rewrite csum_swap. rewrite <- csum_scal. apply csum_ext. intros b Hb. rewrite csum_scal.
    rewrite W_orth by exact HM. destruct (Z.eqb_spec ((Z.of_nat a - Z.of_nat b - Z.of_nat k) mod Z.of_nat M) 0).
    + apply C_eq; unfold Cmult, RtoC; cbn [fst snd]; field; exact HI.
    + apply C_eq; unfold Cmult, RtoC; cbn [fst snd]; ring.
  - intros q Hq. rewrite cabs2_conj. unfold dft1 at 1. rewrite <- csum_scal_r. rewrite <- csum_scal_r. apply csum_ext. intros a Ha.
    unfold dft1. rewrite csum_conj. rewrite <- csum_scal. rewrite <- csum_scal_r. apply csum_ext. intros b Hb.
    rewrite Cconj_mult, Cconj_RtoC, W_conj.
    replace ((Z.of_nat a - Z.of_nat b - Z.of_nat k) * Z.of_nat q)%Z with (Z.of_nat q * Z.of_nat a + (- (Z.of_nat q * Z.of_nat b) + - (Z.of_nat k * Z.of_nat q)))%Z by ring.
    rewrite !W_add. rewrite RtoC_mult. ring.
Qed.

(** C86: the autocorrelation computed with zero-padded FFTs is the biased, non-cyclic one:
    the mean over the record of the products of samples k frames apart. *)
Theorem C86_autocorrelation : forall N z k, (k < N)%nat ->
  autocorr N z k = rsum (N - k) (fun t => z t * z (t + k)%nat) / INR N.
Proof.
  intros N z k Hk. unfold autocorr. cbv zeta. f_equal.
  set (p := fun t => if (t <? N)%nat then z t else 0).
  change (fst (idft1 (2 * N) (fun q => RtoC (cabs2 (dft1 (2 * N) (fun t => RtoC (p t)) q))) k) = rsum (N - k) (fun t => z t * z (t + k)%nat)).
  rewrite (autocorr_core (2 * N) p k) by lia.
  rewrite csum_Re.
  rewrite (rsum_ext _ _ (fun a => rsum (2 * N) (fun b => p a * p b * (if ((Z.of_nat a - Z.of_nat b - Z.of_nat k) mod Z.of_nat (2 * N) =? 0)%Z then 1 else 0)))).
  2:{ intros a Ha. rewrite csum_Re. apply rsum_ext. intros b Hb. destruct ((Z.of_nat a - Z.of_nat b - Z.of_nat k) mod Z.of_nat (2 * N) =? 0)%Z; unfold Cmult, RtoC; cbn [fst snd]; ring. }
  rewrite rsum_swap.
  rewrite (rsum_ext _ _ (fun b => p b * p (b + k)%nat)).
  - replace (2 * N)%nat with ((N - k) + (N + k))%nat by lia. rewrite rsum_app.
    rewrite (rsum_zero (N + k)).
    + rewrite Rplus_0_r. apply rsum_ext. intros t Ht. unfold p. destruct (Nat.ltb_spec t N); [|lia]. destruct (Nat.ltb_spec (t + k) N); [reflexivity|lia].
    + intros t Ht. unfold p. destruct (Nat.ltb_spec (N - k + t + k) N); [lia|]. ring.
  - intros b Hb. unfold p at 2. destruct (Nat.ltb_spec b N) as [Hl|Hl].
    + rewrite (rsum_single _ (b + k)%nat).
      * replace (Z.of_nat (b + k) - Z.of_nat b - Z.of_nat k)%Z with 0%Z by lia. rewrite Z.mod_0_l by lia. cbn [Z.eqb]. unfold p. destruct (Nat.ltb_spec b N); [|lia]. ring.
      * lia.
      * intros a Ha Hne. destruct (Z.eqb_spec ((Z.of_nat a - Z.of_nat b - Z.of_nat k) mod Z.of_nat (2 * N)) 0) as [E|E]; [|ring].
        unfold p. destruct (Nat.ltb_spec a N) as [Ha'|Ha']; [|ring]. exfalso. apply Z.mod_divide in E; [|lia]. destruct E as (c & Ec). assert (c = 0)%Z by nia. subst c. lia.
    + rewrite (rsum_zero (2 * N)) by (intros; ring). unfold p. destruct (Nat.ltb_spec b N); [lia|]. ring.
Qed.
Print Assumptions C86_autocorrelation.

(** C86: it is largest at lag zero, where it is the mean square. *)
Theorem C86_autocorrelation_max : forall N z k, (k < N)%nat ->
  autocorr N z 0 = rsum N (fun t => z t ^ 2) / INR N /\ Rabs (autocorr N z k) <= autocorr N z 0.
Proof.
  intros N z k Hk. assert (P : 0 < INR N) by (apply lt_0_INR; lia). assert (Pi : 0 < / INR N) by (apply Rinv_0_lt_compat; exact P).
  assert (E0 : autocorr N z 0 = rsum N (fun t => z t ^ 2) / INR N). { rewrite C86_autocorrelation by lia. rewrite Nat.sub_0_r. f_equal. apply rsum_ext. intros t Ht. rewrite Nat.add_0_r. ring. }
  split; [exact E0|]. rewrite E0, C86_autocorrelation by lia. unfold Rdiv. rewrite Rabs_mult, (Rabs_right (/ INR N)) by lra. apply Rmult_le_compat_r; [lra|].
  eapply Rle_trans; [apply rsum_Rabs|].
  apply Rle_trans with (rsum (N - k) (fun t => / 2 * z t ^ 2 + / 2 * z (t + k)%nat ^ 2)).
  - apply rsum_le. intros t Ht. rewrite Rabs_mult. rewrite <- (pow2_abs (z t)), <- (pow2_abs (z (t + k)%nat)). pose proof (pow2_ge_0 (Rabs (z t) - Rabs (z (t + k)%nat))). lra.
  - rewrite rsum_plus, !rsum_scal.
    assert (A : rsum (N - k) (fun t => z t ^ 2) <= rsum N (fun t => z t ^ 2)). { replace N with ((N - k) + k)%nat at 2 by lia. rewrite rsum_app. assert (0 <= rsum k (fun i => z (N - k + i)%nat ^ 2)) by (apply rsum_nonneg; intros; apply pow2_ge_0). lra. }
    assert (B : rsum (N - k) (fun t => z (t + k)%nat ^ 2) <= rsum N (fun t => z t ^ 2)). { replace N with (k + (N - k))%nat at 2 by lia. rewrite rsum_app. assert (0 <= rsum k (fun i => z i ^ 2)) by (apply rsum_nonneg; intros; apply pow2_ge_0). rewrite (rsum_ext (N - k) (fun t => z (t + k)%nat ^ 2) (fun i => z (k + i)%nat ^ 2)) by (intros; f_equal; f_equal; lia). lra. }
    lra.
Qed.
Print Assumptions C86_autocorrelation_max.

(** C86: without noise subtraction the normalised autocorrelation of a non-zero record starts
    at one and stays within [-1, 1], so the first sample below a threshold under one is at a
    positive lag. *)
Theorem C86_normalised : forall N z vn c thres k0, (0 < N)%nat -> (exists t, (t < N)%nat /\ z t <> 0) -> thres <= 1 ->
  norm_cov N z 0 vn = Ok c ->
  length c = N /\ nth_error c 0 = Some 1 /\ (forall k v, nth_error c k = Some v -> v = autocorr N z k / autocorr N z 0 /\ -1 <= v <= 1) /\
  (first_below thres c 0 = Ok k0 -> (1 <= k0 < N)%nat /\ (forall k v, (k < k0)%nat -> nth_error c k = Some v -> thres <= v) /\ exists v, nth_error c k0 = Some v /\ v < thres).
Proof.
  intros N z vn c thres k0 Hn (t0 & Ht0 & Nz) Hth H. unfold norm_cov in H. destruct (Nat.eqb_spec N 0); [lia|]. cbn [bind] in H.
  assert (A0 : 0 < autocorr N z 0). { rewrite (proj1 (C86_autocorrelation_max N z 0 Hn)). apply Rdiv_lt_0_compat; [|apply lt_0_INR; lia]. assert (Q : z t0 ^ 2 <= rsum N (fun t => z t ^ 2)) by (apply (rsum_term_le N (fun t => z t ^ 2) t0); [intros; apply pow2_ge_0|exact Ht0]). assert (0 < z t0 ^ 2) by (cbn [pow]; rewrite Rmult_1_r; apply Rsqr_pos_lt; exact Nz). lra. }
  assert (E : c = map (fun k => autocorr N z k / autocorr N z 0) (seq 0 N)).
  { clear k0. revert c H. generalize (seq 0 N). intros l. induction l as [|k l IH]; intros c H; [apply Ok_inj in H; subst; reflexivity|]. cbn [mapM] in H. apply bindOk in H. destruct H as (v & Ev & H). apply bindOk in H. destruct H as (c' & Ec & H). apply Ok_inj in H. subst c. cbn [map]. f_equal; [|apply IH; exact Ec].
    replace (autocorr N z 0 - 0 * vn) with (autocorr N z 0) in Ev by ring. replace (autocorr N z k - 0 * vn) with (autocorr N z k) in Ev by ring. rewrite rdiv_ok in Ev by lra. apply Ok_inj in Ev. symmetry. exact Ev. }
  assert (L : length c = N) by (rewrite E, map_length, seq_length; reflexivity).
  assert (V : forall k v, nth_error c k = Some v -> v = autocorr N z k / autocorr N z 0 /\ -1 <= v <= 1).
  { intros k v Hv. assert (Hk : (k < N)%nat) by (rewrite <- L; apply nth_error_Some; congruence). rewrite E, nth_error_map in Hv. rewrite (nth_error_nth' _ 0%nat) in Hv by (rewrite seq_length; lia). rewrite seq_nth in Hv by lia. cbn [option_map Nat.add] in Hv. injection Hv as <-. split; [reflexivity|].
    destruct (C86_autocorrelation_max N z k Hk) as [_ B].
    assert (B' : - autocorr N z 0 <= autocorr N z k <= autocorr N z 0). { clear - B. unfold Rabs in B. destruct (Rcase_abs (autocorr N z k)); lra. }
    split; [apply Rmult_le_reg_r with (autocorr N z 0); [exact A0|]|apply Rmult_le_reg_r with (autocorr N z 0); [exact A0|]]; unfold Rdiv; rewrite Rmult_assoc, Rinv_l, Rmult_1_r by lra; lra. }
  split; [exact L|]. assert (C0 : nth_error c 0 = Some 1). { rewrite E. destruct N; [lia|]. cbn [seq map nth_error]. f_equal. field. lra. } split; [exact C0|]. split; [exact V|].
  intros F.
  assert (G : forall l s k0, first_below thres l s = Ok k0 -> (s <= k0)%nat /\ (forall k v, (k < k0 - s)%nat -> nth_error l k = Some v -> thres <= v) /\ exists v, nth_error l (k0 - s) = Some v /\ v < thres).
  { clear. induction l as [|x l IH]; intros s k0 H; [discriminate|]. cbn [first_below] in H. destruct (Rlt_dec x thres) as [Hx|Hx].
    - apply Ok_inj in H. subst k0. rewrite Nat.sub_diag. split; [lia|]. split; [intros; lia|]. exists x. split; [reflexivity|exact Hx].
    - destruct (IH (S s) k0 H) as (A & B & v & C & D). split; [lia|]. replace (k0 - s)%nat with (S (k0 - S s)) by lia. split; [|exists v; split; [exact C|exact D]]. intros [|k] w Hk Hw; [cbn in Hw; injection Hw as <-; lra|]. cbn in Hw. apply (B k w); [lia|exact Hw]. }
  destruct (G c 0%nat k0 F) as (_ & B & v & C & D). rewrite Nat.sub_0_r in B, C.
  assert (Hk0 : (k0 < N)%nat) by (rewrite <- L; apply nth_error_Some; congruence).
  split; [|split; [exact B|exists v; split; assumption]]. destruct k0 as [|k0]; [|lia]. rewrite C0 in C. injection C as <-. lra.
Qed.
Print Assumptions C86_normalised.

Example C86_ex : autocorr 2 (fun t => if (t =? 0)%nat then 1 else 2) 1 = 1.
Proof. rewrite C86_autocorrelation by lia. cbn. lra. Qed.
