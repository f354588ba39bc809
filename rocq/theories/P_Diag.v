(** C84: temporal transfer functions of the loops (systemDiagnosis). *)
From Coq Require Import Reals List Arith ZArith Lia Lra Psatz.
From Coq Require Import ZifyBool ZifyNat.
From Flocq Require Import Core.Raux.
From Verif Require Import Base_Py Base_Sum Base_DFT M_Image M_Tools M_Freq M_Atmo M_Model M_Model2 M_Diag L_Atmo L_Tools2 P_Psfr4 M_Tools M_Freq.
From Coquelicot Require Import Complex.
Import ListNotations.
Open Scope R_scope.

Lemma cdiv_inv a b c : cdiv a b = Ok c -> b <> RtoC 0 /\ c = Cdiv a b.
Proof. unfold cdiv. destruct (Ceq_dec b (RtoC 0)); [discriminate|]. intros H. apply Ok_inj in H. subst. split; [assumption|reflexivity]. Qed.

(** C84: at every frequency the closed loop and rejection transfer functions sum to one, the
    rejection is the inverse of 1 + open loop, the closed loop is the open loop times the
    rejection and the noise transfer is the servo times the rejection. The open loop is the
    product of the three elements; the delay does not change the modulus. *)
Theorem C84_closed_loop : forall fs lat num den f t, loop_tf fs lat num den f = Ok t ->
  t_ol t = Cmult (Cmult (t_wfs t) (t_servo t)) (t_lag t) /\
  Cplus (t_ctf t) (t_rtf t) = RtoC 1 /\ Cmult (t_rtf t) (Cplus (RtoC 1) (t_ol t)) = RtoC 1 /\
  t_ctf t = Cmult (t_ol t) (t_rtf t) /\ t_ntf t = Cmult (t_servo t) (t_rtf t) /\
  cabs2 (t_lag t) = 1.
Proof.
  intros fs lat num den f t H. unfold loop_tf in H.
  apply bindOk in H. destruct H as (w & Ew & H). apply bindOk in H. destruct H as (l & El & H). apply bindOk in H. destruct H as (s & Es & H).
  cbv zeta in H. apply bindOk in H. destruct H as (c & Ec & H). apply bindOk in H. destruct H as (n & En & H). apply Ok_inj in H. subst t. cbn [t_ol t_ctf t_rtf t_ntf t_servo t_lag t_wfs].
  apply cdiv_inv in Ec. destruct Ec as [N ->]. apply cdiv_inv in En. destruct En as [_ ->].
  set (ol := Cmult (Cmult w s) l) in *. assert (R1 : Cminus (RtoC 1) (Cdiv ol (Cplus (RtoC 1) ol)) = Cdiv (RtoC 1) (Cplus (RtoC 1) ol)) by (field; exact N).
  split; [reflexivity|]. split; [ring|]. rewrite R1. split; [field; exact N|]. split; [field; exact N|]. split; [field; exact N|].
  unfold delay_tf in El. apply bindOk in El. destruct El as (q & _ & El). apply Ok_inj in El. subst l. unfold cabs2, cis. cbn [fst snd]. generalize (sin2_cos2 q). unfold Rsqr. lra.
Qed.
Print Assumptions C84_closed_loop.

(** C84: the frequency grid of a loop with at least four exposures has nExp/2 samples and
    ends at the Nyquist frequency fs/2. *)
Theorem C84_grid : forall fs nExp fr, (4 <= nExp)%nat -> tf_freq fs nExp = Ok fr ->
  length fr = (nExp / 2)%nat /\ nth_error fr (nExp / 2 - 1) = Some (fs / 2) /\ nth_error fr 0 = Some ((fs / INR nExp) ^ 2).
Proof.
  intros fs nExp fr Hn H. unfold tf_freq in H. destruct (Nat.eqb_spec nExp 0); [lia|]. apply Ok_inj in H. subst fr.
  assert (N0 : INR nExp <> 0) by (apply not_0_INR; lia).
  assert (H2 : (2 <= nExp / 2)%nat) by (apply Nat.div_le_lower_bound; lia).
  assert (N1 : INR (nExp / 2 - 1) <> 0) by (apply not_0_INR; lia).
  unfold linspace. rewrite !map_length, seq_length. split; [reflexivity|].
  rewrite !nth_error_map. rewrite !(nth_error_nth' (seq 0 (nExp / 2)) 0%nat) by (rewrite seq_length; lia). rewrite !seq_nth by lia. cbn [option_map Nat.add INR].
  destruct (Nat.eqb_spec (nExp / 2) 1); [lia|]. split; f_equal; field; repeat split; assumption.
Qed.
Print Assumptions C84_grid.

(** C84 (finding): the first frequency is not the resolution fs/nExp, unless fs = nExp. *)
Theorem C84_first_frequency_refuted : forall fs nExp fr, (4 <= nExp)%nat -> 0 < fs -> tf_freq fs nExp = Ok fr ->
  (nth_error fr 0 = Some (fs / INR nExp) <-> fs = INR nExp).
Proof.
  intros fs nExp fr Hn Hf H. destruct (C84_grid fs nExp fr Hn H) as (_ & _ & E). rewrite E.
  assert (P : 0 < INR nExp) by (apply lt_0_INR; lia). split.
  - intros I. injection I as I. assert (Q : 0 < fs / INR nExp) by (apply Rdiv_lt_0_compat; assumption).
    assert (fs / INR nExp = 1) by nra. apply (Rmult_eq_reg_r (/ INR nExp)); [|apply Rinv_neq_0_compat; lra]. rewrite Rinv_r by lra. exact H0.
  - intros ->. f_equal. unfold Rdiv. rewrite Rinv_r by lra. ring.
Qed.
Print Assumptions C84_first_frequency_refuted.

Lemma trapz_sign : forall x y, (forall v, In v y -> 0 <= v) -> length y = length x ->
  (forall i a b, nth_error x i = Some a -> nth_error x (S i) = Some b -> a <= b) -> 0 <= trapz y x.
Proof.
  induction x as [|x0 x IH]; intros y Hy L Hx; [destruct y; [cbn; lra|discriminate]|].
  destruct y as [|y0 y]; [discriminate|]. destruct y as [|y1 y]; [cbn; lra|]. destruct x as [|x1 x]; [discriminate|].
  cbn [trapz]. pose proof (Hx 0%nat x0 x1 eq_refl eq_refl). pose proof (Hy y0 (or_introl eq_refl)). pose proof (Hy y1 (or_intror (or_introl eq_refl))).
  assert (0 <= trapz (y1 :: y) (x1 :: x)). { apply IH; [intros v Hv; apply Hy; right; exact Hv|cbn in *; lia|intros i a b Ha Hb; apply (Hx (S i)); assumption]. }
  assert (0 <= (x1 - x0) * (y0 + y1) / 2) by nra. cbn [trapz] in *. lra.
Qed.
Lemma trapz_neg : forall x y, (forall v, In v y -> 0 < v) -> length y = length x -> (2 <= length x)%nat ->
  (forall i a b, nth_error x i = Some a -> nth_error x (S i) = Some b -> b < a) -> trapz y x < 0.
Proof.
  induction x as [|x0 x IH]; intros y Hy L L2 Hx; [cbn in L2; lia|].
  destruct y as [|y0 y]; [discriminate|]. destruct x as [|x1 x]; [cbn in L2; lia|]. destruct y as [|y1 y]; [discriminate|].
  cbn [trapz]. pose proof (Hx 0%nat x0 x1 eq_refl eq_refl). pose proof (Hy y0 (or_introl eq_refl)). pose proof (Hy y1 (or_intror (or_introl eq_refl))).
  assert ((x1 - x0) * (y0 + y1) / 2 < 0) by nra.
  destruct x as [|x2 x].
  - destruct y as [|y2 y]; [cbn; lra|discriminate].
  - assert (trapz (y1 :: y) (x1 :: x2 :: x) < 0). { apply IH; [intros v Hv; apply Hy; right; exact Hv|cbn in *; lia|cbn; lia|intros i a b Ha Hb; apply (Hx (S i)); assumption]. }
    cbn [trapz] in *. lra.
Qed.
Lemma Some_inj {A} (a b : A) : Some a = Some b -> a = b.
Proof. intros H; congruence. Qed.
Lemma tf_freq_step fs nExp fr i a b : (0 < nExp)%nat -> tf_freq fs nExp = Ok fr -> nth_error fr i = Some a -> nth_error fr (S i) = Some b ->
  (2 <= nExp / 2)%nat /\ b - a = (INR nExp / 2 - fs / INR nExp) / INR (nExp / 2 - 1) * fs / INR nExp.
Proof.
  intros Hn H Ha Hb. unfold tf_freq in H. destruct (Nat.eqb_spec nExp 0); [lia|]. apply Ok_inj in H. subst fr.
  assert (Hi : (S i < nExp / 2)%nat). { assert (H : nth_error (map (fun x => x * fs / INR nExp) (linspace (fs / INR nExp) (INR nExp / 2) (nExp / 2))) (S i) <> None) by (rewrite Hb; discriminate). apply nth_error_Some in H. unfold linspace in H. rewrite !map_length, seq_length in H. exact H. }
  split; [lia|]. unfold linspace in Ha, Hb. rewrite !nth_error_map in Ha, Hb.
  rewrite (nth_error_nth' (seq 0 (nExp / 2)) 0%nat) in Ha by (rewrite seq_length; lia).
  rewrite (nth_error_nth' (seq 0 (nExp / 2)) 0%nat) in Hb by (rewrite seq_length; lia).
  rewrite seq_nth in Ha by lia. rewrite seq_nth in Hb by lia. cbn [option_map Nat.add] in Ha, Hb.
  destruct (Nat.eqb_spec (nExp / 2) 1); [lia|]. apply Some_inj in Ha. apply Some_inj in Hb. subst a b.
  rewrite S_INR. field. split; apply not_0_INR; lia.
Qed.
Lemma loop_inv fs lat num den nExp fr t pn : loop_model fs lat num den nExp = Ok (fr, t, pn) ->
  tf_freq fs nExp = Ok fr /\ mapM (loop_tf fs lat num den) fr = Ok t /\ pn = trapz (map (fun x => cabs2 (t_ntf x)) t) fr * 2 / fs /\ fs <> 0.
Proof.
  intros H. unfold loop_model in H. apply bindOk in H. destruct H as (fr' & Ef & H). apply bindOk in H. destruct H as (t' & Et & H). apply bindOk in H. destruct H as (pn' & Ep & H).
  apply Ok_inj in H. injection H as -> -> ->. unfold rdiv in Ep. destruct (Req_EM_T fs 0); [discriminate|]. apply Ok_inj in Ep. subst. repeat split; assumption.
Qed.
Lemma mapM_length' {A B} (f : A -> result B) : forall l r, mapM f l = Ok r -> length r = length l.
Proof. induction l as [|a l IH]; intros r H; [apply Ok_inj in H; subst; reflexivity|]. cbn [mapM] in H. apply bindOk in H. destruct H as (b & _ & H). apply bindOk in H. destruct H as (s & Es & H). apply Ok_inj in H. subst r. cbn. f_equal. apply IH. exact Es. Qed.
Lemma mapM_in {A B} (f : A -> result B) : forall l r, mapM f l = Ok r -> forall b, In b r -> exists a, In a l /\ f a = Ok b.
Proof. induction l as [|a l IH]; intros r H b Hb; [apply Ok_inj in H; subst; destruct Hb|]. cbn [mapM] in H. apply bindOk in H. destruct H as (b' & Eb & H). apply bindOk in H. destruct H as (s & Es & H). apply Ok_inj in H. subst r. destruct Hb as [<-|Hb]; [exists a; split; [left; reflexivity|exact Eb]|]. destruct (IH s Es b Hb) as (a' & I & E). exists a'. split; [right; exact I|exact E]. Qed.
Lemma cabs2_nn c : 0 <= cabs2 c. Proof. unfold cabs2. nra. Qed.

(** C84: the noise propagation coefficient is non-negative when the telemetry is long
    enough, 2 fs <= nExp^2. *)
Theorem C84_noise_gain : forall fs lat num den nExp fr t pn,
  0 < fs -> 2 * fs <= INR nExp ^ 2 -> loop_model fs lat num den nExp = Ok (fr, t, pn) -> 0 <= pn.
Proof.
  intros fs lat num den nExp fr t pn Hf Hn H. destruct (loop_inv _ _ _ _ _ _ _ _ H) as (Ef & Et & -> & _).
  assert (Hn0 : (0 < nExp)%nat) by (destruct nExp; [cbn in Hn; lra|lia]). assert (P : 0 < INR nExp) by (apply lt_0_INR; lia).
  assert (0 <= trapz (map (fun x => cabs2 (t_ntf x)) t) fr).
  { apply trapz_sign.
    - intros v Hv. apply in_map_iff in Hv. destruct Hv as (x & <- & _). apply cabs2_nn.
    - rewrite map_length. apply (mapM_length' _ _ _ Et).
    - intros i a b Ha Hb. destruct (tf_freq_step fs nExp fr i a b Hn0 Ef Ha Hb) as [H2 E].
      assert (P1 : 0 < INR (nExp / 2 - 1)) by (apply lt_0_INR; lia).
      assert (0 <= INR nExp / 2 - fs / INR nExp). { apply Rmult_le_reg_r with (2 * INR nExp); [lra|]. rewrite Rmult_0_l. replace ((INR nExp / 2 - fs / INR nExp) * (2 * INR nExp)) with (INR nExp ^ 2 - 2 * fs) by (field; lra). lra. }
      assert (0 <= b - a); [|lra]. rewrite E. unfold Rdiv. apply Rmult_le_pos; [apply Rmult_le_pos; [apply Rmult_le_pos; [exact H0|]|lra]|]; apply Rlt_le, Rinv_0_lt_compat; assumption. }
  unfold Rdiv. apply Rmult_le_pos; [lra|]. apply Rlt_le, Rinv_0_lt_compat. exact Hf.
Qed.
Print Assumptions C84_noise_gain.

(** C84 (finding): with a shorter telemetry the grid of frequencies runs backwards and the
    noise propagation of any loop with a pure gain controller is negative. *)
Theorem C84_noise_gain_refuted : forall fs lat g nExp fr t pn,
  0 < fs -> (4 <= nExp)%nat -> INR nExp ^ 2 < 2 * fs -> g <> 0 -> loop_model fs lat [g; 0; 0; 0] [0; 0; 0] nExp = Ok (fr, t, pn) -> pn < 0.
Proof.
  intros fs lat g nExp fr t pn Hf H4 Hn Hg H. destruct (loop_inv _ _ _ _ _ _ _ _ H) as (Ef & Et & -> & _).
  assert (P : 0 < INR nExp) by (apply lt_0_INR; lia).
  assert (trapz (map (fun x => cabs2 (t_ntf x)) t) fr < 0).
  { apply trapz_neg.
    - intros v Hv. apply in_map_iff in Hv. destruct Hv as (x & <- & Ix). destruct (mapM_in _ _ _ Et x Ix) as (f & _ & Ex).
      destruct (C84_closed_loop _ _ _ _ _ _ Ex) as (_ & _ & R1 & _ & N & _).
      assert (S1 : t_servo x = RtoC g).
      { unfold loop_tf in Ex. apply bindOk in Ex. destruct Ex as (w & Ew & Ex). apply bindOk in Ex. destruct Ex as (l & El & Ex). apply bindOk in Ex. destruct Ex as (s & Es & Ex). cbv zeta in Ex. apply bindOk in Ex. destruct Ex as (c & Ec & Ex). apply bindOk in Ex. destruct Ex as (n & En & Ex). apply Ok_inj in Ex. subst x. cbn [t_servo].
        unfold servo_tf in Es. apply bindOk in Es. destruct Es as (q & _ & Es). cbv zeta in Es. apply cdiv_inv in Es. destruct Es as [Nz ->]. field_simplify; [reflexivity|]. apply C1_nz || (intros E; apply RtoC_inj in E; lra). }
      assert (t_ntf x <> RtoC 0). { rewrite N, S1. intros E. assert (t_rtf x = RtoC 0). { replace (t_rtf x) with (Cmult (Cmult (RtoC g) (t_rtf x)) (Cinv (RtoC g))) by (field; intros G; apply RtoC_inj in G; lra). rewrite E. ring. } rewrite H0 in R1. rewrite Cmult_0_l in R1. apply RtoC_inj in R1. lra. }
      unfold cabs2. destruct (t_ntf x) as [p q]. cbn [fst snd]. destruct (Req_dec p 0) as [->|Np]; [destruct (Req_dec q 0) as [->|Nq]; [exfalso; apply H0; reflexivity|nra]|nra].
    - rewrite map_length. apply (mapM_length' _ _ _ Et).
    - destruct (C84_grid fs nExp fr H4 Ef) as (L & _). rewrite L. apply Nat.div_le_lower_bound; lia.
    - intros i a b Ha Hb. destruct (tf_freq_step fs nExp fr i a b ltac:(lia) Ef Ha Hb) as [H2 E].
      assert (P1 : 0 < INR (nExp / 2 - 1)) by (apply lt_0_INR; lia).
      assert (K : 0 < fs / INR nExp - INR nExp / 2). { apply Rmult_lt_reg_r with (2 * INR nExp); [lra|]. rewrite Rmult_0_l. replace ((fs / INR nExp - INR nExp / 2) * (2 * INR nExp)) with (2 * fs - INR nExp ^ 2) by (field; lra). lra. }
      assert (0 < a - b); [|lra]. replace (a - b) with ((fs / INR nExp - INR nExp / 2) * / INR (nExp / 2 - 1) * fs * / INR nExp) by (replace (a - b) with (- (b - a)) by ring; rewrite E; unfold Rdiv; ring).
      repeat apply Rmult_lt_0_compat; try assumption; apply Rinv_0_lt_compat; assumption. }
  unfold Rdiv. assert (0 < / fs) by (apply Rinv_0_lt_compat; exact Hf). nra.
Qed.
Print Assumptions C84_noise_gain_refuted.

(** modulus of the sensor element at most one *)
Lemma wfs_le1 f fs w : wfs_tf f fs = Ok w -> cabs2 w <= 1.
Proof.
  unfold wfs_tf. intros H. apply bindOk in H. destruct H as (x & _ & H). apply Ok_inj in H. subst w.
  assert (S1 : (sinc (x / PI)) ^ 2 <= 1). { pose proof (sinc_abs (x / PI)) as H. apply Raux.Rabs_le_inv in H. nra. }
  unfold cabs2, Cmult, RtoC, cis. cbn [fst snd]. generalize (sin2_cos2 (- x)). unfold Rsqr. intros E. nra.
Qed.

(** C84: a pure gain below one gives finite transfer functions at every frequency, and a
    zero gain rejects nothing. *)
Theorem C84_gain_defined : forall fs lat g nExp, 0 < fs -> Rabs g < 1 -> (0 < nExp)%nat -> exists fr t pn,
  loop_model fs lat [g; 0; 0; 0] [0; 0; 0] nExp = Ok (fr, t, pn) /\ (g = 0 -> pn = 0 /\ forall x, In x t -> t_ctf x = RtoC 0 /\ t_rtf x = RtoC 1).
Proof.
  intros fs lat g nExp Hf Hg Hn.
  assert (K : forall f, exists x, loop_tf fs lat [g; 0; 0; 0] [0; 0; 0] f = Ok x /\ t_servo x = RtoC g).
  { intros f. unfold loop_tf.
    assert (exists w, wfs_tf f fs = Ok w) as (w & Ew) by (unfold wfs_tf; rewrite rdiv_ok by lra; cbn [bind]; eauto). pose proof (wfs_le1 _ _ _ Ew) as Bw. rewrite Ew. cbn [bind].
    assert (exists l, delay_tf f fs (lat * fs) = Ok l /\ cabs2 l = 1) as (l & El & Bl). { unfold delay_tf. rewrite rdiv_ok by lra. cbn [bind]. eexists. split; [reflexivity|]. unfold cabs2, cis. cbn [fst snd]. generalize (sin2_cos2 (- (2 * f * (lat * fs)) / fs)). unfold Rsqr. lra. }
    rewrite El. cbn [bind].
    assert (servo_tf f fs [g; 0; 0; 0] [0; 0; 0] = Ok (RtoC g)) as ->.
    { unfold servo_tf. rewrite rdiv_ok by lra. cbn [bind]. cbv zeta. set (z := cis _). unfold cdiv.
      assert (E1 : Cplus (Cplus (Cplus (RtoC 1) (Cmult (RtoC 0) z)) (Cmult (RtoC 0) (Cmult z z))) (Cmult (RtoC 0) (Cmult z (Cmult z z))) = RtoC 1) by ring. rewrite E1.
      destruct (Ceq_dec (RtoC 1) (RtoC 0)) as [E|_]; [apply RtoC_inj in E; lra|]. f_equal. field. intros E; apply RtoC_inj in E; lra. }
    cbn [bind]. cbv zeta. set (ol := Cmult (Cmult w (RtoC g)) l).
    assert (Bo : cabs2 ol < 1). { assert (cabs2 ol = cabs2 w * (g * g) * cabs2 l) by (unfold ol, cabs2, Cmult, RtoC; cbn [fst snd]; ring). rewrite H, Bl. assert (g * g < 1). { apply Rabs_def2 in Hg. nra. } pose proof (cabs2_nn w). nra. }
    assert (N : Cplus (RtoC 1) ol <> RtoC 0). { intros E. destruct ol as [p q]. unfold Cplus, RtoC in E. cbn [fst snd] in E. injection E as E1 E2. unfold cabs2 in Bo. cbn [fst snd] in Bo. assert (p = -1) by lra. nra. }
    unfold cdiv. destruct (Ceq_dec (Cplus (RtoC 1) ol) (RtoC 0)); [contradiction|]. cbn [bind]. eexists. split; reflexivity. }
  assert (exists fr, tf_freq fs nExp = Ok fr) as (fr & Ef) by (unfold tf_freq; destruct (Nat.eqb_spec nExp 0); [lia|]; eauto).
  assert (exists t, mapM (loop_tf fs lat [g; 0; 0; 0] [0; 0; 0]) fr = Ok t) as (t & Et).
  { clear Ef. induction fr as [|f fr (t & IH)]; [exists []; reflexivity|]. destruct (K f) as (x & Ex & _). cbn [mapM]. rewrite Ex, IH. cbn [bind]. eauto. }
  exists fr, t. unfold loop_model. rewrite Ef. cbn [bind]. rewrite Et. cbn [bind]. rewrite rdiv_ok by lra. cbn [bind]. eexists. split; [reflexivity|].
  intros ->. assert (Z : forall x, In x t -> t_ctf x = RtoC 0 /\ t_rtf x = RtoC 1 /\ t_ntf x = RtoC 0).
  { intros x Ix. destruct (mapM_in _ _ _ Et x Ix) as (f & _ & Ex). destruct (K f) as (x' & Ex' & S0). rewrite Ex in Ex'. apply Ok_inj in Ex'. subst x'.
    destruct (C84_closed_loop _ _ _ _ _ _ Ex) as (O & C & R1 & C2 & N & _). assert (O0 : t_ol x = RtoC 0) by (rewrite O, S0; ring). split; [rewrite C2, O0; ring|]. split; [|rewrite N, S0; ring]. rewrite O0 in R1. rewrite <- R1. ring. }
  split.
  - assert (trapz (map (fun x => cabs2 (t_ntf x)) t) fr = 0) as ->; [|unfold Rdiv; ring].
    clear Et Ef. revert fr. induction t as [|x t IH]; intros fr; [reflexivity|]. destruct t as [|x1 t]; [destruct fr; reflexivity|]. destruct fr as [|f0 [|f1 fr]]; try reflexivity.
    cbn [map trapz]. rewrite (proj2 (proj2 (Z x (or_introl eq_refl)))), (proj2 (proj2 (Z x1 (or_intror (or_introl eq_refl))))).
    specialize (IH (fun y Hy => Z y (or_intror Hy)) (f1 :: fr)). cbn [map trapz] in IH. rewrite (proj2 (proj2 (Z x1 (or_intror (or_introl eq_refl))))) in IH. rewrite IH. unfold cabs2, RtoC. cbn [fst snd]. lra.
  - intros x Ix. split; apply (Z x Ix).
Qed.
Print Assumptions C84_gain_defined.

(** C84 (finding): the delay and the exposure elements miss a factor pi: a delay of one
    sample is not the unit delay z^-1 used by the servo, and the sensor does not average out
    a signal at its own sampling frequency. *)
Theorem C84_pi_refuted : forall fs, 0 < fs ->
  (exists l, delay_tf (fs / 2) fs 1 = Ok l /\ l <> cis (- (2 * PI * (fs / 2)) / fs)) /\
  (exists w, wfs_tf fs fs = Ok w /\ w <> RtoC 0).
Proof.
  intros fs Hf. split.
  - unfold delay_tf. rewrite rdiv_ok by lra. cbn [bind]. eexists. split; [reflexivity|]. intros E. unfold cis in E. injection E as E _.
    replace (- (2 * (fs / 2) * 1) / fs) with (- (1)) in E by (field; lra). replace (- (2 * PI * (fs / 2)) / fs) with (- PI) in E by (field; lra). rewrite !cos_neg, cos_PI in E.
    assert (0 < cos 1) by (apply cos_gt_0; generalize PI2_1; lra). lra.
  - unfold wfs_tf. rewrite rdiv_ok by lra. cbn [bind]. eexists. split; [reflexivity|]. replace (fs / fs) with 1 by (field; lra).
    intros E. unfold sinc in E. destruct (Req_EM_T (1 / PI) 0) as [Z|Z]; [generalize PI_RGT_0; intros; assert (0 < 1 / PI) by (apply Rdiv_lt_0_compat; lra); lra|].
    replace (PI * (1 / PI)) with 1 in E by (field; generalize PI_RGT_0; lra).
    unfold Cmult, RtoC, cis in E. cbn [fst snd] in E. injection E as E _.
    assert (0 < sin 1) by (apply sin_gt_0; generalize PI2_1; lra). assert (0 < cos (- (1))) by (rewrite cos_neg; apply cos_gt_0; generalize PI2_1; lra). nra.
Qed.
Print Assumptions C84_pi_refuted.

Example C84_nonvacuous : exists fr t pn, loop_model 1000 0.001 [0.5; 0; 0; 0] [0; 0; 0] 40 = Ok (fr, t, pn) /\ pn < 0.
Proof.
  destruct (C84_gain_defined 1000 0.001 0.5 40) as (fr & t & pn & E & _); [lra|rewrite Rabs_right; lra|lia|]. exists fr, t, pn. split; [exact E|].
  apply (C84_noise_gain_refuted 1000 0.001 0.5 40 fr t pn); try lra; try lia; try exact E. cbn [INR]. lra.
Qed.
