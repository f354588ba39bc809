(** Property C124: Zernike coefficients, actuators and photons from telemetry. *)
From Coq Require Import Reals List Arith ZArith Bool Lia Lra Permutation Sorted.
From Flocq Require Import Core.Raux.
From Verif Require Import Base_Py Base_Sum M_Image M_Tools M_Atmo M_Freq M_Metric M_Diag M_Diag2 L_Tools L_Atmo L_Flux L_Image2 L_Metric P_Diag5 P_Deep P_Deep2.
Import ListNotations.
Open Scope R_scope.

(** * Covariances *)
(** Whatever is reconstructed, the result is a covariance matrix: square, symmetric, nonnegative on every combination of modes. *)
Lemma quad_sum n m (c : nat -> nat -> R) (w : nat -> R) : rsum n (fun i => rsum n (fun j => w i * w j * rsum m (fun t => c i t * c j t))) = rsum m (fun t => (rsum n (fun i => w i * c i t)) ^ 2).
Proof.
  transitivity (rsum m (fun t => rsum n (fun i => rsum n (fun j => (w i * c i t) * (w j * c j t))))).
  - rewrite (rsum_swap m n). apply rsum_ext. intros i _. rewrite (rsum_swap m n). apply rsum_ext. intros j _. rewrite <- rsum_scal. apply rsum_ext. intros t _. ring.
  - apply rsum_ext. intros t _. cbn [pow]. rewrite Rmult_1_r. rewrite <- rsum_scal_r. apply rsum_ext. intros i _. rewrite <- rsum_scal. reflexivity.
Qed.
Definition is_covariance (C : img) : Prop :=
  rows C = cols C /\ (forall i j, px C i j = px C j i) /\ forall w, 0 <= rsum (rows C) (fun i => rsum (rows C) (fun j => w i * w j * px C i j)).
Lemma cov_rows_cov c nExp C : 0 < nExp -> cov_rows c nExp = Ok C -> is_covariance C.
Proof.
  intros H E. unfold cov_rows in E. destruct (Req_EM_T nExp 0); [lra|]. apply Ok_inj in E. subst C. split; [reflexivity|]. cbn [rows cols px]. split.
  - intros i j. f_equal. apply rsum_ext. intros t _. ring.
  - intros w. replace (rsum (rows c) (fun i => rsum (rows c) (fun j => w i * w j * (rsum (cols c) (fun t => px c i t * px c j t) / nExp)))) with (/ nExp * rsum (rows c) (fun i => rsum (rows c) (fun j => w i * w j * rsum (cols c) (fun t => px c i t * px c j t)))).
    + rewrite quad_sum. apply Rmult_le_pos; [left; apply Rinv_0_lt_compat, H|]. apply rsum_nonneg. intros t _. apply pow2_ge_0.
    + rewrite <- rsum_scal. apply rsum_ext. intros i _. rewrite <- rsum_scal. apply rsum_ext. intros j _. unfold Rdiv. ring.
Qed.
Theorem C124_covariance : forall u2z iF valid pitch nActu Din Dout nZer dt nExp com res lgs tt nExp_tt Cho Ctt, 0 < nExp -> 0 < nExp_tt ->
  reconstruct_zernike u2z iF valid pitch nActu Din Dout nZer dt nExp com res lgs tt nExp_tt = Ok (Cho, Ctt) -> is_covariance Cho /\ is_covariance Ctt.
Proof.
  intros u2z iF valid pitch nActu Din Dout nZer dt nExp com res lgs tt nExp_tt Cho Ctt H1 H2 E. unfold reconstruct_zernike in E. destruct (select_actuators _ _ _ _ _ _) as [s|]; cbn [bind] in E; [|discriminate]. destruct (if (negb (falsy Dout) && _)%bool then _ else _) as [cobs|]; cbn [bind] in E; [|discriminate]. destruct (u2z _ _ _) as [m|]; cbn [bind] in E; [|discriminate]. destruct (u_ol _ _ _) as [u|]; cbn [bind] in E; [|discriminate]. destruct (zer_coeffs _ _ _) as [c|]; cbn [bind] in E; [|discriminate]. destruct (cov_rows c nExp) as [ho|] eqn:EC; cbn [bind] in E; [|discriminate]. destruct (cov_tt lgs ho tt nExp_tt) as [t|] eqn:ET; cbn [bind] in E; [|discriminate]. apply Ok_inj in E. injection E as <- <-. pose proof (cov_rows_cov c nExp ho H1 EC) as Q. split; [exact Q|].
  unfold cov_tt in ET. destruct lgs.
  - apply (cov_rows_cov (mkImg (cols tt) (rows tt) (fun i t => px tt t i)) nExp_tt); [exact H2|]. exact ET.
  - apply Ok_inj in ET. subst t. destruct Q as (R1 & SY & P). split; [cbn [rows cols]; congruence|]. split; [exact SY|]. intros w. cbn [rows cols px]. specialize (P (fun i => if (i =? 0)%nat then w 0%nat else 0)). destruct (rows ho) as [|n]; [cbn; lra|]. cbn [Nat.min]. replace (Nat.min 0 n) with 0%nat by (destruct n; reflexivity). cbn [rsum]. 
    rewrite (rsum_single (S n) 0) in P by first [lia | (intros k Hk Nk; apply rsum_zero; intros j _; destruct (Nat.eqb_spec k 0); [contradiction|ring])]. rewrite (rsum_single (S n) 0) in P by first [lia | (intros k Hk Nk; destruct (Nat.eqb_spec k 0); [contradiction|]; cbn [Nat.eqb]; ring)]. cbn [Nat.eqb] in P. lra.
Qed.

(** ** What the reconstruction ignores, and its units *)
Lemma u_ol_shape dt com res u : u_ol dt com res = Ok u -> rows u = rows com /\ cols u = cols com /\ (0 < cols com)%nat.
Proof. unfold u_ol. intros E. destruct (negb _); [discriminate|]. destruct (Nat.eqb_spec (cols com) 0) as [|N]; [discriminate|]. apply Ok_inj in E. subst u. cbn [rows cols]. repeat split; lia. Qed.
Lemma zer_shape u2z u sel c : zer_coeffs u2z u sel = Ok c -> rows c = rows u2z /\ cols c = rows u /\ (0 < rows u)%nat.
Proof. unfold zer_coeffs. intros E. destruct (negb (act_ok _ _)); [discriminate|]. destruct (negb _); [discriminate|]. destruct (Nat.eqb_spec (rows u) 0); [discriminate|]. apply Ok_inj in E. subst c. cbn [rows cols]. repeat split; lia. Qed.
(** each frame of the open-loop commands has a zero mean over the actuators, each coefficient has a zero mean in time *)
Theorem C124_no_piston : forall dt com res u t, u_ol dt com res = Ok u -> rsum (cols u) (px u t) = 0.
Proof.
  intros dt com res u t E. pose proof (u_ol_shape _ _ _ _ E) as (_ & C & P). rewrite C. unfold u_ol in E. destruct (negb _); [discriminate|]. destruct (Nat.eqb_spec (cols com) 0) as [|N]; [discriminate|]. apply Ok_inj in E. subst u. cbn [px]. rewrite rsum_minus, rsum_const. field. apply not_0_INR. exact N.
Qed.
Theorem C124_zero_mean : forall u2z u sel c z, zer_coeffs u2z u sel = Ok c -> rsum (cols c) (px c z) = 0.
Proof.
  intros u2z u sel c z E. pose proof (zer_shape _ _ _ _ E) as (_ & C & P). rewrite C. unfold zer_coeffs in E. destruct (negb (act_ok _ _)); [discriminate|]. destruct (negb _); [discriminate|]. destruct (Nat.eqb_spec (rows u) 0) as [|N]; [discriminate|]. apply Ok_inj in E. subst c. cbn [px]. rewrite rsum_minus, rsum_const. field. apply not_0_INR. exact N.
Qed.
(** two images with the same size and the same pixels *)
Definition img_same (a b : img) : Prop := rows a = rows b /\ cols a = cols b /\ forall i j, (i < rows a)%nat -> (j < cols a)%nat -> px a i j = px b i j.
(** a pattern held during the whole acquisition [k a] and a piston per frame [p t], added to the commands, are not seen *)
Lemma u_ol_static dt com com' res u (k : nat -> R) (p : nat -> R) : rows com' = rows com -> cols com' = cols com ->
  (forall t a, (t < rows com)%nat -> (a < cols com)%nat -> px com' t a = px com t a + k a + p t) -> u_ol dt com res = Ok u ->
  exists u', u_ol dt com' res = Ok u' /\ rows u' = rows u /\ cols u' = cols u /\ forall t a, (t < rows com)%nat -> (a < cols com)%nat -> px u' t a = px u t a + (k a - rsum (cols com) k / INR (cols com)).
Proof.
  intros RR CC PX E. unfold u_ol in *. rewrite RR, CC. destruct (negb _); [discriminate|]. destruct (Nat.eqb_spec (cols com) 0) as [|N]; [discriminate|]. apply Ok_inj in E. subst u. eexists. split; [reflexivity|]. cbn [rows cols px]. split; [reflexivity|]. split; [reflexivity|]. intros t a Ht Ha. rewrite PX by assumption.
  replace (rsum (cols com) (fun a0 => px com' t a0 + px (com_delta dt res) t a0)) with (rsum (cols com) (fun a0 => px com t a0 + px (com_delta dt res) t a0) + rsum (cols com) k + INR (cols com) * p t).
  - field. apply not_0_INR. exact N.
  - rewrite <- (rsum_const (cols com) (p t)), <- !rsum_plus. apply rsum_ext. intros b Hb. rewrite PX by assumption. ring.
Qed.
Lemma act_lt s n k : act_ok s n = true -> (k < length (act_ix s))%nat -> (nth k (act_ix s) 0 < n)%nat.
Proof.
  destruct s as [m|l]; cbn [act_ok act_ix].
  - intros E H. apply Nat.eqb_eq in E. rewrite seq_length in H. rewrite seq_nth by exact H. lia.
  - intros E H. apply negb_true_iff in E. destruct (Nat.lt_ge_cases (nth k l 0%nat) n) as [L|G]; [exact L|]. assert (existsb (fun j => (n <=? j)%nat) l = true) as T by (apply existsb_exists; exists (nth k l 0%nat); split; [apply nth_In, H|apply Nat.leb_le, G]). congruence.
Qed.
Lemma zer_static u2z u u' sel c (k : nat -> R) : rows u' = rows u -> cols u' = cols u -> (forall t a, (t < rows u)%nat -> (a < cols u)%nat -> px u' t a = px u t a + k a) ->
  zer_coeffs u2z u sel = Ok c -> exists c', zer_coeffs u2z u' sel = Ok c' /\ img_same c' c.
Proof.
  intros RR CC PX E. unfold zer_coeffs in *. rewrite CC, RR. destruct (act_ok sel (cols u)) eqn:A; cbn [negb] in *; [|discriminate]. destruct (negb _); [discriminate|]. destruct (Nat.eqb_spec (rows u) 0) as [|N]; [discriminate|]. apply Ok_inj in E. subst c. eexists. split; [reflexivity|]. unfold img_same. cbn [rows cols px]. repeat split. intros z t Hz Ht.
  set (L := length (act_ix sel)).
  assert (forall t, (t < rows u)%nat -> rsum L (fun q => px u2z z q * px u' t (nth q (act_ix sel) 0%nat)) = rsum L (fun q => px u2z z q * px u t (nth q (act_ix sel) 0%nat)) + rsum L (fun q => px u2z z q * k (nth q (act_ix sel) 0%nat))) as Q.
  { intros t' Ht'. rewrite <- rsum_plus. apply rsum_ext. intros q Hq. rewrite PX; [ring|exact Ht'|]. apply act_lt; assumption. }
  rewrite Q by exact Ht. rewrite (rsum_ext (rows u) _ _ (fun t' H' => Q t' H')). rewrite rsum_plus, rsum_const. field. apply not_0_INR. exact N.
Qed.
Lemma cov_same c c' nExp C : img_same c' c -> cov_rows c nExp = Ok C -> exists C', cov_rows c' nExp = Ok C' /\ img_same C' C.
Proof.
  intros (RR & CC & PX) E. unfold cov_rows in *. destruct (Req_EM_T nExp 0); [discriminate|]. apply Ok_inj in E. subst C. eexists. split; [reflexivity|]. unfold img_same. cbn [rows cols px]. repeat split; try exact RR. intros i j Hi Hj. f_equal. rewrite CC. apply rsum_ext. intros t Ht. rewrite !PX by (rewrite ?CC; assumption). reflexivity.
Qed.
Ltac recon E s cobs m u c ho t EU EZ EC ET := unfold reconstruct_zernike in E; destruct (select_actuators _ _ _ _ _ _) as [s|]; cbn [bind] in E; [|discriminate]; destruct (if (negb (falsy _) && _)%bool then _ else _) as [cobs|]; cbn [bind] in E; [|discriminate];
  match type of E with context [bind (?f (fst s) ?n cobs) _] => destruct (f (fst s) n cobs) as [m|] eqn:EM; cbn [bind] in E; [|discriminate] end;
  destruct (u_ol _ _ _) as [u|] eqn:EU; cbn [bind] in E; [|discriminate]; destruct (zer_coeffs _ _ _) as [c|] eqn:EZ; cbn [bind] in E; [|discriminate];
  match type of E with context [cov_rows c ?n] => destruct (cov_rows c n) as [ho|] eqn:EC; cbn [bind] in E; [|discriminate] end;
  match type of E with context [cov_tt ?a ?b ?d ?e] => destruct (cov_tt a b d e) as [t|] eqn:ET; cbn [bind] in E; [|discriminate] end; apply Ok_inj in E; injection E as <- <-.
Theorem C124_static : forall u2z iF valid pitch nActu Din Dout nZer dt nExp com com' res lgs tt nExp_tt Cho Ctt (k p : nat -> R),
  rows com' = rows com -> cols com' = cols com -> (forall t a, (t < rows com)%nat -> (a < cols com)%nat -> px com' t a = px com t a + k a + p t) ->
  reconstruct_zernike u2z iF valid pitch nActu Din Dout nZer dt nExp com res lgs tt nExp_tt = Ok (Cho, Ctt) ->
  exists Cho' Ctt', reconstruct_zernike u2z iF valid pitch nActu Din Dout nZer dt nExp com' res lgs tt nExp_tt = Ok (Cho', Ctt') /\ img_same Cho' Cho /\ img_same Ctt' Ctt.
Proof.
  intros u2z iF valid pitch nActu Din Dout nZer dt nExp com com' res lgs tt nExp_tt Cho Ctt k p RR CC PX E. unfold reconstruct_zernike in *. destruct (select_actuators _ _ _ _ _ _) as [s|]; cbn [bind] in *; [|discriminate]. destruct (if (negb (falsy _) && _)%bool then _ else _) as [cobs|]; cbn [bind] in *; [|discriminate]. destruct (u2z _ _ _) as [m|]; cbn [bind] in *; [|discriminate].
  destruct (u_ol dt com res) as [u|] eqn:EU; cbn [bind] in E; [|discriminate]. destruct (u_ol_static _ _ com' _ _ k p RR CC PX EU) as (u' & EU' & R1 & C1 & P1). rewrite EU'. cbn [bind]. destruct (u_ol_shape _ _ _ _ EU) as (R0 & C0 & _).
  destruct (zer_coeffs m u (snd s)) as [c|] eqn:EZ; cbn [bind] in E; [|discriminate]. destruct (zer_static m u u' (snd s) c (fun a => k a - rsum (cols com) k / INR (cols com)) R1 C1) as (c' & EZ' & SC); [intros t a Ht Ha; apply P1; congruence|exact EZ|]. rewrite EZ'. cbn [bind].
  destruct (cov_rows c nExp) as [ho|] eqn:EC; cbn [bind] in E; [|discriminate]. destruct (cov_same c c' nExp ho SC EC) as (ho' & EC' & SH). rewrite EC'. cbn [bind].
  destruct (cov_tt lgs ho tt nExp_tt) as [t|] eqn:ET; cbn [bind] in E; [|discriminate]. apply Ok_inj in E. injection E as <- <-. unfold cov_tt in *. destruct lgs.
  - destruct (Req_EM_T nExp_tt 0); [discriminate|]. apply Ok_inj in ET. subst t. cbn [bind]. do 2 eexists. split; [reflexivity|]. split; [exact SH|]. unfold img_same. repeat split.
  - apply Ok_inj in ET. subst t. cbn [bind]. do 2 eexists. split; [reflexivity|]. split; [exact SH|]. destruct SH as (A & B & P). unfold img_same. cbn [rows cols px]. rewrite A, B. repeat split. intros i j Hi Hj. apply P; lia.
Qed.

(** telemetry k times larger: coefficients k times larger, covariances k^2 times larger *)
Definition img_scal (k : R) (u : img) : img := mkImg (rows u) (cols u) (fun i j => k * px u i j).
Theorem C124_scale : forall m sel dt nExp com res u c C k, u_ol dt com res = Ok u -> zer_coeffs m u sel = Ok c -> cov_rows c nExp = Ok C ->
  exists u' c' C', u_ol dt (img_scal k com) (img_scal k res) = Ok u' /\ zer_coeffs m u' sel = Ok c' /\ cov_rows c' nExp = Ok C' /\
    (forall z t, px c' z t = k * px c z t) /\ rows C' = rows C /\ cols C' = cols C /\ forall i j, px C' i j = k ^ 2 * px C i j.
Proof.
  intros m sel dt nExp com res u c C k E1 E2 E3. pose proof (u_ol_shape _ _ _ _ E1) as (R0 & C0 & P0). unfold u_ol in *. cbn [img_scal rows cols] in *. destruct (negb _); [discriminate|]. destruct (Nat.eqb_spec (cols com) 0) as [|N]; [discriminate|]. apply Ok_inj in E1.
  eexists. eexists. eexists. split; [reflexivity|]. unfold zer_coeffs in *. cbn [rows cols px]. rewrite R0, C0 in E2. destruct (negb (act_ok sel (cols com))); [discriminate|]. destruct (negb _); [discriminate|]. destruct (Nat.eqb_spec (rows com) 0) as [|M]; [discriminate|]. apply Ok_inj in E2. split; [reflexivity|]. unfold cov_rows in *. cbn [rows cols px]. rewrite <- E2 in E3. cbn [rows cols px] in E3. destruct (Req_EM_T nExp 0); [discriminate|]. apply Ok_inj in E3. split; [reflexivity|].
  assert (Q : forall t a, k * px com t a + px (com_delta dt (img_scal k res)) t a - rsum (cols com) (fun a0 => k * px com t a0 + px (com_delta dt (img_scal k res)) t a0) / INR (cols com) = k * px u t a).
  { intros t a. rewrite <- E1. cbn [px]. assert (D : forall b, px (com_delta dt (img_scal k res)) t b = k * px (com_delta dt res) t b) by (intros b; unfold com_delta, flat_roll, img_scal; cbn [rows cols px]; ring). rewrite D. rewrite (rsum_ext (cols com) (fun a0 => k * px com t a0 + px (com_delta dt (img_scal k res)) t a0) (fun a0 => k * (px com t a0 + px (com_delta dt res) t a0))) by (intros b _; rewrite D; ring). rewrite rsum_scal. unfold Rdiv. ring. }
  assert (W : forall z t, rsum (length (act_ix sel)) (fun q => px m z q * (k * px com t (nth q (act_ix sel) 0%nat) + px (com_delta dt (img_scal k res)) t (nth q (act_ix sel) 0%nat) - rsum (cols com) (fun a0 => k * px com t a0 + px (com_delta dt (img_scal k res)) t a0) / INR (cols com))) = k * rsum (length (act_ix sel)) (fun q => px m z q * px u t (nth q (act_ix sel) 0%nat))).
  { intros z t. rewrite <- rsum_scal. apply rsum_ext. intros q _. rewrite Q. ring. }
  assert (V : forall z t, rsum (length (act_ix sel)) (fun q => px m z q * (k * px com t (nth q (act_ix sel) 0%nat) + px (com_delta dt (img_scal k res)) t (nth q (act_ix sel) 0%nat) - rsum (cols com) (fun a0 => k * px com t a0 + px (com_delta dt (img_scal k res)) t a0) / INR (cols com))) - rsum (rows com) (fun t0 => rsum (length (act_ix sel)) (fun q => px m z q * (k * px com t0 (nth q (act_ix sel) 0%nat) + px (com_delta dt (img_scal k res)) t0 (nth q (act_ix sel) 0%nat) - rsum (cols com) (fun a0 => k * px com t0 a0 + px (com_delta dt (img_scal k res)) t0 a0) / INR (cols com)))) / INR (rows com) = k * px c z t).
  { intros z t. rewrite W. rewrite (rsum_ext (rows com) _ (fun t0 => k * rsum (length (act_ix sel)) (fun q => px m z q * px u t0 (nth q (act_ix sel) 0%nat)))) by (intros; apply W). rewrite rsum_scal. rewrite <- E2. cbn [px]. unfold Rdiv. ring. }
  split; [exact V|]. rewrite <- E3. cbn [rows cols px]. split; [reflexivity|]. split; [reflexivity|]. intros i j. rewrite (rsum_ext (rows com) _ (fun t => k ^ 2 * (px c i t * px c j t))) by (intros t _; transitivity ((k * px c i t) * (k * px c j t)); [apply f_equal2; [exact (V i t)|exact (V j t)]|ring]). rewrite rsum_scal. rewrite <- E2. cbn [px]. unfold Rdiv. ring.
Qed.

(** * The delay *)
Lemma flat_roll_in u n t a : (t * cols u + a + n < rows u * cols u)%nat -> (0 < cols u)%nat ->
  px (flat_roll u (- Z.of_nat n)) t a = px u ((t * cols u + a + n) / cols u) ((t * cols u + a + n) mod cols u).
Proof.
  intros H C. unfold flat_roll. cbn [px]. replace (Z.of_nat (t * cols u + a) - - Z.of_nat n)%Z with (Z.of_nat (t * cols u + a + n)) by lia. rewrite <- Nat2Z.inj_mod, Nat2Z.id. rewrite Nat.mod_small by exact H. reflexivity.
Qed.
(** a delay of n frames and a fraction f: the residuals n + 1 and n positions later, with weights f and 1 - f *)
Theorem C124_weights : forall n f res t a, 0 < f < 1 ->
  px (com_delta (IZR n + f) res) t a = f * px (flat_roll res (- (n + 1))) t a + (1 - f) * px (flat_roll res (- n)) t a.
Proof.
  intros n f res t a H. unfold com_delta. cbn [px]. rewrite (Zfloor_imp n) by (rewrite plus_IZR; lra). rewrite (Zceil_imp (n + 1)) by (rewrite minus_IZR, !plus_IZR; lra). rewrite plus_IZR. ring.
Qed.
(** REFUTED: "the open-loop commands are the commands and the residual wavefront, interpolated at the delay": for a delay of a
    whole number of frames both weights are 1 and the residual is counted twice. *)
Theorem C124_integer_delay_refuted : forall n res t a, px (com_delta (IZR n) res) t a = 2 * px (flat_roll res (- n)) t a.
Proof.
  intros n res t a. unfold com_delta. cbn [px]. rewrite Zfloor_IZR, Zceil_IZR. ring.
Qed.
(** REFUTED: "the shift is in time": np.roll with a tuple and no axis shifts the flattened array; for a delay under one frame
    the residual of the next actuator, of the same frame, is mixed into each actuator (the next frame is never read). *)
Theorem C124_roll_refuted : forall dt res t a, 0 < dt < 1 -> (t < rows res)%nat -> (a + 1 < cols res)%nat ->
  px (com_delta dt res) t a = dt * px res t (a + 1) + (1 - dt) * px res t a.
Proof.
  intros dt res t a H Ht Ha. replace dt with (IZR 0 + dt) at 1 by lra. rewrite C124_weights by exact H. assert (B : (t * cols res + a + 1 < rows res * cols res)%nat) by nia.
  change (- (0 + 1))%Z with (- Z.of_nat 1)%Z. rewrite (flat_roll_in res 1) by (try exact B; lia). change (- 0)%Z with (- Z.of_nat 0)%Z. rewrite (flat_roll_in res 0) by lia.
  replace (t * cols res + a + 1)%nat with ((a + 1) + t * cols res)%nat by lia. replace (t * cols res + a + 0)%nat with (a + t * cols res)%nat by lia. rewrite !Nat.div_add, !Nat.mod_add by lia. rewrite !Nat.div_small, !Nat.mod_small by lia. reflexivity.
Qed.
(** hence two reconstructions that differ only by the residuals of another frame give the same commands for this frame *)
Theorem C124_no_interpolation : forall dt res res' t a, 0 < dt < 1 -> (t < rows res)%nat -> (a + 1 < cols res)%nat -> rows res' = rows res -> cols res' = cols res ->
  (forall b, px res' t b = px res t b) -> px (com_delta dt res') t a = px (com_delta dt res) t a.
Proof. intros dt res res' t a H Ht Ha R1 C1 P. rewrite !C124_roll_refuted by (rewrite ?R1, ?C1; assumption). now rewrite !P. Qed.
(** REFUTED: "without laser guide stars the tip-tilt covariance comes from the Zernike covariance": it is a 1 x 1 matrix, the
    variance of the first reconstructed mode (number 4, the focus, by default). *)
Theorem C124_tiptilt_refuted : forall u2z iF valid pitch nActu Din Dout nZer dt nExp com res tt nExp_tt Cho Ctt,
  reconstruct_zernike u2z iF valid pitch nActu Din Dout nZer dt nExp com res false tt nExp_tt = Ok (Cho, Ctt) -> (0 < rows Cho)%nat ->
  rows Ctt = 1%nat /\ cols Ctt = 1%nat /\ px Ctt 0 0 = px Cho 0 0.
Proof.
  intros u2z iF valid pitch nActu Din Dout nZer dt nExp com res tt nExp_tt Cho Ctt E H. recon E s cobs m u c ho t EU EZ EC ET. unfold cov_tt in ET. apply Ok_inj in ET. subst t. cbn [rows cols px]. unfold cov_rows in EC. destruct (Req_EM_T nExp 0); [discriminate|]. apply Ok_inj in EC. subst ho. cbn [rows cols px] in *. repeat split; lia.
Qed.

(** * Actuators *)
(** With an inner and an outer diameter, the actuators are exactly those whose peak is between the two radii, in increasing
    order, each with its own influence function. *)
Definition peak_of (iF : img) (k m : nat) : Prop := (m < rows iF)%nat /\ (forall q, (q < rows iF)%nat -> px iF q k <= px iF m k) /\ forall q, (q < m)%nat -> px iF q k < px iF m k.
Definition peak_radius (iF : img) (n : nat) (D : R) (k : nat) (r : R) : Prop :=
  exists m, peak_of iF k m /\ r = D / INR n * sqrt ((INR (m / n) - INR n / 2) ^ 2 + (INR (m mod n) - INR n / 2) ^ 2).
Lemma act_radius_spec iF n D k r : act_radius iF n (D / INR n) k = Ok r -> peak_radius iF n D k r.
Proof.
  unfold act_radius. destruct (argmax_list _) as [[m v]|] eqn:E; [|discriminate]. intros H. apply Ok_inj in H. subst r. apply argmax_list_spec in E. destruct E as (E1 & E2 & E3). exists m. split; [|reflexivity].
  assert (L : (m < rows iF)%nat). { assert (Q : nth_error (map (fun q => px iF q k) (seq 0 (rows iF))) m <> None) by congruence. apply nth_error_Some in Q. now rewrite map_length, seq_length in Q. }
  assert (V : forall q, (q < rows iF)%nat -> nth_error (map (fun q => px iF q k) (seq 0 (rows iF))) q = Some (px iF q k)). { intros q Hq. rewrite nth_error_map. rewrite (nth_error_nth' _ 0%nat) by now rewrite seq_length. rewrite seq_nth by exact Hq. reflexivity. }
  assert (v = px iF m k) as -> by (rewrite V in E1 by exact L; congruence). split; [exact L|]. split; intros q Hq; [eapply E2|eapply E3]; try apply V; lia.
Qed.
Lemma filt_sorted {A} (f : A -> bool) (w : list A) b : StronglySorted lt (map fst (filter (fun p => f (snd p)) (combine (seq b (length w)) w))) /\ forall k, In k (map fst (filter (fun p => f (snd p)) (combine (seq b (length w)) w))) -> (b <= k)%nat.
Proof.
  revert b. induction w as [|x w IH]; intros b; cbn [length seq combine filter map]; [split; [constructor|intros k []]|]. destruct (IH (S b)) as (S1 & B1). cbn [snd]. destruct (f x); cbn [map fst].
  - split; [constructor; [exact S1|apply Forall_forall; intros k Hk; specialize (B1 k Hk); lia]|intros k [<-|Hk]; [lia|specialize (B1 k Hk); lia]].
  - split; [exact S1|intros k Hk; specialize (B1 k Hk); lia].
Qed.
Lemma filt_in {A} (f : A -> bool) (w : list A) b k : In k (map fst (filter (fun p => f (snd p)) (combine (seq b (length w)) w))) <-> exists x, (b <= k)%nat /\ nth_error w (k - b) = Some x /\ f x = true.
Proof.
  revert b. induction w as [|y w IH]; intros b; cbn [length seq combine filter map].
  - split; [intros []|]. intros (x & _ & E & _). destruct (k - b)%nat; discriminate.
  - cbn [snd]. specialize (IH (S b)). destruct (f y) eqn:F; cbn [map fst].
    + split.
      * intros [<-|H]; [exists y; rewrite Nat.sub_diag; repeat split; auto|]. apply IH in H. destruct H as (x & H1 & H2 & H3). exists x. split; [lia|]. replace (k - b)%nat with (S (k - S b)) by lia. auto.
      * intros (x & H1 & H2 & H3). destruct (Nat.eq_dec b k) as [->|N]; [now left|right]. apply IH. exists x. split; [lia|]. replace (k - b)%nat with (S (k - S b)) in H2 by lia. auto.
    + rewrite IH. split.
      * intros (x & H1 & H2 & H3). exists x. split; [lia|]. replace (k - b)%nat with (S (k - S b)) by lia. auto.
      * intros (x & H1 & H2 & H3). destruct (Nat.eq_dec b k) as [->|N]; [rewrite Nat.sub_diag in H2; cbn in H2; congruence|]. exists x. split; [lia|]. replace (k - b)%nat with (S (k - S b)) in H2 by lia. auto.
Qed.
Lemma mapM_nth {A B} (f : A -> result B) l v : mapM f l = Ok v -> length v = length l /\ forall k a, nth_error l k = Some a -> exists b, nth_error v k = Some b /\ f a = Ok b.
Proof.
  revert v. induction l as [|x l IH]; intros v E; cbn [mapM] in E.
  - apply Ok_inj in E. subst v. split; [reflexivity|]. intros [|k] a H; discriminate.
  - destruct (f x) as [y|] eqn:F; cbn [bind] in E; [|discriminate]. destruct (mapM f l) as [w|]; cbn [bind] in E; [|discriminate]. apply Ok_inj in E. subst v. destruct (IH w eq_refl) as (L & N). split; [cbn [length]; congruence|]. intros [|k] a H; cbn [nth_error] in *; [injection H as <-; eauto|now apply N].
Qed.
Theorem C124_select : forall iF valid pitch nActu i o f s, (i <> 0 \/ o <> 0) -> select_actuators iF valid pitch nActu (Some i) (Some o) = Ok (f, s) ->
  exists ix n, s = Ix ix /\ (n * n = rows iF)%nat /\ StronglySorted lt ix /\ rows f = rows iF /\ cols f = length ix /\
    (forall k r, (k < cols iF)%nat -> peak_radius iF n (pitch * (INR nActu - 1)) k r -> (In k ix <-> i / 2 <= r <= o / 2)) /\
    (forall k, In k ix -> (k < cols iF)%nat) /\ forall q j, (j < length ix)%nat -> px f q j = px iF q (nth j ix 0%nat).
Proof.
  intros iF valid pitch nActu i o f s NZ E. unfold select_actuators in E. destruct (falsy (Some i) && falsy (Some o))%bool eqn:F; [exfalso; cbn [falsy] in F; destruct (Req_EM_T i 0), (Req_EM_T o 0); cbn in F; try discriminate; tauto|].
  set (n := Nat.sqrt (rows iF)) in *. destruct (Nat.eqb_spec n 0) as [|N0]; [discriminate|]. destruct (Nat.eqb_spec (n * n) (rows iF)) as [SQ|]; cbn [negb] in E; [|discriminate]. destruct (mapM _ _) as [rad|] eqn:ER; cbn [bind] in E; [|discriminate].
  destruct (mapM_nth _ _ _ ER) as (LR & NR). rewrite seq_length in LR.
  match type of E with context [take_cols iF ?l] => set (ix := l) in * end. unfold take_cols in E. destruct (existsb _ ix) eqn:EX; cbn [bind] in E; [discriminate|]. apply Ok_inj in E. injection E as <- <-. exists ix, n. cbn [rows cols px]. split; [reflexivity|]. split; [exact SQ|].
  pose (g := fun r => ((if Rle_dec r (o / 2) then true else false) && (if Rle_dec (i / 2) r then true else false))%bool).
  assert (EI : ix = map fst (filter (fun p => g (snd p)) (combine (seq 0 (length rad)) rad))) by (unfold ix; rewrite ?LR; reflexivity). split; [rewrite EI; apply filt_sorted|]. split; [reflexivity|]. split; [reflexivity|].
  split; [|split; [|reflexivity]].
  - intros k r Hk (m & P & Er). destruct (NR k k) as (r' & N1 & A1); [rewrite (nth_error_nth' _ 0%nat) by (now rewrite seq_length); now rewrite seq_nth|]. apply act_radius_spec in A1. destruct A1 as (m' & P' & Er').
    assert (m = m') as <-. { destruct P as (L1 & B1 & S1), P' as (L2 & B2 & S2). destruct (Nat.lt_trichotomy m m') as [L|[Q|L]]; [|exact Q|]; [specialize (S2 m L); specialize (B1 m' L2)|specialize (S1 m' L); specialize (B2 m L1)]; lra. }
    assert (r = r') as <- by congruence. rewrite EI, filt_in. rewrite Nat.sub_0_r. split.
    + intros (x & _ & X & G). assert (x = r) as -> by congruence. unfold g in G. destruct (Rle_dec r (o / 2)), (Rle_dec (i / 2) r); cbn in G; try discriminate. lra.
    + intros (H1 & H2). exists r. split; [lia|]. split; [exact N1|]. unfold g. destruct (Rle_dec r (o / 2)), (Rle_dec (i / 2) r); try reflexivity; lra.
  - intros k Hk. destruct (Nat.lt_ge_cases k (cols iF)) as [L|G]; [exact L|]. assert (existsb (fun j => (cols iF <=? j)%nat) ix = true) by (apply existsb_exists; exists k; split; [exact Hk|apply Nat.leb_le, G]). congruence.
Qed.
(** without diameters: the valid actuators; when the influence functions are already those, all of them *)
Theorem C124_select_valid : forall iF valid pitch nActu f s, select_actuators iF valid pitch nActu None None = Ok (f, s) ->
  (cols iF = length (filter (fun b => b) valid) -> f = iF /\ s = AllOf (cols iF)) /\
  (cols iF <> length (filter (fun b => b) valid) -> exists ix, s = Ix ix /\ StronglySorted lt ix /\ (forall k, In k ix <-> nth_error valid k = Some true) /\ rows f = rows iF /\ cols f = length ix /\ forall q j, (j < length ix)%nat -> px f q j = px iF q (nth j ix 0%nat)).
Proof.
  intros iF valid pitch nActu f s E. unfold select_actuators in E. cbn [falsy andb] in E. set (ix := map fst (filter snd (combine (seq 0 (length valid)) valid))) in *.
  assert (EI : ix = map fst (filter (fun p => (fun b : bool => b) (snd p)) (combine (seq 0 (length valid)) valid))) by reflexivity.
  assert (LI : length ix = length (filter (fun b => b) valid)). { rewrite EI, map_length. clear. generalize 0%nat as b. induction valid as [|x v IH]; intros b; [reflexivity|]. cbn [length seq combine filter snd]. destruct x; cbn [length]; rewrite IH; reflexivity. }
  rewrite <- LI. destruct (Nat.eqb_spec (cols iF) (length ix)) as [Q|Q].
  - apply Ok_inj in E. injection E as <- <-. split; [auto|contradiction].
  - unfold take_cols in E. destruct (existsb _ ix); cbn [bind] in E; [discriminate|]. apply Ok_inj in E. injection E as <- <-. split; [contradiction|]. intros _. exists ix. cbn [rows cols px]. split; [reflexivity|]. split; [rewrite EI; apply (filt_sorted (fun b : bool => b))|]. split; [|repeat split].
    intros k. rewrite EI. rewrite (filt_in (fun b : bool => b)). rewrite Nat.sub_0_r. split; [intros (x & _ & X & ->); exact X|intros X; exists true; repeat split; [lia|exact X]].
Qed.
(** REFUTED: "a single diameter may be given": comparing with a missing one is refused (TypeError) *)
Theorem C124_one_diameter_refuted : forall iF valid pitch nActu x p, x <> 0 -> select_actuators iF valid pitch nActu (Some x) None <> Ok p /\ select_actuators iF valid pitch nActu None (Some x) <> Ok p.
Proof.
  intros iF valid pitch nActu x p N. unfold select_actuators. cbn [falsy andb]. destruct (Req_EM_T x 0); [contradiction|]. cbn [andb].
  destruct (_ =? 0)%nat; [split; discriminate|]. destruct (negb _); [split; discriminate|]. destruct (mapM _ _); cbn [bind]; split; discriminate.
Qed.

(** * Photons *)
(** the number of pixels kept: half of the nonzero entries, rounded up, all of them for zero or too many *)
Definition n_kept (nSl N : nat) : nat := let k := ((nSl + 1) / 2)%nat in if ((k =? 0) || (N <? k))%nat%bool then N else k.
Lemma top_pixels_spec gain nSl m t : top_pixels gain nSl m = Ok t -> (m <> [] -> gain <> 0) ->
  t = skipn (length m - n_kept nSl (length m)) (rsort (map (fun x => x / gain) m)).
Proof.
  unfold top_pixels. intros E G. rewrite (mapM_ok _ (fun x => x / gain)) in E by (intros a Ha; apply rdiv_ok, G; intros ->; destruct Ha). cbn [bind] in E. apply Ok_inj in E. subst t. set (s := rsort _).
  assert (L : length s = length m) by (unfold s; rewrite <- (Permutation_length (rsort_perm _)); apply map_length).
  assert (B : (- Z.of_nat nSl / 2)%Z = (- Z.of_nat ((nSl + 1) / 2))%Z).
  { rewrite Nat2Z.inj_div, Nat2Z.inj_add. change (Z.of_nat 1) with 1%Z. change (Z.of_nat 2) with 2%Z. pose proof (Z.div_mod (- Z.of_nat nSl) 2 ltac:(lia)). pose proof (Z.mod_pos_bound (- Z.of_nat nSl) 2 ltac:(lia)). pose proof (Z.div_mod (Z.of_nat nSl + 1) 2 ltac:(lia)). pose proof (Z.mod_pos_bound (Z.of_nat nSl + 1) 2 ltac:(lia)). lia. }
  rewrite B. unfold n_kept. set (k := ((nSl + 1) / 2)%nat). unfold pyslice, slice_len, slice_bound. rewrite L. destruct (Z.ltb_spec (Z.of_nat (length m)) 0); [lia|]. rewrite Z.min_id. destruct (Nat.eqb_spec k 0) as [K|K]; cbn [orb].
  - rewrite K. change (- Z.of_nat 0)%Z with 0%Z. change (0 <? 0)%Z with false. cbv iota. rewrite Nat.sub_diag. rewrite Z.min_l by lia. change (Z.to_nat 0) with 0%nat. cbn [skipn]. apply firstn_all2. lia.
  - destruct (Z.ltb_spec (- Z.of_nat k) 0); [|lia]. destruct (Nat.ltb_spec (length m) k).
    + rewrite (Z.max_l 0 (Z.of_nat (length m) + - Z.of_nat k)) by lia. rewrite Nat.sub_diag. change (Z.to_nat 0) with 0%nat. cbn [skipn]. apply firstn_all2. lia.
    + rewrite (Z.max_r 0 (Z.of_nat (length m) + - Z.of_nat k)) by lia. replace (Z.to_nat (Z.of_nat (length m) + - Z.of_nat k)) with (length m - k)%nat by lia. apply firstn_all2. rewrite skipn_length. lia.
Qed.
Lemma n_kept_le nSl N : (n_kept nSl N <= N)%nat /\ ((0 < N)%nat -> (0 < n_kept nSl N)%nat).
Proof. unfold n_kept. destruct (Nat.eqb_spec ((nSl + 1) / 2) 0); cbn [orb]; [lia|]. destruct (Nat.ltb_spec N ((nSl + 1) / 2)); lia. Qed.
Lemma top_len gain nSl m t : top_pixels gain nSl m = Ok t -> (m <> [] -> gain <> 0) -> length t = n_kept nSl (length m).
Proof. intros E G. rewrite (top_pixels_spec _ _ _ _ E G), skipn_length, <- (Permutation_length (rsort_perm _)), map_length. pose proof (n_kept_le nSl (length m)). lia. Qed.
Lemma lsum_le_c l c : (forall x, In x l -> x <= c) -> lsum l <= INR (length l) * c.
Proof. induction l as [|x l IH]; intros H; [cbn; lra|]. unfold lsum in *. cbn [fold_right length]. rewrite S_INR. specialize (IH (fun y Hy => H y (or_intror Hy))). specialize (H x (or_introl eq_refl)). lra. Qed.
Lemma lsum_ge_c l c : (forall x, In x l -> c <= x) -> INR (length l) * c <= lsum l.
Proof. induction l as [|x l IH]; intros H; [cbn; lra|]. unfold lsum in *. cbn [fold_right length]. rewrite S_INR. specialize (IH (fun y Hy => H y (or_intror Hy))). specialize (H x (or_introl eq_refl)). lra. Qed.
Lemma in_firstn_nth l j (x : R) : In x (firstn j l) -> exists i, (i < j)%nat /\ (i < length l)%nat /\ x = nth i l 0.
Proof. intros H. apply In_nth with (d := 0) in H. destruct H as (i & Hi & E). rewrite firstn_length in Hi. exists i. rewrite nth_firstn' in E by lia. repeat split; try lia. now symmetry. Qed.
Lemma in_skipn_nth l j (x : R) : In x (skipn j l) -> exists i, (j <= i)%nat /\ (i < length l)%nat /\ x = nth i l 0.
Proof. intros H. apply In_nth with (d := 0) in H. destruct H as (i & Hi & E). rewrite skipn_length in Hi. exists (j + i)%nat. rewrite nth_skipn' in E. repeat split; try lia. now symmetry. Qed.
(** the largest values of a sorted list have a larger mean than the list *)
Lemma top_mean l j : StronglySorted Rle l -> (j <= length l)%nat -> INR (length (skipn j l)) * lsum l <= INR (length l) * lsum (skipn j l).
Proof.
  intros S H. destruct (Nat.eq_dec j (length l)) as [->|N]; [rewrite skipn_all; cbn; lra|]. set (c := nth j l 0).
  assert (A : lsum (firstn j l) <= INR j * c). { assert (L : length (firstn j l) = j) by (rewrite firstn_length; lia). rewrite <- L at 2. apply lsum_le_c. intros x Hx. apply in_firstn_nth in Hx. destruct Hx as (i & H1 & H2 & ->). apply nth_le; [exact S|lia|lia]. }
  assert (B : INR (length (skipn j l)) * c <= lsum (skipn j l)). { apply lsum_ge_c. intros x Hx. apply in_skipn_nth in Hx. destruct Hx as (i & H1 & H2 & ->). apply nth_le; [exact S|lia|lia]. }
  rewrite <- (firstn_skipn j l) at 2 3. rewrite lsum_app2, app_length, plus_INR. rewrite firstn_length, Nat.min_l by lia.
  pose proof (pos_INR j). pose proof (pos_INR (length (skipn j l))). set (q := INR (length (skipn j l))) in *. set (s1 := lsum (firstn j l)) in *. set (s2 := lsum (skipn j l)) in *. assert (q * s1 <= INR j * s2); [|lra].
  apply Rle_trans with (q * (INR j * c)); [apply Rmult_le_compat_l; assumption|]. replace (q * (INR j * c)) with (INR j * (q * c)) by ring. apply Rmult_le_compat_l; assumption.
Qed.
Lemma top_bounds gain nSl m t lo hi : 0 < gain -> top_pixels gain nSl m = Ok t -> (forall x, In x m -> lo <= x <= hi) -> forall x, In x t -> lo / gain <= x <= hi / gain.
Proof.
  intros G E B x Hx. rewrite (top_pixels_spec _ _ _ _ E) in Hx by (intros _; lra). assert (In x (rsort (map (fun x => x / gain) m))) as H by (rewrite <- (firstn_skipn (length m - n_kept nSl (length m)) (rsort _)); apply in_or_app; now right). apply (Permutation_in _ (Permutation_sym (rsort_perm _))) in H. apply in_map_iff in H. destruct H as (y & <- & Hy). specialize (B y Hy). split; apply Rmult_le_compat_r; try (left; apply Rinv_0_lt_compat, G); lra.
Qed.
Lemma lsum_concat_le (N K : nat) gain nSl maps tops : 0 < gain -> mapM (top_pixels gain nSl) maps = Ok tops -> (forall m, In m maps -> length m = N) -> K = n_kept nSl N ->
  INR K * lsum (concat maps) / gain <= INR N * lsum (concat tops) /\ length (concat tops) = (length maps * K)%nat /\ length (concat maps) = (length maps * N)%nat /\ (forall t, In t tops -> length t = K).
Proof.
  intros G E L EK. revert tops E. induction maps as [|m maps IH]; intros tops E; cbn [mapM] in E.
  - apply Ok_inj in E. subst tops. cbn. repeat split; try lra. intros t [].
  - destruct (top_pixels gain nSl m) as [t|] eqn:T; cbn [bind] in E; [|discriminate]. destruct (mapM _ maps) as [ts|]; cbn [bind] in E; [|discriminate]. apply Ok_inj in E. subst tops. destruct (IH (fun m Hm => L m (or_intror Hm)) ts eq_refl) as (A & B & C & D). cbn [concat]. rewrite !lsum_app2, !app_length, B, C.
    pose proof (top_len _ _ _ _ T ltac:(intros _; lra)) as LT. rewrite (L m (or_introl eq_refl)) in *. split; [|split; [cbn [length]; lia|split; [cbn [length]; lia|intros t' [<-|H]; [congruence|now apply D]]]].
    assert (Q : INR K * lsum m / gain <= INR N * lsum t).
    { pose proof (top_pixels_spec _ _ _ _ T ltac:(intros _; lra)) as ET. set (s := rsort (map (fun x => x / gain) m)) in *. assert (LS : length s = N) by (unfold s; rewrite <- (Permutation_length (rsort_perm _)), map_length; apply L; now left). pose proof (top_mean s (length m - n_kept nSl (length m)) (rsort_sorted _) ltac:(rewrite LS, (L m (or_introl eq_refl)); lia)) as M. rewrite <- ET in M. rewrite LS in M. rewrite LT in M. rewrite <- EK in M. replace (INR K * lsum m / gain) with (INR K * lsum s); [exact M|]. unfold s. rewrite <- (lsum_perm _ _ (rsort_perm _)). unfold Rdiv. rewrite Rmult_assoc. f_equal. clear. induction m as [|x m IH]; [cbn; ring|]. cbn [map]. unfold lsum in *. cbn [fold_right]. rewrite IH. ring. }
    unfold Rdiv in *. lra.
Qed.
Lemma lmean_const_in l v : l <> [] -> (forall x, In x l -> x = v) -> lmean l = v.
Proof. intros N H. pose proof (lmean_bounds l v v N) as Q. assert (v <= lmean l <= v) by (apply Q; intros x Hx; rewrite (H x Hx); lra). lra. Qed.
Lemma mapM_some {A B} (f : A -> result B) l v : mapM f l = Ok v -> forall b, In b v -> exists a, In a l /\ f a = Ok b.
Proof.
  revert v. induction l as [|x l IH]; intros v E b Hb; cbn [mapM] in E; [apply Ok_inj in E; subst v; destruct Hb|]. destruct (f x) as [y|] eqn:F; cbn [bind] in E; [|discriminate]. destruct (mapM f l) as [w|]; cbn [bind] in E; [|discriminate]. apply Ok_inj in E. subst v. destruct Hb as [<-|Hb]; [exists x; split; [now left|exact F]|]. destruct (IH w eq_refl b Hb) as (a & H1 & H2). exists a. split; [now right|exact H2].
Qed.
(** The flux is between the darkest and the brightest pixel, at least the mean of all the pixels; the noise is nonnegative, and
    null when the exposures are identical. *)
Theorem C124_photons : forall maps gain nSl N n r lo hi, 0 < gain -> (0 < N)%nat -> (forall m, In m maps -> length m = N) -> (exists m x, In m maps /\ In x m /\ x <> 0) ->
  (forall m x, In m maps -> In x m -> lo <= x <= hi) -> photons maps gain nSl = Ok (n, r) ->
  lo / gain <= n <= hi / gain /\ lsum (concat maps) / INR (length (concat maps)) / gain <= n /\ 0 <= r /\ ((forall m m', In m maps -> In m' maps -> m = m') -> r = 0).
Proof.
  intros maps gain nSl N n r lo hi G N0 L (m0 & x0 & M0 & X0 & NX) B E. unfold photons in E.
  assert (existsb (existsb nonzero) maps = true) as EX by (apply existsb_exists; exists m0; split; [exact M0|]; apply existsb_exists; exists x0; split; [exact X0|]; unfold nonzero; destruct (Req_EM_T x0 0); [contradiction|reflexivity]).
  rewrite EX in E. destruct (mapM _ maps) as [tops|] eqn:ET; cbn [bind] in E; [|discriminate]. destruct (lsum_concat_le N (n_kept nSl N) gain nSl maps tops G ET L eq_refl) as (A1 & A2 & A3 & A4). pose proof (n_kept_le nSl N) as (K1 & K2). specialize (K2 N0). set (K := n_kept nSl N) in *.
  assert (LM : (0 < length maps)%nat) by (destruct maps; [destruct M0|cbn; lia]). assert (LC : (0 < length (concat tops))%nat) by nia.
  assert (I0 : 0 < INR (length (concat tops))) by (apply lt_0_INR; exact LC).
  unfold rmeanl in E. rewrite rdiv_ok in E by lra. cbn [bind] in E. destruct (mapM _ (seq _ _)) as [sd|] eqn:ES; cbn [bind] in E; [|discriminate]. destruct (median sd) as [r'|] eqn:EM; cbn [bind] in E; [|discriminate]. apply Ok_inj in E. injection E as <- <-.
  split; [|split; [|split]].
  - change (lsum (concat tops) / INR (length (concat tops))) with (lmean (concat tops)). apply lmean_bounds; [destruct (concat tops); [cbn in LC; lia|discriminate]|]. intros x Hx. apply in_concat in Hx. destruct Hx as (t & Ht & Hx). destruct (mapM_some _ _ _ ET t Ht) as (m & Hm & Et). apply (top_bounds gain nSl m t lo hi G Et); [intros y Hy; now apply (B m)|exact Hx].
  - rewrite A2, A3, !mult_INR. assert (0 < INR (length maps)) by (apply lt_0_INR; lia). assert (0 < INR N) by (apply lt_0_INR; lia). assert (0 < INR K) by (apply lt_0_INR; lia).
    apply Rmult_le_reg_l with (INR (length maps) * INR N * INR K); [apply Rmult_lt_0_compat; [apply Rmult_lt_0_compat|]; assumption|].
    replace (INR (length maps) * INR N * INR K * (lsum (concat maps) / (INR (length maps) * INR N) / gain)) with (INR K * lsum (concat maps) / gain) by (field; repeat split; lra). replace (INR (length maps) * INR N * INR K * (lsum (concat tops) / (INR (length maps) * INR K))) with (INR N * lsum (concat tops)) by (field; repeat split; lra). exact A1.
  - destruct (median_between _ _ EM) as (a & b & Ha & Hb & Hab). destruct (mapM_some _ _ _ ES a Ha) as (k & Hk & Ek). unfold nanstd in Ek. destruct (length (column k tops) =? 0)%nat; [discriminate|]. apply Ok_inj in Ek. subst a. eapply Rle_trans; [apply sqrt_pos|exact (proj1 Hab)].
  - intros SAME. destruct (median_between _ _ EM) as (a & b & Ha & Hb & Hab).
    assert (Z : forall s, In s sd -> s = 0); [|rewrite (Z a Ha), (Z b Hb) in Hab; lra]. intros s Hs. destruct (mapM_some _ _ _ ES s Hs) as (k & Hk & Ek). unfold nanstd in Ek. destruct (length (column k tops) =? 0)%nat eqn:EL; [discriminate|]. apply Ok_inj in Ek. subst s.
    assert (C0 : exists v, forall x, In x (column k tops) -> x = v). { destruct tops as [|t0 ts]; [exists 0; intros x []|]. exists (nth k t0 0). intros x Hx. unfold column in Hx. apply in_map_iff in Hx. destruct Hx as (t & <- & Ht). destruct (mapM_some _ _ _ ET t Ht) as (m & Hm & Et). destruct (mapM_some _ _ _ ET t0 (or_introl eq_refl)) as (m' & Hm' & Et'). rewrite (SAME m m' Hm Hm') in Et. congruence. }
    destruct C0 as (v & C0). assert (NE : column k tops <> []) by (destruct (column k tops); [discriminate|discriminate]). rewrite <- sqrt_0. f_equal. rewrite (lmean_const_in _ v NE C0). 
    transitivity (lmean (map (fun _ : R => 0) (column k tops))); [f_equal; apply map_ext_in; intros x Hx; rewrite (C0 x Hx); ring|]. unfold lmean. rewrite lsum_map_const. unfold Rdiv. ring.
Qed.

(** * Non-vacuity *)
(** two frames of two actuators, one mode (the difference of the two), latency of half a frame *)
Definition ex_com : img := mkImg 2 2 (fun t a => if Nat.eqb t a then 1 else 0).
Definition ex_res : img := mkImg 2 2 (fun t a => 0).
Example C124_ex : exists Cho Ctt, reconstruct_zernike (fun _ _ _ => Ok (mkImg 1 2 (fun _ k => if Nat.eqb k 0 then 1 else -1))) (mkImg 4 2 (fun q k => INR q)) [true; true] 1 2 None None None (1/2) 2 ex_com ex_res false ex_res 1 = Ok (Cho, Ctt) /\ px Cho 0 0 = 1 /\ (0 < rows Cho)%nat.
Proof.
  unfold reconstruct_zernike, select_actuators, u_ol, zer_coeffs, cov_rows, cov_tt. cbn [falsy andb negb length seq combine filter snd map fst rows cols Nat.eqb bind ex_com ex_res act_ok act_ix].
  destruct (Req_EM_T 2 0) as [|_]; [lra|]. cbn [bind]. do 2 eexists. split; [reflexivity|]. cbn [px rows rsum nth Nat.eqb]. split; [|lia].
  assert (D : forall t a, px (com_delta (1/2) ex_res) t a = 0) by (intros t a; unfold com_delta, flat_roll; cbn [px ex_res]; ring). unfold ex_res in D. rewrite !D. cbn [INR]. unfold ex_com; cbn [px Nat.eqb]; field.
Qed.
(** a 2 x 2 grid of pixels, one influence function with its peak in the first pixel: radius sqrt 2 *)
Example C124_select_ex : exists f, select_actuators (mkImg 4 1 (fun q _ => if Nat.eqb q 0 then 1 else 0)) [true] 1 3 (Some 1) (Some 4) = Ok (f, Ix [0%nat]).
Proof.
  assert (A : forall s, act_radius (mkImg 4 1 (fun q _ => if Nat.eqb q 0 then 1 else 0)) 2 s 0 = Ok (s * sqrt 2)).
  { intros s. unfold act_radius. cbn [rows seq map px Nat.eqb argmax_list]. destruct (Rle_dec 0 0); [|lra]. destruct (Rle_dec 0 0); [|lra]. destruct (Rle_dec 0 1); [|lra]. apply f_equal, f_equal, f_equal. cbn. field. }
  unfold select_actuators. cbn [falsy andb rows cols]. destruct (Req_EM_T 1 0) as [|_]; [lra|]. cbn [andb]. change (Nat.sqrt 4) with 2%nat. cbn [Nat.eqb Nat.mul Nat.add negb seq M_Tools.mapM]. rewrite A. cbn [bind]. cbn [combine filter snd].
  assert (S1 : 1 < sqrt 2 < 2). { split; [rewrite <- sqrt_1 at 1; apply sqrt_lt_1; lra|]. rewrite <- (sqrt_square 2) at 2 by lra. apply sqrt_lt_1; lra. }
  replace (1 * (INR 3 - 1) / INR 2 * sqrt 2) with (sqrt 2) by (cbn [INR]; field). destruct (Rle_dec (sqrt 2) (4 / 2)); [|lra]. destruct (Rle_dec (1 / 2) (sqrt 2)); [|lra]. cbn [andb map fst]. unfold take_cols. cbn [cols existsb Nat.leb orb]. cbn [bind]. eexists. reflexivity.
Qed.
Example C124_photons_ex : exists n r, photons [[1; 3]; [1; 3]] 1 2 = Ok (n, r).
Proof.
  unfold photons. cbn [existsb]. unfold nonzero. destruct (Req_EM_T 1 0) as [|_]; [lra|]. cbn [orb].
  assert (T : top_pixels 1 2 [1; 3] = Ok [3 / 1]). { unfold top_pixels. cbn [M_Tools.mapM]. rewrite !rdiv_ok by lra. cbn [bind]. assert (S : rsort [1 / 1; 3 / 1] = [1 / 1; 3 / 1]) by (apply rsort_id; repeat constructor; lra). rewrite S. reflexivity. }
  cbn [M_Tools.mapM]. rewrite !T. cbn [bind concat app]. unfold rmeanl. rewrite rdiv_ok by (cbn; lra). cbn [bind nth length seq M_Tools.mapM]. unfold nanstd at 1. cbn [column map length Nat.eqb bind]. match goal with |- context [median ?l] => destruct (median_def l) as (m & Em); [discriminate|] end. rewrite Em. cbn [bind]. eauto.
Qed.

Print Assumptions C124_covariance.
Print Assumptions C124_no_piston.
Print Assumptions C124_zero_mean.
Print Assumptions C124_static.
Print Assumptions C124_scale.
Print Assumptions C124_weights.
Print Assumptions C124_integer_delay_refuted.
Print Assumptions C124_roll_refuted.
Print Assumptions C124_no_interpolation.
Print Assumptions C124_tiptilt_refuted.
Print Assumptions C124_select.
Print Assumptions C124_select_valid.
Print Assumptions C124_one_diameter_refuted.
Print Assumptions C124_photons.
