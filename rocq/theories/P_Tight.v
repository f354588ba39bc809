(** Complements found by mutation testing: C72 (storage of the noise-free spectrum), C78 (size of the overlap),
    C80 (default Fried parameter), C85 (the noiseless option). *)
From Coq Require Import Reals List Arith ZArith Bool Lia Lra String.
From Verif Require Import Base_Py M_Image M_Tools M_Atmo M_Freq M_Sensor M_Model M_Tomo S_Tomo L_Tomo L_Tomo2 P_Tomo P_Tomo2 M_Diag M_Psfr L_Model M_Model2 L_Freq S_Atmo L_Atmo P_Atmo L_Psfr.
Import ListNotations.
Open Scope R_scope.

(** A noise-free tomographic system whose array happens to have one line, or as many lines as there are sources, is stored;
    with a first noise variance of zero these are the only ones. *)
Theorem C72_noise_free_sizes : forall t W, valid_tomo t -> hd_error (t_noise t) = Some 0 ->
  (store_noise t W = Ok tt <-> y_res (t_y t) = List.length (t_src t) \/ y_res (t_y t) = 1%nat).
Proof.
  intros t W HV Hh. unfold store_noise, tomoNoisePSD. pose proof HV as (_ & _ & _ & Hv & Hne & _). destruct (mean_nonneg _ Hne Hv) as (m & -> & _). cbn [bind].
  assert (X : pyindex (t_noise t) 0 = Ok 0) by (destruct (t_noise t); cbn in Hh; [discriminate|injection Hh as ->; reflexivity]). rewrite X. cbn [bind]. destruct (Rlt_dec 0 0); [lra|]. cbn [bind].
  destruct (Nat.eqb_spec (y_res (t_y t)) (List.length (t_src t))); destruct (Nat.eqb_spec (y_res (t_y t)) 1); cbn [orb]; split; intros; try reflexivity; try discriminate; tauto.
Qed.
(** The overlap of the pupil is computed on the whole padded support, also when it is not square. *)
Theorem C78_overlap_size : forall P, rows (otf_G P) = rows P /\ cols (otf_G P) = cols P.
Proof. intros P. split; reflexivity. Qed.
(** With the noiseless option the covariance is the null matrix of the slopes (one row and one column per slope), and the slopes are left as they are. *)
Theorem C85_noiseless : forall s L interp u, exists c, fst (noise_variance Nonoise s L interp u) = Ok c /\ rows c = cols u /\ cols c = cols u /\ (forall i j, px c i j = 0) /\ snd (noise_variance Nonoise s L interp u) = u.
Proof. intros. eexists. split; [reflexivity|]. repeat split. Qed.
(** The Fried parameter of the error breakdown of a reconstructed PSF: the one given if it is not zero, otherwise the one of the atmosphere scaled to the imaging wavelength with the power 6/5. *)
Theorem C80_r0 : forall b, 0 < b_wvl b -> 0 < b_atm_wvl b ->
  (forall r, r <> 0 -> b_r0 b = Some r -> psfr_r0 b = Ok r) /\
  (b_r0 b = None \/ b_r0 b = Some 0 -> psfr_r0 b = Ok (b_atm_r0 b * Rpower (b_wvl b / b_atm_wvl b) (6 / 5))).
Proof.
  intros b H1 H2. split.
  - intros r Hr E. unfold psfr_r0. rewrite E. destruct (Req_EM_T r 0); [contradiction|reflexivity].
  - assert (Q : (do t <- rdiv (b_wvl b) (b_atm_wvl b); do p <- rpow t (12 / 10); Ok (b_atm_r0 b * p)) = Ok (b_atm_r0 b * Rpower (b_wvl b / b_atm_wvl b) (6 / 5))).
    { rewrite rdiv_ok by lra. cbn [bind]. rewrite rpow_pos by (apply Rdiv_lt_0_compat; assumption). cbn [bind]. replace (12 / 10) with (6 / 5) by lra. reflexivity. }
    intros [E|E]; unfold psfr_r0; rewrite E; [exact Q|]. destruct (Req_EM_T 0 0); [exact Q|congruence].
Qed.

(** * C123: open loop (gain of the high-order loop set to zero) *)
(** With a finite outer scale the spectrum of every source that has one is defined at every pixel and nonnegative; it is at
    most the one of the turbulence (in nm^2), to which it is equal where the piston filter is one; it does not depend on
    the guide stars, on the sources or on the loop; at two Fried parameters it is in the ratio of their powers -5/3. *)
Theorem C123_open_loop : forall c sp at_ j1 D fk a b L, special_pos sp -> a_L0 at_ = LNum (Fin L) -> 0 < L -> 0 < a_r0 at_ ->
  exists p s v, openLoop c sp at_ j1 D fk = [p] /\ spectrum sp at_ (fk a b) = Ok s /\ p a b = Ok v /\
    0 <= v <= s * (k_dk c * k_rad2nm c) ^ 2 /\ (pistonFilter j1 D (fk a b) = 1 -> v = s * (k_dk c * k_rad2nm c) ^ 2) /\
    (forall at2 c2, a_L0 at2 = a_L0 at_ -> 0 < a_r0 at2 -> k_dk c2 = k_dk c -> k_rad2nm c2 = k_rad2nm c ->
       exists v2, openLoopPSD c2 sp at2 j1 D fk a b = Ok v2 /\ v2 = v * Rpower (a_r0 at2 / a_r0 at_) (- 5 / 3)).
Proof.
  intros c sp at_ j1 D fk a b L HS E HL Hr. pose proof (spectrum_fin sp at_ L (fk a b) E HL Hr) as ES. eexists; eexists; eexists. split; [reflexivity|]. split; [exact ES|]. unfold openLoopPSD. rewrite ES. cbn [bind]. split; [reflexivity|].
  pose proof (pistonFilter_range j1 D (fk a b)) as B. pose proof (cte_pos sp HS) as C.
  set (T := c1 sp * (g116 sp ^ 2 / (2 * Rpower PI (11 / 3)))) in *. set (K := Rpower (fk a b ^ 2 + 1 / L ^ 2) (- 11 / 6)) in *. assert (K0 : 0 < K) by apply exp_pos. assert (R0 : 0 < Rpower (a_r0 at_) (- 5 / 3)) by apply exp_pos. set (P := pistonFilter j1 D (fk a b)) in *. set (q := (k_dk c * k_rad2nm c) ^ 2). assert (q0 : 0 <= q) by apply pow2_ge_0.
  assert (S0 : 0 < Rpower (a_r0 at_) (- 5 / 3) * T * K) by (apply Rmult_lt_0_compat; [apply Rmult_lt_0_compat|]; assumption).
  split; [split|split].
  - apply Rmult_le_pos; [|exact q0]. apply Rmult_le_pos; lra.
  - apply Rmult_le_compat_r; [exact q0|]. rewrite <- (Rmult_1_r (Rpower (a_r0 at_) (- 5 / 3) * T * K)) at 2. apply Rmult_le_compat_l; lra.
  - intros ->. ring.
  - intros at2 c2 E2 H2 D2 N2. rewrite (spectrum_fin sp at2 L) by (congruence || assumption). cbn [bind]. eexists. split; [reflexivity|]. rewrite D2, N2. fold q T K P. unfold Rdiv at 3. rewrite <- Rpower_mult_distr by (try assumption; apply Rinv_0_lt_compat; assumption). assert (I : Rpower (/ a_r0 at_) (- 5 / 3) * Rpower (a_r0 at_) (- 5 / 3) = 1). { rewrite Rpower_mult_distr by (try assumption; apply Rinv_0_lt_compat; assumption). rewrite Rinv_l by lra. unfold Rpower. rewrite ln_1, Rmult_0_r. apply exp_0. }
    transitivity (Rpower (a_r0 at2) (- 5 / 3) * T * K * P * q * (Rpower (/ a_r0 at_) (- 5 / 3) * Rpower (a_r0 at_) (- 5 / 3))); [rewrite I|]; ring.
Qed.
(** Only one plane is computed, whatever the number of sources: the second source has no spectrum (its PSF, its width and its Strehl ratio cannot be read). *)
Theorem C123_one_plane_refuted : forall c sp at_ j1 D fk n, (1 <= n)%nat -> nth_error (openLoop c sp at_ j1 D fk) n = None.
Proof. intros. apply nth_error_None. cbn. lia. Qed.
(** With an infinite outer scale a pixel of null frequency makes the whole spectrum undefined. *)
Theorem C123_infinite_scale : forall c sp at_ j1 D fk a b, special_pos sp -> a_L0 at_ = LNum Inf -> 0 < a_r0 at_ ->
  (fk a b = 0 -> openLoopPSD c sp at_ j1 D fk a b = Err NonFinite) /\ (fk a b <> 0 -> exists v, openLoopPSD c sp at_ j1 D fk a b = Ok v /\ 0 <= v).
Proof.
  intros c sp at_ j1 D fk a b HS E Hr. unfold openLoopPSD. split.
  - intros ->. rewrite (proj2 (C17_spectrum_infinite_L0 sp at_ HS E Hr)). reflexivity.
  - intros N. rewrite (spectrum_inf sp at_ (fk a b) E Hr N). cbn [bind]. eexists. split; [reflexivity|]. pose proof (pistonFilter_range j1 D (fk a b)) as B. pose proof (cte_pos sp HS) as C. apply Rmult_le_pos; [|apply pow2_ge_0]. apply Rmult_le_pos; [|lra]. apply Rmult_le_pos; [apply Rmult_le_pos; [left; apply exp_pos|lra]|left; apply exp_pos].
Qed.
Example C123_ex : exists p s v, openLoop (mkPC 4 2 3 1 0 false None false false 0 false 0 0 1 1) (mkSpecial 1 1 1 (fun x => x)) (mkAtmo 500 (1 / 10) [1] [0] (Scal 0) (Scal 0) (LNum (Fin 25)) []) (fun x => x) 8 (fun _ _ => 1) = [p] /\
  spectrum (mkSpecial 1 1 1 (fun x => x)) (mkAtmo 500 (1 / 10) [1] [0] (Scal 0) (Scal 0) (LNum (Fin 25)) []) 1 = Ok s /\ p 0%nat 0%nat = Ok v /\ 0 <= v <= s * (1 * 1) ^ 2.
Proof.
  destruct (C123_open_loop (mkPC 4 2 3 1 0 false None false false 0 false 0 0 1 1) (mkSpecial 1 1 1 (fun x => x)) (mkAtmo 500 (1 / 10) [1] [0] (Scal 0) (Scal 0) (LNum (Fin 25)) []) (fun x => x) 8 (fun _ _ => 1) 0%nat 0%nat 25) as (p & s & v & A & B & C & D & _); [repeat split; cbn; lra|reflexivity|lra|cbn; lra|]. exists p, s, v. auto.
Qed.

Print Assumptions C72_noise_free_sizes.
Print Assumptions C78_overlap_size.
Print Assumptions C85_noiseless.
Print Assumptions C80_r0.
Print Assumptions C123_open_loop.
Print Assumptions C123_one_plane_refuted.
Print Assumptions C123_infinite_scale.
