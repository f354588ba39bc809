(** C72: noise and spatio-temporal spectra of a tomographic system. *)
From Coq Require Import Reals List Arith ZArith Bool Lia Lra Psatz.
From Verif Require Import Base_Py Base_Sum Base_DFT M_Tools M_Freq M_Atmo M_Sensor M_Model S_Model L_Model M_Tomo S_Tomo L_Tomo L_Tomo2 L_Ginv L_Atmo P_Model2 P_Tomo.
From Coquelicot Require Import Complex.
Import ListNotations.
Open Scope R_scope.

Lemma pDm_sees t bx by' i j m : pDm t bx by' i j m = mirror_sees (dm_ t m) (kx t i j) (ky t i j) bx by'.
Proof. reflexivity. Qed.
Lemma noise_qf t N q : (forall a b, N a b = RtoC (noise_cov t a b)) -> qf (nGs t) N q = noise_var t q.
Proof. intros DN. unfold qf, noise_var. change (Re ?x) with (fst x). rewrite csum_Re. apply rsum_ext. intros a _. rewrite csum_Re. apply rsum_ext. intros b _. rewrite DN. cbn. ring. Qed.

(** C72: the spatio-temporal spectrum in the direction of source s is, frequency by
    frequency, the spectrum of the turbulence times the weighted sum over the layers of
    the squared modulus of what the mirrors leave of each layer: it is never negative,
    null outside the corrected area and at the centre; the piston filter enters squared. *)
Theorem C72_residual : forall t W s i j w, valid_tomo t -> t_rate t <> 0 -> Wphi (t_y t) i j = Ok w ->
  let b := nth s (t_src t) (0, 0) in
  let left l := left_over t W (kxAO (t_y t) i j) (kyAO (t_y t) i j) (fst b) (snd b) (1 / t_rate t) (t_delay t / t_rate t) l in
  exists v, tomoSTPSD true W t s i j = Ok v /\
  v = maskAO (t_y t) i j * (pistonAO (t_y t) i j ^ 2 * w * lsum (map (fun l => tl_w l * cnorm2 (left l)) (t_lay t))) /\ 0 <= v /\
  (maskAO (t_y t) i j = 0 -> v = 0) /\ (centre (t_y t) i j = true -> v = 0).
Proof.
  intros t W s i j w HV Hr E b left. unfold tomoSTPSD, PbetaL, MPalphaL, tCphi. cbn [negb]. rewrite !rdiv_ok by exact Hr. cbn [bind]. rewrite (kernel_ok t i j w E). cbn [bind].
  eexists. split; [reflexivity|]. rewrite qf_mmul. fold b.
  match goal with |- context [qf (nL t) _ ?P] => set (pr := P) end.
  assert (PR : forall l, (l < nL t)%nat -> pr l = left (lay_ t l)).
  { intros l Hl. unfold pr, msub, left, left_over. f_equal. f_equal. unfold mmul. apply csum_ext. intros m _. unfold PbetaDM. fold b. rewrite pDm_sees. f_equal. apply csum_ext. intros g _. f_equal.
    unfold sees_moving, sees, imag, wdx, wdy, kk, kx, ky, k2AO. cbv zeta. rewrite <- !Cmult_assoc. 
    apply C_eq; unfold Cmult, RtoC, cis; cbn [fst snd]; [ring_simplify|ring_simplify]; rewrite ?(Rmult_comm (kxAO (t_y t) i j) (g_x _)), ?(Rmult_comm (kyAO (t_y t) i j) (g_y _)); ring. }
  assert (Q : qf (nL t) (mscal (w * pistonAO (t_y t) i j) (mdiag (fun l => tl_w (lay_ t l)))) pr = w * pistonAO (t_y t) i j * lsum (map (fun l => tl_w l * cnorm2 (left l)) (t_lay t))).
  { transitivity (qf (nL t) (mdiag (fun l => (w * pistonAO (t_y t) i j) * tl_w (lay_ t l))) pr).
    - unfold qf. f_equal. apply csum_ext. intros a _. apply csum_ext. intros c _. f_equal. f_equal. unfold mscal, mdiag. destruct (a =? c)%nat; apply C_eq; cbn; ring.
    - rewrite qf_diag. rewrite (rsum_ext _ _ (fun l => (w * pistonAO (t_y t) i j) * (tl_w (lay_ t l) * cnorm2 (left (lay_ t l))))) by (intros l Hl; rewrite PR by exact Hl; change c2 with cnorm2; ring).
      rewrite rsum_scal. f_equal. unfold lay_, nL. clear. induction (t_lay t) as [|x r IH]; [reflexivity|]. cbn [length]. rewrite rsum_S_l. cbn [nth map lsum fold_right]. rewrite IH. reflexivity. }
  rewrite Q. destruct (kernel_nonneg t i j HV) as (w' & E' & Pw & _). rewrite E in E'. injection E' as <-.
  assert (L0 : 0 <= lsum (map (fun l => tl_w l * cnorm2 (left l)) (t_lay t))).
  { apply lsum_nonneg. intros x Hx. apply in_map_iff in Hx. destruct Hx as (l & <- & Hl). apply Rmult_le_pos; [destruct HV as (_ & HW & _); now apply HW|apply c2_pos]. }
  set (S := lsum (map (fun l => tl_w l * cnorm2 (left l)) (t_lay t))) in *. clearbody S.
  pose proof (mask_nonneg (t_y t) i j) as M0. destruct (piston_range (t_y t) i j) as (P0 & _).
  split; [ring|]. split; [repeat apply Rmult_le_pos; try assumption; lra|]. split; [intros ->; ring|]. intros C0. unfold pistonAO. rewrite C0. ring.
Qed.
Print Assumptions C72_residual.

(** the noise spectrum is the variance of the combination of noises that the mirrors put
    in the direction of the source, times a gain between 0.16 and 0.64 that grows with
    the delay of the loop *)
Theorem C72_noise : forall t W s i j v0, valid_tomo t -> hd_error (t_noise t) = Some v0 -> 0 < v0 ->
  let b := nth s (t_src t) (0, 0) in
  exists v, tomoNoisePSD W t s i j = Ok (Some v) /\
  v = maskAO (t_y t) i j * pistonAO (t_y t) i j * Rmin (8 / 10) (4 / 10 + 1333 / 10000 * t_delay t) ^ 2 *
      noise_var t (commands t W (kxAO (t_y t) i j) (kyAO (t_y t) i j) (fst b) (snd b)) /\ 0 <= v /\
  (maskAO (t_y t) i j = 0 -> v = 0) /\ (centre (t_y t) i j = true -> v = 0).
Proof.
  intros t W s i j v0 HV Hh P0 b. unfold tomoNoisePSD. pose proof HV as (_ & _ & _ & Hv & Hne & _). destruct (mean_nonneg _ Hne Hv) as (m & -> & _). cbn [bind].
  assert (X : pyindex (t_noise t) 0 = Ok v0) by (destruct (t_noise t); cbn in Hh; [discriminate|injection Hh as ->; reflexivity]). rewrite X. cbn [bind]. destruct (Rlt_dec 0 v0) as [_|N]; [|contradiction].
  destruct (tCb_ok t HV) as (N & -> & DN & (HN & PN)). cbn [bind]. eexists. split; [reflexivity|]. rewrite qf_mmul, (noise_qf t N _ DN).
  set (q := mmul (nDm t) (PbetaDM t s i j) W 0%nat). assert (Q : q = commands t W (kxAO (t_y t) i j) (kyAO (t_y t) i j) (fst b) (snd b)) by reflexivity. rewrite <- Q.
  assert (NV : 0 <= noise_var t q) by (rewrite <- (noise_qf t N q DN); apply PN).
  unfold noise_gain. replace 0.8 with (8 / 10) by lra. replace 0.4 with (4 / 10) by lra. replace 0.1333 with (1333 / 10000) by lra.
  set (g := Rmin _ _). pose proof (mask_nonneg (t_y t) i j) as M0. destruct (piston_range (t_y t) i j) as (Pp & _). assert (G0 : 0 <= g ^ 2) by nra.
  split; [ring|]. split; [generalize dependent (g ^ 2); intros g2 G0; repeat apply Rmult_le_pos; assumption|]. split; [intros ->; ring|]. intros C0. unfold pistonAO. rewrite C0. ring.
Qed.
Print Assumptions C72_noise.
Theorem C72_noise_gain : forall t, 0 <= t_delay t -> 16 / 100 <= noise_gain t <= 64 / 100 /\ forall t', t_delay t <= t_delay t' -> noise_gain t <= noise_gain t'.
Proof.
  intros t H. unfold noise_gain. assert (R1 : 0.4 <= Rmin 0.8 (0.4 + 0.1333 * t_delay t) <= 0.8) by (unfold Rmin; destruct (Rle_dec _ _); lra).
  split; [nra|]. intros t' H'. assert (R2 : Rmin 0.8 (0.4 + 0.1333 * t_delay t) <= Rmin 0.8 (0.4 + 0.1333 * t_delay t')) by (apply Rle_min_compat_l; lra). nra.
Qed.
Print Assumptions C72_noise_gain.
(** At a frequency above the cut-off of all mirrors nothing is corrected: the spectrum is
    the one of the whole turbulence, and no noise is propagated. *)
Theorem C72_beyond_mirrors : forall t W s i j w v0, valid_tomo t -> t_rate t <> 0 -> Wphi (t_y t) i j = Ok w -> hd_error (t_noise t) = Some v0 -> 0 < v0 ->
  (forall m, In m (t_dm t) -> d_kc m < sqrt (k2AO (t_y t) i j)) ->
  tomoSTPSD true W t s i j = Ok (maskAO (t_y t) i j * (pistonAO (t_y t) i j ^ 2 * w * lsum (map tl_w (t_lay t)))) /\ tomoNoisePSD W t s i j = Ok (Some 0).
Proof.
  intros t W s i j w v0 HV Hr E Hh P0 HK.
  assert (Z : forall m bx by', (m < nDm t)%nat -> mirror_sees (dm_ t m) (kxAO (t_y t) i j) (kyAO (t_y t) i j) bx by' = RtoC 0).
  { intros m bx by' Hm. unfold mirror_sees. destruct (Rle_dec _ _) as [L|]; [|reflexivity]. exfalso. specialize (HK (dm_ t m) (nth_In _ _ Hm)). unfold k2AO in HK. lra. }
  split.
  - destruct (C72_residual t W s i j w HV Hr E) as (v & -> & -> & _). f_equal. f_equal. f_equal. f_equal. apply map_ext. intros l. unfold left_over. rewrite csum_zero.
    + assert (Z0 : forall z, cnorm2 (Cminus z (RtoC 0)) = c2 z) by (intros [a b]; unfold cnorm2, c2; cbn; ring). rewrite Z0, c2_cis. ring.
    + intros m Hm. rewrite Z by exact Hm. ring.
  - destruct (C72_noise t W s i j v0 HV Hh P0) as (v & -> & -> & _). do 2 f_equal.
    assert (NV : forall q, (forall g, q g = RtoC 0) -> noise_var t q = 0). { intros q Hq. unfold noise_var. apply rsum_zero. intros a _. apply rsum_zero. intros c _. rewrite !Hq. cbn. ring. }
    rewrite NV; [ring|]. intros g. unfold commands. apply csum_zero. intros m Hm. rewrite Z by exact Hm. ring.
Qed.
Print Assumptions C72_beyond_mirrors.
(** REFUTED: a noise-free tomographic system has no noise spectrum: when the first noise
    variance is zero, an array without the axis of the sources is returned, that cannot be
    stored among the contributions unless the sizes happen to agree. *)
Theorem C72_noise_free_refuted : forall t W v0, valid_tomo t -> hd_error (t_noise t) = Some v0 ->
  (0 < v0 -> store_noise t W = Ok tt) /\
  (v0 = 0 -> y_res (t_y t) <> length (t_src t) -> y_res (t_y t) <> 1%nat -> store_noise t W = Err ValueError).
Proof.
  intros t W v0 HV Hh. split.
  - intros P0. unfold store_noise. destruct (C72_noise t (W 0 0)%nat 0 0 0 v0 HV Hh P0) as (v & -> & _). reflexivity.
  - intros -> H1 H2. unfold store_noise, tomoNoisePSD. pose proof HV as (_ & _ & _ & Hv & Hne & _). destruct (mean_nonneg _ Hne Hv) as (m & -> & _). cbn [bind].
    assert (X : pyindex (t_noise t) 0 = Ok 0) by (destruct (t_noise t); cbn in Hh; [discriminate|injection Hh as ->; reflexivity]). rewrite X. cbn [bind]. destruct (Rlt_dec 0 0); [lra|]. cbn [bind].
    destruct (Nat.eqb_spec (y_res (t_y t)) (length (t_src t))); [contradiction|]. destruct (Nat.eqb_spec (y_res (t_y t)) 1); [contradiction|]. reflexivity.
Qed.
Print Assumptions C72_noise_free_refuted.
Example C72_nonvacuous : valid_tomo ex_t /\ t_rate ex_t <> 0 /\ hd_error (t_noise ex_t) = Some (1 / 2) /\ 0 < 1 / 2 /\ 0 <= t_delay ex_t /\ maskAO (t_y ex_t) 4 5 = 1 /\ pistonAO (t_y ex_t) 4 5 = 1 /\
  valid_tomo (ex_tomo [0; 1]) /\ y_res (t_y (ex_tomo [0; 1])) <> length (t_src (ex_tomo [0; 1])).
Proof.
  split; [apply C53_nonvacuous|]. split; [cbn; lra|]. split; [reflexivity|]. split; [lra|]. split; [cbn; lra|]. split; [apply ex_mask; now right|]. split; [apply ex_piston; discriminate|].
  split; [apply ex_tomo_valid; right; exists 0, 1; repeat split; lra|]. cbn. discriminate.
Qed.
