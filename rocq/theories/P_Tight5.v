(** Complements found by mutation testing: C18 (the covariance away from zero), C111 (angle of the instrument), C131 (Strehl ratios of the
    table), C132 (unit of the tip-tilt). *)
From Coq Require Import Reals List Arith ZArith Bool Lia Lra String Ascii.
From Verif Require Import Base_Py Base_Sum M_Image M_Atmo S_Atmo L_Atmo M_PsfrRun M_Telemetry M_Keck P_Telemetry.
Import ListNotations.
Open Scope R_scope.

(** C18: away from zero the covariance is the variance times the Matern correlation u^(5/6) K(u) / (2^(-1/6) Gamma(5/6)), u = 2 pi rho/L0,
    which is 1 in the limit of a null separation (x^a K_a(x) tends to 2^(a-1) Gamma(a)). *)
Theorem C18_matern : forall sp a L rho, a_L0 a = LNum (Fin L) -> 0 < L -> 0 < a_r0 a -> 0 < rho -> special_pos sp ->
  exists v, variance sp a = Ok v /\
  covariance sp a rho = Ok (v * (Rpower (2 * PI * rho / L) (5 / 6) * kv56 sp (2 * PI * rho / L) / (Rpower 2 (5 / 6 - 1) * g56 sp))).
Proof.
  intros sp a L rho E HL Hr Hrho (S1 & S2 & S3). rewrite (variance_val sp a L E HL Hr). eexists. split; [reflexivity|].
  assert (P := PI_RGT_0). unfold covariance, L0r0ratio. rewrite E. rewrite rdiv_ok by lra. cbn [bind].
  rewrite rpow_pos by (apply Rdiv_lt_0_compat; assumption). cbn [bind]. destruct (Req_EM_T rho 0); [lra|]. rewrite rdiv_ok by lra. cbn [bind].
  assert (U : 0 < 2 * PI * rho / L) by (apply Rdiv_lt_0_compat; [apply Rmult_lt_0_compat; lra|exact HL]). rewrite rpow_pos by exact U. cbn [bind]. f_equal.
  set (q := Rpower (L / a_r0 a) (5 / 3)). set (u := Rpower (2 * PI * rho / L) (5 / 6)). set (K := kv56 sp (2 * PI * rho / L)). unfold c2, c3.
  assert (T : Rpower 2 (5 / 6) = 2 * Rpower 2 (5 / 6 - 1)). { rewrite <- (Rpower_1 2) at 2 by lra. rewrite <- Rpower_plus. f_equal. lra. }
  rewrite T. set (t := Rpower 2 (5 / 6 - 1)). set (p := Rpower PI (8 / 3)). assert (0 < t) by apply exp_pos. assert (0 < p) by apply exp_pos. field. repeat split; lra.
Qed.
Example C18_matern_case : exists sp a, a_L0 a = LNum (Fin 25) /\ 0 < a_r0 a /\ special_pos sp.
Proof. exists (mkSpecial 1 1 1 (fun _ => 1)), (mkAtmo (5 / 10 ^ 7) (1 / 10) [1] [0] (Lst [5]) (Lst [0]) (LNum (Fin 25)) []). cbn. unfold special_pos. cbn. repeat split; lra. Qed.

(** C111: the angle of the instrument is the recorded one for NIRC2, 42.5 degrees less for OSIRIS and zero otherwise. *)
Theorem C111_instrument_angle : forall h i a, h_str h "CURRINST" = Some i -> h_num h "INSTANGL" = Some a ->
  exists r, getInstAngle h = Ok r /\ (i = "NIRC2"%string -> r = a) /\ (i = "OSIRIS"%string -> 2 * r = 2 * a - 85) /\ (i <> "NIRC2"%string -> i <> "OSIRIS"%string -> r = 0).
Proof.
  intros h i a H1 H2. unfold getInstAngle, key. rewrite H1. cbn [bind]. rewrite H2. cbn [bind].
  destruct (String.eqb_spec i "NIRC2") as [->|N1]. { exists a. split; [reflexivity|]. split; [reflexivity|]. split; [discriminate|]. intros Q; contradiction. }
  destruct (String.eqb_spec i "OSIRIS") as [->|N2]. { eexists. split; [reflexivity|]. split; [discriminate|]. split; [intros _; lra|]. intros _ Q; contradiction. }
  exists 0. split; [reflexivity|]. split; [contradiction|]. split; [contradiction|]. reflexivity.
Qed.

(** C131: the Strehl ratio of the camera is recorded as given; those of the reconstructed PSF and of its peak, in per cent, as fractions. *)
Theorem C131_strehl_columns : forall c s p t w d,
  nth 0 (kasp_row c s p t w d) 0 = c /\ 100 * nth 1 (kasp_row c s p t w d) 0 = s /\ 100 * nth 2 (kasp_row c s p t w d) 0 = p.
Proof. intros. unfold kasp_row. cbn [nth]. repeat split; field. Qed.

(** C132: without laser one unit of slope or command is one arcsecond of tilt over the diameter (pi/648000 radian); with the laser the slopes
    are in units of 0.18 of the command's. The results are the centred records in metres. *)
Theorem C132_tilt_unit : forall laser D sl co t k,
  let r := keck_tiptilt laser D sl co in
  exists u v, (laser = false -> u * 648000 = PI * D /\ v = u) /\ (laser = true -> 100 * v = 18 * u /\ 10 ^ 9 * u = 40576) /\
    ((0 < s_n sl)%nat -> s_at (fst r) t k = v * (s_at sl t k - average (s_n sl) (fun t => s_at sl t k))) /\
    ((0 < s_n co)%nat -> s_at (snd r) t k = u * (s_at co t k - average (s_n co) (fun t => s_at co t k))).
Proof.
  intros laser D sl co t k r. exists (tilt2meter laser D), ((if laser then 18 / 100 else 1) * tilt2meter laser D).
  assert (Q : forall x a, (0 < s_n a)%nat -> s_at (demean (sscale x a)) t k = x * (s_at a t k - average (s_n a) (fun t => s_at a t k))).
  { intros x a Ha. unfold demean, sscale, average, cmean. cbn [s_at s_n]. rewrite rsum_scal. field. apply not_0_INR. lia. }
  split; [intros ->; unfold tilt2meter; split; field|]. split; [intros ->; unfold tilt2meter; split; field|].
  split; intros H; unfold r, keck_tiptilt; cbn [fst snd]; apply Q; exact H.
Qed.

Print Assumptions C18_matern.
Print Assumptions C111_instrument_angle.
Print Assumptions C131_strehl_columns.
Print Assumptions C132_tilt_unit.
