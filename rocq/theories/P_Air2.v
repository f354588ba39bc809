(** Property C39, continued: the change of model at 1.3 um, the Q band, the
    chromatic error. *)
From Coq Require Import Reals List Arith ZArith Bool Lia Lra Psatz.
From Verif Require Import Base_Py M_Tools M_Atmo M_Air L_Air P_Air M_Model.
Import ListNotations.
Open Scope R_scope.

(** explicit evaluation of a band at fixed conditions *)
Ltac eval_band := rewrite band_value_poly; cbv zeta; unfold dot, lsum; cbn [b_coeffs nth combine map fold_right fst snd b_nuref table_K table_Q].
(** default conditions: no step above 1e-6 at 1.3 um, where the formula changes *)
Theorem C39_step : forall w v, 13 / 10 - / 1000 <= w < 13 / 10 -> refr1 15 101325 20 w = Ok v ->
  exists v', refr1 15 101325 20 (13 / 10) = Ok v' /\ Rabs (v - v') <= 1 / 10 ^ 6.
Proof.
  intros w v Hw E. assert (Hw' : 3 / 10 <= w <= 13 / 10) by lra.
  unfold refr1 at 1. unfold Rltb. destruct (Rlt_dec (13 / 10) (13 / 10)); [lra|]. unfold mathar. destruct (Req_EM_T (kelvin 15) 0) as [K|K]; [unfold kelvin in K; lra|].
  eexists. split; [reflexivity|].
  destruct (band_cases (13 / 10) ltac:(lra)) as [[-> D]|[[Q D]|[[Q D]|[[Q D]|[Q [D W]]]]]]; [|exfalso; clear -D; destruct lv as (_ & _ & R); rewrite R in D; apply Rabs_le_inv in D; lra|exfalso; clear -D; destruct mv_ as (_ & _ & R); rewrite R in D; apply Rabs_le_inv in D; lra|exfalso; clear -D; destruct nv as (_ & _ & R); rewrite R in D; apply Rabs_le_inv in D; lra|lra].
  assert (M : 27340 / 10 ^ 8 <= band_value table_K (10000 / (13 / 10)) 15 101325 20 <= 27341 / 10 ^ 8).
  { rewrite band_value_poly, state_default. cbv zeta. unfold dot, lsum, sd, table_K. cbn [b_coeffs nth combine map fold_right fst snd b_nuref]. split; lra. }
  set (bv := band_value _ _ _ _ _) in *. clearbody bv.
  unfold refr1, Rltb, ciddor in E. destruct (Rlt_dec w (13 / 10)); [|lra]. destruct (Req_EM_T w 0); [discriminate|]. destruct (Req_EM_T _ 0); [discriminate|]. destruct (Req_EM_T _ 0); [discriminate|]. destruct (Req_EM_T (kelvin 15) 0); [discriminate|].
  apply Ok_inj in E. subst v. cbv zeta. unfold kelvin. replace (28815 / 100 / (15 + 27315 / 100)) with 1 by field. replace (29315 / 100 / (15 + 27315 / 100)) with (29315 / 28815) by field.
  assert (S : 59 / 100 <= (1 / w) ^ 2 <= 593 / 1000).
  { assert (A : 1 / (13 / 10) <= 1 / w <= 1 / (1299 / 1000)) by (unfold Rdiv; rewrite !Rmult_1_l; split; apply Rinv_le_contravar; lra).
    replace (1 / (13 / 10)) with (10 / 13) in A by field. replace (1 / (1299 / 1000)) with (1000 / 1299) in A by field. nra. }
  assert (N : 27352 / 10 ^ 8 <= n_as w <= 27354 / 10 ^ 8).
  { unfold n_as. cbv zeta. set (s := (1 / w) ^ 2) in *.
    assert (A : / (2380185 / 10000 - 59 / 100) <= / (2380185 / 10000 - s) <= / (2380185 / 10000 - 593 / 1000)) by (split; apply Rinv_le_contravar; lra).
    assert (B : / (57362 / 1000 - 59 / 100) <= / (57362 / 1000 - s) <= / (57362 / 1000 - 593 / 1000)) by (split; apply Rinv_le_contravar; lra).
    replace (/ (2380185 / 10000 - 59 / 100)) with (10000 / 2374285) in A by field. replace (/ (57362 / 1000 - 59 / 100)) with (1000 / 56772) in B by field.
    replace (/ (2380185 / 10000 - 593 / 1000)) with (10000 / 2374255) in A by field. replace (/ (57362 / 1000 - 593 / 1000)) with (1000 / 56769) in B by field.
    change (5792105 / (2380185 / 10000 - s)) with (5792105 * / (2380185 / 10000 - s)). change (167917 / (57362 / 1000 - s)) with (167917 * / (57362 / 1000 - s)).
    set (a := / (2380185 / 10000 - s)) in *. set (b := / (57362 / 1000 - s)) in *. clearbody a b. lra. }
  assert (V : 302 / 10 ^ 8 <= n_ws w <= 304 / 10 ^ 8).
  { unfold n_ws. cbv zeta. replace ((1 / w) ^ 4) with (((1 / w) ^ 2) ^ 2) by ring. replace ((1 / w) ^ 6) with (((1 / w) ^ 2) ^ 3) by ring. set (s := (1 / w) ^ 2) in *.
    assert (A : 0 <= s ^ 2 <= 593 / 1000 * s) by nra. assert (B : 0 <= s ^ 3 <= 593 / 1000 * s ^ 2) by (replace (s ^ 3) with (s * s ^ 2) by ring; nra). lra. }
  pose proof P_w_default as [P0 P1]. set (pw := P_w 15 101325 20) in *. clearbody pw. set (na := n_as w) in *. set (nw := n_ws w) in *. clearbody na nw.
  replace ((101325 - pw) / 101325 * 1 * na + pw / 1333 * (29315 / 28815) * nw) with (na - pw * (na / 101325 - 29315 / 28815 / 1333 * nw)) by field.
  assert (G : 0 <= na / 101325 - 29315 / 28815 / 1333 * nw <= 4 / 10 ^ 10) by lra.
  assert (T : 0 <= pw * (na / 101325 - 29315 / 28815 / 1333 * nw) <= 1330 * (4 / 10 ^ 10)) by (split; [apply Rmult_le_pos|apply Rmult_le_compat]; lra).
  set (t := pw * _) in *. clearbody t. apply Rabs_le. lra.
Qed.
Print Assumptions C39_step.
(** The Q band: at the default conditions the refractivity falls from above 3.1e-4
    at 16 um to below 1.91e-4 at 28 um (2.71e-4 at 20 um; it varies by less than 5 %
    over the whole 1.3-16 um range, C39_default_infrared), and it is negative at 28 um
    for -10 C, 600 hPa, 90 %: the fifth-order coefficients of the table cannot be right.
    Finding. *)
Theorem C39_Q_band_refuted :
  (exists v, refr1 15 101325 20 16 = Ok v /\ 31 / 10 ^ 5 < v) /\
  (exists v, refr1 15 101325 20 20 = Ok v /\ 271 / 10 ^ 6 < v < 272 / 10 ^ 6) /\
  (exists v, refr1 15 101325 20 28 = Ok v /\ v < 191 / 10 ^ 6) /\
  (exists v, refr1 (-10) 60000 90 28 = Ok v /\ v < 0).
Proof.
  assert (G : forall Tc P H w, 16 <= w <= 28 -> kelvin Tc <> 0 -> refr1 Tc P H w = Ok (band_value table_Q (10000 / w) Tc P H)).
  { intros Tc P H w Hw Hk. apply (proj2 (C39_selection Tc P H w)); [lra|exact Hk|cbn; tauto|]. unfold in_band. destruct qv as (-> & -> & _). lra. }
  assert (K15 : kelvin 15 <> 0) by (unfold kelvin; lra). assert (K10 : kelvin (-10) <> 0) by (unfold kelvin; lra).
  repeat split; (eexists; split; [apply G; [lra|assumption]|]).
  - rewrite band_value_poly, state_default. cbv zeta. unfold dot, lsum, sd, table_Q. cbn [b_coeffs nth combine map fold_right fst snd b_nuref]. lra.
  - rewrite band_value_poly, state_default. cbv zeta. unfold dot, lsum, sd, table_Q. cbn [b_coeffs nth combine map fold_right fst snd b_nuref]. split; lra.
  - rewrite band_value_poly, state_default. cbv zeta. unfold dot, lsum, sd, table_Q. cbn [b_coeffs nth combine map fold_right fst snd b_nuref]. lra.
  - rewrite band_value_poly. cbv zeta. unfold state_vector, kelvin, T_ref, p_ref, H_ref.
    replace (1 / (-10 + 27315 / 100) - 1 / (27315 / 100 + 35 / 2)) with (2750 * 100 / (26315 * 29065)) by field.
    unfold dot, lsum, table_Q. cbn [b_coeffs nth combine map fold_right fst snd b_nuref]. lra.
Qed.
Print Assumptions C39_Q_band_refuted.
(** The chromatic error of the Fourier model (default conditions, both wavelengths
    between 0.3 and 16 um): never a division by zero, at most 2 % of the turbulence;
    null for equal wavelengths. *)
Definition default_refr (w : R) (n : R) : Prop := refr1 15 101325 20 w = Ok n.
Theorem C39_chromatic : forall y i j a w1 w2 n1 n2, 3 / 10 <= w1 < 16 -> 3 / 10 <= w2 < 16 -> default_refr w1 n1 -> default_refr w2 n2 ->
  Watm y i j = Ok a -> 0 <= a ->
  exists p, chromatismPSD y n1 n2 i j = Ok p /\ 0 <= p <= 2 / 100 * a /\ (w1 = w2 -> p = 0).
Proof.
  intros y i j a w1 w2 n1 n2 H1 H2 E1 E2 Ha Hp. unfold default_refr in *.
  assert (R : forall w n, 3 / 10 <= w < 16 -> refr1 15 101325 20 w = Ok n -> 267 / 10 ^ 6 <= n <= 296 / 10 ^ 6).
  { intros w n Hw E. destruct (Rlt_dec w (13 / 10)).
    - destruct (C39_default_visible w ltac:(lra)) as (v & E' & B). rewrite E in E'. apply Ok_inj in E'. subst v. lra.
    - destruct (C39_default_infrared w n ltac:(lra) E) as [_ B]. specialize (B ltac:(lra)). lra. }
  pose proof (R _ _ H1 E1) as B1. pose proof (R _ _ H2 E2) as B2.
  unfold chromatismPSD. rewrite Ha. cbn [bind]. unfold rdiv. destruct (Req_EM_T n1 0); [lra|]. cbn [bind]. eexists. split; [reflexivity|]. split.
  - assert (Q : - (12 / 100) <= (n1 - n2) / n1 <= 12 / 100).
    { split; [apply Rmult_le_reg_r with n1|apply Rmult_le_reg_r with n1]; try lra; unfold Rdiv at 3 || unfold Rdiv; [replace ((n1 - n2) * / n1 * n1) with (n1 - n2) by (field; lra)|replace ((n1 - n2) * / n1 * n1) with (n1 - n2) by (field; lra)]; lra. }
    set (q := (n1 - n2) / n1) in *. assert (0 <= q ^ 2 <= 2 / 100) by nra. split; [apply Rmult_le_pos; lra|apply Rmult_le_compat_r; lra].
  - intros ->. rewrite E1 in E2. apply Ok_inj in E2. subst n2. unfold Rdiv. rewrite Rminus_eq_0. ring.
Qed.
Print Assumptions C39_chromatic.
(** non-vacuity: visible sensor at 0.75 um, science at 2.2 um *)
Example C39_ex : exists n1 n2, default_refr (75 / 100) n1 /\ default_refr (22 / 10) n2 /\ n1 <> 0 /\ n2 <> 0.
Proof.
  destruct (C39_default_visible (75 / 100) ltac:(lra)) as (n1 & E1 & B1).
  assert (E2 : refr1 15 101325 20 (22 / 10) = Ok (band_value table_K (10000 / (22 / 10)) 15 101325 20)).
  { assert (Kz : kelvin 15 <> 0) by (unfold kelvin; lra). apply (proj1 (proj2 (C39_selection 15 101325 20 (22 / 10)) ltac:(lra) Kz) table_K); [cbn; tauto|]. unfold in_band. destruct kv as (-> & -> & _). lra. }
  exists n1. eexists. split; [exact E1|]. split; [exact E2|]. destruct (C39_default_infrared (22 / 10) _ ltac:(lra) E2) as [B2 _]. split; lra.
Qed.
