(** Lemmas on wavefront-sensor noise. *)
From Coq Require Import Reals List Arith ZArith Lia Lra Psatz String.
From Flocq Require Import Core.Raux.
From Verif Require Import Base_Py M_Tools L_Tools L_Tools2 M_Atmo L_Atmo M_Sensor S_Sensor.
Import ListNotations.
Open Scope R_scope.

Lemma ln2_pos : 0 < ln 2.
Proof. rewrite <- ln_1. apply ln_increasing; lra. Qed.
Lemma ln2_lt : ln 2 < 3 / 4.
Proof.
  rewrite <- (ln_exp (3/4)). apply ln_increasing; [lra|].
  assert (H : 1 + 3 / 32 < exp (3/32)) by (apply exp_ineq1; lra).
  assert (E : exp (3/4) = exp (3/32) ^ 8). { rewrite <- Rpower_pow by apply exp_pos. unfold Rpower. rewrite ln_exp. f_equal. cbn [INR]. lra. }
  rewrite E. apply Rlt_le_trans with ((1 + 3/32) ^ 8); [lra|]. apply pow_incr. lra.
Qed.
Lemma PI_gt3 : 3 < PI.
Proof. assert (H2 := PI2_3_2). lra. Qed.
Lemma Ok_pair_inj {A B} (a c : A) (b d : B) : Ok (a, b) = Ok (c, d) -> c = a /\ d = b.
Proof. intros H. split; congruence. Qed.
Lemma sq_le x y : 0 <= x -> x <= y -> x ^ 2 <= y ^ 2.
Proof. intros. nra. Qed.
Lemma div_le a b c d : 0 <= a -> a <= c -> 0 < d -> d <= b -> a / b <= c / d.
Proof.
  intros Ha Hac Hd Hdb. unfold Rdiv. apply Rmult_le_compat; [exact Ha|left; apply Rinv_0_lt_compat; lra|exact Hac|apply Rinv_le_contravar; assumption].
Qed.
Lemma div_nonneg a b : 0 <= a -> 0 < b -> 0 <= a / b.
Proof. intros. apply Rmult_le_pos; [assumption|left; apply Rinv_0_lt_compat; assumption]. Qed.

Lemma ceil_nonneg x : 0 <= x -> 0 <= IZR (Zceil x).
Proof. intros H. apply Rle_trans with x; [exact H|apply Zceil_ub]. Qed.
(** weighting window not smaller than the spot *)
Definition win (w t : R) : R := if Rlt_dec w t then t else w.
Lemma win_spec w t : t <= win w t /\ w <= win w t /\ (win w t = t \/ (win w t = w /\ t <= w)).
Proof. unfold win. destruct (Rlt_dec w t); lra. Qed.
(** wcog: T = nT^2, W = nW^2 *)
Lemma wcog_g T1 T2 W1 W2 : 0 < T1 -> T1 <= T2 -> T1 <= W1 -> T2 <= W2 -> W1 <= W2 -> (W1 = W2 \/ W2 = T2) ->
  (T1 + W1) ^ 2 / W1 <= (T2 + W2) ^ 2 / W2.
Proof.
  intros H1 H12 HW1 HW2 HW [ ->| ->].
  - apply div_le; [nra|nra|lra|lra].
  - replace ((T2 + T2) ^ 2 / T2) with (4 * T2) by (field; lra). apply Rmult_le_reg_r with W1; [lra|].
    unfold Rdiv. rewrite Rmult_assoc, Rinv_l by lra. nra.
Qed.
Lemma wcog_h T1 T2 W1 W2 : 0 < T1 -> T1 <= T2 -> T1 <= W1 -> T2 <= W2 -> W1 <= W2 -> (W1 = W2 \/ W2 = T2) ->
  (T1 + W1) ^ 2 / ((2 * T1 + W1) * W1) <= (T2 + W2) ^ 2 / ((2 * T2 + W2) * W2).
Proof.
  intros H1 H12 HW1 HW2 HW [ ->| ->].
  - assert (P1 : 0 < (2 * T1 + W2) * W2) by nra. assert (P2 : 0 < (2 * T2 + W2) * W2) by nra.
    apply Rmult_le_reg_r with ((2 * T1 + W2) * W2); [exact P1|]. unfold Rdiv at 1. rewrite Rmult_assoc, Rinv_l, Rmult_1_r by lra.
    apply Rmult_le_reg_r with ((2 * T2 + W2) * W2); [exact P2|].
    replace ((T2 + W2) ^ 2 / ((2 * T2 + W2) * W2) * ((2 * T1 + W2) * W2) * ((2 * T2 + W2) * W2)) with ((T2 + W2) ^ 2 * ((2 * T1 + W2) * W2)) by (field; lra).
    assert (Q : (T1 + W2) ^ 2 * (2 * T2 + W2) <= (T2 + W2) ^ 2 * (2 * T1 + W2)).
    { replace ((T2 + W2) ^ 2 * (2 * T1 + W2)) with ((T1 + W2) ^ 2 * (2 * T2 + W2) + (T2 - T1) * (2 * T1 * T2 + (T1 + T2) * W2)) by ring.
      assert (0 <= (T2 - T1) * (2 * T1 * T2 + (T1 + T2) * W2)). { apply Rmult_le_pos; [lra|]. assert (0 < T1 * T2) by nra. nra. } lra. }
    nra.
  - replace ((T2 + T2) ^ 2 / ((2 * T2 + T2) * T2)) with (4 / 3) by (field; lra). apply Rmult_le_reg_r with ((2 * T1 + W1) * W1); [nra|].
    unfold Rdiv at 1. rewrite Rmult_assoc, Rinv_l, Rmult_1_r by nra. nra.
Qed.
Lemma qc_const : 1 <= sqrt (2 * PI) / (2 * sqrt (2 * ln 2)).
Proof.
  assert (L := ln2_pos). assert (L2 := ln2_lt). assert (P := PI_gt3).
  assert (S0 : 0 < sqrt (2 * ln 2)) by (apply sqrt_lt_R0; lra).
  apply Rmult_le_reg_r with (2 * sqrt (2 * ln 2)); [lra|]. unfold Rdiv. rewrite Rmult_assoc, Rinv_l, Rmult_1_r, Rmult_1_l by lra.
  replace 2 with (sqrt (2 * 2)) at 1 by (apply sqrt_square; lra). rewrite <- sqrt_mult by lra. apply sqrt_le_1; lra.
Qed.
Lemma factors_val alg nPix nD nT nW : known_algorithm alg -> exists A B, factors alg nPix nD nT nW = Ok (A, B).
Proof. unfold factors. intros [ ->|[ ->|[ ->| ->]]]; cbn [String.eqb Ascii.eqb Bool.eqb]; do 2 eexists; reflexivity. Qed.
Lemma factors_nonneg alg nPix nD nT nW A B : 1 <= nD -> 1 <= nT -> nT <= nW -> factors alg nPix nD nT nW = Ok (A, B) -> 0 <= A /\ 0 <= B.
Proof.
  intros HD HT HW. assert (L := ln2_pos). assert (P := PI_gt3). unfold factors.
  assert (P2 : 0 <= PI ^ 2 / (2 * ln 2)) by (apply div_nonneg; [apply pow_le; lra|lra]).
  assert (P3 : 0 <= PI ^ 2 / 3) by (apply div_nonneg; [apply pow_le; lra|lra]).
  assert (Q : forall z, 0 <= z ^ 2) by (intros; nra).
  destruct (alg =? "cog")%string; [intros H; destruct (Ok_pair_inj _ _ _ _ H) as [ -> ->]; split; apply Rmult_le_pos; first [assumption|apply Q]|].
  destruct (alg =? "tcog")%string; [intros H; destruct (Ok_pair_inj _ _ _ _ H) as [ -> ->]; split; apply Rmult_le_pos; first [assumption|apply Q]|].
  destruct (alg =? "wcog")%string.
  - intros H; destruct (Ok_pair_inj _ _ _ _ H) as [ -> ->].
    assert (D1 : 0 < nD ^ 2 * nW ^ 4) by (apply Rmult_lt_0_compat; apply pow_lt; lra).
    assert (D2 : 0 < (2 * nT ^ 2 + nW ^ 2) ^ 2 * nW ^ 4). { apply Rmult_lt_0_compat; apply pow_lt; [|lra]. assert (0 < nT ^ 2) by (apply pow_lt; lra). assert (0 <= nW ^ 2) by auto. lra. }
    assert (N : 0 <= (nT ^ 2 + nW ^ 2) ^ 4). { apply pow_le. assert (0 <= nT ^ 2) by auto. assert (0 <= nW ^ 2) by auto. lra. }
    split.
    + apply div_nonneg; [|exact D1]. apply Rmult_le_pos; [|exact N]. apply (div_nonneg (PI ^ 3)); [apply pow_le; lra|]. assert (0 < ln 2 ^ 2) by (apply pow_lt; exact L). lra.
    + apply div_nonneg; [|exact D2]. apply Rmult_le_pos; [|exact N]. apply Rmult_le_pos; first [assumption|apply Q].
  - destruct (alg =? "qc")%string; [|discriminate]. intros H; destruct (Ok_pair_inj _ _ _ _ H) as [ -> ->].
    assert (K : 0 <= (if Rlt_dec nD nT then sqrt (2 * PI) * (nT / (2 * sqrt (2 * ln 2)) / nD) else 1)).
    { destruct (Rlt_dec nD nT); [|lra]. apply Rmult_le_pos; [apply sqrt_pos|]. apply div_nonneg; [|lra]. apply div_nonneg; [lra|].
      assert (0 < sqrt (2 * ln 2)) by (apply sqrt_lt_R0; lra). lra. }
    set (k := if Rlt_dec nD nT then _ else _) in *. split; (apply Rmult_le_pos; [nra|apply Q]).
Qed.
(** the noise factors grow with the spot size *)
Lemma factors_mono alg nPix nD w t1 t2 A1 B1 A2 B2 : 1 <= nD -> 1 <= t1 -> t1 <= t2 ->
  factors alg nPix nD t1 (win w t1) = Ok (A1, B1) -> factors alg nPix nD t2 (win w t2) = Ok (A2, B2) -> A1 <= A2 /\ B1 <= B2.
Proof.
  intros HD H1 H12. assert (L := ln2_pos). assert (P := PI_gt3). unfold factors.
  assert (P2 : 0 <= PI ^ 2 / (2 * ln 2)) by (apply div_nonneg; [apply pow_le; lra|lra]).
  assert (P3 : 0 <= PI ^ 2 / 3) by (apply div_nonneg; [apply pow_le; lra|lra]).
  assert (Q : forall z, 0 <= z ^ 2) by (intros; nra).
  assert (DT : (t1 / nD) ^ 2 <= (t2 / nD) ^ 2) by (apply sq_le; [apply div_nonneg; lra|apply div_le; lra]).
  destruct (alg =? "cog")%string.
  { intros H H'; destruct (Ok_pair_inj _ _ _ _ H) as [ -> ->]; destruct (Ok_pair_inj _ _ _ _ H') as [ -> ->]. split; [lra|]. apply Rmult_le_compat_l; assumption. }
  destruct (alg =? "tcog")%string.
  { intros H H'; destruct (Ok_pair_inj _ _ _ _ H) as [ -> ->]; destruct (Ok_pair_inj _ _ _ _ H') as [ -> ->]. split; [|apply Rmult_le_compat_l; assumption].
    apply Rmult_le_compat_l; [exact P3|].
    assert (T1 : t1 ^ 2 <= t2 ^ 2) by (apply sq_le; lra).
    assert (C1 : 0 <= t1 ^ 2 * PI / 4) by (apply div_nonneg; [apply Rmult_le_pos; [apply Q|lra]|lra]).
    assert (C2 : t1 ^ 2 * PI / 4 <= t2 ^ 2 * PI / 4) by (apply Rmult_le_compat_r; [lra|]; apply Rmult_le_compat_r; lra).
    assert (C3 := ceil_nonneg _ C1). assert (C4 := IZR_le _ _ (Zceil_le _ _ C2)).
    apply sq_le; [apply div_nonneg; [exact C3|lra]|apply div_le; [exact C3|exact C4|lra|lra]]. }
  destruct (alg =? "wcog")%string.
  - intros H H'; destruct (Ok_pair_inj _ _ _ _ H) as [ -> ->]; destruct (Ok_pair_inj _ _ _ _ H') as [ -> ->].
    set (W1 := win w t1). set (W2 := win w t2).
    destruct (win_spec w t1) as (X1 & X2 & X3). destruct (win_spec w t2) as (Y1 & Y2 & Y3). fold W1 in X1, X2, X3. fold W2 in Y1, Y2, Y3.
    assert (WW : W1 <= W2) by lra.
    assert (alt : W1 ^ 2 = W2 ^ 2 \/ W2 ^ 2 = t2 ^ 2).
    { destruct Y3 as [ ->|[E F]]; [right; reflexivity|]. left. f_equal. destruct X3 as [E'|[E' F']]; lra. }
    assert (T1p : 0 < t1 ^ 2) by (apply pow_lt; lra).
    assert (G := wcog_g (t1 ^ 2) (t2 ^ 2) (W1 ^ 2) (W2 ^ 2) T1p (sq_le t1 t2 ltac:(lra) H12) (sq_le t1 W1 ltac:(lra) X1) (sq_le t2 W2 ltac:(lra) Y1) (sq_le W1 W2 ltac:(lra) WW) alt).
    assert (K := wcog_h (t1 ^ 2) (t2 ^ 2) (W1 ^ 2) (W2 ^ 2) T1p (sq_le t1 t2 ltac:(lra) H12) (sq_le t1 W1 ltac:(lra) X1) (sq_le t2 W2 ltac:(lra) Y1) (sq_le W1 W2 ltac:(lra) WW) alt).
    assert (W1p : 0 < W1 ^ 2) by (apply pow_lt; lra). assert (W2p : 0 < W2 ^ 2) by (apply pow_lt; lra). assert (T2p : 0 < t2 ^ 2) by (apply pow_lt; lra).
    assert (Dp : 0 < nD ^ 2) by (apply pow_lt; lra).
    set (g1 := (t1 ^ 2 + W1 ^ 2) ^ 2 / W1 ^ 2) in *. set (g2 := (t2 ^ 2 + W2 ^ 2) ^ 2 / W2 ^ 2) in *.
    set (h1 := (t1 ^ 2 + W1 ^ 2) ^ 2 / ((2 * t1 ^ 2 + W1 ^ 2) * W1 ^ 2)) in *. set (h2 := (t2 ^ 2 + W2 ^ 2) ^ 2 / ((2 * t2 ^ 2 + W2 ^ 2) * W2 ^ 2)) in *.
    assert (G0 : 0 <= g1) by (apply div_nonneg; auto). assert (K0 : 0 <= h1) by (apply div_nonneg; [auto|nra]).
    split.
    + replace (PI ^ 3 / (32 * ln 2 ^ 2) * (t1 ^ 2 + W1 ^ 2) ^ 4 / (nD ^ 2 * W1 ^ 4)) with (PI ^ 3 / (32 * ln 2 ^ 2) / nD ^ 2 * g1 ^ 2) by (unfold g1; field; repeat split; lra).
      replace (PI ^ 3 / (32 * ln 2 ^ 2) * (t2 ^ 2 + W2 ^ 2) ^ 4 / (nD ^ 2 * W2 ^ 4)) with (PI ^ 3 / (32 * ln 2 ^ 2) / nD ^ 2 * g2 ^ 2) by (unfold g2; field; repeat split; lra).
      apply (Rmult_le_compat_l (PI ^ 3 / (32 * ln 2 ^ 2) / nD ^ 2)); [|apply sq_le; assumption].
      apply div_nonneg; [|exact Dp]. apply (div_nonneg (PI ^ 3)); [apply pow_le; lra|]. assert (0 < ln 2 ^ 2) by (apply pow_lt; exact L). lra.
    + replace (PI ^ 2 / (2 * ln 2) * (t1 / nD) ^ 2 * (t1 ^ 2 + W1 ^ 2) ^ 4 / ((2 * t1 ^ 2 + W1 ^ 2) ^ 2 * W1 ^ 4)) with (PI ^ 2 / (2 * ln 2) * (t1 / nD) ^ 2 * h1 ^ 2)
        by (unfold h1; field; repeat split; try lra; nra).
      replace (PI ^ 2 / (2 * ln 2) * (t2 / nD) ^ 2 * (t2 ^ 2 + W2 ^ 2) ^ 4 / ((2 * t2 ^ 2 + W2 ^ 2) ^ 2 * W2 ^ 4)) with (PI ^ 2 / (2 * ln 2) * (t2 / nD) ^ 2 * h2 ^ 2)
        by (unfold h2; field; repeat split; try lra; nra).
      apply (Rmult_le_compat (PI ^ 2 / (2 * ln 2) * (t1 / nD) ^ 2) (PI ^ 2 / (2 * ln 2) * (t2 / nD) ^ 2) (h1 ^ 2) (h2 ^ 2)); [apply Rmult_le_pos; [assumption|apply Q]|apply Q|apply Rmult_le_compat_l; assumption|apply sq_le; assumption].
  - destruct (alg =? "qc")%string; [|discriminate].
    intros H H'; destruct (Ok_pair_inj _ _ _ _ H) as [ -> ->]; destruct (Ok_pair_inj _ _ _ _ H') as [ -> ->].
    assert (C := qc_const). assert (S0 : 0 < sqrt (2 * ln 2)) by (apply sqrt_lt_R0; lra).
    set (c := sqrt (2 * PI) / (2 * sqrt (2 * ln 2))) in C.
    assert (E : forall t, sqrt (2 * PI) * (t / (2 * sqrt (2 * ln 2)) / nD) = c * (t / nD)) by (intros; unfold c; field; lra).
    rewrite !E.
    assert (K : (if Rlt_dec nD t1 then c * (t1 / nD) else 1) <= (if Rlt_dec nD t2 then c * (t2 / nD) else 1)).
    { destruct (Rlt_dec nD t1), (Rlt_dec nD t2); try lra.
      - apply Rmult_le_compat_l; [lra|]. apply div_le; lra.
      - assert (1 <= t2 / nD). { apply Rmult_le_reg_r with nD; [lra|]. unfold Rdiv. rewrite Rmult_assoc, Rinv_l by lra. lra. } nra. }
    assert (PP : 0 <= PI ^ 2) by auto. split; nra.
Qed.

(** ** one sensor *)
Lemma geometry_val s d o r0 wvl : 0 < d_ps d -> (exists x r rest, d_spot d = (x :: r) :: rest) -> s_settings s <> [] ->
  exists m w, (exists st, s_settings s = w :: st) /\ spot_geometry s d o r0 wvl =
    Ok (Rmax 1 (rad2arcsec * wvl / o_dsub o / (d_ps d / 1000)),
        Rmax 1 (hypot (m / 1000) (98 / 100 * rad2arcsec * wvl / r0 / sqrt 2) / (d_ps d / 1000)),
        win w (Rmax 1 (hypot (m / 1000) (98 / 100 * rad2arcsec * wvl / r0 / sqrt 2) / (d_ps d / 1000)))) /\
    forall x r rest, d_spot d = (x :: r) :: rest -> pymax (pyslice (x :: r) 0 2) = Ok m.
Proof.
  intros Hp (x & r & rest & E) Hs. unfold spot_geometry. destruct (Req_EM_T (d_ps d / 1000) 0); [lra|].
  rewrite E. assert (P : exists m, pymax (pyslice (x :: r) 0 2) = Ok m).
  { unfold pyslice. cbn [slice_bound]. replace (Z.to_nat (slice_bound (Z.of_nat (length (x :: r))) 0)) with 0%nat.
    2:{ unfold slice_bound. destruct (Z.ltb_spec 0 0); lia. }
    cbn [skipn]. destruct (Z.to_nat (slice_len (Z.of_nat (length (x :: r))) 0 2)) as [|k'] eqn:F.
    - exfalso. unfold slice_len, slice_bound in F. cbn [length] in F. destruct (Z.ltb_spec 2 0), (Z.ltb_spec 0 0); lia.
    - cbn [firstn pymax]. eexists. reflexivity. }
  destruct P as (m & P). destruct (s_settings s) as [|w st]; [congruence|]. exists m, w. split; [exists st; reflexivity|]. split.
  - rewrite (pyindex_some _ 0 (x :: r)) by reflexivity. cbn [bind]. rewrite P. cbn [bind].
    rewrite (pyindex_some _ 0 w) by reflexivity. cbn [bind]. reflexivity.
  - intros x' r' rest' E'. injection E' as <- <- <-. exact P.
Qed.
Lemma combine_var_nonneg A B ron ex n v : 0 <= A -> 0 <= B -> 0 <= ex -> xpos n -> combine_var A B ron ex n = Ok v -> 0 <= v.
Proof.
  intros HA HB He Hn. destruct n as [p|]; cbn [combine_var xpos] in *; [|intros H; apply Ok_inj in H; subst; lra].
  destruct (Req_EM_T p 0); [discriminate|]. intros H; apply Ok_inj in H; subst v.
  assert (0 <= ron ^ 2 / p ^ 2) by (apply div_nonneg; [nra|nra]). assert (0 <= B / p) by (apply div_nonneg; lra). nra.
Qed.
Lemma combine_var_mono A1 B1 A2 B2 r1 r2 e1 e2 n1 n2 v1 v2 : 0 <= A1 <= A2 -> 0 <= B1 <= B2 -> 0 <= r1 <= r2 -> 0 <= e1 <= e2 ->
  xpos n1 -> xpos n2 -> xle n2 n1 -> combine_var A1 B1 r1 e1 n1 = Ok v1 -> combine_var A2 B2 r2 e2 n2 = Ok v2 -> v1 <= v2.
Proof.
  intros HA HB Hr He H1 H2 Hn E1 E2. destruct n1 as [p1|].
  - destruct n2 as [p2|]; [|destruct Hn]. cbn [combine_var xpos xle] in *.
    destruct (Req_EM_T p1 0); [discriminate|]. destruct (Req_EM_T p2 0); [discriminate|].
    apply Ok_inj in E1. apply Ok_inj in E2. subst v1 v2. apply Rplus_le_compat; apply Rmult_le_compat; try lra.
    + apply div_nonneg; nra.
    + apply div_le; nra.
    + apply div_nonneg; lra.
    + apply div_le; lra.
  - cbn [combine_var] in E1. apply Ok_inj in E1. subst v1. eapply combine_var_nonneg; [| | | |exact E2]; try lra. exact H2.
Qed.
Lemma hypot_mono m a b : 0 <= a -> a <= b -> hypot m a <= hypot m b.
Proof. intros. unfold hypot. apply sqrt_le_1; nra. Qed.
Lemma rad2arcsec_pos : 0 < rad2arcsec.
Proof. unfold rad2arcsec. assert (P := PI_gt3). apply Rdiv_lt_0_compat; lra. Qed.

Lemma noise_one_val s d o r0 wvl : valid_det d -> 0 < o_dsub o ->
  (shack_hartmann s /\ known_algorithm (s_algo s) /\ s_settings s <> []) \/ (pyramid s /\ finite_flux d) ->
  exists v, noise_one s d o r0 wvl = Ok v /\ 0 <= v.
Proof.
  intros (Hp & Hr & He & (p & En & Hn) & Hsp) Ho HT. unfold noise_one.
  destruct (Rlt_dec (d_ron d) 0); [lra|]. rewrite En.
  assert (N : nph_any_neg (NNum p) = false). { destruct p; cbn; [|reflexivity]. cbn in Hn. destruct (Rlt_dec r 0); [lra|reflexivity]. }
  rewrite N. destruct (Rle_dec (o_dsub o) 0); [lra|]. destruct HT as [(T & Ka & Hs)|(T & (q & Fq))].
  - unfold shack_hartmann in T. rewrite T, String.eqb_refl. destruct (geometry_val s d o r0 wvl Hp Hsp Hs) as (m & w & _ & E & _).
    rewrite E. cbn [bind fst snd]. set (nD := Rmax 1 _). set (nT := Rmax 1 _).
    assert (HD : 1 <= nD) by apply Rmax_l. assert (HT : 1 <= nT) by apply Rmax_l.
    destruct (factors_val (s_algo s) (d_fov d) nD nT (win w nT) Ka) as (A & B & F). rewrite F. cbn [bind nph_first fst snd].
    destruct (factors_nonneg _ _ _ _ _ _ _ HD HT (proj1 (win_spec w nT)) F) as (HA & HB).
    assert (X : exists v, combine_var A B (d_ron d) (d_excess d) p = Ok v).
    { destruct p as [p|]; cbn; [|eexists; reflexivity]. cbn in Hn. destruct (Req_EM_T p 0); [lra|]. eexists; reflexivity. }
    destruct X as (v & X). exists v. split; [exact X|]. eapply combine_var_nonneg; [exact HA|exact HB|exact He|exact Hn|exact X].
  - unfold pyramid in T. rewrite T. cbn [String.eqb Ascii.eqb Bool.eqb bind nph_first]. rewrite En in Fq. injection Fq as ->.
    cbn [xpos] in Hn. destruct (Req_EM_T q 0); [lra|]. eexists. split; [reflexivity|].
    assert (0 <= 4 * d_ron d ^ 2 / q ^ 2) by (apply div_nonneg; nra). assert (0 <= q / q ^ 2) by (apply div_nonneg; nra). nra.
Qed.
Lemma noise_one_mono s1 s2 d1 d2 o r1 r2 wvl v1 v2 : valid_det d1 -> valid_det d2 -> 0 < o_dsub o -> noisier d1 d2 ->
  s_type s1 = s_type s2 -> s_algo s1 = s_algo s2 -> s_settings s1 = s_settings s2 -> 0 < wvl -> 0 < r2 -> r2 <= r1 ->
  noise_one s1 d1 o r1 wvl = Ok v1 -> noise_one s2 d2 o r2 wvl = Ok v2 -> v1 <= v2.
Proof.
  intros (Hp1 & Hr1 & He1 & (p1 & En1 & Hn1) & Hsp1) (Hp2 & Hr2 & He2 & (p2 & En2 & Hn2) & Hsp2) Ho
    (Eps & Efov & Espot & Hron & Hex & (p1' & p2' & Ep1 & Ep2 & Hle)) ET EA ES Hw H2 H12.
  rewrite En1 in Ep1. injection Ep1 as <-. rewrite En2 in Ep2. injection Ep2 as <-.
  unfold noise_one. destruct (Rlt_dec (d_ron d1) 0); [lra|]. destruct (Rlt_dec (d_ron d2) 0); [lra|]. rewrite En1, En2.
  assert (N : forall p, xpos p -> nph_any_neg (NNum p) = false). { intros [p|] Hp; cbn in *; [|reflexivity]. destruct (Rlt_dec p 0); [lra|reflexivity]. }
  rewrite !N by assumption. destruct (Rle_dec (o_dsub o) 0); [lra|]. rewrite ET.
  destruct (upper (s_type s2) =? "SHACK-HARTMANN")%string.
  - destruct (s_settings s2) as [|w0 st] eqn:ES2.
    + unfold spot_geometry. rewrite ES, ES2. destruct (Req_EM_T (d_ps d1 / 1000) 0); [discriminate|].
      destruct (pyindex (d_spot d1) 0); cbn [bind]; [|discriminate]. destruct (pymax _); cbn [bind]; discriminate.
    + destruct (geometry_val s1 d1 o r1 wvl Hp1 Hsp1) as (m & w & (st1 & Ew) & G1 & M1); [rewrite ES; discriminate|].
      destruct (geometry_val s2 d2 o r2 wvl Hp2 Hsp2) as (m' & w' & (st2 & Ew') & G2 & M2); [rewrite ES2; discriminate|].
      rewrite ES in Ew. rewrite Ew in ES2. rewrite ES2 in Ew'. 
      assert (w = w0) by congruence. assert (w' = w0) by congruence. subst w w'.
      destruct Hsp1 as (x & rr & rest & Esp). specialize (M1 _ _ _ Esp). rewrite Espot in Esp. specialize (M2 _ _ _ Esp). rewrite M1 in M2. apply Ok_inj in M2. subst m'.
      rewrite G1, G2, EA, Efov, Eps. cbn [bind fst snd nph_first].
      set (nD := Rmax 1 _). set (t1 := Rmax 1 (hypot _ (98 / 100 * rad2arcsec * wvl / r1 / sqrt 2) / _)). set (t2 := Rmax 1 (hypot _ (98 / 100 * rad2arcsec * wvl / r2 / sqrt 2) / _)).
      assert (HD : 1 <= nD) by apply Rmax_l. assert (T1 : 1 <= t1) by apply Rmax_l.
      assert (T12 : t1 <= t2).
      { unfold t1, t2. apply Rle_max_compat_l. apply Rmult_le_compat_r; [left; apply Rinv_0_lt_compat; lra|].
        assert (R2 : 0 < sqrt 2) by (apply sqrt_lt_R0; lra). assert (RA := rad2arcsec_pos).
        assert (W : 0 < 98 / 100 * rad2arcsec * wvl) by (apply Rmult_lt_0_compat; [lra|exact Hw]).
        apply hypot_mono; [apply div_nonneg; [apply div_nonneg|]; lra|]. apply div_le; [apply div_nonneg; lra|apply div_le; lra|lra|lra]. }
      destruct (factors (s_algo s2) (d_fov d2) nD t1 (win w0 t1)) as [[A1 B1]|] eqn:F1; cbn [bind fst snd]; [|discriminate].
      destruct (factors (s_algo s2) (d_fov d2) nD t2 (win w0 t2)) as [[A2 B2]|] eqn:F2; cbn [bind fst snd]; [|discriminate].
      destruct (factors_mono _ _ _ _ _ _ _ _ _ _ HD T1 T12 F1 F2) as (MA & MB).
      destruct (factors_nonneg _ _ _ _ _ _ _ HD T1 (proj1 (win_spec w0 t1)) F1) as (HA & HB).
      apply combine_var_mono; try lra; assumption.
  - destruct (upper (s_type s2) =? "PYRAMID")%string; [|discriminate]. cbn [bind nph_first].
    destruct p1 as [q1|]; [|discriminate]. destruct p2 as [q2|]; [|destruct Hle]. cbn [xpos xle] in *.
    destruct (Req_EM_T q1 0); [discriminate|]. destruct (Req_EM_T q2 0); [discriminate|].
    intros E1 E2. apply Ok_inj in E1. apply Ok_inj in E2. subst v1 v2. apply Rplus_le_compat.
    + apply div_le; nra.
    + apply Rmult_le_compat; try lra; [apply div_nonneg; nra|].
      replace (q1 / q1 ^ 2) with (1 / q1) by (field; lra). replace (q2 / q2 ^ 2) with (1 / q2) by (field; lra). apply div_le; lra.
Qed.
Lemma mapM_all {A B} (f : A -> result B) (P : B -> Prop) l : (forall a, In a l -> exists b, f a = Ok b /\ P b) ->
  exists r, mapM f l = Ok r /\ length r = length l /\ Forall P r.
Proof.
  induction l as [|a l IH]; intros H; cbn.
  - exists []. repeat split. constructor.
  - destruct (H a (or_introl eq_refl)) as (b & E & Pb). rewrite E. cbn [bind].
    destruct IH as (r & Er & L & F); [intros; apply H; right; assumption|]. rewrite Er. cbn [bind]. exists (b :: r).
    split; [reflexivity|]. split; [cbn; lia|]. constructor; assumption.
Qed.

Lemma mapM_len {A B} (f : A -> result B) l : forall r, mapM f l = Ok r -> length r = length l.
Proof.
  induction l as [|a l IH]; cbn; intros r H; [apply Ok_inj in H; subst; reflexivity|].
  apply bindOk in H. destruct H as (b & _ & H). apply bindOk in H. destruct H as (t & Et & H). apply Ok_inj in H. subst r. cbn. rewrite (IH t Et). reflexivity.
Qed.
Lemma mapM_Err_at {A B} (f : A -> result B) l1 x l2 e : (forall a, In a l1 -> exists b, f a = Ok b) -> f x = Err e -> mapM f (l1 ++ x :: l2) = Err e.
Proof.
  induction l1 as [|a l1 IH]; intros H Hx; cbn; [rewrite Hx; reflexivity|].
  destruct (H a (or_introl eq_refl)) as (b & ->). cbn [bind]. rewrite IH; [reflexivity|intros; apply H; right; assumption|exact Hx].
Qed.
