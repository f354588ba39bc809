(** Property C65: angular covariance of the tilts and anisokinetism. The Bessel
    functions, the gamma function and the quadrature rule are arbitrary. *)
From Coq Require Import Reals List Arith ZArith Bool Lia Lra Psatz FunctionalExtensionality.
From Verif Require Import Base_Py M_Tools M_Zernike M_Zernike2 P_Zernike2.
Import ListNotations.
Open Scope R_scope.

Definition c00 (c : tcov) := fst (fst c).
Definition c01 (c : tcov) := snd (fst c).
Definition c10 (c : tcov) := fst (snd c).
Definition c11 (c : tcov) := snd (snd c).
Lemma fold_ext {A} (f g : R -> A -> R) l : (forall acc x, In x l -> f acc x = g acc x) -> forall acc, fold_left f l acc = fold_left g l acc.
Proof. induction l as [|x l IH]; intros H acc; [reflexivity|]. cbn. rewrite H by now left. apply IH. intros; apply H; now right. Qed.

Section C65.
Variables (jn2 j0 j1 : R -> R) (quad : (R -> R) -> R) (gam : R -> R).
Notation cov := (tiltsAngularCovariance jn2 j0 j1 quad gam).
Notation ani := (anisokinetism jn2 j0 j1 quad gam).

Lemma sumLayers_swap p L0 lag ax ay ls f : sumLayers jn2 j0 p L0 lag ax ay ls f 2 3 = sumLayers jn2 j0 p L0 lag ax ay ls f 3 2.
Proof.
  unfold sumLayers. apply fold_ext. intros acc l _. unfold pyneg1. cbn [pow].
  replace (PI * (-1 * (-1 * (-1 * 1)) - -1 * (-1 * 1)) / 4) with (- (PI * (-1 * (-1 * 1) - -1 * (-1 * (-1 * 1))) / 4)) by (unfold Rdiv; ring).
  rewrite cos_neg. replace (-1 * (-1 * (-1 * 1)) + -1 * (-1 * 1) - 2) with (-1 * (-1 * 1) + -1 * (-1 * (-1 * 1)) - 2) by ring. reflexivity.
Qed.
Theorem C65_symmetric : forall D r0 L0 ls src gs t lag c, cov D r0 L0 ls src gs t lag = Ok c -> c01 c = c10 c.
Proof.
  intros D r0 L0 ls src gs t lag c H. unfold tiltsAngularCovariance in H. destruct (tiltsFilter jn2 j1 t D) as [tf|]; [|discriminate]. cbn [bind] in H. apply Ok_inj in H. subst c.
  unfold c01, c10. cbn [fst snd]. f_equal. apply functional_extensionality. intros f. now rewrite sumLayers_swap.
Qed.
Lemma double_angle_opp x y g : cos (2 * atan2 (- y) (- x) + g) = cos (2 * atan2 y x + g).
Proof.
  destruct (polar x y) as [A B]. destruct (polar (- x) (- y)) as [A' B'].
  replace ((- x) ^ 2 + (- y) ^ 2) with (x ^ 2 + y ^ 2) in A', B' by ring.
  set (r := sqrt (x ^ 2 + y ^ 2)) in *. destruct (Req_dec r 0) as [Z|N].
  - assert (x = 0) by (rewrite <- A, Z; ring). assert (y = 0) by (rewrite <- B, Z; ring). subst x y. now rewrite !Ropp_0.
  - set (u := atan2 y x) in *. set (w := atan2 (- y) (- x)) in *.
    assert (Cw : cos w = - cos u) by (apply (Rmult_eq_reg_l r); [lra|exact N]). assert (Sw : sin w = - sin u) by (apply (Rmult_eq_reg_l r); [lra|exact N]).
    rewrite !cos_plus, !cos_2a, !sin_2a, Cw, Sw. ring.
Qed.
(** without lag the covariance does not change when the two directions are exchanged *)
Theorem C65_exchange : forall D r0 L0 ls src gs t, cov D r0 L0 ls src gs t 0 = cov D r0 L0 ls gs src t 0.
Proof.
  intros D r0 L0 ls src gs t. unfold tiltsAngularCovariance. destruct (tiltsFilter jn2 j1 t D) as [tf|]; [|reflexivity]. cbn [bind].
  assert (Q : forall p f i j, sumLayers jn2 j0 p L0 0 (fst src - fst gs) (snd src - snd gs) ls f i j = sumLayers jn2 j0 p L0 0 (fst gs - fst src) (snd gs - snd src) ls f i j).
  { intros. unfold sumLayers. apply fold_ext. intros acc l _. cbv zeta.
    replace (tsep 0 (fst gs - fst src) (snd gs - snd src) l) with (- fst (tsep 0 (fst src - fst gs) (snd src - snd gs) l), - snd (tsep 0 (fst src - fst gs) (snd src - snd gs) l)).
    - cbn [fst snd]. rewrite double_angle_opp. replace ((- fst (tsep 0 (fst src - fst gs) (snd src - snd gs) l)) ^ 2 + (- snd (tsep 0 (fst src - fst gs) (snd src - snd gs) l)) ^ 2) with (fst (tsep 0 (fst src - fst gs) (snd src - snd gs) l) ^ 2 + snd (tsep 0 (fst src - fst gs) (snd src - snd gs) l) ^ 2) by ring. reflexivity.
    - unfold tsep. cbn [fst snd]. f_equal; ring. }
  repeat f_equal; apply functional_extensionality; intros f; now rewrite Q.
Qed.
(** the covariance depends on the difference of the two directions only *)
Theorem C65_shift : forall D r0 L0 ls src gs t lag d, cov D r0 L0 ls (fst src + fst d, snd src + snd d) (fst gs + fst d, snd gs + snd d) t lag = cov D r0 L0 ls src gs t lag.
Proof.
  intros. unfold tiltsAngularCovariance. cbn [fst snd]. replace (fst src + fst d - (fst gs + fst d)) with (fst src - fst gs) by ring.
  replace (snd src + snd d - (snd gs + snd d)) with (snd src - snd gs) by ring. reflexivity.
Qed.
(** coincident directions, no lag, J2(0) = 0: isotropic *)
Theorem C65_isotropic : forall D r0 L0 ls src t c, jn2 0 = 0 -> quad (fun _ => 0) = 0 -> cov D r0 L0 ls src src t 0 = Ok c -> c00 c = c11 c /\ c01 c = 0.
Proof.
  intros D r0 L0 ls src t c J Q H. unfold tiltsAngularCovariance in H. destruct (tiltsFilter jn2 j1 t D) as [tf|]; [|discriminate]. cbn [bind] in H. apply Ok_inj in H. subst c.
  unfold c00, c01, c11. cbn [fst snd].
  assert (Z : forall l, tsep 0 (fst src - fst src) (snd src - snd src) l = (0, 0)) by (intros; unfold tsep; f_equal; ring).
  assert (R0 : forall f, 2 * PI * f * sqrt (0 ^ 2 + 0 ^ 2) = 0) by (intros; replace (0 ^ 2 + 0 ^ 2) with 0 by ring; rewrite sqrt_0; ring).
  split.
  - f_equal. apply functional_extensionality. intros f. do 2 f_equal. unfold sumLayers. apply fold_ext. intros acc l _. cbv zeta. rewrite Z. cbn [fst snd]. rewrite R0, J. unfold pyneg1. cbn [pow].
    replace (PI * (-1 * (-1 * (-1 * 1)) - -1 * (-1 * (-1 * 1))) / 4) with (PI * (-1 * (-1 * 1) - -1 * (-1 * 1)) / 4) by (unfold Rdiv; ring). ring.
  - etransitivity; [|exact Q]. f_equal. apply functional_extensionality. intros f.
    assert (E : sumLayers jn2 j0 (Rpower (24 * gam (6 / 5) / 5) (5 / 6) * (gam (11 / 6) ^ 2 / (2 * Rpower PI (11 / 3))) * Rpower r0 (-5 / 3)) L0 0 (fst src - fst src) (snd src - snd src) ls f 2 3 = 0); [|rewrite E; ring].
    unfold sumLayers. rewrite (fold_ext _ (fun acc _ => acc)).
    + induction ls; cbn; auto.
    + intros acc l _. cbv zeta. rewrite Z. cbn [fst snd]. rewrite R0, J. unfold pyneg1. cbn [pow].
      replace (PI * (-1 * (-1 * (-1 * 1)) - -1 * (-1 * 1)) / 4) with (- (PI / 2)) by (field). rewrite cos_neg, cos_PI2. ring.
Qed.
(** variances are not negative: coincident directions, no lag, non-negative layer weights,
    a quadrature over positive frequencies that keeps the sign, J2(0) = 0, J0(0) = 1 *)
Theorem C65_variance_nonneg : forall D r0 L0 ls src t c, t = TZ \/ t = TG -> jn2 0 = 0 -> j0 0 = 1 ->
  (forall h, (forall f, 0 < f -> 0 <= h f) -> 0 <= quad h) -> (forall l, In l ls -> 0 <= tl_w l) ->
  cov D r0 L0 ls src src t 0 = Ok c -> 0 <= c00 c /\ 0 <= c11 c.
Proof.
  intros D r0 L0 ls src t c T J2 J0 Q W H. unfold tiltsAngularCovariance in H.
  assert (TF : exists tf, tiltsFilter jn2 j1 t D = Ok tf /\ forall f, 0 <= tf f) by (destruct T as [ -> | -> ]; eexists; (split; [reflexivity|]); intros f; apply pow2_ge_0).
  destruct TF as (tf & E & P). rewrite E in H. cbn [bind] in H. apply Ok_inj in H. subst c. unfold c00, c11. cbn [fst snd].
  set (cst := Rpower (24 * gam (6 / 5) / 5) (5 / 6) * (gam (11 / 6) ^ 2 / (2 * Rpower PI (11 / 3))) * Rpower r0 (-5 / 3)).
  assert (CP : 0 <= cst).
  { unfold cst, Rpower. apply Rmult_le_pos; [apply Rmult_le_pos|]; try (left; apply exp_pos). apply Rmult_le_pos; [apply pow2_ge_0|]. left. apply Rinv_0_lt_compat. pose proof (exp_pos (11 / 3 * ln PI)). lra. }
  assert (SL : forall f a, 0 <= sumLayers jn2 j0 cst L0 0 (fst src - fst src) (snd src - snd src) ls f a a).
  { intros f a. unfold sumLayers. revert W. generalize ls. assert (G : forall l acc, 0 <= acc -> (forall x, In x l -> 0 <= tl_w x) ->
      0 <= fold_left (fun acc l => let s := tsep 0 (fst src - fst src) (snd src - snd src) l in let rho := sqrt (fst s ^ 2 + snd s ^ 2) in let arg := atan2 (snd s) (fst s) in let red := 2 * PI * f * rho in acc + tl_w l * cst * Rpower (f ^ 2 + 1 / L0 ^ 2) (-11 / 6) * (- PI * (jn2 red * cos (2 * arg + (PI * (pyneg1 a + pyneg1 a - 2) / 4)) - j0 red * cos (PI * (pyneg1 a - pyneg1 a) / 4)))) l acc).
    { induction l as [|x l IH]; intros acc A Wl; [exact A|]. cbn [fold_left]. apply IH; [|intros; apply Wl; now right]. cbv zeta.
      replace (tsep 0 (fst src - fst src) (snd src - snd src) x) with (0, 0) by (unfold tsep; f_equal; ring). cbn [fst snd].
      replace (0 ^ 2 + 0 ^ 2) with 0 by ring. rewrite sqrt_0, Rmult_0_r, J2, J0. replace (PI * (pyneg1 a - pyneg1 a) / 4) with 0 by (unfold Rdiv; ring). rewrite cos_0.
      apply Rplus_le_le_0_compat; [exact A|]. apply Rmult_le_pos; [|pose proof PI_RGT_0; lra]. apply Rmult_le_pos; [apply Rmult_le_pos; [apply Wl; now left|exact CP]|]. left. apply exp_pos. }
    intros l Wl. apply (G l 0 (Rle_refl 0) Wl). }
  split; apply Q; intros f Hf; (apply Rmult_le_pos; [|apply P]); (apply Rmult_le_pos; [lra|apply SL]).
Qed.
(** the mixed filter is the geometric mean of the two others *)
Theorem C65_mixed_filter : forall D tz tg tm f, tiltsFilter jn2 j1 TZ D = Ok tz -> tiltsFilter jn2 j1 TG D = Ok tg -> tiltsFilter jn2 j1 TZG D = Ok tm -> tm f ^ 2 = tz f * tg f.
Proof. intros D tz tg tm f A B C. apply Ok_inj in A, B, C. subst. unfold Rdiv. ring. Qed.
(** anisokinetism: symmetric, null for coincident directions, unchanged by exchange *)
Theorem C65_anisokinetism : forall D r0 L0 ls src gs t, exists c, ani D r0 L0 ls src gs t = Ok c /\ c01 c = c10 c /\
  ani D r0 L0 ls gs src t = Ok c /\ (src = gs -> c = ((0, 0), (0, 0))).
Proof.
  intros D r0 L0 ls src gs t. unfold anisokinetism. rewrite (C65_exchange D r0 L0 ls gs src TZ).
  assert (X : forall a b, exists c, cov D r0 L0 ls a b TZ 0 = Ok c /\ c01 c = c10 c).
  { intros a b. destruct (cov D r0 L0 ls a b TZ 0) as [c|] eqn:E; [|discriminate]. exists c. split; [reflexivity|]. eapply C65_symmetric; exact E. }
  destruct (X src src) as (c1 & E1 & S1), (X gs gs) as (c2 & E2 & S2), (X src gs) as (c3 & E3 & S3). rewrite E1, E2, E3. cbn [bind].
  unfold c00, c01, c10, c11 in *. eexists. split; [reflexivity|]. cbn [fst snd]. split; [rewrite S1, S2, S3; ring|]. split.
  - cbv beta zeta. rewrite S1, S2, S3. apply (f_equal (@Ok tcov)). repeat match goal with |- (_, _) = (_, _) => f_equal end; ring.
  - intros ->. rewrite E1 in E3. rewrite E1 in E2. apply Ok_inj in E2, E3. subst c2 c3. rewrite S1. cbv beta zeta. repeat match goal with |- (_, _) = (_, _) => f_equal end; ring.
Qed.
(** findings: the tilt argument of anisokinetism has no effect, an unknown kind of tilt is
    only detected by an unbound name, and the lag shifts by sqrt 2 times the distance
    covered by the wind *)
Theorem C65_tilt_ignored_refuted : forall D r0 L0 ls src gs t t', ani D r0 L0 ls src gs t = ani D r0 L0 ls src gs t'.
Proof. reflexivity. Qed.
Theorem C65_unknown_tilt : forall D r0 L0 ls src gs lag, cov D r0 L0 ls src gs TOther lag = Err NameError.
Proof. reflexivity. Qed.
End C65.
Theorem C65_lag_shift_refuted : forall lag l, tl_h l = 0 ->
  let s := tsep lag 0 0 l in fst s ^ 2 + snd s ^ 2 = 2 * (lag * tl_v l) ^ 2.
Proof.
  intros lag l H. cbv zeta. unfold tsep. rewrite H. cbn [fst snd].
  replace (_ ^ 2 + _ ^ 2) with (2 * (lag * tl_v l) ^ 2 * ((sin (tl_d l))² + (cos (tl_d l))²)) by (unfold Rsqr; ring). rewrite sin2_cos2. ring.
Qed.
Print Assumptions C65_symmetric.
Print Assumptions C65_exchange.
Print Assumptions C65_shift.
Print Assumptions C65_isotropic.
Print Assumptions C65_variance_nonneg.
Print Assumptions C65_mixed_filter.
Print Assumptions C65_anisokinetism.
Print Assumptions C65_lag_shift_refuted.
(** non-vacuity: a Bessel-like function null at 0 and a linear quadrature that sees
    the difference of the directions *)
Example C65_ex : exists c, tiltsAngularCovariance (fun x => x) (fun _ => 1) (fun x => x) (fun f => f 1) (fun _ => 1) 2 1 1 [mkTL 1000 1 10 0] (1, 0) (0, 0) TG 0 = Ok c /\ c01 c = c10 c.
Proof.
  destruct (tiltsAngularCovariance (fun x => x) (fun _ => 1) (fun x => x) (fun f => f 1) (fun _ => 1) 2 1 1 [mkTL 1000 1 10 0] (1, 0) (0, 0) TG 0) as [c|] eqn:E; [|discriminate].
  exists c. split; [reflexivity|]. exact (C65_symmetric _ _ _ _ _ _ _ _ _ _ _ _ _ _ E).
Qed.

Print Assumptions C65_tilt_ignored_refuted.
Print Assumptions C65_unknown_tilt.
