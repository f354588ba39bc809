(** Properties C61, C62: the sampled Zernike modes. *)
From Coq Require Import Reals List Arith ZArith Bool Lia Lra Psatz.
From Flocq Require Import Core.Raux.
From Coquelicot Require Import Coquelicot.
From Verif Require Import Base_Py M_Tools M_Zernike L_Zernike L_Zernike2 L_Zernike3 P_Zernike.
Import ListNotations.
Open Scope R_scope.

Lemma sqrt_quot x y : x <> 0 -> sqrt (1 + (y / x) ^ 2) = sqrt (x ^ 2 + y ^ 2) / Rabs x.
Proof.
  intros N. replace (1 + (y / x) ^ 2) with ((x ^ 2 + y ^ 2) / (x ^ 2)) by (field; assumption).
  rewrite sqrt_div_alt by nra. f_equal. replace (x ^ 2) with (Rsqr x) by (unfold Rsqr; ring). apply sqrt_Rsqr_abs.
Qed.
Lemma hyp_pos x y : x <> 0 -> 0 < sqrt (x ^ 2 + y ^ 2).
Proof. intros N. apply sqrt_lt_R0. assert (0 < x ^ 2) by nra. nra. Qed.
Lemma polar x y : sqrt (x ^ 2 + y ^ 2) * cos (atan2 y x) = x /\ sqrt (x ^ 2 + y ^ 2) * sin (atan2 y x) = y.
Proof.
  assert (A : forall t, x <> 0 -> t = y / x -> cos (atan t) = Rabs x / sqrt (x ^ 2 + y ^ 2) /\ sin (atan t) = y / x * (Rabs x / sqrt (x ^ 2 + y ^ 2))).
  { intros t N ->. rewrite cos_atan, sin_atan. unfold Rsqr. replace (1 + y / x * (y / x)) with (1 + (y / x) ^ 2) by (simpl; ring). rewrite sqrt_quot by assumption.
    pose proof (hyp_pos x y N). pose proof (Rabs_pos_lt x N). split; field; repeat split; lra. }
  unfold atan2. destruct (Rlt_dec 0 x) as [P|P]; [|destruct (Rlt_dec x 0) as [Q|Q]].
  - destruct (A (y / x)) as [-> ->]; [lra|reflexivity|]. rewrite Rabs_right by lra. pose proof (hyp_pos x y ltac:(lra)). split; field; lra.
  - destruct (A (y / x)) as [E1 E2]; [lra|reflexivity|]. rewrite Rabs_left in E1, E2 by lra. pose proof (hyp_pos x y ltac:(lra)).
    destruct (Rle_dec 0 y).
    + rewrite neg_cos, neg_sin, E1, E2. split; field; lra.
    + unfold Rminus. rewrite cos_plus, sin_plus, cos_neg, sin_neg, cos_PI, sin_PI, E1, E2. split; field; lra.
  - assert (x = 0) by lra. subst x. replace (0 ^ 2 + y ^ 2) with (Rsqr y) by (unfold Rsqr; ring). rewrite sqrt_Rsqr_abs.
    destruct (Rlt_dec 0 y); [rewrite cos_PI2, sin_PI2, Rabs_right by lra; lra|]. destruct (Rlt_dec y 0).
    + rewrite cos_neg, sin_neg, cos_PI2, sin_PI2, Rabs_left by lra. lra.
    + assert (y = 0) by lra. subst y. rewrite Rabs_R0. lra.
Qed.
Lemma polar_sq x y : sqrt (x ^ 2 + y ^ 2) ^ 2 = x ^ 2 + y ^ 2.
Proof. rewrite <- Rsqr_pow2. apply Rsqr_sqrt. nra. Qed.

Lemma R_fun_00 r : R_fun r 0 0 = 1. Proof. unfold R_fun, rterm. cbn. field. Qed.
Lemma R_fun_11 r : R_fun r 1 1 = r. Proof. unfold R_fun, rterm. cbn. field. Qed.
Lemma R_fun_20 r : R_fun r 2 0 = 2 * r ^ 2 - 1. Proof. unfold R_fun, rterm. cbn. field. Qed.

(** Cartesian coordinates of the pixel of row a and column b, in units of the pupil
    radius, the origin being the centre of the grid *)
Definition cx (u b : nat) : R := (2 * INR b - (INR u - 1)) / INR u.
Definition in_annulus (cobs : R) (u a b : nat) : Prop := cobs <= sqrt (cx u b ^ 2 + cx u a ^ 2) <= 1.
Lemma x1D_cx u b : x1D u b = cx u b.
Proof. unfold x1D, cx. f_equal. field. Qed.

Definition the_pupil (cobs : R) (u : nat) (pupil : option (nat -> nat -> bool)) (a b : nat) : Prop :=
  match pupil with Some p => p a b = true | None => in_annulus cobs u a b end.

Lemma make_default l u pupil cobs : l <> [] -> (forall j, In j l -> (1 <= j)%Z) ->
  exists z, make_zernike (Some l) u pupil false CDefault cobs = Ok z /\ z_res z = u /\
    d0 (z_modes z) = length l /\ d1 (z_modes z) = u /\ d2 (z_modes z) = u /\ length (z_nm z) = length l /\
    forall i j a b, nth_error l i = Some j -> exists n m, findNM1 j = Ok (n, m) /\
      nth_error (z_nm z) i = Some (Z.to_nat n, Z.to_nat m) /\
      (~ the_pupil cobs u pupil a b -> mv (z_modes z) i a b = 0) /\
      (the_pupil cobs u pupil a b -> mv (z_modes z) i a b = mode_value j (Z.to_nat n) (Z.to_nat m) (sqrt (cx u b ^ 2 + cx u a ^ 2)) (atan2 (cx u a) (cx u b))).
Proof.
  intros N H. destruct (C37_findNM_list l N H) as (r & E & L & F). unfold make_zernike. rewrite E. cbn [bind].
  eexists. split; [reflexivity|]. cbn [z_res z_modes d0 d1 d2 mv z_nm]. rewrite map_length. repeat (split; [try reflexivity; try exact L|]).
  intros i j a b Hi. destruct (F i j Hi) as ((n & m) & Hr & Ef). exists n, m. split; [exact Ef|].
  assert (Q : nth_error (map (fun p : Z * Z => (Z.to_nat (fst p), Z.to_nat (snd p))) r) i = Some (Z.to_nat n, Z.to_nat m)).
  { rewrite nth_error_map, Hr. reflexivity. }
  split; [exact Q|]. rewrite (nth_error_nth _ _ (0, 0)%nat Q), (nth_error_nth _ _ 0%Z Hi). cbn [fst snd].
  unfold pix_radius, pix_angle. unfold the_pupil, in_annulus. destruct pupil as [p|]; cbv beta; rewrite !x1D_cx.
  - destruct (p a b); split; intros; congruence.
  - destruct (Rle_dec cobs _), (Rle_dec _ 1); cbn [andb]; split; intros; try reflexivity; tauto.
Qed.

(** C61: every list of Noll indices gives one u x u map per index, null outside of
    the pupil; inside, piston is 1, the tilts are the ramps 2x and 2y, defocus is
    sqrt 3 (2 r^2 - 1); the radial and azimuthal orders are reported in the order
    of the list. *)
Theorem C61_modes : forall l u pupil cobs, l <> [] -> (forall j, In j l -> (1 <= j)%Z) ->
  exists z, make_zernike (Some l) u pupil false CDefault cobs = Ok z /\
    d0 (z_modes z) = length l /\ d1 (z_modes z) = u /\ d2 (z_modes z) = u /\
    forall i j a b, nth_error l i = Some j ->
      (~ the_pupil cobs u pupil a b -> mv (z_modes z) i a b = 0) /\
      (the_pupil cobs u pupil a b ->
        (j = 1%Z -> mv (z_modes z) i a b = 1) /\
        (j = 2%Z -> mv (z_modes z) i a b = 2 * cx u b) /\
        (j = 3%Z -> mv (z_modes z) i a b = 2 * cx u a) /\
        (j = 4%Z -> mv (z_modes z) i a b = sqrt 3 * (2 * (cx u b ^ 2 + cx u a ^ 2) - 1))).
Proof.
  intros l u pupil cobs N H. destruct (make_default l u pupil cobs N H) as (z & E & _ & D0 & D1 & D2 & _ & F).
  exists z. repeat (split; [assumption|]). intros i j a b Hi. destruct (F i j a b Hi) as (n & m & Ef & _ & O & I). split; [exact O|]. intros P. rewrite (I P).
  assert (V : forall j n' k, (0 <= n')%Z -> (n' * (n' + 1) = 2 * k)%Z -> in_order n' j -> findNM1 j = Ok (n', azim n' (j - k))) by (intros; now apply findNM1_val).
  destruct (polar (cx u b) (cx u a)) as [PX PY]. pose proof s2 as S2.
  assert (S : sqrt (1 + 1) = sqrt 2) by reflexivity.
  repeat split; intros ->.
  - rewrite (V 1 0 0)%Z in Ef by (unfold in_order; lia). injection Ef as <- <-. unfold mode_value. change (Z.to_nat (azim 0 1)) with 0%nat. change (Z.to_nat 0) with 0%nat. cbn [Nat.eqb]. rewrite R_fun_00. replace (INR 0 + 1) with 1 by (cbn; ring). rewrite sqrt_1. ring.
  - rewrite (V 2 1 1)%Z in Ef by (unfold in_order; lia). injection Ef as <- <-. unfold mode_value. change (Z.to_nat (azim 1 1)) with 1%nat. change (Z.to_nat 1) with 1%nat. cbn [Nat.eqb]. change (2 mod 2 =? 0)%Z with true. cbn iota. rewrite R_fun_11. cbn [INR]. rewrite S, Rmult_1_l. set (r := sqrt (_ ^ 2 + _ ^ 2)) in *. replace (sqrt 2 * r * sqrt 2 * cos (atan2 (cx u a) (cx u b))) with ((sqrt 2 * sqrt 2) * (r * cos (atan2 (cx u a) (cx u b)))) by ring. rewrite S2, PX. reflexivity.
  - rewrite (V 3 1 1)%Z in Ef by (unfold in_order; lia). injection Ef as <- <-. unfold mode_value. change (Z.to_nat (azim 1 2)) with 1%nat. change (Z.to_nat 1) with 1%nat. cbn [Nat.eqb]. change (3 mod 2 =? 0)%Z with false. cbn iota. rewrite R_fun_11. cbn [INR]. rewrite S, Rmult_1_l. set (r := sqrt (_ ^ 2 + _ ^ 2)) in *. replace (sqrt 2 * r * sqrt 2 * sin (atan2 (cx u a) (cx u b))) with ((sqrt 2 * sqrt 2) * (r * sin (atan2 (cx u a) (cx u b)))) by ring. rewrite S2, PY. reflexivity.
  - rewrite (V 4 2 3)%Z in Ef by (unfold in_order; lia). injection Ef as <- <-. unfold mode_value. change (Z.to_nat (azim 2 1)) with 0%nat. change (Z.to_nat 2) with 2%nat. cbn [Nat.eqb]. rewrite R_fun_20, polar_sq. replace (INR 2 + 1) with 3 by (cbn; ring). ring.
Qed.
Print Assumptions C61_modes.
(** non-vacuity: a 3 x 3 grid; its corners are inside the pupil (radius < 1) *)
Example C61_ex : exists z, make_zernike (Some [2; 4]%Z) 3 None false CDefault 0 = Ok z /\ mv (z_modes z) 0 1 2 = 4 / 3 /\ mv (z_modes z) 1 1 1 = - sqrt 3.
Proof.
  destruct (C61_modes [2; 4]%Z 3%nat None 0) as (z & E & _ & _ & _ & F); [discriminate|intros j [<-|[<-|[]]]; lia|].
  exists z. split; [exact E|]. split.
  - destruct (F 0%nat 2%Z 1%nat 2%nat eq_refl) as [_ I]. destruct I as (_ & I & _).
    + cbn. unfold in_annulus, cx. cbn [INR]. split; [apply sqrt_pos|]. apply Rsqr_incr_0_var; [rewrite Rsqr_sqrt by nra; unfold Rsqr; lra|lra].
    + rewrite I by reflexivity. unfold cx. cbn [INR]. lra.
  - destruct (F 1%nat 4%Z 1%nat 1%nat eq_refl) as [_ I]. destruct I as (_ & _ & _ & I).
    + cbn. unfold in_annulus, cx. cbn [INR]. split; [apply sqrt_pos|]. apply Rsqr_incr_0_var; [rewrite Rsqr_sqrt by nra; unfold Rsqr; lra|lra].
    + rewrite I by reflexivity. unfold cx. cbn [INR]. replace ((2 * 1 - (1 + 1 + 1 - 1)) / (1 + 1 + 1)) with 0 by field. ring.
Qed.

(** C61: on the default pupil both tilts have a null sum, whatever the resolution
    and the obscuration. *)
Definition pix_sum (f : nat -> nat -> R) (u : nat) : R := lsum (map (fun a => lsum (map (fun b => f a b) (seq 0 u))) (seq 0 u)).
Lemma lsum_map_ext {A} (f g : A -> R) l : (forall x, In x l -> f x = g x) -> lsum (map f l) = lsum (map g l).
Proof. intros H. f_equal. now apply map_ext_in. Qed.
Lemma lsum_app l l' : lsum (l ++ l') = lsum l + lsum l'.
Proof. unfold lsum. induction l; cbn [app fold_right]; [ring|]. rewrite IHl. ring. Qed.
Lemma lsum_rev_seq (f : nat -> R) u : lsum (map f (seq 0 u)) = lsum (map (fun i => f (u - 1 - i)%nat) (seq 0 u)).
Proof.
  rewrite <- (map_map (fun i => (u - 1 - i)%nat) f). replace (map (fun i => (u - 1 - i)%nat) (seq 0 u)) with (rev (seq 0 u)).
  - rewrite map_rev. unfold lsum. generalize (map f (seq 0 u)). intros l. induction l; cbn [rev]; [reflexivity|].
    fold (lsum (rev l ++ [a])). rewrite lsum_app. unfold lsum at 1 2. cbn [fold_right]. rewrite IHl. fold (lsum (rev l)). unfold lsum. ring.
  - induction u; [reflexivity|]. rewrite seq_S at 1. rewrite rev_app_distr. cbn [rev app seq]. cbn [map]. f_equal; [lia|]. rewrite IHu.
    rewrite <- seq_shift, map_map. apply map_ext. intros. lia.
Qed.
Lemma lsum_opp {A} (f : A -> R) l : lsum (map (fun x => - f x) l) = - lsum (map f l).
Proof. unfold lsum. induction l; cbn [map fold_right]; [ring|rewrite IHl; ring]. Qed.
Lemma lsum_zero {A} (f : A -> R) l : (forall x, In x l -> f x = 0) -> lsum (map f l) = 0.
Proof. intros H. rewrite (lsum_map_ext f (fun _ => 0)) by exact H. unfold lsum. induction l; cbn [map fold_right]; [reflexivity|]. rewrite IHl; [ring|]. intros; apply H; now right. Qed.
Lemma odd_sum (f : nat -> R) u : (forall i, (i < u)%nat -> f (u - 1 - i)%nat = - f i) -> lsum (map f (seq 0 u)) = 0.
Proof.
  intros H. pose proof (lsum_rev_seq f u) as E. rewrite (lsum_map_ext (fun i => f (u - 1 - i)%nat) (fun i => - f i)) in E; [|intros i Hi; apply in_seq in Hi; apply H; lia].
  rewrite lsum_opp in E. lra.
Qed.
Lemma cx_mirror u b : (b < u)%nat -> cx u (u - 1 - b) = - cx u b.
Proof. intros H. unfold cx. rewrite !minus_INR by lia. cbn [INR]. assert (INR u <> 0) by (apply not_0_INR; lia). field. assumption. Qed.
Theorem C61_tilt_sum : forall l u cobs, l <> [] -> (forall j, In j l -> (1 <= j)%Z) ->
  exists z, make_zernike (Some l) u None false CDefault cobs = Ok z /\
    forall i j, nth_error l i = Some j -> (j = 2 \/ j = 3)%Z -> pix_sum (mv (z_modes z) i) u = 0.
Proof.
  intros l u cobs N H. destruct (C61_modes l u None cobs N H) as (z & E & _ & _ & _ & F). exists z. split; [exact E|].
  intros i j Hi Hj. set (w := fun a b => if Rle_dec cobs (sqrt (cx u b ^ 2 + cx u a ^ 2)) then if Rle_dec (sqrt (cx u b ^ 2 + cx u a ^ 2)) 1 then 1 else 0 else 0).
  assert (V : forall a b, mv (z_modes z) i a b = w a b * (2 * (if (j =? 2)%Z then cx u b else cx u a))).
  { intros a b. destruct (F i j a b Hi) as [O I]. cbn in O, I. unfold in_annulus in O, I. unfold w.
    destruct (Rle_dec cobs _); [destruct (Rle_dec _ 1)|].
    - destruct I as (_ & I2 & I3 & _); [tauto|]. destruct Hj as [ -> | -> ]; cbn [Z.eqb]; [rewrite I2 by reflexivity|rewrite I3 by reflexivity]; cbn; ring.
    - rewrite O by tauto. ring.
    - rewrite O by tauto. ring. }
  assert (Sy : forall a b, (b < u)%nat -> w a (u - 1 - b)%nat = w a b) by (intros a b Hb; unfold w; rewrite cx_mirror by exact Hb; replace ((- cx u b) ^ 2) with (cx u b ^ 2) by ring; reflexivity).
  assert (Sx : forall a b, (a < u)%nat -> w (u - 1 - a)%nat b = w a b) by (intros a b Hb; unfold w; rewrite cx_mirror by exact Hb; replace ((- cx u a) ^ 2) with (cx u a ^ 2) by ring; reflexivity).
  unfold pix_sum. destruct Hj as [ -> | -> ].
  - apply lsum_zero. intros a _. apply odd_sum. intros b Hb. rewrite !V, Sy, cx_mirror by exact Hb. cbn. ring.
  - apply odd_sum. intros a Ha. rewrite <- lsum_opp. apply lsum_map_ext. intros b _. rewrite !V, Sx, cx_mirror by exact Ha. cbn. ring.
Qed.
Print Assumptions C61_tilt_sum.

(** C62: coordinates given by the user, unit normalisation and arguments of another
    type: findings *)
Theorem C62_user_coordinates_refuted : forall l u pupil un cobs radius, radius <> CDefault ->
  exists e, make_zernike (Some l) u pupil un radius cobs = Err e.
Proof. intros l u pupil un cobs [|n|n] H; [congruence|eexists; reflexivity|]. cbn. destruct (n =? 1)%nat; eexists; reflexivity. Qed.
Print Assumptions C62_user_coordinates_refuted.
Theorem C62_not_a_list : forall u pupil un radius cobs, make_zernike None u pupil un radius cobs = Err AttributeError.
Proof. reflexivity. Qed.
(** a single mode: unitNorm divides by the norm sqrt((n+1)) or sqrt(2(n+1)), so that
    the mode has a unit amplitude: radial polynomial times 1, cos or sin *)
Definition unit_mode (j : Z) (n m : nat) (r o : R) : R :=
  R_fun r n m * (if (m =? 0)%nat then 1 else if (j mod 2 =? 0)%Z then cos (INR m * o) else sin (INR m * o)).
Lemma unit_mode_eq j n m r o : mode_value j n m r o * (1 / nollNorm n m) = unit_mode j n m r o.
Proof.
  unfold mode_value, nollNorm, unit_mode. pose proof (pos_INR n). assert (P : sqrt (INR n + 1) <> 0) by (apply Rgt_not_eq, sqrt_lt_R0; lra).
  assert (Q : sqrt 2 <> 0) by (apply Rgt_not_eq, sqrt_lt_R0; lra).
  destruct (m =? 0)%nat.
  - replace ((2 - 1) * (INR n + 1)) with (INR n + 1) by ring. field. assumption.
  - rewrite Rminus_0_r, sqrt_mult by lra. destruct (j mod 2 =? 0)%Z; field; split; assumption.
Qed.
Theorem C62_unit_norm_single : forall j u pupil cobs, (1 <= j)%Z ->
  exists z n m, make_zernike (Some [j]) u pupil true CDefault cobs = Ok z /\ findNM1 j = Ok (n, m) /\
   forall a b, the_pupil cobs u pupil a b ->
     mv (z_modes z) 0 a b = unit_mode j (Z.to_nat n) (Z.to_nat m) (sqrt (cx u b ^ 2 + cx u a ^ 2)) (atan2 (cx u a) (cx u b)).
Proof.
  intros j u pupil cobs Hj. destruct (make_default [j] u pupil cobs ltac:(discriminate) ltac:(intros k [<-|[]]; lia)) as (z & E & _ & _ & _ & _ & L & F).
  destruct (F 0%nat j 0%nat 0%nat eq_refl) as (n & m & Ef & Q & _).
  unfold make_zernike in *. destruct (findNM [j] []) as [nm|] eqn:Enm; [|discriminate]. cbn [bind] in E |- *. apply Ok_inj in E. subst z. cbn [z_nm z_modes mv] in *.
  unfold unit_scale. rewrite L. cbn [length Nat.eqb bind]. eexists. exists n, m. split; [reflexivity|]. split; [exact Ef|].
  intros a b P. cbn [z_modes mv]. destruct (F 0%nat j a b eq_refl) as (n' & m' & Ef' & Q' & _ & I). rewrite Ef in Ef'. injection Ef' as <- <-.
  rewrite (I P). rewrite (nth_error_nth _ _ (0, 0)%nat Q). cbn [fst snd]. apply unit_mode_eq.
Qed.
Print Assumptions C62_unit_norm_single.
(** several modes: unitNorm is refused unless their number is the resolution (or the
    grid has one pixel), and in that case all off-diagonal pixels are zeroed *)
Theorem C62_unit_norm_refuted : forall l u pupil cobs, (2 <= length l)%nat -> (forall j, In j l -> (1 <= j)%Z) -> (2 <= u)%nat ->
  (length l <> u -> make_zernike (Some l) u pupil true CDefault cobs = Err ValueError) /\
  (length l = u -> exists z, make_zernike (Some l) u pupil true CDefault cobs = Ok z /\ forall i a b, a <> b -> mv (z_modes z) i a b = 0).
Proof.
  intros l u pupil cobs L H U. destruct (make_default l u pupil cobs) as (z & E & _ & _ & _ & _ & Ln & F); [intros ->; cbn in L; lia|exact H|].
  unfold make_zernike in *. destruct (findNM l []) as [nm|] eqn:Enm; [|discriminate]. cbn [bind] in E |- *. apply Ok_inj in E. subst z. cbn [z_nm] in *.
  unfold unit_scale. rewrite Ln. cbn [d1]. destruct (Nat.eqb_spec (length l) 1); [lia|].
  split; intros Q.
  - destruct (Nat.eqb_spec u (length l)); [congruence|]. destruct (Nat.eqb_spec u 1); [lia|]. reflexivity.
  - destruct (Nat.eqb_spec u (length l)); [|congruence]. eexists. split; [reflexivity|]. intros i a b N. cbn [z_modes mv]. destruct (Nat.eqb_spec a b); [congruence|]. ring.
Qed.
Print Assumptions C62_unit_norm_refuted.

Print Assumptions C62_not_a_list.
