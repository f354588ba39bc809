(** C75: wind shake and the modal filters. *)
From Coq Require Import Reals List Arith ZArith Bool Lia Lra Psatz Sorting.Sorted.
From Flocq Require Import Core.Raux.
From Verif Require Import Base_Py Base_Sum M_Tools M_Freq M_Atmo M_Sensor M_Model M_Model2 M_Cone L_Tools L_Atmo L_Model L_Model3 P_Breakdown P_FocalAniso.
From Coquelicot Require Import Complex.
Import ListNotations.
Open Scope R_scope.

(** ** Bessel functions of integer order *)
Lemma bessel_nat_SS j0 j1 m z : bessel_nat j0 j1 (S (S m)) z = do p <- bessel_nat j0 j1 (S m) z; do q <- rdiv (2 * INR (S m) * fst p) z; Ok (q - snd p, fst p).
Proof. reflexivity. Qed.
Lemma bessel_nat_def j0 j1 n z : z <> 0 -> exists a b, bessel_nat j0 j1 n z = Ok (a, b).
Proof.
  intros Hz. induction n as [|[|m] IH]; [do 2 eexists; reflexivity|do 2 eexists; reflexivity|]. destruct IH as (a & b & E). rewrite bessel_nat_SS, E. cbn [bind fst snd]. rewrite rdiv_ok by exact Hz. cbn [bind]. do 2 eexists. reflexivity.
Qed.
Lemma bessel_nat_prev j0 j1 n z a b c d : bessel_nat j0 j1 (S n) z = Ok (a, b) -> bessel_nat j0 j1 n z = Ok (c, d) -> b = c.
Proof.
  destruct n as [|m]; [cbn; intros H G; injection H as <- <-; injection G as <- <-; reflexivity|]. intros H G. rewrite bessel_nat_SS, G in H. cbn [bind fst snd] in H. destruct (rdiv _ _); cbn [bind] in H; [|discriminate]. injection H as <- <-. reflexivity.
Qed.
(** C75: the recurrence of the Bessel functions, at every order and every non-zero argument. *)
Theorem C75_bessel_recurrence : forall j0 j1 n z, (1 <= n)%Z -> z <> 0 ->
  exists a b c, besselj j0 j1 (n - 1) z = Ok a /\ besselj j0 j1 n z = Ok b /\ besselj j0 j1 (n + 1) z = Ok c /\ c + a = 2 * IZR n * b / z.
Proof.
  intros j0 j1 n z Hn Hz. destruct (Z_of_nat_complete n) as [m Em]; [lia|]. destruct m as [|m]; [lia|]. subst n.
  destruct (bessel_nat_def j0 j1 m z Hz) as (a & a' & Ea). destruct (bessel_nat_def j0 j1 (S m) z Hz) as (b & b' & Eb).
  assert (Eb' := bessel_nat_prev _ _ _ _ _ _ _ _ Eb Ea). subst b'.
  exists a, b, (2 * INR (S m) * b / z - a). unfold besselj.
  replace (Z.abs_nat (Z.of_nat (S m) - 1)) with m by lia. replace (Z.abs_nat (Z.of_nat (S m))) with (S m) by lia. replace (Z.abs_nat (Z.of_nat (S m) + 1)) with (S (S m)) by lia.
  rewrite (proj2 (Z.ltb_ge (Z.of_nat (S m) - 1) 0)) by lia. rewrite (proj2 (Z.ltb_ge (Z.of_nat (S m)) 0)) by lia. rewrite (proj2 (Z.ltb_ge (Z.of_nat (S m) + 1) 0)) by lia.
  rewrite Ea, bessel_nat_SS, Eb. cbn [bind fst snd]. rewrite rdiv_ok by exact Hz. cbn [bind fst].
  repeat split. rewrite <- INR_IZR_INZ. ring.
Qed.
Print Assumptions C75_bessel_recurrence.
(** C75, refuted: J_(-n) = (-1)^n J_n fails for every even order (the code reads -1**n as
    -(1**n)). *)
Theorem C75_bessel_negative_refuted : forall j0 j1 n z, (0 < n)%Z -> z <> 0 ->
  exists v, besselj j0 j1 n z = Ok v /\ besselj j0 j1 (- n) z = Ok (- v).
Proof.
  intros j0 j1 n z Hn Hz. destruct (bessel_nat_def j0 j1 (Z.abs_nat n) z Hz) as (a & b & E). exists a. unfold besselj. replace (Z.abs_nat (- n)) with (Z.abs_nat n) by lia. rewrite E. cbn [bind fst]. rewrite (proj2 (Z.ltb_ge n 0)) by lia. rewrite (proj2 (Z.ltb_lt (- n) 0)) by lia. split; [reflexivity|]. f_equal. ring.
Qed.
Print Assumptions C75_bessel_negative_refuted.

(** ** modal filters *)
Lemma tilt_x_nonneg D k : 0 <= D -> 0 <= k -> 0 <= tilt_x D k.
Proof. intros HD Hk. pose proof PI_RGT_0. replace (tilt_x D k) with (PI * (D * k)) by (unfold tilt_x; field). apply Rmult_le_pos; [lra|]. now apply Rmult_le_pos. Qed.
Lemma besselj2 j0 j1 z : z <> 0 -> besselj j0 j1 2 z = Ok (2 * j1 z / z - j0 z).
Proof. intros H. unfold besselj. change (Z.abs_nat 2) with 2%nat. rewrite bessel_nat_SS. cbn [bessel_nat bind fst snd]. rewrite rdiv_ok by exact H. cbn [bind fst Z.ltb Z.compare]. f_equal. cbn [INR]. field. exact H. Qed.
Lemma besselj3 j0 j1 z : z <> 0 -> besselj j0 j1 3 z = Ok (4 * (2 * j1 z / z - j0 z) / z - j1 z).
Proof. intros H. unfold besselj. change (Z.abs_nat 3) with 3%nat. rewrite !bessel_nat_SS. cbn [bessel_nat bind fst snd]. rewrite rdiv_ok by exact H. cbn [bind fst snd]. rewrite rdiv_ok by exact H. cbn [bind fst Z.ltb Z.compare]. f_equal. cbn [INR]. field. exact H. Qed.
Lemma tiltFilter_val j0 j1 D k : 0 <= D -> 0 <= k -> tiltFilter j0 j1 D k = Ok (
  let x := tilt_x D k in if Rlt_dec x (1 / 1000000) then 0 else 1 - (2 * j1 x / x) ^ 2 - (4 * (2 * j1 x / x - j0 x) / x) ^ 2).
Proof.
  intros HD Hk. unfold tiltFilter. cbv zeta. destruct (Rlt_dec (tilt_x D k) (1 / 1000000)) as [L|L].
  - rewrite rdiv_ok by lra. cbn [bind]. rewrite besselj2 by lra. cbn [bind]. rewrite rdiv_ok by lra. cbn [bind]. f_equal. ring.
  - assert (N : tilt_x D k <> 0) by lra. rewrite rdiv_ok by exact N. cbn [bind]. rewrite besselj2 by exact N. cbn [bind]. rewrite rdiv_ok by exact N. cbn [bind]. reflexivity.
Qed.
(** C75: the tilt filter removes the piston and the two tilts with the weights of the
    aperture: with x = pi D k it is 1 - (2 J1(x)/x)^2 - (4 J2(x)/x)^2, J2(x) = 2 J1(x)/x - J0(x);
    it is 0 at the origin, and never above 1. *)
Theorem C75_tilt_filter : forall j0 j1 D k, 0 <= D -> 0 <= k ->
  exists v, tiltFilter j0 j1 D k = Ok v /\ v <= 1 /\ (k = 0 -> v = 0) /\
    let x := PI * D * k in let J2 := 2 * j1 x / x - j0 x in (1 / 1000000 <= x -> v = 1 - (2 * j1 x / x) ^ 2 - (4 * J2 / x) ^ 2).
Proof.
  intros j0 j1 D k HD Hk. eexists. split; [now apply tiltFilter_val|]. cbv zeta. assert (X : tilt_x D k = PI * D * k) by (unfold tilt_x; field). rewrite X. destruct (Rlt_dec (PI * D * k) (1 / 1000000)) as [L|L].
  - split; [lra|]. split; [reflexivity|]. intros; lra.
  - split; [|split; [intros ->; exfalso; apply L; rewrite Rmult_0_r; lra|reflexivity]]. match goal with |- 1 - ?a ^ 2 - ?b ^ 2 <= 1 => pose proof (pow2_ge_0 a); pose proof (pow2_ge_0 b) end. lra.
Qed.
Print Assumptions C75_tilt_filter.
(** C75: the focus filter is 1 - 3 (2 J3(x)/x)^2, 1 at the origin, never above 1. *)
Theorem C75_focus_filter : forall j0 j1 D k, 0 <= D -> 0 <= k ->
  exists v, focusFilter j0 j1 D k = Ok v /\ v <= 1 /\ (k = 0 -> v = 1) /\
    let x := PI * D * k in let J2 := 2 * j1 x / x - j0 x in let J3 := 4 * J2 / x - j1 x in (1 / 1000000 <= x -> v = 1 - 3 * (2 * J3 / x) ^ 2).
Proof.
  intros j0 j1 D k HD Hk. assert (X : tilt_x D k = PI * D * k) by (unfold tilt_x; field). unfold focusFilter. cbv zeta. rewrite X. destruct (Rlt_dec (PI * D * k) (1 / 1000000)) as [L|L].
  - exists 1. rewrite besselj3 by lra. cbn [bind]. rewrite rdiv_ok by lra. cbn [bind]. split; [f_equal; ring|]. split; [lra|]. split; [reflexivity|]. intros; lra.
  - assert (N : PI * D * k <> 0) by lra. rewrite besselj3 by exact N. cbn [bind]. rewrite rdiv_ok by exact N. cbn [bind]. eexists. split; [reflexivity|]. split; [match goal with |- 1 - 3 * ?a ^ 2 <= 1 => pose proof (pow2_ge_0 a) end; lra|]. split; [intros ->; exfalso; apply L; rewrite Rmult_0_r; lra|reflexivity].
Qed.
Print Assumptions C75_focus_filter.

(** ** total of the wind shake *)
Lemma vib_power_nonneg gain delay rate fx ft fy p : vib_power gain delay rate fx ft fy = Ok p -> 0 <= p.
Proof.
  unfold vib_power. cbv zeta. intros H. destruct (mapM _ _) as [l|e] in H; cbn [bind] in H; [|discriminate]. destruct (pyindex _ 1) as [a|e] in H; cbn [bind] in H; [|discriminate]. destruct (pyindex _ 0) as [b|e] in H; cbn [bind] in H; [|discriminate]. injection H as <-. apply Cmod_ge_0.
Qed.
Lemma wind_inv j0 j1 D gain delay rate rad2nm n fk pist mask fx ft fy out : 0 <= D -> (forall i j, 0 <= fk i j) -> (forall i j, 0 <= pist i j) ->
  windShakePSD j0 j1 D gain delay rate rad2nm n fk pist mask fx ft fy = Ok out ->
  exists w p, (forall i j, (i < n)%nat -> (j < n)%nat -> 0 <= w i j) /\ 0 < gsum n w /\ vib_power gain delay rate fx ft fy = Ok p /\ rad2nm <> 0 /\
    (forall i j, (i < n)%nat -> (j < n)%nat -> w i j = match tiltFilter j0 j1 D (fk i j) with Ok t => (1 - t) * pist i j | Err _ => 0 end) /\
    length out = n /\ (forall i, (i < n)%nat -> length (nth i out []) = n) /\
    forall i j, (i < n)%nat -> (j < n)%nat -> grid_at out i j = mask i j * (p / rad2nm ^ 2 * (w i j / gsum n w)).
Proof.
  intros HD Hk Hp H. unfold windShakePSD in H. destruct (grid_res _ _) as [w|e] eqn:Ew in H; cbn [bind] in H; [|discriminate]. destruct (grid_res_spec _ _ _ Ew) as (L1 & L2 & W). destruct (rdiv 1 (lsum2 w)) as [iv|e] eqn:Ei in H; cbn [bind] in H; [|discriminate]. apply rdiv_inv in Ei. destruct Ei as (N & ->).
  destruct (vib_power _ _ _ _ _ _) as [p|e] eqn:Ep in H; cbn [bind] in H; [|discriminate]. destruct (rdiv 1 (rad2nm ^ 2)) as [q|e] eqn:Eq in H; cbn [bind] in H; [|discriminate]. apply rdiv_inv in Eq. destruct Eq as (Nr & ->). injection H as <-.
  assert (W0 : forall i j, (i < n)%nat -> (j < n)%nat -> 0 <= grid_at w i j).
  { intros i j Hi Hj. specialize (W i j Hi Hj). destruct (C75_tilt_filter j0 j1 D (fk i j) HD (Hk i j)) as (t & Et & T1 & _). rewrite Et in W. cbn [bind] in W. injection W as <-. apply Rmult_le_pos; [lra|apply Hp]. }
  rewrite (lsum2_gsum n w L1 L2) in *. assert (G : 0 < gsum n (grid_at w)) by (destruct (Rle_lt_or_eq_dec _ _ (gsum_nonneg n _ W0)); [assumption|congruence]).
  exists (grid_at w), p. split; [exact W0|]. split; [exact G|]. split; [exact Ep|]. split; [intros ->; apply Nr; ring|]. split.
  - intros i j Hi Hj. specialize (W i j Hi Hj). destruct (tiltFilter j0 j1 D (fk i j)); cbn [bind] in W; [|discriminate]. now injection W as <-.
  - assert (P0 := vib_power_nonneg _ _ _ _ _ _ _ Ep). split; [now rewrite map_length, seq_length|]. split.
    + intros i Hi. rewrite (nth_indep _ _ (map (fun j => mask 0%nat j * Rabs (p * (1 / rad2nm ^ 2) * (grid_at w 0%nat j * (1 / gsum n (grid_at w))))) (seq 0 n))) by now rewrite map_length, seq_length. rewrite (map_nth (fun i => map (fun j => mask i j * Rabs (p * (1 / rad2nm ^ 2) * (grid_at w i j * (1 / gsum n (grid_at w))))) (seq 0 n)) (seq 0 n) 0%nat). now rewrite map_length, seq_length.
    + intros i j Hi Hj. unfold grid_at at 1. rewrite (nth_indep _ _ (map (fun j => mask 0%nat j * Rabs (p * (1 / rad2nm ^ 2) * (grid_at w 0%nat j * (1 / gsum n (grid_at w))))) (seq 0 n))) by now rewrite map_length, seq_length. rewrite (map_nth (fun i => map (fun j => mask i j * Rabs (p * (1 / rad2nm ^ 2) * (grid_at w i j * (1 / gsum n (grid_at w))))) (seq 0 n)) (seq 0 n) 0%nat). rewrite seq_nth by exact Hi.
      rewrite (nth_indep _ _ (mask (0 + i)%nat 0%nat * Rabs (p * (1 / rad2nm ^ 2) * (grid_at w (0 + i)%nat 0%nat * (1 / gsum n (grid_at w)))))) by now rewrite map_length, seq_length. rewrite (map_nth (fun j => mask (0 + i)%nat j * Rabs (p * (1 / rad2nm ^ 2) * (grid_at w (0 + i)%nat j * (1 / gsum n (grid_at w))))) (seq 0 n) 0%nat). rewrite seq_nth by exact Hj. cbn [Nat.add].
      rewrite Rabs_pos_eq; [f_equal; unfold Rdiv; ring|]. assert (R2 : 0 < rad2nm ^ 2) by (destruct (Rle_lt_or_eq_dec _ _ (pow2_ge_0 rad2nm)); [assumption|congruence]). apply Rmult_le_pos; apply Rmult_le_pos; try assumption; try (now apply W0); left; apply Rdiv_lt_0_compat; lra.
Qed.
(** C75: the wind shake spectrum is non-negative everywhere, zero outside the mask, follows
    the shape of the two tilts, and its total over the corrected area, converted to
    nanometres squared, is the residual power of the vibrations: nothing is lost or
    created when the mask covers the corrected area, and less is kept otherwise. *)
Theorem C75_total : forall j0 j1 D gain delay rate rad2nm n fk pist mask fx ft fy out, 0 <= D -> (forall i j, 0 <= fk i j) -> (forall i j, 0 <= pist i j) -> (forall i j, 0 <= mask i j <= 1) ->
  windShakePSD j0 j1 D gain delay rate rad2nm n fk pist mask fx ft fy = Ok out ->
  exists p, vib_power gain delay rate fx ft fy = Ok p /\
    (forall i j, (i < n)%nat -> (j < n)%nat -> 0 <= grid_at out i j) /\
    (forall i j, (i < n)%nat -> (j < n)%nat -> mask i j = 0 -> grid_at out i j = 0) /\
    rad2nm ^ 2 * gsum n (grid_at out) <= p /\
    ((forall i j, (i < n)%nat -> (j < n)%nat -> mask i j = 1) -> rad2nm ^ 2 * gsum n (grid_at out) = p).
Proof.
  intros j0 j1 D gain delay rate rad2nm n fk pist mask fx ft fy out HD Hk Hp Hm H. destruct (wind_inv _ _ _ _ _ _ _ _ _ _ _ _ _ _ _ HD Hk Hp H) as (w & p & W0 & G & Ep & Nr & _ & _ & _ & V). assert (P0 := vib_power_nonneg _ _ _ _ _ _ _ Ep). assert (R2 : 0 < rad2nm ^ 2) by (assert (rad2nm ^ 2 <> 0) by (apply pow_nonzero; exact Nr); destruct (Rle_lt_or_eq_dec _ _ (pow2_ge_0 rad2nm)); [assumption|congruence]).
  assert (T : forall i j, (i < n)%nat -> (j < n)%nat -> 0 <= p / rad2nm ^ 2 * (w i j / gsum n w)).
  { intros i j Hi Hj. apply Rmult_le_pos; apply Rmult_le_pos; try assumption; try (now apply W0); left; now apply Rinv_0_lt_compat. }
  assert (E : rad2nm ^ 2 * gsum n (fun i j => p / rad2nm ^ 2 * (w i j / gsum n w)) = p).
  { rewrite gsum_scal. unfold Rdiv at 2. rewrite gsum_scal_r. field. split; lra. }
  exists p. split; [exact Ep|]. split; [intros i j Hi Hj; rewrite V by assumption; apply Rmult_le_pos; [apply Hm|now apply T]|]. split; [intros i j Hi Hj M0; rewrite V, M0 by assumption; ring|]. split.
  - rewrite <- E. apply Rmult_le_compat_l; [lra|]. unfold gsum at 1 2. apply rsum_le. intros i Hi. apply rsum_le. intros j Hj. rewrite V by assumption. specialize (T i j Hi Hj). specialize (Hm i j). nra.
  - intros M1. rewrite <- E. f_equal. apply gsum_ext. intros i j Hi Hj. rewrite V, M1 by assumption. ring.
Qed.
Print Assumptions C75_total.

(** ** residual power of the vibrations *)
Definition vib_freqs (rate : R) : list R := linspace (1 / 10) (5 / 10 * rate) (Z.to_nat (Ztrunc (5 * rate))).
Lemma interp0_range hi x xp fp v : interp0 x xp fp = Ok v -> StronglySorted Rlt xp -> 0 <= hi -> (forall y, In y fp -> 0 <= y <= hi) -> 0 <= v <= hi.
Proof.
  unfold interp0. intros H HS Hh Hf. destruct (np_interp x xp fp) as [u|e] eqn:E; cbn [bind] in H; [|discriminate]. assert (U := np_interp_range 0 hi x xp fp u E Hf HS). injection H as <-. destruct xp as [|x0 r]; [exact U|]. destruct (Rlt_dec x x0); [lra|]. destruct (Rlt_dec _ x); [lra|exact U].
Qed.
Lemma max_bound (l : list R) : (forall y, In y l -> 0 <= y) -> exists m, 0 <= m /\ forall y, In y l -> 0 <= y <= m.
Proof.
  induction l as [|a l IH]; intros H; [exists 0; split; [lra|intros y []]|]. destruct IH as (m & M0 & M); [intros y Hy; apply H; now right|]. assert (A := H a (or_introl eq_refl)). exists (Rmax a m). split; [pose proof (Rmax_r a m); lra|]. intros y [ <-|Hy]; [split; [exact A|apply Rmax_l]|]. specialize (M y Hy). pose proof (Rmax_r a m). lra.
Qed.
Lemma interp0_nonneg x xp fp v : interp0 x xp fp = Ok v -> StronglySorted Rlt xp -> (forall y, In y fp -> 0 <= y) -> 0 <= v.
Proof. intros H HS Hf. destruct (max_bound fp Hf) as (m & M0 & M). now apply (interp0_range m x xp fp v H HS M0 M). Qed.
Lemma Cmod_csq c : Cmod (csq c) = Cmod c ^ 2.
Proof. unfold csq. rewrite Cmod_mult. ring. Qed.
Lemma Cmod_clsum l : Cmod (clsum l) <= lsum (map Cmod l).
Proof. induction l as [|a l IH]; [cbn; rewrite Cmod_0; lra|]. cbn [map]. unfold clsum, lsum in *. cbn [fold_right]. eapply Rle_trans; [apply Cmod_triangle|]. lra. Qed.
Lemma linspace_len a b m : length (linspace a b m) = m.
Proof. destruct m as [|[|m]]; [reflexivity|reflexivity|]. unfold linspace. now rewrite map_length, seq_length. Qed.
Lemma linspace_nth a b m k : (2 <= m)%nat -> (k < m)%nat -> nth_error (linspace a b m) k = Some (a + INR k * ((b - a) / INR (m - 1))).
Proof.
  intros Hm Hk. destruct m as [|[|m]]; [lia|lia|]. unfold linspace. rewrite nth_error_map. rewrite (nth_error_nth' _ 0%nat) by now rewrite seq_length. rewrite seq_nth by exact Hk. reflexivity.
Qed.
(** what the file gives at one frequency, tip plus tilt *)
Definition vib_at (fx ft fy : list R) (f : R) : R := match interp0 f fx ft, interp0 f fx fy with Ok a, Ok b => a + b | _, _ => 0 end.
Definition rtf_mod2 (gain delay rate f : R) : R := match rtf gain delay rate f with Ok c => Cmod c ^ 2 | Err _ => 0 end.
Lemma vib_inv gain delay rate fx ft fy p : vib_power gain delay rate fx ft fy = Ok p ->
  exists l, Forall2 (fun f c => exists a b r, interp0 f fx ft = Ok a /\ interp0 f fx fy = Ok b /\ rtf gain delay rate f = Ok r /\ c = Cmult (csq r) (RtoC (a + b))) (vib_freqs rate) l /\ (2 <= length (vib_freqs rate))%nat /\
    p = Cmod (clsum l) * Rabs (nth 1 (vib_freqs rate) 0 - nth 0 (vib_freqs rate) 0).
Proof.
  unfold vib_power. fold (vib_freqs rate). cbv zeta. intros H. destruct (mapM _ _) as [l|e] eqn:E in H; cbn [bind] in H; [|discriminate]. exists l. split.
  - apply mapM_inv in E. revert E. generalize (vib_freqs rate) as fs. intros fs E. clear H. induction E as [|f c fs cs Hc E IH]; [constructor|]. constructor; [|exact IH]. destruct (interp0 f fx ft) as [a|]; cbn [bind] in Hc; [|discriminate]. destruct (interp0 f fx fy) as [b|]; cbn [bind] in Hc; [|discriminate]. destruct (rtf gain delay rate f) as [r|]; cbn [bind] in Hc; [|discriminate]. injection Hc as <-. exists a, b, r. now repeat split.
  - destruct (vib_freqs rate) as [|f0 [|f1 r]]; [discriminate H|discriminate H|]. change 1%Z with (Z.of_nat 1) in H. change 0%Z with (Z.of_nat 0) in H. rewrite (pyindex_nth 0 (f0 :: f1 :: r) 1) in H by (cbn; lia). rewrite (pyindex_nth 0 (f0 :: f1 :: r) 0) in H by (cbn; lia). cbn [bind nth] in H. injection H as <-. split; [cbn; lia|]. cbn [nth]. rewrite Cmod_mult, Cmod_R. reflexivity.
Qed.
(** C75: the residual power never exceeds the integral of |rejection|^2 times the vibration
    spectrum of the file (tip + tilt) on the sampled frequencies. *)
Theorem C75_power_bound : forall gain delay rate fx ft fy p, vib_power gain delay rate fx ft fy = Ok p -> StronglySorted Rlt fx -> (forall y, In y ft -> 0 <= y) -> (forall y, In y fy -> 0 <= y) ->
  0 <= p <= lsum (map (fun f => rtf_mod2 gain delay rate f * vib_at fx ft fy f) (vib_freqs rate)) * Rabs (nth 1 (vib_freqs rate) 0 - nth 0 (vib_freqs rate) 0).
Proof.
  intros gain delay rate fx ft fy p H HS Ht Hy. split; [exact (vib_power_nonneg _ _ _ _ _ _ _ H)|]. destruct (vib_inv _ _ _ _ _ _ _ H) as (l & F & _ & ->). apply Rmult_le_compat_r; [apply Rabs_pos|]. eapply Rle_trans; [apply Cmod_clsum|]. apply Req_le. clear H. induction F as [|f c fs cs (a & b & r & Ea & Eb & Er & ->) F IH]; [reflexivity|]. cbn [map]. unfold lsum in *. cbn [fold_right]. rewrite IH. f_equal. rewrite Cmod_mult, Cmod_csq, Cmod_R. unfold rtf_mod2, vib_at. rewrite Ea, Eb, Er. f_equal.
  apply Rabs_pos_eq. assert (0 <= a) by exact (interp0_nonneg _ _ _ _ Ea HS Ht). assert (0 <= b) by exact (interp0_nonneg _ _ _ _ Eb HS Hy). lra.
Qed.
Print Assumptions C75_power_bound.
(** C75: without a loop (gain 0) all the power of the file is kept. *)
Theorem C75_open_loop : forall delay rate fx ft fy p, vib_power 0 delay rate fx ft fy = Ok p -> StronglySorted Rlt fx -> (forall y, In y ft -> 0 <= y) -> (forall y, In y fy -> 0 <= y) ->
  p = lsum (map (vib_at fx ft fy) (vib_freqs rate)) * Rabs (nth 1 (vib_freqs rate) 0 - nth 0 (vib_freqs rate) 0).
Proof.
  intros delay rate fx ft fy p H HS Ht Hy. destruct (vib_inv _ _ _ _ _ _ _ H) as (l & F & _ & ->). f_equal. clear H.
  assert (E : clsum l = RtoC (lsum (map (vib_at fx ft fy) (vib_freqs rate))) /\ 0 <= lsum (map (vib_at fx ft fy) (vib_freqs rate))).
  { induction F as [|f c fs cs (a & b & r & Ea & Eb & Er & ->) F (IH & IP)]; [split; [reflexivity|cbn; lra]|]. cbn [map]. unfold lsum, clsum in *. cbn [fold_right]. rewrite IH. assert (VA : vib_at fx ft fy f = a + b) by (unfold vib_at; now rewrite Ea, Eb). rewrite VA.
    assert (0 <= a) by exact (interp0_nonneg _ _ _ _ Ea HS Ht). assert (0 <= b) by exact (interp0_nonneg _ _ _ _ Eb HS Hy).
    assert (R1 : r = RtoC 1). { unfold rtf in Er. destruct (rdiv _ _) as [th|]; cbn [bind] in Er; [|discriminate]. destruct (Req_EM_T _ 0) as [|N] in Er; [discriminate|]. cbv zeta in Er. destruct (Req_EM_T _ 0) as [|N2] in Er; [discriminate|]. injection Er as <-. assert (Z : Cdiv (RtoC 0) (Cminus (RtoC 1) (cis (th * f))) = RtoC 0) by (unfold Cdiv; apply Cmult_0_l). rewrite Z, Cmult_0_l, Cplus_0_r. unfold Cdiv. rewrite Cmult_1_l. rewrite <- RtoC_inv by lra. f_equal. lra. }
    subst r. split; [|lra]. unfold csq. rewrite !Cmult_1_l. symmetry. apply RtoC_plus. }
  destruct E as (E & P). rewrite E, Cmod_R. now apply Rabs_pos_eq.
Qed.
Print Assumptions C75_open_loop.
(** C75: the spectrum is sampled at int(5 rate) frequencies from 0.1 to rate/2; a loop rate
    below 0.4 Hz is always refused. *)
Theorem C75_slow_loop_refused : forall gain delay rate fx ft fy p, rate < 2 / 5 -> vib_power gain delay rate fx ft fy <> Ok p.
Proof.
  intros gain delay rate fx ft fy p Hr H. destruct (vib_inv _ _ _ _ _ _ _ H) as (l & _ & L & _). unfold vib_freqs in L. rewrite linspace_len in L.
  assert (Ztrunc (5 * rate) < 2)%Z; [|lia]. destruct (Rle_dec 0 (5 * rate)) as [P|P].
  - rewrite Ztrunc_floor by exact P. apply lt_IZR. eapply Rle_lt_trans; [apply Zfloor_lb|]. lra.
  - rewrite Ztrunc_ceil by lra. assert (Zceil (5 * rate) <= 0)%Z; [|lia]. apply Zceil_glb. lra.
Qed.
Print Assumptions C75_slow_loop_refused.

(** C75, refuted: the power is |sum rejection^2 spectrum|, not the sum of |rejection|^2
    spectrum; the complex phases cancel and the residual is underestimated. Two
    frequencies, a flat spectrum of 1/2 + 1/2, rate 0.4 Hz, gain 1, one frame of delay: 0.447
    instead of 0.6. *)
Lemma rtf_a : rtf 1 1 (2/5) (1/10) = Ok (1, -1).
Proof.
  unfold rtf. rewrite rdiv_ok by lra. cbn [bind]. replace (2 * PI / (2 / 5) * (1 / 10)) with (PI / 2) by field. rewrite Rmult_1_r. unfold cis. rewrite cos_PI2, sin_PI2. cbv zeta.
  assert (D1 : Cminus (RtoC 1) (0, 1) = (1, -1)) by (unfold Cminus, Cplus, Copp, RtoC; cbn; f_equal; ring). rewrite D1.
  destruct (Req_EM_T (Cmod (1, -1)) 0) as [Z|N]; [apply Cmod_eq_0 in Z; injection Z; lra|].
  assert (D2 : Cplus (RtoC 1) (Cmult (Cdiv (RtoC 1) (1, -1)) (0, 1)) = (/ 2, / 2)) by (unfold Cdiv, Cinv, Cmult, Cplus, RtoC; cbn; f_equal; field). rewrite D2.
  destruct (Req_EM_T (Cmod (/ 2, / 2)) 0) as [Z|N2]; [apply Cmod_eq_0 in Z; injection Z; lra|]. f_equal. unfold Cdiv, Cinv, Cmult, RtoC; cbn; f_equal; field.
Qed.
Lemma rtf_b : rtf 1 1 (2/5) (1/5) = Ok (2, 0).
Proof.
  unfold rtf. rewrite rdiv_ok by lra. cbn [bind]. replace (2 * PI / (2 / 5) * (1 / 5)) with PI by field. rewrite Rmult_1_r. unfold cis. rewrite cos_PI, sin_PI. cbv zeta.
  assert (D1 : Cminus (RtoC 1) (-1, 0) = (2, 0)) by (unfold Cminus, Cplus, Copp, RtoC; cbn; f_equal; ring). rewrite D1.
  destruct (Req_EM_T (Cmod (2, 0)) 0) as [Z|N]; [apply Cmod_eq_0 in Z; injection Z; lra|].
  assert (D2 : Cplus (RtoC 1) (Cmult (Cdiv (RtoC 1) (2, 0)) (-1, 0)) = (/ 2, 0)) by (unfold Cdiv, Cinv, Cmult, Cplus, RtoC; cbn; f_equal; field). rewrite D2.
  destruct (Req_EM_T (Cmod (/ 2, 0)) 0) as [Z|N2]; [apply Cmod_eq_0 in Z; injection Z; lra|]. f_equal. unfold Cdiv, Cinv, Cmult, RtoC; cbn; f_equal; field.
Qed.
Lemma vib_freqs_ex : vib_freqs (2 / 5) = [1 / 10; 1 / 5].
Proof.
  unfold vib_freqs. replace (5 * (2 / 5)) with (IZR 2) by lra. rewrite Ztrunc_IZR. change (Z.to_nat 2) with 2%nat. unfold linspace. cbn [Nat.sub seq map INR]. match goal with |- [?a; ?b] = _ => replace a with (1 / 10) by lra; replace b with (1 / 5) by lra end. reflexivity.
Qed.
Lemma interp0_flat c x : 0 <= x <= 1 -> interp0 x [0; 1] [c; c] = Ok c.
Proof.
  intros H. unfold interp0, np_interp. cbn [length Nat.eqb negb combine last]. destruct (Rlt_dec x 0); [lra|]. cbn [bind interp_from]. destruct (Rlt_dec 1 x); [lra|]. f_equal. destruct (Rlt_dec x 1); [unfold Rdiv; ring|reflexivity].
Qed.
Lemma vib_ex : vib_power 1 1 (2/5) [0; 1] [1/2; 1/2] [1/2; 1/2] = Ok (sqrt 20 / 10).
Proof.
  unfold vib_power. fold (vib_freqs (2/5)). rewrite vib_freqs_ex. cbv zeta. cbn [mapM]. rewrite !interp0_flat by lra. cbn [bind]. rewrite rtf_a, rtf_b. cbn [bind].
  change (pyindex [1 / 10; 1 / 5] 1) with (@Ok R (1/5)). change (pyindex [1 / 10; 1 / 5] 0) with (@Ok R (1/10)). cbn [bind]. f_equal. rewrite Cmod_mult, Cmod_R. rewrite Rabs_pos_eq by lra.
  match goal with |- Cmod ?c * _ = _ => replace c with ((4, -2) : C) end.
  - unfold Cmod. cbn [fst snd]. replace (4 ^ 2 + (-2) ^ 2) with 20 by ring. lra.
  - unfold clsum, csq, Cmult, Cplus, RtoC. cbn. f_equal; field.
Qed.
Theorem C75_phase_cancellation_refuted : exists gain delay rate fx ft fy p, StronglySorted Rlt fx /\ (forall y, In y ft -> 0 <= y) /\ (forall y, In y fy -> 0 <= y) /\ vib_power gain delay rate fx ft fy = Ok p /\
  p < 3 / 4 * (lsum (map (fun f => rtf_mod2 gain delay rate f * vib_at fx ft fy f) (vib_freqs rate)) * Rabs (nth 1 (vib_freqs rate) 0 - nth 0 (vib_freqs rate) 0)).
Proof.
  exists 1, 1, (2/5), [0; 1], [1/2; 1/2], [1/2; 1/2], (sqrt 20 / 10). split; [repeat constructor; lra|]. split; [intros y [ <-|[ <-|[]]]; lra|]. split; [intros y [ <-|[ <-|[]]]; lra|]. split; [exact vib_ex|].
  rewrite vib_freqs_ex. unfold lsum. cbn [map fold_right nth]. unfold rtf_mod2, vib_at. rewrite rtf_a, rtf_b, !interp0_flat by lra. rewrite Rabs_pos_eq by lra.
  assert (M1 : Cmod (1, -1) ^ 2 = 2) by (unfold Cmod; cbn [fst snd]; rewrite pow2_sqrt by nra; ring). assert (M2 : Cmod (2, 0) ^ 2 = 4) by (unfold Cmod; cbn [fst snd]; rewrite pow2_sqrt by nra; ring). rewrite M1, M2.
  assert (sqrt 20 < 9 / 2); [|lra]. apply Rsqr_incrst_0; [|apply sqrt_pos|lra]. unfold Rsqr. rewrite sqrt_sqrt by lra. lra.
Qed.
Print Assumptions C75_phase_cancellation_refuted.
(** The hypotheses of C75_total are met: one pixel, the file above. *)
Example C75_nonvacuous : exists out, windShakePSD (fun _ => 0) (fun _ => 1) 1 1 1 (2/5) 1 1 (fun _ _ => 1) (fun _ _ => 1) (fun _ _ => 1) [0; 1] [1/2; 1/2] [1/2; 1/2] = Ok out.
Proof.
  pose proof PI_RGT_0. pose proof PI_4. unfold windShakePSD. unfold grid_res. cbn [seq mapM]. rewrite tiltFilter_val by lra. cbv zeta. assert (X : tilt_x 1 1 = PI) by (unfold tilt_x; field). rewrite X. destruct (Rlt_dec PI (1 / 1000000)) as [L|L]; [pose proof PI2_1; lra|]. cbn [bind]. unfold lsum2, lsum. cbn [map fold_right]. rewrite rdiv_ok.
  - cbn [bind]. rewrite vib_ex. cbn [bind]. rewrite rdiv_ok by lra. cbn [bind]. eexists. reflexivity.
  - match goal with |- context [1 - ?a ^ 2 - ?b ^ 2] => pose proof (pow2_ge_0 b); assert (0 < a ^ 2) end; [apply pow_lt; apply Rdiv_lt_0_compat; lra|]. lra.
Qed.
