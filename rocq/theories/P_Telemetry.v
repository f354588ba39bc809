(** C132, C133: telemetry read from Keck and simulation files. *)
From Coq Require Import Reals List Arith ZArith Bool String Lia Lra.
From Flocq Require Import Core.Raux.
From Verif Require Import Base_Py Base_Sum L_Freq M_Image M_Atmo L_Atmo M_Source M_Telemetry.
Import ListNotations.
Local Open Scope R_scope.

(** the average of a channel *)
Definition average (n : nat) (f : nat -> R) : R := rsum n f / INR n.
Lemma INR_pos n : (0 < n)%nat -> 0 < INR n.
Proof. intros H. apply lt_0_INR. exact H. Qed.
Lemma average_shift n f c : (0 < n)%nat -> average n (fun t => f t + c) = average n f + c.
Proof. intros H. unfold average. rewrite rsum_plus, rsum_const. pose proof (INR_pos n H). field. lra. Qed.
Lemma average_scal n f c : average n (fun t => c * f t) = c * average n f.
Proof. unfold average. rewrite rsum_scal. unfold Rdiv. ring. Qed.
Lemma cmean_average a k : cmean a k = average (s_n a) (fun t => s_at a t k).
Proof. reflexivity. Qed.

(** C132: after the removal of the mean every channel of a series has a null mean, whatever the recorded data. *)
Theorem C132_zero_mean : forall a k, (0 < s_n a)%nat -> average (s_n a) (fun t => s_at (demean a) t k) = 0.
Proof. intros a k H. cbn [demean s_at]. unfold Rminus. rewrite average_shift by exact H. rewrite <- cmean_average. ring. Qed.
Lemma cmean_demean a k : (0 < s_n a)%nat -> cmean (demean a) k = 0.
Proof. intros H. rewrite cmean_average. exact (C132_zero_mean a k H). Qed.
Lemma cvar_shift a b k c : (0 < s_n a)%nat -> s_n b = s_n a -> (forall t, (t < s_n a)%nat -> s_at b t k = s_at a t k + c) -> cvar b k = cvar a k.
Proof.
  intros H En E. assert (M : cmean b k = cmean a k + c). { rewrite !cmean_average, En, <- average_shift by exact H. unfold average. f_equal. apply rsum_ext. exact E. }
  unfold cvar. rewrite En, M. f_equal. apply rsum_ext. intros t Ht. rewrite (E t Ht). ring.
Qed.
Lemma cvar_demean a k : (0 < s_n a)%nat -> cvar (demean a) k = cvar a k.
Proof. intros H. apply (cvar_shift a (demean a) k (- cmean a k) H eq_refl). intros t _. reflexivity. Qed.
Lemma cvar_scale c a k : cvar (sscale c a) k = c * c * cvar a k.
Proof.
  assert (M : cmean (sscale c a) k = c * cmean a k) by (rewrite !cmean_average; apply average_scal).
  unfold cvar. rewrite M. cbn [sscale s_n s_at]. rewrite (rsum_ext (s_n a) _ (fun t => (c * c) * ((s_at a t k - cmean a k) * (s_at a t k - cmean a k)))) by (intros; ring). rewrite rsum_scal. unfold Rdiv. ring.
Qed.
Lemma cvar_nonneg a k : (0 < s_n a)%nat -> 0 <= cvar a k.
Proof. intros H. unfold cvar. apply Rmult_le_pos; [apply rsum_nonneg; intros; apply Rle_0_sqr|]. left. apply Rinv_0_lt_compat, INR_pos, H. Qed.

(** * The residual error *)
(** the variances of the channels that move *)
Definition moving (a : series) : list R := filter (fun v => if Req_EM_T v 0 then false else true) (map (cvar a) (seq 0 (s_m a))).
Lemma fold_map_div (u : list R) c : fold_right Rplus 0 (map (fun v => v * v / c) u) = fold_right Rplus 0 (map (fun v => v * v) u) / c.
Proof. induction u as [|x u IH]; cbn; [unfold Rdiv; ring|]. rewrite IH. unfold Rdiv. ring. Qed.
Lemma std_list a : (0 < s_n a)%nat -> map (fun v => v * v) (filter (fun v => if Req_EM_T v 0 then false else true) (map (cstd a) (seq 0 (s_m a)))) = moving a.
Proof.
  intros H. unfold moving. generalize (seq 0 (s_m a)). intros l. induction l as [|k l IH]; [reflexivity|]. cbn [map filter]. unfold cstd at 1. pose proof (cvar_nonneg a k H) as P.
  destruct (Req_EM_T (cvar a k) 0) as [E|E].
  - assert (sqrt (cvar a k) = 0) by (rewrite E; apply sqrt_0). destruct (Req_EM_T (sqrt (cvar a k)) 0); [exact IH|contradiction].
  - assert (0 < sqrt (cvar a k)) by (apply sqrt_lt_R0; lra). destruct (Req_EM_T (sqrt (cvar a k)) 0); [lra|]. cbn [map]. rewrite IH. f_equal. unfold cstd. apply sqrt_sqrt, P.
Qed.
(** C132: the residual error in nm is 1e9 times the square root of the mean variance over the actuators that move. *)
Theorem C132_wfe : forall a, (0 < s_n a)%nat ->
  keck_wfe a = 1000000000 * sqrt (fold_right Rplus 0 (moving a) / INR (List.length (moving a))).
Proof. intros a H. unfold keck_wfe. rewrite fold_map_div, std_list by exact H. rewrite <- (std_list a H) at 1. rewrite <- (std_list a H), map_length, Rmult_comm. rewrite std_list by exact H. reflexivity. Qed.
(** C132: neither a constant command on each actuator nor actuators that never move change it; it is proportional to the
    conversion factor. *)
Theorem C132_wfe_offset : forall a b, (0 < s_n a)%nat -> s_n b = s_n a -> s_m b = s_m a -> (forall k, exists c, forall t, (t < s_n a)%nat -> s_at b t k = s_at a t k + c) ->
  keck_wfe b = keck_wfe a.
Proof.
  intros a b H En Em E. assert (V : forall k, cvar b k = cvar a k). { intros k. destruct (E k) as (c & Hc). apply (cvar_shift a b k c H En Hc). }
  rewrite !C132_wfe by (rewrite ?En; exact H). assert (M : moving b = moving a). { unfold moving. rewrite Em. f_equal. apply map_ext. exact V. } rewrite M. reflexivity.
Qed.
Theorem C132_wfe_still : forall a b, (0 < s_n a)%nat -> s_n b = s_n a -> (s_m a <= s_m b)%nat ->
  (forall t k, (k < s_m a)%nat -> s_at b t k = s_at a t k) -> (forall k, (s_m a <= k)%nat -> exists c, forall t, s_at b t k = c) -> keck_wfe b = keck_wfe a.
Proof.
  intros a b H En Em E S0. rewrite !C132_wfe by (rewrite ?En; exact H). assert (M : moving b = moving a).
  { unfold moving. replace (s_m b) with (s_m a + (s_m b - s_m a))%nat by lia. rewrite seq_app, map_app, filter_app.
    assert (A : filter (fun v => if Req_EM_T v 0 then false else true) (map (cvar b) (seq (0 + s_m a) (s_m b - s_m a))) = []).
    { assert (Z : forall k, (s_m a <= k)%nat -> cvar b k = 0). { intros k Hk. destruct (S0 k Hk) as (c & Hc). unfold cvar. rewrite rsum_zero; [unfold Rdiv; ring|]. intros t Ht.
        assert (Q : cmean b k = c). { unfold cmean. rewrite (rsum_ext _ _ (fun _ => c)) by (intros; apply Hc). rewrite rsum_const, En. pose proof (INR_pos _ H). field. lra. } rewrite Q, Hc. ring. }
      generalize (s_m b - s_m a)%nat. intros n. cbn [Nat.add]. assert (Q : forall k0, (s_m a <= k0)%nat -> filter (fun v => if Req_EM_T v 0 then false else true) (map (cvar b) (seq k0 n)) = []).
      { clear -Z. induction n as [|n IH]; intros k0 Hk; [reflexivity|]. cbn [seq map filter]. rewrite (Z k0 Hk). destruct (Req_EM_T 0 0); [|lra]. apply IH. lia. } apply Q. lia. }
    rewrite A, app_nil_r. f_equal. apply map_ext_in. intros k Hk. apply in_seq in Hk. unfold cvar, cmean. rewrite En. f_equal. apply rsum_ext. intros t Ht. rewrite E by lia. rewrite (rsum_ext _ (fun t0 => s_at b t0 k) (fun t0 => s_at a t0 k)) by (intros; apply E; lia). reflexivity. }
  rewrite M. reflexivity.
Qed.
Lemma sqrt_sq_mult c x : 0 <= c -> sqrt (c * c * x) = c * sqrt x.
Proof. intros H. destruct (Rle_dec 0 x) as [P|P]; [rewrite sqrt_mult by nra; rewrite sqrt_square by exact H; reflexivity|]. rewrite (sqrt_neg_0 x) by lra. rewrite sqrt_neg_0; [ring|]. nra. Qed.
Theorem C132_wfe_scale : forall a c, (0 < s_n a)%nat -> 0 < c -> keck_wfe (keck_residual c a) = c * keck_wfe a.
Proof.
  intros a c H Hc. rewrite !C132_wfe by (cbn; exact H).
  assert (M : moving (keck_residual c a) = map (fun v => c * c * v) (moving a)).
  { unfold moving. cbn [keck_residual demean sscale s_m]. generalize (seq 0 (s_m a)). intros l. induction l as [|k l IH]; [reflexivity|]. cbn [map filter].
    assert (V : cvar (keck_residual c a) k = c * c * cvar a k) by (unfold keck_residual; rewrite cvar_demean by exact H; apply cvar_scale).
    rewrite V. destruct (Req_EM_T (cvar a k) 0) as [E|E]; [rewrite E, Rmult_0_r; destruct (Req_EM_T 0 0); [exact IH|lra]|].
    destruct (Req_EM_T (c * c * cvar a k) 0) as [E'|_]; [exfalso; apply Rmult_integral in E'; destruct E' as [E'|E']; nra|]. cbn [map]. rewrite IH. reflexivity. }
  rewrite M, map_length. assert (F : forall l, fold_right Rplus 0 (map (fun v => c * c * v) l) = c * c * fold_right Rplus 0 l) by (intros l; induction l as [|x l IH]; cbn; [ring|rewrite IH; ring]).
  rewrite F. unfold Rdiv. rewrite Rmult_assoc, sqrt_sq_mult by lra. ring.
Qed.

(** * Actuator maps *)
(** the values at the true positions, in order *)
Fixpoint extract (valid : list bool) (l : list R) : list R :=
  match valid, l with true :: r, x :: l' => x :: extract r l' | false :: r, _ :: l' => extract r l' | _, _ => [] end.
(** C132: a map of the mirror holds the values in order at the valid actuators and zero elsewhere, so that nothing is lost; it
    requires as many values as valid actuators. *)
Theorem C132_fill : forall valid v,
  (List.length v = List.length (filter (fun b => b) valid) ->
    exists l, fill valid v = Ok l /\ List.length l = List.length valid /\ extract valid l = v /\ (forall i, nth i valid true = false -> nth i l 0 = 0)) /\
  (List.length v <> List.length (filter (fun b => b) valid) -> fill valid v = Err ValueError).
Proof.
  induction valid as [|b valid IH]; intros v; cbn [fill filter].
  - split; intros H; destruct v as [|x v]; cbn in *; try lia; try reflexivity. exists []. repeat split. intros i Hi. destruct i; discriminate.
  - destruct b; cbn [List.length].
    + destruct v as [|x v]; cbn [List.length]; [split; [lia|reflexivity]|]. destruct (IH v) as [A B]. split; intros H.
      * destruct A as (l & E1 & E2 & E3 & E4); [lia|]. exists (x :: l). rewrite E1. split; [reflexivity|]. split; [cbn; lia|]. split; [cbn; f_equal; exact E3|]. intros [|i] Hi; [discriminate|]. exact (E4 i Hi).
      * rewrite B by lia. reflexivity.
    + destruct (IH v) as [A B]. split; intros H.
      * destruct A as (l & E1 & E2 & E3 & E4); [lia|]. exists (0 :: l). rewrite E1. split; [reflexivity|]. split; [cbn; lia|]. split; [exact E3|]. intros [|i] Hi; [reflexivity|]. exact (E4 i Hi).
      * rewrite B by lia. reflexivity.
Qed.

(** * Rate and decimation *)
Lemma diffs_sum t0 ts : fold_right Rplus 0 (diffs (t0 :: ts)) = last (t0 :: ts) 0 - t0 /\ List.length (diffs (t0 :: ts)) = List.length ts.
Proof.
  unfold diffs. revert t0. induction ts as [|t1 ts IH]; intros t0; [cbn; split; [ring|reflexivity]|]. destruct (IH t1) as [A B]. cbn [tl combine map fold_right List.length] in *. cbn [fst snd]. split.
  - rewrite A. cbn [last]. ring.
  - f_equal. exact B.
Qed.
(** C132: the rate of the loop is the number of intervals divided by the total duration (time stamps in units of 100 ns): the
    intermediate time stamps have no influence. *)
Theorem C132_rate : forall t0 ts, ts <> [] -> t0 < last ts 0 ->
  loop_freq (t0 :: ts) = Ok (INR (List.length ts) / ((last ts 0 - t0) / 10000000)).
Proof.
  intros t0 ts Hne Hlt. unfold loop_freq. destruct (diffs_sum t0 ts) as [A B]. assert (L : last (t0 :: ts) 0 = last ts 0) by (destruct ts; [contradiction|reflexivity]). rewrite L in A.
  destruct (diffs (t0 :: ts)) as [|d ds] eqn:E; [destruct ts; [contradiction|discriminate B]|]. rewrite A, B.
  assert (P : 0 < INR (List.length ts)) by (apply lt_0_INR; destruct ts; [contradiction|cbn; lia]).
  unfold rdiv at 1. destruct (Req_EM_T (INR (List.length ts)) 0) as [Q|_]; [lra|]. cbn [bind]. unfold rdiv. destruct (Req_EM_T _ 0) as [Q|_].
  - exfalso. assert (0 < 1 / 10000000 * ((last ts 0 - t0) / INR (List.length ts))); [|lra]. apply Rmult_lt_0_compat; [lra|]. apply Rdiv_lt_0_compat; lra.
  - f_equal. field. split; lra.
Qed.
Example C132_rate_example : loop_freq [0; 9000; 20000] = Ok 1000.
Proof. rewrite C132_rate; [|discriminate|cbn; lra]. cbn [List.length last]. f_equal. cbn [INR]. lra. Qed.
(** C132: decimation by d keeps the samples 0, d, 2d, ... and no other; d = 1 changes nothing. *)
Theorem C132_decimate : forall d a, (1 <= d)%nat ->
  (forall t, (t < s_n (decimate d a))%nat <-> (t * d < s_n a)%nat) /\ s_m (decimate d a) = s_m a /\ (forall t k, s_at (decimate d a) t k = s_at a (t * d) k).
Proof.
  intros d a Hd. unfold decimate. destruct (Nat.ltb_spec 1 d) as [L|L].
  - cbn [s_n s_m s_at]. split; [|split; reflexivity]. intros t. split; intros H.
    + assert (d * ((s_n a + d - 1) / d) <= s_n a + d - 1)%nat by (apply Nat.mul_div_le; lia). nia.
    + pose proof (Nat.mul_succ_div_gt (s_n a + d - 1) d ltac:(lia)). destruct (Nat.lt_ge_cases t ((s_n a + d - 1) / d)) as [Q|Q]; [exact Q|exfalso]. nia.
  - assert (d = 1%nat) by lia. subst d. split; [intros t; rewrite Nat.mul_1_r; reflexivity|]. split; [reflexivity|]. intros t k. rewrite Nat.mul_1_r. reflexivity.
Qed.
(** C132 refuted: the means are removed before the decimation: the decimated residual wavefront may have a mean. (The rate of the
    loop, computed from all the time stamps, is not divided by the decimation either: C132_rate.) *)
Theorem C132_decimated_mean_refuted : exists a d, (1 < d)%nat /\ (0 < s_n (decimate d (demean a)))%nat /\ average (s_n (decimate d (demean a))) (fun t => s_at (decimate d (demean a)) t 0) <> 0.
Proof.
  exists (mkSeries 4 1 (fun t _ => if Nat.even t then 1 else -1)), 2%nat. split; [lia|]. split; [cbn; lia|]. unfold average. cbn. unfold cmean. cbn. lra.
Qed.

(** C132: the controller is split in its first coefficient, its first four and the others, without loss. *)
Theorem C132_servo : forall l, (4 <= List.length l)%nat -> exists g n d, servo l = Ok (g, n, d) /\ n ++ d = l /\ List.length n = 4%nat /\ hd 0 n = g.
Proof.
  intros l H. destruct l as [|a [|b [|c [|e l]]]]; cbn [List.length] in H; try lia. exists a, [a; b; c; e], l. split; [|repeat split; reflexivity].
  unfold servo. rewrite (L_Freq.pyindex_nth (a :: b :: c :: e :: l) 0%nat a eq_refl : pyindex (a :: b :: c :: e :: l) 0 = Ok a). cbn [bind]. f_equal. f_equal; [f_equal|].
  - unfold pyslice, slice_len, slice_bound. cbn [List.length]. destruct (Z.ltb_spec 4 0); [lia|]. destruct (Z.ltb_spec 0 0); [lia|]. rewrite !Z.min_l by lia. reflexivity.
  - unfold pyslice, slice_len, slice_bound. cbn [List.length]. destruct (Z.ltb_spec 4 0); [lia|]. destruct (Z.ltb_spec (Z.of_nat (S (S (S (S (List.length l)))))) 0); [lia|]. rewrite Z.min_id, Z.min_l by lia. replace (Z.to_nat 4) with 4%nat by reflexivity. cbn [skipn].
    replace (Z.to_nat _) with (List.length l) by lia. apply firstn_all.
Qed.
(** C132: tip-tilt slopes and commands have null means; a constant offset of the recorded slopes or commands has no effect. *)
Theorem C132_tiptilt : forall laser D sl co c c', (0 < s_n sl)%nat -> (0 < s_n co)%nat ->
  let r := keck_tiptilt laser D sl co in
  let sh x a := mkSeries (s_n a) (s_m a) (fun t k => s_at a t k + x k) in
  let r' := keck_tiptilt laser D (sh c sl) (sh c' co) in
  (forall k, average (s_n sl) (fun t => s_at (fst r) t k) = 0) /\ (forall k, average (s_n co) (fun t => s_at (snd r) t k) = 0) /\
  (forall t k, s_at (fst r') t k = s_at (fst r) t k) /\ (forall t k, s_at (snd r') t k = s_at (snd r) t k).
Proof.
  intros laser D sl co c c' H1 H2 r sh r'.
  assert (Q : forall x a y, (0 < s_n a)%nat -> forall t k, s_at (demean (sscale x (sh y a))) t k = s_at (demean (sscale x a)) t k).
  { intros x a y Ha t k. cbn [demean s_at]. assert (M : cmean (sscale x (sh y a)) k = cmean (sscale x a) k + x * y k).
    { rewrite !cmean_average. cbn [sscale sh s_n s_at]. rewrite <- average_shift by exact Ha. unfold average. f_equal. apply rsum_ext. intros; ring. }
    rewrite M. cbn [sscale sh s_at]. ring. }
  split; [intros k; apply (C132_zero_mean (sscale _ sl) k); exact H1|]. split; [intros k; apply (C132_zero_mean (sscale _ co) k); exact H2|]. split; intros t k; apply Q; assumption.
Qed.

Print Assumptions C132_zero_mean.
Print Assumptions C132_wfe.
Print Assumptions C132_wfe_offset.
Print Assumptions C132_wfe_still.
Print Assumptions C132_wfe_scale.
Print Assumptions C132_fill.
Print Assumptions C132_rate.
Print Assumptions C132_decimate.
Print Assumptions C132_decimated_mean_refuted.
Print Assumptions C132_servo.
Print Assumptions C132_tiptilt.
