(** C86 (continued): regression of the autocorrelation, window and Student quantiles. *)
From Coq Require Import Reals List Arith ZArith Lia Lra Psatz.
From Coq Require Import ZifyBool ZifyNat.
From Flocq Require Import Core.Raux.
From Verif Require Import Base_Py Base_Sum M_Image M_Tools M_Freq M_Atmo M_Model M_Model2 M_Diag L_Atmo L_Tools2 L_Model3 P_Aniso2 M_Tools M_Freq.
Import ListNotations.
Open Scope R_scope.

(** Specification: sum of the squared residuals of the straight line o + s x *)
Definition rss (x y : list R) (o s : R) : R := lsum (map (fun p => (snd p - (o + s * fst p)) ^ 2) (combine x y)).

Lemma lsum_map_zero {A} (f : A -> R) l : (forall a, In a l -> f a = 0) -> lsum (map f l) = 0.
Proof. induction l as [|a l IH]; intros H; [reflexivity|]. unfold lsum. cbn [map fold_right]. fold (lsum (map f l)). rewrite IH by (intros; apply H; right; assumption). rewrite H by (left; reflexivity). lra. Qed.
Lemma rss_nonneg x y o s : 0 <= rss x y o s.
Proof. unfold rss. generalize (combine x y). intros l. induction l as [|p l IH]; [unfold lsum; cbn; lra|]. unfold lsum in *. cbn [map fold_right]. pose proof (pow2_ge_0 (snd p - (o + s * fst p))). lra. Qed.
Lemma lsum_cons a l : lsum (a :: l) = a + lsum l. Proof. reflexivity. Qed.
Lemma rss_val : forall x y o s, length x = length y ->
  rss x y o s = lsum (map (fun v => v ^ 2) y) + INR (length x) * o ^ 2 + s ^ 2 * lsum (map (fun v => v ^ 2) x) - 2 * o * lsum y - 2 * s * lsum (map (fun p => fst p * snd p) (combine x y)) + 2 * o * s * lsum x.
Proof.
  unfold rss. induction x as [|x0 x IH]; intros [|y0 y] o s L; try discriminate.
  - cbn. ring.
  - cbn [combine map length]. rewrite !lsum_cons. rewrite (IH y o s) by (cbn in L; lia). rewrite S_INR. cbn [fst snd]. ring.
Qed.
(** n Sxx - Sx^2 is non-negative, and positive when the abscissae are not all equal *)
Lemma spread_val : forall x c, rss x x c 0 = lsum (map (fun v => v ^ 2) x) + INR (length x) * c ^ 2 - 2 * c * lsum x.
Proof. intros x c. rewrite rss_val by reflexivity. ring. Qed.
Lemma spread_pos x : (exists a b, In a x /\ In b x /\ a <> b) -> 0 < INR (length x) * lsum (map (fun v => v ^ 2) x) - (lsum x) ^ 2.
Proof.
  intros (a & b & Ia & Ib & N). assert (P : 0 < INR (length x)) by (apply lt_0_INR; destruct x; [destruct Ia|cbn; lia]).
  set (m := lsum x / INR (length x)). pose proof (spread_val x m) as E.
  assert (INR (length x) * rss x x m 0 = INR (length x) * lsum (map (fun v => v ^ 2) x) - lsum x ^ 2). { rewrite E. unfold m. field. lra. }
  rewrite <- H. apply Rmult_lt_0_compat; [exact P|].
  assert (Q : forall l v, In v l -> (v - m) ^ 2 <= rss l l m 0). { unfold rss. induction l as [|w l IH]; intros v Hv; [destruct Hv|]. cbn [combine map]. rewrite lsum_cons. cbn [fst snd]. pose proof (rss_nonneg l l m 0) as R0. unfold rss in R0. destruct Hv as [->|Hv].
    - replace (v - (m + 0 * v)) with (v - m) by ring. lra.
    - pose proof (pow2_ge_0 (w - (m + 0 * w))). specialize (IH v Hv). lra. }
  pose proof (Q x a Ia). pose proof (Q x b Ib). destruct (Req_dec a m) as [->|Na].
  - assert (b - m <> 0) by lra. assert (0 < (b - m) ^ 2) by (cbn [pow]; rewrite Rmult_1_r; apply Rsqr_pos_lt; assumption). lra.
  - assert (a - m <> 0) by lra. assert (0 < (a - m) ^ 2) by (cbn [pow]; rewrite Rmult_1_r; apply Rsqr_pos_lt; assumption). lra.
Qed.

Lemma sqrt_prod_helper a : 0 <= a -> rsqrt a = Ok (sqrt a).
Proof. intros H. unfold rsqrt. destruct (Rlt_dec a 0); [lra|reflexivity]. Qed.

Section core.
Variables (x y : list R) (thres t5 fs : R).
Let n := length x.
Hypothesis L : length y = n.
Hypothesis L3 : (3 <= n)%nat.
Hypothesis D : exists a b, In a x /\ In b x /\ a <> b.
Hypothesis Hfs : 0 < fs.
Let Sxx := lsum (map (fun v => v ^ 2) x).
Let Sxy := lsum (map (fun p => fst p * snd p) (combine x y)).
Let den := INR n * Sxx - lsum x ^ 2.
Let s := (INR n * Sxy - lsum x * lsum y) / den.
Let o := lsum y / INR n - s * lsum x / INR n.

Lemma nP : 3 <= INR n. Proof. replace 3 with (INR 3) by (cbn; lra). apply le_INR. exact L3. Qed.
Lemma denP : 0 < den. Proof. apply spread_pos. exact D. Qed.
Lemma resid : INR n * rss x y o s = INR n * lsum (map (fun v => v ^ 2) y) - lsum y ^ 2 - s ^ 2 * den.
Proof.
  pose proof nP as HnP. pose proof denP. rewrite rss_val by (symmetry; exact L). fold n Sxx Sxy.
  assert (E : INR n * Sxy = s * den + lsum x * lsum y) by (unfold s; field; lra).
  replace (INR n * (lsum (map (fun v => v ^ 2) y) + INR n * o ^ 2 + s ^ 2 * Sxx - 2 * o * lsum y - 2 * s * Sxy + 2 * o * s * lsum x))
    with (INR n * lsum (map (fun v => v ^ 2) y) + (INR n * o) ^ 2 + s ^ 2 * (INR n * Sxx) - 2 * (INR n * o) * lsum y - 2 * s * (INR n * Sxy) + 2 * (INR n * o) * s * lsum x) by ring.
  assert (Eo : INR n * o = lsum y - s * lsum x) by (unfold o; field; lra).
  assert (Ex : INR n * Sxx = den + lsum x ^ 2) by (unfold den; ring).
  rewrite Eo, Ex, E. ring.
Qed.
Lemma optimal o' s' : rss x y o s <= rss x y o' s'.
Proof.
  pose proof nP as HnP. pose proof denP as HdP. apply Rmult_le_reg_l with (INR n * den); [apply Rmult_lt_0_compat; lra|].
  assert (E : INR n * Sxy = s * den + lsum x * lsum y) by (unfold s; field; lra).
  assert (Ex : INR n * Sxx = den + lsum x ^ 2) by (unfold den; ring).
  assert (Q : INR n * rss x y o' s' = INR n * rss x y o s + (INR n * o' + s' * lsum x - lsum y) ^ 2 + den * (s' - s) ^ 2).
  { rewrite resid. rewrite rss_val by (symmetry; exact L). fold n Sxx Sxy.
    replace (INR n * (lsum (map (fun v => v ^ 2) y) + INR n * o' ^ 2 + s' ^ 2 * Sxx - 2 * o' * lsum y - 2 * s' * Sxy + 2 * o' * s' * lsum x))
      with (INR n * lsum (map (fun v => v ^ 2) y) + (INR n * o') ^ 2 + s' ^ 2 * (INR n * Sxx) - 2 * (INR n * o') * lsum y - 2 * s' * (INR n * Sxy) + 2 * (INR n * o') * s' * lsum x) by ring.
    rewrite Ex, E. ring. }
  replace (INR n * den * rss x y o' s') with (den * (INR n * rss x y o' s')) by ring. replace (INR n * den * rss x y o s) with (den * (INR n * rss x y o s)) by ring.
  apply Rmult_le_compat_l; [lra|]. rewrite Q. pose proof (pow2_ge_0 (INR n * o' + s' * lsum x - lsum y)). pose proof (pow2_ge_0 (s' - s)). nra.
Qed.
Lemma regress_core : s <> 0 -> exists r, regress x y n thres t5 fs = Ok r /\ r_slope r = s /\ r_off r = o /\
  r_tau r = (thres - o) / s / fs /\ r_de r = sqrt (rss x y o s / (INR n - 2)) /\
  r_dtau r = rhypot (t5 * r_de r * sqrt (INR n / den) * sqrt (Sxx / INR n) / s) (t5 * r_de r * sqrt (INR n / den) * (thres - o) / s ^ 2) / fs.
Proof.
  intros Ns. pose proof nP as HnP. pose proof denP as HdP. unfold regress. cbv zeta. fold n Sxx Sxy den.
  rewrite rdiv_ok by lra. cbn [bind]. fold s. rewrite !rdiv_ok by lra. cbn [bind]. fold o.
  rewrite rdiv_ok by exact Ns. cbn [bind]. rewrite rdiv_ok by lra. cbn [bind].
  destruct (Req_EM_T (INR n * (INR n - 2)) 0) as [Z|_]; [exfalso; apply Rmult_integral in Z; lra|]. cbn [bind].
  assert (E : 1 / (INR n * (INR n - 2)) * (INR n * lsum (map (fun v => v ^ 2) y) - lsum y ^ 2 - s ^ 2 * den) = rss x y o s / (INR n - 2)).
  { rewrite <- resid. field. lra. }
  rewrite E. rewrite sqrt_prod_helper. 2:{ apply Rmult_le_pos; [apply rss_nonneg|apply Rlt_le, Rinv_0_lt_compat; lra]. } cbn [bind].
  rewrite sqrt_prod_helper. 2:{ apply Rlt_le, Rdiv_lt_0_compat; lra. } cbn [bind].
  rewrite sqrt_prod_helper. 2:{ unfold Rdiv. apply Rmult_le_pos; [|apply Rlt_le, Rinv_0_lt_compat; lra]. unfold Sxx. clear. induction x as [|a l IH]; [unfold lsum; cbn; lra|]. cbn [map]. rewrite lsum_cons. pose proof (pow2_ge_0 a). lra. } cbn [bind].
  rewrite rdiv_ok by exact Ns. cbn [bind]. rewrite rdiv_ok by (apply pow_nonzero; exact Ns). cbn [bind]. rewrite rdiv_ok by lra. cbn [bind].
  eexists. split; [reflexivity|]. cbn [r_slope r_off r_tau r_de r_dtau]. repeat split.
Qed.
End core.

(** C86: with at least three points at distinct lags and a non-zero fitted slope, the crossing
    time is defined: slope and offset minimise the squared residuals, the crossing time is
    where that line meets the threshold, its uncertainty is a finite non-negative number
    (the quantity under the square root is never negative). *)
Theorem C86_regression : forall x y n thres t5 fs, length x = n -> length y = n -> (3 <= n)%nat ->
  (exists a b, In a x /\ In b x /\ a <> b) -> 0 < fs ->
  INR n * lsum (map (fun p => fst p * snd p) (combine x y)) <> lsum x * lsum y ->
  exists r, regress x y n thres t5 fs = Ok r /\
    (forall o s, rss x y (r_off r) (r_slope r) <= rss x y o s) /\ r_slope r <> 0 /\
    r_off r + r_slope r * (r_tau r * fs) = thres /\
    r_de r = sqrt (rss x y (r_off r) (r_slope r) / (INR n - 2)) /\ 0 <= r_dtau r.
Proof.
  intros x y n thres t5 fs Lx Ly L3 D Hf Ns. subst n.
  assert (NP := nP x L3). assert (DP := denP x D).
  set (s := (INR (length x) * lsum (map (fun p => fst p * snd p) (combine x y)) - lsum x * lsum y) / (INR (length x) * lsum (map (fun v => v ^ 2) x) - lsum x ^ 2)).
  assert (N : s <> 0). { unfold s, Rdiv. apply Rmult_integral_contrapositive_currified; [lra|apply Rinv_neq_0_compat; lra]. }
  destruct (regress_core x y thres t5 fs Ly L3 D Hf N) as (r & E & Es & Eo & Et & Ed & Edt). exists r. split; [exact E|].
  split. { intros o' s'. rewrite Es, Eo. apply (optimal x y Ly L3 D). }
  split. { rewrite Es. exact N. }
  split. { rewrite Et, Eo, Es. fold s. set (o := lsum y / INR (length x) - s * lsum x / INR (length x)). field. split; try lra; exact N. }
  split. { rewrite Es, Eo. exact Ed. }
  rewrite Edt. unfold rhypot, Rdiv. apply Rmult_le_pos; [apply sqrt_pos|apply Rlt_le, Rinv_0_lt_compat; exact Hf].
Qed.
Print Assumptions C86_regression.

(** C86: an autocorrelation that is exactly linear over the window, a + b x with b <> 0, gives
    the exact crossing time, with no uncertainty. *)
Theorem C86_exact : forall x n a b thres t5 fs, length x = n -> (3 <= n)%nat -> (exists u v, In u x /\ In v x /\ u <> v) -> 0 < fs -> b <> 0 ->
  exists r, regress x (map (fun v => a + b * v) x) n thres t5 fs = Ok r /\ r_slope r = b /\ r_off r = a /\ r_tau r = (thres - a) / b / fs /\ r_de r = 0 /\ r_dtau r = 0.
Proof.
  intros x n a b thres t5 fs Lx L3 D Hf Nb. subst n. set (y := map (fun v => a + b * v) x).
  assert (Ly : length y = length x) by (unfold y; apply map_length).
  assert (NP := nP x L3). assert (DP := denP x D).
  assert (Sy : lsum y = INR (length x) * a + b * lsum x). { unfold y. clear. induction x as [|u x IH]; [cbn; ring|]. cbn [map length]. rewrite !lsum_cons, IH, S_INR. ring. }
  assert (Sxy : lsum (map (fun p => fst p * snd p) (combine x y)) = a * lsum x + b * lsum (map (fun v => v ^ 2) x)). { unfold y. clear. induction x as [|u x IH]; [cbn; ring|]. cbn [map combine]. rewrite !lsum_cons, IH. cbn [fst snd]. ring. }
  set (s := (INR (length x) * lsum (map (fun p => fst p * snd p) (combine x y)) - lsum x * lsum y) / (INR (length x) * lsum (map (fun v => v ^ 2) x) - lsum x ^ 2)).
  assert (Es0 : s = b). { unfold s. rewrite Sxy, Sy. field. lra. }
  assert (Eo0 : lsum y / INR (length x) - s * lsum x / INR (length x) = a). { rewrite Es0, Sy. field. lra. }
  destruct (regress_core x y thres t5 fs Ly L3 D Hf) as (r & E & Es & Eo & Et & Ed & Edt); [fold s; rewrite Es0; exact Nb|]. fold s in Es, Eo, Et, Ed, Edt. rewrite Eo0, Es0 in *.
  exists r. split; [exact E|]. split; [exact Es|]. split; [exact Eo|]. split; [exact Et|].
  assert (R0 : rss x y a b = 0). { unfold rss, y. clear. induction x as [|u x IH]; [reflexivity|]. cbn [map combine]. rewrite lsum_cons, IH. cbn [fst snd]. ring. }
  assert (D0 : r_de r = 0). { rewrite Ed, R0. unfold Rdiv. rewrite Rmult_0_l. apply sqrt_0. } split; [exact D0|].
  rewrite Edt, D0. unfold rhypot. replace (_ * _ + _ * _) with 0 by (unfold Rdiv; ring). rewrite sqrt_0. unfold Rdiv. ring.
Qed.
Print Assumptions C86_exact.

Lemma Ztrunc_mono_lt a b : 0 <= a -> a + 1 <= b -> (Ztrunc a < Ztrunc b)%Z.
Proof.
  intros Ha Hb. rewrite !Ztrunc_floor by lra. assert (IZR (Zfloor a + 1) <= b). { rewrite plus_IZR. pose proof (Zfloor_lb a). lra. } apply Zfloor_lub in H. lia.
Qed.
(** C86: away from lag zero the window has nWin strictly increasing lags within nWin/2 of the
    crossing. *)
Theorem C86_window : forall ind nWin, (2 <= nWin)%nat -> (nWin / 2 <= ind)%nat ->
  length (window ind nWin) = nWin /\
  (forall i a b, nth_error (window ind nWin) i = Some a -> nth_error (window ind nWin) (S i) = Some b -> (a < b)%Z) /\
  (forall a, In a (window ind nWin) -> (Z.of_nat (ind - nWin / 2) <= a <= Z.of_nat (ind + nWin / 2))%Z).
Proof.
  intros ind nWin H2 Hi. unfold window, linspace. set (h := (nWin / 2)%nat) in *. rewrite !map_length, seq_length. split; [reflexivity|].
  assert (E1 : (nWin =? 1)%nat = false) by (apply Nat.eqb_neq; lia). rewrite E1.
  assert (Hh : (nWin - 1 <= 2 * h)%nat) by (unfold h; pose proof (Nat.div_mod_eq nWin 2); pose proof (Nat.mod_upper_bound nWin 2); lia).
  set (d := (INR ind + INR h - (INR ind - INR h)) / INR (nWin - 1)).
  assert (P : 0 < INR (nWin - 1)) by (apply lt_0_INR; lia).
  assert (D1 : 1 <= d). { unfold d. apply Rmult_le_reg_r with (INR (nWin - 1)); [exact P|]. unfold Rdiv. rewrite Rmult_assoc, Rinv_l, Rmult_1_r by lra. apply le_INR in Hh. rewrite mult_INR in Hh. cbn [INR] in Hh. lra. }
  assert (B0 : 0 <= INR ind - INR h) by (apply le_INR in Hi; lra).
  assert (V : forall i v, nth_error (map Ztrunc (map (fun i => INR ind - INR h + INR i * d) (seq 0 nWin))) i = Some v -> (i < nWin)%nat /\ v = Ztrunc (INR ind - INR h + INR i * d)).
  { intros i v Hv. assert (Li : (i < nWin)%nat). { assert (Q : nth_error (map Ztrunc (map (fun i => INR ind - INR h + INR i * d) (seq 0 nWin))) i <> None) by (rewrite Hv; discriminate). apply nth_error_Some in Q. rewrite !map_length, seq_length in Q. exact Q. }
    split; [exact Li|]. rewrite !nth_error_map in Hv. rewrite (nth_error_nth' _ 0%nat) in Hv by (rewrite seq_length; lia). rewrite seq_nth in Hv by lia. cbn [option_map Nat.add] in Hv. congruence. }
  split.
  - intros i a b Ha Hb. apply V in Ha. apply V in Hb. destruct Ha as [_ ->], Hb as [_ ->]. apply Ztrunc_mono_lt.
    + pose proof (pos_INR i). nra.
    + rewrite S_INR. lra.
  - intros a Ha. apply In_nth_error in Ha. destruct Ha as (i & Ha). apply V in Ha. destruct Ha as [Li ->].
    assert (I0 : 0 <= INR i * d) by (pose proof (pos_INR i); nra).
    assert (I1 : INR i * d <= 2 * INR h). { apply Rle_trans with (INR (nWin - 1) * d); [apply Rmult_le_compat_r; [lra|]; apply le_INR; lia|]. unfold d. apply Req_le. field. lra. }
    rewrite Ztrunc_floor by lra. split.
    + apply Zfloor_lub. rewrite <- INR_IZR_INZ, minus_INR by exact Hi. lra.
    + apply le_IZR. eapply Rle_trans; [apply Zfloor_lb|]. rewrite <- INR_IZR_INZ, plus_INR. lra.
Qed.
Print Assumptions C86_window.

(** C86 (finding): when the crossing is closer to lag zero than half the window, the window
    has negative lags, which read the end of the autocorrelation. *)
Theorem C86_window_refuted : forall (c : list R) v, (5 <= length c)%nat -> In (-4)%Z (window 1 10) /\ (nth_error c (length c - 4) = Some v -> pyindex c (-4) = Ok v).
Proof.
  intros c v Lc. split.
  - assert (nth_error (window 1 10) 0 = Some (-4)%Z); [|eapply nth_error_In; eassumption].
    unfold window, linspace. cbn [seq map nth_error Nat.eqb]. f_equal. replace (INR 1 - INR (10 / 2) + INR 0 * _) with (IZR (-4)) by (cbn; lra). apply Ztrunc_IZR.
  - intros H. unfold pyindex. cbn [Z.ltb Z.compare].
    destruct (((Z.of_nat (length c) + -4 <? 0) || (Z.of_nat (length c) <=? Z.of_nat (length c) + -4))%Z) eqn:B.
    + apply orb_prop in B. destruct B as [B|B]; [apply Z.ltb_lt in B|apply Z.leb_le in B]; lia.
    + replace (Z.to_nat (Z.of_nat (length c) + -4)) with (length c - 4)%nat by lia. rewrite H. reflexivity.
Qed.
Print Assumptions C86_window_refuted.

(** ** Student *)
Lemma filter_len_mono {A} (f g : A -> bool) l : (forall a, f a = true -> g a = true) -> (length (filter f l) <= length (filter g l))%nat.
Proof. intros H. induction l as [|a l IH]; [cbn; lia|]. cbn [filter]. destruct (f a) eqn:F; [rewrite (H a F); cbn; lia|]. destruct (g a); cbn; lia. Qed.
Lemma searchsorted_mono q a b : a <= b -> (searchsorted q a <= searchsorted q b)%nat.
Proof. intros H. unfold searchsorted. apply filter_len_mono. intros v. destruct (Rlt_dec v a), (Rlt_dec v b); intros; try reflexivity; try discriminate. lra. Qed.
Lemma searchsorted_max : forall p, (searchsorted stud_q p <= 9)%nat <-> p <= 0.998.
Proof.
  intros p. unfold searchsorted, stud_q. split.
  - intros H. destruct (Rle_dec p 0.998) as [|N]; [assumption|]. exfalso. cbn [filter] in H. repeat (match type of H with context [Rlt_dec ?a ?b] => destruct (Rlt_dec a b); [|lra] end). cbn in H. lia.
  - intros H. cbn [filter]. destruct (Rlt_dec 0.998 p) as [|_]; [lra|]. repeat (match goal with |- context [Rlt_dec ?a ?b] => destruct (Rlt_dec a b) end); cbn [length]; lia.
Qed.
Lemma area_rows : forall row, In row stud_area -> length row = 10%nat /\ (forall i a b, nth_error row i = Some a -> nth_error row (S i) = Some b -> a < b) /\ (forall a, In a row -> 0 < a).
Proof.
  intros row H. unfold stud_area in H. repeat (destruct H as [<-|H]; [split; [reflexivity|]; split; [intros i a b Ha Hb; do 10 (destruct i as [|i]; [cbn in Ha, Hb; try discriminate; injection Ha as <-; injection Hb as <-; lra|]); cbn in Hb; destruct i; discriminate|intros a Ha; cbn in Ha; repeat (destruct Ha as [<-|Ha]; [lra|]); destruct Ha]|]). destruct H.
Qed.
Lemma incr_mono (row : list R) : (forall i a b, nth_error row i = Some a -> nth_error row (S i) = Some b -> a < b) ->
  forall i j a b, (i <= j)%nat -> nth_error row i = Some a -> nth_error row j = Some b -> a <= b.
Proof.
  intros H i j a b Hij. revert b. induction Hij as [|j Hij IH]; intros b Ha Hb; [rewrite Ha in Hb; injection Hb as <-; lra|].
  destruct (nth_error row j) as [c|] eqn:Ec.
  - specialize (IH c Ha eq_refl). pose proof (H j c b Ec Hb). lra.
  - apply nth_error_None in Ec. assert (nth_error row (S j) = None) by (apply nth_error_None; lia). congruence.
Qed.
Lemma student_row n : (1 <= n)%Z -> exists row, In row stud_area /\ forall p, student p n = pyindex row (Z.of_nat (searchsorted stud_q p)).
Proof.
  intros H1. set (m := if (10 <? n)%Z then Z.min 7 n else n).
  assert (B : (0 <= m - 1 < 10)%Z) by (unfold m; destruct (Z.ltb_spec 10 n); lia).
  assert (P : exists row, In row stud_area /\ pyindex stud_area (m - 1) = Ok row).
  { unfold pyindex. change (Z.of_nat (length stud_area)) with 10%Z. replace (m - 1 <? 0)%Z with false by (symmetry; apply Z.ltb_ge; lia). cbv beta iota zeta.
    replace (m - 1 <? 0)%Z with false by (symmetry; apply Z.ltb_ge; lia). replace (10 <=? m - 1)%Z with false by (symmetry; apply Z.leb_gt; lia). cbn [orb].
    destruct (nth_error stud_area (Z.to_nat (m - 1))) as [row|] eqn:Er; [exists row; split; [eapply nth_error_In; exact Er|reflexivity]|].
    apply nth_error_None in Er. change (length stud_area) with 10%nat in Er. lia. }
  destruct P as (row & Ir & P). exists row. split; [exact Ir|]. intros p. unfold student. fold m. rewrite P. reflexivity.
Qed.

(** C86: for a window of at least one sample a confidence level up to 0.998 gives a positive
    Student coefficient that grows with the level; a higher level raises IndexError. *)
Theorem C86_student : forall n p p', (1 <= n)%Z -> p <= p' -> (p' <= 0.998 ->
   exists t t', student p n = Ok t /\ student p' n = Ok t' /\ 0 < t /\ t <= t') /\ (0.998 < p' -> student p' n = Err IndexError).
Proof.
  intros n p p' H1 Hp. destruct (student_row n H1) as (row & Ir & E). destruct (area_rows row Ir) as (Lr & Mr & Pr). rewrite !E.
  pose proof (searchsorted_mono stud_q p p' Hp) as M.
  assert (G : forall k, (k <= 9)%nat -> exists v, nth_error row k = Some v /\ pyindex row (Z.of_nat k) = Ok v).
  { intros k Hk. destruct (nth_error row k) as [v|] eqn:Ev; [|apply nth_error_None in Ev; lia]. exists v. split; [reflexivity|]. unfold pyindex. rewrite Lr. destruct (Z.ltb_spec (Z.of_nat k) 0); [lia|].
    destruct (((Z.of_nat k <? 0) || (Z.of_nat 10 <=? Z.of_nat k))%Z) eqn:B; [apply orb_prop in B; destruct B as [B|B]; [apply Z.ltb_lt in B|apply Z.leb_le in B]; lia|]. rewrite Nat2Z.id, Ev. reflexivity. }
  split.
  - intros Hq. apply searchsorted_max in Hq. destruct (G (searchsorted stud_q p)) as (v & Ev & ->); [lia|]. destruct (G (searchsorted stud_q p')) as (v' & Ev' & ->); [lia|].
    exists v, v'. split; [reflexivity|]. split; [reflexivity|]. split; [apply Pr; eapply nth_error_In; exact Ev|]. apply (incr_mono row Mr _ _ _ _ M Ev Ev').
  - intros Hq. unfold pyindex. rewrite Lr. destruct (Z.ltb_spec (Z.of_nat (searchsorted stud_q p')) 0); [lia|].
    assert (9 < searchsorted stud_q p')%nat. { destruct (le_lt_dec (searchsorted stud_q p') 9) as [Q|Q]; [apply searchsorted_max in Q; lra|exact Q]. }
    destruct (((Z.of_nat (searchsorted stud_q p') <? 0) || (Z.of_nat 10 <=? Z.of_nat (searchsorted stud_q p')))%Z) eqn:B; [reflexivity|]. apply orb_false_iff in B. destruct B as [_ B]. apply Z.leb_gt in B. lia.
Qed.
Print Assumptions C86_student.

(** C86 (finding): the coefficient does not decrease with the size of the window: the row of
    seven samples repeats that of five, and longer windows than ten use it. *)
Theorem C86_student_refuted : student 0.95 7 = student 0.95 5 /\ (forall p n, (10 < n)%Z -> student p n = student p 7) /\
  exists t6 t7, student 0.95 6 = Ok t6 /\ student 0.95 7 = Ok t7 /\ t6 < t7.
Proof.
  split; [reflexivity|]. split.
  - intros p n Hn. unfold student. destruct (Z.ltb_spec 10 n); [|lia]. rewrite Z.min_l by lia. reflexivity.
  - assert (S4 : searchsorted stud_q 0.95 = 4%nat). { unfold searchsorted, stud_q. cbn [filter]. repeat (match goal with |- context [Rlt_dec ?a ?b] => destruct (Rlt_dec a b); [try lra|try lra] end). reflexivity. }
    unfold student. rewrite S4. exists 1.943, 2.015. cbn. split; [reflexivity|]. split; [reflexivity|]. lra.
Qed.
Print Assumptions C86_student_refuted.

Example C86_regr_ex : exists r, regress [1; 2; 3] [0.9; 0.6; 0.3] 3 0.5 1 100 = Ok r /\ r_tau r = (0.5 - 1.2) / (-0.3) / 100.
Proof.
  destruct (C86_exact [1; 2; 3] 3 1.2 (-0.3) 0.5 1 100) as (r & E & _ & _ & T & _); [reflexivity|lia|exists 1, 2; cbn; split; [auto|split; [auto|lra]]|lra|lra|].
  exists r. split; [|exact T]. rewrite <- E. cbn [map]. replace (1.2 + -0.3 * 1) with 0.9 by lra. replace (1.2 + -0.3 * 2) with 0.6 by lra. replace (1.2 + -0.3 * 3) with 0.3 by lra. reflexivity.
Qed.
