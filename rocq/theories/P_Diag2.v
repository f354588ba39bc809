(** C85: noise variance estimated from the telemetry (systemDiagnosis.get_noise_variance). *)
From Coq Require Import Reals List Arith ZArith Lia Lra Psatz.
From Coq Require Import ZifyBool ZifyNat.
From Verif Require Import Base_Py Base_Sum Base_DFT M_Image M_Tools M_Freq M_Atmo M_Model M_Model2 M_Diag L_Atmo L_Tools2 L_Model3 M_Tools.
Import ListNotations.
Open Scope R_scope.

(** Specification: index of the sample s steps later in a cyclic record of n samples; mean and
    variance of signal i. *)
Definition later (n : nat) (s : Z) (t : nat) : nat := Z.to_nat ((Z.of_nat t + s) mod Z.of_nat n).
Definition sig_mean (u : img) (i : nat) : R := rsum (rows u) (fun t => px u t i) / INR (rows u).
Definition sig_var (u : img) (i : nat) : R := rsum (rows u) (fun t => (px u t i - sig_mean u i) ^ 2) / INR (rows u).
(** half the mean product of the increments of signals i and j over s samples *)
Definition half_increment (u : img) (s : Z) (i j : nat) : R :=
  rsum (rows u) (fun t => (px u t i - px u (later (rows u) s t) i) * (px u t j - px u (later (rows u) s t) j)) / (2 * INR (rows u)).

Lemma later_lt n s t : (0 < n)%nat -> (later n s t < n)%nat.
Proof. intros Hn. unfold later. pose proof (Z.mod_pos_bound (Z.of_nat t + s) (Z.of_nat n)). lia. Qed.
Lemma later_inv n s t : (0 < n)%nat -> (t < n)%nat -> later n (- s) (later n s t) = t.
Proof.
  intros Hn Ht. unfold later. pose proof (Z.mod_pos_bound (Z.of_nat t + s) (Z.of_nat n)). rewrite Z2Nat.id by lia.
  rewrite Zplus_mod_idemp_l. replace (Z.of_nat t + s + - s)%Z with (Z.of_nat t) by lia. rewrite Z.mod_small by lia. lia.
Qed.
Lemma rsum_later n s f : (0 < n)%nat -> rsum n (fun t => f (later n s t)) = rsum n f.
Proof.
  intros Hn. rewrite <- (rsum_shift_mod n (Z.to_nat (s mod Z.of_nat n)) f Hn). apply rsum_ext. intros t Ht. f_equal. unfold later.
  pose proof (Z.mod_pos_bound s (Z.of_nat n)). apply Nat2Z.inj. rewrite Nat2Z.inj_mod, Nat2Z.inj_add, !Z2Nat.id; try (apply Z.mod_pos_bound; lia).
  rewrite Zplus_mod_idemp_r. reflexivity.
Qed.
Lemma lag_form n s f g : (0 < n)%nat ->
  rsum n (fun t => f t * ((g t - g (later n s t)) + (g t - g (later n (- s) t)))) =
  rsum n (fun t => (f t - f (later n s t)) * (g t - g (later n s t))).
Proof.
  intros Hn.
  assert (A : rsum n (fun t => f (later n s t) * g (later n s t)) = rsum n (fun t => f t * g t)) by apply (rsum_later n s (fun t => f t * g t) Hn).
  assert (B : rsum n (fun t => f (later n s t) * g t) = rsum n (fun t => f t * g (later n (- s) t))).
  { rewrite <- (rsum_later n s (fun t => f t * g (later n (- s) t)) Hn). apply rsum_ext. intros t Ht. rewrite (later_inv n s t Hn Ht). reflexivity. }
  transitivity (rsum n (fun t => f t * g t) + rsum n (fun t => f t * g t) - rsum n (fun t => f t * g (later n s t)) - rsum n (fun t => f t * g (later n (- s) t))).
  - rewrite <- rsum_plus, <- !rsum_minus. apply rsum_ext. intros; ring.
  - rewrite <- A at 2. rewrite <- B. rewrite <- rsum_plus, <- !rsum_minus. apply rsum_ext. intros; ring.
Qed.

(** C85: with the default method the estimated covariance of signals i and j is half the mean
    product of their increments over nshift samples. *)
Theorem C85_autocorrelation : forall u s L interp, (0 < rows u)%nat -> exists c,
  fst (noise_variance Autocorrelation s L interp u) = Ok c /\ rows c = cols u /\ cols c = cols u /\
  forall i j, (i < cols u)%nat -> (j < cols u)%nat -> px c i j = half_increment u s i j.
Proof.
  intros u s L interp Hn. unfold noise_variance, slopes_to_noise. destruct (Nat.eqb_spec (rows u) 0); [lia|]. cbv zeta. cbn [fst]. eexists. split; [reflexivity|]. split; [reflexivity|]. split; [reflexivity|].
  intros i j Hi Hj. cbn [px]. assert (P : 0 < INR (rows u)) by (apply lt_0_INR; lia). unfold half_increment.
  set (m := fun k => rsum (rows u) (fun t => px u t k) / INR (rows u)).
  replace (rsum (rows u) (fun t => px (center0 u) t i * (px (center0 u) t j - px (roll0 (center0 u) (- s)) t j + (px (center0 u) t j - px (roll0 (center0 u) s) t j))))
    with (rsum (rows u) (fun t => (fun t => px u t i - m i) t * (((fun t => px u t j - m j) t - (fun t => px u t j - m j) (later (rows u) s t)) + ((fun t => px u t j - m j) t - (fun t => px u t j - m j) (later (rows u) (- s) t))))).
  - rewrite (lag_form (rows u) s (fun t => px u t i - m i) (fun t => px u t j - m j) Hn).
    rewrite (rsum_ext (rows u) _ (fun t => (px u t i - px u (later (rows u) s t) i) * (px u t j - px u (later (rows u) s t) j))) by (intros; ring). field. lra.
  - apply rsum_ext. intros t Ht. unfold center0, roll0. cbn [px rows cols]. fold (m i) (m j). unfold later.
    replace (Z.of_nat t - - s)%Z with (Z.of_nat t + s)%Z by lia. replace (Z.of_nat t - s)%Z with (Z.of_nat t + - s)%Z by lia. reflexivity.
Qed.
Print Assumptions C85_autocorrelation.

(** C85: it is a covariance matrix: symmetric, positive semi-definite, zero on the diagonal
    exactly for the signals of period nshift, and a variance at most twice that of the signal. *)
Theorem C85_covariance : forall u s L interp c, (0 < rows u)%nat -> fst (noise_variance Autocorrelation s L interp u) = Ok c ->
  (forall i j, (i < cols u)%nat -> (j < cols u)%nat -> px c i j = px c j i) /\
  (forall a, 0 <= rsum (cols u) (fun i => rsum (cols u) (fun j => a i * a j * px c i j))) /\
  (forall i, (i < cols u)%nat -> 0 <= px c i i <= 2 * sig_var u i) /\
  (forall i, (i < cols u)%nat -> (px c i i = 0 <-> forall t, (t < rows u)%nat -> px u (later (rows u) s t) i = px u t i)).
Proof.
  intros u s L interp c Hn H. destruct (C85_autocorrelation u s L interp Hn) as (c' & E & _ & _ & V). rewrite H in E. apply Ok_inj in E. subst c'.
  assert (P : 0 < INR (rows u)) by (apply lt_0_INR; lia).
  assert (P2 : 0 < / (2 * INR (rows u))) by (apply Rinv_0_lt_compat; lra).
  split; [|split; [|split]].
  - intros i j Hi Hj. rewrite (V i j Hi Hj), (V j i Hj Hi). unfold half_increment. f_equal. apply rsum_ext. intros; ring.
  - intros a. rewrite (rsum_ext (cols u) _ (fun i => rsum (cols u) (fun j => a i * a j * half_increment u s i j))) by (intros i Hi; apply rsum_ext; intros j Hj; rewrite (V i j Hi Hj); reflexivity).
    replace (rsum (cols u) (fun i => rsum (cols u) (fun j => a i * a j * half_increment u s i j)))
      with (rsum (rows u) (fun t => (rsum (cols u) (fun i => a i * (px u t i - px u (later (rows u) s t) i))) ^ 2) * / (2 * INR (rows u))).
    + apply Rmult_le_pos; [|lra]. apply rsum_nonneg. intros; apply pow2_ge_0.
    + rewrite <- rsum_scal_r. rewrite (rsum_ext (rows u) _ (fun t => rsum (cols u) (fun i => rsum (cols u) (fun j => a i * (px u t i - px u (later (rows u) s t) i) * (a j * (px u t j - px u (later (rows u) s t) j)) * / (2 * INR (rows u)))))).
      * rewrite rsum_swap. apply rsum_ext. intros i Hi. rewrite rsum_swap. apply rsum_ext. intros j Hj. unfold half_increment, Rdiv. rewrite <- rsum_scal_r, <- rsum_scal. apply rsum_ext. intros; ring.
      * intros t Ht. cbn [pow]. rewrite Rmult_1_r. rewrite <- rsum_scal_r, <- rsum_scal_r. apply rsum_ext. intros i Hi. rewrite <- rsum_scal, <- rsum_scal_r. apply rsum_ext. intros; ring.
  - intros i Hi. rewrite (V i i Hi Hi). unfold half_increment, sig_var, Rdiv. set (m := sig_mean u i). split.
    + apply Rmult_le_pos; [|lra]. apply rsum_nonneg. intros; apply Rle_0_sqr.
    + assert (rsum (rows u) (fun t => (px u t i - px u (later (rows u) s t) i) * (px u t i - px u (later (rows u) s t) i)) <= 4 * rsum (rows u) (fun t => (px u t i - m) ^ 2)).
      { apply Rle_trans with (rsum (rows u) (fun t => 2 * ((px u t i - m) ^ 2 + (px u (later (rows u) s t) i - m) ^ 2))).
        - apply rsum_le. intros t Ht. apply Rminus_le. replace ((px u t i - px u (later (rows u) s t) i) * (px u t i - px u (later (rows u) s t) i) - 2 * ((px u t i - m) ^ 2 + (px u (later (rows u) s t) i - m) ^ 2)) with (- (((px u t i - m) + (px u (later (rows u) s t) i - m)) ^ 2)) by ring. pose proof (pow2_ge_0 ((px u t i - m) + (px u (later (rows u) s t) i - m))). lra.
        - rewrite rsum_scal, rsum_plus. rewrite (rsum_later (rows u) s (fun t => (px u t i - m) ^ 2) Hn). lra. }
      replace (/ (2 * INR (rows u))) with (/ 2 * / INR (rows u)) by (field; lra). assert (Pi : 0 < / INR (rows u)) by (apply Rinv_0_lt_compat; lra).
      apply Rle_trans with (4 * rsum (rows u) (fun t => (px u t i - m) ^ 2) * (/ 2 * / INR (rows u))); [apply Rmult_le_compat_r; lra|lra].
  - intros i Hi. rewrite (V i i Hi Hi). unfold half_increment, Rdiv. split.
    + intros Z t Ht. apply Rmult_integral in Z. destruct Z as [Z|Z]; [|lra].
      pose proof (rsum_term_le (rows u) (fun t => (px u t i - px u (later (rows u) s t) i) * (px u t i - px u (later (rows u) s t) i)) t) as T. cbv beta in T. rewrite Z in T.
      assert ((px u t i - px u (later (rows u) s t) i) * (px u t i - px u (later (rows u) s t) i) <= 0) by (apply T; [intros; apply Rle_0_sqr|exact Ht]). pose proof (Rle_0_sqr (px u t i - px u (later (rows u) s t) i)) as Q. unfold Rsqr in Q. assert (Q0 : (px u t i - px u (later (rows u) s t) i) * (px u t i - px u (later (rows u) s t) i) = 0) by lra. apply Rmult_integral in Q0. lra.
    + intros Z. rewrite (rsum_ext (rows u) _ (fun _ => 0)) by (intros t Ht; rewrite (Z t Ht); ring). rewrite rsum_const. ring.
Qed.
Print Assumptions C85_covariance.

(** C85: offsets of the signals do not matter, a scale factor enters squared. *)
Theorem C85_affine : forall u u' s L interp c c' k o, (0 < rows u)%nat -> rows u' = rows u -> cols u' = cols u ->
  (forall t i, px u' t i = k * px u t i + o i) ->
  fst (noise_variance Autocorrelation s L interp u) = Ok c -> fst (noise_variance Autocorrelation s L interp u') = Ok c' ->
  forall i j, (i < cols u)%nat -> (j < cols u)%nat -> px c' i j = k ^ 2 * px c i j.
Proof.
  intros u u' s L interp c c' k o Hn Er Ec V H H' i j Hi Hj.
  destruct (C85_autocorrelation u s L interp Hn) as (d & E & _ & _ & W). rewrite H in E. apply Ok_inj in E. subst d.
  destruct (C85_autocorrelation u' s L interp) as (d & E & _ & _ & W'); [lia|]. rewrite H' in E. apply Ok_inj in E. subst d.
  rewrite W by assumption. rewrite W' by lia. unfold half_increment, Rdiv. rewrite Er. rewrite <- Rmult_assoc. f_equal. rewrite <- rsum_scal. apply rsum_ext. intros t Ht. rewrite !V. ring.
Qed.
Print Assumptions C85_affine.

(** C85 (history): estimating the noise subtracts its mean from the telemetry record itself;
    every signal has a zero mean afterwards and a second call gives the same matrix. *)
Theorem C85_history : forall u s s' L interp c, (0 < rows u)%nat -> fst (noise_variance Autocorrelation s L interp u) = Ok c ->
  let u' := snd (noise_variance Autocorrelation s L interp u) in
  (forall t i, px u' t i = px u t i - sig_mean u i) /\ (forall i, sig_mean u' i = 0) /\
  (exists d d', fst (noise_variance Autocorrelation s' L interp u) = Ok d /\ fst (noise_variance Autocorrelation s' L interp u') = Ok d' /\
    forall i j, (i < cols u)%nat -> (j < cols u)%nat -> px d' i j = px d i j).
Proof.
  intros u s s' L interp c Hn H u'. assert (P : 0 < INR (rows u)) by (apply lt_0_INR; lia).
  assert (E : u' = center0 u) by (unfold u', noise_variance, slopes_to_noise; destruct (Nat.eqb_spec (rows u) 0); [lia|]; reflexivity).
  split; [|split].
  - intros t i. rewrite E. reflexivity.
  - intros i. rewrite E. unfold sig_mean, center0. cbn [rows px]. rewrite rsum_minus, rsum_const. field. lra.
  - destruct (C85_autocorrelation u s' L interp Hn) as (d & E1 & _ & _ & V). destruct (C85_autocorrelation u' s' L interp) as (d' & E2 & _ & _ & V'); [rewrite E; exact Hn|].
    exists d, d'. split; [exact E1|]. split; [exact E2|]. intros i j Hi Hj. rewrite V by assumption. rewrite V' by (rewrite E; assumption). rewrite E. unfold half_increment, center0. cbn [rows px]. f_equal. apply rsum_ext. intros; ring.
Qed.
Print Assumptions C85_history.

(** C85 (finding): the method 'rtf' always raises, 'interpolation' raises when there are
    more signals than frames, and a misspelt method silently gives no noise at all. *)
Theorem C85_methods_refuted : forall u s L interp, (0 < rows u)%nat ->
  (exists e, fst (noise_variance RtfMethod s L interp u) = Err e) /\
  ((rows u < cols u)%nat -> fst (noise_variance Interpolation s L interp u) = Err IndexError) /\
  (exists c, fst (noise_variance OtherMethod s L interp u) = Ok c /\ forall i j, px c i j = 0).
Proof.
  intros u s L interp Hn. unfold noise_variance, slopes_to_noise. destruct (Nat.eqb_spec (rows u) 0); [lia|]. cbv zeta. cbn [fst]. split; [|split].
  - destruct ((L =? cols u) || (L =? 1) || (cols u =? 1))%nat; eexists; reflexivity.
  - intros Hc. destruct (Nat.ltb_spec (rows u) (cols u)); [reflexivity|lia].
  - eexists. split; [reflexivity|]. reflexivity.
Qed.
Print Assumptions C85_methods_refuted.

Lemma nonzero_spec x : nonzero x = true <-> x <> 0.
Proof. unfold nonzero. destruct (Req_EM_T x 0); split; intros; try discriminate; try contradiction; auto. Qed.
Lemma any_img_spec c : any_img c = true <-> exists i j, (i < rows c)%nat /\ (j < cols c)%nat /\ px c i j <> 0.
Proof.
  unfold any_img. rewrite existsb_exists. split.
  - intros (i & Hi & E). apply existsb_exists in E. destruct E as (j & Hj & E). apply in_seq in Hi. apply in_seq in Hj. apply nonzero_spec in E. exists i, j. repeat split; try lia; exact E.
  - intros (i & j & Hi & Hj & E). exists i. split; [apply in_seq; lia|]. apply existsb_exists. exists j. split; [apply in_seq; lia|]. apply nonzero_spec. exact E.
Qed.
Lemma lsum_pos l : (forall x, In x l -> 0 < x) -> l <> [] -> 0 < lsum l.
Proof.
  induction l as [|x l IH]; intros H N; [contradiction|]. unfold lsum. cbn [fold_right]. fold (lsum l). pose proof (H x (or_introl eq_refl)). destruct l as [|y l]; [cbn; lra|].
  assert (0 < lsum (y :: l)) by (apply IH; [intros z Hz; apply H; right; exact Hz|discriminate]). lra.
Qed.
Lemma lsum_nonneg l : (forall x, In x l -> 0 <= x) -> 0 <= lsum l.
Proof. induction l as [|x l IH]; intros H; [unfold lsum; cbn; lra|]. unfold lsum. cbn [fold_right]. fold (lsum l). pose proof (H x (or_introl eq_refl)). assert (0 <= lsum l) by (apply IH; intros; apply H; right; assumption). lra. Qed.

(** C85: when some command signal is not nshift-periodic, the noise variance of the sensor is
    defined and positive for each sensor, (2 pi/lambda)^2 times the mean over the signals that
    have noise; the tip-tilt one is non-negative. *)
Theorem C85_noise_variance : forall u ut s L interp c ct wvl wt k, (0 < rows u)%nat -> (0 < rows ut)%nat -> (0 < cols ut)%nat -> wvl <> 0 -> wt <> 0 ->
  fst (noise_variance Autocorrelation s L interp u) = Ok c -> fst (noise_variance Autocorrelation s L interp ut) = Ok ct ->
  (exists i t, (i < cols u)%nat /\ (t < rows u)%nat /\ px u (later (rows u) s t) i <> px u t i) ->
  exists v vt, noise_attr wvl wt k c ct = Ok (repeat v k, [vt]) /\ 0 < v /\ 0 <= vt /\
    v = (2 * PI / wvl) ^ 2 * (lsum (filter nonzero (map (fun i => half_increment u s i i) (seq 0 (cols u)))) / INR (length (filter nonzero (map (fun i => half_increment u s i i) (seq 0 (cols u)))))) /\
    vt = (2 * PI / wt) ^ 2 * (rsum (cols ut) (fun i => half_increment ut s i i) / INR (cols ut)).
Proof.
  intros u ut s L interp c ct wvl wt k Hn Hnt Hct Hw Hwt H Ht (i0 & t0 & Hi0 & Ht0 & N0).
  destruct (C85_autocorrelation u s L interp Hn) as (d & E & Rc & Cc & V). rewrite H in E. apply Ok_inj in E. subst d.
  destruct (C85_autocorrelation ut s L interp Hnt) as (d & E & Rt & Ct & Vt). rewrite Ht in E. apply Ok_inj in E. subst d.
  destruct (C85_covariance u s L interp c Hn H) as (_ & _ & B & Z). destruct (C85_covariance ut s L interp ct Hnt Ht) as (_ & _ & Bt & _).
  unfold noise_attr.
  assert (A : any_img c = true). { apply any_img_spec. exists i0, i0. rewrite Rc, Cc. split; [exact Hi0|]. split; [exact Hi0|]. intros Q. apply (proj1 (Z i0 Hi0) Q) in Ht0. contradiction. }
  rewrite A. rewrite !rdiv_ok by assumption. cbn [bind].
  assert (D : diag c = map (fun i => half_increment u s i i) (seq 0 (cols u))). { unfold diag. rewrite Rc, Cc, Nat.min_id. apply map_ext_in. intros i Hi. apply in_seq in Hi. apply V; lia. }
  assert (Dt : diag ct = map (fun i => half_increment ut s i i) (seq 0 (cols ut))). { unfold diag. rewrite Rt, Ct, Nat.min_id. apply map_ext_in. intros i Hi. apply in_seq in Hi. apply Vt; lia. }
  rewrite D, Dt. set (l := filter nonzero (map (fun i => half_increment u s i i) (seq 0 (cols u)))).
  assert (Lp : forall x, In x l -> 0 < x). { intros x Hx. apply filter_In in Hx. destruct Hx as [Hx Nx]. apply nonzero_spec in Nx. apply in_map_iff in Hx. destruct Hx as (i & <- & Hi). apply in_seq in Hi. rewrite <- V in * by lia. pose proof (B i ltac:(lia)). lra. }
  assert (Ln : l <> []). { intros Q. assert (I : In (half_increment u s i0 i0) l). { apply filter_In. split; [apply in_map_iff; exists i0; split; [reflexivity|apply in_seq; lia]|]. apply nonzero_spec. rewrite <- V by assumption. intros Q'. apply (proj1 (Z i0 Hi0) Q') in Ht0. contradiction. } rewrite Q in I. destruct I. }
  assert (Ll : 0 < INR (length l)) by (apply lt_0_INR; destruct l; [contradiction|cbn; lia]).
  assert (Lt : 0 < INR (cols ut)) by (apply lt_0_INR; lia).
  unfold rmeanl. rewrite rdiv_ok by lra. cbn [bind]. rewrite map_length, seq_length. rewrite rdiv_ok by lra. cbn [bind].
  assert (LS : lsum (map (fun i => half_increment ut s i i) (seq 0 (cols ut))) = rsum (cols ut) (fun i => half_increment ut s i i)).
  { apply (lsum_seq (fun i => half_increment ut s i i)). }
  rewrite LS. eexists _, _. split; [reflexivity|].
  assert (Q2 : forall w, w <> 0 -> 0 < (2 * PI / w) ^ 2). { intros w Nw. assert (2 * PI / w <> 0). { unfold Rdiv. apply Rmult_integral_contrapositive_currified; [generalize PI_RGT_0; lra|apply Rinv_neq_0_compat; exact Nw]. } cbn [pow]. rewrite Rmult_1_r. apply Rsqr_pos_lt. exact H0. }
  split; [apply Rmult_lt_0_compat; [apply Q2; exact Hw|apply Rdiv_lt_0_compat; [apply lsum_pos; assumption|exact Ll]]|].
  split; [apply Rmult_le_pos; [apply Rlt_le, Q2; exact Hwt|]|split; reflexivity].
  unfold Rdiv. apply Rmult_le_pos; [|apply Rlt_le, Rinv_0_lt_compat; exact Lt]. apply rsum_nonneg. intros i Hi. rewrite <- Vt by assumption. apply Bt. exact Hi.
Qed.
Print Assumptions C85_noise_variance.

(** C85 (finding): with constant commands the tip-tilt noise is reported as zero however noisy
    the tip-tilt slopes are, and the list has one value whatever the number of sensors. *)
Theorem C85_tiptilt_refuted : forall c ct wvl wt k, (forall i j, (i < rows c)%nat -> (j < cols c)%nat -> px c i j = 0) -> noise_attr wvl wt k c ct = Ok ([0], [0]).
Proof.
  intros c ct wvl wt k Z. unfold noise_attr. destruct (any_img c) eqn:A; [|reflexivity]. apply any_img_spec in A. destruct A as (i & j & Hi & Hj & N). exfalso. apply N. apply Z; assumption.
Qed.
Print Assumptions C85_tiptilt_refuted.

(** the alternating signal 0, 1, 0, 1 next to a constant one *)
Example C85_nonvacuous : let u := mkImg 4 2 (fun t i => if (i =? 0)%nat then (if Nat.even t then 0 else 1) else 5) in
  exists c, fst (noise_variance Autocorrelation 1 2 (fun _ => Ok 0) u) = Ok c /\ px c 0 0 = / 2 /\ px c 1 1 = 0 /\ px u (later 4 1 0) 0 <> px u 0 0.
Proof.
  intros u. destruct (C85_autocorrelation u 1 2 (fun _ => Ok 0)) as (c & E & _ & _ & V); [cbn; lia|]. exists c. split; [exact E|].
  rewrite (V 0%nat 0%nat), (V 1%nat 1%nat) by (cbn; lia). unfold half_increment, u. cbn. change (Pos.to_nat 1) with 1%nat. change (Pos.to_nat 2) with 2%nat. change (Pos.to_nat 3) with 3%nat. cbn [Nat.even]. split; [lra|]. split; [lra|]. intros Q. lra.
Qed.
