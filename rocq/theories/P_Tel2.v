(** C98 (continued): non-common path aberrations from Zernike coefficients, files and static modes. *)
From Coq Require Import Reals List Arith ZArith Lia Lra Psatz Bool.
From Coq Require Import ZifyBool ZifyNat.
From Verif Require Import Base_Py Base_Sum M_Image M_Zernike M_Tel L_Fit P_Tel.
Import ListNotations.
Open Scope R_scope.

(** average of a quantity over all the n x n samples of the array *)
Definition avg (n : nat) (f : nat -> nat -> R) : R := rsum n (fun i => rsum n (fun j => f i j)) / (INR n * INR n).
Lemma mean2_avg n f : mean2 n f = avg n f.
Proof. unfold mean2, avg. rewrite mult_INR. reflexivity. Qed.
Lemma avg_lin n a b f g : avg n (fun i j => a * f i j + b * g i j) = a * avg n f + b * avg n g.
Proof.
  unfold avg. rewrite (rsum_ext n _ (fun i => a * rsum n (fun j => f i j) + b * rsum n (fun j => g i j))).
  2:{ intros i Hi. rewrite rsum_plus, !rsum_scal. reflexivity. }
  rewrite rsum_plus, !rsum_scal. unfold Rdiv. ring.
Qed.
Lemma avg_ext n f g : (forall i j, (i < n)%nat -> (j < n)%nat -> f i j = g i j) -> avg n f = avg n g.
Proof. intros H. unfold avg. f_equal. apply rsum_ext. intros i Hi. apply rsum_ext. intros j Hj. auto. Qed.
Lemma avg_const n c : (0 < n)%nat -> avg n (fun _ _ => c) = c.
Proof.
  intros H. unfold avg. rewrite (rsum_ext n _ (fun _ => INR n * c)) by (intros; apply rsum_const). rewrite rsum_const.
  assert (0 < INR n) by (apply lt_0_INR; lia). field. lra.
Qed.
Lemma avg_nonneg n f : (0 < n)%nat -> (forall i j, 0 <= f i j) -> 0 <= avg n f.
Proof.
  intros Hn H. unfold avg. assert (0 < INR n) by (apply lt_0_INR; lia).
  apply Rmult_le_pos; [apply rsum_nonneg; intros; apply rsum_nonneg; auto|]. left. apply Rinv_0_lt_compat. apply Rmult_lt_0_compat; lra.
Qed.
Lemma norm_mode_spec n f g : norm_mode n f = Ok g ->
  avg n g = 0 /\ avg n (fun i j => g i j ^ 2) = 1 /\ exists a b, 0 < a /\ forall i j, g i j = a * f i j + b.
Proof.
  unfold norm_mode. destruct (Nat.eqb_spec n 0) as [|Hn]; [discriminate|]. cbv zeta.
  set (m := mean2 n f). set (s := sqrt _). destruct (Req_EM_T s 0) as [|Hs]; [discriminate|]. intros H. apply Ok_inj in H. subst g.
  assert (Hs0 : 0 < s) by (assert (0 <= s) by apply sqrt_pos; lra).
  assert (Hm : avg n (fun i j => f i j - m) = 0).
  { rewrite (avg_ext n _ (fun i j => 1 * f i j + (- m) * 1)) by (intros; ring).
    rewrite avg_lin, avg_const by lia. unfold m. rewrite mean2_avg. ring. }
  assert (Hq : avg n (fun i j => (f i j - m) ^ 2) = s ^ 2).
  { unfold s. rewrite <- Rsqr_pow2, Rsqr_sqrt; rewrite mean2_avg; [reflexivity|]. apply avg_nonneg; [lia|]. intros; apply pow2_ge_0. }
  split; [|split].
  - rewrite (avg_ext n _ (fun i j => / s * (f i j - m) + 0 * 0)) by (intros; unfold Rdiv; ring). rewrite avg_lin, Hm. ring.
  - rewrite (avg_ext n _ (fun i j => (/ s) ^ 2 * (f i j - m) ^ 2 + 0 * 0)) by (intros; unfold Rdiv; ring). rewrite avg_lin, Hq. field. lra.
  - exists (/ s), (- m / s). split; [apply Rinv_0_lt_compat; lra|]. intros i j. unfold Rdiv. ring.
Qed.
Lemma add_modes_spec n : forall l acc h, add_modes n l acc = Ok h ->
  exists g : nat -> nat -> nat -> R, (forall k c f, nth_error l k = Some (c, f) ->
      avg n (g k) = 0 /\ avg n (fun i j => g k i j ^ 2) = 1 /\ exists a b, 0 < a /\ forall i j, g k i j = a * f i j + b) /\
    forall i j, h i j = acc i j + rsum (length l) (fun k => nth k (map fst l) 0 * g k i j).
Proof.
  induction l as [|[c f] l IH]; intros acc h H.
  - cbn [add_modes] in H. apply Ok_inj in H. subst h. exists (fun _ _ _ => 0). split.
    + intros k c f E. destruct k; discriminate E.
    + intros i j. cbn [length rsum]. ring.
  - cbn [add_modes] in H. apply bind_ok in H. destruct H as [g0 [H0 H]]. apply IH in H. destruct H as [g [G1 G2]].
    exists (fun k => match k with O => g0 | S k => g k end). split.
    + intros [|k] c' f' E; cbn [nth_error] in E.
      * injection E as <- <-. apply norm_mode_spec; assumption.
      * eapply G1; eassumption.
    + intros i j. rewrite G2. cbn [length]. rewrite rsum_S_l. cbn [map fst nth]. ring.
Qed.

Lemma fst_combine {A B} (l : list A) : forall m : list B, length l = length m -> map fst (combine l m) = l.
Proof. induction l as [|x l IH]; intros [|y t] L; cbn in *; try discriminate; [reflexivity|]. f_equal. apply IH. congruence. Qed.

(** The map built from coefficients c_2, c_3, ...: the given static map plus the sum of the coefficients times one
    profile per Zernike mode, each the masked Zernike polynomial shifted and scaled so that over the WHOLE array
    (not over the pupil) its average is zero and its mean square is one. *)
Theorem C98_ncpa : forall pupil res coefs opd z m, coefs <> [] ->
  make_zernike (Some (zern_idx (length coefs))) res None false CDefault 0 = Ok z ->
  zernike_map pupil res coefs opd = Ok (Some m) ->
  rows m = res /\ cols m = res /\ rows pupil = res /\ cols pupil = res /\
  exists g : nat -> nat -> nat -> R,
    (forall k, (k < length coefs)%nat -> avg res (g k) = 0 /\ avg res (fun i j => g k i j ^ 2) = 1 /\
        exists a b, 0 < a /\ forall i j, g k i j = a * (mv (z_modes z) k i j * px pupil i j) + b) /\
    forall i j, px m i j = match opd with None => 0 | Some o => px o i j end + rsum (length coefs) (fun k => nth k coefs 0 * g k i j).
Proof.
  intros pupil res coefs opd z m Hc Hz H. unfold zernike_map in H. destruct coefs as [|c0 cs]; [congruence|].
  set (coefs := c0 :: cs) in *. rewrite Hz in H. cbn [bind] in H.
  destruct (negb _) eqn:E1 in H; [discriminate|]. destruct (negb _) eqn:E2 in H; [discriminate|].
  apply bind_ok in H. destruct H as [f [Hf H]]. apply Ok_inj in H. injection H as <-. cbn [rows cols].
  split; [reflexivity|]. split; [reflexivity|]. split; [lia|]. split; [lia|].
  apply add_modes_spec in Hf. destruct Hf as [g [G1 G2]]. exists g.
  set (bs := map _ (seq 0 (length coefs))) in *.
  assert (Lb : length bs = length coefs) by (unfold bs; rewrite map_length, seq_length; reflexivity).
  split.
  - intros k Hk. apply (G1 k (nth k coefs 0)).
    assert (N : nth_error (combine coefs bs) k = Some (nth k (combine coefs bs) (0, fun _ _ => 0))).
    { apply nth_error_nth'. rewrite combine_length. lia. }
    rewrite N, combine_nth by lia. f_equal. f_equal.
    unfold bs. rewrite (nth_indep _ _ ((fun i a b => mv (z_modes z) i a b * px pupil a b) 0%nat)) by (rewrite map_length, seq_length; assumption).
    rewrite (map_nth (fun i a b => mv (z_modes z) i a b * px pupil a b)), seq_nth by assumption. reflexivity.
  - intros i j. cbn [px]. rewrite G2. rewrite combine_length, Lb, Nat.min_id.
    f_equal; [destruct opd; reflexivity|]. apply rsum_ext. intros k Hk. f_equal.
    assert (Q : map fst (combine coefs bs) = coefs).
    { apply fst_combine; congruence. }
    rewrite Q. reflexivity.
Qed.
(** Without coefficients the static map is left as it is. *)
Theorem C98_ncpa_none : forall pupil res opd, zernike_map pupil res [] opd = Ok opd.
Proof. reflexivity. Qed.

(** What the files give. *)
Theorem C98_files : forall rot interp D res obs angle fp fa fo coefs fm t,
  telescope rot interp D res obs angle fp fa fo coefs fm = Ok t ->
  t_resolution t = rows (t_pupil t) /\
  (fp = None -> t_pupil t = annular D obs angle res) /\
  (forall d, fp = Some d -> angle = 0 -> dr d = res ->
     rows (t_pupil t) = res /\ cols (t_pupil t) = dc d /\
     forall i j, px (t_pupil t) i j = match dv d i j with Some x => x | None => 0 end) /\
  (forall d, fp = Some d -> angle = 0 -> dr d <> res ->
     exists a, (forall i j, px a i j = match dv d i j with Some x => x | None => 0 end) /\ rows a = dr d /\ cols a = dc d /\ interp a res = Ok (t_pupil t)) /\
  (fa = None -> t_apo t = None) /\ (fo = None -> coefs = [] -> t_opd t = None) /\ (fm = None -> t_modes t = None).
Proof.
  intros rot interp D res obs angle fp fa fo coefs fm t H. unfold telescope in H. cbv zeta in H.
  apply bind_ok in H. destruct H as [p [Hp H]]. apply bind_ok in H. destruct H as [apo [Ha H]].
  apply bind_ok in H. destruct H as [opd [Ho H]]. apply bind_ok in H. destruct H as [opd' [Hz H]].
  apply bind_ok in H. destruct H as [ms [Hm H]]. apply Ok_inj in H. subst t. cbn [t_resolution t_pupil t_apo t_opd t_modes].
  split; [reflexivity|]. split.
  { intros ->. apply Ok_inj in Hp. subst p. reflexivity. }
  split.
  { intros d -> Hang Hr. apply bind_ok in Hp. destruct Hp as [a [Hl Hp]]. apply Ok_inj in Hp. subst p. unfold load_data in Hl. cbv zeta in Hl.
    destruct (Req_EM_T angle 0); [|lra]. cbn [rows] in Hl. destruct (Nat.eqb_spec (dr d) res); [|lia]. apply Ok_inj in Hl. subst a. cbn [rows cols px]. auto. }
  split.
  { intros d -> Hang Hr. apply bind_ok in Hp. destruct Hp as [a [Hl Hp]]. apply Ok_inj in Hp. subst p. unfold load_data in Hl. cbv zeta in Hl.
    destruct (Req_EM_T angle 0); [|lra]. cbn [rows] in Hl. destruct (Nat.eqb_spec (dr d) res); [lia|].
    eexists. split; [|split; [|split; [|exact Hl]]]; reflexivity. }
  split; [intros ->; apply Ok_inj in Ha; congruence|].
  split; [|intros ->; apply Ok_inj in Hm; congruence].
  intros -> ->. apply Ok_inj in Ho. subst opd. apply Ok_inj in Hz. congruence.
Qed.
(** A pupil file with the right number of rows and another number of columns is kept as it is: the pupil is not
    square, and Zernike coefficients are then refused. *)
Theorem C98_rectangular_refuted : forall rot interp D obs fa fo fm n m,
  (2 <= n)%nat -> n <> m ->
  let d := mkData n m (fun _ _ => Some 1) in
  (forall t, telescope rot interp D n obs 0 (Some d) fa fo [] fm = Ok t -> rows (t_pupil t) <> cols (t_pupil t)) /\
  (exists t, telescope rot interp D n obs 0 (Some d) None None [] None = Ok t) /\
  (forall c, exists e, telescope rot interp D n obs 0 (Some d) None None [c] None = Err e).
Proof.
  intros rot interp D obs fa fo fm n m Hn Hm d. split; [|split].
  - intros t H. apply C98_files in H. destruct H as [_ [_ [H _]]]. destruct (H d eq_refl eq_refl eq_refl) as [A [B _]]. rewrite A, B. exact Hm.
  - unfold telescope, load_data. cbv zeta. cbn [dr dc d]. destruct (Req_EM_T 0 0); [|lra]. cbn [rows]. rewrite Nat.eqb_refl. cbn. eexists. reflexivity.
  - intros c. unfold telescope, load_data. cbv zeta. cbn [dr dc d]. destruct (Req_EM_T 0 0); [|lra]. cbn [rows]. rewrite Nat.eqb_refl. cbn [bind].
    unfold zernike_map. destruct (make_zernike _ _ _ _ _ _) as [z|e']; cbn [bind]; [|eexists; reflexivity].
    cbn [rows cols]. destruct (Nat.eqb_spec m n); [congruence|]. rewrite Bool.andb_false_r. cbn. eexists. reflexivity.
Qed.

(** Static modes. A cube whose first two sizes differ holds one mode per first index; otherwise one per last index. *)
Lemma map_ok_spec {A B} (f : A -> result B) : forall l r, map_ok f l = Ok r -> length r = length l /\ forall k x, nth_error l k = Some x -> exists y, nth_error r k = Some y /\ f x = Ok y.
Proof.
  induction l as [|x l IH]; intros r H; cbn [map_ok] in H.
  - apply Ok_inj in H. subst r. split; [reflexivity|]. intros [|k] y E; discriminate E.
  - apply bind_ok in H. destruct H as [y [Hy H]]. apply bind_ok in H. destruct H as [t [Ht H]]. apply Ok_inj in H. subst r.
    destruct (IH t Ht) as [L N]. split; [cbn [length]; congruence|]. intros [|k] x' E; cbn [nth_error] in *.
    + injection E as <-. exists y. auto.
    + apply N; assumption.
Qed.
Theorem C98_stat_modes : forall rot interp angle res c l, stat_modes rot interp angle res c = Ok l ->
  (s1 c <> s2 c -> length l = s1 c /\ forall k, (k < s1 c)%nat -> exists m, nth_error l k = Some (if Req_EM_T angle 0 then m else rot m angle) /\
      interp (mkImg (s2 c) (s3 c) (fun i j => cv c k i j)) res = Ok m) /\
  (s1 c = s2 c -> length l = s3 c /\ forall k, (k < s3 c)%nat -> exists m, nth_error l k = Some (if Req_EM_T angle 0 then m else rot m angle) /\
      interp (mkImg (s1 c) (s2 c) (fun i j => cv c i j k)) res = Ok m).
Proof.
  intros rot interp angle res c l H. unfold stat_modes in H. cbv zeta in H. apply map_ok_spec in H. destruct H as [L N].
  rewrite seq_length in L.
  assert (S0 : forall q k, (k < q)%nat -> nth_error (seq 0 q) k = Some k).
  { intros q k Hk. rewrite (nth_error_nth' _ 0%nat) by (rewrite seq_length; lia). rewrite seq_nth by lia. reflexivity. }
  split; intros E; destruct (Nat.eqb_spec (s1 c) (s2 c)); try congruence.
  - cbn [transpose120 s1 s2 s3 cv] in *. split; [assumption|]. intros k Hk.
    destruct (N k k (S0 _ _ Hk)) as [y [Y1 Y2]]. apply bind_ok in Y2. destruct Y2 as [m [M1 M2]]. apply Ok_inj in M2. exists m. split; [congruence|assumption].
  - split; [assumption|]. intros k Hk.
    destruct (N k k (S0 _ _ Hk)) as [y [Y1 Y2]]. apply bind_ok in Y2. destruct Y2 as [m [M1 M2]]. apply Ok_inj in M2. exists m. split; [congruence|assumption].
Qed.
(** As many modes as pixels across: the same cube of n modes of n x n pixels, stored modes first like any other, is read along
    the wrong axis. *)
Theorem C98_cube_refuted : exists (c : cube), s1 c = 2%nat /\ s2 c = 2%nat /\ s3 c = 2%nat /\
  forall rot, exists l m, stat_modes rot (fun a _ => Ok a) 0 2 c = Ok l /\ nth_error l 0 = Some m /\ px m 0 1 <> cv c 0 0 1.
Proof.
  exists (mkCube 2 2 2 (fun k i j => INR k + 2 * INR i + 4 * INR j)). repeat split; try reflexivity. intros rot.
  unfold stat_modes. cbv zeta. cbn [s1 s2 s3 cv Nat.eqb seq map_ok bind]. destruct (Req_EM_T 0 0); [|lra].
  eexists. eexists. split; [reflexivity|]. split; [reflexivity|]. cbn [px INR]. lra.
Qed.

Print Assumptions C98_ncpa.
Print Assumptions C98_ncpa_none.
Print Assumptions C98_files.
Print Assumptions C98_rectangular_refuted.
Print Assumptions C98_stat_modes.
Print Assumptions C98_cube_refuted.
