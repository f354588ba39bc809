(** Property C118: resampling an image on another number of pixels. *)
From Coq Require Import Reals List Arith ZArith Bool Lia Lra.
From Flocq Require Import Core.
From Verif Require Import Base_Py Base_Sum Base_DFT M_Image M_Fourier M_Metric3 M_Interp L_Otf L_Fourier3.
From Coquelicot Require Import Complex.
Open Scope R_scope.

(** * Specification *)
(** Coordinate of sample k of an axis of n points over [-1, 1): zero at pixel n/2, step 2/n. *)
Definition sample (n k : nat) : R := 2 * (INR k - INR (n / 2)) / INR n.
(** The point of the sampled range closest to u. *)
Definition inside (n : nat) (u : R) : R := Rmax (sample n 0) (Rmin (sample n (n - 1)) u).
(** u (brought inside the range) lies between samples i and i+1, at fraction s. *)
Definition between (n i : nat) (s u : R) : Prop := (S i < n)%nat /\ 0 <= s <= 1 /\ (1 - s) * sample n i + s * sample n (S i) = inside n u.

(** * Axes *)
Lemma axis_eq n k : (k < n)%nat -> axis n k = sample n k.
Proof.
  intros Hk. unfold axis, sample, lin_space. assert (0 < INR n) by (apply lt_0_INR; lia). destruct (Nat.even n) eqn:E.
  - apply Nat.even_spec in E. destruct E as [h ->]. rewrite Nat.mul_comm, Nat.div_mul by lia. destruct (Nat.eqb_spec (h * 2) 1); [lia|]. rewrite !mult_INR in *. cbn [INR] in *.
    assert (INR h * (1 + 1) - 1 <> 0). { intros Q. assert (INR (h * 2) = INR 1) by (rewrite mult_INR; cbn; lra). apply INR_eq in H0. lia. }
    field_simplify_eq; [|split; lra]. ring.
  - destruct (Nat.eqb_spec n 1) as [ ->|N1]; [replace k with 0%nat by lia; cbn; lra|].
    assert (O : Nat.odd n = true) by (unfold Nat.odd; rewrite E; reflexivity). apply Nat.odd_spec in O. destruct O as [h ->].
    replace ((2 * h + 1) / 2)%nat with h by (rewrite Nat.mul_comm, Nat.div_add_l by lia; cbn; lia). rewrite plus_INR, mult_INR in *. cbn [INR] in *. assert (0 < INR h) by (apply lt_0_INR; lia). field. split; lra.
Qed.
Lemma sample_lt n i j : (0 < n)%nat -> (i < j)%nat -> sample n i < sample n j.
Proof.
  intros Hn Hij. unfold sample, Rdiv. assert (0 < INR n) by (apply lt_0_INR; lia). apply lt_INR in Hij. apply Rmult_lt_compat_r; [now apply Rinv_0_lt_compat|]. lra.
Qed.
Lemma sample_le n i j : (0 < n)%nat -> (i <= j)%nat -> sample n i <= sample n j.
Proof. intros Hn H. destruct (Nat.eq_dec i j) as [ ->|]; [lra|]. left. apply sample_lt; lia. Qed.
Lemma sample_inj n i j : (0 < n)%nat -> sample n i = sample n j -> i = j.
Proof. intros Hn H. destruct (Nat.lt_trichotomy i j) as [L|[L|L]]; auto; apply (sample_lt n) in L; lra || auto. Qed.
Lemma inside_range n u : (0 < n)%nat -> sample n 0 <= inside n u <= sample n (n - 1).
Proof.
  intros Hn. unfold inside. pose proof (sample_le n 0 (n - 1) Hn ltac:(lia)). split; [apply Rmax_l|]. apply Rmax_lub; [assumption|apply Rmin_l].
Qed.
Lemma inside_id n u : sample n 0 <= u <= sample n (n - 1) -> inside n u = u.
Proof. intros H. unfold inside. rewrite Rmin_right by lra. rewrite Rmax_right by lra. reflexivity. Qed.

Lemma cell_spec (x : nat -> R) c k : x 0%nat <= c -> c <= x (S k) -> (cell x c k <= k)%nat /\ x (cell x c k) <= c <= x (S (cell x c k)).
Proof.
  intros H0. induction k as [|k IH]; intros H; [cbn; auto|]. cbn [cell]. destruct (Rle_dec (x (S k)) c) as [L|L]; [split; [lia|split; assumption]|].
  destruct IH as [A B]; [lra|]. split; [lia|exact B].
Qed.
Lemma cell_ext (x y : nat -> R) c n k : (forall i, (i < n)%nat -> x i = y i) -> (k < n)%nat -> cell x c k = cell y c k.
Proof. intros E. induction k as [|k IH]; intros Hk; [reflexivity|]. cbn [cell]. rewrite E by lia. destruct (Rle_dec _ _); [reflexivity|apply IH; lia]. Qed.

Lemma between_unique n i s i' s' u (f : nat -> R) : between n i s u -> between n i' s' u -> (1 - s) * f i + s * f (S i) = (1 - s') * f i' + s' * f (S i').
Proof.
  assert (G : forall i s i' s', between n i s u -> between n i' s' u -> (i <= i')%nat -> (1 - s) * f i + s * f (S i) = (1 - s') * f i' + s' * f (S i')).
  { clear. intros i s i' s' (Hi & Hs & E) (Hi' & Hs' & E') L. assert (Hn : (0 < n)%nat) by lia.
    pose proof (sample_lt n i (S i) Hn ltac:(lia)) as D. pose proof (sample_lt n i' (S i') Hn ltac:(lia)) as D'.
    destruct (Nat.eq_dec i i') as [<-|N].
    - assert (s = s'). { assert ((s - s') * (sample n (S i) - sample n i) = 0) by lra. apply Rmult_integral in H. destruct H; lra. } subst. reflexivity.
    - assert (A : sample n (S i) <= sample n i') by (apply sample_le; lia).
      assert (B : (1 - s) * sample n i + s * sample n (S i) <= sample n (S i)). { replace (sample n (S i)) with ((1 - s) * sample n (S i) + s * sample n (S i)) at 2 by ring. apply Rplus_le_compat_r. apply Rmult_le_compat_l; lra. }
      assert (B' : sample n i' <= (1 - s') * sample n i' + s' * sample n (S i')). { replace (sample n i') with ((1 - s') * sample n i' + s' * sample n i') at 1 by ring. apply Rplus_le_compat_l. apply Rmult_le_compat_l; lra. }
      assert (Z1 : (1 - s) * (sample n (S i) - sample n i) = 0) by lra. assert (Z2 : s' * (sample n (S i') - sample n i') = 0) by lra.
      apply Rmult_integral in Z1, Z2. assert (s = 1) by (destruct Z1; lra). assert (s' = 0) by (destruct Z2; lra). subst s s'.
      assert (S i = i') by (apply (sample_inj n); [exact Hn|lra]). subst i'. ring. }
  intros A B. destruct (Nat.le_ge_cases i i') as [L|L]; [now apply G|symmetry; now apply G].
Qed.
Lemma lin1_between n f u : (2 <= n)%nat -> exists i s, between n i s u /\ lin1 (axis n) n f u = (1 - s) * f i + s * f (S i).
Proof.
  intros Hn. unfold lin1. assert (C : clamp (axis n) n u = inside n u) by (unfold clamp, inside; rewrite !axis_eq by lia; reflexivity). rewrite C. set (c := inside n u).
  rewrite (cell_ext (axis n) (sample n) c (n - 1) (n - 2)) by (try lia; intros; apply axis_eq; lia).
  destruct (inside_range n u ltac:(lia)) as [R1 R2]. fold c in R1, R2. destruct (cell_spec (sample n) c (n - 2) R1) as (Hi & A & B); [replace (S (n - 2)) with (n - 1)%nat by lia; exact R2|].
  set (i := cell (sample n) c (n - 2)) in *. rewrite !axis_eq by lia. pose proof (sample_lt n i (S i) ltac:(lia) ltac:(lia)) as D.
  exists i, ((c - sample n i) / (sample n (S i) - sample n i)). split; [|ring]. split; [lia|]. split.
  - split; [apply Rmult_le_pos; [lra|left; apply Rinv_0_lt_compat; lra]|]. apply (Rmult_le_reg_r (sample n (S i) - sample n i)); [lra|]. unfold Rdiv. rewrite Rmult_assoc, Rinv_l by lra. lra.
  - fold c. field. lra.
Qed.
Lemma lin1_value n f u i s : (2 <= n)%nat -> between n i s u -> lin1 (axis n) n f u = (1 - s) * f i + s * f (S i).
Proof. intros Hn H. destruct (lin1_between n f u Hn) as (i' & s' & B & ->). apply (between_unique n i' s' i s u f B H). Qed.
Lemma between_exists n u : (2 <= n)%nat -> exists i s, between n i s u.
Proof. intros Hn. destruct (lin1_between n (fun _ => 0) u Hn) as (i & s & B & _). eauto. Qed.
Lemma between_node n k : (2 <= n)%nat -> (k < n)%nat -> between n (if (S k <? n)%nat then k else k - 1)%nat (if (S k <? n)%nat then 0 else 1) (sample n k).
Proof.
  intros Hn Hk. unfold between. rewrite inside_id by (split; apply sample_le; lia). destruct (Nat.ltb_spec (S k) n).
  - split; [lia|]. split; [lra|ring].
  - replace (S (k - 1)) with k by lia. split; [lia|]. split; [lra|ring].
Qed.
Lemma lin1_node n f k : (2 <= n)%nat -> (k < n)%nat -> lin1 (axis n) n f (sample n k) = f k.
Proof.
  intros Hn Hk. rewrite (lin1_value n f _ _ _ Hn (between_node n k Hn Hk)). destruct (Nat.ltb_spec (S k) n); [ring|]. replace (S (k - 1)) with k by lia. ring.
Qed.

Definition spl_t := (nat -> R) -> (nat -> R) -> img -> R -> R -> R.
Definition nZ := Z.of_nat.
Lemma linear_val spl a mx my : (2 <= rows a)%nat -> (2 <= cols a)%nat -> exists o, interp_real spl KOther a (nZ mx) (nZ my) = Ok o /\ rows o = mx /\ cols o = my /\
  forall p q, (p < mx)%nat -> (q < my)%nat -> px o p q = lin1 (axis (rows a)) (rows a) (fun i => lin1 (axis (cols a)) (cols a) (px a i) (sample my q)) (sample mx p).
Proof.
  intros Hr Hc. unfold interp_real, nZ. cbv zeta. destruct (Z.eqb_spec (Z.of_nat (rows a)) (Z.of_nat mx)) as [E1|E1]; cbn [andb].
  1: destruct (Z.eqb_spec (Z.of_nat (cols a)) (Z.of_nat my)) as [E2|E2].
  { apply Nat2Z.inj in E1, E2. exists a. split; [reflexivity|]. split; [exact E1|]. split; [exact E2|]. intros p q Hp Hq. subst mx my. rewrite lin1_node by assumption. rewrite lin1_node by assumption. reflexivity. }
  all: destruct (Z.ltb_spec (Z.of_nat mx) 0); [lia|]; destruct (Z.ltb_spec (Z.of_nat my) 0); [lia|]; cbn [orb]; destruct (Nat.ltb_spec (rows a) 2); [lia|]; destruct (Nat.ltb_spec (cols a) 2); [lia|]; cbn [orb]; rewrite !Nat2Z.id; eexists; split; [reflexivity|]; split; [reflexivity|]; split; [reflexivity|];
    intros p q Hp Hq; cbn [px]; rewrite (axis_eq mx p Hp), (axis_eq my q Hq); reflexivity.
Qed.

(** * Linear resampling ('linear', 'bilinear', any other word) *)
(** Each pixel of the result is the bilinear mean of the four pixels around it (outside the sampled range: on its edge). *)
Theorem C118_bilinear : forall spl a mx my, (2 <= rows a)%nat -> (2 <= cols a)%nat -> exists o, interp_real spl KOther a (nZ mx) (nZ my) = Ok o /\ rows o = mx /\ cols o = my /\
  forall p q, (p < mx)%nat -> (q < my)%nat ->
    (exists i s j t, between (rows a) i s (sample mx p) /\ between (cols a) j t (sample my q)) /\
    forall i s j t, between (rows a) i s (sample mx p) -> between (cols a) j t (sample my q) ->
      px o p q = (1 - s) * ((1 - t) * px a i j + t * px a i (S j)) + s * ((1 - t) * px a (S i) j + t * px a (S i) (S j)).
Proof.
  intros spl a mx my Hr Hc. destruct (linear_val spl a mx my Hr Hc) as (o & E & R1 & R2 & V). exists o. split; [exact E|]. split; [exact R1|]. split; [exact R2|]. intros p q Hp Hq. split.
  - destruct (between_exists (rows a) (sample mx p) Hr) as (i & s & A). destruct (between_exists (cols a) (sample my q) Hc) as (j & t & B). exists i, s, j, t. auto.
  - intros i s j t A B. rewrite V by assumption. rewrite (lin1_value _ _ _ _ _ Hr A). rewrite !(lin1_value _ _ _ _ _ Hc B). reflexivity.
Qed.
(** No new extremum: a pupil stays in [0, 1], a constant image stays constant. *)
Theorem C118_range : forall spl a mx my o lo hi, (2 <= rows a)%nat -> (2 <= cols a)%nat -> interp_real spl KOther a (nZ mx) (nZ my) = Ok o ->
  (forall i j, (i < rows a)%nat -> (j < cols a)%nat -> lo <= px a i j <= hi) -> forall p q, (p < mx)%nat -> (q < my)%nat -> lo <= px o p q <= hi.
Proof.
  intros spl a mx my o lo hi Hr Hc E H p q Hp Hq. destruct (C118_bilinear spl a mx my Hr Hc) as (o' & E' & _ & _ & V). rewrite E in E'. apply Ok_inj in E'. subst o'.
  destruct (V p q Hp Hq) as ((i & s & j & t & A & B) & W). rewrite (W _ _ _ _ A B). destruct A as (Hi & Hs & _). destruct B as (Hj & Ht & _).
  assert (M : forall w x y, 0 <= w <= 1 -> lo <= x <= hi -> lo <= y <= hi -> lo <= (1 - w) * x + w * y <= hi).
  { intros w x y Hw Hx Hy. split.
    - replace lo with ((1 - w) * lo + w * lo) by ring. apply Rplus_le_compat; apply Rmult_le_compat_l; lra.
    - replace hi with ((1 - w) * hi + w * hi) by ring. apply Rplus_le_compat; apply Rmult_le_compat_l; lra. }
  apply M; [exact Hs| |]; apply M; try exact Ht; apply H; lia.
Qed.
(** Resampling is linear in the image. *)
Theorem C118_superposition : forall spl a b c mx my oa ob oc al be, (2 <= rows a)%nat -> (2 <= cols a)%nat -> rows b = rows a -> cols b = cols a -> rows c = rows a -> cols c = cols a ->
  (forall i j, (i < rows a)%nat -> (j < cols a)%nat -> px c i j = al * px a i j + be * px b i j) ->
  interp_real spl KOther a (nZ mx) (nZ my) = Ok oa -> interp_real spl KOther b (nZ mx) (nZ my) = Ok ob -> interp_real spl KOther c (nZ mx) (nZ my) = Ok oc ->
  forall p q, (p < mx)%nat -> (q < my)%nat -> px oc p q = al * px oa p q + be * px ob p q.
Proof.
  intros spl a b c mx my oa ob oc al be Hr Hc Rb Cb Rc Cc L Ea Eb Ec p q Hp Hq.
  destruct (C118_bilinear spl a mx my Hr Hc) as (o1 & E1 & _ & _ & V1). rewrite Ea in E1. apply Ok_inj in E1. subst o1.
  destruct (C118_bilinear spl b mx my ltac:(lia) ltac:(lia)) as (o1 & E1 & _ & _ & V2). rewrite Eb in E1. apply Ok_inj in E1. subst o1.
  destruct (C118_bilinear spl c mx my ltac:(lia) ltac:(lia)) as (o1 & E1 & _ & _ & V3). rewrite Ec in E1. apply Ok_inj in E1. subst o1.
  destruct (V1 p q Hp Hq) as ((i & s & j & t & A & B) & W1). rewrite (W1 _ _ _ _ A B). destruct (V2 p q Hp Hq) as (_ & W2). rewrite Rb, Cb in W2. rewrite (W2 _ _ _ _ A B). destruct (V3 p q Hp Hq) as (_ & W3). rewrite Rc, Cc in W3. rewrite (W3 _ _ _ _ A B).
  destruct A as (Hi & _ & _). destruct B as (Hj & _ & _). rewrite !L by lia. ring.
Qed.

(** * Samples common to both grids, linear and cubic *)
(** the cubic interpolation passes through the samples *)
Definition interpolating (spl : spl_t) : Prop := forall n a i j, (4 <= n)%nat -> rows a = n -> cols a = n -> (i < n)%nat -> (j < n)%nat -> spl (axis n) (axis n) a (axis n i) (axis n j) = px a i j.
(** sizes accepted by the interpolation *)
Definition accepted (k : ikind) (a : img) : Prop := match k with KSpline => rows a = cols a /\ (4 <= rows a)%nat | KOther => (2 <= rows a)%nat /\ (2 <= cols a)%nat | KNearest => False end.
Theorem C118_common : forall spl k a mx my, interpolating spl -> accepted k a -> exists o, interp_real spl k a (nZ mx) (nZ my) = Ok o /\ rows o = mx /\ cols o = my /\
  forall p q i j, (p < mx)%nat -> (q < my)%nat -> (i < rows a)%nat -> (j < cols a)%nat -> sample mx p = sample (rows a) i -> sample my q = sample (cols a) j -> px o p q = px a i j.
Proof.
  intros spl [] a mx my HI HA; cbn [accepted] in HA; [|contradiction|].
  - destruct HA as [HQ HN]. unfold interp_real, nZ. cbv zeta.
    assert (G : exists o, (if negb (rows a =? cols a)%nat then Err ValueError else if (rows a <? 4)%nat then Err ValueError else Ok (mkImg (Z.to_nat (Z.of_nat mx)) (Z.to_nat (Z.of_nat my)) (fun i j => spl (axis (cols a)) (axis (rows a)) a (axis (Z.to_nat (Z.of_nat mx)) i) (axis (Z.to_nat (Z.of_nat my)) j)))) = Ok o /\ rows o = mx /\ cols o = my /\
      forall p q i j, (p < mx)%nat -> (q < my)%nat -> (i < rows a)%nat -> (j < cols a)%nat -> sample mx p = sample (rows a) i -> sample my q = sample (cols a) j -> px o p q = px a i j).
    { rewrite !Nat2Z.id, HQ, Nat.eqb_refl. cbn [negb]. destruct (Nat.ltb_spec (cols a) 4); [lia|]. eexists. split; [reflexivity|]. split; [reflexivity|]. split; [reflexivity|].
      intros p q i j Hp Hq Hi Hj Sp Sq. cbn [px]. rewrite (axis_eq mx p Hp), (axis_eq my q Hq), Sp, Sq. rewrite <- (axis_eq (cols a) i), <- (axis_eq (cols a) j) by lia. apply HI; lia. }
    destruct (Z.eqb_spec (Z.of_nat (rows a)) (Z.of_nat mx)) as [E1|E1]; cbn [andb]; [destruct (Z.eqb_spec (Z.of_nat (cols a)) (Z.of_nat my)) as [E2|E2]|].
    + apply Nat2Z.inj in E1, E2. exists a. split; [reflexivity|]. split; [exact E1|]. split; [exact E2|]. intros p q i j Hp Hq Hi Hj Sp Sq. subst mx my. apply sample_inj in Sp, Sq; try lia. subst. reflexivity.
    + destruct (Z.ltb_spec (Z.of_nat mx) 0); [lia|]. destruct (Z.ltb_spec (Z.of_nat my) 0); [lia|]. cbn [orb]. exact G.
    + destruct (Z.ltb_spec (Z.of_nat mx) 0); [lia|]. destruct (Z.ltb_spec (Z.of_nat my) 0); [lia|]. cbn [orb]. exact G.
  - destruct HA as [Hr Hc]. destruct (linear_val spl a mx my Hr Hc) as (o & E & R1 & R2 & V). exists o. split; [exact E|]. split; [exact R1|]. split; [exact R2|].
    intros p q i j Hp Hq Hi Hj Sp Sq. rewrite V by assumption. rewrite Sp, Sq. rewrite lin1_node by assumption. rewrite lin1_node by assumption. reflexivity.
Qed.
Lemma half_lt n : (0 < n)%nat -> (n / 2 < n)%nat.
Proof. intros. apply Nat.div_lt; lia. Qed.
Lemma sample_half n : sample n (n / 2) = 0.
Proof. unfold sample, Rdiv. rewrite Rminus_diag_eq by reflexivity. ring. Qed.
(** The central sample (zero frequency of a transfer function) is kept, whatever the sizes. *)
Theorem C118_centre : forall spl k a mx my o, interpolating spl -> accepted k a -> (0 < mx)%nat -> (0 < my)%nat -> interp_real spl k a (nZ mx) (nZ my) = Ok o ->
  px o (mx / 2) (my / 2) = px a (rows a / 2) (cols a / 2).
Proof.
  intros spl k a mx my o HI HA Hx Hy E. destruct (C118_common spl k a mx my HI HA) as (o' & E' & _ & _ & V). rewrite E in E'. apply Ok_inj in E'. subst o'.
  assert ((0 < rows a)%nat /\ (0 < cols a)%nat) as [A B] by (destruct k; cbn in HA; [lia|contradiction|lia]).
  apply V; try (apply half_lt; assumption); rewrite !sample_half; reflexivity.
Qed.
(** Reducing the size by an integer factor picks one pixel out of d, centre on centre. *)
Theorem C118_decimation : forall spl k a mx my dx dy o, interpolating spl -> accepted k a -> (0 < mx)%nat -> (0 < my)%nat -> rows a = (dx * mx)%nat -> cols a = (dy * my)%nat -> interp_real spl k a (nZ mx) (nZ my) = Ok o ->
  forall p q, (p < mx)%nat -> (q < my)%nat -> px o p q = px a (dx * p + (rows a / 2 - dx * (mx / 2)))%nat (dy * q + (cols a / 2 - dy * (my / 2)))%nat.
Proof.
  intros spl k a mx my dx dy o HI HA Hx Hy Er Ec E p q Hp Hq. destruct (C118_common spl k a mx my HI HA) as (o' & E' & _ & _ & V). rewrite E in E'. apply Ok_inj in E'. subst o'.
  assert (AX : forall n m d k, n = (d * m)%nat -> (0 < n)%nat -> (k < m)%nat -> (d * k + (n / 2 - d * (m / 2)) < n)%nat /\ sample m k = sample n (d * k + (n / 2 - d * (m / 2)))).
  { clear. intros n m d k -> Hn Hk. assert (Hd : (0 < d)%nat) by (destruct d; lia). assert (Hm : (0 < m)%nat) by lia.
    assert (L1 : (d * (m / 2) <= d * m / 2)%nat) by (apply Nat.div_le_lower_bound; [lia|]; pose proof (Nat.mul_div_le m 2 ltac:(lia)); nia).
    assert (L2 : (d * m / 2 - d * (m / 2) < d)%nat). { pose proof (Nat.div_mod m 2 ltac:(lia)) as DM. pose proof (Nat.mod_upper_bound m 2 ltac:(lia)). assert (d * m / 2 < d * (m / 2) + d)%nat; [|lia]. apply Nat.div_lt_upper_bound; [lia|]. nia. }
    split; [nia|]. unfold sample. rewrite plus_INR, minus_INR by exact L1. rewrite !mult_INR. assert (0 < INR d) by (apply lt_0_INR; lia). assert (0 < INR m) by (apply lt_0_INR; lia). field. lra. }
  assert ((0 < rows a)%nat /\ (0 < cols a)%nat) as [A B] by (destruct k; cbn in HA; [lia|contradiction|lia]).
  destruct (AX (rows a) mx dx p Er A Hp) as [P1 P2]. destruct (AX (cols a) my dy q Ec B Hq) as [Q1 Q2]. apply V; assumption.
Qed.

(** * Symmetry *)
Lemma sample_odd n i : Nat.odd n = true -> (i < n)%nat -> sample n (n - 1 - i) = - sample n i.
Proof.
  intros O Hi. apply Nat.odd_spec in O. destruct O as [h ->]. unfold sample. replace ((2 * h + 1) / 2)%nat with h by (rewrite Nat.mul_comm, Nat.div_add_l by lia; cbn; lia).
  replace (2 * h + 1 - 1 - i)%nat with (2 * h - i)%nat by lia. rewrite minus_INR by lia. rewrite plus_INR, mult_INR. cbn [INR]. assert (0 <= INR h) by apply pos_INR. field. lra.
Qed.
Lemma between_odd n i s u : Nat.odd n = true -> between n i s u -> between n (n - 2 - i) (1 - s) (- u).
Proof.
  intros O (Hi & Hs & E). split; [lia|]. split; [lra|]. assert (I : inside n (- u) = - inside n u).
  { unfold inside. replace (sample n (n - 1)) with (- sample n 0). 2:{ pose proof (sample_odd n 0 O ltac:(lia)). rewrite Nat.sub_0_r in H. rewrite H. ring. }
    pose proof (sample_odd n 0 O ltac:(lia)) as Q. rewrite Nat.sub_0_r in Q. pose proof (sample_le n 0 (n - 1) ltac:(lia) ltac:(lia)) as L. rewrite Q in L. set (z := sample n 0) in *.
    unfold Rmax, Rmin. repeat destruct (Rle_dec _ _); lra. }
  rewrite I, <- E. replace (n - 2 - i)%nat with (n - 1 - S i)%nat by lia. replace (S (n - 1 - S i)) with (n - 1 - i)%nat by lia. rewrite !sample_odd by (assumption || lia). ring.
Qed.
(** With odd numbers of pixels an image symmetric about its centre stays symmetric. *)
Theorem C118_even : forall spl a mx my o, (2 <= rows a)%nat -> (2 <= cols a)%nat -> Nat.odd (rows a) = true -> Nat.odd (cols a) = true -> Nat.odd mx = true -> Nat.odd my = true ->
  (forall i j, (i < rows a)%nat -> (j < cols a)%nat -> px a (rows a - 1 - i) (cols a - 1 - j) = px a i j) -> interp_real spl KOther a (nZ mx) (nZ my) = Ok o ->
  forall p q, (p < mx)%nat -> (q < my)%nat -> px o (mx - 1 - p) (my - 1 - q) = px o p q.
Proof.
  intros spl a mx my o Hr Hc Or Oc Ox Oy SY E p q Hp Hq. destruct (C118_bilinear spl a mx my Hr Hc) as (o' & E' & _ & _ & V). rewrite E in E'. apply Ok_inj in E'. subst o'.
  destruct (V p q Hp Hq) as ((i & s & j & t & A & B) & W). rewrite (W _ _ _ _ A B). destruct (V (mx - 1 - p)%nat (my - 1 - q)%nat ltac:(lia) ltac:(lia)) as (_ & W').
  rewrite (sample_odd mx p Ox Hp), (sample_odd my q Oy Hq) in W'. rewrite (W' _ _ _ _ (between_odd _ _ _ _ Or A) (between_odd _ _ _ _ Oc B)). destruct A as (Hi & _ & _). destruct B as (Hj & _ & _).
  replace (S (rows a - 2 - i)) with (rows a - 1 - i)%nat by lia. replace (S (cols a - 2 - j)) with (cols a - 1 - j)%nat by lia.
  replace (rows a - 2 - i)%nat with (rows a - 1 - S i)%nat by lia. replace (cols a - 2 - j)%nat with (cols a - 1 - S j)%nat by lia. rewrite !SY by lia. ring.
Qed.
(** With even numbers of pixels it does not: doubling the size of an even function (x(-u) = x(u) on the samples) breaks the
    symmetry next to the edge, where the last sample is repeated. *)
Definition step_img (n : nat) : img := mkImg n n (fun i _ => if (i =? 0)%nat then 0 else 1).
Theorem C118_even_refuted : forall spl h, (1 <= h)%nat -> let n := (2 * h)%nat in let m := (2 * n)%nat in
  (forall i j, (i < n)%nat -> (j < n)%nat -> px (step_img n) ((n - i) mod n) ((n - j) mod n) = px (step_img n) i j) /\
  exists o, interp_real spl KOther (step_img n) (nZ m) (nZ m) = Ok o /\ forall q, (q < m)%nat -> px o 1 q = / 2 /\ px o (m - 1) q = 1.
Proof.
  intros spl h Hh n m. split.
  { intros i j Hi Hj. unfold step_img. cbn [px]. destruct i as [|i].
    - rewrite Nat.sub_0_r, Nat.mod_same by lia. reflexivity.
    - rewrite Nat.mod_small by lia. destruct (Nat.eqb_spec (n - S i) 0); [lia|reflexivity]. }
  destruct (linear_val spl (step_img n) m m) as (o & E & _ & _ & V); [cbn; lia|cbn; lia|]. exists o. split; [exact E|]. intros q Hq. cbn [step_img rows cols px] in V.
  assert (NH : (n / 2 = h)%nat) by (unfold n; rewrite Nat.mul_comm, Nat.div_mul by lia; reflexivity). assert (MH : (m / 2 = n)%nat) by (unfold m; rewrite Nat.mul_comm, Nat.div_mul by lia; reflexivity).
  assert (PH : 0 < INR h) by (apply lt_0_INR; lia). assert (NR : INR n = 2 * INR h) by (unfold n; rewrite mult_INR; cbn; ring). assert (MR : INR m = 4 * INR h) by (unfold m; rewrite mult_INR, NR; cbn; ring).
  assert (CST : forall i : nat, (if (i =? 0)%nat then 0 else 1) = (if (i =? 0)%nat then 0 else 1)) by reflexivity.
  assert (LC : forall (c : R) u, lin1 (axis n) n (fun _ => c) u = c) by (intros c u; destruct (lin1_between n (fun _ => c) u ltac:(lia)) as (i & s & _ & ->); ring).
  split.
  - rewrite V by lia. assert (B : between n 0 (/ 2) (sample m 1)).
    { split; [lia|]. split; [lra|]. rewrite inside_id.
      - unfold sample. rewrite NH, MH, NR, MR. cbn [INR]. field. lra.
      - pose proof (sample_le n 1 (n - 1) ltac:(lia) ltac:(lia)). pose proof (sample_lt n 0 1 ltac:(lia) ltac:(lia)).
        assert (sample m 1 = (sample n 0 + sample n 1) / 2) by (unfold sample; rewrite NH, MH, NR, MR; cbn [INR]; field; lra). lra. }
    rewrite (lin1_value n _ _ _ _ ltac:(lia) B). rewrite !LC. cbn. lra.
  - rewrite V by lia. assert (B : between n (n - 2) 1 (sample m (m - 1))).
    { split; [lia|]. split; [lra|]. replace (S (n - 2)) with (n - 1)%nat by lia. unfold inside.
      assert (sample n (n - 1) <= sample m (m - 1)).
      { unfold sample. rewrite NH, MH. rewrite !minus_INR by lia. rewrite NR, MR. cbn [INR]. apply (Rmult_le_reg_r (4 * INR h)); [lra|]. field_simplify; lra. }
      rewrite Rmin_left by assumption. rewrite Rmax_right by (apply sample_le; lia). ring. }
    rewrite (lin1_value n _ _ _ _ ltac:(lia) B). rewrite !LC. replace (S (n - 2)) with (n - 1)%nat by lia. destruct (Nat.eqb_spec (n - 1) 0); [lia|]. ring.
Qed.

(** * Nearest pixel *)
Lemma near_range n m j : (2 <= m)%nat -> (1 <= n)%nat -> (j < m)%nat -> (near_ix n m j < n)%nat /\ Rabs (INR (near_ix n m j) - INR j * (INR (n - 1) / INR (m - 1))) <= / 2.
Proof.
  intros Hm Hn Hj. unfold near_ix. destruct (Nat.eqb_spec m 1); [lia|]. set (t := INR j * (INR (n - 1) / INR (m - 1))).
  assert (0 < INR (m - 1)) by (apply lt_0_INR; lia). assert (T0 : 0 <= t) by (unfold t; apply Rmult_le_pos; [apply pos_INR|]; apply Rmult_le_pos; [apply pos_INR|left; now apply Rinv_0_lt_compat]).
  assert (T1 : t <= INR (n - 1)). { unfold t. assert (INR j <= INR (m - 1)) by (apply le_INR; lia). replace (INR (n - 1)) with (INR (m - 1) * (INR (n - 1) / INR (m - 1))) at 2 by (field; lra). apply Rmult_le_compat_r; [apply Rmult_le_pos; [apply pos_INR|left; now apply Rinv_0_lt_compat]|assumption]. }
  pose proof (Zfloor_lb (t + / 2)) as A. pose proof (Zfloor_ub (t + / 2)) as B. set (z := Zfloor (t + / 2)) in *.
  assert (0 <= z)%Z by (apply Zlt_succ_le, lt_IZR; rewrite succ_IZR; lra). assert (z <= Z.of_nat (n - 1))%Z by (apply Zlt_succ_le, lt_IZR; rewrite succ_IZR, <- INR_IZR_INZ; lra).
  split; [lia|]. rewrite INR_IZR_INZ, Z2Nat.id by assumption. apply Rabs_le. lra.
Qed.
Lemma near_ends n m : (2 <= m)%nat -> (1 <= n)%nat -> near_ix n m 0 = 0%nat /\ near_ix n m (m - 1) = (n - 1)%nat.
Proof.
  intros Hm Hn. assert (0 < INR (m - 1)) by (apply lt_0_INR; lia). unfold near_ix. destruct (Nat.eqb_spec m 1); [lia|]. split.
  - cbn [INR]. rewrite Rmult_0_l, Rplus_0_l. rewrite (Zfloor_imp 0) by (cbn; lra). reflexivity.
  - replace (INR (m - 1) * (INR (n - 1) / INR (m - 1))) with (INR (n - 1)) by (field; lra). rewrite (Zfloor_imp (Z.of_nat (n - 1))) by (rewrite plus_IZR, <- INR_IZR_INZ; cbn; lra). lia.
Qed.
Lemma near_mono n m i j : (2 <= m)%nat -> (i <= j)%nat -> (near_ix n m i <= near_ix n m j)%nat.
Proof.
  intros Hm Hij. unfold near_ix. destruct (Nat.eqb_spec m 1); [lia|]. assert (Zfloor (INR i * (INR (n - 1) / INR (m - 1)) + / 2) <= Zfloor (INR j * (INR (n - 1) / INR (m - 1)) + / 2))%Z; [|lia].
  apply Zfloor_le. apply Rplus_le_compat_r. assert (0 < INR (m - 1)) by (apply lt_0_INR; lia). apply Rmult_le_compat_r; [apply Rmult_le_pos; [apply pos_INR|left; now apply Rinv_0_lt_compat]|]. now apply le_INR.
Qed.
(** Every pixel of the result is a pixel of the image: the one at the same fraction of the way between the first and the last
    pixel, to within half a pixel; the order is kept and corners go to corners. *)
Theorem C118_nearest : forall spl a mx my, (1 <= rows a)%nat -> (1 <= cols a)%nat -> (2 <= mx)%nat -> (2 <= my)%nat -> (rows a = mx -> cols a <> my) ->
  exists o f g, interp_real spl KNearest a (nZ mx) (nZ my) = Ok o /\ rows o = mx /\ cols o = my /\ (forall p q, px o p q = px a (f p) (g q)) /\
    (forall p, (p < mx)%nat -> (f p < rows a)%nat /\ Rabs (INR (f p) - INR p * (INR (rows a - 1) / INR (mx - 1))) <= / 2) /\ (forall q, (q < my)%nat -> (g q < cols a)%nat /\ Rabs (INR (g q) - INR q * (INR (cols a - 1) / INR (my - 1))) <= / 2) /\
    (forall p p', (p <= p')%nat -> (f p <= f p')%nat) /\ (forall q q', (q <= q')%nat -> (g q <= g q')%nat) /\
    f 0%nat = 0%nat /\ g 0%nat = 0%nat /\ f (mx - 1)%nat = (rows a - 1)%nat /\ g (my - 1)%nat = (cols a - 1)%nat.
Proof.
  intros spl a mx my Hr Hc Hx Hy D. unfold interp_real, nZ. cbv zeta.
  replace ((Z.of_nat (rows a) =? Z.of_nat mx) && (Z.of_nat (cols a) =? Z.of_nat my))%Z with false. 2:{ symmetry. destruct (Z.eqb_spec (Z.of_nat (rows a)) (Z.of_nat mx)); [|reflexivity]. cbn [andb]. apply Z.eqb_neq. lia. }
  destruct (Z.ltb_spec (Z.of_nat mx) 0); [lia|]. destruct (Z.ltb_spec (Z.of_nat my) 0); [lia|]. cbn [orb]. destruct (Nat.eqb_spec (rows a) 0); [lia|]. destruct (Nat.eqb_spec (cols a) 0); [lia|]. cbn [orb]. rewrite !Nat2Z.id.
  eexists. exists (near_ix (rows a) mx), (near_ix (cols a) my). split; [reflexivity|]. split; [reflexivity|]. split; [reflexivity|]. split; [reflexivity|].
  split; [intros; now apply near_range|]. split; [intros; now apply near_range|]. split; [intros; now apply near_mono|]. split; [intros; now apply near_mono|].
  destruct (near_ends (rows a) mx Hx Hr). destruct (near_ends (cols a) my Hy Hc). auto.
Qed.
(** The centre is not kept: halving an image moves the next pixel to the centre. *)
Theorem C118_nearest_centre_refuted : forall spl a h o, (1 <= h)%nat -> let m := (2 * h)%nat in rows a = (2 * m)%nat -> cols a = (2 * m)%nat -> interp_real spl KNearest a (nZ m) (nZ m) = Ok o ->
  px o (m / 2) (m / 2) = px a (rows a / 2 + 1) (cols a / 2 + 1).
Proof.
  intros spl a h o Hh m Er Ec E. unfold interp_real, nZ in E. cbv zeta in E. rewrite Er, Ec in *. destruct (Z.eqb_spec (Z.of_nat (2 * m)) (Z.of_nat m)); [lia|]. cbn [andb] in E. destruct (Z.ltb_spec (Z.of_nat m) 0); [lia|]. cbn [orb] in E.
  destruct (Nat.eqb_spec (2 * m) 0); [lia|]. cbn [orb] in E. rewrite Nat2Z.id in E. apply Ok_inj in E. subst o. cbn [px].
  assert (near_ix (2 * m) m (m / 2) = 2 * m / 2 + 1)%nat as ->; [|reflexivity]. replace (2 * m / 2)%nat with m by (rewrite Nat.mul_comm, Nat.div_mul by lia; reflexivity). replace (m / 2)%nat with h by (unfold m; rewrite Nat.mul_comm, Nat.div_mul by lia; reflexivity).
  unfold near_ix. destruct (Nat.eqb_spec m 1); [lia|]. assert (1 <= INR h) by (apply (le_INR 1); lia). rewrite !minus_INR by lia. rewrite mult_INR. unfold m. rewrite mult_INR. cbn [INR]. set (x := INR h) in *.
  rewrite (Zfloor_imp (Z.of_nat (2 * h + 1))); [lia|]. rewrite plus_IZR, <- INR_IZR_INZ, plus_INR, mult_INR. cbn [INR]. fold x.
  assert (P : 0 < (1 + 1) * x - 1) by lra. replace (x * (((1 + 1) * ((1 + 1) * x) - 1) / ((1 + 1) * x - 1))) with (2 * x + / 2 + / 2 / (2 * x - 1)) by (field; lra).
  assert (0 < / 2 / (2 * x - 1) <= / 2). { split; [apply Rmult_lt_0_compat; [lra|apply Rinv_0_lt_compat; lra]|]. apply (Rmult_le_reg_r (2 * x - 1)); [lra|]. unfold Rdiv. rewrite Rmult_assoc, Rinv_l by lra. lra. } lra.
Qed.

(** * Refusals *)
(** The default cubic interpolation refuses images that are not square (its axes are swapped), the linear one accepts them. *)
Theorem C118_refused : forall spl a mx my, (rows a = mx -> cols a <> my) ->
  (rows a <> cols a \/ (rows a < 4)%nat -> interp_real spl KSpline a (nZ mx) (nZ my) = Err ValueError) /\
  ((rows a < 2)%nat \/ (cols a < 2)%nat -> interp_real spl KOther a (nZ mx) (nZ my) = Err ValueError) /\
  (forall k zx zy, (zx < 0)%Z \/ (zy < 0)%Z -> interp_real spl k a zx zy = Err ValueError) /\
  (forall k, interp_real spl k a (nZ (rows a)) (nZ (cols a)) = Ok a).
Proof.
  intros spl a mx my D. unfold interp_real, nZ. cbv zeta.
  assert (F : ((Z.of_nat (rows a) =? Z.of_nat mx) && (Z.of_nat (cols a) =? Z.of_nat my))%Z = false). { destruct (Z.eqb_spec (Z.of_nat (rows a)) (Z.of_nat mx)); [|reflexivity]. cbn [andb]. apply Z.eqb_neq. lia. }
  rewrite F. destruct (Z.ltb_spec (Z.of_nat mx) 0); [lia|]. destruct (Z.ltb_spec (Z.of_nat my) 0); [lia|]. cbn [orb].
  split; [|split; [|split]].
  - intros Q. destruct (Nat.eqb_spec (rows a) (cols a)); cbn [negb]; [|reflexivity]. destruct (Nat.ltb_spec (rows a) 4); [reflexivity|lia].
  - intros Q. destruct (Nat.ltb_spec (rows a) 2); [reflexivity|]. cbn [orb]. destruct (Nat.ltb_spec (cols a) 2); [reflexivity|lia].
  - intros k zx zy Q. destruct (Z.eqb_spec (Z.of_nat (rows a)) zx); cbn [andb]; [destruct (Z.eqb_spec (Z.of_nat (cols a)) zy); [lia|]|];
      (destruct (Z.ltb_spec zx 0); [reflexivity|]; cbn [orb]; destruct (Z.ltb_spec zy 0); [reflexivity|lia]).
  - intros k. rewrite !Z.eqb_refl. reflexivity.
Qed.

(** * PSF of a transfer function sampled at the Shannon limit *)
Lemma cplx_centre spl k a mx my o : interpolating spl -> accepted k (re_img a) -> (0 < mx)%nat -> (0 < my)%nat -> interp_cplx spl k a (nZ mx) (nZ my) = Ok o ->
  crows o = mx /\ ccols o = my /\ cpx o (mx / 2) (my / 2) = cpx a (crows a / 2) (ccols a / 2).
Proof.
  intros HI HA Hx Hy E. unfold interp_cplx in E. assert (HB : accepted k (im_img a)) by exact HA.
  destruct (C118_common spl k (re_img a) mx my HI HA) as (r & E1 & R1 & R2 & _). destruct (C118_common spl k (im_img a) mx my HI HB) as (s & E2 & _ & _ & _).
  pose proof (C118_centre spl k _ mx my r HI HA Hx Hy E1) as C1. pose proof (C118_centre spl k _ mx my s HI HB Hx Hy E2) as C2.
  rewrite E1, E2 in E. cbn [bind] in E. apply Ok_inj in E. subst o. cbn [crows ccols cpx]. split; [exact R1|]. split; [exact R2|]. rewrite C1, C2. cbn [re_img im_img px rows cols]. destruct (cpx a _ _); reflexivity.
Qed.
Lemma cplx_ok spl k a mx my : interpolating spl -> accepted k (re_img a) -> exists o, interp_cplx spl k a (nZ mx) (nZ my) = Ok o.
Proof.
  intros HI HA. unfold interp_cplx. destruct (C118_common spl k (re_img a) mx my HI HA) as (r & E1 & _). destruct (C118_common spl k (im_img a) mx my HI HA) as (s & E2 & _). rewrite E1, E2. cbn [bind]. eexists. reflexivity.
Qed.
Lemma sum_one n (otf : carr) psf : crows otf = n -> ccols otf = n -> (0 < n)%nat -> otf2psf otf false = Ok psf -> img_sum psf = 1.
Proof.
  intros Hr Hc Hn E. unfold otf2psf in E. destruct (cis_empty otf); [discriminate|]. cbv zeta in E. match type of E with bind ?x _ = _ => destruct x as [z|] end; cbn [bind] in E; [|discriminate]. unfold img_div in E. destruct (Req_EM_T (img_sum z) 0) as [|N]; [discriminate|]. apply Ok_inj in E. subst psf.
  unfold img_sum at 1. cbn [img_map rows cols px]. rewrite (rsum_ext (rows z) _ (fun i => rsum (cols z) (fun j => px z i j) / img_sum z)) by (intros; apply rsum_div). rewrite rsum_div. fold (img_sum z). field. exact N.
Qed.
(** At the Shannon limit (one sample per lambda/2D, nqSmpl = 1) a square transfer function whose central value has a real part
    gives a PSF of the requested size with unit sum. *)
Theorem C118_shannon : forall spl otf n fov, interpolating spl -> crows otf = n -> ccols otf = n -> (4 <= n)%nat -> (0 < fov)%nat -> fst (cpx otf (n / 2) (n / 2)) <> 0 ->
  exists psf, otfShannon2psf spl otf 1 1 (nZ fov) = Ok psf /\ rows psf = fov /\ cols psf = fov /\ img_sum psf = 1.
Proof.
  intros spl otf n fov HI Hr Hc Hn Hf H0. unfold otfShannon2psf. rewrite Z.eqb_refl. assert (HA : accepted KSpline (re_img otf)) by (cbn; lia).
  destruct (cplx_ok spl KSpline otf fov fov HI HA) as (o & E). rewrite E. cbn [bind]. destruct (cplx_centre _ _ _ _ _ _ HI HA Hf Hf E) as (Or & Oc & Ov).
  destruct (otf2psf_val fov o false Or Oc Hf) as (psf & EP & Pr & Pc & _). { rewrite Ov, Hr, Hc. exact H0. }
  exists psf. split; [exact EP|]. split; [exact Pr|]. split; [exact Pc|]. apply (sum_one fov o psf Or Oc Hf EP).
Qed.

(** * Cases *)
(** an interpolation through the samples exists: the bilinear one *)
Definition ex_spl : spl_t := fun _ _ a u v => lin1 (axis (rows a)) (rows a) (fun p => lin1 (axis (cols a)) (cols a) (px a p) v) u.
Example C118_ex_spl : interpolating ex_spl.
Proof. intros n a i j Hn Hr Hc Hi Hj. unfold ex_spl. rewrite Hr, Hc, !axis_eq by assumption. rewrite lin1_node by lia. rewrite lin1_node by lia. reflexivity. Qed.
Example C118_ex_size : accepted KSpline (mkImg 8 8 (fun _ _ => 1)) /\ accepted KOther (mkImg 3 5 (fun _ _ => 1)) /\ between 4 1 (/ 2) (sample 8 3).
Proof.
  split; [cbn; lia|]. split; [cbn; lia|]. split; [lia|]. split; [lra|]. rewrite inside_id; unfold sample; cbn; lra.
Qed.

Print Assumptions C118_bilinear.
Print Assumptions C118_range.
Print Assumptions C118_superposition.
Print Assumptions C118_common.
Print Assumptions C118_centre.
Print Assumptions C118_decimation.
Print Assumptions C118_even.
Print Assumptions C118_even_refuted.
Print Assumptions C118_nearest.
Print Assumptions C118_nearest_centre_refuted.
Print Assumptions C118_refused.
Print Assumptions C118_shannon.
