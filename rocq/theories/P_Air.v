(** Property C39: refractivity of the air. *)
From Coq Require Import Reals List Arith ZArith Bool Lia Lra Psatz.
From Verif Require Import Base_Py M_Tools M_Air L_Air M_Model.
Import ListNotations.
Open Scope R_scope.

(** ** Selection of the model *)
Definition in_band (b : band) (w : R) : Prop := b_lo b <= w <= b_hi b.
Theorem C39_bands_disjoint : forall i j a b w, nth_error tables i = Some a -> nth_error tables j = Some b -> in_band a w -> in_band b w -> i = j.
Proof.
  intros i j a b w Hi Hj Ha Hb. unfold in_band in *. destruct kv as (E1 & E2 & _), lv as (E3 & E4 & _), mv_ as (E6 & E7 & _), nv as (E9 & E10 & _), qv as (E12 & E13 & _).
  destruct i as [|[|[|[|[|i]]]]]; destruct j as [|[|[|[|[|j]]]]]; cbn in Hi, Hj; try reflexivity; try (destruct i; discriminate); try (destruct j; discriminate);
    apply (f_equal (fun o => match o with Some x => x | None => table_K end)) in Hi, Hj; subst a b; exfalso; rewrite ?E1, ?E2, ?E3, ?E4, ?E6, ?E7, ?E9, ?E10, ?E12, ?E13 in *; lra.
Qed.
Print Assumptions C39_bands_disjoint.
(** below 1.3 um the visible formula, otherwise the one band that contains the
    wavelength, or the polynomial of band K when no band does *)
Theorem C39_selection : forall Tc P H w,
  (w < 13 / 10 -> refr1 Tc P H w = ciddor w Tc P H) /\
  (13 / 10 <= w -> kelvin Tc <> 0 ->
    (forall b, In b tables -> in_band b w -> refr1 Tc P H w = Ok (band_value b (10000 / w) Tc P H)) /\
    ((forall b, In b tables -> ~ in_band b w) -> refr1 Tc P H w = Ok (band_value table_K (10000 / w) Tc P H))).
Proof.
  intros Tc P H w. unfold refr1, Rltb. split; intros Hw; destruct (Rlt_dec w (13 / 10)); try lra; [reflexivity|]. intros Hk.
  unfold mathar. destruct (Req_EM_T (kelvin Tc) 0); [contradiction|].
  assert (G : forall l, (forall b, In b l -> In b tables) -> (exists b, In b l /\ in_band b w) -> In (select_band l w) tables /\ in_band (select_band l w) w).
  { induction l as [|x l IH]; intros HI (b & Hb & I); [destruct Hb|]. cbn [select_band]. destruct (Rleb_spec (b_lo x) w) as [A|A]; [destruct (Rleb_spec w (b_hi x)) as [B|B]|]; cbn [andb].
    - split; [apply HI; now left|split; assumption].
    - destruct Hb as [ ->|Hb]; [destruct I; lra|]. apply IH; [intros; apply HI; now right|eauto].
    - destruct Hb as [ ->|Hb]; [destruct I; lra|]. apply IH; [intros; apply HI; now right|eauto]. }
  split.
  - intros b Hb I. destruct (G tables) as [S1 S2]; [auto|eauto|]. apply In_nth_error in Hb as (i & Hi), S1 as (j & Hj).
    assert (i = j) by (eapply C39_bands_disjoint; eauto). subst j. rewrite Hi in Hj. apply (f_equal (fun o => match o with Some x => x | None => table_K end)) in Hj. cbv beta iota in Hj. now rewrite <- Hj.
  - intros N. assert (Q : forall l, (forall b, In b l -> ~ in_band b w) -> select_band l w = table_K); [|now rewrite Q].
    induction l as [|x l IH]; intros HN; [reflexivity|]. cbn [select_band]. destruct (Rleb_spec (b_lo x) w) as [A|A]; [destruct (Rleb_spec w (b_hi x)) as [B|B]|]; cbn [andb].
    + destruct (HN x (or_introl eq_refl)). split; assumption.
    + apply IH. intros; apply HN; now right.
    + apply IH. intros; apply HN; now right.
Qed.
Print Assumptions C39_selection.
(** ** Element by element *)
Theorem C39_elementwise : forall ws Tc P H, kelvin Tc <> 0 ->
  (ws = [] -> get_refractive_index ws Tc P H = Err IndexError) /\
  (forall w, ws = [w] -> get_refractive_index ws Tc P H = Ok (RScalar (refr1 Tc P H (w * 10 ^ 6)))) /\
  ((2 <= length ws)%nat -> get_refractive_index ws Tc P H = Ok (RArray (map (fun w => refr1 Tc P H (w * 10 ^ 6)) ws))).
Proof.
  intros ws Tc P H Hk.
  assert (NE : forall w e, refr1 Tc P H w = Err e -> e = NonFinite).
  { intros w e. unfold refr1, ciddor, mathar. destruct (Rltb w (13 / 10)); [|destruct (Req_EM_T (kelvin Tc) 0); [contradiction|discriminate]].
    destruct (Req_EM_T w 0); [congruence|]. destruct (Req_EM_T _ 0); [congruence|]. destruct (Req_EM_T _ 0); [congruence|]. destruct (Req_EM_T (kelvin Tc) 0); [contradiction|discriminate]. }
  assert (G : forall l, refr_loop Tc P H l = Ok (map (refr1 Tc P H) l)).
  { induction l as [|w l IH]; [reflexivity|]. cbn [refr_loop map]. rewrite IH. destruct (refr1 Tc P H w) eqn:E; [reflexivity|]. rewrite (NE w e E). reflexivity. }
  unfold get_refractive_index. rewrite G, map_map. cbn [bind].
  split; [intros ->; reflexivity|]. split; [intros w ->; reflexivity|]. destruct ws as [|a [|b l]]; cbn; try lia. reflexivity.
Qed.
Print Assumptions C39_elementwise.
Theorem C39_absolute_zero : forall w ws P H, w * 10 ^ 6 >= 13 / 10 -> get_refractive_index (w :: ws) (- (27315 / 100)) P H = Err ZeroDivisionError.
Proof.
  intros w ws P H Hw. unfold get_refractive_index. cbn [map refr_loop]. unfold refr1, Rltb, mathar, kelvin. destruct (Rlt_dec _ _); [lra|]. destruct (Req_EM_T _ 0); [reflexivity|lra].
Qed.
(** ** Values at the default conditions (15 C, 1013.25 hPa, 20 %), the only ones
    used by the Fourier model *)
Theorem C39_default_infrared : forall w v, 13 / 10 <= w -> refr1 15 101325 20 w = Ok v ->
  18 / 100000 <= v <= 36 / 100000 /\ (w < 16 \/ 28 < w -> 267 / 1000000 <= v <= 279 / 1000000).
Proof.
  intros w v Hw E. unfold refr1, Rltb in E. destruct (Rlt_dec w (13 / 10)); [lra|]. unfold mathar in E. destruct (Req_EM_T (kelvin 15) 0); [discriminate|]. apply Ok_inj in E. subst v.
  destruct (band_cases w Hw) as [[-> D]|[[-> D]|[[-> D]|[[-> D]|[-> [D W]]]]]].
  - pose proof (range_K _ D). lra.
  - pose proof (range_L _ D). lra.
  - pose proof (range_M _ D). lra.
  - pose proof (range_N _ D). lra.
  - pose proof (range_Q _ D). lra.
Qed.
Print Assumptions C39_default_infrared.
Lemma exp_pow n : exp (INR n) = exp 1 ^ n.
Proof. induction n; [apply exp_0|]. rewrite S_INR, exp_plus, IHn. cbn [pow]. ring. Qed.
Lemma exp_le_mono x y : x <= y -> exp x <= exp y.
Proof. intros [H|H]; [left; now apply exp_increasing|right; now subst]. Qed.
Lemma P_w_default : 0 <= P_w 15 101325 20 <= 1330.
Proof.
  unfold P_w, svp, f_enh, kelvin. set (x := _ + - 63431645 / 10 ^ 4 / _). assert (X : x <= 8) by (unfold x; lra).
  assert (E : 0 < exp x <= 6561).
  { split; [apply exp_pos|]. eapply Rle_trans; [apply exp_le_mono; exact X|]. replace 8 with (INR 8) by (cbn; ring). rewrite exp_pow. replace 6561 with (3 ^ 8) by ring. apply pow_incr. split; [left; apply exp_pos|apply exp_le_3]. }
  nra.
Qed.
Lemma sigma_range w : 3 / 10 <= w <= 13 / 10 -> 59 / 100 <= (1 / w) ^ 2 <= 100 / 9.
Proof.
  intros Hw. assert (A : 1 / (13 / 10) <= 1 / w <= 1 / (3 / 10)).
  { unfold Rdiv. rewrite !Rmult_1_l. split; apply Rinv_le_contravar; lra. }
  replace (1 / (13 / 10)) with (10 / 13) in A by field. replace (1 / (3 / 10)) with (10 / 3) in A by field. nra.
Qed.
Lemma n_as_range w : 3 / 10 <= w <= 13 / 10 -> 2735 / 10 ^ 7 <= n_as w <= 2920 / 10 ^ 7.
Proof.
  intros Hw. pose proof (sigma_range w Hw) as S. unfold n_as. cbv zeta. set (s := (1 / w) ^ 2) in *.
  assert (A : / (2380185 / 10000 - 59 / 100) <= / (2380185 / 10000 - s) <= / (2380185 / 10000 - 100 / 9)) by (split; apply Rinv_le_contravar; lra).
  assert (B : / (57362 / 1000 - 59 / 100) <= / (57362 / 1000 - s) <= / (57362 / 1000 - 100 / 9)) by (split; apply Rinv_le_contravar; lra).
  replace (/ (2380185 / 10000 - 59 / 100)) with (10000 / 2374285) in A by field. replace (/ (57362 / 1000 - 59 / 100)) with (1000 / 56772) in B by field.
  replace (/ (2380185 / 10000 - 100 / 9)) with (90000 / 20421665) in A by field. replace (/ (57362 / 1000 - 100 / 9)) with (9000 / 416258) in B by field.
  change (5792105 / (2380185 / 10000 - s)) with (5792105 * / (2380185 / 10000 - s)). change (167917 / (57362 / 1000 - s)) with (167917 * / (57362 / 1000 - s)).
  set (a := / (2380185 / 10000 - s)) in *. set (b := / (57362 / 1000 - s)) in *. clearbody a b. lra.
Qed.
Lemma n_ws_range w : 3 / 10 <= w <= 13 / 10 -> 300 / 10 ^ 8 <= n_ws w <= 340 / 10 ^ 8.
Proof.
  intros Hw. pose proof (sigma_range w Hw) as S. unfold n_ws. cbv zeta. replace ((1 / w) ^ 4) with (((1 / w) ^ 2) ^ 2) by ring. replace ((1 / w) ^ 6) with (((1 / w) ^ 2) ^ 3) by ring. set (s := (1 / w) ^ 2) in *.
  assert (A : 0 <= s ^ 2 <= 100 / 9 * s) by nra. assert (B : 0 <= s ^ 3 <= 100 / 9 * s ^ 2) by (replace (s ^ 3) with (s * s ^ 2) by ring; nra). lra.
Qed.
Theorem C39_default_visible : forall w, 3 / 10 <= w < 13 / 10 -> exists v, refr1 15 101325 20 w = Ok v /\ 269 / 1000000 <= v <= 296 / 1000000.
Proof.
  intros w Hw. assert (Hw' : 3 / 10 <= w <= 13 / 10) by lra. pose proof (sigma_range w Hw') as S. unfold refr1, Rltb, ciddor. destruct (Rlt_dec w (13 / 10)); [|lra].
  destruct (Req_EM_T w 0); [lra|]. destruct (Req_EM_T (2380185 / 10000 - _) 0); [lra|]. destruct (Req_EM_T (57362 / 1000 - _) 0); [lra|]. destruct (Req_EM_T (kelvin 15) 0) as [K|K]; [unfold kelvin in K; lra|].
  eexists. split; [reflexivity|]. pose proof P_w_default as [P0 P1]. pose proof (n_as_range w Hw') as [A0 A1]. pose proof (n_ws_range w Hw') as [B0 B1]. set (pw := P_w 15 101325 20) in *. cbv zeta. unfold kelvin.
  replace (28815 / 100 / (15 + 27315 / 100)) with 1 by field. replace (29315 / 100 / (15 + 27315 / 100)) with (29315 / 28815) by field.
  assert (U : (101325 - 1330) / 101325 <= (101325 - pw) / 101325 <= 1) by lra. assert (V : 0 <= pw / 1333 * (29315 / 28815) <= 1330 / 1333 * (29315 / 28815)) by lra.
  set (u := (101325 - pw) / 101325) in *. set (v := pw / 1333 * (29315 / 28815)) in *. rewrite Rmult_1_r.
  assert (0 <= v * n_ws w <= 1330 / 1333 * (29315 / 28815) * (340 / 10 ^ 8)) by (split; [apply Rmult_le_pos|apply Rmult_le_compat]; lra).
  assert ((101325 - 1330) / 101325 * (2735 / 10 ^ 7) <= u * n_as w <= 1 * (2920 / 10 ^ 7)) by (split; apply Rmult_le_compat; lra). clearbody u v. lra.
Qed.
Print Assumptions C39_default_visible.
(** dry air: the ideal gas law, n - 1 proportional to P / T *)
Theorem C39_dry_ideal_gas : forall w Tc P v, refr1 Tc P 0 w = Ok v -> w < 13 / 10 -> v = P / 101325 * (28815 / 100 / kelvin Tc) * n_as w.
Proof.
  intros w Tc P v E Hw. unfold refr1, Rltb, ciddor in E. destruct (Rlt_dec w (13 / 10)); [|lra]. destruct (Req_EM_T w 0); [discriminate|]. destruct (Req_EM_T _ 0); [discriminate|]. destruct (Req_EM_T _ 0); [discriminate|]. destruct (Req_EM_T (kelvin Tc) 0); [discriminate|].
  apply Ok_inj in E. rewrite <- E. cbv zeta. replace (P_w Tc P 0) with 0 by (unfold P_w, Rdiv; ring). unfold Rdiv. ring.
Qed.
Print Assumptions C39_dry_ideal_gas.
(** more humid air is less refractive in the visible: vapour replaces denser air *)
Theorem C39_humidity_visible : forall w Tc P H1 H2 v1 v2, 3 / 10 <= w < 13 / 10 -> -20 <= Tc <= 40 -> 0 <= P -> H1 < H2 ->
  refr1 Tc P H1 w = Ok v1 -> refr1 Tc P H2 w = Ok v2 -> v2 < v1.
Proof.
  intros w Tc P H1 H2 v1 v2 Hw HT HP HH E1 E2. assert (Hw' : 3 / 10 <= w <= 13 / 10) by lra. unfold refr1, Rltb, ciddor in E1, E2. destruct (Rlt_dec w (13 / 10)); [|lra]. destruct (Req_EM_T w 0); [discriminate|]. destruct (Req_EM_T _ 0); [discriminate|]. destruct (Req_EM_T _ 0); [discriminate|]. destruct (Req_EM_T (kelvin Tc) 0); [discriminate|].
  apply Ok_inj in E1, E2. subst v1 v2. cbv zeta. pose proof (n_as_range w Hw') as [A0 A1]. pose proof (n_ws_range w Hw') as [B0 B1].
  assert (L : P_w Tc P H1 < P_w Tc P H2).
  { unfold P_w. assert (0 < svp Tc) by (unfold svp; apply exp_pos). assert (0 < f_enh Tc P) by (unfold f_enh; nra). rewrite !Rmult_assoc. apply Rmult_lt_compat_r; [apply Rmult_lt_0_compat; assumption|lra]. }
  assert (K : 0 < / kelvin Tc) by (apply Rinv_0_lt_compat; unfold kelvin; lra).
  apply Rminus_gt_0_lt.
  replace (_ - _) with ((P_w Tc P H2 - P_w Tc P H1) * (/ kelvin Tc * (28815 / 100 / 101325 * n_as w - 29315 / 100 / 1333 * n_ws w))) by (field; lra).
  apply Rmult_lt_0_compat; [lra|]. apply Rmult_lt_0_compat; [exact K|]. lra.
Qed.
Print Assumptions C39_humidity_visible.
(** ** Infrared: refractivity increases with pressure *)
Lemma dT_range Tc : -20 <= Tc <= 40 -> Rabs (1 / kelvin Tc - 1 / T_ref) <= 52 / 100000.
Proof.
  intros H. assert (A : / (31315 / 100) <= / kelvin Tc <= / (25315 / 100)) by (unfold kelvin; split; apply Rinv_le_contravar; lra).
  unfold T_ref. replace (/ (31315 / 100)) with (100 / 31315) in A by field. replace (/ (25315 / 100)) with (100 / 25315) in A by field. replace (1 / (27315 / 100 + 35 / 2)) with (200 / 58130) by field. unfold Rdiv at 1. rewrite Rmult_1_l. apply Rabs_le. lra.
Qed.
Lemma dot10 r a0 a1 a2 a3 a4 a5 a6 a7 a8 a9 : length r = 10%nat -> dot r [a0; a1; a2; a3; a4; a5; a6; a7; a8; a9] =
  nth 0 r 0 * a0 + nth 1 r 0 * a1 + nth 2 r 0 * a2 + nth 3 r 0 * a3 + nth 4 r 0 * a4 + nth 5 r 0 * a5 + nth 6 r 0 * a6 + nth 7 r 0 * a7 + nth 8 r 0 * a8 + nth 9 r 0 * a9.
Proof. intros H. do 10 (destruct r as [|? r]; [discriminate|]). destruct r; [|discriminate]. unfold dot, lsum. cbn [combine map fold_right fst snd nth]. ring. Qed.
Lemma rows10 b : In b tables -> forall i, (i < 6)%nat -> length (nth i (b_coeffs b) []) = 10%nat.
Proof. intros [<-|[<-|[<-|[<-|[<-|[]]]]]] i Hi; do 6 (destruct i as [|i]; [reflexivity|]); lia. Qed.
Lemma value_diff b nu Tc P1 P2 H : In b tables ->
  band_value b nu Tc P2 H - band_value b nu Tc P1 H = (P2 - P1) *
   (let e := fun i => dot (nth i (b_coeffs b) []) [0; 0; 0; 0; 0; 1; (P1 - p_ref) + (P2 - p_ref); 0; 1 / kelvin Tc - 1 / T_ref; H - H_ref] in let d := nu - b_nuref b in
    e 0%nat + e 1%nat * d + e 2%nat * d ^ 2 + e 3%nat * d ^ 3 + e 4%nat * d ^ 4 + e 5%nat * d ^ 5).
Proof.
  intros Hb. rewrite !band_value_poly. cbv zeta. unfold state_vector.
  rewrite !dot10 by (apply rows10; [exact Hb|lia]). generalize (1 / kelvin Tc - 1 / T_ref). intros x. generalize (nu - b_nuref b). intros d.
  do 6 (match goal with |- context [nth ?i (b_coeffs b) []] => let r := fresh "r" in set (r := nth i (b_coeffs b) []); clearbody r end).
  ring.
Qed.
Theorem C39_pressure_infrared : forall w Tc P1 P2 H v1 v2, 13 / 10 <= w -> -20 <= Tc <= 40 -> 0 <= H <= 100 -> 50000 <= P1 -> P1 < P2 -> P2 <= 105000 ->
  refr1 Tc P1 H w = Ok v1 -> refr1 Tc P2 H w = Ok v2 -> v1 < v2.
Proof.
  intros w Tc P1 P2 H v1 v2 Hw HT HH Hp1 Hp Hp2 E1 E2. unfold refr1, Rltb, mathar in E1, E2. destruct (Rlt_dec w (13 / 10)); [lra|]. destruct (Req_EM_T (kelvin Tc) 0); [discriminate|].
  apply Ok_inj in E1, E2. subst v1 v2. apply Rminus_gt_0_lt.
  assert (U : Rabs ((P1 - p_ref) + (P2 - p_ref)) <= 60000) by (unfold p_ref; apply Rabs_le; lra).
  pose proof (dT_range Tc HT) as X. assert (Y : Rabs (H - H_ref) <= 90) by (unfold H_ref; apply Rabs_le; lra).
  destruct (band_cases w Hw) as [[-> D]|[[-> D]|[[-> D]|[[-> D]|[-> [D W]]]]]]; rewrite value_diff by (cbn; tauto); apply Rmult_lt_0_compat; try lra; cbv zeta.
  - exact (slope_K _ _ _ _ U X Y D).
  - exact (slope_L _ _ _ _ U X Y D).
  - exact (slope_M _ _ _ _ U X Y D).
  - exact (slope_N _ _ _ _ U X Y D).
  - exact (slope_Q _ _ _ _ U X Y D).
Qed.
Print Assumptions C39_pressure_infrared.

Print Assumptions C39_absolute_zero.
