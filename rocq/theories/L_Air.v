(** Lemmas on the refractivity model. *)
From Coq Require Import Reals List Arith ZArith Bool Lia Lra Psatz.
From Verif Require Import Base_Py M_Tools M_Air.
Import ListNotations.
Open Scope R_scope.

Lemma Rleb_true a b : a <= b -> Rleb a b = true. Proof. intros. unfold Rleb. destruct (Rle_dec a b); [reflexivity|lra]. Qed.
Lemma Rleb_false a b : b < a -> Rleb a b = false. Proof. intros. unfold Rleb. destruct (Rle_dec a b); [lra|reflexivity]. Qed.
Lemma Rleb_spec a b : reflect (a <= b) (Rleb a b).
Proof. unfold Rleb. destruct (Rle_dec a b); constructor; assumption. Qed.

Lemma inv_bounds w a b : 0 < a -> a <= w -> w <= b -> 10000 / b <= 10000 / w <= 10000 / a.
Proof. intros. unfold Rdiv. split; apply Rmult_le_compat_l; try lra; apply Rinv_le_contravar; lra. Qed.
Lemma kv : b_lo table_K = 13 / 10 /\ b_hi table_K = 5 / 2 /\ b_nuref table_K = 10000 / (9 / 4). Proof. repeat split. Qed.
Lemma lv : b_lo table_L = 14 / 5 /\ b_hi table_L = 21 / 5 /\ b_nuref table_L = 10000 / (17 / 5). Proof. repeat split. Qed.
Lemma mv_ : b_lo table_M = 87 / 20 /\ b_hi table_M = 53 / 10 /\ b_nuref table_M = 10000 / (24 / 5). Proof. repeat split. Qed.
Lemma nv : b_lo table_N = 15 / 2 /\ b_hi table_N = 141 / 10 /\ b_nuref table_N = 10000 / (101 / 10). Proof. repeat split. Qed.
Lemma qv : b_lo table_Q = 16 /\ b_hi table_Q = 28 /\ b_nuref table_Q = 10000 / 20. Proof. repeat split. Qed.
Lemma band_cases w : 13 / 10 <= w ->
  (select_band tables w = table_K /\ Rabs (10000 / w - b_nuref table_K) <= 4445) \/
  (select_band tables w = table_L /\ Rabs (10000 / w - b_nuref table_L) <= 631) \/
  (select_band tables w = table_M /\ Rabs (10000 / w - b_nuref table_M) <= 216) \/
  (select_band tables w = table_N /\ Rabs (10000 / w - b_nuref table_N) <= 344) \/
  (select_band tables w = table_Q /\ Rabs (10000 / w - b_nuref table_Q) <= 143 /\ 16 <= w <= 28).
Proof.
  intros Hw. assert (K : Rabs (10000 / w - b_nuref table_K) <= 4445).
  { assert (0 < 10000 / w) by (apply Rdiv_lt_0_compat; lra). assert (10000 / w <= 10000 / (13 / 10)) by (unfold Rdiv; apply Rmult_le_compat_l; [lra|apply Rinv_le_contravar; lra]).
    destruct kv as (_ & _ & ->). replace (10000 / (9 / 4)) with (40000 / 9) by field. replace (10000 / (13 / 10)) with (100000 / 13) in * by field. apply Rabs_le. lra. }
  unfold tables. cbn [select_band]. destruct kv as (E1 & E2 & _), lv as (E3 & E4 & E5), mv_ as (E6 & E7 & E8), nv as (E9 & E10 & E11), qv as (E12 & E13 & E14).
  rewrite E1, E2, E3, E4, E5, E6, E7, E8, E9, E10, E11, E12, E13, E14. clear E1 E2 E3 E4 E5 E6 E7 E8 E9 E10 E11 E12 E13 E14.
  generalize dependent table_K. intros tK K.
  destruct (Rleb_spec (13 / 10) w); [|lra]. cbn [andb]. destruct (Rleb_spec w (5 / 2)); [left; split; [reflexivity|exact K]|].
  destruct (Rleb_spec (14 / 5) w) as [A|A]; cbn [andb]; [destruct (Rleb_spec w (21 / 5)) as [B|B]|].
  { right. left. split; [reflexivity|]. pose proof (inv_bounds w (14 / 5) (21 / 5) ltac:(lra) A B) as I.
    replace (10000 / (21 / 5)) with (50000 / 21) in I by field. replace (10000 / (14 / 5)) with (50000 / 14) in I by field. replace (10000 / (17 / 5)) with (50000 / 17) by field. apply Rabs_le. lra. }
  all: destruct (Rleb_spec (87 / 20) w) as [A2|A2]; cbn [andb]; [destruct (Rleb_spec w (53 / 10)) as [B2|B2]|].
  1,4: right; right; left; (split; [reflexivity|]); pose proof (inv_bounds w (87 / 20) (53 / 10) ltac:(lra) A2 B2) as I;
    replace (10000 / (87 / 20)) with (200000 / 87) in I by field; replace (10000 / (53 / 10)) with (100000 / 53) in I by field; replace (10000 / (24 / 5)) with (50000 / 24) by field; apply Rabs_le; lra.
  all: destruct (Rleb_spec (15 / 2) w) as [A3|A3]; cbn [andb]; [destruct (Rleb_spec w (141 / 10)) as [B3|B3]|].
  1,4,7,10: right; right; right; left; (split; [reflexivity|]); pose proof (inv_bounds w (15 / 2) (141 / 10) ltac:(lra) A3 B3) as I;
    replace (10000 / (15 / 2)) with (20000 / 15) in I by field; replace (10000 / (141 / 10)) with (100000 / 141) in I by field; replace (10000 / (101 / 10)) with (100000 / 101) by field; apply Rabs_le; lra.
  all: destruct (Rleb_spec 16 w) as [A4|A4]; cbn [andb]; [destruct (Rleb_spec w 28) as [B4|B4]|]; try (left; split; [reflexivity|exact K]);
    right; right; right; right; (split; [reflexivity|]); (split; [|lra]); pose proof (inv_bounds w 16 28 ltac:(lra) A4 B4) as I; apply Rabs_le; lra.
Qed.

Lemma poly6 c0 c1 c2 c3 c4 c5 d D b1 b2 b3 b4 b5 :
  Rabs d <= D -> Rabs c1 <= b1 -> Rabs c2 <= b2 -> Rabs c3 <= b3 -> Rabs c4 <= b4 -> Rabs c5 <= b5 ->
  Rabs (c0 + c1 * d + c2 * d ^ 2 + c3 * d ^ 3 + c4 * d ^ 4 + c5 * d ^ 5 - c0) <= b1 * D + b2 * D ^ 2 + b3 * D ^ 3 + b4 * D ^ 4 + b5 * D ^ 5.
Proof.
  intros Hd H1 H2 H3 H4 H5. pose proof (Rabs_pos d).
  assert (T : forall c b k, Rabs c <= b -> Rabs (c * d ^ k) <= b * D ^ k).
  { intros c b k H0. rewrite Rabs_mult, <- RPow_abs. apply Rmult_le_compat; [apply Rabs_pos|apply pow_le; assumption|assumption|apply pow_incr; split; assumption]. }
  pose proof (T c1 b1 1%nat H1). pose proof (T c2 b2 2%nat H2). pose proof (T c3 b3 3%nat H3). pose proof (T c4 b4 4%nat H4). pose proof (T c5 b5 5%nat H5).
  rewrite pow_1 in *. rewrite (pow_1 D) in *.
  replace (c0 + c1 * d + c2 * d ^ 2 + c3 * d ^ 3 + c4 * d ^ 4 + c5 * d ^ 5 - c0) with (c1 * d + (c2 * d ^ 2 + (c3 * d ^ 3 + (c4 * d ^ 4 + c5 * d ^ 5)))) by ring.
  eapply Rle_trans; [apply Rabs_triang|]. eapply Rle_trans; [apply Rplus_le_compat_l, Rabs_triang|]. eapply Rle_trans; [apply Rplus_le_compat_l, Rplus_le_compat_l, Rabs_triang|].
  eapply Rle_trans; [apply Rplus_le_compat_l, Rplus_le_compat_l, Rplus_le_compat_l, Rabs_triang|]. lra.
Qed.
Lemma band_value_poly b nu Tc P H :
  band_value b nu Tc P H = let c := fun i => dot (nth i (b_coeffs b) []) (state_vector Tc P H) in let d := nu - b_nuref b in
    c 0%nat + c 1%nat * d + c 2%nat * d ^ 2 + c 3%nat * d ^ 3 + c 4%nat * d ^ 4 + c 5%nat * d ^ 5.
Proof. unfold band_value. cbn [seq fold_left]. cbv zeta. ring. Qed.

Lemma Rabs_le_inv a b : Rabs a <= b -> - b <= a <= b.
Proof. intros H. pose proof (Rle_abs a). pose proof (Rle_abs (- a)). rewrite Rabs_Ropp in *. lra. Qed.
Definition sd : list R := [1; 1000 / 33500319; 1000000 / 1122271373101761; 10; 100; 26325; 693005625; 10000 / 33500319; 8775000 / 11166773; 263250].
Lemma state_default : state_vector 15 101325 20 = sd.
Proof.
  unfold state_vector, sd, kelvin, T_ref, p_ref, H_ref. repeat (apply (f_equal2 (@cons R)); [field|]). reflexivity.
Qed.
Lemma coef_K : let c := fun i => dot (nth i (b_coeffs table_K) []) sd in
  272783 / 1000000000 <= c 0%nat <= 17049 / 62500000 /\ Rabs (c 1%nat) <= 161 / 1000000000000 /\ Rabs (c 2%nat) <= 131 / 10000000000000000 /\ Rabs (c 3%nat) <= 93 / 5000000000000000000 /\ Rabs (c 4%nat) <= 541 / 100000000000000000000000 /\ Rabs (c 5%nat) <= 283 / 500000000000000000000000000.
Proof. unfold dot, sd, lsum, table_K. cbn [b_coeffs nth combine map fold_right fst snd]. repeat split; try (apply Rabs_le; split); lra. Qed.
Lemma range_K d : Rabs (d - b_nuref table_K) <= 4445 -> 267 / 1000000 <= band_value table_K d 15 101325 20 <= 557 / 2000000.
Proof.
  intros H. rewrite band_value_poly, state_default. destruct coef_K as (C0 & C1 & C2 & C3 & C4 & C5). cbv zeta.
  pose proof (poly6 (dot (nth 0 (b_coeffs table_K) []) sd) _ _ _ _ _ _ _ _ _ _ _ _ H C1 C2 C3 C4 C5) as P. apply Rabs_le_inv in P. lra.
Qed.
Lemma slope_K u x h d : Rabs u <= 60000 -> Rabs x <= 52 / 100000 -> Rabs h <= 90 -> Rabs d <= 4445 ->
  0 < let e := fun i => dot (nth i (b_coeffs table_K) []) [0; 0; 0; 0; 0; 1; u; 0; x; h] in e 0%nat + e 1%nat * d + e 2%nat * d ^ 2 + e 3%nat * d ^ 3 + e 4%nat * d ^ 4 + e 5%nat * d ^ 5.
Proof.
  intros Hu Hx Hh Hd. cbv zeta.
  apply Rabs_le_inv in Hu, Hx, Hh.
  assert (E1 : Rabs (dot (nth 1 (b_coeffs table_K) []) [0; 0; 0; 0; 0; 1; u; 0; x; h]) <= 157 / 100000000000000000) by (unfold dot, lsum, table_K; cbn [b_coeffs nth combine map fold_right fst snd]; apply Rabs_le; split; lra).
  assert (E2 : Rabs (dot (nth 2 (b_coeffs table_K) []) [0; 0; 0; 0; 0; 1; u; 0; x; h]) <= 157 / 1000000000000000000000) by (unfold dot, lsum, table_K; cbn [b_coeffs nth combine map fold_right fst snd]; apply Rabs_le; split; lra).
  assert (E3 : Rabs (dot (nth 3 (b_coeffs table_K) []) [0; 0; 0; 0; 0; 1; u; 0; x; h]) <= 119 / 12500000000000000000000000) by (unfold dot, lsum, table_K; cbn [b_coeffs nth combine map fold_right fst snd]; apply Rabs_le; split; lra).
  assert (E4 : Rabs (dot (nth 4 (b_coeffs table_K) []) [0; 0; 0; 0; 0; 1; u; 0; x; h]) <= 13 / 5000000000000000000000000000) by (unfold dot, lsum, table_K; cbn [b_coeffs nth combine map fold_right fst snd]; apply Rabs_le; split; lra).
  assert (E5 : Rabs (dot (nth 5 (b_coeffs table_K) []) [0; 0; 0; 0; 0; 1; u; 0; x; h]) <= 291 / 1000000000000000000000000000000000) by (unfold dot, lsum, table_K; cbn [b_coeffs nth combine map fold_right fst snd]; apply Rabs_le; split; lra).
  assert (E0 : 453 / 200000000000 <= dot (nth 0 (b_coeffs table_K) []) [0; 0; 0; 0; 0; 1; u; 0; x; h]) by (unfold dot, lsum, table_K; cbn [b_coeffs nth combine map fold_right fst snd]; lra).
  pose proof (poly6 (dot (nth 0 (b_coeffs table_K) []) [0; 0; 0; 0; 0; 1; u; 0; x; h]) _ _ _ _ _ _ _ _ _ _ _ _ Hd E1 E2 E3 E4 E5) as P. apply Rabs_le_inv in P. lra.
Qed.
Lemma coef_L : let c := fun i => dot (nth i (b_coeffs table_L) []) sd in
  272587 / 1000000000 <= c 0%nat <= 68147 / 250000000 /\ Rabs (c 1%nat) <= 211 / 1000000000000 /\ Rabs (c 2%nat) <= 21 / 62500000000000 /\ Rabs (c 3%nat) <= 103 / 100000000000000000 /\ Rabs (c 4%nat) <= 109 / 50000000000000000000 /\ Rabs (c 5%nat) <= 61 / 12500000000000000000000.
Proof. unfold dot, sd, lsum, table_L. cbn [b_coeffs nth combine map fold_right fst snd]. repeat split; try (apply Rabs_le; split); lra. Qed.
Lemma range_L d : Rabs (d - b_nuref table_L) <= 631 -> 339 / 1250000 <= band_value table_L d 15 101325 20 <= 137 / 500000.
Proof.
  intros H. rewrite band_value_poly, state_default. destruct coef_L as (C0 & C1 & C2 & C3 & C4 & C5). cbv zeta.
  pose proof (poly6 (dot (nth 0 (b_coeffs table_L) []) sd) _ _ _ _ _ _ _ _ _ _ _ _ H C1 C2 C3 C4 C5) as P. apply Rabs_le_inv in P. lra.
Qed.
Lemma slope_L u x h d : Rabs u <= 60000 -> Rabs x <= 52 / 100000 -> Rabs h <= 90 -> Rabs d <= 631 ->
  0 < let e := fun i => dot (nth i (b_coeffs table_L) []) [0; 0; 0; 0; 0; 1; u; 0; x; h] in e 0%nat + e 1%nat * d + e 2%nat * d ^ 2 + e 3%nat * d ^ 3 + e 4%nat * d ^ 4 + e 5%nat * d ^ 5.
Proof.
  intros Hu Hx Hh Hd. cbv zeta.
  apply Rabs_le_inv in Hu, Hx, Hh.
  assert (E1 : Rabs (dot (nth 1 (b_coeffs table_L) []) [0; 0; 0; 0; 0; 1; u; 0; x; h]) <= 193 / 100000000000000000) by (unfold dot, lsum, table_L; cbn [b_coeffs nth combine map fold_right fst snd]; apply Rabs_le; split; lra).
  assert (E2 : Rabs (dot (nth 2 (b_coeffs table_L) []) [0; 0; 0; 0; 0; 1; u; 0; x; h]) <= 99 / 25000000000000000000) by (unfold dot, lsum, table_L; cbn [b_coeffs nth combine map fold_right fst snd]; apply Rabs_le; split; lra).
  assert (E3 : Rabs (dot (nth 3 (b_coeffs table_L) []) [0; 0; 0; 0; 0; 1; u; 0; x; h]) <= 107 / 10000000000000000000000) by (unfold dot, lsum, table_L; cbn [b_coeffs nth combine map fold_right fst snd]; apply Rabs_le; split; lra).
  assert (E4 : Rabs (dot (nth 4 (b_coeffs table_L) []) [0; 0; 0; 0; 0; 1; u; 0; x; h]) <= 253 / 10000000000000000000000000) by (unfold dot, lsum, table_L; cbn [b_coeffs nth combine map fold_right fst snd]; apply Rabs_le; split; lra).
  assert (E5 : Rabs (dot (nth 5 (b_coeffs table_L) []) [0; 0; 0; 0; 0; 1; u; 0; x; h]) <= 509 / 10000000000000000000000000000) by (unfold dot, lsum, table_L; cbn [b_coeffs nth combine map fold_right fst snd]; apply Rabs_le; split; lra).
  assert (E0 : 2263 / 1000000000000 <= dot (nth 0 (b_coeffs table_L) []) [0; 0; 0; 0; 0; 1; u; 0; x; h]) by (unfold dot, lsum, table_L; cbn [b_coeffs nth combine map fold_right fst snd]; lra).
  pose proof (poly6 (dot (nth 0 (b_coeffs table_L) []) [0; 0; 0; 0; 0; 1; u; 0; x; h]) _ _ _ _ _ _ _ _ _ _ _ _ Hd E1 E2 E3 E4 E5) as P. apply Rabs_le_inv in P. lra.
Qed.
Lemma coef_M : let c := fun i => dot (nth i (b_coeffs table_M) []) sd in
  136267 / 500000000 <= c 0%nat <= 54507 / 200000000 /\ Rabs (c 1%nat) <= 411 / 1000000000000 /\ Rabs (c 2%nat) <= 109 / 250000000000000 /\ Rabs (c 3%nat) <= 471 / 50000000000000000 /\ Rabs (c 4%nat) <= 27 / 200000000000000000000 /\ Rabs (c 5%nat) <= 19 / 40000000000000000000.
Proof. unfold dot, sd, lsum, table_M. cbn [b_coeffs nth combine map fold_right fst snd]. repeat split; try (apply Rabs_le; split); lra. Qed.
Lemma range_M d : Rabs (d - b_nuref table_M) <= 216 -> 2721 / 10000000 <= band_value table_M d 15 101325 20 <= 273 / 1000000.
Proof.
  intros H. rewrite band_value_poly, state_default. destruct coef_M as (C0 & C1 & C2 & C3 & C4 & C5). cbv zeta.
  pose proof (poly6 (dot (nth 0 (b_coeffs table_M) []) sd) _ _ _ _ _ _ _ _ _ _ _ _ H C1 C2 C3 C4 C5) as P. apply Rabs_le_inv in P. lra.
Qed.
Lemma slope_M u x h d : Rabs u <= 60000 -> Rabs x <= 52 / 100000 -> Rabs h <= 90 -> Rabs d <= 216 ->
  0 < let e := fun i => dot (nth i (b_coeffs table_M) []) [0; 0; 0; 0; 0; 1; u; 0; x; h] in e 0%nat + e 1%nat * d + e 2%nat * d ^ 2 + e 3%nat * d ^ 3 + e 4%nat * d ^ 4 + e 5%nat * d ^ 5.
Proof.
  intros Hu Hx Hh Hd. cbv zeta.
  apply Rabs_le_inv in Hu, Hx, Hh.
  assert (E1 : Rabs (dot (nth 1 (b_coeffs table_M) []) [0; 0; 0; 0; 0; 1; u; 0; x; h]) <= 153 / 50000000000000000) by (unfold dot, lsum, table_M; cbn [b_coeffs nth combine map fold_right fst snd]; apply Rabs_le; split; lra).
  assert (E2 : Rabs (dot (nth 2 (b_coeffs table_M) []) [0; 0; 0; 0; 0; 1; u; 0; x; h]) <= 541 / 100000000000000000000) by (unfold dot, lsum, table_M; cbn [b_coeffs nth combine map fold_right fst snd]; apply Rabs_le; split; lra).
  assert (E3 : Rabs (dot (nth 3 (b_coeffs table_M) []) [0; 0; 0; 0; 0; 1; u; 0; x; h]) <= 473 / 5000000000000000000000) by (unfold dot, lsum, table_M; cbn [b_coeffs nth combine map fold_right fst snd]; apply Rabs_le; split; lra).
  assert (E4 : Rabs (dot (nth 4 (b_coeffs table_M) []) [0; 0; 0; 0; 0; 1; u; 0; x; h]) <= 31 / 200000000000000000000000) by (unfold dot, lsum, table_M; cbn [b_coeffs nth combine map fold_right fst snd]; apply Rabs_le; split; lra).
  assert (E5 : Rabs (dot (nth 5 (b_coeffs table_M) []) [0; 0; 0; 0; 0; 1; u; 0; x; h]) <= 211 / 50000000000000000000000000) by (unfold dot, lsum, table_M; cbn [b_coeffs nth combine map fold_right fst snd]; apply Rabs_le; split; lra).
  assert (E0 : 2263 / 1000000000000 <= dot (nth 0 (b_coeffs table_M) []) [0; 0; 0; 0; 0; 1; u; 0; x; h]) by (unfold dot, lsum, table_M; cbn [b_coeffs nth combine map fold_right fst snd]; lra).
  pose proof (poly6 (dot (nth 0 (b_coeffs table_M) []) [0; 0; 0; 0; 0; 1; u; 0; x; h]) _ _ _ _ _ _ _ _ _ _ _ _ Hd E1 E2 E3 E4 E5) as P. apply Rabs_le_inv in P. lra.
Qed.
Lemma coef_N : let c := fun i => dot (nth i (b_coeffs table_N) []) sd in
  54463 / 200000000 <= c 0%nat <= 68079 / 250000000 /\ Rabs (c 1%nat) <= 349 / 500000000000 /\ Rabs (c 2%nat) <= 143 / 250000000000000 /\ Rabs (c 3%nat) <= 53 / 62500000000000000 /\ Rabs (c 4%nat) <= 51 / 6250000000000000000 /\ Rabs (c 5%nat) <= 241 / 10000000000000000000000.
Proof. unfold dot, sd, lsum, table_N. cbn [b_coeffs nth combine map fold_right fst snd]. repeat split; try (apply Rabs_le; split); lra. Qed.
Lemma range_N d : Rabs (d - b_nuref table_N) <= 344 -> 2717 / 10000000 <= band_value table_N d 15 101325 20 <= 2729 / 10000000.
Proof.
  intros H. rewrite band_value_poly, state_default. destruct coef_N as (C0 & C1 & C2 & C3 & C4 & C5). cbv zeta.
  pose proof (poly6 (dot (nth 0 (b_coeffs table_N) []) sd) _ _ _ _ _ _ _ _ _ _ _ _ H C1 C2 C3 C4 C5) as P. apply Rabs_le_inv in P. lra.
Qed.
Lemma slope_N u x h d : Rabs u <= 60000 -> Rabs x <= 52 / 100000 -> Rabs h <= 90 -> Rabs d <= 344 ->
  0 < let e := fun i => dot (nth i (b_coeffs table_N) []) [0; 0; 0; 0; 0; 1; u; 0; x; h] in e 0%nat + e 1%nat * d + e 2%nat * d ^ 2 + e 3%nat * d ^ 3 + e 4%nat * d ^ 4 + e 5%nat * d ^ 5.
Proof.
  intros Hu Hx Hh Hd. cbv zeta.
  apply Rabs_le_inv in Hu, Hx, Hh.
  assert (E1 : Rabs (dot (nth 1 (b_coeffs table_N) []) [0; 0; 0; 0; 0; 1; u; 0; x; h]) <= 191 / 50000000000000000) by (unfold dot, lsum, table_N; cbn [b_coeffs nth combine map fold_right fst snd]; apply Rabs_le; split; lra).
  assert (E2 : Rabs (dot (nth 2 (b_coeffs table_N) []) [0; 0; 0; 0; 0; 1; u; 0; x; h]) <= 191 / 100000000000000000000) by (unfold dot, lsum, table_N; cbn [b_coeffs nth combine map fold_right fst snd]; apply Rabs_le; split; lra).
  assert (E3 : Rabs (dot (nth 3 (b_coeffs table_N) []) [0; 0; 0; 0; 0; 1; u; 0; x; h]) <= 101 / 25000000000000000000000) by (unfold dot, lsum, table_N; cbn [b_coeffs nth combine map fold_right fst snd]; apply Rabs_le; split; lra).
  assert (E4 : Rabs (dot (nth 4 (b_coeffs table_N) []) [0; 0; 0; 0; 0; 1; u; 0; x; h]) <= 3 / 39062500000000000000000) by (unfold dot, lsum, table_N; cbn [b_coeffs nth combine map fold_right fst snd]; apply Rabs_le; split; lra).
  assert (E5 : Rabs (dot (nth 5 (b_coeffs table_N) []) [0; 0; 0; 0; 0; 1; u; 0; x; h]) <= 21 / 100000000000000000000000000) by (unfold dot, lsum, table_N; cbn [b_coeffs nth combine map fold_right fst snd]; apply Rabs_le; split; lra).
  assert (E0 : 1131 / 500000000000 <= dot (nth 0 (b_coeffs table_N) []) [0; 0; 0; 0; 0; 1; u; 0; x; h]) by (unfold dot, lsum, table_N; cbn [b_coeffs nth combine map fold_right fst snd]; lra).
  pose proof (poly6 (dot (nth 0 (b_coeffs table_N) []) [0; 0; 0; 0; 0; 1; u; 0; x; h]) _ _ _ _ _ _ _ _ _ _ _ _ Hd E1 E2 E3 E4 E5) as P. apply Rabs_le_inv in P. lra.
Qed.
Lemma coef_Q : let c := fun i => dot (nth i (b_coeffs table_Q) []) sd in
  67867 / 250000000 <= c 0%nat <= 271469 / 1000000000 /\ Rabs (c 1%nat) <= 139 / 25000000000 /\ Rabs (c 2%nat) <= 407 / 10000000000000 /\ Rabs (c 3%nat) <= 267 / 1000000000000000 /\ Rabs (c 4%nat) <= 473 / 500000000000000000 /\ Rabs (c 5%nat) <= 67 / 50000000000000000.
Proof. unfold dot, sd, lsum, table_Q. cbn [b_coeffs nth combine map fold_right fst snd]. repeat split; try (apply Rabs_le; split); lra. Qed.
Lemma range_Q d : Rabs (d - b_nuref table_Q) <= 143 -> 377 / 2000000 <= band_value table_Q d 15 101325 20 <= 709 / 2000000.
Proof.
  intros H. rewrite band_value_poly, state_default. destruct coef_Q as (C0 & C1 & C2 & C3 & C4 & C5). cbv zeta.
  pose proof (poly6 (dot (nth 0 (b_coeffs table_Q) []) sd) _ _ _ _ _ _ _ _ _ _ _ _ H C1 C2 C3 C4 C5) as P. apply Rabs_le_inv in P. lra.
Qed.
Lemma slope_Q u x h d : Rabs u <= 60000 -> Rabs x <= 52 / 100000 -> Rabs h <= 90 -> Rabs d <= 143 ->
  0 < let e := fun i => dot (nth i (b_coeffs table_Q) []) [0; 0; 0; 0; 0; 1; u; 0; x; h] in e 0%nat + e 1%nat * d + e 2%nat * d ^ 2 + e 3%nat * d ^ 3 + e 4%nat * d ^ 4 + e 5%nat * d ^ 5.
Proof.
  intros Hu Hx Hh Hd. cbv zeta.
  apply Rabs_le_inv in Hu, Hx, Hh.
  assert (E1 : Rabs (dot (nth 1 (b_coeffs table_Q) []) [0; 0; 0; 0; 0; 1; u; 0; x; h]) <= 37 / 25000000000000000) by (unfold dot, lsum, table_Q; cbn [b_coeffs nth combine map fold_right fst snd]; apply Rabs_le; split; lra).
  assert (E2 : Rabs (dot (nth 2 (b_coeffs table_Q) []) [0; 0; 0; 0; 0; 1; u; 0; x; h]) <= 353 / 50000000000000000000) by (unfold dot, lsum, table_Q; cbn [b_coeffs nth combine map fold_right fst snd]; apply Rabs_le; split; lra).
  assert (E3 : Rabs (dot (nth 3 (b_coeffs table_Q) []) [0; 0; 0; 0; 0; 1; u; 0; x; h]) <= 113 / 1000000000000000000000) by (unfold dot, lsum, table_Q; cbn [b_coeffs nth combine map fold_right fst snd]; apply Rabs_le; split; lra).
  assert (E4 : Rabs (dot (nth 4 (b_coeffs table_Q) []) [0; 0; 0; 0; 0; 1; u; 0; x; h]) <= 213 / 250000000000000000000000) by (unfold dot, lsum, table_Q; cbn [b_coeffs nth combine map fold_right fst snd]; apply Rabs_le; split; lra).
  assert (E5 : Rabs (dot (nth 5 (b_coeffs table_Q) []) [0; 0; 0; 0; 0; 1; u; 0; x; h]) <= 113 / 25000000000000000000000000) by (unfold dot, lsum, table_Q; cbn [b_coeffs nth combine map fold_right fst snd]; apply Rabs_le; split; lra).
  assert (E0 : 2263 / 1000000000000 <= dot (nth 0 (b_coeffs table_Q) []) [0; 0; 0; 0; 0; 1; u; 0; x; h]) by (unfold dot, lsum, table_Q; cbn [b_coeffs nth combine map fold_right fst snd]; lra).
  pose proof (poly6 (dot (nth 0 (b_coeffs table_Q) []) [0; 0; 0; 0; 0; 1; u; 0; x; h]) _ _ _ _ _ _ _ _ _ _ _ _ Hd E1 E2 E3 E4 E5) as P. apply Rabs_le_inv in P. lra.
Qed.
