(** Lemmas on the floating-point crop side. *)
From Coq Require Import ZArith Reals Lia Lra Psatz.
From Flocq Require Import Core BinarySingleNaN Relative.
From Verif Require Import M_Float.
Open Scope R_scope.

Notation fexp64 := (FLT_exp (-1074) 53).
Notation rnd64 := (round radix2 fexp64 ZnearestE).

Lemma fexp_eq : SpecFloat.fexp 53 1024 = fexp64.
Proof. reflexivity. Qed.

Lemma small_int_format z : (Z.abs z <= 2 ^ 53)%Z -> generic_format radix2 fexp64 (IZR z).
Proof.
  intros H. apply generic_format_FLT. 
  destruct (Z.eq_dec (Z.abs z) (2 ^ 53)) as [E|E].
  - exists (Float radix2 (Z.sgn z) 53); unfold F2R; cbn [Fnum Fexp].
    + rewrite <- IZR_Zpower by lia. rewrite <- mult_IZR. f_equal. cbn [radix_val radix2]. lia.
    + cbn [radix_val radix2]. lia.
    + lia.
  - exists (Float radix2 z 0); unfold F2R; cbn [Fnum Fexp].
    + cbn. lra.
    + cbn [radix_val radix2]. lia.
    + lia.
Qed.

Lemma bpow53 : bpow radix2 53 = IZR (2 ^ 53).
Proof. rewrite <- IZR_Zpower by lia. reflexivity. Qed.

Lemma rnd64_small x : Rabs x <= IZR (2 ^ 53) -> Rabs (rnd64 x) < bpow radix2 1024.
Proof.
  intros H. apply Rle_lt_trans with (bpow radix2 53).
  - assert (F : generic_format radix2 fexp64 (bpow radix2 53))
      by (rewrite bpow53; apply small_int_format; lia).
    assert (F' : generic_format radix2 fexp64 (- bpow radix2 53)) by (apply generic_format_opp, F).
    apply Rabs_le. apply Rabs_le_inv in H. rewrite <- bpow53 in H. split.
    + apply round_ge_generic; [apply FLT_exp_valid; reflexivity|apply valid_rnd_N|exact F'|lra].
    + apply round_le_generic; [apply FLT_exp_valid; reflexivity|apply valid_rnd_N|exact F|lra].
  - apply bpow_lt. lia.
Qed.

Lemma f_of_Z_val z : (Z.abs z <= 2 ^ 53)%Z -> B2R (f_of_Z z) = IZR z /\ is_finite (f_of_Z z) = true.
Proof.
  intros H. assert (C := @binary_normalize_correct 53 1024 prec_pos prec_emax mode_NE z 0 false).
  cbv zeta in C. rewrite fexp_eq in C. change (round_mode mode_NE) with ZnearestE in C.
  assert (E : F2R (Float radix2 z 0) = IZR z) by (unfold F2R; cbn; lra).
  rewrite E in C.
  rewrite Rlt_bool_true in C.
  - destruct C as (C1 & C2 & _). split; [|exact C2].
    unfold f_of_Z. rewrite C1. apply round_generic; [apply valid_rnd_N|apply small_int_format, H].
  - apply rnd64_small. rewrite <- abs_IZR. apply IZR_le, H.
Qed.

Lemma fdiv_val x y :
  B2R y <> 0 -> Rabs (B2R x / B2R y) <= IZR (2 ^ 53) -> is_finite x = true ->
  B2R (fdiv x y) = rnd64 (B2R x / B2R y) /\ is_finite (fdiv x y) = true.
Proof.
  intros Hy Hb Hf. assert (C := @Bdiv_correct 53 1024 prec_pos prec_emax mode_NE x y Hy).
  rewrite fexp_eq in C. change (round_mode mode_NE) with ZnearestE in C.
  rewrite Rlt_bool_true in C by (apply rnd64_small, Hb).
  destruct C as (C1 & C2 & _). split; [exact C1|]. unfold fdiv. rewrite C2. exact Hf.
Qed.

Lemma rnd64_err x : 1 / 2 <= x -> Rabs (rnd64 x - x) <= bpow radix2 (-53) * x.
Proof.
  intros H. assert (E := relative_error_N_FLT radix2 (-1074) 53 ltac:(reflexivity) (fun z => negb (Z.even z)) x).
  rewrite (Rabs_pos_eq x) in E by lra.
  replace (/ 2 * bpow radix2 (- (53) + 1)) with (bpow radix2 (-53)) in E.
  - apply E. apply Rle_trans with (bpow radix2 (-1)).
    + apply bpow_le. lia.
    + replace (bpow radix2 (-1)) with (/ 2) by (cbn; lra). lra.
  - change (- (53) + 1)%Z with (-53 + 1)%Z. rewrite bpow_plus. change (bpow radix2 1) with 2. lra.
Qed.

Lemma fint_val x : fint x = Ztrunc (B2R x).
Proof.
  apply eq_IZR. unfold fint. rewrite Btrunc_correct by reflexivity.
  unfold round, F2R, scaled_mantissa, cexp, FIX_exp; cbn [Fnum Fexp].
  rewrite !bpow_0 || idtac. cbn. rewrite !Rmult_1_r. reflexivity.
Qed.

(** exactness when the ratio is an integer *)
Lemma crop_side_divides m k : (1 <= m)%Z -> (1 <= k)%Z -> (m * k <= 2 ^ 53)%Z -> crop_side (m * k) m = m.
Proof.
  intros Hm Hk Hb.
  assert (Hk' : (k <= 2 ^ 53)%Z) by nia. assert (Hm' : (m <= 2 ^ 53)%Z) by nia.
  destruct (f_of_Z_val (m * k)) as [V1 F1]; [rewrite Z.abs_eq; nia|].
  destruct (f_of_Z_val m) as [V2 F2]; [lia|].
  assert (Hm0 : IZR m <> 0) by (apply IZR_neq; lia). assert (Hk0 : IZR k <> 0) by (apply IZR_neq; lia).
  assert (Q1 : B2R (f_of_Z (m * k)) / B2R (f_of_Z m) = IZR k)
    by (rewrite V1, V2, mult_IZR; field; exact Hm0).
  destruct (fdiv_val (f_of_Z (m * k)) (f_of_Z m)) as [D1 G1].
  - rewrite V2. exact Hm0.
  - rewrite Q1, <- abs_IZR. apply IZR_le. lia.
  - exact F1.
  - rewrite Q1 in D1. rewrite round_generic in D1; [|apply valid_rnd_N|apply small_int_format; lia].
    assert (Q2 : B2R (f_of_Z (m * k)) / B2R (fdiv (f_of_Z (m * k)) (f_of_Z m)) = IZR m)
      by (rewrite V1, D1, mult_IZR; field; exact Hk0).
    destruct (fdiv_val (f_of_Z (m * k)) (fdiv (f_of_Z (m * k)) (f_of_Z m))) as [D2 G2].
    + rewrite D1. exact Hk0.
    + rewrite Q2, <- abs_IZR. apply IZR_le. lia.
    + exact F1.
    + unfold crop_side. rewrite fint_val, D2, Q2.
      rewrite round_generic; [|apply valid_rnd_N|apply small_int_format; lia].
      apply Ztrunc_IZR.
Qed.

(** general case: m or m-1 *)
Lemma crop_side_cases n m :
  (1 <= m)%Z -> (m <= n)%Z -> (n <= 2 ^ 30)%Z -> crop_side n m = m \/ crop_side n m = (m - 1)%Z.
Proof.
  intros Hm Hmn Hn.
  destruct (f_of_Z_val n) as [V1 F1]; [lia|].
  destruct (f_of_Z_val m) as [V2 F2]; [lia|].
  assert (Hm1 : 1 <= IZR m) by (apply IZR_le; lia).
  assert (Hmn' : IZR m <= IZR n) by (apply IZR_le; lia).
  assert (Hn' : IZR n <= IZR (2 ^ 30)) by (apply IZR_le; lia).
  assert (B53 : IZR (2 ^ 53) = 9007199254740992) by (f_equal).
  assert (B30 : IZR (2 ^ 30) = 1073741824) by (f_equal).
  rewrite B30 in Hn'.
  set (x := IZR n / IZR m).
  assert (Hx1 : 1 <= x). { unfold x. apply Rmult_le_reg_r with (IZR m); [lra|]. unfold Rdiv. rewrite Rmult_assoc, Rinv_l by lra. lra. }
  assert (Hxm : x * IZR m = IZR n) by (unfold x; field; lra).
  assert (Hx2 : x <= 1073741824) by nra.
  destruct (fdiv_val (f_of_Z n) (f_of_Z m)) as [D1 G1].
  - rewrite V2; lra.
  - rewrite V1, V2. fold x. rewrite Rabs_pos_eq by lra. rewrite B53. lra.
  - exact F1.
  - rewrite V1, V2 in D1. fold x in D1.
    assert (E1 := rnd64_err x ltac:(lra)). rewrite <- D1 in E1.
    assert (Beps : bpow radix2 (-53) = / 9007199254740992).
    { cbn. lra. }
    rewrite Beps in E1. apply Rabs_le_inv in E1.
    set (q := B2R (fdiv (f_of_Z n) (f_of_Z m))) in *.
    assert (Hq1 : 1 <= q).
    { rewrite D1. apply round_ge_generic; [apply FLT_exp_valid; reflexivity|apply valid_rnd_N| |exact Hx1].
      apply (small_int_format 1). lia. }
    set (y := IZR n / q).
    assert (Hyq : y * q = IZR n) by (unfold y; field; lra).
    assert (Hy_lo : IZR m - 1 <= y).
    { apply Rmult_le_reg_r with q; [lra|]. rewrite Hyq. nra. }
    assert (Hy_hi : y <= IZR m * (1 + / 4503599627370496)).
    { apply Rmult_le_reg_r with q; [lra|]. rewrite Hyq.
      rewrite <- Hxm. nra. }
    assert (Hy0 : 0 <= y). { unfold y. apply Rmult_le_pos; [lra|]. left; apply Rinv_0_lt_compat; lra. }
    destruct (fdiv_val (f_of_Z n) (fdiv (f_of_Z n) (f_of_Z m))) as [D2 G2].
    + fold q. lra.
    + fold q. rewrite V1. fold y. rewrite Rabs_pos_eq by lra. rewrite B53. lra.
    + exact F1.
    + fold q in D2. rewrite V1 in D2. fold y in D2.
      set (r := B2R (fdiv (f_of_Z n) (fdiv (f_of_Z n) (f_of_Z m)))) in *.
      assert (Hr_lo : IZR m - 1 <= r).
      { rewrite D2. rewrite <- minus_IZR. apply round_ge_generic; [apply FLT_exp_valid; reflexivity|apply valid_rnd_N| |].
        - apply small_int_format. lia.
        - rewrite minus_IZR. lra. }
      assert (Hr_hi : r < IZR m + 1).
      { destruct (Rle_dec (1 / 2) y) as [Hy|Hy].
        - assert (E2 := rnd64_err y Hy). rewrite <- D2, Beps in E2. apply Rabs_le_inv in E2. nra.
        - apply Rle_lt_trans with 1; [|lra]. rewrite D2.
          apply round_le_generic; [apply FLT_exp_valid; reflexivity|apply valid_rnd_N| |lra].
          apply (small_int_format 1). lia. }
      unfold crop_side. rewrite fint_val. fold r.
      assert (Hr0 : 0 <= r) by (apply Rle_trans with (IZR m - 1); lra).
      rewrite Ztrunc_floor by exact Hr0.
      assert (T1 := Zfloor_lb r). assert (T2 := Zfloor_ub r).
      assert (T3 : (m - 1 <= Zfloor r)%Z) by (apply Zfloor_lub; rewrite minus_IZR; lra).
      assert (T4 : (Zfloor r < m + 1)%Z) by (apply lt_IZR; rewrite plus_IZR; lra).
      lia.
Qed.
