(** Lemmas about M_Image. *)
From Coq Require Import Reals List Arith ZArith Lia Lra Psatz.
From Coq Require Import ZifyBool ZifyNat.
From Verif Require Import Base_Py Base_Sum M_Image.
Import ListNotations.
Open Scope R_scope.
Ltac Zify.zify_post_hook ::= Z.div_mod_to_equations.

(** ** binning *)
Lemma stride_len_eq (n k i : nat) :
  (0 < k)%nat -> (i < k)%nat -> stride_len n i (k * (n / k)) k = (n / k)%nat.
Proof.
  intros Hk Hi. unfold stride_len.
  assert (Hle : (k * (n / k) <= n)%nat) by (apply Nat.mul_div_le; lia).
  rewrite Nat.min_l by exact Hle.
  set (q := (n / k)%nat) in *. clearbody q.
  destruct q as [|q].
  - rewrite Nat.mul_0_r. apply Nat.div_small. lia.
  - symmetry. apply Nat.div_unique with (r := (k - 1 - i)%nat); nia.
Qed.

Lemma binning_inner (a : img) (k i m : nat) (out : img) :
  (0 < k)%nat -> (i < k)%nat -> (m <= k)%nat ->
  rows out = (rows a / k)%nat -> cols out = (cols a / k)%nat ->
  exists out',
    fold_left (fun acc j =>
      do o <- acc;
      img_iadd o (stride2 a i (k * (rows a / k)) j (k * (cols a / k)) k))
      (seq 0 m) (Ok out) = Ok out' /\
    rows out' = rows out /\ cols out' = cols out /\
    forall u v, px out' u v = px out u v + rsum m (fun j => px a (i + u * k) (j + v * k)).
Proof.
  intros Hk Hi Hm Hr Hc. induction m as [|m IH].
  - exists out. cbn. repeat split; intros; lra.
  - destruct IH as (o & Ho & Hro & Hco & Hpo); [lia|].
    rewrite seq_S, fold_left_app, Ho. cbn [fold_left bind].
    unfold img_iadd, stride2; cbn [rows cols px].
    rewrite (stride_len_eq (rows a) k i) by lia.
    replace (0 + m)%nat with m by lia.
    rewrite (stride_len_eq (cols a) k m) by lia.
    rewrite Hro, Hco, Hr, Hc, !Nat.eqb_refl. cbn [andb].
    eexists. split; [reflexivity|]. cbn [rows cols px].
    repeat split; try congruence.
    intros u v. rewrite Hpo. cbn [rsum]. lra.
Qed.

Lemma binning_outer (a : img) (k m : nat) (out : img) :
  (0 < k)%nat -> (m <= k)%nat ->
  rows out = (rows a / k)%nat -> cols out = (cols a / k)%nat ->
  exists out',
    fold_left (fun acc i =>
    fold_left (fun acc j =>
      do out <- acc; img_iadd out (stride2 a i (k * (rows a / k)) j (k * (cols a / k)) k))
      (seq 0 k) acc)
    (seq 0 m) (Ok out) = Ok out' /\
    rows out' = rows out /\ cols out' = cols out /\
    forall u v, px out' u v = px out u v +
       rsum m (fun i => rsum k (fun j => px a (i + u * k) (j + v * k))).
Proof.
  intros Hk Hm Hr Hc. induction m as [|m IH].
  - exists out. cbn. repeat split; intros; lra.
  - destruct IH as (o & Ho & Hro & Hco & Hpo); [lia|].
    rewrite seq_S, fold_left_app, Ho. cbn [fold_left].
    destruct (binning_inner a k (0 + m) k o) as (o' & Ho' & Hr' & Hc' & Hp'); try lia.
    exists o'. rewrite Ho'. repeat split; try congruence.
    intros u v. rewrite Hp', Hpo. cbn [rsum]. replace (0 + m)%nat with m by lia. lra.
Qed.

Lemma binning_ok (a : img) (k : nat) :
  (0 < k)%nat ->
  exists out, binning a k = Ok out /\
    rows out = (rows a / k)%nat /\ cols out = (cols a / k)%nat /\
    forall u v, px out u v =
      rsum k (fun i => rsum k (fun j => px a (u * k + i) (v * k + j))).
Proof.
  intros Hk. unfold binning.
  destruct (Nat.eqb_spec k 0) as [E|_]; [lia|].
  destruct (binning_outer a k k (mkImg (rows a / k) (cols a / k) (fun _ _ => 0)))
    as (o & Ho & Hr & Hc & Hp); try lia; try reflexivity.
  exists o. split; [exact Ho|]. split; [exact Hr|]. split; [exact Hc|].
  intros u v. rewrite Hp. cbn [px]. rewrite Rplus_0_l.
  apply rsum_ext; intros i Hi. apply rsum_ext; intros j Hj. f_equal; lia.
Qed.

Lemma binning_flux (a : img) (k : nat) out :
  (0 < k)%nat -> binning a k = Ok out ->
  img_sum out = rsum (rows a / k * k) (fun i => rsum (cols a / k * k) (fun j => px a i j)).
Proof.
  intros Hk Hb. destruct (binning_ok a k Hk) as (o & Ho & Hr & Hc & Hp).
  rewrite Hb in Ho. injection Ho as <-.
  unfold img_sum. rewrite Hr, Hc.
  rewrite rsum_blocks. apply rsum_ext; intros u Hu.
  rewrite (rsum_ext _ _ (fun v => rsum k (fun i => rsum k (fun j => px a (u * k + i) (v * k + j)))))
    by (intros; apply Hp).
  rewrite rsum_swap. apply rsum_ext; intros i Hi.
  rewrite rsum_blocks. reflexivity.
Qed.

(** ** crop and pad *)
Lemma enlarge_ok (a : img) (p q : Z) :
  (0 < q)%Z -> (q <= p)%Z ->
  exists r c : nat,
    Z.of_nat r = Z.quot ((p - q) * Z.of_nat (rows a)) (2 * q) /\
    Z.of_nat c = Z.quot ((p - q) * Z.of_nat (cols a)) (2 * q) /\
    enlargeSupport a p q =
     Ok (mkImg (rows a + 2 * r) (cols a + 2 * c)
     (fun i j => if ((r <=? i) && (i <? r + rows a) && (c <=? j) && (j <? c + cols a))%nat%bool
                 then px a (i - r) (j - c) else 0)).
Proof.
  intros Hq Hp.
  assert (Hr : (0 <= Z.quot ((p - q) * Z.of_nat (rows a)) (2 * q))%Z)
    by (apply Z.quot_pos; [nia|lia]).
  assert (Hc : (0 <= Z.quot ((p - q) * Z.of_nat (cols a)) (2 * q))%Z)
    by (apply Z.quot_pos; [nia|lia]).
  unfold enlargeSupport, pad2.
  destruct (Z.ltb_spec (Z.quot ((p - q) * Z.of_nat (rows a)) (2 * q)) 0) as [E|_]; [lia|].
  destruct (Z.ltb_spec (Z.quot ((p - q) * Z.of_nat (cols a)) (2 * q)) 0) as [E|_]; [lia|].
  cbn [orb].
  eexists _, _. split; [|split]; [| |reflexivity]; apply Z2Nat.id; assumption.
Qed.

Lemma pad_sum (a : img) (r c : nat) :
  img_sum (mkImg (rows a + 2 * r) (cols a + 2 * c)
     (fun i j => if ((r <=? i) && (i <? r + rows a) && (c <=? j) && (j <? c + cols a))%nat%bool
                 then px a (i - r) (j - c) else 0)) = img_sum a.
Proof.
  unfold img_sum; cbn [rows cols px].
  rewrite (rsum_window _ r (rows a)).
  - apply rsum_ext; intros i Hi.
    rewrite (rsum_window _ c (cols a)).
    + apply rsum_ext; intros j Hj.
      destruct (Nat.leb_spec r (r + i)); [|lia].
      destruct (Nat.ltb_spec (r + i) (r + rows a)); [|lia].
      destruct (Nat.leb_spec c (c + j)); [|lia].
      destruct (Nat.ltb_spec (c + j) (c + cols a)); [|lia].
      cbn [andb]. f_equal; lia.
    + lia.
    + intros j Hj Hout.
      destruct (Nat.leb_spec c j), (Nat.ltb_spec j (c + cols a)); try lia;
        rewrite ?andb_false_r; reflexivity.
  - lia.
  - intros i Hi Hout. apply rsum_zero; intros j Hj.
    destruct (Nat.leb_spec r i), (Nat.ltb_spec i (r + rows a)); try lia; reflexivity.
Qed.

Lemma enlarge_sum (a o : img) (p q : Z) :
  (0 < q)%Z -> enlargeSupport a p q = Ok o -> img_sum o = img_sum a.
Proof.
  intros Hq H. unfold enlargeSupport, pad2 in H.
  destruct (_ || _)%bool in H; [discriminate|].
  apply Ok_inj in H. subst o. apply pad_sum.
Qed.

(** Integer factor n: crop index after enlarging *)
Lemma crop_enlarge_rows (s n : Z) :
  (0 <= s)%Z -> (1 <= n)%Z ->
  let r := Z.quot ((n - 1) * s) (2 * 1) in
  let N := (s + 2 * r)%Z in
  let s2 := Z.quot (N * 1) n in
  let xi := Z.quot (N - s2) 2 in
  (Z.even ((n - 1) * s) = true -> s2 = s /\ xi = r) /\
  (Z.even ((n - 1) * s) = false -> s2 = s - 1)%Z.
Proof.
  intros Hs Hn r N s2 xi.
  assert (Hr : r = ((n - 1) * s / 2)%Z).
  { unfold r. rewrite Z.mul_1_r. rewrite Z.quot_div_nonneg by nia. reflexivity. }
  assert (Hms := Zmod_even ((n-1)*s)).
  assert (Hdiv := Z.div_mod ((n-1)*s) 2 ltac:(lia)).
  split; intros E; rewrite E in Hms.
  - assert (HN : N = (n * s)%Z) by (unfold N; rewrite Hr; lia).
    assert (H2 : s2 = s).
    { unfold s2. rewrite HN, Z.mul_1_r, Z.mul_comm. apply Z.quot_mul. lia. }
    split; [exact H2|]. unfold xi. rewrite HN, H2.
    rewrite Z.quot_div_nonneg by nia.
    rewrite Hr. f_equal. lia.
  - assert (HN : N = (n * s - 1)%Z) by (unfold N; rewrite Hr; lia).
    unfold s2. rewrite HN, Z.mul_1_r.
    assert (1 < n)%Z by (destruct (Z.eq_dec n 1); [subst n; cbn in E; discriminate|lia]).
    assert (1 <= s)%Z by (destruct (Z.eq_dec s 0); [subst s; rewrite Z.mul_0_r in E; cbn in E; discriminate|lia]).
    rewrite Z.quot_div_nonneg by nia.
    symmetry. apply Z.div_unique with (r := (n - 1)%Z); [lia|lia].
Qed.

Lemma crop_enlarge_id (a o : img) (n : Z) :
  (1 <= n)%Z -> enlargeSupport a n 1 = Ok o ->
  Z.even ((n - 1) * Z.of_nat (rows a)) = true ->
  Z.even ((n - 1) * Z.of_nat (cols a)) = true ->
  img_eq (cropSupport o n 1) a.
Proof.
  intros Hn H Er Ec.
  destruct (enlarge_ok a n 1) as (r & c & Hr & Hc & Hen); [lia|lia|].
  rewrite Hen in H. apply Ok_inj in H. subst o.
  destruct (crop_enlarge_rows (Z.of_nat (rows a)) n) as [Hrow _]; [lia|lia|].
  destruct (crop_enlarge_rows (Z.of_nat (cols a)) n) as [Hcol _]; [lia|lia|].
  specialize (Hrow Er). specialize (Hcol Ec). rewrite <- Hr in Hrow. rewrite <- Hc in Hcol.
  destruct Hrow as [R1 R2]. destruct Hcol as [C1 C2].
  unfold cropSupport, cropSupport2, slice2; cbn [rows cols px].
  replace (Z.of_nat (rows a + 2 * r)) with (Z.of_nat (rows a) + 2 * Z.of_nat r)%Z by lia.
  replace (Z.of_nat (cols a + 2 * c)) with (Z.of_nat (cols a) + 2 * Z.of_nat c)%Z by lia.
  rewrite R1, C1. rewrite R1 in R2; rewrite C1 in C2. rewrite R2, C2.
  assert (L1 : slice_len (Z.of_nat (rows a) + 2 * Z.of_nat r) (Z.of_nat r) (Z.of_nat r + Z.of_nat (rows a)) = Z.of_nat (rows a))
    by (rewrite slice_len_in by lia; lia).
  assert (L2 : slice_len (Z.of_nat (cols a) + 2 * Z.of_nat c) (Z.of_nat c) (Z.of_nat c + Z.of_nat (cols a)) = Z.of_nat (cols a))
    by (rewrite slice_len_in by lia; lia).
  rewrite L1, L2, !Nat2Z.id. clear R1 R2 C1 C2 Er Ec Hr Hc L1 L2.
  rewrite (slice_bound_in _ (Z.of_nat r)) by lia.
  rewrite (slice_bound_in _ (Z.of_nat c)) by lia. rewrite !Nat2Z.id.
  unfold img_eq; cbn [rows cols px]. repeat split.
  intros i j Hi Hj.
  destruct (Nat.leb_spec r (r + i)); [|lia].
  destruct (Nat.ltb_spec (r + i) (r + rows a)); [|lia].
  destruct (Nat.leb_spec c (c + j)); [|lia].
  destruct (Nat.ltb_spec (c + j) (c + cols a)); [|lia].
  cbn [andb]. f_equal; lia.
Qed.

Lemma crop_enlarge_short (a o : img) (n : Z) :
  (1 <= n)%Z -> enlargeSupport a n 1 = Ok o ->
  Z.even ((n - 1) * Z.of_nat (rows a)) = false ->
  Z.of_nat (rows (cropSupport o n 1)) = (Z.of_nat (rows a) - 1)%Z.
Proof.
  intros Hn H Er.
  destruct (enlarge_ok a n 1) as (r & c & Hr & Hc & Hen); [lia|lia|].
  rewrite Hen in H. apply Ok_inj in H. subst o.
  destruct (crop_enlarge_rows (Z.of_nat (rows a)) n) as [_ Hrow]; [lia|lia|].
  specialize (Hrow Er). rewrite <- Hr in Hrow.
  unfold cropSupport, cropSupport2, slice2; cbn [rows cols px].
  replace (Z.of_nat (rows a + 2 * r)) with (Z.of_nat (rows a) + 2 * Z.of_nat r)%Z by lia.
  rewrite Hrow.
  assert (1 <= Z.of_nat (rows a))%Z.
  { destruct (rows a); [rewrite Z.mul_0_r in Er; cbn in Er; discriminate|lia]. }
  rewrite slice_len_in.
  - lia.
  - apply Z.quot_pos; lia.
  - lia.
  - rewrite Z.quot_div_nonneg by lia.
    assert (Z.of_nat (rows a) + 2 * Z.of_nat r - (Z.of_nat (rows a) - 1) = 1 + Z.of_nat r * 2)%Z as -> by lia.
    rewrite Z.div_add by lia. change (1 / 2)%Z with 0%Z. lia.
Qed.
