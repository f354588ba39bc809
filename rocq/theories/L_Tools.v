(** Lemmas on eqLayers. *)
From Coq Require Import Reals List Arith ZArith Lia Lra Psatz.
From Verif Require Import Base_Py M_Tools S_Tools.
Import ListNotations.
Open Scope R_scope.

Lemma lsum_total l : lsum l = total l.
Proof. unfold lsum. induction l; cbn; [reflexivity|]. rewrite IHl. reflexivity. Qed.
Lemma total_app a b : total (a ++ b) = total a + total b.
Proof. induction a; cbn; lra. Qed.
Lemma total_pos l : l <> [] -> (forall x, In x l -> 0 < x) -> 0 < total l.
Proof.
  destruct l as [|x l]; [congruence|]. intros _ H. cbn. assert (0 < x) by (apply H; left; reflexivity).
  assert (forall y, In y l -> 0 < y) by (intros; apply H; right; assumption). clear H.
  assert (0 <= total l) by (induction l as [|y l IH]; cbn; [lra|]; assert (0 < y) by (apply H1; left; reflexivity);
    assert (0 <= total l) by (apply IH; intros; apply H1; right; assumption); lra). lra.
Qed.
Lemma weight_app a b : weight (a ++ b) = weight a + weight b.
Proof. unfold weight. rewrite map_app, total_app. reflexivity. Qed.
Lemma moment_app p a b : moment p (a ++ b) = moment p a + moment p b.
Proof. unfold moment. rewrite map_app, total_app. reflexivity. Qed.

Lemma hpow_nonneg x p : 0 <= hpow x p.
Proof. unfold hpow. destruct (Req_EM_T x 0); [lra|]. left. apply exp_pos. Qed.
Lemma hpow_pos x p : 0 < x -> 0 < hpow x p.
Proof. intros. unfold hpow. destruct (Req_EM_T x 0); [lra|]. apply exp_pos. Qed.
Lemma hpow_inv x p : 0 <= x -> 0 < p -> hpow (hpow x p) (1 / p) = x.
Proof.
  intros Hx Hp. unfold hpow at 2. destruct (Req_EM_T x 0) as [->|Hn].
  - unfold hpow. destruct (Req_EM_T 0 0); [reflexivity|lra].
  - unfold hpow. destruct (Req_EM_T (Rpower x p) 0) as [E|E]; [assert (X := exp_pos (p * ln x)); unfold Rpower in E; lra|].
    rewrite Rpower_mult. replace (p * (1 / p)) with 1 by (field; lra). apply Rpower_1. lra.
Qed.
Lemma hpow_inv' x p : 0 <= x -> 0 < p -> hpow (hpow x (1 / p)) p = x.
Proof.
  intros Hx Hp. assert (0 < 1 / p) by (apply Rdiv_lt_0_compat; lra).
  rewrite <- (hpow_inv x (1 / p)) at 2 by assumption. f_equal. field. lra.
Qed.
Lemma hpow_le x y p : 0 <= x -> x <= y -> 0 < p -> hpow x p <= hpow y p.
Proof.
  intros Hx Hxy Hp. unfold hpow at 1. destruct (Req_EM_T x 0); [apply hpow_nonneg|].
  unfold hpow. destruct (Req_EM_T y 0); [lra|]. apply Rle_Rpower_l; lra.
Qed.
Lemma rpow_hpow x p : 0 <= x -> 0 < p -> rpow x p = Ok (hpow x p).
Proof.
  intros Hx Hp. unfold rpow, hpow. destruct (Rlt_dec x 0); [lra|]. destruct (Req_EM_T x 0); [|reflexivity].
  destruct (Rlt_dec 0 p); [reflexivity|lra].
Qed.
Lemma mapM_rpow l p : (forall h, In h l -> 0 <= h) -> 0 < p -> mapM (fun h => rpow h p) l = Ok (map (fun h => hpow h p) l).
Proof.
  intros H Hp. induction l as [|h l IH]; cbn; [reflexivity|]. rewrite rpow_hpow by (auto; apply H; left; reflexivity).
  cbn [bind]. rewrite IH by (intros; apply H; right; assumption). reflexivity.
Qed.

(** value of one slab *)
Definition seg_val (p : R) (s : list (R * R)) : R * R := (weight s, hpow (moment p s / weight s) (1 / p)).

Definition good (s : list (R * R)) : Prop := forall x, In x s -> 0 < fst x /\ 0 <= snd x.
Lemma good_weight s : good s -> s <> [] -> 0 < weight s.
Proof.
  intros H Hn. apply total_pos; [destruct s; [congruence|discriminate]|]. intros x Hx. apply in_map_iff in Hx.
  destruct Hx as (y & <- & Hy). apply H; exact Hy.
Qed.
Lemma moment_nonneg p s : good s -> 0 <= moment p s.
Proof.
  unfold moment. induction s as [|x s IH]; intros H; cbn; [lra|].
  assert (A : 0 < fst x) by (apply H; left; reflexivity). assert (B := hpow_nonneg (snd x) p).
  assert (C : 0 <= total (map (fun x : R * R => fst x * hpow (snd x) p) s)) by (apply IH; intros y Hy; apply H; right; exact Hy).
  nra.
Qed.
Lemma match_ne {A B} (l : list A) (a b : B) : l <> [] -> match l with [] => a | _ :: _ => b end = b.
Proof. destruct l; [congruence|reflexivity]. Qed.
Lemma slab_eq_val p s e c0 h0 s0 : 0 < p -> good s0 -> s0 <> [] ->
  pyslice c0 s e = map fst s0 -> pyslice h0 s e = map snd s0 -> slab_eq p c0 h0 s e = Ok (seg_val p s0).
Proof.
  intros Hp G Hn Hc Hh. unfold slab_eq. rewrite Hc, Hh.
  rewrite match_ne by (destruct s0; [congruence|discriminate]). cbv zeta.
  rewrite mapM_rpow; [|intros h Hx; apply in_map_iff in Hx; destruct Hx as (y & <- & Hy); apply G; exact Hy|exact Hp].
  cbn [bind]. unfold bmul. rewrite !map_length, Nat.eqb_refl. cbn [bind].
  assert (W := good_weight s0 G Hn). rewrite lsum_total. fold (weight s0). destruct (Req_EM_T (weight s0) 0); [lra|].
  replace (lsum (map (fun q => fst q * snd q) (combine (map (fun h => hpow h p) (map snd s0)) (map fst s0)))) with (moment p s0).
  2:{ rewrite lsum_total. unfold moment. f_equal. clear - s0. induction s0; cbn; [reflexivity|]. rewrite IHs0. f_equal. ring. }
  assert (M := moment_nonneg p s0 G).
  rewrite rpow_hpow; [reflexivity| |apply Rdiv_lt_0_compat; lra].
  apply Rmult_le_pos; [exact M|left; apply Rinv_0_lt_compat; exact W].
Qed.

(** bounds of the equivalent altitude *)
Lemma seg_extreme p s : s <> [] -> good s -> 0 < p ->
  (exists x, In x s /\ hpow (snd x) p * weight s <= moment p s) /\ (exists x, In x s /\ moment p s <= hpow (snd x) p * weight s).
Proof.
  intros Hn G Hp.
  assert (EX : (exists lo, In lo s /\ forall y, In y s -> snd lo <= snd y) /\ (exists hi, In hi s /\ forall y, In y s -> snd y <= snd hi)).
  { clear G. induction s as [|x s IH]; [congruence|]. destruct s as [|z s].
    - split; exists x; (split; [left; reflexivity|]); intros y [ ->|[]]; lra.
    - destruct IH as [(lo & Hl & Ml) (hi & Hh & Mh)]; [discriminate|]. split.
      + destruct (Rle_dec (snd x) (snd lo)).
        * exists x. split; [left; reflexivity|]. intros y [ <-|Hy]; [lra|]. specialize (Ml y Hy). lra.
        * exists lo. split; [right; exact Hl|]. intros y [ <-|Hy]; [lra|auto].
      + destruct (Rle_dec (snd hi) (snd x)).
        * exists x. split; [left; reflexivity|]. intros y [ <-|Hy]; [lra|]. specialize (Mh y Hy). lra.
        * exists hi. split; [right; exact Hh|]. intros y [ <-|Hy]; [lra|auto]. }
  destruct EX as [(lo & Hl & Ml) (hi & Hh & Mh)]. split.
  - exists lo. split; [exact Hl|]. assert (L0 : 0 <= snd lo) by (apply G; exact Hl).
    assert (forall t, (forall y, In y t -> In y s) -> hpow (snd lo) p * weight t <= moment p t).
    { unfold weight, moment. induction t as [|x t IH]; intros I; cbn; [lra|].
      assert (A := IH (fun y Hy => I y (or_intror Hy))). assert (Ix := I x (or_introl eq_refl)).
      assert (B : hpow (snd lo) p <= hpow (snd x) p) by (apply hpow_le; auto). assert (C := proj1 (G x Ix)). nra. }
    apply H; auto.
  - exists hi. split; [exact Hh|].
    assert (forall t, (forall y, In y t -> In y s) -> moment p t <= hpow (snd hi) p * weight t).
    { unfold weight, moment. induction t as [|x t IH]; intros I; cbn; [lra|].
      assert (A := IH (fun y Hy => I y (or_intror Hy))). assert (Ix := I x (or_introl eq_refl)).
      assert (B : hpow (snd x) p <= hpow (snd hi) p) by (apply hpow_le; auto; apply G; exact Ix). assert (C := proj1 (G x Ix)). nra. }
    apply H; auto.
Qed.
Lemma seg_val_spec p s : s <> [] -> good s -> 0 < p ->
  let a := snd (seg_val p s) in
  0 <= a /\ weight s * hpow a p = moment p s /\
  (exists x, In x s /\ snd x <= a) /\ (exists x, In x s /\ a <= snd x).
Proof.
  intros Hn G Hp a. assert (W := good_weight s G Hn). assert (M := moment_nonneg p s G).
  assert (Q : 0 <= moment p s / weight s) by (apply Rmult_le_pos; [exact M|left; apply Rinv_0_lt_compat; exact W]).
  assert (P' : 0 < 1 / p) by (apply Rdiv_lt_0_compat; lra).
  unfold a, seg_val; cbn [snd]. split; [apply hpow_nonneg|]. split.
  - rewrite hpow_inv' by assumption. field. lra.
  - destruct (seg_extreme p s Hn G Hp) as [(x & Ix & Lx) (y & Iy & Ly)]. split.
    + exists x. split; [exact Ix|]. assert (X0 : 0 <= snd x) by (apply G; exact Ix). rewrite <- (hpow_inv (snd x) p) by assumption.
      apply hpow_le; [apply hpow_nonneg| |exact P']. apply Rmult_le_reg_r with (weight s); [exact W|].
      unfold Rdiv. rewrite Rmult_assoc, Rinv_l by lra. lra.
    + exists y. split; [exact Iy|]. assert (Y0 : 0 <= snd y) by (apply G; exact Iy). rewrite <- (hpow_inv (snd y) p) by assumption.
      apply hpow_le; [exact Q| |exact P']. apply Rmult_le_reg_r with (weight s); [exact W|].
      unfold Rdiv. rewrite Rmult_assoc, Rinv_l by lra. lra.
Qed.

(** positions *)
Lemma fix_up_id q : forall m i, (1 <= q)%Z ->
  fix_up (Z.of_nat i * q) (map (fun i => (Z.of_nat i * q)%Z) (seq (S i) m)) = map (fun i => (Z.of_nat i * q)%Z) (seq (S i) m).
Proof.
  induction m as [|m IH]; intros i Hq; cbn [seq map fix_up]; [reflexivity|].
  destruct (Z.leb_spec (Z.of_nat (S i) * q) (Z.of_nat i * q)); [nia|]. f_equal. apply IH; exact Hq.
Qed.
Lemma pos_slab_val N M n : (1 <= n)%nat -> (n <= N)%nat ->
  pos_slab N M n = 0%Z :: map (fun i => Z.of_nat (i * (N / n))) (seq 1 (n - 1)) ++ [Z.of_nat M].
Proof.
  intros H1 H2. unfold pos_slab. destruct n as [|n]; [lia|]. replace (S n - 1)%nat with n by lia. cbn [seq map].
  change (Z.of_nat 0 * (Z.of_nat N / Z.of_nat (S n)))%Z with 0%Z.
  assert (Q : (Z.of_nat N / Z.of_nat (S n) = Z.of_nat (N / S n))%Z) by (rewrite (Nat2Z.inj_div N (S n)); reflexivity).
  assert (Q1 : (1 <= N / S n)%nat) by (apply Nat.div_le_lower_bound; lia).
  rewrite Q. pose proof (fix_up_id (Z.of_nat (N / S n)) n 0) as F. change (Z.of_nat 0 * _)%Z with 0%Z in F.
  rewrite F by lia. f_equal. f_equal. apply map_ext. intros i. lia.
Qed.
Lemma pyslice_nat {A} (l : list A) a b : (a <= b)%nat -> (b <= length l)%nat ->
  pyslice l (Z.of_nat a) (Z.of_nat b) = firstn (b - a) (skipn a l).
Proof.
  intros H1 H2. unfold pyslice. rewrite slice_len_in, slice_bound_in by lia. rewrite Nat2Z.id. f_equal. lia.
Qed.

Lemma combine_fst {A B} (a : list A) (b : list B) : length a = length b -> map fst (combine a b) = a.
Proof. revert b; induction a; intros [|y b] H; cbn in *; try discriminate; [reflexivity|]. rewrite IHa by lia. reflexivity. Qed.
Lemma combine_snd {A B} (a : list A) (b : list B) : length a = length b -> map snd (combine a b) = b.
Proof. revert b; induction a; intros [|y b] H; cbn in *; try discriminate; [reflexivity|]. rewrite IHa by lia. reflexivity. Qed.

Lemma skipn_twice {A} (l : list A) a b : skipn a (skipn b l) = skipn (b + a) l.
Proof. revert l; induction b; intros [|x l]; cbn; try reflexivity; [destruct a; reflexivity|apply IHb]. Qed.
Lemma slabs_val p c h q : 0 < p -> length c = length h -> good (combine c h) -> (1 <= q)%nat -> forall m i,
  ((i + m) * q < length c)%nat ->
  exists segs, slabs p c h (Z.of_nat (i * q)) (map (fun i => Z.of_nat (i * q)) (seq (S i) m) ++ [Z.of_nat (length c)]) = Ok (map (seg_val p) segs) /\
    length segs = S m /\ concat segs = skipn (i * q) (combine c h) /\ Forall (fun s => s <> [] /\ good s) segs /\
    (forall k, (k < m)%nat -> exists s, nth_error segs k = Some s /\ length s = q).
Proof.
  intros Hp HL G Hq.
  assert (LC : length (combine c h) = length c) by (rewrite combine_length; lia).
  assert (SL : forall a b, (a <= b)%nat -> (b <= length c)%nat ->
     let s := firstn (b - a) (skipn a (combine c h)) in
     pyslice c (Z.of_nat a) (Z.of_nat b) = map fst s /\ pyslice h (Z.of_nat a) (Z.of_nat b) = map snd s /\ good s /\ length s = (b - a)%nat).
  { intros a b H1 H2 s. unfold s. rewrite <- !firstn_map, <- !skipn_map, combine_fst, combine_snd by exact HL.
    rewrite !pyslice_nat by lia. split; [reflexivity|]. split; [reflexivity|]. split.
    - intros x Hx. apply G. rewrite <- (firstn_skipn a (combine c h)). apply in_or_app; right.
      rewrite <- (firstn_skipn (b - a) (skipn a (combine c h))). apply in_or_app; left. exact Hx.
    - rewrite firstn_length, skipn_length. lia. }
  induction m as [|m IH]; intros i Hi; cbn [seq map app slabs].
  - destruct (SL (i * q)%nat (length c)) as (S1 & S2 & S3 & S4); [nia|lia|]. cbv zeta in *.
    set (s := firstn _ _) in *. assert (s <> []) by (intros E; rewrite E in S4; cbn in S4; nia).
    rewrite (slab_eq_val p _ _ c h s Hp S3 H S1 S2). cbn [bind]. exists [s]. split; [reflexivity|]. split; [reflexivity|].
    split; [|split; [constructor; [split; assumption|constructor]|intros k Hk; lia]].
    cbn [concat]. rewrite app_nil_r. unfold s. apply firstn_all2. rewrite skipn_length. lia.
  - destruct (SL (i * q)%nat (S i * q)%nat) as (S1 & S2 & S3 & S4); [nia|nia|]. cbv zeta in *.
    set (s := firstn _ _) in *. assert (s <> []) by (intros E; rewrite E in S4; cbn in S4; nia).
    rewrite (slab_eq_val p _ _ c h s Hp S3 H S1 S2). cbn [bind].
    destruct (IH (S i)) as (segs & E & L & C & F & K); [nia|]. rewrite E. cbn [bind]. exists (s :: segs). split; [reflexivity|].
    split; [cbn; congruence|]. split; [|split; [constructor; [split; assumption|exact F]|]].
    + cbn [concat]. rewrite C. unfold s.
      replace (skipn (S i * q) (combine c h)) with (skipn (S i * q - i * q) (skipn (i * q) (combine c h))).
      * apply firstn_skipn.
      * rewrite skipn_twice. f_equal. nia.
    + intros [|k] Hk; [exists s; split; [reflexivity|nia]|]. destruct (K k) as (t & Ht & Lt); [lia|]. exists t. split; [exact Ht|exact Lt].
Qed.

Lemma eqLayers_val p c h n : 0 < p -> length c = length h -> good (combine c h) -> (1 <= n)%nat -> (n <= length c)%nat ->
  exists segs, eqLayers p c h n = Ok (map fst (map (seg_val p) segs), map snd (map (seg_val p) segs)) /\
    length segs = n /\ concat segs = combine c h /\ Forall (fun s => s <> [] /\ good s) segs /\
    (forall k, (k < n - 1)%nat -> exists s, nth_error segs k = Some s /\ length s = (length c / n)%nat).
Proof.
  intros Hp HL G H1 H2. unfold eqLayers. destruct (Nat.ltb_spec (length c) n); [lia|]. destruct n as [|n]; [lia|].
  rewrite pos_slab_val by lia. replace (S n - 1)%nat with n by lia.
  assert (Q1 : (1 <= length c / S n)%nat) by (apply Nat.div_le_lower_bound; lia).
  assert (Q2 := Nat.mul_div_le (length c) (S n) ltac:(lia)).
  rewrite <- HL.
  destruct (slabs_val p c h (length c / S n)%nat Hp HL G Q1 n 0) as (segs & E & L & C & F & K); [nia|].
  cbn [Nat.mul] in E. change (Z.of_nat 0) with 0%Z in E. rewrite E. cbn [bind].
  exists segs. split; [reflexivity|]. split; [exact L|]. split; [exact C|]. split; [exact F|]. exact K.
Qed.

Lemma concat_weight segs : total (map fst (map (seg_val 1) segs)) = weight (concat segs).
Proof. induction segs; cbn [map concat total]; [reflexivity|]. rewrite weight_app, IHsegs. reflexivity. Qed.
Lemma concat_weight' p segs : total (map fst (map (seg_val p) segs)) = weight (concat segs).
Proof. rewrite <- concat_weight. f_equal. rewrite !map_map. reflexivity. Qed.
Lemma concat_moment p segs : 0 < p -> Forall (fun s => s <> [] /\ good s) segs ->
  moment p (map (seg_val p) segs) = moment p (concat segs).
Proof.
  intros Hp. induction 1 as [|s segs [Hn G] F IH]; cbn [map concat]; [reflexivity|]. rewrite moment_app, <- IH.
  unfold moment at 1. cbn [map total]. fold (moment p (map (seg_val p) segs)). f_equal.
  destruct (seg_val_spec p s Hn G Hp) as (_ & E & _). exact E.
Qed.
Lemma combine_map_fst_snd {A B} (l : list (A * B)) : combine (map fst l) (map snd l) = l.
Proof. induction l as [|[a b] l IH]; cbn; congruence. Qed.

From Coq Require Import Sorting.Sorted.
Lemma SS_app {A} (R : A -> A -> Prop) a b : StronglySorted R (a ++ b) ->
  StronglySorted R b /\ forall x y, In x a -> In y b -> R x y.
Proof.
  induction a as [|z a IH]; cbn; intros H; [split; [exact H|tauto]|]. inversion H as [|? ? S F]; subst.
  destruct (IH S) as [I1 I2]. split; [exact I1|]. intros x y [ <-|Hx] Hy; [|auto].
  rewrite Forall_forall in F. apply F. apply in_or_app; right; exact Hy.
Qed.
Lemma segs_sorted p segs : 0 < p -> Forall (fun s => s <> [] /\ good s) segs ->
  StronglySorted Rle (map snd (concat segs)) -> StronglySorted Rle (map snd (map (seg_val p) segs)).
Proof.
  intros Hp F. induction F as [|s segs [Hn G] F IH]; intros S; cbn [map concat] in *; [constructor|].
  rewrite map_app in S. destruct (SS_app _ _ _ S) as [S1 S2]. constructor; [apply IH; exact S1|].
  rewrite Forall_forall. intros a Ha. apply in_map_iff in Ha. destruct Ha as (v & <- & Hv).
  apply in_map_iff in Hv. destruct Hv as (t & <- & Ht). rewrite Forall_forall in F. destruct (F t Ht) as [Hn' G'].
  destruct (seg_val_spec p s Hn G Hp) as (_ & _ & _ & (x & Ix & Lx)).
  destruct (seg_val_spec p t Hn' G' Hp) as (_ & _ & (y & Iy & Ly) & _).
  assert (snd x <= snd y); [|lra]. apply S2; [apply in_map; exact Ix|apply in_map].
  apply in_concat. exists t. split; assumption.
Qed.
Lemma segs_single p segs : 0 < p -> Forall (fun s => s <> [] /\ good s) segs -> length (concat segs) = length segs ->
  map (seg_val p) segs = concat segs.
Proof.
  intros Hp F. assert (GE : forall l : list (list (R * R)), Forall (fun s => s <> [] /\ good s) l -> (length l <= length (concat l))%nat).
  { induction 1 as [|s l [Hn _] _ IH]; cbn [concat length]; [lia|]. rewrite app_length. destruct s; [congruence|cbn; lia]. }
  induction F as [|s segs [Hn G] F IH]; cbn [map concat length]; intros L; [reflexivity|].
  rewrite app_length in L. assert (X := GE segs F). destruct s as [|[c h] [|y s]]; [congruence| |cbn [length] in L; lia].
  cbn [app length] in *. rewrite IH by lia. f_equal. unfold seg_val, weight, moment. cbn [map total fst snd].
  destruct (G (c, h) (or_introl eq_refl)) as [Gc Gh]. cbn [fst snd] in *.
  replace ((c * hpow h p + 0) / (c + 0)) with (hpow h p) by (field; lra). rewrite hpow_inv by assumption. f_equal. lra.
Qed.
