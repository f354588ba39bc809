(** C97: focal-angular anisoplanatism (laser guide star). *)
From Coq Require Import Reals List Arith ZArith Lia Lra Psatz Bool.
From Coq Require Import ZifyBool ZifyNat.
From Verif Require Import Base_Py Base_Sum M_Image M_Map S_Map L_Map P_Map.
Import ListNotations.
Open Scope R_scope.

Lemma Ialpha_even kv x y : Ialpha kv (- x) (- y) = Ialpha kv x y.
Proof. unfold Ialpha. f_equal. f_equal. ring. Qed.
Lemma Ialpha_0 kv : Ialpha kv 0 0 = 3 / 5.
Proof. unfold Ialpha, mcDonald. replace (0 * 0 + 0 * 0) with 0 by ring. rewrite sqrt_0. destruct (Req_EM_T 0 0); [reflexivity|lra]. Qed.

(** positions of the n samples of the pupil, and covariance of the turbulence, for a telescope
    of diameter D, sampling samp, outer scale L0 *)
Definition sample_pos (D samp : R) (n k : nat) : R := D / 2 * Rmax 1 samp / 2 / INR n * (INR k - INR (n / 2)).
Definition turb_cov (kv : R -> R) (L0 : R) (x y : R) : R := Ialpha kv (2 * PI / L0 * x) (2 * PI / L0 * y).

Lemma tmp_val kv n u L0 g z thx thy x1 x2 y1 y2 :
  (x1 < n)%nat -> (x2 < n)%nat -> (y1 < n)%nat -> (y2 < n)%nat ->
  focal_tmp kv n u (2 * PI / L0) g z thx thy (x2 * n + y1) (x1 * n + y2) =
  cone_sf (turb_cov kv L0) g (z * thx) (z * thy) (u x1) (u x2) (u y1) (u y2)
  + (turb_cov kv L0 (g * u x2 - z * thx) (g * u y2 - z * thy) - turb_cov kv L0 (g * u x2 + z * thx) (g * u y2 + z * thy)).
Proof.
  intros H1 H2 H3 H4. unfold focal_tmp, vs_rx, vs_ry, vs_X, vs_Y.
  destruct (div_block n x2 y1 H3) as [A1 A2]. destruct (div_block n x1 y2 H4) as [B1 B2]. rewrite A1, A2, B1, B2.
  unfold cone_sf, turb_cov. rewrite !Rmult_0_r, Ialpha_0.
  set (f := 2 * PI / L0).
  rewrite <- (Ialpha_even kv (f * (u x1 - u x2 - g * u x1 + z * thx)) _).
  rewrite <- (Ialpha_even kv (f * (g * (u x1 - u x2 - u x1) - z * thx)) _).
  replace (- (f * (u x1 - u x2 - g * u x1 + z * thx))) with (f * (u x2 - ((1 - g) * u x1 + z * thx))) by ring.
  replace (- (f * (u y1 - u y2 - g * u y1 + z * thy))) with (f * (u y2 - ((1 - g) * u y1 + z * thy))) by ring.
  replace (- (f * (g * (u x1 - u x2 - u x1) - z * thx))) with (f * (g * u x2 + z * thx)) by ring.
  replace (- (f * (g * (u y1 - u y2 - u y1) - z * thy))) with (f * (g * u y2 + z * thy)) by ring.
  replace (f * ((u x1 - u x2) * (1 - g))) with (f * ((1 - g) * u x1 + z * thx - ((1 - g) * u x2 + z * thx))) by ring.
  replace (f * ((u y1 - u y2) * (1 - g))) with (f * ((1 - g) * u y1 + z * thy - ((1 - g) * u y2 + z * thy))) by ring.
  replace (f * (g * u x1 - z * thx)) with (f * (u x1 - ((1 - g) * u x1 + z * thx))) by ring.
  replace (f * (g * u y1 - z * thy)) with (f * (u y1 - ((1 - g) * u y1 + z * thy))) by ring.
  replace (f * ((1 - g) * (u x1 - u x2) + g * u x1 - z * thx)) with (f * (u x1 - ((1 - g) * u x2 + z * thx))) by ring.
  replace (f * ((1 - g) * (u y1 - u y2) + g * u y1 - z * thy)) with (f * (u y1 - ((1 - g) * u y2 + z * thy))) by ring.
  replace (f * (g * u x2 - z * thx)) with (f * (u x2 - ((1 - g) * u x2 + z * thx))) by ring.
  replace (f * (g * u y2 - z * thy)) with (f * (u y2 - ((1 - g) * u y2 + z * thy))) by ring.
  ring.
Qed.

Definition cone_cte (L0 : R) : R := 12184 / 100000 * (6 / 100) * (2 * PI) ^ 2 * Rpower L0 (5 / 3).

(** One map per source and layer. Without filter and at the natural size 2n-1, n = 2 nActu + 1, the
    map of a layer of height z is zero on the ground; elsewhere its value is the mean, over the
    pairs of pupil points with that separation, of the cone structure function plus a spurious
    odd term which vanishes on axis. *)
Theorem C97_focal kv interp D L0 Hgs heights dist nActu samp :
  let n := (nActu * 2 + 1)%nat in
  exists maps, focal_angular_function kv interp D L0 Hgs heights dist nActu (2 * n - 1) samp None = Ok maps /\
    length maps = length dist /\
    forall s, (s < length dist)%nat -> length (nth s maps []) = length heights /\
    forall l, (l < length heights)%nat ->
      let o := nth l (nth s maps []) (mkImg 0 0 (fun _ _ => 0)) in
      let z := nth l heights 0 in let thx := fst (nth s dist (0, 0)) in let thy := snd (nth s dist (0, 0)) in
      let g := z / Hgs in let u := sample_pos D samp n in let C := turb_cov kv L0 in
      rows o = (2 * n - 1)%nat /\ cols o = (2 * n - 1)%nat /\
      (z = 0 -> forall i j, px o i j = 0) /\
      (z <> 0 -> forall i j, (i < 2 * n - 1)%nat -> (j < 2 * n - 1)%nat ->
         px o i j = cone_cte L0 * lag_mean n (lag n j) (lag n i) (fun x1 x2 y1 y2 =>
            cone_sf C g (z * thx) (z * thy) (u x1) (u x2) (u y1) (u y2)
            + (C (g * u x2 - z * thx) (g * u y2 - z * thy) - C (g * u x2 + z * thx) (g * u y2 + z * thy)))).
Proof.
  intros n.
  assert (Hn : (0 < n)%nat) by (unfold n; lia).
  assert (ONE : forall th zl, exists o,
     (if Req_EM_T zl 0 then Ok (mkImg (2 * n - 1) (2 * n - 1) (fun _ _ => cone_cte L0 * 0)) else
      do cmap <- matrix_to_map (n * n) (focal_tmp kv n (sample_pos D samp n) (2 * PI / L0) (zl / Hgs) zl (fst th) (snd th)) (Some (vs_rx n INR, vs_ry n INR));
      do o <- (if Nat.eqb (rows cmap) (2 * n - 1) then Ok cmap else interp cmap (2 * n - 1)%nat);
      Ok (img_map (fun v => cone_cte L0 * v) o)) = Ok o /\
     let g := zl / Hgs in let u := sample_pos D samp n in let C := turb_cov kv L0 in
      rows o = (2 * n - 1)%nat /\ cols o = (2 * n - 1)%nat /\
      (zl = 0 -> forall i j, px o i j = 0) /\
      (zl <> 0 -> forall i j, (i < 2 * n - 1)%nat -> (j < 2 * n - 1)%nat ->
         px o i j = cone_cte L0 * lag_mean n (lag n j) (lag n i) (fun x1 x2 y1 y2 =>
            cone_sf C g (zl * fst th) (zl * snd th) (u x1) (u x2) (u y1) (u y2)
            + (C (g * u x2 - zl * fst th) (g * u y2 - zl * snd th) - C (g * u x2 + zl * fst th) (g * u y2 + zl * snd th))))).
  { intros th zl. destruct (Req_EM_T zl 0) as [Z|Z].
    - eexists. split; [reflexivity|]. cbv zeta. cbn [rows cols px]. repeat split; intros; [ring|contradiction].
    - destruct (map_val n (focal_tmp kv n (sample_pos D samp n) (2 * PI / L0) (zl / Hgs) zl (fst th) (snd th)) (Some (vs_rx n INR, vs_ry n INR)) Hn ltac:(right; reflexivity)) as (o & Ho & Hr & Hc & Hv).
      rewrite Ho. cbn [bind]. rewrite Hr, Nat.eqb_refl. cbn [bind]. eexists. split; [reflexivity|].
      cbv zeta. cbn [img_map rows cols px]. split; [exact Hr|]. split; [exact Hc|]. split; [intros; contradiction|].
      intros _ i j Hi Hj. f_equal. rewrite Hv by assumption. apply lag_mean_ext. intros x y Hx Hy. apply tmp_val; lia. }
  set (F := fun th zl => (if Req_EM_T zl 0 then Ok (mkImg (2 * n - 1) (2 * n - 1) (fun _ _ => cone_cte L0 * 0)) else
      do cmap <- matrix_to_map (n * n) (focal_tmp kv n (sample_pos D samp n) (2 * PI / L0) (zl / Hgs) zl (fst th) (snd th)) (Some (vs_rx n INR, vs_ry n INR));
      do o <- (if Nat.eqb (rows cmap) (2 * n - 1) then Ok cmap else interp cmap (2 * n - 1)%nat);
      Ok (img_map (fun v => cone_cte L0 * v) o))).
  set (G := fun th zl => match F th zl with Ok o => o | Err _ => mkImg 0 0 (fun _ _ => 0) end).
  assert (FG : forall th zl, F th zl = Ok (G th zl)).
  { intros th zl. unfold G. destruct (ONE th zl) as (o & E & _). fold (F th zl) in E. rewrite E. reflexivity. }
  exists (map (fun th => map (fun zl => G th zl) heights) dist).
  split.
  { change (mapR (fun th => mapR (fun zl => F th zl) heights) dist = Ok (map (fun th => map (fun zl => G th zl) heights) dist)).
    apply mapR_ok. intros th _. apply mapR_ok. intros zl _. apply FG. }
  split; [apply map_length|].
  intros s Hs. rewrite (nth_indep _ [] (map (fun zl => G (0, 0) zl) heights)) by (rewrite map_length; exact Hs).
  rewrite (map_nth (fun th => map (fun zl => G th zl) heights)). split; [apply map_length|].
  intros l Hl. cbv zeta. rewrite (nth_indep _ (mkImg 0 0 (fun _ _ => 0)) (G (nth s dist (0,0)) 0)) by (rewrite map_length; exact Hl).
  rewrite map_nth. destruct (ONE (nth s dist (0,0)) (nth l heights 0)) as (o & E & P).
  fold (F (nth s dist (0,0)) (nth l heights 0)) in E. rewrite FG in E. apply Ok_inj in E. rewrite E. exact P.
Qed.

(** On axis the map is exactly the mean of the cone structure function. *)
Theorem C97_on_axis kv interp D L0 Hgs z nActu samp :
  z <> 0 -> let n := (nActu * 2 + 1)%nat in
  exists o, focal_angular_function kv interp D L0 Hgs [z] [(0, 0)] nActu (2 * n - 1) samp None = Ok [[o]] /\
    rows o = (2 * n - 1)%nat /\ cols o = (2 * n - 1)%nat /\
    forall i j, (i < 2 * n - 1)%nat -> (j < 2 * n - 1)%nat ->
      px o i j = cone_cte L0 * lag_mean n (lag n j) (lag n i) (fun x1 x2 y1 y2 =>
         cone_sf (turb_cov kv L0) (z / Hgs) 0 0 (sample_pos D samp n x1) (sample_pos D samp n x2) (sample_pos D samp n y1) (sample_pos D samp n y2)).
Proof.
  intros Hz n. destruct (C97_focal kv interp D L0 Hgs [z] [(0, 0)] nActu samp) as (maps & H & Hl & Hs). fold n in H, Hs.
  destruct maps as [|m [|? ?]]; try discriminate Hl. destruct (Hs 0%nat ltac:(cbn; lia)) as [Hm P]. cbn [nth] in Hm, P.
  destruct m as [|o [|? ?]]; try discriminate Hm. destruct (P 0%nat ltac:(cbn; lia)) as (P1 & P2 & _ & P3). cbn [nth fst snd] in P1, P2, P3.
  exists o. split; [exact H|]. split; [exact P1|]. split; [exact P2|]. intros i j Hi Hj. rewrite (P3 Hz i j Hi Hj). f_equal.
  apply lag_mean_ext. intros x y _ _. rewrite !Rmult_0_r, !Rminus_0_r, !Rplus_0_r. ring.
Qed.

Lemma pos_sym D samp m k : (k < 2 * m + 1)%nat -> sample_pos D samp (m * 2 + 1) (2 * m - k) = - sample_pos D samp (m * 2 + 1) k.
Proof.
  intros H. unfold sample_pos. replace ((m * 2 + 1) / 2)%nat with m by (rewrite Nat.add_comm, Nat.div_add by lia; reflexivity).
  rewrite minus_INR by lia. rewrite mult_INR. cbn [INR]. ring.
Qed.

(** The value at zero separation is zero for every direction. *)
Theorem C97_centre kv interp D L0 Hgs heights dist nActu samp maps s l :
  let n := (nActu * 2 + 1)%nat in
  focal_angular_function kv interp D L0 Hgs heights dist nActu (2 * n - 1) samp None = Ok maps ->
  (s < length dist)%nat -> (l < length heights)%nat ->
  px (nth l (nth s maps []) (mkImg 0 0 (fun _ _ => 0))) (n - 1) (n - 1) = 0.
Proof.
  intros n H Hs Hl. destruct (C97_focal kv interp D L0 Hgs heights dist nActu samp) as (maps' & H' & _ & P). fold n in H', P.
  rewrite H in H'. apply Ok_inj in H'. subst maps'. destruct (P s Hs) as [_ Q]. destruct (Q l Hl) as (_ & _ & Z0 & Z1). clear P Q.
  destruct (Req_EM_T (nth l heights 0) 0) as [Z|Z]; [apply Z0; exact Z|].
  rewrite (Z1 Z) by (unfold n; lia). clear Z0 Z1. cbv zeta.
  replace (lag n (n - 1)) with 0%nat by (unfold lag; lia).
  set (z := nth l heights 0). set (th := nth s dist (0, 0)). set (g := z / Hgs). set (C := turb_cov kv L0). set (u := sample_pos D samp n).
  enough (Q : lag_mean n 0 0 (fun x1 x2 y1 y2 => cone_sf C g (z * fst th) (z * snd th) (u x1) (u x2) (u y1) (u y2)
      + (C (g * u x2 - z * fst th) (g * u y2 - z * snd th) - C (g * u x2 + z * fst th) (g * u y2 + z * snd th))) = 0) by (rewrite Q; ring).
  assert (CE : forall x y, C (- x) (- y) = C x y).
  { intros x y. unfold C, turb_cov. rewrite <- (Ialpha_even kv (2 * PI / L0 * x)). f_equal; ring. }
  assert (US : forall k, (k < n)%nat -> u (n - 1 - k)%nat = - u k).
  { intros k Hk. unfold u, n in *. rewrite <- pos_sym by lia. f_equal. lia. }
  set (A := fun x y => C (g * u x - z * fst th) (g * u y - z * snd th)).
  set (B := fun x y => C (g * u x + z * fst th) (g * u y + z * snd th)).
  assert (AB : forall x y, (x < n)%nat -> (y < n)%nat -> A (n - 1 - x)%nat (n - 1 - y)%nat = B x y).
  { intros x y Hx Hy. unfold A, B. rewrite !US by assumption. rewrite <- CE. f_equal; ring. }
  rewrite (lag_mean_ext n 0 0 _ (fun x1 x2 y1 y2 => A x1 y1 - B x1 y1)).
  - unfold lag_mean. rewrite !Nat.sub_0_r.
    rewrite (rsum_ext n _ (fun x => rsum n (fun y => A x y) - rsum n (fun y => B x y))) by (intros; apply rsum_minus).
    rewrite rsum_minus.
    assert (E : rsum n (fun x => rsum n (fun y => A x y)) = rsum n (fun x => rsum n (fun y => B x y))).
    { rewrite rsum_rev. apply rsum_ext; intros x Hx. rewrite rsum_rev. apply rsum_ext; intros y Hy. apply AB; assumption. }
    rewrite E. unfold Rdiv. ring.
  - intros x y Hx Hy. cbv beta. rewrite !Nat.add_0_r.
    unfold cone_sf. fold (A x y) (B x y).
    replace (u x - u x) with 0 by ring. replace (u y - u y) with 0 by ring.
    replace ((1 - g) * u x + z * fst th - ((1 - g) * u x + z * fst th)) with 0 by ring.
    replace ((1 - g) * u y + z * snd th - ((1 - g) * u y + z * snd th)) with 0 by ring. ring.
Qed.

(** Finding: off axis the spurious term does not vanish. With a covariance that is quadratic near the
    origin, three samples per axis, g = 1/2 and a distance along x only, the map at a separation
    of one sample along x differs from the structure function. *)
Definition kvq (x : R) : R := 3 / 5 - x * x.
Lemma turb_cov_q L0 x y : turb_cov kvq L0 x y = 3 / 5 - (2 * PI / L0) * (2 * PI / L0) * (x * x + y * y).
Proof.
  unfold turb_cov, Ialpha, mcDonald, kvq. set (f := 2 * PI / L0).
  assert (N : 0 <= f * x * (f * x) + f * y * (f * y)) by (assert (0 <= (f*x)*(f*x)) by apply Rle_0_sqr; assert (0 <= (f*y)*(f*y)) by apply Rle_0_sqr; lra).
  destruct (Req_EM_T (sqrt _) 0) as [E|E].
  - apply sqrt_eq_0 in E; [|exact N]. lra.
  - rewrite sqrt_sqrt by exact N. lra.
Qed.
Theorem C97_off_axis_refuted : forall interp, exists o,
  focal_angular_function kvq interp 12 (2 * PI) 2 [1] [(1, 0)] 1 5 1 None = Ok [[o]] /\
  px o 2 1 <> cone_cte (2 * PI) * lag_mean 3 1 0 (fun x1 x2 y1 y2 =>
    cone_sf (turb_cov kvq (2 * PI)) (1 / 2) 1 0 (sample_pos 12 1 3 x1) (sample_pos 12 1 3 x2) (sample_pos 12 1 3 y1) (sample_pos 12 1 3 y2)).
Proof.
  intros interp. destruct (C97_focal kvq interp 12 (2 * PI) 2 [1] [(1, 0)] 1 1) as (maps & H & Hl & Hs). cbn [Nat.mul Nat.add Nat.sub] in H, Hs.
  destruct maps as [|m [|? ?]]; try discriminate Hl. destruct (Hs 0%nat ltac:(cbn; lia)) as [Hm P]. cbn [nth] in Hm, P.
  destruct m as [|o [|? ?]]; try discriminate Hm. destruct (P 0%nat ltac:(cbn; lia)) as (_ & _ & _ & P3). cbn [nth fst snd] in P3.
  exists o. split; [exact H|]. rewrite (P3 ltac:(lra) 2%nat 1%nat ltac:(lia) ltac:(lia)). clear P3.
  change (lag 3 1) with 1%nat. change (lag 3 2) with 0%nat.
  assert (K : 0 < cone_cte (2 * PI)).
  { assert (PP := PI_RGT_0). unfold cone_cte. apply Rmult_lt_0_compat; [|unfold Rpower; apply exp_pos].
    apply Rmult_lt_0_compat; [lra|]. apply pow_lt. lra. }
  intros E. apply Rmult_eq_reg_l in E; [|lra]. revert E.
  assert (PP := PI_RGT_0).
  assert (SP : forall k, sample_pos 12 1 3 k = INR k - 1).
  { intros k. unfold sample_pos. rewrite Rmax_left by lra. change (3 / 2)%nat with 1%nat. cbn [INR]. lra. }
  unfold lag_mean. cbn [rsum Nat.sub Nat.add]. unfold cone_sf. rewrite !SP, !turb_cov_q.
  replace (2 * PI / (2 * PI)) with 1 by (field; lra). cbn [INR]. lra.
Qed.

Print Assumptions C97_focal.
Print Assumptions C97_on_axis.
Print Assumptions C97_centre.
Print Assumptions C97_off_axis_refuted.
