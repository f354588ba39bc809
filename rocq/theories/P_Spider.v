(** C99: the spider mask. *)
From Coq Require Import Reals List Arith ZArith Lia Lra Psatz Bool.
From Coq Require Import ZifyBool ZifyNat.
From Verif Require Import Base_Py Base_Sum M_Image M_Pupil M_Tel M_Spider L_Fit.
Import ListNotations.
Open Scope R_scope.

(** What a point-in-polygon test must do on convex polygons given counter-clockwise: accept the points strictly on the
    left of every side, refuse those strictly on the right of one side (the boundary is left open). *)
Definition cross (x0 y0 x1 y1 x y : R) : R := (x1 - x0) * (y - y0) - (y1 - y0) * (x - x0).
Definition quad_sides (p0 p1 p2 p3 : R * R) (x y : R) : list R :=
  [cross (fst p0) (snd p0) (fst p1) (snd p1) x y; cross (fst p1) (snd p1) (fst p2) (snd p2) x y;
   cross (fst p2) (snd p2) (fst p3) (snd p3) x y; cross (fst p3) (snd p3) (fst p0) (snd p0) x y].
Definition convex_ccw (p0 p1 p2 p3 : R * R) : Prop :=
  Forall (fun v => 0 <= v) (quad_sides p0 p1 p2 p3 (fst p0) (snd p0)) /\ Forall (fun v => 0 <= v) (quad_sides p0 p1 p2 p3 (fst p1) (snd p1)) /\
  Forall (fun v => 0 <= v) (quad_sides p0 p1 p2 p3 (fst p2) (snd p2)) /\ Forall (fun v => 0 <= v) (quad_sides p0 p1 p2 p3 (fst p3) (snd p3)).
Definition polygon_test (poly : polytest) : Prop := forall p0 p1 p2 p3 x y, convex_ccw p0 p1 p2 p3 ->
  let xs := [fst p0; fst p1; fst p2; fst p3] in let ys := [snd p0; snd p1; snd p2; snd p3] in
  (Forall (fun v => 0 < v) (quad_sides p0 p1 p2 p3 x y) -> poly xs ys x y = true) /\
  (Exists (fun v => v < 0) (quad_sides p0 p1 p2 p3 x y) -> poly xs ys x y = false).
(** such a test exists *)
Definition ref_test : polytest := fun xs ys x y =>
  match xs, ys with
  | [x0; x1; x2; x3], [y0; y1; y2; y3] => forallb (fun v => if Rlt_dec 0 v then true else false) (quad_sides (x0, y0) (x1, y1) (x2, y2) (x3, y3) x y)
  | _, _ => false
  end.
Lemma ref_test_ok : polygon_test ref_test.
Proof.
  intros p0 p1 p2 p3 x y _. cbv zeta. split; intros H; unfold ref_test; rewrite <- !surjective_pairing.
  - apply forallb_forall. intros v Hv. rewrite Forall_forall in H. specialize (H v Hv). destruct (Rlt_dec 0 v); [reflexivity|lra].
  - apply Exists_exists in H. destruct H as [v [Hv Hn]]. destruct (forallb _ _) eqn:E; [|reflexivity]. rewrite forallb_forall in E. specialize (E v Hv). destruct (Rlt_dec 0 v); [lra|discriminate].
Qed.

(** Coordinates along and across a spider of direction a that starts at (cx, cy). *)
Definition along (a cx cy x y : R) : R := (x - cx) * cos a + (y - cy) * sin a.
Definition across (a cx cy x y : R) : R := (y - cy) * cos a - (x - cx) * sin a.

Lemma sc2 a : cos a * cos a = 1 - sin a * sin a.
Proof. pose proof (sin2_cos2 a) as H. unfold Rsqr in H. lra. Qed.

(** the corners of a rectangle with sides along and across *)
Definition corner_at (a cx cy u v : R) : R * R := (cx + u * cos a - v * sin a, cy + u * sin a + v * cos a).
Lemma corner_along a cx cy u v : along a cx cy (fst (corner_at a cx cy u v)) (snd (corner_at a cx cy u v)) = u.
Proof. unfold along, corner_at; cbn [fst snd]. transitivity (u * (cos a * cos a + sin a * sin a)); [ring|rewrite sc2; ring]. Qed.
Lemma corner_across a cx cy u v : across a cx cy (fst (corner_at a cx cy u v)) (snd (corner_at a cx cy u v)) = v.
Proof. unfold across, corner_at; cbn [fst snd]. transitivity (v * (cos a * cos a + sin a * sin a)); [ring|rewrite sc2; ring]. Qed.
Lemma cross_corner a cx cy u0 v0 u1 v1 x y :
  cross (fst (corner_at a cx cy u0 v0)) (snd (corner_at a cx cy u0 v0)) (fst (corner_at a cx cy u1 v1)) (snd (corner_at a cx cy u1 v1)) x y =
  (u1 - u0) * (across a cx cy x y - v0) - (v1 - v0) * (along a cx cy x y - u0).
Proof.
  unfold cross, across, along, corner_at; cbn [fst snd].
  transitivity (((u1 - u0) * cos a - (v1 - v0) * sin a) * (y - cy) - ((u1 - u0) * sin a + (v1 - v0) * cos a) * (x - cx)
     - ((u1 - u0) * v0 - (v1 - v0) * u0) * (cos a * cos a + sin a * sin a)); [ring|]. rewrite sc2. ring.
Qed.
Lemma rect_test poly a cx cy u0 u1 w x y : polygon_test poly -> u0 < u1 -> 0 < w ->
  let p0 := corner_at a cx cy u1 (- w) in let p1 := corner_at a cx cy u1 w in
  let p2 := corner_at a cx cy u0 w in let p3 := corner_at a cx cy u0 (- w) in
  let r := poly [fst p0; fst p1; fst p2; fst p3] [snd p0; snd p1; snd p2; snd p3] x y in
  (u0 < along a cx cy x y < u1 -> - w < across a cx cy x y < w -> r = true) /\
  (along a cx cy x y < u0 \/ u1 < along a cx cy x y \/ across a cx cy x y < - w \/ w < across a cx cy x y -> r = false).
Proof.
  intros HP Hu Hw p0 p1 p2 p3 r.
  assert (SQ : forall x y, quad_sides p0 p1 p2 p3 x y =
     [2 * w * (u1 - along a cx cy x y); (u1 - u0) * (w - across a cx cy x y); 2 * w * (along a cx cy x y - u0); (u1 - u0) * (across a cx cy x y + w)]).
  { intros x' y'. unfold quad_sides, p0, p1, p2, p3. rewrite !cross_corner. f_equal; [ring|]. f_equal; [ring|]. f_equal; [ring|]. f_equal. ring. }
  assert (HC : convex_ccw p0 p1 p2 p3).
  { unfold convex_ccw. rewrite !SQ. unfold p0, p1, p2, p3. rewrite !corner_along, !corner_across.
    assert (0 <= 2 * w * (u1 - u0)) by (apply Rmult_le_pos; lra). assert (0 <= (u1 - u0) * (w + w)) by (apply Rmult_le_pos; lra).
    split; [|split; [|split]]; repeat apply Forall_cons; try apply Forall_nil; lra. }
  destruct (HP p0 p1 p2 p3 x y HC) as [T F]. fold r in T, F. rewrite SQ in T, F. split.
  - intros H1 H2. apply T. repeat apply Forall_cons; try apply Forall_nil; repeat apply Rmult_lt_0_compat; lra.
  - intros H. apply F.
    assert (N : forall k t, 0 < k -> t < 0 -> k * t < 0) by (intros k t Hk Ht; assert (0 < k * (- t)) by (apply Rmult_lt_0_compat; lra); lra).
    destruct H as [H|[H|[H|H]]].
    + apply Exists_cons_tl, Exists_cons_tl, Exists_cons_hd. apply N; lra.
    + apply Exists_cons_hd. apply N; lra.
    + apply Exists_cons_tl, Exists_cons_tl, Exists_cons_tl, Exists_cons_hd. apply N; lra.
    + apply Exists_cons_tl, Exists_cons_hd. apply N; lra.
Qed.
Lemma one_spider_val poly n (sym : bool) phi a (c : R * R) i j : polygon_test poly -> 0 < phi < PI / 2 ->
  let x := lspace (-1) 1 n j in let y := lspace (-1) 1 n i in
  let off := if sym then 0 else 2 in
  let al := along a (fst c) (snd c) x y in let ac := across a (fst c) (snd c) x y in
  (- 2 * cos phi - off < al < 2 * cos phi - off -> - (2 * sin phi) < ac < 2 * sin phi -> one_spider poly n sym phi a c i j = 0) /\
  (al < - 2 * cos phi - off \/ 2 * cos phi - off < al \/ ac < - (2 * sin phi) \/ 2 * sin phi < ac -> one_spider poly n sym phi a c i j = 1).
Proof.
  intros HP Hphi x y off al ac. destruct c as [cx cy]; cbn [fst snd] in *.
  assert (Hc : 0 < cos phi) by (apply cos_gt_0; lra). assert (Hs : 0 < sin phi) by (apply sin_gt_0; pose proof PI_RGT_0; lra).
  destruct (rect_test poly a cx cy (- 2 * cos phi - off) (2 * cos phi - off) (2 * sin phi) x y HP) as [T F]; [lra|lra|].
  assert (EX : sp_verts cos sym cx phi a = [fst (corner_at a cx cy (2 * cos phi - off) (- (2 * sin phi))); fst (corner_at a cx cy (2 * cos phi - off) (2 * sin phi));
      fst (corner_at a cx cy (- 2 * cos phi - off) (2 * sin phi)); fst (corner_at a cx cy (- 2 * cos phi - off) (- (2 * sin phi)))]).
  { unfold sp_verts, sp_theta, corner_at; cbn [map fst].
    replace (- phi + PI + a) with (- phi + a + PI) by ring. replace (phi + PI + a) with (phi + a + PI) by ring. rewrite !neg_cos, !cos_plus, cos_neg, sin_neg.
    unfold off; destruct sym; f_equal; try ring; f_equal; try ring; f_equal; try ring; f_equal; ring. }
  assert (EY : sp_verts sin sym cy phi a = [snd (corner_at a cx cy (2 * cos phi - off) (- (2 * sin phi))); snd (corner_at a cx cy (2 * cos phi - off) (2 * sin phi));
      snd (corner_at a cx cy (- 2 * cos phi - off) (2 * sin phi)); snd (corner_at a cx cy (- 2 * cos phi - off) (- (2 * sin phi)))]).
  { unfold sp_verts, sp_theta, corner_at; cbn [map snd].
    replace (- phi + PI + a) with (- phi + a + PI) by ring. replace (phi + PI + a) with (phi + a + PI) by ring. rewrite !neg_sin, !sin_plus, cos_neg, sin_neg.
    unfold off; destruct sym; f_equal; try ring; f_equal; try ring; f_equal; try ring; f_equal; ring. }
  unfold one_spider; cbn [fst snd]. fold x y. rewrite EX, EY. split.
  - intros H1 H2. rewrite T by assumption. reflexivity.
  - intros H. rewrite F by assumption. reflexivity.
Qed.

(** shape of the mask built for n pixels *)
Lemma fold_mul (f : nat -> R) l : forall acc, fold_left (fun x k => x * f k) l acc = acc * fold_left (fun x k => x * f k) l 1.
Proof. induction l as [|k l IH]; intros acc; cbn [fold_left]; [ring|]. rewrite IH, (IH (1 * f k)). ring. Qed.
Lemma fold_zero (f : nat -> R) l k : In k l -> f k = 0 -> fold_left (fun x k => x * f k) l 1 = 0.
Proof.
  induction l as [|k' l IH]; intros Hin H0; [destruct Hin|]. cbn [fold_left]. rewrite fold_mul. destruct Hin as [ ->|Hin]; [rewrite H0; ring|]. rewrite IH by assumption. ring.
Qed.
Lemma fold_one (f : nat -> R) l : (forall k, In k l -> f k = 1) -> fold_left (fun x k => x * f k) l 1 = 1.
Proof.
  induction l as [|k' l IH]; intros H; [reflexivity|]. cbn [fold_left]. rewrite fold_mul, (H k') by (left; reflexivity). rewrite IH by (intros; apply H; right; assumption). ring.
Qed.

(** ** Specification, in metres. Pixel (i, j) of an n x n mask over a telescope of diameter D is at [point D n j] to the right
    and [point D n i] up. A spider of width w, direction a and origin c covers the band of half-width [half_width] around its
    axis; [shrink] <= 1 is the (second order) difference between the width asked for and the width obtained. *)
Definition point (D : R) (n i : nat) : R := D * (INR i / INR (n - 1) - / 2).
Definition shrink (D w : R) : R := / sqrt (1 + (w / (2 * D)) ^ 2).
Definition half_width (D w : R) : R := w / 2 * shrink D w.
Definition reach (sym : bool) (D w : R) : R * R :=
  if sym then (- D * shrink D w, D * shrink D w) else (- D * shrink D w - D, D * shrink D w - D).
Definition covered (sym : bool) (D w a : R) (c : R * R) (x y : R) : Prop :=
  Rabs (across a (fst c) (snd c) x y) < half_width D w /\
  fst (reach sym D w) < along a (fst c) (snd c) x y < snd (reach sym D w).
Definition clear (sym : bool) (D w a : R) (c : R * R) (x y : R) : Prop :=
  half_width D w < Rabs (across a (fst c) (snd c) x y) \/
  along a (fst c) (snd c) x y < fst (reach sym D w) \/ snd (reach sym D w) < along a (fst c) (snd c) x y.
Definition in_pupil (D cobs : R) (x y : R) : Prop := cobs * (D / 2) <= sqrt (x ^ 2 + y ^ 2) <= D / 2.

Lemma lspace_point D n i : 0 < D -> (2 <= n)%nat -> lspace (-1) 1 n i = 2 / D * point D n i.
Proof.
  intros HD Hn. unfold lspace, point. destruct (Nat.eqb_spec n 1); [lia|]. assert (0 < INR (n - 1)) by (apply lt_0_INR; lia). field. lra.
Qed.
Lemma along_scale k a cx cy x y : along a (k * cx) (k * cy) (k * x) (k * y) = k * along a cx cy x y.
Proof. unfold along. ring. Qed.
Lemma across_scale k a cx cy x y : across a (k * cx) (k * cy) (k * x) (k * y) = k * across a cx cy x y.
Proof. unfold across. ring. Qed.
Lemma cos_phi D w : cos (atan (w / (2 * D))) = shrink D w.
Proof. rewrite cos_atan. unfold shrink. rewrite <- Rsqr_pow2. apply Rmult_1_l. Qed.
Lemma sin_phi D w : D <> 0 -> D * sin (atan (w / (2 * D))) = half_width D w.
Proof. intros HD. rewrite sin_atan. unfold half_width, shrink. rewrite <- Rsqr_pow2. field. split; [|assumption].
  apply Rgt_not_eq. apply sqrt_lt_R0. assert (0 <= Rsqr (w / (2 * D))) by apply Rle_0_sqr. lra. Qed.
Lemma shrink_pos D w : 0 < shrink D w <= 1.
Proof.
  unfold shrink. assert (0 <= (w / (2 * D)) ^ 2) by apply pow2_ge_0. assert (1 <= sqrt (1 + (w / (2 * D)) ^ 2)).
  { rewrite <- sqrt_1 at 1. apply sqrt_le_1; lra. }
  split; [apply Rinv_0_lt_compat; lra|]. apply Rle_trans with (/ 1); [apply Rinv_le_contravar; lra|rewrite Rinv_1; lra].
Qed.

Lemma spider_metres poly n (sym : bool) D w a (c : R * R) i j : polygon_test poly -> 0 < D -> 0 < w -> (2 <= n)%nat ->
  let ratio := D / INR n in
  let v := one_spider poly n sym (atan (w / ratio / (2 * INR n))) a (fst c * 2 / INR n / ratio, snd c * 2 / INR n / ratio) i j in
  (covered sym D w a c (point D n j) (point D n i) -> v = 0) /\ (clear sym D w a c (point D n j) (point D n i) -> v = 1).
Proof.
  intros HP HD Hw Hn ratio v. assert (HN : 0 < INR n) by (apply lt_0_INR; lia).
  assert (Ephi : w / ratio / (2 * INR n) = w / (2 * D)) by (unfold ratio; field; lra).
  assert (EC : forall z, z * 2 / INR n / ratio = 2 / D * z) by (intros z; unfold ratio; field; lra).
  unfold v. rewrite Ephi, !EC. set (phi := atan (w / (2 * D))).
  assert (Hphi : 0 < phi < PI / 2).
  { unfold phi. split; [|apply atan_bound]. rewrite <- atan_0. apply atan_increasing. apply Rdiv_lt_0_compat; lra. }
  destruct (one_spider_val poly n sym phi a (2 / D * fst c, 2 / D * snd c) i j HP Hphi) as [T F]. cbn [fst snd] in T, F.
  rewrite !(lspace_point D n) in T, F by assumption. rewrite !along_scale, !across_scale in T, F.
  set (al := along a (fst c) (snd c) (point D n j) (point D n i)) in *. set (ac := across a (fst c) (snd c) (point D n j) (point D n i)) in *.
  assert (HC : D * cos phi = D * shrink D w) by (unfold phi; rewrite cos_phi; reflexivity).
  assert (HS : D * sin phi = half_width D w) by (unfold phi; apply sin_phi; lra).
  set (k := 2 / D) in *. assert (Hk : 0 < k) by (unfold k; apply Rdiv_lt_0_compat; lra). assert (kD : k * D = 2) by (unfold k; field; lra).
  assert (K1 : 2 * cos phi = k * (D * cos phi)) by (rewrite <- Rmult_assoc, kD; ring).
  assert (K2 : 2 * sin phi = k * (D * sin phi)) by (rewrite <- Rmult_assoc, kD; ring).
  assert (M : forall p q, p < q -> k * p < k * q) by (intros p q Hpq; apply Rmult_lt_compat_l; assumption).
  rewrite K2, HS in T, F.
  replace (- 2 * cos phi) with (k * (- (D * cos phi))) in T, F by (rewrite <- Rmult_opp_opp; rewrite Ropp_involutive; rewrite Ropp_mult_distr_l_reverse, <- K1; ring).
  rewrite K1, HC in T, F.
  unfold covered, clear, reach. fold al ac.
  destruct sym; cbn [fst snd]; split.
  - intros [H1 [H2 H3]]. apply Rabs_def2 in H1. apply T.
    + split; [rewrite Rminus_0_r|rewrite Rminus_0_r]; apply M; lra.
    + rewrite Ropp_mult_distr_r. split; apply M; lra.
  - intros [H|[H|H]]; apply F.
    + destruct (Rle_dec 0 ac).
      * rewrite Rabs_right in H by lra. right; right; right. apply M; lra.
      * rewrite Rabs_left in H by lra. right; right; left. rewrite Ropp_mult_distr_r. apply M; lra.
    + left. rewrite Rminus_0_r. apply M; lra.
    + right; left. rewrite Rminus_0_r. apply M; lra.
  - intros [H1 [H2 H3]]. apply Rabs_def2 in H1. apply T.
    + rewrite <- kD. replace (k * (- (D * shrink D w)) - k * D) with (k * (- D * shrink D w - D)) by ring.
      replace (k * (D * shrink D w) - k * D) with (k * (D * shrink D w - D)) by ring. split; apply M; lra.
    + rewrite Ropp_mult_distr_r. split; apply M; lra.
  - intros [H|[H|H]]; apply F.
    + destruct (Rle_dec 0 ac).
      * rewrite Rabs_right in H by lra. right; right; right. apply M; lra.
      * rewrite Rabs_left in H by lra. right; right; left. rewrite Ropp_mult_distr_r. apply M; lra.
    + left. rewrite <- kD. replace (k * (- (D * shrink D w)) - k * D) with (k * (- D * shrink D w - D)) by ring. apply M; lra.
    + right; left. rewrite <- kD. replace (k * (D * shrink D w) - k * D) with (k * (D * shrink D w - D)) by ring. apply M; lra.
Qed.

(** origins of the spiders: the given ones, or the centre *)
Definition origins (angles : list R) (l : list (R * R)) : list (R * R) := match l with [] => map (fun _ => (0, 0)) angles | _ => l end.
Lemma origins_length angles l : (l = [] \/ length l = length angles) -> length (origins angles l) = length angles.
Proof. intros [ ->|H]; unfold origins; [apply map_length|]. destruct l; [rewrite map_length; reflexivity|assumption]. Qed.

(** The constructor with a resolution: one mask, of 0 and 1; a pixel under one of the spiders is dark; a pixel clear of all of
    them is transmitting (inside the pupil if the pupil mask is requested). *)
Theorem C99_mask : forall poly angles w l D cobs msk sym n, polygon_test poly -> 0 < D -> (2 <= n)%nat -> D / INR n <= w ->
  (l = [] \/ length l = length angles) ->
  exists s m, new_spider poly angles w (CoorList l) D cobs msk sym n = Ok s /\ sp_matrix s = Some m /\ rows m = n /\ cols m = n /\
  forall i j, (i < n)%nat -> (j < n)%nat ->
    (px m i j = 0 \/ px m i j = 1) /\
    ((exists k, (k < length angles)%nat /\ covered sym D w (nth k angles 0 * PI / 180) (nth k (origins angles l) (0, 0)) (point D n j) (point D n i)) -> px m i j = 0) /\
    ((forall k, (k < length angles)%nat -> clear sym D w (nth k angles 0 * PI / 180) (nth k (origins angles l) (0, 0)) (point D n j) (point D n i)) ->
       (px m i j = 1 <-> (msk = true -> in_pupil D cobs (point D n j) (point D n i)))).
Proof.
  intros poly angles w l D cobs msk sym n HP HD Hn Hw Hl. assert (HN : 0 < INR n) by (apply lt_0_INR; lia).
  assert (Hr : 0 < D / INR n) by (apply Rdiv_lt_0_compat; lra).
  pose proof (origins_length angles l Hl) as HO.
  set (ang := map (fun a => a * PI / 180) angles).
  assert (La : length ang = length angles) by (unfold ang; apply map_length).
  assert (OE : match l with [] => map (fun _ => (0, 0)) ang | _ => l end = origins angles l).
  { unfold origins, ang. destruct l; [rewrite map_map; reflexivity|reflexivity]. }
  unfold new_spider. cbv zeta. fold ang. rewrite OE, HO, La, Nat.eqb_refl. cbn [negb]. destruct (Nat.eqb_spec n 0); [lia|].
  unfold make_spider. cbn [sp_n sp_angles sp_width sp_coor sp_D sp_cobs sp_msk sp_sym]. cbv zeta.
  destruct (Nat.eqb_spec n 0); [lia|]. destruct (Req_EM_T (D / INR n) 0); [lra|].
  destruct (Rlt_dec (w / (D / INR n)) 1) as [Hlt|Hlt].
  { exfalso. assert (E : w = w / (D / INR n) * (D / INR n)) by (field; lra). assert (w / (D / INR n) * (D / INR n) < 1 * (D / INR n)) by (apply Rmult_lt_compat_r; lra). lra. }
  rewrite HO, La, Nat.ltb_irrefl. cbn [orb].
  eexists. eexists. split; [reflexivity|]. split; [reflexivity|]. split; [reflexivity|]. split; [reflexivity|].
  intros i j Hi Hj. cbn [px].
  set (f := fun k => one_spider poly n sym (atan (w / (D / INR n) / (2 * INR n))) (nth k ang 0)
      (fst (nth k (origins angles l) (0, 0)) * 2 / INR n / (D / INR n), snd (nth k (origins angles l) (0, 0)) * 2 / INR n / (D / INR n)) i j).
  set (pr := fold_left (fun acc k => acc * f k) (seq 0 (length angles)) 1).
  assert (F1 : forall k, f k = 0 \/ f k = 1) by (intros k; unfold f, one_spider; destruct (poly _ _ _ _); auto).
  assert (P1 : pr = 0 \/ pr = 1).
  { unfold pr. generalize (seq 0 (length angles)) as ks. induction ks as [|k ks IH]; [right; reflexivity|]. cbn [fold_left]. rewrite fold_mul.
    destruct (F1 k) as [ ->| ->], IH as [ ->| ->]; [left|left|left|right]; ring. }
  assert (NA : forall k, (k < length angles)%nat -> nth k ang 0 = nth k angles 0 * PI / 180).
  { intros k Hk. unfold ang. rewrite (nth_indep _ 0 ((fun a => a * PI / 180) 0)) by (rewrite map_length; assumption). rewrite (map_nth (fun a => a * PI / 180)). reflexivity. }
  assert (ER : hypot (lspace (-1) 1 n j) (lspace (-1) 1 n i) * D / 2 = sqrt (point D n j ^ 2 + point D n i ^ 2)).
  { rewrite !(lspace_point D n) by assumption. unfold hypot.
    replace ((2 / D * point D n j) ^ 2 + (2 / D * point D n i) ^ 2) with ((2 / D) ^ 2 * (point D n j ^ 2 + point D n i ^ 2)) by ring.
    rewrite sqrt_mult by (try apply pow2_ge_0; assert (0 <= point D n j ^ 2) by apply pow2_ge_0; assert (0 <= point D n i ^ 2) by apply pow2_ge_0; lra).
    rewrite sqrt_pow2 by (apply Rlt_le, Rdiv_lt_0_compat; lra). field. lra. }
  assert (PM : fold_left (fun acc k => acc * one_spider poly n sym (atan (w / (D / INR n) / (2 * INR n))) (nth k ang 0)
      (fst (nth k (origins angles l) (0, 0)) * 2 / INR n / (D / INR n), snd (nth k (origins angles l) (0, 0)) * 2 / INR n / (D / INR n)) i j) (seq 0 (length angles)) 1 = pr) by reflexivity.
  rewrite PM. rewrite ER. clear PM.
  assert (B1 : forall x y, b2r (rle x y) = 0 \/ b2r (rle x y) = 1) by (intros x y; unfold b2r; destruct (rle x y); auto).
  split; [|split].
  - destruct msk; [|exact P1]. destruct P1 as [ ->| ->], (B1 (sqrt (point D n j ^ 2 + point D n i ^ 2)) (D / 2)) as [ ->| ->], (B1 (cobs * D / 2) (sqrt (point D n j ^ 2 + point D n i ^ 2))) as [ ->| ->]; first [left; ring|right; ring].
  - intros [k [Hk Hc]]. assert (Z : pr = 0).
    { unfold pr. apply (fold_zero f _ k); [apply in_seq; lia|]. unfold f. rewrite NA by assumption.
      apply (proj1 (spider_metres poly n sym D w (nth k angles 0 * PI / 180) (nth k (origins angles l) (0, 0)) i j HP HD ltac:(lra) Hn)). exact Hc. }
    rewrite Z. destruct msk; [rewrite !Rmult_0_l; reflexivity|reflexivity].
  - intros Hc. assert (Z : pr = 1).
    { unfold pr. apply (fold_one f). intros k Hk. apply in_seq in Hk. unfold f. rewrite NA by lia.
      apply (proj2 (spider_metres poly n sym D w (nth k angles 0 * PI / 180) (nth k (origins angles l) (0, 0)) i j HP HD ltac:(lra) Hn)). apply Hc. lia. }
    rewrite Z. destruct msk; [|split; [intros _ H; discriminate H|reflexivity]]. rewrite Rmult_1_l. unfold in_pupil, b2r, rle.
    destruct (Rle_dec (sqrt (point D n j ^ 2 + point D n i ^ 2)) (D / 2)); destruct (Rle_dec (cobs * D / 2) (sqrt (point D n j ^ 2 + point D n i ^ 2)));
      (split; [intros H0; try (intros _; lra)|intros H0; specialize (H0 eq_refl); try lra]).
Qed.

Print Assumptions C99_mask.
