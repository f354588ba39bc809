(** C94, continued: profiles that do not fall below half maximum, and the widths
    of a contour. *)
From Coq Require Import Reals List Arith ZArith Lia Lra Bool.
From Verif Require Import Base_Py Base_Sum M_Image M_Tools L_Image2 L_Tools2 L_Flux S_Metric M_Metric M_Metric2 P_Metric6 P_Metric7 P_Metric8.
Import ListNotations.
Open Scope R_scope.

Lemma max_nonempty p mx : list_max p = Ok mx -> exists mn, list_min p = Ok mn.
Proof. destruct p as [|x l]; [discriminate|]. intros _. eexists. reflexivity. Qed.

(** C94. A profile whose samples are all at or above half of the maximum has the
    full length of the profile as its width. *)
Theorem C94_flat p mx : list_max p = Ok mx -> (forall v, In v p -> mx / 2 <= v) -> fwhm_1d p = Ok (INR (length p)).
Proof.
  intros Hm Hp. unfold fwhm_1d. rewrite Hm. cbn [bind]. destruct (max_nonempty p mx Hm) as [mn E]. rewrite E. cbn [bind].
  apply list_min_spec in E. destruct E as [_ I]. apply Hp in I. destruct (Rle_dec (/ 2 * mx) mn); [reflexivity|]. exfalso. apply n. lra.
Qed.

(** C94. The same when all samples but one are at or above half maximum. *)
Theorem C94_all_but_one p mx k : list_max p = Ok mx -> (3 <= length p)%nat -> (k < length p)%nat -> nth k p 0 < mx / 2 ->
  (forall i, (i < length p)%nat -> i <> k -> mx / 2 <= nth i p 0) -> fwhm_1d p = Ok (INR (length p)).
Proof.
  intros Hm Hn Hk Hlow Hoth. unfold fwhm_1d. rewrite Hm. cbn [bind]. destruct (max_nonempty p mx Hm) as [mn E]. rewrite E. cbn [bind].
  destruct (Rle_dec (/ 2 * mx) mn); [reflexivity|]. cbv zeta.
  assert (L : length (above_half p (mx / 2)) = (length p - 1)%nat).
  { assert (Q : exists q, above_half p (mx / 2) = q /\ length q = (length p - 1)%nat); [|destruct Q as (q & -> & Q); exact Q]. eexists. split; [reflexivity|]. unfold above_half.
    replace (seq 0 (length p)) with (seq 0 k ++ k :: seq (S k) (length p - S k)).
    2:{ replace (length p) with (k + S (length p - S k))%nat at 2 by lia. rewrite seq_app. reflexivity. }
    rewrite filter_app, app_length. cbn [filter]. destruct (Rle_dec (mx / 2) (nth k p 0)) as [Q|_]; [lra|].
    assert (Z : forall l, (forall i, In i l -> mx / 2 <= nth i p 0) -> length (filter (fun i => if Rle_dec (mx / 2) (nth i p 0) then true else false) l) = length l).
    { induction l as [|x l IH]; intros H; [reflexivity|]. cbn [filter]. destruct (Rle_dec (mx / 2) (nth x p 0)) as [_|N]; [|exfalso; apply N; apply H; left; reflexivity]. cbn [length]. f_equal. apply IH. intros i Hi. apply H. right. exact Hi. }
    rewrite !Z; [rewrite !seq_length; lia| |]; intros i Hi; apply in_seq in Hi; apply Hoth; lia. }
  rewrite L. destruct (Nat.ltb_spec (length p - 1) 2); [lia|]. destruct (Z.leb_spec (Z.of_nat (length p) - 1) (Z.of_nat (length p - 1))); [reflexivity|lia].
Qed.

(** C94. A single sample at or above half maximum: width one. *)
Theorem C94_spike p mx k : list_max p = Ok mx -> (k < length p)%nat -> mx / 2 <= nth k p 0 -> (2 <= length p)%nat ->
  (forall i, (i < length p)%nat -> i <> k -> nth i p 0 < mx / 2) -> fwhm_1d p = Ok 1.
Proof.
  intros Hm Hk Hhi Hn Hoth. unfold fwhm_1d. rewrite Hm. cbn [bind]. destruct (max_nonempty p mx Hm) as [mn E]. rewrite E. cbn [bind].
  destruct (list_min_spec _ _ E) as [Hle _].
  assert (Hj : exists j, (j < length p)%nat /\ j <> k). { destruct (Nat.eq_dec k 0); [exists 1%nat|exists 0%nat]; lia. }
  destruct Hj as (j & Hj & Hjk). pose proof (Hoth j Hj Hjk) as Hlow. specialize (Hle (nth j p 0) (nth_In _ _ Hj)).
  destruct (Rle_dec (/ 2 * mx) mn); [lra|]. cbv zeta.
  assert (L : (length (above_half p (mx / 2)) <= 1)%nat).
  { assert (ND : NoDup (above_half p (mx / 2))) by (unfold above_half; apply NoDup_filter, seq_NoDup).
    apply (NoDup_incl_length ND (l' := [k])). intros i Hi. apply above_In in Hi. destruct Hi as [Hi Hv]. destruct (Nat.eq_dec i k) as [->|Ne]; [left; reflexivity|]. specialize (Hoth i Hi Ne). lra. }
  destruct (Nat.ltb_spec (length (above_half p (mx / 2))) 2); [reflexivity|lia].
Qed.

Example C94_flat_ex : fwhm_1d [3; 4; 2] = Ok 3 /\ fwhm_1d [3; 1; 4; 2] = Ok 4 /\ fwhm_1d [1; 4; 0] = Ok 1.
Proof.
  assert (M1 : list_max [3; 4; 2] = Ok 4) by (cbn; unfold Rmax; repeat destruct (Rle_dec _ _); f_equal; lra).
  assert (M2 : list_max [3; 1; 4; 2] = Ok 4) by (cbn; unfold Rmax; repeat destruct (Rle_dec _ _); f_equal; lra).
  assert (M3 : list_max [1; 4; 0] = Ok 4) by (cbn; unfold Rmax; repeat destruct (Rle_dec _ _); f_equal; lra).
  split; [|split].
  - rewrite (C94_flat _ 4 M1); [cbn; f_equal; lra|]. intros v [<-|[<-|[<-|[]]]]; lra.
  - rewrite (C94_all_but_one _ 4 1 M2); [cbn; f_equal; lra|cbn; lia|cbn; lia|cbn; lra|]. intros i Hi Hk. cbn in Hi. destruct i as [|[|[|[|i]]]]; cbn; try lia; lra.
  - rewrite (C94_spike _ 4 1 M3); [reflexivity|cbn; lia|cbn; lra|cbn; lia|]. intros i Hi Hk. cbn in Hi. destruct i as [|[|[|i]]]; cbn; try lia; lra.
Qed.

(** ** widths of a contour *)
(** (cx,cy) is the middle of the smallest upright rectangle around the points *)
Definition box_centre (pts : list (R * R)) (cx cy : R) : Prop :=
  exists x0 x1 y0 y1, cx = (x0 + x1) / 2 /\ cy = (y0 + y1) / 2 /\
  (forall p, In p pts -> x0 <= fst p <= x1 /\ y0 <= snd p <= y1) /\
  (exists p, In p pts /\ fst p = x0) /\ (exists p, In p pts /\ fst p = x1) /\
  (exists p, In p pts /\ snd p = y0) /\ (exists p, In p pts /\ snd p = y1).
Definition dist (cx cy : R) (p : R * R) : R := sqrt ((fst p - cx) * (fst p - cx) + (snd p - cy) * (snd p - cy)).

Lemma proj_max (f : R * R -> R) pts b : (forall p, In p pts -> f p <= b) -> (exists p, In p pts /\ f p = b) -> list_max (map f pts) = Ok b.
Proof.
  intros H1 (p & Ip & Ep). destruct (list_max (map f pts)) as [m|e] eqn:E.
  - apply list_max_spec in E. destruct E as [E1 E2]. f_equal. apply in_map_iff in E2. destruct E2 as (q & <- & Iq). apply Rle_antisym; [apply H1; exact Iq|]. rewrite <- Ep. apply E1. apply in_map. exact Ip.
  - destruct pts; [destruct Ip|discriminate].
Qed.
Lemma proj_min (f : R * R -> R) pts b : (forall p, In p pts -> b <= f p) -> (exists p, In p pts /\ f p = b) -> list_min (map f pts) = Ok b.
Proof.
  intros H1 (p & Ip & Ep). destruct (list_min (map f pts)) as [m|e] eqn:E.
  - apply list_min_spec in E. destruct E as [E1 E2]. f_equal. apply in_map_iff in E2. destruct E2 as (q & <- & Iq). apply Rle_antisym; [|apply H1; exact Iq]. rewrite <- Ep. apply E1. apply in_map. exact Ip.
  - destruct pts; [destruct Ip|discriminate].
Qed.

(** C94. The two widths measured on the points of a contour are twice the largest
    and twice the smallest distance from the middle of the box around them, in the
    pixel scale divided by the resampling factor; the angle is that of a farthest
    point, in degrees. *)
Theorem C94_contour_box at2 pts ps rebin cx cy : pts <> [] -> 0 < ps -> 0 < rebin -> box_centre pts cx cy ->
  exists far near, In far pts /\ In near pts /\ (forall p, In p pts -> dist cx cy near <= dist cx cy p <= dist cx cy far) /\
  contour_width at2 pts ps rebin =
    Ok (2 * dist cx cy far * (ps / rebin), 2 * dist cx cy near * (ps / rebin), 180 * at2 (snd far - cy) (fst far - cx) / PI).
Proof.
  intros Hne Hp Hr (x0 & x1 & y0 & y1 & -> & -> & HB & A & B & C & D). unfold contour_width.
  rewrite (proj_max fst pts x1) by (try exact B; intros p I; apply HB in I; lra). cbn [bind].
  rewrite (proj_max snd pts y1) by (try exact D; intros p I; apply HB in I; lra). cbn [bind].
  rewrite (proj_min fst pts x0) by (try exact A; intros p I; apply HB in I; lra). cbn [bind].
  rewrite (proj_min snd pts y0) by (try exact C; intros p I; apply HB in I; lra). cbn [bind]. cbv zeta.
  rewrite (Rplus_comm x1 x0), (Rplus_comm y1 y0). set (cx := (x0 + x1) / 2). set (cy := (y0 + y1) / 2).
  set (wr := map (fun p : R * R => _ / rebin * ps) pts). assert (Ew : wr = map (fun p => dist cx cy p / rebin * ps) pts) by reflexivity.
  assert (Hs : 0 < / rebin) by (apply Rinv_0_lt_compat; exact Hr).
  assert (Mono : forall a b, a / rebin * ps <= b / rebin * ps -> a <= b).
  { intros a b H. apply (Rmult_le_reg_r (/ rebin * ps)); [apply Rmult_lt_0_compat; assumption|]. unfold Rdiv in H. lra. }
  destruct (argmax_list_some wr) as (k & m & Ek). { rewrite Ew. destruct pts; [contradiction|discriminate]. }
  destruct (argmax_list_spec wr k m Ek) as (Nk & Bk & _).
  assert (Hk : (k < length pts)%nat). { assert (k < length wr)%nat by (apply nth_error_Some; congruence). rewrite Ew, map_length in H. exact H. }
  set (far := nth k pts (0, 0)).
  assert (Hfar : m = dist cx cy far / rebin * ps). { rewrite Ew, nth_error_map in Nk. rewrite (nth_error_nth' pts (0, 0) Hk) in Nk. cbn in Nk. unfold far. congruence. }
  destruct (list_min wr) as [lo|e] eqn:El; [|rewrite Ew in El; destruct pts; [contradiction|discriminate]].
  destruct (list_min_spec _ _ El) as [L1 L2]. rewrite Ew in L2. apply in_map_iff in L2. destruct L2 as (near & En & Inn).
  exists far, near. split; [apply nth_In; exact Hk|]. split; [exact Inn|]. split.
  { intros p Ip. split; apply Mono.
    - rewrite En. apply L1. rewrite Ew. apply (in_map (fun p => dist cx cy p / rebin * ps)). exact Ip.
    - rewrite <- Hfar. destruct (In_nth_error _ _ Ip) as [i Ei]. apply (Bk i). rewrite Ew, nth_error_map, Ei. reflexivity. }
  replace (list_max wr) with (@Ok R m). 2:{ destruct (list_max wr) as [m'|e] eqn:Em; [|rewrite Ew in Em; destruct pts; [contradiction|discriminate]].
    destruct (list_max_spec _ _ Em) as [M1 M2]. f_equal. apply Rle_antisym; [apply M1; apply (nth_error_In _ k); exact Nk|]. destruct (In_nth_error _ _ M2) as [i Ei]. apply (Bk i _ Ei). }
  cbn [bind]. rewrite Ek, <- En, Hfar. fold far. do 2 f_equal. f_equal; unfold Rdiv; ring.
Qed.

(** C94. A circle of radius rho around any centre (a,b), sampled at points that
    include its four extreme points: both widths are the diameter, wherever the
    circle lies. *)
Theorem C94_contour_circle at2 pts ps rebin a b rho : 0 < ps -> 0 < rebin -> 0 <= rho ->
  (forall p, In p pts -> dist a b p = rho) -> In (a + rho, b) pts -> In (a - rho, b) pts -> In (a, b + rho) pts -> In (a, b - rho) pts ->
  exists th, contour_width at2 pts ps rebin = Ok (2 * rho * (ps / rebin), 2 * rho * (ps / rebin), th).
Proof.
  intros Hp Hr Hrho HC E W N S.
  assert (Hbox : box_centre pts a b).
  { exists (a - rho), (a + rho), (b - rho), (b + rho). split; [field|]. split; [field|]. split.
    - intros p Ip. specialize (HC p Ip). unfold dist in HC.
      assert (Q : (fst p - a) * (fst p - a) + (snd p - b) * (snd p - b) = rho * rho). { rewrite <- HC. rewrite sqrt_sqrt; [reflexivity|]. pose proof (Rle_0_sqr (fst p - a)). pose proof (Rle_0_sqr (snd p - b)). unfold Rsqr in *. lra. }
      pose proof (Rle_0_sqr (fst p - a)) as Q1. pose proof (Rle_0_sqr (snd p - b)) as Q2. unfold Rsqr in *.
      assert (K : forall t, t * t <= rho * rho -> - rho <= t <= rho). { intros t Ht. split; nra. }
      destruct (K (fst p - a)); [lra|]. destruct (K (snd p - b)); [lra|]. lra.
    - split; [|split; [|split]]; [exists (a - rho, b)|exists (a + rho, b)|exists (a, b - rho)|exists (a, b + rho)]; auto. }
  assert (Hne : pts <> []) by (destruct pts; [destruct E|discriminate]).
  destruct (C94_contour_box at2 pts ps rebin a b Hne Hp Hr Hbox) as (far & near & If & In_ & _ & ->). rewrite (HC far If), (HC near In_). eexists. reflexivity.
Qed.

Example C94_circle_ex : exists th, contour_width (fun y x => atan (y / x)) [(8, 5); (2, 5); (5, 8); (5, 2)] 10 2 = Ok (30, 30, th).
Proof.
  destruct (C94_contour_circle (fun y x => atan (y / x)) [(8, 5); (2, 5); (5, 8); (5, 2)] 10 2 5 5 3) as [th H]; try lra.
  - intros p [<-|[<-|[<-|[<-|[]]]]]; unfold dist; cbn [fst snd]; match goal with |- sqrt ?x = _ => replace x with (3 * 3) by ring end; apply sqrt_square; lra.
  - left. f_equal; lra.
  - right; left. f_equal; lra.
  - do 2 right; left. f_equal; lra.
  - do 3 right; left. f_equal; lra.
  - exists th. rewrite H. f_equal. f_equal. f_equal; lra.
Qed.
Print Assumptions C94_contour_circle.

Print Assumptions C94_flat.
Print Assumptions C94_all_but_one.
Print Assumptions C94_spike.
Print Assumptions C94_contour_box.
