(** Lemmas on sort_params_from_labels and precompute_polar_grid. *)
From Coq Require Import Reals List Arith ZArith Lia Lra Psatz.
From Flocq Require Import Core.Raux.
From Verif Require Import Base_Py M_Tools S_Tools L_Tools.
Import ListNotations.
Open Scope R_scope.

Lemma bindOk {A B} (r : result A) (f : A -> result B) b : bind r f = Ok b -> exists a, r = Ok a /\ f a = Ok b.
Proof. destruct r; cbn; [eauto|discriminate]. Qed.

Lemma seg_length x a b : (a <= b)%nat -> (b <= length x)%nat -> length (seg x a b) = (b - a)%nat.
Proof. intros. unfold seg. rewrite firstn_length, skipn_length. lia. Qed.
Lemma seg_app x a b : (a <= b)%nat -> skipn a x = seg x a b ++ skipn b x.
Proof.
  intros H. unfold seg. replace (skipn b x) with (skipn (b - a) (skipn a x)) by (rewrite skipn_twice; f_equal; lia).
  symmetry. apply firstn_skipn.
Qed.
Lemma seg_join x a b c : (a <= b)%nat -> (b <= c)%nat -> seg x a c = seg x a b ++ seg x b c.
Proof.
  intros H1 H2. apply (app_inv_tail (skipn c x)). rewrite <- app_assoc, <- !seg_app by lia. reflexivity.
Qed.
Lemma seg_seg x n e a b : (a <= b)%nat -> (n + b <= e)%nat -> seg (seg x n e) a b = seg x (n + a) (n + b).
Proof.
  intros H1 H2. unfold seg. rewrite skipn_firstn_comm, firstn_firstn, skipn_twice. f_equal. lia.
Qed.
Lemma skipn_seg x n e a : (a <= e - n)%nat -> skipn a (seg x n e) = seg x (n + a) e.
Proof. intros. unfold seg. rewrite skipn_firstn_comm, skipn_twice. f_equal. lia. Qed.

Lemma chunks_concat c : forall r l, length l = (r * c)%nat -> concat (chunks r c l) = l /\ length (chunks r c l) = r /\
  Forall (fun row => length row = c) (chunks r c l).
Proof.
  induction r as [|r IH]; intros l H; cbn [chunks concat length].
  - destruct l; [|discriminate]. repeat split; constructor.
  - destruct (IH (skipn c l)) as (I1 & I2 & I3); [rewrite skipn_length; lia|]. rewrite I1, I2. split; [apply firstn_skipn|].
    split; [reflexivity|]. constructor; [|exact I3]. rewrite firstn_length. lia.
Qed.
Lemma reshape_ok r c l : length l = (r * c)%nat -> exists m, reshape r c l = Ok m /\ concat m = l /\ length m = r /\ Forall (fun row => length row = c) m.
Proof.
  intros H. unfold reshape. rewrite H, Nat.eqb_refl. exists (chunks r c l). split; [reflexivity|]. apply chunks_concat; exact H.
Qed.

Lemma sort_atm_n m x nL c r : sort_atm m x = Ok (nL, c, r) -> nL = n_atm m.
Proof.
  unfold sort_atm, n_atm. destruct (0 <? i_atm m)%nat.
  - destruct (_ && _)%bool.
    + destruct (rpow _ _); cbn [bind]; [|discriminate]. intros H; apply Ok_inj in H; congruence.
    + destruct (pyindex x 0); cbn [bind]; [|discriminate]. intros H; apply Ok_inj in H; congruence.
  - intros H; apply Ok_inj in H; congruence.
Qed.
Lemma sort_atm_head m x nL c r : sort_atm m x = Ok (nL, c, r) -> (n_atm m <= length x)%nat ->
  firstn (n_atm m) x = atm_head c r /\ (forall l, c = Some l -> exists v, r = Some v /\ v = Rpower (total l) (- 3 / 5)).
Proof.
  unfold sort_atm, n_atm. destruct (0 <? i_atm m)%nat.
  - destruct (_ && _)%bool.
    + unfold rpow. destruct (Rlt_dec _ 0); cbn [bind]; [discriminate|].
      destruct (Req_EM_T _ 0). { destruct (Rlt_dec 0 (-3/5)); [lra|]. discriminate. }
      cbn [bind]. intros H; apply Ok_inj in H. injection H as <- <- <-. intros _. split; [reflexivity|].
      intros l E. injection E as <-. eexists. split; [reflexivity|]. rewrite lsum_total. reflexivity.
    + destruct x as [|v x]; cbn [pyindex]; [intros H; discriminate|]. 
      intros H. apply bindOk in H. destruct H as (a & Ea & H). apply Ok_inj in H. injection H as <- <- <-.
      intros _. unfold pyindex in Ea. cbn [length] in Ea. rewrite Nat2Z.inj_succ in Ea.
      destruct (Z.ltb_spec 0 0); [lia|].
      destruct ((0 <? 0) || _)%Z%bool; [discriminate|]. cbn in Ea. apply Ok_inj in Ea. subst a. split; [reflexivity|]. discriminate.
  - intros H; apply Ok_inj in H. injection H as <- <- <-. intros _. split; [reflexivity|]. discriminate.
Qed.
(** common part of the split: everything but the object parameters *)
Lemma sort_params_parts m x s : sort_params m x = Ok s -> (n_tt m < length x)%nat ->
  exists st, sort_stellar m x (n_tt m) = Ok st /\ st = (s_F s, s_dx s, s_dy s, s_bkg s) /\
    x = atm_head (s_Cn2 s) (s_r0 s) ++ opt_list (s_dphi s) ++ opt_list (s_jit s) ++ skipn (n_tt m) x /\
    length (opt_list (s_dphi s)) = i_dphi m /\ length (opt_list (s_jit s)) = (if i_jit m then 3 else 0)%nat /\
    s_stat s = (if (n_full m <? length x)%nat then Some (skipn (n_full m) x) else None) /\
    (forall l, s_Cn2 s = Some l -> exists v, s_r0 s = Some v /\ v = Rpower (total l) (- 3 / 5)).
Proof.
  intros H Hl. unfold sort_params in H. apply bindOk in H. destruct H as ([[nL c] r] & Ea & H).
  assert (EN := sort_atm_n _ _ _ _ _ Ea). subst nL. fold (n_dphi m) in H. cbv zeta in H. fold (n_tt m) in H.
  apply bindOk in H. destruct H as ([[[F dx] dy] bkg] & Es & H). apply Ok_inj in H. subst s.
  cbn [s_F s_dx s_dy s_bkg s_Cn2 s_r0 s_dphi s_jit s_stat].
  assert (N1 : (n_atm m <= n_dphi m)%nat) by (unfold n_dphi; lia).
  assert (N2 : (n_dphi m <= n_tt m)%nat) by (unfold n_tt; destruct (i_jit m); lia).
  destruct (sort_atm_head _ _ _ _ _ Ea) as [Hh Hr]; [lia|].
  exists (F, dx, dy, bkg). split; [exact Es|]. split; [reflexivity|].
  set (D := if (0 <? n_dphi m)%nat then _ else _). set (J := if i_jit m then Some _ else None).
  assert (ED : opt_list D = seg x (n_atm m) (n_dphi m)).
  { unfold D. destruct (Nat.ltb_spec 0 (n_dphi m)); [reflexivity|]. unfold seg. replace (n_dphi m - n_atm m)%nat with 0%nat by lia. reflexivity. }
  assert (EJ : opt_list J = seg x (n_dphi m) (n_tt m)).
  { unfold J, n_tt. destruct (i_jit m) eqn:EI.
    - cbn [opt_list]. destruct (Nat.ltb_spec (n_dphi m) (length x)); [reflexivity|]. unfold n_tt in *; rewrite EI in *; lia.
    - unfold seg. rewrite Nat.sub_diag. reflexivity. }
  rewrite ED, EJ. split.
  - rewrite <- Hh. rewrite <- (firstn_skipn (n_atm m) x) at 1. f_equal.
    rewrite (seg_app x (n_atm m) (n_dphi m)) by lia. f_equal. apply seg_app. lia.
  - rewrite !seg_length by lia. split; [unfold n_dphi; lia|]. split; [unfold n_tt; destruct (i_jit m); lia|].
    split; [reflexivity|exact Hr].
Qed.

Lemma sort_full_multi m x s : sort_params m x = Ok s -> i_wvl m <> 1%nat -> (n_full m <= length x)%nat -> (n_tt m < length x)%nat ->
  x = atm_head (s_Cn2 s) (s_r0 s) ++ opt_list (s_dphi s) ++ opt_list (s_jit s)
      ++ concat (s_F s) ++ concat (s_dx s) ++ concat (s_dy s) ++ s_bkg s ++ opt_list (s_stat s) /\
  (length (s_F s) = i_star m /\ length (s_dx s) = i_star m /\ length (s_dy s) = i_star m) /\
  Forall (fun row => length row = i_wvl m) (s_F s ++ s_dx s ++ s_dy s) /\
  length (s_bkg s) = i_frame m /\ length (opt_list (s_dphi s)) = i_dphi m /\
  length (opt_list (s_jit s)) = (if i_jit m then 3 else 0)%nat /\
  (forall l, s_Cn2 s = Some l -> exists v, s_r0 s = Some v /\ v = Rpower (total l) (- 3 / 5)).
Proof.
  intros H Hw Hf Ht. destruct (sort_params_parts m x s H Ht) as (st & Es & -> & Ex & L1 & L2 & St & Hr).
  unfold sort_stellar in Es. destruct (Nat.ltb_spec (n_tt m) (length x)); [|lia]. cbv zeta in Es. fold (n_full m) in Es.
  destruct (Nat.eqb_spec (i_wvl m) 1); [congruence|].
  set (k := (i_star m * i_wvl m)%nat) in *. set (t := n_tt m) in *.
  assert (NF : n_full m = (t + k * 3 + i_frame m)%nat) by reflexivity.
  rewrite !seg_seg in Es by lia. rewrite skipn_seg in Es by lia.
  destruct (reshape_ok (i_star m) (i_wvl m) (seg x (t + 0) (t + k))) as (F & EF & CF & RF & WF); [rewrite seg_length by lia; fold k; lia|].
  destruct (reshape_ok (i_star m) (i_wvl m) (seg x (t + k) (t + 2 * k))) as (X & EX & CX & RX & WX); [rewrite seg_length by lia; fold k; lia|].
  destruct (reshape_ok (i_star m) (i_wvl m) (seg x (t + 2 * k) (t + 3 * k))) as (Y & EY & CY & RY & WY); [rewrite seg_length by lia; fold k; lia|].
  rewrite EF, EX, EY in Es. cbn [bind] in Es. apply Ok_inj in Es. injection Es as EsF EsX EsY EsB. rewrite <- EsF, <- EsX, <- EsY, <- EsB.
  rewrite CF, CX, CY. split.
  - rewrite Ex at 1. do 3 f_equal. rewrite St.
    rewrite (seg_app x t (t + k)), (seg_app x (t + k) (t + 2 * k)), (seg_app x (t + 2 * k) (t + 3 * k)), (seg_app x (t + 3 * k) (n_full m)) by lia.
    rewrite Nat.add_0_r. do 4 f_equal.
    destruct (Nat.ltb_spec (n_full m) (length x)); cbn [opt_list]; [reflexivity|]. apply skipn_all2. lia.
  - split; [repeat split; assumption|]. split; [apply Forall_app; split; [exact WF|apply Forall_app; split; assumption]|].
    split; [rewrite seg_length by lia; lia|]. split; [exact L1|]. split; [exact L2|exact Hr].
Qed.

Lemma sort_full_mono m x s : sort_params m x = Ok s -> i_wvl m = 1%nat -> (n_full m <= length x)%nat -> (n_tt m < length x)%nat ->
  exists fl ax ay : list R,
  x = atm_head (s_Cn2 s) (s_r0 s) ++ opt_list (s_dphi s) ++ opt_list (s_jit s)
      ++ fl ++ ax ++ ay ++ s_bkg s ++ opt_list (s_stat s) /\
  length fl = i_star m /\ length ax = i_star m /\ length ay = i_star m /\
  s_F s = map (fun f => map (fun t => f * t) (i_trans m)) fl /\
  s_dx s = map (fun d => map (fun t => d + t) (i_dispx m)) ax /\
  s_dy s = map (fun d => map (fun t => d + t) (i_dispy m)) ay /\
  length (s_bkg s) = i_frame m /\ length (opt_list (s_dphi s)) = i_dphi m /\
  length (opt_list (s_jit s)) = (if i_jit m then 3 else 0)%nat.
Proof.
  intros H Hw Hf Ht. destruct (sort_params_parts m x s H Ht) as (st & Es & -> & Ex & L1 & L2 & St & Hr).
  unfold sort_stellar in Es. destruct (Nat.ltb_spec (n_tt m) (length x)); [|lia]. cbv zeta in Es. fold (n_full m) in Es.
  rewrite Hw in Es. cbn [Nat.eqb] in Es. rewrite Nat.mul_1_r in Es.
  set (k := i_star m) in *. set (t := n_tt m) in *.
  assert (NF : n_full m = (t + k * 3 + i_frame m)%nat) by (unfold n_full; rewrite Hw, Nat.mul_1_r; reflexivity).
  rewrite !seg_seg in Es by lia. rewrite skipn_seg in Es by lia. apply Ok_inj in Es.
  injection Es as EsF EsX EsY EsB. rewrite <- EsF, <- EsX, <- EsY, <- EsB.
  exists (seg x (t + 0) (t + k)), (seg x (t + k) (t + 2 * k)), (seg x (t + 2 * k) (t + 3 * k)). split.
  - rewrite Ex at 1. do 3 f_equal. rewrite St.
    rewrite (seg_app x t (t + k)), (seg_app x (t + k) (t + 2 * k)), (seg_app x (t + 2 * k) (t + 3 * k)), (seg_app x (t + 3 * k) (n_full m)) by lia.
    rewrite Nat.add_0_r. do 4 f_equal.
    destruct (Nat.ltb_spec (n_full m) (length x)); cbn [opt_list]; [reflexivity|]. apply skipn_all2. lia.
  - rewrite !seg_length by lia. repeat split; try lia; try assumption.
Qed.

Lemma bmul_ones l : bmul l (repeat 1 (length l)) = Ok l.
Proof.
  unfold bmul. rewrite repeat_length, Nat.eqb_refl. f_equal. induction l; cbn; [reflexivity|]. rewrite IHl. f_equal. ring.
Qed.

Lemma bmul_ones' l n : length l = n -> bmul l (repeat 1 n) = Ok l.
Proof. intros <-. apply bmul_ones. Qed.
Lemma sort_defaults m x nL c r : sort_atm m x = Ok (nL, c, r) -> (length x <= n_tt m)%nat ->
  length (i_trans m) = i_wvl m -> length (i_dispx m) = i_wvl m -> length (i_dispy m) = i_wvl m ->
  exists s, sort_params m x = Ok s /\ s_F s = repeat (i_trans m) (i_star m) /\ s_dx s = repeat (i_dispx m) (i_star m) /\
    s_dy s = repeat (i_dispy m) (i_star m) /\ s_bkg s = repeat 0 (i_wvl m) /\ s_stat s = None /\
    (i_jit m = true -> (length x <= n_dphi m)%nat -> s_jit s = Some (i_spot m)) /\ (i_jit m = false -> s_jit s = None).
Proof.
  intros Ha Hl Ht Hx Hy. unfold sort_params. rewrite Ha. cbn [bind].
  assert (EN := sort_atm_n _ _ _ _ _ Ha). subst nL. fold (n_dphi m). cbv zeta. fold (n_tt m).
  unfold sort_stellar. destruct (Nat.ltb_spec (n_tt m) (length x)); [lia|]. cbv zeta.
  rewrite (bmul_ones' _ _ Ht), (bmul_ones' _ _ Hx), (bmul_ones' _ _ Hy). cbn [bind].
  eexists. split; [reflexivity|]. cbn [s_F s_dx s_dy s_bkg s_stat s_jit]. do 4 (split; [reflexivity|]).
  split; [fold (n_full m); destruct (Nat.ltb_spec (n_full m) (length x)); [unfold n_full in *; lia|reflexivity]|].
  split.
  - intros -> H0. destruct (Nat.ltb_spec (n_dphi m) (length x)); [lia|reflexivity].
  - intros ->. reflexivity.
Qed.

Lemma sort_short_multi m x nL c r : sort_atm m x = Ok (nL, c, r) -> i_wvl m <> 1%nat ->
  (n_tt m < length x)%nat -> (length x < n_tt m + 3 * (i_star m * i_wvl m))%nat -> sort_params m x = Err ValueError.
Proof.
  intros Ha Hw H1 H2. unfold sort_params. rewrite Ha. cbn [bind].
  assert (EN := sort_atm_n _ _ _ _ _ Ha). subst nL. fold (n_dphi m). cbv zeta. fold (n_tt m).
  unfold sort_stellar. destruct (Nat.ltb_spec (n_tt m) (length x)); [|lia]. cbv zeta. fold (n_full m).
  destruct (Nat.eqb_spec (i_wvl m) 1); [congruence|]. set (k := (i_star m * i_wvl m)%nat) in *. set (t := n_tt m) in *.
  assert (NF : n_full m = (t + k * 3 + i_frame m)%nat) by reflexivity.
  rewrite !seg_seg by lia.
  assert (Ly : length (seg x (t + 2 * k) (t + 3 * k)) <> k).
  { unfold seg. rewrite firstn_length, skipn_length. lia. }
  unfold reshape. fold k. destruct (_ =? k)%nat; cbn [bind]; [|reflexivity].
  destruct (_ =? k)%nat; cbn [bind]; [|reflexivity]. apply Nat.eqb_neq in Ly. rewrite Ly. reflexivity.
Qed.

(** ** polar grid *)
Lemma ceil_2PI i : (1 <= i)%nat -> (7 <= Zceil (2 * PI * INR i))%Z.
Proof.
  intros Hi. assert (P := PI2_3_2). assert (I := le_INR _ _ Hi). change (INR 1) with 1 in I.
  assert (6 < IZR (Zceil (2 * PI * INR i))).
  { eapply Rlt_le_trans; [|apply Zceil_ub]. assert (3 < PI) by lra. nra. }
  apply lt_IZR in H. lia.
Qed.
Lemma ceil_2PI_1 : Zceil (2 * PI * INR 1) = 7%Z.
Proof.
  apply Zceil_imp. assert (P := PI2_3_2). assert (Q := PI_4). cbn [INR].
  assert (PI <= 7/2).
  { destruct (PI_ineq 1) as [_ H]. unfold PI_tg, tg_alt in H. cbn in H. lra. }
  cbn. split; lra.
Qed.
Lemma ring_points_val step cap i : 0 < step -> ring_points step cap (INR i * step) =
  match cap with Some c => Z.min (Z.max 3 (Zceil (2 * PI * INR i))) c | None => Z.max 3 (Zceil (2 * PI * INR i)) end.
Proof.
  intros Hs. unfold ring_points. replace (2 * PI * (INR i * step) / step) with (2 * PI * INR i) by (field; lra). reflexivity.
Qed.
Lemma polar_loop_const step c : 0 < step -> (0 <= c <= 7)%Z -> forall n i, (1 <= i)%nat ->
  polar_loop step (Some c) i n = Ok (repeat c n).
Proof.
  intros Hs Hc. induction n as [|n IH]; intros i Hi; cbn [polar_loop repeat]; [reflexivity|].
  destruct (Req_EM_T (INR i * step) 0) as [E|E].
  - exfalso. assert (I := le_INR _ _ Hi). change (INR 1) with 1 in I. nra.
  - rewrite ring_points_val by exact Hs. assert (C := ceil_2PI i Hi).
    replace (Z.min (Z.max 3 (Zceil (2 * PI * INR i))) c) with c by lia.
    destruct (Z.ltb_spec c 0); [lia|]. rewrite IH by lia. reflexivity.
Qed.
Lemma polar_counts_val step maxr cap : 0 < step -> match cap with Some c => (0 <= c)%Z | None => True end ->
  polar_counts step maxr cap =
  Ok (match arange_len maxr step with O => [] | S n => 1%Z :: repeat (match cap with Some c => Z.min 7 c | None => 7%Z end) n end).
Proof.
  intros Hs Hc. unfold polar_counts. destruct (arange_len maxr step) as [|n]; [reflexivity|].
  cbn [polar_loop]. destruct (Req_EM_T (INR 0 * step) 0) as [E|E]; [|cbn in E; lra].
  destruct n as [|n]; [reflexivity|]. cbn [polar_loop].
  destruct (Req_EM_T (INR 1 * step) 0) as [E1|E1]; [cbn in E1; lra|].
  rewrite ring_points_val, ceil_2PI_1 by exact Hs.
  replace (match cap with Some c => Z.min (Z.max 3 7) c | None => Z.max 3 7 end) with (match cap with Some c => Z.min 7 c | None => 7%Z end) by (destruct cap; lia).
  assert (HK : (0 <= match cap with Some c => Z.min 7 c | None => 7%Z end <= 7)%Z) by (destruct cap; lia).
  set (k := match cap with Some c => Z.min 7 c | None => 7%Z end) in *.
  destruct (Z.ltb_spec k 0); [lia|]. rewrite polar_loop_const by (try lia; exact Hs). reflexivity.
Qed.
Lemma polar_point_dist cx cy ps r k t : 0 < ps -> 0 <= r ->
  let p := polar_point cx cy ps r k t in
  sqrt ((fst p - cx) ^ 2 + (snd p - cy) ^ 2) * ps = r.
Proof.
  intros Hp Hr p. unfold p, polar_point. cbn [fst snd]. set (th := INR t * (2 * PI / INR k)).
  replace ((cx + r / ps * cos th - cx) ^ 2 + (cy + r / ps * sin th - cy) ^ 2) with (Rsqr (r / ps) * (Rsqr (sin th) + Rsqr (cos th))) by (unfold Rsqr; ring).
  rewrite sin2_cos2, Rmult_1_r, sqrt_Rsqr; [field; lra|]. apply Rmult_le_pos; [exact Hr|left; apply Rinv_0_lt_compat; exact Hp].
Qed.
