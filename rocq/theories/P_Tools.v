(** Properties C05, C09, C11: layer compression, parameter splitting, polar grid. *)
From Coq Require Import Reals List Arith ZArith Lia Lra Psatz Sorting.Sorted.
From Flocq Require Import Core.Raux.
From Verif Require Import Base_Py M_Tools S_Tools L_Tools L_Tools2.
Import ListNotations.
Open Scope R_scope.

(** C05: [segs] are the slabs (lists of (weight, altitude)). *)
Theorem C05_eqLayers :
  forall (p : R) (Cn2 h : list R) (n : nat), 0 < p -> length Cn2 = length h -> (1 <= n)%nat -> (n <= length Cn2)%nat ->
  (forall c, In c Cn2 -> 0 < c) -> (forall a, In a h -> 0 <= a) ->
  exists c' h' segs, eqLayers p Cn2 h n = Ok (c', h') /\ length c' = n /\ length h' = n /\
    length segs = n /\ concat segs = combine Cn2 h /\ (forall s, In s segs -> s <> []) /\
    (forall k, (k < n - 1)%nat -> exists s, nth_error segs k = Some s /\ length s = (length Cn2 / n)%nat) /\
    total c' = total Cn2 /\ moment p (combine c' h') = moment p (combine Cn2 h) /\
    forall i s c a, nth_error segs i = Some s -> nth_error c' i = Some c -> nth_error h' i = Some a ->
      c = weight s /\ 0 <= a /\ c * hpow a p = moment p s /\
      (exists x, In x s /\ snd x <= a) /\ (exists x, In x s /\ a <= snd x).
Proof.
  intros p c h n Hp HL H1 H2 Hc Hh.
  assert (G : good (combine c h)).
  { intros [x y] Hx. split; [apply Hc; eapply in_combine_l; exact Hx|apply Hh; eapply in_combine_r; exact Hx]. }
  destruct (eqLayers_val p c h n Hp HL G H1 H2) as (segs & E & L & C & F & K).
  exists (map fst (map (seg_val p) segs)), (map snd (map (seg_val p) segs)), segs.
  split; [exact E|]. split; [rewrite !map_length; exact L|]. split; [rewrite !map_length; exact L|]. split; [exact L|]. split; [exact C|].
  split; [rewrite Forall_forall in F; intros s Hs; apply F; exact Hs|]. split; [exact K|].
  split; [rewrite concat_weight', C; unfold weight; rewrite combine_fst by exact HL; reflexivity|].
  split; [rewrite combine_map_fst_snd, concat_moment, C by assumption; reflexivity|].
  intros i s w a Hs Hw Ha. rewrite !nth_error_map, Hs in Hw, Ha. cbn [option_map] in Hw, Ha. injection Hw as <-. injection Ha as <-.
  rewrite Forall_forall in F. destruct (F s (nth_error_In _ _ Hs)) as [Fn Fg].
  split; [reflexivity|]. exact (seg_val_spec p s Fn Fg Hp).
Qed.
Print Assumptions C05_eqLayers.
Theorem C05_refused : forall p Cn2 h n, (length Cn2 < n)%nat -> eqLayers p Cn2 h n = Err ValueError.
Proof. intros p c h n H. unfold eqLayers. destruct (Nat.ltb_spec (length c) n); [reflexivity|lia]. Qed.
Print Assumptions C05_refused.
(** C05: as many layers as in the input: unchanged; ordered altitudes stay ordered. *)
Theorem C05_identity :
  forall (p : R) (Cn2 h : list R), 0 < p -> length Cn2 = length h -> (1 <= length Cn2)%nat ->
  (forall c, In c Cn2 -> 0 < c) -> (forall a, In a h -> 0 <= a) ->
  eqLayers p Cn2 h (length Cn2) = Ok (Cn2, h).
Proof.
  intros p c h Hp HL H1 Hc Hh.
  assert (G : good (combine c h)).
  { intros [x y] Hx. split; [apply Hc; eapply in_combine_l; exact Hx|apply Hh; eapply in_combine_r; exact Hx]. }
  destruct (eqLayers_val p c h (length c) Hp HL G H1 (le_n _)) as (segs & E & L & C & F & K).
  rewrite E, segs_single, C; try assumption.
  - rewrite combine_fst, combine_snd by exact HL. reflexivity.
  - rewrite C, combine_length, L. lia.
Qed.
Print Assumptions C05_identity.
Theorem C05_order :
  forall (p : R) (Cn2 h c' h' : list R) (n : nat), 0 < p -> length Cn2 = length h -> (1 <= n)%nat -> (n <= length Cn2)%nat ->
  (forall c, In c Cn2 -> 0 < c) -> (forall a, In a h -> 0 <= a) -> StronglySorted Rle h ->
  eqLayers p Cn2 h n = Ok (c', h') -> StronglySorted Rle h'.
Proof.
  intros p c h c' h' n Hp HL H1 H2 Hc Hh S E'.
  assert (G : good (combine c h)).
  { intros [x y] Hx. split; [apply Hc; eapply in_combine_l; exact Hx|apply Hh; eapply in_combine_r; exact Hx]. }
  destruct (eqLayers_val p c h n Hp HL G H1 H2) as (segs & E & L & C & F & K).
  rewrite E in E'. apply Ok_inj in E'. injection E' as <- <-. apply segs_sorted; try assumption.
  rewrite C, combine_snd by exact HL. exact S.
Qed.
Print Assumptions C05_order.
Example C05_nonvacuous : exists c h, eqLayers (5/3) [1; 2; 3; 4; 5] [0; 1; 2; 3; 4] 2 = Ok (c, h) /\ total c = 15 /\ nth_error c 1 = Some 12.
Proof.
  destruct (C05_eqLayers (5/3) [1; 2; 3; 4; 5] [0; 1; 2; 3; 4] 2) as (c & h & segs & E & L & L' & Ls & Cc & Nn & K & T & M & V);
    [lra|reflexivity|lia|cbn; lia| | |].
  - cbn. intros x Hx. repeat (destruct Hx as [ <-|Hx]; [lra|]). destruct Hx.
  - cbn. intros x Hx. repeat (destruct Hx as [ <-|Hx]; [lra|]). destruct Hx.
  - exists c, h. split; [exact E|]. split; [rewrite T; cbn; lra|].
    destruct (K 0%nat) as (s & Hs & Hl); [lia|]. destruct segs as [|s0 [|s1 [|]]]; try discriminate. cbn in Hs. injection Hs as ->.
    destruct s as [|a [|b [|]]]; try discriminate. cbn [concat app combine] in Cc. injection Cc as -> -> Es. rewrite app_nil_r in Es.
    destruct c as [|c0 [|c1 [|]]]; try discriminate. destruct h as [|h0 [|h1 [|]]]; try discriminate.
    destruct (V 1%nat s1 c1 h1) as (W & _); try reflexivity. cbn. rewrite W, Es. cbn. f_equal. lra.
Qed.

(** C09: position of each group in the parameter vector. n_tt: atmospheric +
    phase + jitter parameters; n_full: everything up to the background. *)
Theorem C09_split_multi :
  forall m x s, sort_params m x = Ok s -> i_wvl m <> 1%nat -> (n_full m <= length x)%nat -> (n_tt m < length x)%nat ->
  x = atm_head (s_Cn2 s) (s_r0 s) ++ opt_list (s_dphi s) ++ opt_list (s_jit s)
      ++ concat (s_F s) ++ concat (s_dx s) ++ concat (s_dy s) ++ s_bkg s ++ opt_list (s_stat s) /\
  (length (s_F s) = i_star m /\ length (s_dx s) = i_star m /\ length (s_dy s) = i_star m) /\
  Forall (fun row => length row = i_wvl m) (s_F s ++ s_dx s ++ s_dy s) /\
  length (s_bkg s) = i_frame m /\ length (opt_list (s_dphi s)) = i_dphi m /\
  length (opt_list (s_jit s)) = (if i_jit m then 3 else 0)%nat /\
  (forall l, s_Cn2 s = Some l -> exists v, s_r0 s = Some v /\ v = Rpower (total l) (- 3 / 5)).
Proof. exact sort_full_multi. Qed.
Print Assumptions C09_split_multi.
Theorem C09_split_mono :
  forall m x s, sort_params m x = Ok s -> i_wvl m = 1%nat -> (n_full m <= length x)%nat -> (n_tt m < length x)%nat ->
  exists fl ax ay : list R,
  x = atm_head (s_Cn2 s) (s_r0 s) ++ opt_list (s_dphi s) ++ opt_list (s_jit s)
      ++ fl ++ ax ++ ay ++ s_bkg s ++ opt_list (s_stat s) /\
  length fl = i_star m /\ length ax = i_star m /\ length ay = i_star m /\
  s_F s = map (fun f => map (fun t => f * t) (i_trans m)) fl /\
  s_dx s = map (fun d => map (fun t => d + t) (i_dispx m)) ax /\
  s_dy s = map (fun d => map (fun t => d + t) (i_dispy m)) ay /\
  length (s_bkg s) = i_frame m /\ length (opt_list (s_dphi s)) = i_dphi m /\
  length (opt_list (s_jit s)) = (if i_jit m then 3 else 0)%nat.
Proof. exact sort_full_mono. Qed.
Print Assumptions C09_split_mono.
Theorem C09_defaults :
  forall m x nL c r, sort_atm m x = Ok (nL, c, r) -> (length x <= n_tt m)%nat ->
  length (i_trans m) = i_wvl m -> length (i_dispx m) = i_wvl m -> length (i_dispy m) = i_wvl m ->
  exists s, sort_params m x = Ok s /\ s_F s = repeat (i_trans m) (i_star m) /\ s_dx s = repeat (i_dispx m) (i_star m) /\
    s_dy s = repeat (i_dispy m) (i_star m) /\ s_bkg s = repeat 0 (i_wvl m) /\ s_stat s = None /\
    (i_jit m = true -> (length x <= n_dphi m)%nat -> s_jit s = Some (i_spot m)) /\ (i_jit m = false -> s_jit s = None).
Proof. exact sort_defaults. Qed.
Print Assumptions C09_defaults.
(** C09: an incomplete object description is refused with several wavelengths ... *)
Theorem C09_short_multi :
  forall m x nL c r, sort_atm m x = Ok (nL, c, r) -> i_wvl m <> 1%nat ->
  (n_tt m < length x)%nat -> (length x < n_tt m + 3 * (i_star m * i_wvl m))%nat -> sort_params m x = Err ValueError.
Proof. exact sort_short_multi. Qed.
Print Assumptions C09_short_multi.
(** ... but silently accepted with one wavelength: one flux and no position
    gives an empty list of positions (finding). *)
Theorem C09_short_mono_refuted :
  forall f, exists m x s, i_star m = 1%nat /\ i_wvl m = 1%nat /\ x = [f] /\ (length x < n_full m)%nat /\
    sort_params m x = Ok s /\ s_dx s = [] /\ s_dy s = [] /\ s_bkg s = [].
Proof.
  intros f. exists (mkInst 0 1 1 0 false [] 1 1 1 [1] [0] [0]), [f]. eexists. repeat split; cbn; try reflexivity; try lia.
Qed.
Print Assumptions C09_short_mono_refuted.
Example C09_nonvacuous :
  let m := mkInst 1 2 2 1 true [0; 0; 0] 1 2 1 [1; 1] [0; 0] [0; 0] in
  let x := [1; 2; 3; 4; 5; 6; 7; 8; 9; 10; 11; 12; 13; 14] in
  exists s, sort_params m x = Ok s /\ s_dphi s = Some [3] /\ s_jit s = Some [4; 5; 6] /\ s_F s = [[7; 8]] /\ s_dx s = [[9; 10]]
    /\ s_bkg s = [13] /\ s_stat s = Some [14].
Proof.
  cbv zeta. unfold sort_params, sort_atm, i_atm, i_nL, i_nRec. cbn [Nat.ltb Nat.leb andb firstn lsum fold_right]. unfold rpow.
  destruct (Rlt_dec (1 + (2 + 0)) 0); [lra|]. destruct (Req_EM_T (1 + (2 + 0)) 0); [lra|]. cbn [bind]. eexists. split; [reflexivity|]. cbn. repeat split.
Qed.

(** C11: number of azimuth samples of each ring (ring 0 is the centre): the
    count is frozen at its value for the first ring. *)
Theorem C11_ring_counts :
  forall step maxr cap, 0 < step -> match cap with Some c => (0 <= c)%Z | None => True end ->
  polar_counts step maxr cap =
  Ok (match arange_len maxr step with O => [] | S n => 1%Z :: repeat (match cap with Some c => Z.min 7 c | None => 7%Z end) n end).
Proof. exact polar_counts_val. Qed.
Print Assumptions C11_ring_counts.
(** C11 refuted: ring i should get min(cap, max(3, ceil(2 pi i))) points. With
    the default cap (180), no ring beyond the first does. *)
Theorem C11_adaptive_refuted :
  forall step maxr counts i k, 0 < step -> polar_counts step maxr (Some 180%Z) = Ok counts ->
  (2 <= i)%nat -> nth_error counts i = Some k ->
  (k = 7 /\ k < Z.min 180 (Z.max 3 (Zceil (2 * PI * (INR i * step) / step))))%Z.
Proof.
  intros step maxr counts i k Hs E Hi Hk. rewrite C11_ring_counts in E by (try lia; exact Hs). apply Ok_inj in E. subst counts.
  assert (k = 7%Z).
  { destruct (arange_len maxr step) as [|n]; [destruct i; discriminate|]. destruct i as [|i]; [lia|]. cbn [nth_error] in Hk.
    apply nth_error_In in Hk. apply repeat_spec in Hk. rewrite Hk. reflexivity. }
  split; [exact H|]. subst k. replace (2 * PI * (INR i * step) / step) with (2 * PI * INR i) by (field; lra).
  assert (P := PI2_3_2). assert (I := le_INR _ _ Hi). change (INR 2) with 2 in I.
  assert (12 < IZR (Zceil (2 * PI * INR i))) by (eapply Rlt_le_trans; [|apply Zceil_ub]; assert (3 < PI) by lra; nra).
  apply lt_IZR in H. lia.
Qed.
Print Assumptions C11_adaptive_refuted.
Theorem C11_radius :
  forall cx cy ps r k t, 0 < ps -> 0 <= r ->
  let p := polar_point cx cy ps r k t in sqrt ((fst p - cx) ^ 2 + (snd p - cy) ^ 2) * ps = r.
Proof. exact polar_point_dist. Qed.
Print Assumptions C11_radius.
Example C11_nonvacuous : polar_counts 1 3 (Some 180%Z) = Ok [1; 7; 7]%Z.
Proof.
  rewrite C11_ring_counts by (try lia; lra). unfold arange_len.
  replace (3 / 1) with (IZR 3) by lra. rewrite Zceil_IZR. reflexivity.
Qed.
