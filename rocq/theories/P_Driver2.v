(** Property C101 continued: the initialisation succeeds on regular systems; guide stars at
    height 0 or below a layer. Property C102: order of the steps, repeated initialisation. *)
From Coq Require Import Reals List Arith ZArith Lia Lra Psatz Bool String.
From Verif Require Import Base_Py M_Image M_Tools S_Tools L_Tools L_Tools2 P_Tools M_Atmo S_Atmo L_Atmo P_Atmo M_Sensor M_Source M_Freq L_Freq M_Metric M_Driver P_Driver.
Import ListNotations.
Open Scope R_scope.

(** the guide star of a regular system: a natural star, or a laser star above all layers *)
Definition guide_ok (ao : aosys) (g : source) : Prop :=
  so_wvl g <> [] /\
  ((ao_lgs ao = None /\ ao_ngs ao = Some g) \/
   (ao_lgs ao = Some g /\ exists H, nth_error (so_h g) 0 = Some H /\ 0 < H /\ forall h, In h (a_h (ao_atm ao)) -> h < H)).

Lemma eq_weights c h n c' h' : length c = length h -> (1 <= n <= length c)%nat -> (forall x, In x c -> 0 < x) -> (forall x, In x h -> 0 <= x) ->
  eqLayers (5/3) c h n = Ok (c', h') -> length c' = n /\ length h' = n /\ (forall x, In x c' -> 0 < x) /\
  (forall x, In x h' -> 0 <= x /\ exists y, In y h /\ x <= y).
Proof.
  intros HL Hn Vp Hh E0.
  destruct (C05_eqLayers (5/3) c h n ltac:(lra) HL ltac:(lia) ltac:(lia) Vp Hh) as (c1 & h1 & segs & E & Lc & Lh & Ls & Cc & Nn & K & T & M & SV).
  rewrite E in E0. apply Ok_inj in E0. injection E0 as -> ->. split; [exact Lc|]. split; [exact Lh|]. split.
  - intros x Hx. destruct (In_nth_error _ _ Hx) as [i Hi].
    assert (Hil : (i < n)%nat) by (rewrite <- Lc; apply nth_error_Some; congruence).
    destruct (nth_error segs i) as [sg|] eqn:Es; [|apply nth_error_None in Es; lia].
    destruct (nth_error h' i) as [ai|] eqn:Eh; [|apply nth_error_None in Eh; lia].
    destruct (SV i sg x ai Es Hi Eh) as (Ex & _). subst x.
    assert (Hs : sg <> []) by (apply Nn; apply nth_error_In with i; exact Es).
    assert (Hall : forall y, In y sg -> 0 < fst y).
    { intros y Hy. apply Vp. assert (In y (concat segs)) by (apply in_concat; exists sg; split; [apply nth_error_In with i; exact Es|exact Hy]).
      rewrite Cc in H. destruct y as [y1 y2]. apply in_combine_l in H. exact H. }
    clear -Hs Hall. unfold weight. destruct sg as [|y sg]; [congruence|]. cbn [map total].
    assert (0 <= total (map fst sg)).
    { induction sg as [|z sg IH]; cbn [map total]; [lra|]. assert (0 < fst z) by (apply Hall; right; left; reflexivity).
      assert (0 <= total (map fst sg)); [|lra]. apply IH; [discriminate|]. intros w [Hw|Hw]; apply Hall; [left; exact Hw|right; right; exact Hw]. }
    assert (0 < fst y) by (apply Hall; left; reflexivity). lra.
  - intros x Hx. destruct (In_nth_error _ _ Hx) as [i Hi].
    assert (Hil : (i < n)%nat) by (rewrite <- Lh; apply nth_error_Some; congruence).
    destruct (nth_error segs i) as [sg|] eqn:Es; [|apply nth_error_None in Es; lia].
    destruct (nth_error c' i) as [ci|] eqn:Ec; [|apply nth_error_None in Ec; lia].
    destruct (SV i sg ci x Es Ec Hi) as (_ & S0 & _ & _ & (z & Hz & Hxa)). split; [exact S0|]. exists (snd z). split; [|exact Hxa].
    assert (Hin : In z (concat segs)) by (apply in_concat; exists sg; split; [apply nth_error_In with i; exact Es|exact Hz]).
    rewrite Cc in Hin. destruct z as [z1 z2]. apply in_combine_r in Hin. exact Hin.
Qed.

(** C101: the initialisation of a regular system succeeds as soon as the field of view check
    passes and a noise variance is available. *)
Theorem C101_succeeds : forall nair f ao g nv,
  ao_error ao = false -> 0 < f_wvlRef f -> f_kcMax f <> 0 -> regular ao -> guide_ok ao g ->
  (forall n, ao_nRec ao = Some n -> (1 <= n)%nat) -> (forall w, exists x, nair w = Ok x) ->
  fov_check (f_kc f) (a_wvl (ao_atm ao)) (f_ps f) (f_nOtf f) = Ok tt ->
  noise_of ao g (f_wvlRef f) = Ok nv -> nv <> [] ->
  exists ao' dr, initComputations nair f ao = Ok (ao', Some dr) /\ ao_noise ao' = NoiseArr nv /\
    dr_Wn dr = lsum nv / INR (length nv) / (2 * f_kcMax f) ^ 2.
Proof.
  intros nair f ao g nv He Hw Hk (vs & ds & L & Ev & Ed & EL & V & Hh) (Hgw & Hg) Hn Hair Hfov Hnv Hne.
  assert (Vd := V). destruct Vd as (Vw & Vr & Vn & Vp & Vh & Vv & Vd). unfold initComputations. rewrite He.
  assert (Eg : exists st, guide ao = Ok (g, st)).
  { unfold guide. destruct Hg as [[-> ->]|(-> & H & HH & H0 & Hl)]; [eexists; reflexivity|].
    rewrite (pyindex_some (so_h g) 0 H HH : pyindex (so_h g) 0 = Ok H). cbn [bind]. destruct (Req_EM_T H 0); [lra|].
    rewrite (mapM_map _ (fun h => H / (H - h))); [cbn [bind]; eexists; reflexivity|]. intros h Hi. apply stretch1_val. split; [apply Hh|apply Hl]; exact Hi. }
  destruct Eg as [st Eg]. rewrite Eg. cbn [bind fst snd]. destruct (Hair (f_wvlRef f)) as [n1 ->]. cbn [bind].
  destruct (so_wvl g) as [|w0 wl] eqn:Ew; [congruence|]. change (pyindex (w0 :: wl) 0) with (Ok w0 : result R). cbn [bind]. destruct (Hair w0) as [n2 ->]. cbn [bind].
  assert (EM : exists m s, modelled ao g st = Ok (m, s) /\ 0 < a_wvl m).
  { unfold modelled. set (kp := do m <- atmosphere _ _ (a_w (ao_atm ao)) _ _ _ _; _).
    assert (Ek : exists m s, kp = Ok (m, s) /\ 0 < a_wvl m).
    { unfold kp. rewrite Ev, Ed, EL. cbn [L0_arg]. rewrite atmosphere_val by exact V. cbn [bind]. do 2 eexists. split; [reflexivity|]. exact Vw. }
    destruct (ao_nRec ao) as [n|]; [|exact Ek]. destruct (Nat.ltb_spec n (List.length (a_w (ao_atm ao)))) as [Hlt|]; [|exact Ek].
    specialize (Hn n eq_refl).
    destruct (C05_eqLayers (5/3) (a_w (ao_atm ao)) (a_h (ao_atm ao)) n ltac:(lra) ltac:(congruence) ltac:(lia) ltac:(lia) Vp Hh) as (c' & h' & segs & E & _).
    destruct (eq_weights (a_w (ao_atm ao)) (a_h (ao_atm ao)) n c' h' ltac:(congruence) ltac:(lia) Vp Hh E) as (Lc & Lh & Pc & Ph).
    rewrite E. cbn [bind fst snd]. rewrite Ev, Ed.
    destruct (wind_line_ok vs n) as (v & -> & Lv). { intros ->. cbn in Vv. destruct (a_w (ao_atm ao)); [congruence|discriminate]. }
    destruct (wind_line_ok ds n) as (d & -> & Ld). { intros ->. cbn in Vd. destruct (a_w (ao_atm ao)); [congruence|discriminate]. }
    cbn [bind]. set (hm := if (n =? 1)%nat then [0] else h').
    assert (Lhm : List.length hm = n) by (unfold hm; destruct (Nat.eqb_spec n 1); [cbn; congruence|exact Lh]).
    assert (Es : exists s, match ao_lgs ao with Some _ => do H <- pyindex (so_h g) 0; do l <- mapM (stretch1_mod H) hm; Ok (Lst l) | None => Ok (Scal 1) end = Ok s).
    { destruct Hg as [[-> _]|(-> & H & HH & H0 & Hl)]; [eexists; reflexivity|].
      rewrite (pyindex_some (so_h g) 0 H HH : pyindex (so_h g) 0 = Ok H). cbn [bind].
      rewrite (mapM_map _ (fun h => H / (H - h))); [cbn [bind]; eexists; reflexivity|].
      intros h Hi. unfold stretch1_mod. destruct (Req_EM_T H 0); [lra|]. apply stretch1_val. unfold hm in Hi. destruct (n =? 1)%nat.
      - destruct Hi as [<-|[]]. lra.
      - destruct (Ph h Hi) as (P0 & y & Hy & Hxy). specialize (Hl y Hy). lra. }
    destruct Es as [s ->]. cbn [bind]. rewrite EL. cbn [L0_arg]. rewrite atmosphere_val.
    2:{ split; [exact Vw|]. split; [exact Vr|]. split; [intros ->; cbn in Lc; lia|]. split; [exact Pc|]. split; [congruence|]. split; congruence. }
    cbn [bind]. do 2 eexists. split; [reflexivity|]. exact Vw. }
  destruct EM as (m & s & -> & Hmw). cbn [bind fst snd]. rewrite Hfov. cbn [bind]. rewrite Hnv. cbn [bind].
  rewrite set_wvl_val by assumption. cbn [bind]. rewrite set_wvl_val by assumption. cbn [bind].
  destruct nv as [|x nv]; [congruence|]. rewrite rdiv_ok. 2:{ apply pow_nonzero. lra. }
  cbn [bind]. do 2 eexists. split; [reflexivity|]. split; reflexivity.
Qed.
Print Assumptions C101_succeeds.

(** a system with four layers, a laser guide star at 90 km and two reconstructed layers *)
Definition ex_atm : atmo :=
  mkAtmo 500 (1/10) [1/4; 1/4; 1/4; 1/4] [0; 1000; 5000; 10000] (Lst [5; 20; 15; 10]) (Lst [0; 90; 180; 270]) (LNum (Fin 25)) [].
Definition ex_sensor : sensor := mkSensor ""%string ""%string [] [] [].
Definition ex_src (H : R) : source := mkSource [589] [0] [0] [H] 1 1.
Definition ex_ao (H : R) (n : option nat) (nv : noise_attr) : aosys :=
  mkAO false ex_atm (Some (ex_src H)) None n ex_sensor nv.
Definition ex_f : fdom := mkFdom [1] 1 [1000000000] 1000 1000.
Lemma ex_regular H n nv : regular (ex_ao H n nv).
Proof.
  exists [5; 20; 15; 10], [0; 90; 180; 270], (Fin 25). cbn. split; [reflexivity|]. split; [reflexivity|]. split; [reflexivity|]. split.
  - split; [lra|]. split; [lra|]. split; [discriminate|]. split; [|repeat split]. intros x Hx. repeat (destruct Hx as [<-|Hx]; [lra|]). destruct Hx.
  - intros x Hx. repeat (destruct Hx as [<-|Hx]; [lra|]). destruct Hx.
Qed.
Lemma rad2mas_bounds : 162000000 <= rad2mas <= 216000000.
Proof.
  unfold rad2mas. assert (H : 3 < PI) by (pose proof PI2_3_2 as H; unfold PI2 in H; lra). assert (H4 := PI_4).
  split.
  - apply Rmult_le_reg_r with PI; [lra|]. unfold Rdiv. rewrite Rmult_assoc, Rinv_l by lra. lra.
  - apply Rmult_le_reg_r with PI; [lra|]. unfold Rdiv. rewrite Rmult_assoc, Rinv_l by lra. lra.
Qed.
Lemma fov1 k aw p n : fov_check [k] aw [p] n = if Rlt_dec (IZR n) (2 * (k * aw * rad2mas) / p) then Err ValueError else Ok tt.
Proof. reflexivity. Qed.
Lemma ex_fov aw n : (aw = 500 /\ 216 <= IZR n) \/ (aw = 1000 /\ 432 <= IZR n) -> fov_check [1] aw [1000000000] n = Ok tt.
Proof.
  intros H. rewrite fov1. pose proof rad2mas_bounds. destruct (Rlt_dec _ _) as [L|]; [|reflexivity]. exfalso.
  destruct H as [[-> H]|[-> H]]; lra.
Qed.
Lemma ex_guide H n nv : 10000 < H -> guide_ok (ex_ao H n nv) (ex_src H).
Proof.
  intros HH. split; [discriminate|]. right. split; [reflexivity|]. exists H. split; [reflexivity|]. split; [lra|].
  cbn. intros x Hx. repeat (destruct Hx as [<-|Hx]; [lra|]). destruct Hx.
Qed.
Example C101_nonvacuous : exists ao' dr, initComputations (fun _ => Ok 1) ex_f (ex_ao 90000 (Some 2%nat) (NoiseArr [3])) = Ok (ao', Some dr) /\
  List.length (a_w (dr_mod dr)) = 2%nat /\ total (a_w (dr_mod dr)) = 1 /\ a_v (dr_mod dr) = Lst [5; 20] /\ dr_Wn dr = 3 / 4 /\
  exists s, dr_stretch dr = Lst s /\ nth_error s 3 = Some (9 / 8).
Proof.
  destruct (C101_succeeds (fun _ => Ok 1) ex_f (ex_ao 90000 (Some 2%nat) (NoiseArr [3])) (ex_src 90000) [3]) as (ao' & dr & E & En & Ew);
    try reflexivity; try (cbn; lra); try discriminate.
  - apply ex_regular.
  - apply ex_guide. lra.
  - intros n Hn. injection Hn as <-. lia.
  - intros w. exists 1. reflexivity.
  - apply ex_fov. left. cbn. split; [reflexivity|lra].
  - exists ao', dr. split; [exact E|].
    destruct (C101_modelled (fun _ => Ok 1) ex_f (ex_ao 90000 (Some 2%nat) (NoiseArr [3])) ao' dr 2 ltac:(cbn; lra) (ex_regular _ _ _) eq_refl ltac:(cbn; lia) E) as (L1 & _ & _ & T & _ & _ & (vs & vm & lo & hi & V1 & V2 & V3 & V4 & V5) & _).
    split; [exact L1|]. split; [rewrite T; cbn; lra|].
    cbn in V1. injection V1 as <-.
    assert (lo = 5). { destruct V3 as [I M]. cbn in I. specialize (M 5 ltac:(cbn; auto)). destruct I as [<-|[<-|[<-|[<-|[]]]]]; lra. }
    assert (hi = 20). { destruct V4 as [I M]. cbn in I. specialize (M 20 ltac:(cbn; auto)). destruct I as [<-|[<-|[<-|[<-|[]]]]]; lra. }
    subst lo hi. destruct V5 as (VL & _ & VN). specialize (VN (le_n 2)). pose proof (VN 0%nat ltac:(lia)) as N0. pose proof (VN 1%nat ltac:(lia)) as N1.
    destruct vm as [|v0 [|v1 [|]]]; try discriminate. cbn in N0, N1. injection N0 as N0. injection N1 as N1.
    split; [rewrite V2; f_equal; subst v0 v1; f_equal; [lra|f_equal; lra]|].
    split; [rewrite Ew; cbn; lra|].
    destruct (C101_stretch_lgs (fun _ => Ok 1) ex_f (ex_ao 90000 (Some 2%nat) (NoiseArr [3])) ao' dr (ex_src 90000) 90000 eq_refl eq_refl ltac:(lra) ltac:(cbn; lra) (ex_regular _ _ _)
      ltac:(cbn; intros x Hx; repeat (destruct Hx as [<-|Hx]; [lra|]); destruct Hx) ltac:(intros n Hn; injection Hn as <-; lia) E) as (_ & _ & S1 & _).
    rewrite S1. eexists. split; [reflexivity|]. cbn. f_equal. lra.
Qed.

(** C101 refuted (a guide star at height 0 leaves the altitudes of the modelled layers unchanged):
    when sources_LO is present, a guide star of height 0 is handled as a laser star; with fewer
    reconstructed layers than turbulent layers, the altitude of every modelled layer is then
    multiplied by 0 - or the factor is not a number, always so with one reconstructed layer -
    although the layers of the atmosphere are not stretched. *)
Theorem C101_zero_height_refuted : forall nair f ao ao' dr g n,
  ao_lgs ao = Some g -> nth_error (so_h g) 0 = Some 0 -> regular ao ->
  ao_nRec ao = Some n -> (1 <= n < List.length (a_w (ao_atm ao)))%nat ->
  initComputations nair f ao = Ok (ao', Some dr) ->
  (2 <= n)%nat /\ dr_stretch dr = Scal 1 /\ dr_stretch_mod dr = Lst (repeat 0 n) /\ (forall h, In h (a_h (dr_mod dr)) -> h <> 0).
Proof.
  intros nair f ao ao' dr g n Hl H0 (vs & ds & L & Ev & Ed & EL & V & Hh) Hn Hlt HI.
  destruct (init_inv _ _ _ _ _ HI) as (_ & g' & st & m0 & s & nv & a' & m' & w0 & Hg & _ & _ & _ & Hm & _ & _ & Ha & Hm' & _ & _ & Eao & Edg & Edn & Eds & Edm & Edmod).
  assert (PH : pyindex (so_h g) 0 = Ok 0) by exact (pyindex_some (so_h g) 0 0 H0).
  unfold guide in Hg. rewrite Hl, PH in Hg. cbn [bind] in Hg. destruct (Req_EM_T 0 0) as [_|]; [|lra]. apply Ok_inj in Hg. injection Hg as <- <-.
  unfold modelled in Hm. rewrite Hn, Hl, PH in Hm. destruct (Nat.ltb_spec n (List.length (a_w (ao_atm ao)))); [|lia].
  bnd Hm e E1. bnd Hm v E2. bnd Hm d E3. cbn [bind] in Hm. bnd Hm s' E4. bnd E4 l' E4'. apply Ok_inj in E4. subst s'. bnd Hm mm E5. apply Ok_inj in Hm. injection Hm as <- <-.
  destruct e as [c' h']. cbn [fst snd] in *.
  destruct V as (Vw & Vr & Vn & Vp & Vh & Vv & Vd).
  destruct (eq_weights _ _ n c' h' ltac:(symmetry; exact Vh) ltac:(lia) Vp Hh E1) as (Lc & Lh & _ & _).
  set (hm := if (n =? 1)%nat then [0] else h') in *.
  assert (Lhm : List.length hm = n) by (unfold hm; destruct (Nat.eqb_spec n 1); [cbn; congruence|exact Lh]).
  assert (G : forall hs l, mapM (stretch1_mod 0) hs = Ok l -> l = repeat 0 (List.length hs) /\ forall h, In h hs -> h <> 0).
  { induction hs as [|h hs IH]; intros l E; cbn in E. { apply Ok_inj in E. subst l. split; [reflexivity|intros h []]. }
    unfold stretch1_mod in E at 1. destruct (Req_EM_T 0 0) as [_|]; [|lra]. destruct (Req_EM_T h 0) as [|Hz]; [discriminate|]. cbn [bind] in E.
    bnd E r Er. apply Ok_inj in E. subst l. destruct (IH r Er) as [-> IH2]. split; [reflexivity|]. intros x [<-|Hx]; [exact Hz|apply IH2; exact Hx]. }
  destruct (G _ _ E4') as [-> Gz]. rewrite Lhm in Edm. rewrite Eds, Edm.
  split. { destruct (Nat.eq_dec n 1) as [->|]; [|lia]. exfalso. apply (Gz 0); [left; reflexivity|reflexivity]. }
  split; [reflexivity|]. split; [reflexivity|].
  assert (Eh : a_h (dr_mod dr) = hm).
  { rewrite Edmod. unfold set_wvl in Hm'. bnd Hm' q Q. bnd Hm' p P. apply Ok_inj in Hm'. subst m'. cbn [a_h].
    unfold atmosphere in E5. bnd E5 p0 P0. bnd E5 ls LS. apply Ok_inj in E5. subst mm. reflexivity. }
  rewrite Eh. exact Gz.
Qed.
Print Assumptions C101_zero_height_refuted.

(** C101 refuted (a laser guide star below a turbulent layer is refused): the layer gets a
    negative stretching factor. *)
Theorem C101_above_refuted : forall nair f ao ao' dr g H,
  ao_lgs ao = Some g -> nth_error (so_h g) 0 = Some H -> 0 < H -> ao_nRec ao = None ->
  initComputations nair f ao = Ok (ao', Some dr) ->
  dr_stretch_mod dr = dr_stretch dr /\ exists l, dr_stretch dr = Lst l /\
  forall i h, nth_error (a_h (ao_atm ao)) i = Some h -> H < h -> exists x, nth_error l i = Some x /\ x < 0 /\ x * h = H * h / (H - h).
Proof.
  intros nair f ao ao' dr g H Hl HH H0 Hn HI.
  destruct (init_inv _ _ _ _ _ HI) as (_ & g' & st & m0 & s & nv & a' & m' & w0 & Hg & _ & _ & _ & Hm & _ & _ & Ha & Hm' & _ & _ & Eao & Edg & Edn & Eds & Edm & Edmod).
  assert (PH : pyindex (so_h g) 0 = Ok H) by exact (pyindex_some (so_h g) 0 H HH).
  unfold guide in Hg. rewrite Hl, PH in Hg. cbn [bind] in Hg. destruct (Req_EM_T H 0) as [|_]; [lra|]. bnd Hg l El. apply Ok_inj in Hg. injection Hg as <- <-.
  unfold modelled in Hm. rewrite Hn in Hm. bnd Hm mm E5. apply Ok_inj in Hm. injection Hm as <- <-.
  rewrite Edm, Eds. split; [reflexivity|]. exists l. split; [reflexivity|].
  clear - El H0. generalize dependent l. generalize (a_h (ao_atm ao)) as hs. induction hs as [|h hs IH]; intros l El i k Hi Hk; [destruct i; discriminate|].
  cbn in El. bnd El x Ex. bnd El r Er. apply Ok_inj in El. subst l. destruct i as [|i].
  - cbn in Hi. injection Hi as ->. exists x. split; [reflexivity|]. unfold stretch1 in Ex. unfold rdiv in Ex. destruct (Req_EM_T _ 0); [discriminate|]. apply Ok_inj in Ex. subst x.
    assert (E : 1 / (1 - k / H) = H / (H - k)) by (field; lra). rewrite E. split; [|field; lra].
    assert (/ (H - k) < 0) by (apply Rinv_lt_0_compat; lra). unfold Rdiv. nra.
  - cbn in Hi. apply (IH r Er i k Hi Hk).
Qed.
Print Assumptions C101_above_refuted.
Example C101_above_nonvacuous : exists ao' dr, initComputations (fun _ => Ok 1) ex_f (ex_ao 8000 None (NoiseArr [3])) = Ok (ao', Some dr) /\
  exists l, dr_stretch dr = Lst l /\ nth_error l 3 = Some (-4).
Proof.
  assert (E : exists ao' dr, initComputations (fun _ => Ok 1) ex_f (ex_ao 8000 None (NoiseArr [3])) = Ok (ao', Some dr)).
  { unfold initComputations, ex_ao, guide. cbn [ao_error ao_lgs ao_atm ex_src so_h]. change (pyindex [8000] 0) with (Ok 8000). cbn [bind].
    destruct (Req_EM_T 8000 0); [lra|]. unfold ex_atm. cbn [a_h]. rewrite (mapM_map _ (fun h => 8000 / (8000 - h))).
    2:{ intros h Hi. destruct Hi as [<-|[<-|[<-|[<-|[]]]]]; unfold stretch1; rewrite rdiv_ok by lra; f_equal; field. }
    cbn [bind fst snd so_wvl]. change (pyindex (so_wvl (ex_src 8000)) 0) with (Ok 589). cbn [bind]. unfold modelled. cbn [ao_atm ao_nRec a_L0 L0_arg a_wvl a_r0 a_w a_h a_v a_d].
    rewrite atmosphere_val. 2:{ destruct (ex_regular 8000 None (NoiseArr [3])) as (vs & ds & L & E1 & E2 & E3 & V & _). cbn in E1, E2, V. injection E1 as <-. injection E2 as <-. exact V. }
    cbn [bind]. change (f_kc ex_f) with [1]. change (f_ps ex_f) with [1000000000]. rewrite ex_fov by (left; cbn; split; [reflexivity|lra]). cbn [bind fst snd].
    unfold noise_of. cbn [ao_noise List.length Nat.ltb Nat.leb bind]. rewrite set_wvl_val by (cbn; lra). cbn [bind]. rewrite set_wvl_val by (cbn; lra). cbn [bind].
    rewrite rdiv_ok by (cbn; lra). cbn [bind]. eauto. }
  destruct E as (ao' & dr & E). exists ao', dr. split; [exact E|].
  destruct (C101_above_refuted (fun _ => Ok 1) ex_f (ex_ao 8000 None (NoiseArr [3])) ao' dr (ex_src 8000) 8000 eq_refl eq_refl ltac:(lra) eq_refl E) as (_ & l & El & Hl). exists l. split; [exact El|].
  destruct (Hl 3%nat 10000 eq_refl ltac:(lra)) as (x & Hx & _ & Hv). rewrite Hx. f_equal. lra.
Qed.
Example C101_zero_height_nonvacuous : exists ao' dr, initComputations (fun _ => Ok 1) ex_f (ex_ao 0 (Some 2%nat) (NoiseArr [3])) = Ok (ao', Some dr) /\
  dr_stretch_mod dr = Lst [0; 0].
Proof.
  assert (E : exists ao' dr, initComputations (fun _ => Ok 1) ex_f (ex_ao 0 (Some 2%nat) (NoiseArr [3])) = Ok (ao', Some dr)).
  { unfold initComputations, ex_ao, guide. cbn [ao_error ao_lgs ao_atm ex_src so_h]. change (pyindex [0] 0) with (Ok 0). cbn [bind].
    destruct (Req_EM_T 0 0); [|lra].
    cbn [bind fst snd so_wvl]. change (pyindex (so_wvl (ex_src 0)) 0) with (Ok 589). cbn [bind]. unfold modelled. cbn [ao_atm ao_nRec ao_lgs].
    destruct (ex_regular 0 (Some 2%nat) (NoiseArr [3])) as (vs & ds & L & E1 & E2 & E3 & V & Hh). cbn in E1, E2, E3. injection E1 as <-. injection E2 as <-. injection E3 as <-.
    cbn [ao_atm ex_ao] in V, Hh.
    destruct (C05_eqLayers (5/3) (a_w ex_atm) (a_h ex_atm) 2 ltac:(lra) eq_refl ltac:(lia) ltac:(cbn; lia) ltac:(apply V) Hh) as (c' & h' & segs & E & Lc & Lh & Ls & Cc & Nn & K & T & M & SV).
    destruct (eq_weights (a_w ex_atm) (a_h ex_atm) 2 c' h' eq_refl ltac:(cbn; lia) ltac:(apply V) Hh E) as (_ & _ & Pc & _).
    change (2 <? List.length (a_w ex_atm))%nat with true. cbv iota. rewrite E. cbn [bind fst snd Nat.eqb].
    destruct (wind_line_ok [5; 20; 15; 10] 2 ltac:(discriminate)) as (v & Ev & Lv).
    destruct (wind_line_ok [0; 90; 180; 270] 2 ltac:(discriminate)) as (d & Ed & Ld).
    change (a_v ex_atm) with (Lst [5; 20; 15; 10]). change (a_d ex_atm) with (Lst [0; 90; 180; 270]). rewrite Ev, Ed. cbn [bind].
    change (pyindex (so_h (ex_src 0)) 0) with (Ok 0). cbn [bind].
    assert (Hz : forall h, In h h' -> h <> 0).
    { destruct (K 0%nat ltac:(lia)) as (s0 & Es0 & Ls0).
      destruct segs as [|sa [|sb [|]]]; try discriminate. cbn in Es0. injection Es0 as <-. cbn in Ls0. cbn in Cc. rewrite app_nil_r in Cc.
      destruct sa as [|a0 [|a1 [|]]]; try discriminate. cbn in Cc. injection Cc as -> -> ->.
      intros h Hh'. destruct (In_nth_error _ _ Hh') as [i Hi]. destruct i as [|[|i]].
      - destruct (nth_error c' 0) as [c0|] eqn:E0; [|apply nth_error_None in E0; lia].
        destruct (SV 0%nat _ c0 h eq_refl E0 Hi) as (_ & _ & Hmom & _). intros ->. unfold moment in Hmom. cbn in Hmom.
        unfold hpow in Hmom. destruct (Req_EM_T 0 0); [|lra]. destruct (Req_EM_T 1000 0); [lra|]. pose proof (Rpower_pos 1000 (5/3)). lra.
      - destruct (nth_error c' 1) as [c0|] eqn:E0; [|apply nth_error_None in E0; lia].
        destruct (SV 1%nat _ c0 h eq_refl E0 Hi) as (_ & _ & _ & (x & Hx & Hle) & _). cbn in Hx. destruct Hx as [<-|[<-|[]]]; cbn in Hle; lra.
      - assert (nth_error h' (S (S i)) <> None) by congruence. apply nth_error_Some in H. lia. }
    rewrite (mapM_map _ (fun _ => 0)).
    2:{ intros h Hi. unfold stretch1_mod. destruct (Req_EM_T 0 0); [|lra]. destruct (Req_EM_T h 0) as [->|]; [exfalso; apply (Hz 0 Hi); reflexivity|reflexivity]. }
    cbn [bind]. change (a_L0 ex_atm) with (LNum (Fin 25)). cbn [L0_arg]. rewrite atmosphere_val.
    2:{ split; [cbn; lra|]. split; [cbn; lra|]. split; [intros ->; discriminate|]. split; [exact Pc|]. split; [congruence|split; congruence]. }
    cbn [bind fst snd]. change (f_kc ex_f) with [1]. change (f_ps ex_f) with [1000000000]. rewrite ex_fov by (left; cbn; split; [reflexivity|lra]). cbn [bind].
    unfold noise_of. cbn [ao_noise List.length Nat.ltb Nat.leb bind]. rewrite set_wvl_val by (cbn; lra). cbn [bind]. rewrite set_wvl_val by (cbn; lra). cbn [bind].
    rewrite rdiv_ok by (cbn; lra). cbn [bind]. eauto. }
  destruct E as (ao' & dr & E). exists ao', dr. split; [exact E|].
  destruct (C101_zero_height_refuted (fun _ => Ok 1) ex_f (ex_ao 0 (Some 2%nat) (NoiseArr [3])) ao' dr (ex_src 0) 2 eq_refl eq_refl (ex_regular _ _ _) eq_refl ltac:(cbn; lia) E) as (_ & _ & El & _). exact El.
Qed.
