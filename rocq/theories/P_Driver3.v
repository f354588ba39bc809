(** Property C102: noise at the right wavelength, repeated initialisation. *)
From Coq Require Import Reals List Arith ZArith Lia Lra Psatz Bool String.
From Verif Require Import Base_Py M_Image M_Tools S_Tools L_Tools L_Tools2 P_Tools M_Atmo S_Atmo L_Atmo P_Atmo M_Sensor M_Source M_Freq L_Freq M_Metric M_Driver P_Driver P_Driver2.
Import ListNotations.
Open Scope R_scope.

(** C102: an AO system flagged in error is left alone and nothing is computed. *)
Theorem C102_error_flag : forall nair f ao, ao_error ao = true -> initComputations nair f ao = Ok (ao, None).
Proof. intros nair f ao H. unfold initComputations. rewrite H. reflexivity. Qed.
Print Assumptions C102_error_flag.

(** C102: the initialisation changes nothing else in the AO system than the wavelength of the
    atmosphere (with its r0) and the noise variance, which becomes an array of numbers. *)
Theorem C102_side_effects : forall nair f ao ao' dr,
  0 < a_wvl (ao_atm ao) -> 0 < f_wvlRef f -> initComputations nair f ao = Ok (ao', Some dr) ->
  set_wvl (ao_atm ao) (f_wvlRef f) = Ok (ao_atm ao') /\ ao_error ao' = ao_error ao /\ ao_lgs ao' = ao_lgs ao /\ ao_ngs ao' = ao_ngs ao /\
  ao_nRec ao' = ao_nRec ao /\ ao_wfs ao' = ao_wfs ao /\
  exists nv, ao_noise ao' = NoiseArr nv /\ nv <> [] /\ dr_Wn dr = lsum nv / INR (List.length nv) / (2 * f_kcMax f) ^ 2 /\
  (forall l, ao_noise ao = NoiseArr l \/ ao_noise ao = NoiseList l -> nv = l).
Proof.
  intros nair f ao ao' dr Ha Hw H.
  destruct (init_inv _ _ _ _ _ H) as (_ & g & st & m & s & nv & a' & m' & w0 & _ & _ & _ & _ & _ & _ & Hnv & Hs & _ & Hne & HW & -> & _).
  cbn. repeat (split; [first [reflexivity|assumption]|]). exists nv. split; [reflexivity|]. split; [exact Hne|]. split.
  - unfold rdiv in HW. destruct (Req_EM_T _ 0); [discriminate|]. apply Ok_inj in HW. symmetry. exact HW.
  - unfold noise_of in Hnv. intros l [E|E]; rewrite E in Hnv.
    + destruct (1 <? List.length l)%nat; [discriminate|]. apply Ok_inj in Hnv. congruence.
    + apply Ok_inj in Hnv. congruence.
Qed.
Print Assumptions C102_side_effects.

(** C102: with no noise variance given and an atmosphere at 500 nm, the variance is the one of the
    sensor for the r0 of the atmosphere at the wavelength of the guide star, scaled to the
    reference wavelength. *)
Theorem C102_noise : forall nair f ao ao' dr w0 l,
  0 < f_wvlRef f -> 0 < w0 -> a_wvl (ao_atm ao) = 500 * / 10 ^ 9 -> ao_noise ao = NoiseNone ->
  initComputations nair f ao = Ok (ao', Some dr) -> so_wvl (dr_gs dr) = w0 :: l ->
  exists b v, set_wvl (ao_atm ao) w0 = Ok b /\ NoiseVariance (ao_wfs ao) (a_r0 b) w0 = Ok v /\
    ao_noise ao' = NoiseArr (map (fun x => x * (w0 / f_wvlRef f) ^ 2) v).
Proof.
  intros nair f ao ao' dr w0 l Hw H0 Ha Hn H Eg.
  destruct (init_inv _ _ _ _ _ H) as (_ & g & st & m & s & nv & a' & m' & w1 & _ & Hw1 & _ & _ & _ & _ & Hnv & _ & _ & _ & _ & -> & Edg & _).
  rewrite Edg in Eg. rewrite Eg in Hw1. change (pyindex (w0 :: l) 0) with (Ok w0 : result R) in Hw1. apply Ok_inj in Hw1. subst w1.
  unfold noise_of in Hnv. rewrite Hn, Eg in Hnv. change (pyindex (w0 :: l) 0) with (Ok w0 : result R) in Hnv. cbn [bind] in Hnv.
  unfold noise_at_wavelength in Hnv. assert (0 < 500 * / 10 ^ 9) by (apply Rmult_lt_0_compat; [lra|apply Rinv_0_lt_compat; apply pow_lt; lra]).
  rewrite rpow_pos in Hnv by (apply Rdiv_lt_0_compat; assumption). cbn [bind] in Hnv. bnd Hnv v Ev. rewrite rdiv_ok in Hnv by lra. cbn [bind] in Hnv. apply Ok_inj in Hnv.
  rewrite set_wvl_val by (try rewrite Ha; assumption). eexists. exists v. split; [reflexivity|]. cbn [a_r0]. rewrite Ha. replace (12/10) with (6/5) by field.
  split; [exact Ev|]. cbn. rewrite <- Hnv. reflexivity.
Qed.
Print Assumptions C102_noise.

(** C102 refuted for an atmosphere given at another wavelength: the r0 handed to the sensor is
    the correct one multiplied by (wavelength of the atmosphere / 500 nm)^(6/5). *)
Theorem C102_noise_refuted : forall nair f ao ao' dr w0 l,
  0 < f_wvlRef f -> 0 < w0 -> 0 < a_wvl (ao_atm ao) -> a_wvl (ao_atm ao) <> 500 * / 10 ^ 9 -> 0 < a_r0 (ao_atm ao) -> ao_noise ao = NoiseNone ->
  initComputations nair f ao = Ok (ao', Some dr) -> so_wvl (dr_gs dr) = w0 :: l ->
  exists b v r, set_wvl (ao_atm ao) w0 = Ok b /\ NoiseVariance (ao_wfs ao) r w0 = Ok v /\ r <> a_r0 b /\
    r = a_r0 b * Rpower (a_wvl (ao_atm ao) / (500 * / 10 ^ 9)) (6 / 5) /\
    ao_noise ao' = NoiseArr (map (fun x => x * (w0 / f_wvlRef f) ^ 2) v).
Proof.
  intros nair f ao ao' dr w0 l Hw H0 Ha Hne Hr Hn H Eg.
  destruct (init_inv _ _ _ _ _ H) as (_ & g & st & m & s & nv & a' & m' & w1 & _ & Hw1 & _ & _ & _ & _ & Hnv & _ & _ & _ & _ & -> & Edg & _).
  rewrite Edg in Eg. rewrite Eg in Hw1. change (pyindex (w0 :: l) 0) with (Ok w0 : result R) in Hw1. apply Ok_inj in Hw1. subst w1.
  unfold noise_of in Hnv. rewrite Hn, Eg in Hnv. change (pyindex (w0 :: l) 0) with (Ok w0 : result R) in Hnv. cbn [bind] in Hnv.
  unfold noise_at_wavelength in Hnv. set (n5 := 500 * / 10 ^ 9) in *. assert (P5 : 0 < n5) by (apply Rmult_lt_0_compat; [lra|apply Rinv_0_lt_compat; apply pow_lt; lra]).
  rewrite rpow_pos in Hnv by (apply Rdiv_lt_0_compat; assumption). cbn [bind] in Hnv. bnd Hnv v Ev. rewrite rdiv_ok in Hnv by lra. cbn [bind] in Hnv. apply Ok_inj in Hnv.
  rewrite set_wvl_val by assumption. eexists. exists v, (a_r0 (ao_atm ao) * Rpower (w0 / n5) (6/5)). split; [reflexivity|]. cbn [a_r0]. replace (12/10) with (6/5) by field.
  split; [exact Ev|].
  assert (Eq : a_r0 (ao_atm ao) * Rpower (w0 / n5) (6/5) = a_r0 (ao_atm ao) * Rpower (w0 / a_wvl (ao_atm ao)) (6/5) * Rpower (a_wvl (ao_atm ao) / n5) (6/5)).
  { rewrite Rmult_assoc. f_equal. rewrite Rpower_mult_distr by (apply Rdiv_lt_0_compat; assumption). f_equal. field. lra. }
  split; [|split; [exact Eq|cbn; rewrite <- Hnv; reflexivity]].
  rewrite Eq. set (c := a_r0 (ao_atm ao) * _). assert (Hc : 0 < c) by (apply Rmult_lt_0_compat; [exact Hr|apply Rpower_pos]).
  intros E. assert (E1 : Rpower (a_wvl (ao_atm ao) / n5) (6/5) = 1) by (apply Rmult_eq_reg_l with c; lra).
  apply Hne. assert (X : a_wvl (ao_atm ao) / n5 = 1).
  { assert (Hp : 0 < a_wvl (ao_atm ao) / n5) by (apply Rdiv_lt_0_compat; assumption).
    rewrite <- (Rpower_1 (a_wvl (ao_atm ao) / n5) Hp). replace 1 with (6/5 * (5/6)) by field. rewrite <- Rpower_mult, E1. rewrite Rpower_1_base. field. }
  apply Rmult_eq_compat_r with (r := n5) in X. unfold Rdiv in X. rewrite Rmult_assoc, Rinv_l in X by lra. lra.
Qed.
Print Assumptions C102_noise_refuted.

(** two models that agree on everything the reconstructor and the spectra read (the per-layer
    r0 stored inside the modelled atmosphere is not read) *)
Definition same_model (d d' : drv) : Prop :=
  dr_gs d = dr_gs d' /\ dr_nGs d = dr_nGs d' /\ dr_stretch d = dr_stretch d' /\ dr_n_ref d = dr_n_ref d' /\ dr_n_gs d = dr_n_gs d' /\
  dr_stretch_mod d = dr_stretch_mod d' /\ dr_Wn d = dr_Wn d' /\
  a_wvl (dr_mod d) = a_wvl (dr_mod d') /\ a_r0 (dr_mod d) = a_r0 (dr_mod d') /\ a_w (dr_mod d) = a_w (dr_mod d') /\
  a_h (dr_mod d) = a_h (dr_mod d') /\ a_v (dr_mod d) = a_v (dr_mod d') /\ a_d (dr_mod d) = a_d (dr_mod d') /\ a_L0 (dr_mod d) = a_L0 (dr_mod d').

Lemma atm_fields wvl r0 w h v d L m : atmosphere wvl r0 w h v d (Scal L) = Ok m ->
  a_wvl m = wvl /\ a_r0 m = r0 /\ a_w m = w /\ a_h m = h /\ a_v m = v /\ a_d m = d /\ a_L0 m = LNum L.
Proof. unfold atmosphere. cbn [parse_L0 bind fst snd]. intros H. bnd H ls E. apply Ok_inj in H. subst m. cbn. repeat split. Qed.
Lemma make_layer_pos r0 w h v d L i : (exists l, make_layer r0 w h v d L i = Ok l) -> forall r1, 0 < r0 -> 0 < r1 -> (forall x, In x w -> 0 < x) ->
  exists l, make_layer r1 w h v d L i = Ok l.
Proof.
  intros [l E] r1 Hr Hr1 Hw. unfold make_layer in E |- *. bnd E wl E1. rewrite rpow_pos in E by assumption. cbn [bind] in E. bnd E r E2. bnd E hl E3. bnd E Ll E4. bnd E vl E5. bnd E dl E6.
  rewrite E1. cbn [bind]. rewrite rpow_pos by assumption. cbn [bind].
  assert (0 < wl). { apply Hw. unfold pyindex in E1. destruct (orb _ _); [discriminate|]. destruct (nth_error w _) as [z|] eqn:Ez; [|discriminate]. apply Ok_inj in E1. subst z. apply nth_error_In with (1 := Ez). }
  rewrite rpow_pos by (apply Rmult_lt_0_compat; [assumption|apply Rpower_pos]). cbn [bind]. rewrite E3, E4, E5, E6. cbn [bind]. eauto.
Qed.
Lemma mapM_exists {A B} (f g : A -> result B) l r : mapM f l = Ok r -> (forall a, In a l -> (exists b, f a = Ok b) -> exists b, g a = Ok b) -> exists r', mapM g l = Ok r'.
Proof.
  revert r. induction l as [|a l IH]; intros r E H; cbn in *. { eauto. }
  bnd E b Eb. bnd E r' Er. destruct (H a (or_introl eq_refl)) as [b' ->]; [eauto|]. cbn [bind].
  destruct (IH r' Er) as [r'' ->]; [intros x Hx; apply H; right; exact Hx|]. cbn [bind]. eauto.
Qed.
Lemma atm_rebuild wvl r0 wvl1 r1 w h v d L m : atmosphere wvl r0 w h v d (Scal L) = Ok m -> 0 < r0 -> 0 < r1 -> (forall x, In x w -> 0 < x) ->
  exists m1, atmosphere wvl1 r1 w h v d (Scal L) = Ok m1.
Proof.
  unfold atmosphere. cbn [parse_L0 bind fst snd]. intros H Hr Hr1 Hw. bnd H ls E.
  destruct (mapM_exists _ (make_layer r1 w h (spread (List.length w) v) (spread (List.length w) d) (repeat L (List.length w))) _ _ E) as [ls' E'].
  { intros i _ Hi. apply (make_layer_pos r0); assumption. }
  rewrite E'. cbn [bind]. eauto.
Qed.

(** C102: initialising again the same model (or another model built on the same AO system and
    frequency domain) with one wavefront sensor: either the field of view check now fails, or
    the second initialisation gives the same model and leaves the AO system unchanged. *)
Theorem C102_rerun : forall nair f ao ao1 d1,
  0 < f_wvlRef f -> regular ao -> (forall n, ao_nRec ao = Some n -> (1 <= n)%nat) ->
  initComputations nair f ao = Ok (ao1, Some d1) ->
  (exists x, ao_noise ao1 = NoiseArr [x]) ->
  match fov_check (f_kc f) (f_wvlRef f) (f_ps f) (f_nOtf f) with
  | Ok _ => exists d2, initComputations nair f ao1 = Ok (ao1, Some d2) /\ same_model d1 d2
  | Err e => initComputations nair f ao1 = Err e
  end.
Proof.
  intros nair f ao ao1 d1 Hw (vs & ds & L & Ev & Ed & EL & V & Hh) Hn H [x Hx].
  assert (V' := V). destruct V' as (Vw & Vr & Vn & Vp & Vh & Vv & Vd).
  destruct (init_inv _ _ _ _ _ H) as (He & g & st & m & s & nv & a' & m' & w0 & Hg & Hw0 & Hn1 & Hn2 & Hm & _ & Hnv & Ha & Hm' & Hne & HW & -> & Edg & Edn & Eds & Edsm & Edm).
  cbn in Hx. injection Hx as ->.
  rewrite set_wvl_val in Ha by assumption. apply Ok_inj in Ha. set (r1 := a_r0 (ao_atm ao) * Rpower (f_wvlRef f / a_wvl (ao_atm ao)) (12/10)) in *.
  assert (Hr1 : 0 < r1) by (apply Rmult_lt_0_compat; [assumption|apply Rpower_pos]).
  set (ao1 := mkAO _ _ _ _ _ _ _) in *.
  assert (Hg1 : guide ao1 = Ok (g, st)).
  { unfold guide, ao1. cbn [ao_lgs ao_ngs ao_atm]. rewrite <- Ha. cbn [a_h]. exact Hg. }
  assert (Hm1 : exists m1, modelled ao1 g st = Ok (m1, s) /\ a_wvl m1 = f_wvlRef f /\ a_r0 m1 = r1 /\ a_w m1 = a_w m /\ a_h m1 = a_h m /\ a_v m1 = a_v m /\ a_d m1 = a_d m /\ a_L0 m1 = a_L0 m /\ a_wvl m = a_wvl (ao_atm ao) /\ a_r0 m = a_r0 (ao_atm ao)).
  { unfold modelled in Hm |- *. unfold ao1. cbn [ao_atm ao_nRec ao_lgs]. rewrite <- Ha. cbn [a_wvl a_r0 a_w a_h a_v a_d a_L0]. rewrite Ev, Ed, EL in Hm |- *. cbn [L0_arg] in *.
    assert (KK : forall w h v d m0 s0, (forall y, In y w -> 0 < y) ->
       atmosphere (a_wvl (ao_atm ao)) (a_r0 (ao_atm ao)) w h v d (Scal L) = Ok m0 ->
       exists m1, (do m <- atmosphere (f_wvlRef f) r1 w h v d (Scal L); Ok (m, s0)) = Ok (m1, s0 : sol R) /\ a_wvl m1 = f_wvlRef f /\ a_r0 m1 = r1 /\ a_w m1 = a_w m0 /\ a_h m1 = a_h m0 /\ a_v m1 = a_v m0 /\ a_d m1 = a_d m0 /\ a_L0 m1 = a_L0 m0 /\ a_wvl m0 = a_wvl (ao_atm ao) /\ a_r0 m0 = a_r0 (ao_atm ao)).
    { intros w h v d m0 s0 Hpos E0. destruct (atm_rebuild _ _ (f_wvlRef f) r1 _ _ _ _ _ _ E0 Vr Hr1 Hpos) as [m1 E1]. rewrite E1. cbn [bind]. exists m1. split; [reflexivity|].
      destruct (atm_fields _ _ _ _ _ _ _ _ E0) as (-> & -> & -> & -> & -> & -> & ->). destruct (atm_fields _ _ _ _ _ _ _ _ E1) as (-> & -> & -> & -> & -> & -> & ->). repeat split. }
    destruct (ao_nRec ao) as [n|].
    - destruct (Nat.ltb_spec n (List.length (a_w (ao_atm ao)))) as [Hlt|Hge].
      + bnd Hm e E1. bnd Hm v E2. bnd Hm d E3. bnd Hm s' E4. bnd Hm mm E5. apply Ok_inj in Hm. injection Hm as -> ->.
        rewrite E1. cbn [bind]. rewrite E2, E3. cbn [bind]. rewrite E4. cbn [bind]. destruct e as [c' h']. cbn [fst snd] in *.
        destruct (eq_weights _ _ n c' h' ltac:(symmetry; exact Vh) ltac:(specialize (Hn n eq_refl); lia) Vp Hh E1) as (_ & _ & Pc & _).
        apply KK; assumption.
      + bnd Hm mm E5. apply Ok_inj in Hm. injection Hm as -> ->. apply KK; assumption.
    - bnd Hm mm E5. apply Ok_inj in Hm. injection Hm as -> ->. apply KK; assumption. }
  destruct Hm1 as (m1 & Em1 & F1 & F2 & F3 & F4 & F5 & F6 & F7 & F8 & F9).
  unfold initComputations. assert (He1 : ao_error ao1 = false) by exact He. assert (Hno1 : ao_noise ao1 = NoiseArr [x]) by reflexivity. rewrite He1. rewrite Hg1. cbn [bind fst snd]. rewrite Hn1. cbn [bind]. rewrite Hw0. cbn [bind]. rewrite Hn2. cbn [bind]. rewrite Em1. cbn [bind].
  replace (a_wvl (ao_atm ao1)) with (f_wvlRef f) by (unfold ao1; cbn [ao_atm]; rewrite <- Ha; reflexivity).
  destruct (fov_check _ _ _ _) as [u|e]; [|reflexivity]. cbn [bind]. unfold noise_of. rewrite Hno1. cbn [List.length]. change (1 <? 1)%nat with false. cbv iota. cbn [bind].
  assert (W1 : set_wvl (ao_atm ao1) (f_wvlRef f) = Ok (ao_atm ao1)).
  { pose proof (C15_reversible (ao_atm ao1) []) as Hrev. cbn [app S_Atmo.set_wvls] in Hrev.
    assert (Ew : a_wvl (ao_atm ao1) = f_wvlRef f) by (unfold ao1; cbn [ao_atm]; rewrite <- Ha; reflexivity).
    rewrite Ew in Hrev. specialize (Hrev Hw ltac:(intros y [])). destruct (set_wvl (ao_atm ao1) (f_wvlRef f)); cbn [bind] in Hrev; [exact Hrev|discriminate]. }
  rewrite W1. cbn [bind fst snd]. rewrite set_wvl_val by (try rewrite F1; assumption). cbn [bind fst snd].
  change (match [x] with [] => Err NonFinite | _ :: _ => rdiv (lsum [x] / INR (List.length [x])) ((2 * f_kcMax f) ^ 2) end) with (rdiv (lsum [x] / INR (List.length [x])) ((2 * f_kcMax f) ^ 2)).
  rewrite HW. cbn [bind]. eexists. split. { unfold ao1. cbn. rewrite He. reflexivity. }
  rewrite set_wvl_val in Hm' by (try rewrite F8; assumption). apply Ok_inj in Hm'.
  unfold same_model. cbn. rewrite Edg, Edn, Eds, Edsm, Edm, <- Hm'. cbn. rewrite F2, F3, F4, F5, F6, F7, F1, F8, F9.
  repeat (split; [reflexivity|]). split; [|repeat split].
  fold r1. replace (f_wvlRef f / f_wvlRef f) with 1 by (field; lra). rewrite Rpower_1_base. ring.
Qed.
Print Assumptions C102_rerun.

(** C102 refuted (an AO system can be used twice) with several wavefront sensors: once the noise
    variances are stored, every new initialisation on that AO system stops with ValueError. *)
Lemma fov_err kc aw ps n e : fov_check kc aw ps n = Err e -> e = ValueError.
Proof.
  unfold fov_check. destruct (flat_map _ _) as [|a l]; cbn; [congruence|]. destruct (Rlt_dec _ _); congruence.
Qed.
Theorem C102_several_sensors_refuted : forall nair f ao ao1 d1 x y l,
  0 < f_wvlRef f -> regular ao -> (forall n, ao_nRec ao = Some n -> (1 <= n)%nat) ->
  initComputations nair f ao = Ok (ao1, Some d1) -> ao_noise ao1 = NoiseArr (x :: y :: l) ->
  initComputations nair f ao1 = Err ValueError.
Proof.
  intros nair f ao ao1 d1 x y l Hw Hreg Hn H Hx.
  pose (ao1' := mkAO (ao_error ao1) (ao_atm ao1) (ao_lgs ao1) (ao_ngs ao1) (ao_nRec ao1) (ao_wfs ao1) (NoiseArr [1])).
  (* run the single-sensor theorem on the same system with one variance *)
  pose (aoS := mkAO (ao_error ao) (ao_atm ao) (ao_lgs ao) (ao_ngs ao) (ao_nRec ao) (ao_wfs ao) (NoiseArr [1])).
  destruct (init_inv _ _ _ _ _ H) as (He & g & st & m & s & nv & a' & m' & w0 & Hg & Hw0 & Hn1 & Hn2 & Hm & Hf & Hnv & Ha & Hm' & Hne & HW & Eao & Edg & Edn & Eds & Edsm & Edm).
  assert (Hkc : (2 * f_kcMax f) ^ 2 <> 0). { unfold rdiv in HW. destruct (Req_EM_T _ 0); [discriminate|assumption]. }
  assert (HS : exists dS, initComputations nair f aoS = Ok (ao1', Some dS)).
  { unfold initComputations, aoS. cbn [ao_error]. rewrite He.
    assert (G1 : guide (mkAO false (ao_atm ao) (ao_lgs ao) (ao_ngs ao) (ao_nRec ao) (ao_wfs ao) (NoiseArr [1])) = Ok (g, st)) by exact Hg.
    rewrite G1. cbn [bind fst snd]. rewrite Hn1. cbn [bind]. rewrite Hw0. cbn [bind]. rewrite Hn2. cbn [bind].
    assert (G2 : modelled (mkAO false (ao_atm ao) (ao_lgs ao) (ao_ngs ao) (ao_nRec ao) (ao_wfs ao) (NoiseArr [1])) g st = Ok (m, s)) by exact Hm.
    rewrite G2. cbn [bind ao_atm]. rewrite Hf. cbn [bind]. unfold noise_of. cbn [ao_noise List.length]. change (1 <? 1)%nat with false. cbv iota. cbn [bind]. rewrite Ha. cbn [bind fst snd]. rewrite Hm'. cbn [bind].
    rewrite rdiv_ok by exact Hkc. cbn [bind]. eexists. unfold ao1'. rewrite Eao. cbn. rewrite He. reflexivity. }
  destruct HS as [dS HS].
  assert (HregS : regular aoS) by exact Hreg.
  pose proof (C102_rerun nair f aoS ao1' dS Hw HregS Hn HS (ex_intro _ 1 eq_refl)) as HR.
  destruct (fov_check (f_kc f) (f_wvlRef f) (f_ps f) (f_nOtf f)) as [u|e] eqn:Ef.
  - destruct HR as (d2 & HR & _). destruct (init_inv _ _ _ _ _ HR) as (He2 & g2 & st2 & m2 & s2 & nv2 & a2 & m2' & w2 & Hg2 & Hw2 & Hn12 & Hn22 & Hm2 & Hf2 & _).
    unfold initComputations. change (ao_error ao1') with (ao_error ao1) in He2. rewrite He2.
    assert (G1 : guide ao1 = Ok (g2, st2)) by exact Hg2. rewrite G1. cbn [bind fst snd]. rewrite Hn12. cbn [bind]. rewrite Hw2. cbn [bind]. rewrite Hn22. cbn [bind].
    assert (G2 : modelled ao1 g2 st2 = Ok (m2, s2)) by exact Hm2. rewrite G2. cbn [bind].
    assert (G3 : fov_check (f_kc f) (a_wvl (ao_atm ao1)) (f_ps f) (f_nOtf f) = Ok tt) by exact Hf2. rewrite G3. cbn [bind].
    unfold noise_of. rewrite Hx. reflexivity.
  - pose proof (fov_err _ _ _ _ _ Ef) as ->. clear HS.
    assert (Hw1 : a_wvl (ao_atm ao1) = f_wvlRef f). { rewrite Eao. cbn [ao_atm]. unfold set_wvl in Ha. bnd Ha q Q. bnd Ha p P. apply Ok_inj in Ha. subst a'. reflexivity. }
    unfold initComputations in HR |- *. change (ao_error ao1') with (ao_error ao1) in HR. destruct (ao_error ao1); [discriminate|].
    change (guide ao1') with (guide ao1) in HR. destruct (guide ao1) as [[g2 st2]|]; cbn [bind fst snd] in HR |- *; [|exact HR].
    destruct (nair (f_wvlRef f)); cbn [bind] in HR |- *; [|exact HR]. destruct (pyindex (so_wvl g2) 0) as [w2|]; cbn [bind] in HR |- *; [|exact HR].
    destruct (nair w2); cbn [bind] in HR |- *; [|exact HR]. change (modelled ao1' g2 st2) with (modelled ao1 g2 st2) in HR.
    destruct (modelled ao1 g2 st2); cbn [bind] in HR |- *; [|exact HR]. rewrite Hw1, Ef. reflexivity.
Qed.
Print Assumptions C102_several_sensors_refuted.

(** C102 refuted with one wavefront sensor: the field of view check uses the wavelength the first
    initialisation left in the atmosphere, so a system accepted once can be refused the second
    time. *)
Definition ex_f2 : fdom := mkFdom [1] 1 [1000000000] 300 1000.
Theorem C102_fov_refuted : exists nair f ao ao1 d1,
  regular ao /\ 0 < f_wvlRef f /\ initComputations nair f ao = Ok (ao1, Some d1) /\ (exists x, ao_noise ao1 = NoiseArr [x]) /\
  initComputations nair f ao1 = Err ValueError.
Proof.
  pose (ao := ex_ao 90000 (Some 2%nat) (NoiseArr [3])). pose (nair := fun _ : R => Ok 1).
  assert (E : exists ao' dr, initComputations nair ex_f2 ao = Ok (ao', Some dr) /\ ao_noise ao' = NoiseArr [3]).
  { destruct (C101_succeeds nair ex_f2 ao (ex_src 90000) [3]) as (ao' & dr & E & En & _); try reflexivity; try (cbn; lra); try discriminate.
    - apply ex_regular.
    - apply ex_guide. lra.
    - intros n Hn. injection Hn as <-. lia.
    - intros w. exists 1. reflexivity.
    - apply ex_fov. left. cbn. split; [reflexivity|lra].
    - eauto. }
  destruct E as (ao1 & d1 & E & En). exists nair, ex_f2, ao, ao1, d1.
  assert (Hreg : regular ao) by apply ex_regular. split; [exact Hreg|]. split; [cbn; lra|]. split; [exact E|]. split; [eauto|].
  pose proof (C102_rerun nair ex_f2 ao ao1 d1 ltac:(cbn; lra) Hreg ltac:(intros n Hn; injection Hn as <-; lia) E (ex_intro _ 3 En)) as HR.
  change (f_kc ex_f2) with [1] in HR. change (f_ps ex_f2) with [1000000000] in HR. rewrite fov1 in HR. cbn [f_wvlRef f_nOtf ex_f2] in HR.
  pose proof rad2mas_bounds. destruct (Rlt_dec _ _) as [|N]; [exact HR|]. exfalso. apply N. lra.
Qed.
Print Assumptions C102_fov_refuted.
(** both outcomes of C102_rerun happen *)
Example C102_rerun_nonvacuous : exists ao1 d1 d2, initComputations (fun _ => Ok 1) ex_f (ex_ao 90000 (Some 2%nat) (NoiseList [3])) = Ok (ao1, Some d1) /\
  initComputations (fun _ => Ok 1) ex_f ao1 = Ok (ao1, Some d2).
Proof.
  destruct (C101_succeeds (fun _ => Ok 1) ex_f (ex_ao 90000 (Some 2%nat) (NoiseList [3])) (ex_src 90000) [3]) as (ao' & dr & E & En & _); try reflexivity; try (cbn; lra); try discriminate.
  - apply ex_regular.
  - apply ex_guide. lra.
  - intros n Hn. injection Hn as <-. lia.
  - intros w. exists 1. reflexivity.
  - apply ex_fov. left. cbn. split; [reflexivity|lra].
  - pose proof (C102_rerun (fun _ => Ok 1) ex_f _ ao' dr ltac:(cbn; lra) (ex_regular 90000 (Some 2%nat) (NoiseList [3])) ltac:(intros n Hn; injection Hn as <-; lia) E (ex_intro _ 3 En)) as HR.
    change (f_kc ex_f) with [1] in HR. change (f_ps ex_f) with [1000000000] in HR. rewrite ex_fov in HR by (right; cbn; split; [reflexivity|lra]).
    destruct HR as (d2 & HR & _). eauto.
Qed.
Example C102_several_nonvacuous : exists ao1 d1, initComputations (fun _ => Ok 1) ex_f (ex_ao 90000 (Some 2%nat) (NoiseList [3; 4])) = Ok (ao1, Some d1) /\
  ao_noise ao1 = NoiseArr [3; 4] /\ dr_Wn d1 = 7 / 8.
Proof.
  destruct (C101_succeeds (fun _ => Ok 1) ex_f (ex_ao 90000 (Some 2%nat) (NoiseList [3; 4])) (ex_src 90000) [3; 4]) as (ao' & dr & E & En & Ew); try reflexivity; try (cbn; lra); try discriminate.
  - apply ex_regular.
  - apply ex_guide. lra.
  - intros n Hn. injection Hn as <-. lia.
  - intros w. exists 1. reflexivity.
  - apply ex_fov. left. cbn. split; [reflexivity|lra].
  - exists ao', dr. split; [exact E|]. split; [exact En|]. rewrite Ew. cbn. lra.
Qed.
