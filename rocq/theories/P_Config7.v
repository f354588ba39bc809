(** A concrete accepted parameter file (non-vacuity of C32-C36), the theoretical
    error budget, and findings about the reading of the file. *)
From Coq Require Import Reals List Arith ZArith String Ascii Bool Lra Lia Psatz.
From Flocq Require Import Core.Raux Core.Generic_fmt Core.Round_NE.
From Verif Require Import Base_Py M_Tools M_Atmo M_Sensor M_Source M_Config S_Config L_Tools2 L_Config L_Config2 L_Atmo P_Config P_Config5 P_Config6.
Import ListNotations.
Open Scope R_scope.
Open Scope string_scope.

(** ** Theoretical error budget *)
Lemma rad2nm_nonneg a x r : 0 <= a_wvl a -> rad2nm a x = Ok r -> 0 <= r.
Proof.
  intros Hw H. unfold rad2nm in H. bnext H s E. apply Ok_inj in H. subst r. unfold npsqrt in E. destruct (Rlt_dec x 0); [discriminate|]. apply Ok_inj in E. subst s.
  pose proof PI_RGT_0. pose proof (sqrt_pos x). unfold Rdiv. apply Rmult_le_pos; [|left; now apply Rinv_0_lt_compat].
  apply Rmult_le_pos; [|lra]. apply Rmult_le_pos; [|lra]. now apply Rmult_le_pos.
Qed.
Theorem C57_budget_identity : forall t a d w tts r lgs src b, budget_of t a d w tts r lgs src = Ok b ->
  b_total b ^ 2 = b_fit b ^ 2 + b_alias b ^ 2 + b_servo b ^ 2 + b_noise b ^ 2 + b_ttservo b ^ 2 + b_ttnoise b ^ 2 + b_cone b ^ 2 /\
  0 <= b_total b /\
  (exists w0 rest, so_wvl src = w0 :: rest /\ w0 <> 0 /\ b_strehl b = exp (- (b_total b * (2 * PI / 10 ^ 9 / w0)) ^ 2)) /\
  0 < b_strehl b <= 1 /\
  (ttloop r = None \/ tts = None -> b_ttservo b = 0 /\ b_ttnoise b = 0) /\ (lgs = None -> b_cone b = 0).
Proof.
  intros t a d w tts r lgs src b H. unfold budget_of in H.
  bnext H q E1. bnext H Dr E2. bnext H p0 E3. bnext H q1 E4. bnext H da E5. bnext H ds E6. bnext H q2 E7. bnext H dw E8. bnext H fit E9. bnext H ali E10.
  bnext H nc E11. cbv zeta in H. bnext H ss E12. bnext H mw E13. bnext H bw E14. bnext H q3 E15. bnext H q4 E16. bnext H srv E17. bnext H nv E18. bnext H mnv E19.
  bnext H noi E20. bnext H tt E21. bnext H cone E22. bnext H w0 E23. bnext H iw E24. apply Ok_inj in H. subst b. cbn [b_total b_fit b_alias b_servo b_noise b_ttservo b_ttnoise b_cone b_strehl].
  set (S := fit ^ 2 + ali ^ 2 + srv ^ 2 + noi ^ 2 + fst tt ^ 2 + snd tt ^ 2 + cone ^ 2).
  assert (HS : 0 <= S) by (unfold S; nra).
  split; [rewrite pow2_sqrt by exact HS; reflexivity|]. split; [apply sqrt_pos|]. split; [|split].
  - unfold pyindex in E23. cbn in E23. destruct (so_wvl src) as [|x l]; [discriminate|]. cbn in E23. apply Ok_inj in E23. subst x.
    exists w0, l. unfold rdiv in E24. destruct (Req_EM_T w0 0); [discriminate|]. apply Ok_inj in E24. subst iw. split; [reflexivity|]. split; [assumption|]. f_equal. ring.
  - split; [apply exp_pos|]. rewrite <- exp_0. assert (L : - sqrt S ^ 2 * iw ^ 2 <= 0) by (pose proof (pow2_ge_0 (sqrt S)); pose proof (pow2_ge_0 iw); nra).
    destruct L as [L|L]; [left; now apply exp_increasing|rewrite L; lra].
  - split.
    + intros Hn. assert (E : match ttloop r, tts with Some l, Some x => Some (l, x) | _, _ => None end = None) by (destruct Hn as [-> | ->]; [reflexivity|destruct (ttloop r); reflexivity]).
      rewrite E in E21. apply Ok_inj in E21. subst tt. auto.
    + intros ->. now apply Ok_inj in E22.
Qed.
(** the terms, in nanometres: fitting 0.23 (d/r0)^(5/3), aliasing 0.07 (dsub/r0)^(5/3) rad^2 *)
Theorem C57_budget_fitting : forall t a d w tts r lgs src b p l o os,
  budget_of t a d w tts r lgs src = Ok b -> 0 < a_r0 a -> dm_pitch (dd_dm d) = p :: l -> 0 < p -> s_opt (w_sensor w) = o :: os -> 0 < o_dsub o ->
  b_fit b = sqrt (23 / 100 * Rpower (p / a_r0 a) (5 / 3)) * (a_wvl a / (2 * PI)) * 10 ^ 9 /\
  b_alias b = sqrt (7 / 100 * Rpower (o_dsub o / a_r0 a) (5 / 3)) * (a_wvl a / (2 * PI)) * 10 ^ 9.
Proof.
  intros t a d w tts r lgs src b p l o os H Hr Hp Pp Ho Po. unfold budget_of in H.
  bnext H q E1. bnext H Dr E2. bnext H p0 E3. bnext H q1 E4. bnext H da E5. bnext H ds E6. bnext H q2 E7. bnext H dw E8. bnext H fit E9. bnext H ali E10.
  bnext H nc E11. cbv zeta in H. bnext H ss E12. bnext H mw E13. bnext H bw E14. bnext H q3 E15. bnext H q4 E16. bnext H srv E17. bnext H nv E18. bnext H mnv E19.
  bnext H noi E20. bnext H tt E21. bnext H cone E22. bnext H w0 E23. bnext H iw E24. apply Ok_inj in H. subst b. cbn [b_fit b_alias].
  assert (F : forall x z, 0 <= x -> rad2nm a x = Ok z -> z = sqrt x * (a_wvl a / (2 * PI)) * 10 ^ 9).
  { intros x z Hx Hz. unfold rad2nm in Hz. bnext Hz s Es. unfold npsqrt in Es. destruct (Rlt_dec x 0); [lra|]. apply Ok_inj in Es. apply Ok_inj in Hz. subst. field. apply PI_neq0. }
  rewrite Hp in E3. unfold pyindex in E3. cbn in E3. apply Ok_inj in E3. subst p0.
  rewrite rdiv_ok in E4 by lra. apply Ok_inj in E4. subst q1. unfold pow53 in *. rewrite rpow_pos in E5 by (now apply Rdiv_lt_0_compat). apply Ok_inj in E5. subst da.
  unfold dsub0 in E6. rewrite Ho in E6. unfold pyindex in E6. cbn in E6. apply Ok_inj in E6. subst ds.
  rewrite rdiv_ok in E7 by lra. apply Ok_inj in E7. subst q2. rewrite rpow_pos in E8 by (now apply Rdiv_lt_0_compat). apply Ok_inj in E8. subst dw.
  split; apply F; try assumption; pose proof (Rpower_pos (p / a_r0 a) (5 / 3)); pose proof (Rpower_pos (o_dsub o / a_r0 a) (5 / 3)); lra.
Qed.
(** the breakdown is computed exactly when the high-order gain is positive (and
    all its terms are finite) *)
Theorem C57_budget_when : forall e ar c y c', aoSystem e ar c = (Ok y, c') ->
  lp_gain (holoop (s_rtc (y_sci y))) <= 0 -> s_wfe (y_sci y) = None.
Proof.
  intros e ar c y c' H Hg. destruct (ao_inv _ _ _ _ _ H) as [_ Hc]. apply conf_inv in Hc.
  destruct Hc as (wvl & sHO & hw & sLO & _ & _ & _ & _ & _ & _ & _ & tf & _ & _ & sS & _ & _ & _ & Hb).
  destruct (Rlt_dec 0 _); [lra|exact Hb].
Qed.

(** ** A concrete accepted file *)
Definition e0 : env := mkEnv (fun _ => false) "/p3" None "" (fun _ => None) (fun _ => []) (fun _ => 0%nat).
Definition file0 : cfg :=
  [("telescope", [("TelescopeDiameter", PNum 8)]);
   ("atmosphere", [("r0_value", PNum (15 / 100))]);
   ("sources_HO", [("Wavelength", PNum (5 / 10 ^ 7))]);
   ("sources_science", [("Wavelength", PList [PNum (1 / 10 ^ 6); PNum (25 / 10 ^ 7)])]);
   ("sensor_HO", [("PixelScale", PInt 400); ("FieldOfView", PInt 6); ("NumberPhotons", PList [PNum 100]); ("NoiseVariance", PList [PNum (1 / 2)])]);
   ("DM", [("DmPitchs", PList [PNum (4 / 10)]); ("NumberActuators", PList [PInt 20])]);
   ("sensor_science", [("PixelScale", PNum 10); ("FieldOfView", PNum (200 + 1 / 2))])].
Definition ar0 (x : bool) : args := mkArgs false x None.
Ltac lk := cbn [lookup String.eqb Ascii.eqb Bool.eqb].
Lemma sec0 s : sec file0 s = match lookup file0 s with Some t => t | None => [] end.
Proof. reflexivity. Qed.
Lemma core0 : exists k, core_of e0 file0 = Ok k /\ c_am k = 1 /\ g_lgs (c_stars k) = None /\ tech_fov (c_tel k) = Ok 0 /\ t_D (c_tel k) = 8 /\
  a_wvl (c_atm k) = 500 / 10 ^ 9 /\ a_r0 (c_atm k) = 15 / 100 /\ a_w (c_atm k) = [1] /\ a_v (c_atm k) = Lst [10].
Proof.
  assert (AM : airmass_of 0 = Ok 1).
  { unfold airmass_of, rdiv. replace (0 * PI / 180) with 0 by field. rewrite cos_0. destruct (Req_EM_T 1 0); [lra|]. f_equal. field. }
  unfold core_of, req_sec. cbn [has_sec has file0 String.eqb Ascii.eqb Bool.eqb orb]. cbn [bind].
  unfold tel_stage, path_key, req, opt, sec, precision_of. cbn [lookup file0 String.eqb Ascii.eqb Bool.eqb sec]. cbn [bind as_num].
  destruct (Rle_dec 90 0); [lra|]. rewrite AM. cbn [bind negb String.eqb Ascii.eqb Bool.eqb orb check_static_off check_path t_zen]. rewrite AM. cbn [bind].
  unfold atm_stage, opt, req. cbn [lookup String.eqb Ascii.eqb Bool.eqb]. cbn [bind as_num as_xsol as_xnum as_sol mapM sol_sum lsum fold_right].
  destruct (Rlt_dec _ _) as [L|_]; [rewrite Rplus_0_r, Rminus_diag_eq, Rabs_R0 in L by reflexivity; lra|].
  cbn [bind len_sol length Nat.eqb negb vec map].
  rewrite rpow_pos by lra. cbn [bind].
  rewrite Rpower_1_base, !Rmult_1_r.
  unfold atmosphere, parse_L0. cbn [length repeat spread bind snd fst seq mapM]. unfold make_layer, pyindex. cbn [length Z.of_nat Z.ltb Z.leb Z.compare Pos.of_succ_nat Z.to_nat nth_error orb bind].
  cbn. rewrite rpow_pos by lra. cbn [bind]. rewrite rpow_pos by (pose proof (Rpower_pos (15 / 100) (- 5 / 3)); lra). cbn [bind].
  unfold ho_stage, req, opt. lk. cbn [bind atleast_1d as_sol as_num vec as_nums as_list mapM length Nat.eqb negb].
  destruct (Req_EM_T 0 0); [|lra]. cbn [andb negb]. unfold source_init. cbn [vec test1 length Nat.eqb andb negb fst snd Nat.ltb Nat.leb nth heights_of].
  destruct (Req_EM_T 0 0); [|lra]. cbn [bind]. unfold lo_stage. cbn [has_sec has String.eqb Ascii.eqb Bool.eqb orb negb]. cbn.
  eexists. split; [reflexivity|]. cbn. repeat split; reflexivity.
Qed.
Lemma ho0 : exists hw s', ho_sensor 8 (sec file0 "sensor_HO") = (Ok hw, s') /\ s_type (w_sensor hw) = "Shack-Hartmann" /\ s_algo (w_sensor hw) = "wcog" /\
  s_opt (w_sensor hw) = [mkOpt 20 (8 / 20)] /\ s_settings (w_sensor hw) = [5; 0; 0] /\ s_det (w_sensor hw) = [mkDet 400 6 [[0; 0]] (NNum (Fin 100)) 0 1 1] /\
  lookup (w_attr hw) "NoiseVariance" = Some (PList [PNum (1 / 2)]).
Proof.
  unfold sec. cbn [lookup file0 String.eqb Ascii.eqb Bool.eqb]. unfold ho_sensor, req, opt. cbv zeta. lk. cbn [bind as_num as_spot as_list mapM as_nums as_nph as_xnum as_str len_val disp_len length as_ints as_int].
  unfold dsub_default. cbn [mapM]. rewrite rdiv_ok by lra. cbn [bind]. unfold sensor_init.
  cbn [sa_nL sa_dsub sa_clock sa_nDisp sa_nWvl length seq mapM Z.of_nat]. unfold pyindex. cbn [length Z.of_nat Pos.of_succ_nat Z.ltb Z.leb Z.compare orb Z.to_nat nth_error Nat.ltb Nat.leb]. cbn.
  eexists; eexists. split; [reflexivity|]. cbn. repeat split; reflexivity.
Qed.
Lemma sci0 x : exists src, science_stage (ar0 x) file0 = Ok ([1 / 10 ^ 6; 25 / 10 ^ 7], src) /\ so_wvl src = [1 / 10 ^ 6; 25 / 10 ^ 7].
Proof.
  unfold science_stage, req_sec, sec. cbn [has_sec has file0 String.eqb Ascii.eqb Bool.eqb orb lookup]. cbn [bind]. unfold req, opt. lk.
  cbn [bind atleast_1d as_sol as_num vec as_nums as_list mapM length Nat.eqb negb ar0 ar_coo ar_atngs lista_l fst snd andb].
  unfold source_init. cbn [vec test1 length Nat.eqb andb negb fst snd Nat.ltb Nat.leb nth heights_of].
  destruct (Req_EM_T 0 0); [|lra]. cbn [bind]. eexists. split; reflexivity.
Qed.
Lemma rtc0 : rtc_stage (sec file0 "RTC") = Ok (rtc_init (1 / 2) 500 2 None None None, PNone).
Proof. reflexivity. Qed.
Lemma dm0 : exists d, dm_stage 0 8 (sec file0 "DM") = Ok d /\ dm_pitch (dd_dm d) = [4 / 10] /\ dm_valid (dd_dm d) = [(20, 20)%nat].
Proof.
  unfold sec. cbn [lookup file0 String.eqb Ascii.eqb Bool.eqb]. unfold dm_stage, req, opt. lk. cbn [bind as_nums as_list mapM as_num length Nat.ltb Nat.leb as_ints as_int Nat.eqb negb orb].
  unfold dm_init. cbn [length Nat.eqb negb orb fix_coupling Nat.ltb Nat.leb firstn bind fst mapM Z.ltb Z.compare]. eexists. split; [reflexivity|]. split; reflexivity.
Qed.
Lemma cam0 x am a : exists k s', cam_stage e0 x am (sec file0 "atmosphere") a [1 / 10 ^ 6; 25 / 10 ^ 7] [4 / 10] file0 = Ok (k, s') /\ k_fov k = (if x then 603 else 201)%Z.
Proof.
  unfold cam_stage, req_sec, sec. cbn [has_sec has file0 String.eqb Ascii.eqb Bool.eqb orb lookup]. cbn [bind]. unfold req at 1, opt. lk. cbn [bind as_sol as_num].
  assert (Z1 : Zceil (200 + 1 / 2) = 201%Z) by (apply Zceil_imp; cbn; lra).
  assert (P : forall s, get_fov e0 am s a [1 / 10 ^ 6; 25 / 10 ^ 7] (Scal 10) [4 / 10] [("PixelScale", PNum 10); ("FieldOfView", PNum (200 + 1 / 2))] = Ok 201%Z).
  { intros s. unfold get_fov, req. lk. cbn [bind to_float]. destruct (isclose_m1 (200 + 1 / 2)) eqn:E; [apply isclose_auto in E; unfold auto_request in E; rewrite Rabs_pos_eq in E by lra; lra|].
    destruct (Rlt_dec 0 (200 + 1 / 2)); [|lra]. now rewrite Z1. }
  rewrite P. cbn [bind]. 
  assert (X : expand_fov x [1 / 10 ^ 6; 25 / 10 ^ 7] 201 = Ok (if x then 603 else 201)%Z).
  { unfold expand_fov. destruct x; [|reflexivity]. cbn [andb length Nat.ltb Nat.leb pymax pymin fold_left bind].
    rewrite Rmax_right, Rmin_left by lra. rewrite rdiv_ok by lra. do 2 f_equal. 
    replace (25 / 10 ^ 7 / (1 / 10 ^ 6)) with (25 / 10) by (field; lra). rewrite (Zceil_imp 3); [reflexivity|cbn; lra]. }
  rewrite X. cbn. eexists; eexists. split; reflexivity.
Qed.
Lemma npsqrt_ok x : 0 <= x -> npsqrt x = Ok (sqrt x).
Proof. intros H. unfold npsqrt. destruct (Rlt_dec x 0); [lra|reflexivity]. Qed.
Lemma rad2nm_ok a x : 0 <= x -> exists z, rad2nm a x = Ok z.
Proof. intros H. unfold rad2nm. rewrite npsqrt_ok by assumption. eexists; reflexivity. Qed.
Lemma rpow_nn x y : 0 <= x -> 0 < y -> exists z, rpow x y = Ok z /\ 0 <= z.
Proof.
  intros Hx Hy. unfold rpow. destruct (Rlt_dec x 0); [lra|]. destruct (Req_EM_T x 0).
  - destruct (Rlt_dec 0 y); [|lra]. exists 0. split; [reflexivity|lra].
  - eexists. split; [reflexivity|]. left. apply Rpower_pos.
Qed.
Lemma lsum_nn l : (forall x, In x l -> 0 <= x) -> 0 <= lsum l.
Proof. induction l as [|a l IH]; intros H; cbn [lsum fold_right]; [lra|]. specialize (IH (fun x Hx => H x (or_intror Hx))). pose proof (H a (or_introl eq_refl)). unfold lsum in IH. lra. Qed.
Lemma servo_sum_ok n z : exists s, servo_sum n z = Ok s /\ 0 <= s.
Proof.
  unfold servo_sum. rewrite (mapM_map _ (fun n => Rpower (INR n + 1) (- 2 / 3))).
  - cbn [bind]. eexists. split; [reflexivity|]. apply lsum_nn. intros x Hx. apply in_map_iff in Hx. destruct Hx as (u & <- & _). left. apply Rpower_pos.
  - intros u _. apply rpow_pos. pose proof (pos_INR u). lra.
Qed.
Lemma budget0 k hw d src s' : t_D (c_tel k) = 8 -> a_wvl (c_atm k) = 500 / 10 ^ 9 -> a_r0 (c_atm k) = 15 / 100 -> a_w (c_atm k) = [1] -> a_v (c_atm k) = Lst [10] ->
  ho_sensor 8 (sec file0 "sensor_HO") = (Ok hw, s') -> dm_pitch (dd_dm d) = [4 / 10] -> dm_valid (dd_dm d) = [(20, 20)%nat] -> so_wvl src = [1 / 10 ^ 6; 25 / 10 ^ 7] ->
  exists b, budget_of (c_tel k) (c_atm k) d hw None (rtc_init (1 / 2) 500 2 None None None) None src = Ok b.
Proof.
  intros HD Hw Hr Ha Hv Hh Hp Hva Hs. destruct ho0 as (hw' & s'' & Eh & T1 & T2 & T3 & T4 & T5 & T6). rewrite Eh in Hh. injection Hh as <- <-.
  unfold budget_of. rewrite HD, Hr. rewrite rdiv_ok by lra. cbn [bind]. unfold pow53. rewrite rpow_pos by lra. cbn [bind].
  rewrite Hp. unfold pyindex at 1. cbn [length Z.of_nat Pos.of_succ_nat Z.ltb Z.leb Z.compare orb Z.to_nat nth_error bind].
  rewrite rdiv_ok by lra. cbn [bind]. rewrite rpow_pos by lra. cbn [bind]. unfold dsub0. rewrite T3. unfold pyindex at 1.
  cbn [length Z.of_nat Pos.of_succ_nat Z.ltb Z.leb Z.compare orb Z.to_nat nth_error bind o_dsub]. rewrite rdiv_ok by lra. cbn [bind]. rewrite rpow_pos by lra. cbn [bind].
  pose proof (Rpower_pos (4 / 10 / (15 / 100)) (5 / 3)). pose proof (Rpower_pos (8 / 20 / (15 / 100)) (5 / 3)). pose proof (Rpower_pos (8 / (15 / 100)) (5 / 3)) as H1.
  destruct (rad2nm_ok (c_atm k) (23 / 100 * Rpower (4 / 10 / (15 / 100)) (5 / 3))) as (z1 & ->); [lra|]. cbn [bind].
  destruct (rad2nm_ok (c_atm k) (7 / 100 * Rpower (8 / 20 / (15 / 100)) (5 / 3))) as (z2 & ->); [lra|]. cbn [bind].
  unfold nControlledRadialOrder, nValidActuator. rewrite Hva. cbn [map]. unfold pyindex at 1. cbn [length Z.of_nat Pos.of_succ_nat Z.ltb Z.leb Z.compare orb Z.to_nat nth_error bind]. cbv zeta.
  cbn [rtc_init ttloop holoop lp_bw lp_gain].
  match goal with |- context [servo_sum ?n ?z] => destruct (servo_sum_ok n z) as (ss & -> & Hss) end. cbn [bind].
  unfold meanWind, mean53. rewrite Ha, Hv. cbn [mapM]. rewrite rpow_pos by lra. cbn [bind]. unfold bmul. cbn [length Nat.eqb combine map fst snd bind lsum fold_right].
  pose proof (Rpower_pos 10 (5 / 3)). rewrite rpow_pos by lra. cbn [bind].
  unfold bandwidth. rewrite rdiv_ok by lra. cbn [bind]. destruct (Rlt_dec (1 / 2 / (1 + 2 * 2)) 0); [lra|]. cbn [bind].
  pose proof PI_RGT_0. assert (HB : 0 < 500 / 2 / PI * sqrt (1 / 2 / (1 + 2 * 2))).
  { apply Rmult_lt_0_compat; [apply Rdiv_lt_0_compat; lra|]. apply sqrt_lt_R0. lra. }
  rewrite rdiv_ok by lra. cbn [bind]. rewrite rdiv_ok by lra. cbn [bind].
  set (mw := Rpower (1 * Rpower 10 (5 / 3) + 0) (3 / 5)). assert (0 < mw) by apply Rpower_pos.
  set (bw := 500 / 2 / PI * sqrt (1 / 2 / (1 + 2 * 2))) in *.
  assert (0 <= mw / 8 / bw) by (left; apply Rdiv_lt_0_compat; lra).
  destruct (rad2nm_ok (c_atm k) (4 / 100 * (mw / 8 / bw) * Rpower (8 / (15 / 100)) (5 / 3) * ss)) as (z3 & ->).
  { apply Rmult_le_pos; [|exact Hss]. apply Rmult_le_pos; [|lra]. apply Rmult_le_pos; lra. } cbn [bind].
  unfold noise_of. rewrite T6. cbn [noise_given bind as_num npmean length lsum fold_right INR].
  destruct (rad2nm_ok (c_atm k) ((1 / 2 + 0) / 1)) as (z4 & ->); [lra|]. cbn [bind].
  rewrite Hs. unfold pyindex. cbn [length Z.of_nat Pos.of_succ_nat Z.ltb Z.leb Z.compare orb Z.to_nat nth_error bind Pos.compare Pos.succ Pos.compare_cont]. rewrite rdiv_ok by lra. cbn [bind]. eexists. reflexivity.
Qed.
(** the file above is accepted, with and without the expansion of the field *)
Theorem C32_file0_accepted : forall x, exists y c', aoSystem e0 (ar0 x) file0 = (Ok y, c') /\ s_mode (y_sci y) = SCAO /\ k_fov (s_cam (y_sci y)) = (if x then 603 else 201)%Z /\
  (exists b, s_wfe (y_sci y) = Some b) /\ exists k, core_of e0 file0 = Ok k /\ configLO_SC e0 (ar0 x) k file0 = (Ok (y_sci y), c').
Proof.
  intros x. destruct core0 as (k & Hk & K1 & K2 & K3 & K4 & K5 & K6 & K7 & K8).
  destruct ho0 as (hw & sHO & Hh & T1 & T2 & T3 & T4 & T5 & T6).
  destruct (sci0 x) as (src & Hs & Hsw). destruct dm0 as (d & Hd & Hp & Hva). destruct (cam0 x (c_am k) (c_atm k)) as (cam & sS & Hc & Hf).
  destruct (budget0 k hw d src sHO K4 K5 K6 K7 K8 Hh Hp Hva Hsw) as (b & Hb).
  eassert (HC : configLO_SC e0 (ar0 x) k file0 = _).
  { apply (conf_intro e0 (ar0 x) k file0 _ src hw sHO None [] (rtc_init (1 / 2) 500 2 None None None) PNone 0 d cam sS (Some b) Hs).
    - reflexivity.
    - rewrite K4. exact Hh.
    - reflexivity.
    - exact rtc0.
    - reflexivity.
    - exact K3.
    - rewrite K4. exact Hd.
    - rewrite Hp. exact Hc.
    - cbn [rtc_init holoop lp_gain]. destruct (Rlt_dec 0 (1 / 2)); [|lra]. rewrite K2, Hb. reflexivity. }
  unfold aoSystem. rewrite Hk. cbv zeta. rewrite HC.
  cbn [fst snd bind]. eexists; eexists. split; [reflexivity|]. cbn [y_sci s_mode s_cam s_wfe y_core]. split; [rewrite K2; reflexivity|]. split; [exact Hf|]. split; [eauto|].
  exists k. split; [reflexivity|exact HC].
Qed.
(** the hypotheses of the refusal and default theorems are met by this file *)
Example file0_meets : exists y c', aoSystem e0 (ar0 false) file0 = (Ok y, c') /\
  section_present file0 "DM" /\ In ("DM", "DmPitchs") (mandatory ++ mandatory_if_section) /\
  absent file0 "telescope" "ZenithAngle" /\ In ("ZenithAngle", PNum 0) (defaults "telescope") /\
  value file0 "atmosphere" "Cn2Weights" (PList [PNum 1]) (PList [PNum 1]) /\ entry file0 "DM" "DmPitchs" (PList [PNum (4 / 10)]).
Proof.
  destruct (C32_file0_accepted false) as (y & c' & H & _). exists y, c'. split; [exact H|].
  split; [apply section_has; reflexivity|]. split; [cbn; tauto|]. split; [apply absent_sec; reflexivity|]. split; [cbn; tauto|]. split; [apply value_opt; reflexivity|apply entry_sec; reflexivity].
Qed.
(** the field of view after 0, 1, 2 further configurations with the expansion *)
Theorem C34_reconfiguration_idempotent_refuted :
  exists e ar k c y c', configLO_SC e ar k c = (Ok y, c') /\
    exists y1, fst (reconfigure e ar k 1 c) = Ok y1 /\ k_fov (s_cam y) = 603%Z /\ k_fov (s_cam y1) = 1809%Z.
Proof.
  destruct (C32_file0_accepted true) as (y & c' & H & _ & Hf & _ & k & Hk & Hc).
  exists e0, (ar0 true), k, file0, (y_sci y), c'. split; [exact Hc|].
  destruct (sci0 true) as (src & Hs & _).
  destruct (C34_reconfiguration_growth e0 (ar0 true) k file0 (y_sci y) c' _ src (25 / 10 ^ 7) (1 / 10 ^ 6) Hc Hs) with (n := 1%nat) as (y1 & H1 & H2).
  - reflexivity.
  - cbn. lia.
  - intros w [<-|[<-|[]]]; lra.
  - cbn [pymax fold_left]. now rewrite Rmax_right by lra.
  - cbn [pymin fold_left]. now rewrite Rmin_left by lra.
  - exists y1. split; [exact H1|]. split; [exact Hf|]. rewrite H2, Hf. replace (25 / 10 ^ 7 / (1 / 10 ^ 6)) with (25 / 10) by (field; lra). rewrite (Zceil_imp 3); [reflexivity|cbn; lra].
Qed.

(** ** Findings *)
(** field-dependent static aberrations are always refused: cubes of maps with two
    pixels or more *)
Theorem C58_static_off_refused : forall e off pos, check_path e (PStr off) = true -> (2 <= length (e_off0 e off))%nat ->
  check_static_off e (PStr off) pos = Err ValueError.
Proof.
  intros e off pos H L. unfold check_static_off. rewrite H. destruct (check_path e pos) eqn:E; [|reflexivity].
  destruct pos; try discriminate. destruct (e_off0 e off) as [|a [|b l]]; cbn in L; try lia. reflexivity.
Qed.
(** the low-order sensor reads its threshold under another name: the documented
    key has no effect *)
Theorem C59_lo_threshold_ignored : forall D s v, fst (lo_sensor D (assign s "ThresholdWCoG" v)) = fst (lo_sensor D s).
Proof.
  intros D s v. unfold lo_sensor. cbv zeta. rewrite !opt_assign, !req_assign, !lookup_assign. seqb.
  match goal with |- fst (match ?r with _ => _ end) = fst (match ?q with _ => _ end) => change r with q; destruct q as [[? ?]|]; [|reflexivity] end.
  cbn [fst]. unfold plain. cbn [map wfs_plain fst snd]. rewrite !opt_assign. reflexivity.
Qed.
(** stars given as coordinates: the azimuth attribute (in degrees elsewhere) is
    set in radians and with x and y exchanged *)
Theorem C60_coo_stars_azimuth_refuted :
  exists x y src, science_stage (mkArgs false false (Some ([x], [y]))) [("sources_science", [("Wavelength", PNum 1)])] = Ok ([1], src) /\
    x = 1 /\ y = 0 /\ so_zen src = [1] /\ so_az src = [PI / 2] /\ so_az src <> [0].
Proof.
  exists 1, 0. eexists. split.
  - unfold science_stage, req_sec, sec, req, opt. cbn [has_sec has String.eqb Ascii.eqb Bool.eqb orb lookup bind atleast_1d as_sol as_num vec as_nums as_list mapM ar_coo ar_atngs].
    unfold any_nonzero. cbn [existsb]. destruct (Req_EM_T 1 0); [lra|]. cbn [orb length Nat.eqb bind combine map fst snd lista_l negb andb].
    unfold source_init. cbn [vec test1 length Nat.eqb andb negb fst snd Nat.ltb Nat.leb nth heights_of]. destruct (Req_EM_T 0 0); [|lra]. cbn [bind]. reflexivity.
  - cbn [so_zen so_az].
    assert (E1 : hypot 1 0 = 1) by (unfold hypot; replace (1 ^ 2 + 0 ^ 2) with 1 by ring; apply sqrt_1).
    assert (E2 : arctan2 1 0 = PI / 2) by (unfold arctan2; destruct (Rlt_dec 0 0); [lra|]; destruct (Rlt_dec 0 1); [reflexivity|lra]).
    rewrite E1, E2. pose proof PI_RGT_0. repeat split; try reflexivity. intros HH. injection HH as HH. lra.
Qed.

Print Assumptions C57_budget_identity.
Print Assumptions C57_budget_fitting.
Print Assumptions C57_budget_when.
Print Assumptions C32_file0_accepted.
Print Assumptions C34_reconfiguration_idempotent_refuted.
Print Assumptions C58_static_off_refused.
Print Assumptions C59_lo_threshold_ignored.
Print Assumptions C60_coo_stars_azimuth_refuted.
