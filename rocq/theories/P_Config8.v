(** Property C57, continued: the servo-lag and noise terms of the theoretical budget. *)
From Coq Require Import Reals List Arith ZArith String Bool Lra Lia Psatz.
From Flocq Require Import Core.Raux.
From Verif Require Import Base_Py M_Tools M_Atmo M_Sensor M_Source M_Config S_Config L_Tools2 L_Config L_Config2 L_Atmo P_Config P_Config5 P_Config6 P_Config7.
Import ListNotations.
Open Scope R_scope.
Open Scope string_scope.

(** a variance in rad^2 at the wavelength of the atmosphere, as an error in nanometres *)
Definition nanometres (a : atmo) (v : R) : R := sqrt v * (a_wvl a / (2 * PI)) * 10 ^ 9.
(** sum over the corrected radial orders from n0, up to [last] - 1, of (n+1)^(-2/3) *)
Definition orders_sum (n0 last : nat) : R := lsum (map (fun n => Rpower (INR n + 1) (- 2 / 3)) (seq n0 (last - n0))).
(** The high-order servo lag: 0.04 (v/D/f) (D/r0)^(5/3) times the sum over the radial
    orders controlled by the high-order loop: from order 3 with a tip-tilt loop and sensor,
    from order 1 without; the tip-tilt servo lag takes order 1 alone. *)
Theorem C57_budget_servo : forall t a d w tts r lgs src b nc ncs v f, budget_of t a d w tts r lgs src = Ok b -> 0 < a_r0 a -> 0 < t_D t ->
  nControlledRadialOrder (dd_dm d) = nc :: ncs -> meanWind a = Ok v -> 0 <= v -> lp_bw (holoop r) = Ok f -> 0 < f ->
  let last := Z.to_nat (Ztrunc (sqrt PI / 2 * (IZR nc + 1))) in
  let lag bw := 4 / 100 * (v / t_D t / bw) * Rpower (t_D t / a_r0 a) (5 / 3) in
  match ttloop r, tts with
  | Some l, Some x => b_servo b = nanometres a (lag f * orders_sum 3 last) /\ (forall g, lp_bw l = Ok g -> 0 < g -> b_ttservo b = nanometres a (lag g * Rpower 2 (- 2 / 3)))
  | _, _ => b_servo b = nanometres a (lag f * orders_sum 1 last)
  end.
Proof.
  intros t a d w tts r lgs src b nc ncs v f H Hr HD Hnc Hv Pv Hf Pf last lag. unfold budget_of in H.
  bnext H q E1. bnext H Dr E2. bnext H p0 E3. bnext H q1 E4. bnext H da E5. bnext H ds E6. bnext H q2 E7. bnext H dw E8. bnext H fit E9. bnext H ali E10.
  bnext H nc' E11. cbv zeta in H. bnext H ss E12. bnext H mw E13. bnext H bw E14. bnext H q3 E15. bnext H q4 E16. bnext H srv E17. bnext H nv E18. bnext H mnv E19.
  bnext H noi E20. bnext H tt E21. bnext H cone E22. bnext H w0 E23. bnext H iw E24. apply Ok_inj in H. subst b. cbn [b_servo b_ttservo].
  rewrite Hv in E13. apply Ok_inj in E13. subst mw. rewrite Hf in E14. apply Ok_inj in E14. subst bw.
  rewrite Hnc in E11. unfold pyindex in E11. cbn in E11. apply Ok_inj in E11. subst nc'.
  rewrite rdiv_ok in E1 by lra. apply Ok_inj in E1. subst q. unfold pow53 in E2. rewrite rpow_pos in E2 by (now apply Rdiv_lt_0_compat). apply Ok_inj in E2. subst Dr.
  rewrite rdiv_ok in E15 by lra. apply Ok_inj in E15. subst q3. rewrite rdiv_ok in E16 by lra. apply Ok_inj in E16. subst q4.
  assert (HL : Z.to_nat (Ztrunc (sqrt (PI * (5 / 10) ^ 2) * IZR (nc + 1))) = last).
  { unfold last. do 2 f_equal. rewrite plus_IZR. f_equal. pose proof PI_RGT_0. rewrite sqrt_mult by (try lra; nra). rewrite sqrt_pow2 by lra. lra. }
  assert (SS : forall n0, servo_sum n0 (Ztrunc (sqrt (PI * (5 / 10) ^ 2) * IZR (nc + 1))) = Ok (orders_sum n0 last)).
  { intros n0. unfold servo_sum. rewrite HL. rewrite (mapM_map _ (fun n => Rpower (INR n + 1) (- 2 / 3))); [reflexivity|]. intros n _. apply rpow_pos. pose proof (pos_INR n). lra. }
  rewrite SS in E12. apply Ok_inj in E12.
  assert (F : forall x z, 0 <= x -> rad2nm a x = Ok z -> z = nanometres a x).
  { intros x z Hx Hz. unfold rad2nm in Hz. bnext Hz s Es. unfold npsqrt in Es. destruct (Rlt_dec x 0); [lra|]. apply Ok_inj in Es. apply Ok_inj in Hz. subst. unfold nanometres. field. apply PI_neq0. }
  assert (S0 : forall n0, 0 <= orders_sum n0 last).
  { intros n0. unfold orders_sum. generalize (seq n0 (last - n0)). intros s. induction s as [|x s IH]; [cbn; lra|]. cbn [map]. change (lsum (?u :: ?k)) with (u + lsum k). pose proof (Rpower_pos (INR x + 1) (- 2 / 3)). lra. }
  assert (Lg : forall g, 0 < g -> 0 <= lag g).
  { intros g Pg. unfold lag. pose proof (Rpower_pos (t_D t / a_r0 a) (5 / 3)). apply Rmult_le_pos; [|lra]. apply Rmult_le_pos; [lra|]. unfold Rdiv. repeat apply Rmult_le_pos; try assumption; left; now apply Rinv_0_lt_compat. }
  assert (E17' : rad2nm a (lag f * ss) = Ok srv) by exact E17.
  destruct (ttloop r) as [l|]; [|apply F; [apply Rmult_le_pos; auto|rewrite E12; exact E17']].
  destruct tts as [x|]; [|apply F; [apply Rmult_le_pos; auto|rewrite E12; exact E17']].
  split; [apply F; [apply Rmult_le_pos; auto|rewrite E12; exact E17']|].
  intros g Hg Pg. bnext E21 bt E25. rewrite Hg in E25. apply Ok_inj in E25. subst bt. bnext E21 q5 E26. rewrite rdiv_ok in E26 by lra. apply Ok_inj in E26. subst q5. bnext E21 p2 E27. rewrite rpow_pos in E27 by lra. apply Ok_inj in E27. subst p2.
  bnext E21 s E28. bnext E21 dt E29. bnext E21 nvt E30. bnext E21 mt E31. bnext E21 nn E32. apply Ok_inj in E21. subst tt. cbn [fst]. apply F; [|exact E28]. pose proof (Rpower_pos 2 (- 2 / 3)). apply Rmult_le_pos; [auto|lra].
Qed.
(** [budget0] (P_Config7) is an instance of the first hypothesis. *)
Print Assumptions C57_budget_servo.

(** The cone term of a laser at altitude z > 0: (D/r0)^(5/3) times the sum over the layers
    above the ground of w (0.5 (h/z)^(5/3) - 0.425 (h/z)^2), in nanometres. *)
Definition cone_sum (a : atmo) (z : R) : R :=
  lsum (map (fun p => if Rlt_dec 0 (snd p) then fst p * (1 / 2 * Rpower (snd p / z) (5 / 3) - 425 / 1000 * (snd p / z) ^ 2) else 0) (combine (a_w a) (a_h a))).
Theorem C57_budget_cone : forall t a d w tts r g z zs src b, budget_of t a d w tts r (Some g) src = Ok b -> 0 < a_r0 a -> 0 < t_D t -> so_h g = z :: zs -> 0 < z ->
  b_cone b = nanometres a (Rpower (t_D t / a_r0 a) (5 / 3) * cone_sum a z).
Proof.
  intros t a d w tts r g z zs src b H Hr HD Hz Pz. unfold budget_of in H.
  bnext H q E1. bnext H Dr E2. bnext H p0 E3. bnext H q1 E4. bnext H da E5. bnext H ds E6. bnext H q2 E7. bnext H dw E8. bnext H fit E9. bnext H ali E10.
  bnext H nc' E11. cbv zeta in H. bnext H ss E12. bnext H mw E13. bnext H bw E14. bnext H q3 E15. bnext H q4 E16. bnext H srv E17. bnext H nv E18. bnext H mnv E19.
  bnext H noi E20. bnext H tt E21. bnext H cone E22. bnext H w0 E23. bnext H iw E24. apply Ok_inj in H. subst b. cbn [b_cone].
  rewrite Hz in E22. unfold pyindex in E22. cbn in E22. destruct (Rlt_dec 0 z) as [_|N]; [|contradiction]. unfold cone_wfe in E22.
  rewrite (mapM_map _ (fun p => if Rlt_dec 0 (snd p) then fst p * (1 / 2 * Rpower (snd p / z) (5 / 3) - 425 / 1000 * (snd p / z) ^ 2) else 0)) in E22.
  - cbn [bind] in E22. fold (cone_sum a z) in E22. rewrite rdiv_ok in E22 by lra. cbn [bind] in E22. unfold pow53 in E22. rewrite rpow_pos in E22 by (now apply Rdiv_lt_0_compat). cbn [bind] in E22. bnext E22 s Es. unfold npsqrt in Es. destruct (Rlt_dec _ 0) in Es; [discriminate|]. apply Ok_inj in Es. apply Ok_inj in E22. subst.
    unfold nanometres. rewrite (Rmult_comm (Rpower _ _)). field. apply PI_neq0.
  - intros p _. destruct (Rlt_dec 0 (snd p)) as [P|]; [|reflexivity]. rewrite rdiv_ok by lra. cbn [bind]. unfold pow53. rewrite rpow_pos by (now apply Rdiv_lt_0_compat). cbn [bind]. replace (5 / 10) with (1 / 2) by lra. reflexivity.
Qed.
Print Assumptions C57_budget_cone.
(** It is not negative as long as the layers are below 1.6 times the laser. *)
Theorem C57_cone_sum_nonneg : forall a z, 0 < z -> (forall w, In w (a_w a) -> 0 <= w) -> (forall h, In h (a_h a) -> h <= 16 / 10 * z) -> 0 <= cone_sum a z.
Proof.
  intros a z Pz Hw Hh. unfold cone_sum. assert (G : forall p, In p (combine (a_w a) (a_h a)) -> 0 <= (if Rlt_dec 0 (snd p) then fst p * (1 / 2 * Rpower (snd p / z) (5 / 3) - 425 / 1000 * (snd p / z) ^ 2) else 0)).
  { intros (w, h) Hp. cbn [fst snd]. destruct (Rlt_dec 0 h) as [P|]; [|lra]. apply Rmult_le_pos; [apply Hw; exact (in_combine_l _ _ _ _ Hp)|]. assert (H2 := Hh h (in_combine_r _ _ _ _ Hp)).
    set (x := h / z). assert (Px : 0 < x) by (now apply Rdiv_lt_0_compat). assert (Ux : x <= 16 / 10) by (unfold x; apply (Rmult_le_reg_r z); [exact Pz|]; unfold Rdiv; rewrite Rmult_assoc, Rinv_l by lra; lra).
    assert (E : x ^ 2 = Rpower x (5 / 3) * Rpower x (1 / 3)) by (rewrite <- Rpower_plus; replace (5 / 3 + 1 / 3) with (INR 2) by (cbn; lra); now rewrite Rpower_pow).
    assert (C3 : Rpower x (1 / 3) <= 117 / 100).
    { assert (P3 := Rpower_pos x (1 / 3)). assert (E3 : Rpower x (1 / 3) ^ 3 = x) by (rewrite <- Rpower_pow by exact P3; rewrite Rpower_mult; replace (1 / 3 * INR 3) with 1 by (cbn; lra); now apply Rpower_1). apply Rnot_lt_le. intros L. set (y := Rpower x (1 / 3)) in *. assert (y * y > 117 / 100 * (117 / 100)) by nra. assert (y ^ 3 > 117 / 100 * (117 / 100) * (117 / 100)) by (cbn; nra). lra. }
    rewrite E. assert (P5 := Rpower_pos x (5 / 3)). nra. }
  generalize dependent (combine (a_w a) (a_h a)). intros l G. induction l as [|p l IH]; [cbn; lra|]. cbn [map]. change (lsum (?u :: ?k)) with (u + lsum k). assert (X := G p (or_introl eq_refl)). assert (Y := IH (fun q Hq => G q (or_intror Hq))). lra.
Qed.
Print Assumptions C57_cone_sum_nonneg.
