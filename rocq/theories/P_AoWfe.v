(** Property C120: theoretical wavefront error breakdown of an AO system. *)
From Coq Require Import Reals List Arith ZArith Bool Lia Lra String.
From Flocq Require Import Core.Raux.
From Verif Require Import Base_Py Base_Sum M_Tools S_Tools M_Atmo M_Sensor M_Model2 M_Aniso M_AoWfe L_Tools L_Atmo L_Model P_Atmo P_Aniso P_Aniso2.
Import ListNotations.
Open Scope R_scope.

(** * Specification *)
(** standard deviation in nanometres of a phase variance in rad^2 at wavelength w (metres) *)
Definition nm (w var : R) : R := sqrt var * (w * 10 ^ 9 / (2 * PI)).
(** (x / r0)^(5/3) *)
Definition turb (x r0 : R) : R := Rpower (x / r0) (5 / 3).
(** bandwidth of an integrator of gain g at rate f with delay d *)
Definition bw (l : loop) : R := lp_rate l / (2 * PI) * sqrt (lp_gain l / (1 + 2 * lp_delay l)).
Definition good_loop (l : loop) : Prop := 0 < lp_gain l /\ 0 < lp_rate l /\ 0 <= lp_delay l.
(** a system in its physical range *)
Definition good (s : aosys) : Prop :=
  0 < y_D s /\ 0 < a_wvl (y_atm s) /\ 0 < a_r0 (y_atm s) /\ good_loop (y_ho s) /\ (forall l, y_lo s = Some l -> good_loop l) /\
  (exists p r, y_pitch s = p :: r /\ 0 < p) /\ (exists o r, s_opt (y_wfs s) = o :: r /\ 0 < o_dsub o) /\ (exists x r, y_wvl s = x :: r /\ 0 < x) /\
  (forall hs, y_lgs s = Some hs -> exists h r, hs = h :: r /\ forall x, In x (combine (a_w (y_atm s)) (a_h (y_atm s))) -> 0 <= fst x /\ 0 <= snd x <= h).

(** * Lemmas *)
Lemma nm_eq w x : sqrt x * w * 10 ^ 9 / 2 / PI = nm w x.
Proof. unfold nm. pose proof PI_RGT_0. field. lra. Qed.
Lemma rad2nm_val w x : 0 <= x -> rad2nm w x = Ok (nm w x).
Proof. intros H. unfold rad2nm. rewrite rsqrt_ok by exact H. cbn [bind]. now rewrite nm_eq. Qed.
Lemma rad2nm_inv w x y : rad2nm w x = Ok y -> 0 <= x /\ y = nm w x.
Proof. unfold rad2nm, rsqrt. destruct (Rlt_dec x 0); cbn [bind]; [discriminate|]. intros H. apply Ok_inj in H. rewrite nm_eq in H. split; [lra|auto]. Qed.
Lemma nm_nonneg w x : 0 <= w -> 0 <= nm w x.
Proof. intros H. unfold nm. apply Rmult_le_pos; [apply sqrt_pos|]. pose proof PI_RGT_0. apply Rmult_le_pos; [lra|]. left. apply Rinv_0_lt_compat. lra. Qed.
Lemma nm_sq w x : 0 <= x -> nm w x ^ 2 = x * (w * 10 ^ 9 / (2 * PI)) ^ 2.
Proof. intros H. unfold nm. rewrite Rpow_mult_distr. f_equal. rewrite <- Rsqr_pow2. now apply Rsqr_sqrt. Qed.
Lemma nm_mono w x y : 0 <= w -> x <= y -> nm w x <= nm w y.
Proof. intros H L. unfold nm. apply Rmult_le_compat_r; [|now apply sqrt_le_1_alt]. pose proof PI_RGT_0. apply Rmult_le_pos; [lra|]. left. apply Rinv_0_lt_compat. lra. Qed.
Lemma bw_val l : good_loop l -> bandwidth l = Ok (bw l) /\ 0 < bw l.
Proof.
  intros (G & F & D). unfold bandwidth. rewrite rdiv_ok by lra. cbn [bind]. assert (P : 0 < lp_gain l / (1 + 2 * lp_delay l)) by (apply Rdiv_lt_0_compat; lra). rewrite rsqrt_ok by lra. cbn [bind]. split.
  - unfold bw. f_equal. pose proof PI_RGT_0. field. lra.
  - unfold bw. apply Rmult_lt_0_compat; [|now apply sqrt_lt_R0]. pose proof PI_RGT_0. apply Rdiv_lt_0_compat; lra.
Qed.
Lemma turb_pos x r : 0 < turb x r. Proof. apply exp_pos. Qed.
Lemma order_nonneg lo hi : 0 <= order_sum lo hi.
Proof. unfold order_sum. apply lsum_nonneg. intros y H. apply in_map_iff in H as (n & <- & _). left. apply exp_pos. Qed.
Definition lag_var (v D b r0 f : R) : R := 4 / 100 * (v / (D * b)) * turb D r0 * f.
Lemma lag_inv s l f y v : 0 < y_D s -> good_loop l -> meanWind (y_atm s) = Ok v -> lag s (turb (y_D s) (a_r0 (y_atm s))) l f = Ok y -> 0 <= lag_var v (y_D s) (bw l) (a_r0 (y_atm s)) f /\ y = nm (a_wvl (y_atm s)) (lag_var v (y_D s) (bw l) (a_r0 (y_atm s)) f).
Proof.
  intros HD HL HV. unfold lag. rewrite HV. cbn [bind]. rewrite rdiv_ok by lra. cbn [bind]. destruct (bw_val l HL) as [E P]. rewrite E. cbn [bind]. rewrite rdiv_ok by lra. cbn [bind]. intros H. apply rad2nm_inv in H.
  assert (EQ : 4 / 100 * (v / y_D s / bw l) * turb (y_D s) (a_r0 (y_atm s)) * f = lag_var v (y_D s) (bw l) (a_r0 (y_atm s)) f) by (unfold lag_var; field; lra). now rewrite EQ in H.
Qed.
Lemma lag_val s l f v : 0 < y_D s -> good_loop l -> meanWind (y_atm s) = Ok v -> 0 <= v -> 0 <= f -> exists y, lag s (turb (y_D s) (a_r0 (y_atm s))) l f = Ok y.
Proof.
  intros HD HL HV V F. unfold lag. rewrite HV. cbn [bind]. rewrite rdiv_ok by lra. cbn [bind]. destruct (bw_val l HL) as [E P]. rewrite E. cbn [bind]. rewrite rdiv_ok by lra. cbn [bind]. eexists. apply rad2nm_val.
  pose proof (turb_pos (y_D s) (a_r0 (y_atm s))). assert (0 <= v / y_D s / bw l) by (repeat apply Rmult_le_pos; try lra; left; apply Rinv_0_lt_compat; lra). apply Rmult_le_pos; [|exact F]. apply Rmult_le_pos; [|lra]. apply Rmult_le_pos; [lra|assumption].
Qed.
Lemma p53_val x r0 : 0 < x -> 0 < r0 -> (do q <- rdiv x r0; rpow q (5 / 3)) = Ok (turb x r0).
Proof. intros. rewrite rdiv_ok by lra. cbn [bind]. apply rpow_pos. now apply Rdiv_lt_0_compat. Qed.
(** noise variances entering the budget *)
Definition ho_noise (s : aosys) : result (list R) := match y_noise s with Some l => Ok l | None => NoiseVariance (y_wfs s) (a_r0 (y_atm s)) (a_wvl (y_atm s)) end.
Definition tt_noise (s : aosys) : result (list R) :=
  match y_tts s with
  | Some (t, Some l) => Ok l
  | Some (t, None) => match s_opt t with o :: _ => NoiseVariance t (o_dsub o) (a_wvl (y_atm s)) | [] => Err IndexError end
  | None => Ok []
  end.
Definition avg (l : list R) : R := total l / INR (List.length l).
Lemma np_mean_inv l m : np_mean l = Ok m -> m = avg l /\ l <> [].
Proof. unfold np_mean, rdiv. destruct (Req_EM_T _ 0) as [Z|Z]; [discriminate|]. intros H. apply Ok_inj in H. split; [symmetry; exact H|]. intros ->. apply Z. reflexivity. Qed.
Lemma pyindex_head {A} (x : A) r : pyindex (x :: r) 0 = Ok x.
Proof. reflexivity. Qed.

(** what is known of a breakdown *)
(** number of radial orders: floor of sqrt(pi)/2 times floor of sqrt(2 n), for n valid actuators *)
Definition radius (s : aosys) : Z := Zfloor (sqrt PI / 2 * INR (Nat.sqrt (2 * y_nact s))).
(** sum of (n+1)^(-2/3) over the orders lo <= n < hi *)
Definition orders (lo : nat) (hi : Z) : R := total (map (fun n => Rpower (INR n + 1) (- 2 / 3)) (seq lo (Z.to_nat hi - lo))).
(** first order of the high-order loop: 3 with a tip-tilt loop and its sensor, 1 without *)
Definition first_order (s : aosys) : nat := match y_lo s, y_tts s with Some _, Some _ => 3 | _, _ => 1 end.
Lemma radius_val s : n_max (y_nact s) = radius s.
Proof.
  unfold n_max, radius, radial1. replace (sqrt (PI * (5 / 10) ^ 2)) with (sqrt PI / 2). 2:{ rewrite sqrt_mult; [|pose proof PI_RGT_0; lra|apply pow2_ge_0]. rewrite sqrt_pow2 by lra. field. }
  apply Ztrunc_floor. apply Rmult_le_pos; [|apply pos_INR]. apply Rmult_le_pos; [apply sqrt_pos|lra].
Qed.
Lemma orders_val lo hi : order_sum lo hi = orders lo hi.
Proof. unfold order_sum, orders. change (lsum) with total. f_equal. apply map_ext. intros n. now rewrite plus_INR. Qed.
Lemma first_val s : n_min s = first_order s.
Proof. unfold n_min, first_order, tt_loop. now destruct (y_lo s), (y_tts s). Qed.
Definition spec (s : aosys) (v : R) (w : wfe) : Prop :=
  let a := y_atm s in let r0 := a_r0 a in let wv := a_wvl a in
  (exists p r, y_pitch s = p :: r /\ w_fit w = nm wv (23 / 100 * turb p r0)) /\
  (exists o r, s_opt (y_wfs s) = o :: r /\ w_alias w = nm wv (7 / 100 * turb (o_dsub o) r0)) /\
  (0 <= lag_var v (y_D s) (bw (y_ho s)) r0 (orders (first_order s) (radius s)) /\ w_lag w = nm wv (lag_var v (y_D s) (bw (y_ho s)) r0 (orders (first_order s) (radius s)))) /\
  (exists l, ho_noise s = Ok l /\ l <> [] /\ 0 <= avg l /\ w_noise w = nm wv (avg l)) /\
  (match y_lo s, y_tts s with
   | Some l, Some _ => (0 <= lag_var v (y_D s) (bw l) r0 (Rpower 2 (- 2 / 3)) /\ w_ttlag w = nm wv (lag_var v (y_D s) (bw l) r0 (Rpower 2 (- 2 / 3)))) /\ exists u, tt_noise s = Ok u /\ u <> [] /\ 0 <= avg u /\ w_ttnoise w = nm wv (avg u)
   | _, _ => w_ttlag w = 0 /\ w_ttnoise w = 0
   end) /\
  (match y_lgs s with Some (h :: _) => if Rlt_dec 0 h then focal_anisoplanatism_variance (y_D s) h a = Ok (w_focal w) else w_focal w = 0 | _ => w_focal w = 0 end) /\
  w_total w = sqrt (w_fit w ^ 2 + w_alias w ^ 2 + w_lag w ^ 2 + w_noise w ^ 2 + w_ttlag w ^ 2 + w_ttnoise w ^ 2 + w_focal w ^ 2) /\
  (exists x r, y_wvl s = x :: r /\ w_strehl w = exp (- (w_total w * / 10 ^ 9 * (2 * PI / x)) ^ 2)).
Lemma breakdown_inv : forall s v w, good s -> meanWind (y_atm s) = Ok v -> errorBreakdown s = Ok w -> spec s v w.
Proof.
  intros s v w (HD & HW & HR & HHO & HLO & (p & pr & EP & HP) & (o & or_ & EO & HO) & (x & xr & EX & HX) & HG) HV. unfold errorBreakdown. rewrite EP, EO, EX. cbv zeta. rewrite !pyindex_head. cbn [bind]. rewrite !p53_val by assumption. cbn [bind].
  intros H.
  destruct (rad2nm _ (23 / 100 * _)) as [fit|] eqn:E1; cbn [bind] in H; [|discriminate]. apply rad2nm_inv in E1 as [_ E1].
  destruct (rad2nm _ (7 / 100 * _)) as [ali|] eqn:E2; cbn [bind] in H; [|discriminate]. apply rad2nm_inv in E2 as [_ E2].
  destruct (lag s _ (y_ho s) _) as [hl|] eqn:E3; cbn [bind] in H; [|discriminate]. apply (lag_inv _ _ _ _ _ HD HHO HV) in E3 as [L3 E3].
  destruct (noise_of _ _) as [vn|] eqn:E4; cbn [bind] in H; [|discriminate]. destruct (np_mean vn) as [mn|] eqn:E5; cbn [bind] in H; [|discriminate]. apply np_mean_inv in E5 as [E5 N5].
  destruct (rad2nm _ mn) as [hn|] eqn:E6; cbn [bind] in H; [|discriminate]. apply rad2nm_inv in E6 as [L6 E6].
  match type of H with (do tt <- ?X; _) = _ => destruct X as [tt|] eqn:E7; cbn [bind] in H; [|discriminate] end.
  match type of H with (do foc <- ?X; _) = _ => destruct X as [foc|] eqn:E8; cbn [bind] in H; [|discriminate] end.
  rewrite rdiv_ok in H by lra. cbn [bind] in H. apply Ok_inj in H. subst w. unfold spec. cbv zeta. cbn [w_fit w_alias w_lag w_noise w_ttlag w_ttnoise w_focal w_total w_strehl].
  split; [eauto|]. split; [eauto|]. split; [rewrite <- radius_val, <- orders_val, <- first_val; auto|]. split. { exists vn. subst mn. split; [exact E4|auto]. }
  split.
  { unfold tt_loop in E7. destruct (y_lo s) as [l|]; [|apply Ok_inj in E7; subst tt; auto]. destruct (y_tts s) as [[t nv]|] eqn:ES; [|apply Ok_inj in E7; subst tt; auto].
    destruct (lag s _ l _) as [tl|] eqn:F1; cbn [bind] in E7; [|discriminate]. apply (lag_inv _ _ _ _ _ HD (HLO _ eq_refl) HV) in F1.
    match type of E7 with (do vt <- ?X; _) = _ => destruct X as [vt|] eqn:F2; cbn [bind] in E7; [|discriminate] end.
    destruct (np_mean vt) as [mt|] eqn:F3; cbn [bind] in E7; [|discriminate]. apply np_mean_inv in F3 as [F3 N3]. destruct (rad2nm _ mt) as [tn|] eqn:F4; cbn [bind] in E7; [|discriminate]. apply rad2nm_inv in F4 as [L4 F4]. apply Ok_inj in E7. subst tt. cbn [fst snd]. split; [exact F1|].
    exists vt. subst mt. split; [|auto]. unfold tt_noise. rewrite ES. destruct nv as [u|]; [exact F2|]. destruct (s_opt t) as [|o' r']; [discriminate|]. rewrite pyindex_head in F2. exact F2. }
  split. { destruct (y_lgs s) as [hs|]; [|now apply Ok_inj in E8]. destruct hs as [|h r']; [discriminate|]. rewrite pyindex_head in E8. cbn [bind] in E8. destruct (Rlt_dec 0 h); [exact E8|now apply Ok_inj in E8]. }
  split; [reflexivity|]. exists x, xr. split; [exact EX|]. f_equal. f_equal. rewrite <- Rpow_mult_distr. f_equal. field. lra.
Qed.

(** * Theorems *)
(** Every term of the budget is the one of its formula: 0.23 (d/r0)^(5/3) rad^2 of fitting for the pitch d of the first mirror,
    0.07 (d/r0)^(5/3) of aliasing for the first sub-aperture, servo-lag errors proportional to wind / (D bandwidth), means of
    the noise variances, all converted to nanometres at the wavelength of the atmosphere. *)
Theorem C120_breakdown : forall s v w, good s -> meanWind (y_atm s) = Ok v -> errorBreakdown s = Ok w -> spec s v w.
Proof. exact breakdown_inv. Qed.
(** It answers for a system in its physical range whose noise variances can be computed. *)
Theorem C120_answers : forall s v ln, good s -> meanWind (y_atm s) = Ok v -> 0 <= v -> ho_noise s = Ok ln -> ln <> [] -> 0 <= avg ln ->
  (y_lo s <> None -> exists lt, tt_noise s = Ok lt /\ (y_tts s <> None -> lt <> [] /\ 0 <= avg lt)) -> exists w, errorBreakdown s = Ok w.
Proof.
  intros s v ln (HD & HW & HR & HHO & HLO & (p & pr & EP & HP) & (o & or_ & EO & HO) & (x & xr & EX & HX) & HG) HV V HN NN AN HT. unfold errorBreakdown. rewrite EP, EO, EX. cbv zeta. rewrite !pyindex_head. cbn [bind]. rewrite !p53_val by assumption. cbn [bind].
  assert (MEAN : forall l, l <> [] -> np_mean l = Ok (avg l)). { intros l H. unfold np_mean. apply rdiv_ok. apply not_0_INR. destruct l; [contradiction|discriminate]. }
  rewrite !rad2nm_val by (pose proof (turb_pos p (a_r0 (y_atm s))); pose proof (turb_pos (o_dsub o) (a_r0 (y_atm s))); lra). cbn [bind].
  destruct (lag_val s (y_ho s) (order_sum (n_min s) (n_max (y_nact s))) v HD HHO HV V (order_nonneg _ _)) as [y1 ->]. cbn [bind]. change (noise_of (y_noise s) (NoiseVariance (y_wfs s) (a_r0 (y_atm s)) (a_wvl (y_atm s)))) with (ho_noise s). rewrite HN. cbn [bind]. rewrite MEAN by exact NN. cbn [bind]. rewrite rad2nm_val by exact AN. cbn [bind].
  match goal with |- context [do tt <- ?X; _] => assert (T : exists tt, X = Ok tt) end.
  { unfold tt_loop. destruct (y_lo s) as [l|] eqn:EL; [|eauto]. destruct (y_tts s) as [[t nv]|] eqn:ET; [|eauto]. destruct (HT ltac:(discriminate)) as (lt & E & N). destruct (N ltac:(discriminate)) as [N1 N2]. destruct (lag_val s l (Rpower 2 (- 2 / 3)) v HD (HLO l eq_refl) HV V (Rlt_le _ _ (exp_pos _))) as [y2 ->]. cbn [bind].
    unfold tt_noise in E. rewrite ET in E. assert ((match nv with Some x => Ok x | None => do o <- pyindex (s_opt t) 0; NoiseVariance t (o_dsub o) (a_wvl (y_atm s)) end) = Ok lt) as ->. { destruct nv; [exact E|]. destruct (s_opt t); [discriminate|]. rewrite pyindex_head. exact E. }
    cbn [bind]. rewrite MEAN by exact N1. cbn [bind]. rewrite rad2nm_val by exact N2. cbn [bind]. eauto. }
  destruct T as [tt ->]. cbn [bind].
  match goal with |- context [do foc <- ?X; _] => assert (T : exists foc, X = Ok foc) end.
  { destruct (y_lgs s) as [hs|] eqn:EG; [|eauto]. destruct (HG hs eq_refl) as (h & r & -> & Hl). rewrite pyindex_head. cbn [bind]. destruct (Rlt_dec 0 h); [|eauto]. unfold focal_anisoplanatism_variance. destruct (focal_wfe_val (425 / 1000) 1 (y_D s) h (y_atm s) HD HR) as [_ ->]; try lra; [exact Hl|eauto]. }
  destruct T as [foc ->]. cbn [bind]. rewrite rdiv_ok by lra. cbn [bind]. eauto.
Qed.
(** The total is the quadratic sum of the terms: no term exceeds it, it does not exceed their sum; the Strehl ratio is the
    Marechal approximation at the first science wavelength, strictly between 0 and 1. *)
Theorem C120_total : forall s v w, good s -> meanWind (y_atm s) = Ok v -> errorBreakdown s = Ok w ->
  let terms := [w_fit w; w_alias w; w_lag w; w_noise w; w_ttlag w; w_ttnoise w; w_focal w] in
  (forall t, In t terms -> 0 <= t <= w_total w) /\ w_total w ^ 2 = total (map (fun t => t ^ 2) terms) /\ w_total w <= total terms /\
  0 < w_fit w /\ 0 < w_alias w /\ 0 < w_strehl w < 1.
Proof.
  intros s v w G HV H. pose proof (breakdown_inv s v w G HV H) as (F & A & L & N & T & O & TT & S). destruct G as (HD & HW & HR & HHO & HLO & _ & _ & (x & xr & EX & HX) & HG).
  assert (W : 0 <= a_wvl (y_atm s)) by lra. assert (NP : forall q, 0 < q -> 0 < nm (a_wvl (y_atm s)) q). { intros q Hq. unfold nm. apply Rmult_lt_0_compat; [now apply sqrt_lt_R0|]. pose proof PI_RGT_0. apply Rdiv_lt_0_compat; lra. }
  assert (P1 : 0 < w_fit w). { destruct F as (p & r & _ & ->). apply NP. pose proof (turb_pos p (a_r0 (y_atm s))). lra. }
  assert (P2 : 0 < w_alias w). { destruct A as (o & r & _ & ->). apply NP. pose proof (turb_pos (o_dsub o) (a_r0 (y_atm s))). lra. }
  assert (P3 : 0 <= w_lag w) by (destruct L as [_ ->]; now apply nm_nonneg).
  assert (P4 : 0 <= w_noise w) by (destruct N as (l & _ & _ & _ & ->); now apply nm_nonneg).
  assert (P5 : 0 <= w_ttlag w /\ 0 <= w_ttnoise w). { destruct (y_lo s); [|lra]. destruct (y_tts s); [|lra]. destruct T as [[_ ->] (u & _ & _ & _ & ->)]. split; now apply nm_nonneg. }
  assert (P6 : 0 <= w_focal w). { destruct (y_lgs s) as [[|h r]|] eqn:EG; try lra. destruct (HG _ eq_refl) as (h' & r' & E & Hl). injection E as <- <-. destruct (Rlt_dec 0 h); [|lra]. unfold focal_anisoplanatism_variance in O. destruct (focal_wfe_val (425 / 1000) 1 (y_D s) h (y_atm s) HD HR) as [_ E]; try lra; [exact Hl|]. rewrite E in O. apply Ok_inj in O. rewrite <- O. apply Rmult_le_pos; [apply sqrt_pos|]. pose proof PI_RGT_0. repeat apply Rmult_le_pos; try lra; left; apply Rinv_0_lt_compat; lra. }
  destruct P5 as [P5 P7]. set (Q := w_fit w ^ 2 + w_alias w ^ 2 + w_lag w ^ 2 + w_noise w ^ 2 + w_ttlag w ^ 2 + w_ttnoise w ^ 2 + w_focal w ^ 2) in TT.
  pose proof (pow2_ge_0 (w_fit w)). pose proof (pow2_ge_0 (w_alias w)). pose proof (pow2_ge_0 (w_lag w)). pose proof (pow2_ge_0 (w_noise w)). pose proof (pow2_ge_0 (w_ttlag w)). pose proof (pow2_ge_0 (w_ttnoise w)). pose proof (pow2_ge_0 (w_focal w)).
  assert (QP : 0 <= Q) by (unfold Q; lra). assert (T0 : 0 <= w_total w) by (rewrite TT; apply sqrt_pos). assert (SQ : w_total w ^ 2 = Q) by (rewrite TT, <- Rsqr_pow2; now apply Rsqr_sqrt).
  assert (B : forall t, 0 <= t -> t ^ 2 <= Q -> 0 <= t <= w_total w). { intros t Ht Hq. split; [exact Ht|]. rewrite TT. rewrite <- (sqrt_pow2 t Ht). now apply sqrt_le_1_alt. }
  cbv zeta. split; [|split; [|split; [|split; [exact P1|split; [exact P2|]]]]].
  - intros t [<-|[<-|[<-|[<-|[<-|[<-|[<-|[]]]]]]]]; apply B; try lra; unfold Q; lra.
  - rewrite SQ. unfold Q, total. cbn [map fold_right]. ring.
  - unfold total. cbn [fold_right]. rewrite TT.
    set (U := w_fit w + _). assert (UP : 0 <= U) by (unfold U; lra). rewrite <- (sqrt_pow2 U UP). apply sqrt_le_1_alt. unfold Q, U. clear - P1 P2 P3 P4 P5 P6 P7. assert (E : forall a b, 0 <= a -> 0 <= b -> a ^ 2 + b ^ 2 <= (a + b) ^ 2) by (intros a b Ha Hb; pose proof (Rmult_le_pos a b Ha Hb); replace ((a + b) ^ 2) with (a ^ 2 + 2 * (a * b) + b ^ 2) by ring; lra).
    assert (S1 := E (w_ttnoise w) (w_focal w + 0) ltac:(lra) ltac:(lra)). assert (S2 := E (w_ttlag w) (w_ttnoise w + (w_focal w + 0)) ltac:(lra) ltac:(lra)). assert (S3 := E (w_noise w) (w_ttlag w + (w_ttnoise w + (w_focal w + 0))) ltac:(lra) ltac:(lra)).
    assert (S4 := E (w_lag w) (w_noise w + (w_ttlag w + (w_ttnoise w + (w_focal w + 0)))) ltac:(lra) ltac:(lra)). assert (S5 := E (w_alias w) (w_lag w + (w_noise w + (w_ttlag w + (w_ttnoise w + (w_focal w + 0))))) ltac:(lra) ltac:(lra)). assert (S6 := E (w_fit w) (w_alias w + (w_lag w + (w_noise w + (w_ttlag w + (w_ttnoise w + (w_focal w + 0)))))) ltac:(lra) ltac:(lra)). replace (w_focal w + 0) with (w_focal w) in S1 at 1 by ring. lra.
  - destruct S as (x' & r' & EX' & ->). rewrite EX in EX'. injection EX' as <- <-. split; [apply exp_pos|]. rewrite <- exp_0. apply exp_increasing. assert (K : 0 < w_total w) by (assert (0 <= w_fit w <= w_total w) by (apply B; [lra|unfold Q; lra]); lra). 
    apply Ropp_lt_gt_0_contravar. apply pow_lt. pose proof PI_RGT_0. apply Rmult_lt_0_compat; [apply Rmult_lt_0_compat; [exact K|lra]|apply Rdiv_lt_0_compat; lra].
Qed.

Definition with_atm (s : aosys) (b : atmo) : aosys := mkAosys (y_D s) b (y_pitch s) (y_nact s) (y_wfs s) (y_noise s) (y_ho s) (y_lo s) (y_tts s) (y_lgs s) (y_wvl s).
Definition with_ho (s : aosys) (l : loop) : aosys := mkAosys (y_D s) (y_atm s) (y_pitch s) (y_nact s) (y_wfs s) (y_noise s) l (y_lo s) (y_tts s) (y_lgs s) (y_wvl s).
Definition with_tt (s : aosys) (l : loop) (t : sensor * option (list R)) : aosys := mkAosys (y_D s) (y_atm s) (y_pitch s) (y_nact s) (y_wfs s) (y_noise s) (y_ho s) (Some l) (Some t) (y_lgs s) (y_wvl s).
Lemma turb_chrom x r k : 0 < x -> 0 < r -> 0 < k -> turb x (r * Rpower k (12 / 10)) = turb x r * (/ k) ^ 2.
Proof.
  intros Hx Hr Hk. unfold turb. replace (x / (r * Rpower k (12 / 10))) with (x / r * Rpower k (- (12 / 10))). 2:{ rewrite Rpower_Ropp. field. split; [apply Rgt_not_eq, exp_pos|lra]. }
  rewrite Rpower_mult_distr; [|now apply Rdiv_lt_0_compat|apply exp_pos] || rewrite <- Rpower_mult_distr; [|now apply Rdiv_lt_0_compat|apply exp_pos]. f_equal. rewrite Rpower_mult. replace (- (12 / 10) * (5 / 3)) with (- INR 2) by (cbn; lra). rewrite Rpower_Ropp, Rpower_pow by exact Hk. rewrite pow_inv. reflexivity.
Qed.
Lemma nm_chrom w k c x r : 0 <= w -> 0 < k -> 0 < x -> 0 < r -> 0 <= c -> nm (w * k) (c * turb x (r * Rpower k (12 / 10))) = nm w (c * turb x r).
Proof.
  intros Hw Hk Hx Hr Hc. rewrite turb_chrom by assumption. unfold nm. rewrite <- Rmult_assoc. rewrite sqrt_mult; [|apply Rmult_le_pos; [exact Hc|left; apply turb_pos]|apply pow2_ge_0]. rewrite sqrt_pow2 by (left; now apply Rinv_0_lt_compat). pose proof PI_RGT_0. field. lra.
Qed.
Lemma lag_var_eq v D b r0 f : lag_var v D b r0 f = 4 / 100 * (v / (D * b)) * f * turb D r0.
Proof. unfold lag_var. ring. Qed.
Lemma coef_nonneg v D b r0 f : 0 <= lag_var v D b r0 f -> 0 <= 4 / 100 * (v / (D * b)) * f.
Proof.
  rewrite lag_var_eq. intros H. pose proof (turb_pos D r0). apply (Rmult_le_reg_r (turb D r0)); [assumption|]. lra.
Qed.
(** The errors of the turbulence are optical path differences: choosing another wavelength for the atmosphere (which rescales
    r0) changes neither fitting, aliasing, servo-lag nor focal anisoplanatism in nanometres. *)
Theorem C120_achromatic : forall s v w' b x y, good s -> meanWind (y_atm s) = Ok v -> 0 < w' -> set_wvl (y_atm s) w' = Ok b -> errorBreakdown s = Ok x -> errorBreakdown (with_atm s b) = Ok y ->
  w_fit y = w_fit x /\ w_alias y = w_alias x /\ w_lag y = w_lag x /\ w_ttlag y = w_ttlag x /\ w_focal y = w_focal x.
Proof.
  intros s v w' b x y G HV Hw Hb Hx Hy. pose proof G as (HD & HW & HR & HHO & HLO & (p & pr & EP & HP) & (o & or_ & EO & HO) & (x0 & xr & EX & HX) & HG).
  rewrite set_wvl_val in Hb by assumption. apply Ok_inj in Hb. set (a := y_atm s) in *. set (k := w' / a_wvl a) in *. assert (Hk : 0 < k) by (apply Rdiv_lt_0_compat; assumption). assert (Ew : w' = a_wvl a * k) by (unfold k; field; lra).
  assert (Wb : a_wvl b = a_wvl a * k) by (subst b; exact Ew). assert (Rb : exists e, e = 12 / 10 /\ a_r0 b = a_r0 a * Rpower k e) by (subst b; exists (12 / 10); split; [reflexivity|cbn [a_r0]; f_equal; f_equal; lra]). destruct Rb as (e & -> & Rb). assert (Lb : a_w b = a_w a /\ a_h b = a_h a /\ meanWind b = meanWind a) by (subst b; repeat split). destruct Lb as (L1 & L2 & L3). clear Hb.
  assert (G' : good (with_atm s b)). { unfold good, with_atm. cbn [y_D y_atm y_ho y_lo y_pitch y_wfs y_wvl y_lgs]. rewrite Wb, Rb, L1, L2. split; [exact HD|]. split; [now apply Rmult_lt_0_compat|]. split; [apply Rmult_lt_0_compat; [exact HR|apply exp_pos]|]. split; [exact HHO|]. split; [exact HLO|]. split; [eauto|]. split; [eauto|]. split; [eauto|]. exact HG. }
  assert (HV' : meanWind (y_atm (with_atm s b)) = Ok v) by (cbn [with_atm y_atm]; now rewrite L3).
  pose proof (breakdown_inv _ _ _ G HV Hx) as (F & A & L & _ & T & O & _ & _). pose proof (breakdown_inv _ _ _ G' HV' Hy) as (F' & A' & L' & _ & T' & O' & _ & _).
  cbn [with_atm y_D y_atm y_pitch y_nact y_wfs y_ho y_lo y_tts y_lgs] in F', A', L', T', O'. fold a in F, A, L, T, O. rewrite Wb, Rb in F', A', L', T'. rewrite EP in F, F'. rewrite EO in A, A'.
  assert (W0 : 0 <= a_wvl a) by lra.
  split. { destruct F as (p1 & r1 & E1 & ->). injection E1 as <- <-. destruct F' as (p2 & r2 & E2 & ->). injection E2 as <- <-. apply nm_chrom; lra || assumption. }
  split. { destruct A as (p1 & r1 & E1 & ->). injection E1 as <- <-. destruct A' as (p2 & r2 & E2 & ->). injection E2 as <- <-. apply nm_chrom; lra || assumption. }
  split. { destruct L as [P ->]. destruct L' as [_ ->]. unfold radius, first_order. cbn [y_nact y_lo y_tts]. apply coef_nonneg in P. unfold radius, first_order in P. rewrite !lag_var_eq. apply nm_chrom; assumption. }
  split. { destruct (y_lo s) as [l|]; [|lra]. destruct (y_tts s); [|lra]. destruct T as [[P ->] _]. destruct T' as [[_ ->] _]. apply coef_nonneg in P. rewrite !lag_var_eq. apply nm_chrom; assumption. }
  destruct (y_lgs s) as [[|h r]|] eqn:EG; try lra. destruct (Rlt_dec 0 h); [|lra]. destruct (HG _ eq_refl) as (h' & r' & E & Hl). injection E as <- <-. unfold focal_anisoplanatism_variance in O, O'. destruct (focal_wfe_val (425 / 1000) 1 (y_D s) h a HD HR) as [PN E]; try lra; [exact Hl|]. rewrite E in O. apply Ok_inj in O.
  destruct (focal_wfe_val (425 / 1000) 1 (y_D s) h b HD) as [_ E']; try lra; [rewrite Rb; apply Rmult_lt_0_compat; [exact HR|apply exp_pos]|rewrite L1, L2; exact Hl|]. rewrite E' in O'. apply Ok_inj in O'. rewrite <- O, <- O'. rewrite L1, L2, Wb, Rb.
  set (S := lsum _). assert (N0 := nm_chrom (a_wvl a) k S (y_D s) (a_r0 a) W0 Hk HD HR PN). unfold nm, turb in N0. pose proof PI_RGT_0.
  replace (a_wvl a * k * 10 ^ 9 / 2 / PI) with (a_wvl a * k * 10 ^ 9 / (2 * PI)) by (field; lra). replace (a_wvl a * 10 ^ 9 / 2 / PI) with (a_wvl a * 10 ^ 9 / (2 * PI)) by (field; lra). exact N0.
Qed.
(** A faster loop (higher rate or gain, shorter delay) never has a larger servo-lag error, total error, nor a smaller Strehl ratio. *)
Theorem C120_faster : forall s l v x y, good s -> good_loop l -> meanWind (y_atm s) = Ok v -> 0 <= v -> lp_rate (y_ho s) <= lp_rate l -> lp_gain (y_ho s) <= lp_gain l -> lp_delay l <= lp_delay (y_ho s) ->
  errorBreakdown s = Ok x -> errorBreakdown (with_ho s l) = Ok y -> w_lag y <= w_lag x /\ w_total y <= w_total x /\ w_strehl x <= w_strehl y.
Proof.
  intros s l v x y G GL HV V HF HGn HDl Hx Hy. pose proof G as (HD & HW & HR & HHO & HLO & (p & pr & EP & HP) & (o & or_ & EO & HO) & (x0 & xr & EX & HX) & HG).
  assert (G' : good (with_ho s l)). { unfold good, with_ho. cbn [y_D y_atm y_ho y_lo y_pitch y_wfs y_wvl y_lgs]. do 3 (split; [assumption|]). split; [exact GL|]. split; [exact HLO|]. split; [eauto|]. split; [eauto|]. split; [eauto|]. exact HG. }
  pose proof (C120_total _ _ _ G' HV Hy) as (TP & _). cbv zeta in TP. assert (Y0 : 0 <= w_total y). { specialize (TP (w_fit y) (or_introl eq_refl)). lra. } assert (LP : 0 <= w_lag y) by (apply (TP (w_lag y)); cbn; tauto). clear TP.
  pose proof (breakdown_inv _ _ _ G HV Hx) as (F & A & L & N & T & O & TT & S). pose proof (breakdown_inv _ _ _ G' HV Hy) as (F' & A' & L' & N' & T' & O' & TT' & S').
  cbn [with_ho y_D y_atm y_pitch y_nact y_wfs y_ho y_lo y_tts y_lgs y_wvl] in F', A', L', N', T', O', S'.
  assert (BW : bw (y_ho s) <= bw l). { unfold bw. destruct HHO as (g1 & f1 & d1). destruct GL as (g2 & f2 & d2). pose proof PI_RGT_0. apply Rmult_le_compat; [left; apply Rdiv_lt_0_compat; lra|apply sqrt_pos| |].
    - apply Rmult_le_compat_r; [left; apply Rinv_0_lt_compat; lra|exact HF].
    - apply sqrt_le_1_alt. unfold Rdiv. apply Rmult_le_compat; [lra|left; apply Rinv_0_lt_compat; lra|exact HGn|]. apply Rinv_le_contravar; lra. }
  destruct (bw_val _ HHO) as [_ B1]. destruct (bw_val _ GL) as [_ B2].
  assert (E3 : w_lag y <= w_lag x). { destruct L as [_ ->]. destruct L' as [_ ->]. apply nm_mono; [lra|]. unfold lag_var. pose proof (turb_pos (y_D s) (a_r0 (y_atm s))).
    change (radius (with_ho s l)) with (radius s). change (first_order (with_ho s l)) with (first_order s). apply Rmult_le_compat_r; [rewrite <- orders_val; apply order_nonneg|]. apply Rmult_le_compat_r; [lra|]. apply Rmult_le_compat_l; [lra|]. unfold Rdiv. apply Rmult_le_compat_l; [exact V|]. apply Rinv_le_contravar; [now apply Rmult_lt_0_compat|]. apply Rmult_le_compat_l; lra. }
  assert (E1 : w_fit y = w_fit x). { destruct F as (p1 & r1 & Q1 & ->). destruct F' as (p2 & r2 & Q2 & ->). congruence. }
  assert (E2 : w_alias y = w_alias x). { destruct A as (p1 & r1 & Q1 & ->). destruct A' as (p2 & r2 & Q2 & ->). congruence. }
  assert (E4 : w_noise y = w_noise x). { destruct N as (n1 & Q1 & _ & _ & ->). destruct N' as (n2 & Q2 & _ & _ & ->). change (ho_noise (with_ho s l)) with (ho_noise s) in Q2. congruence. }
  assert (E5 : w_ttlag y = w_ttlag x /\ w_ttnoise y = w_ttnoise x). { destruct (y_lo s) as [l'|]; [|split; lra]. destruct (y_tts s); [|split; lra]. destruct T as [[_ ->] (u & U & _ & _ & ->)]. destruct T' as [[_ ->] (u' & U' & _ & _ & ->)]. change (tt_noise (with_ho s l)) with (tt_noise s) in U'. split; congruence. }
  assert (E6 : w_focal y = w_focal x). { destruct (y_lgs s) as [[|h r]|]; try lra. destruct (Rlt_dec 0 h); [|lra]. congruence. }
  destruct E5 as [E5 E7]. assert (TL : w_total y <= w_total x). { rewrite TT, TT', E1, E2, E4, E5, E6, E7. apply sqrt_le_1_alt. assert (w_lag y ^ 2 <= w_lag x ^ 2) by (apply pow_incr; lra). lra. }
  split; [exact E3|]. split; [exact TL|]. destruct S as (q & r & Q & ->). destruct S' as (q' & r' & Q' & ->). rewrite Q in Q'. injection Q' as <- <-. rewrite EX in Q. injection Q as <- <-. pose proof PI_RGT_0. assert (K : 0 <= / 10 ^ 9 * (2 * PI / x0)) by (apply Rmult_le_pos; [lra|left; apply Rdiv_lt_0_compat; lra]).
  assert (M : (w_total y * / 10 ^ 9 * (2 * PI / x0)) ^ 2 <= (w_total x * / 10 ^ 9 * (2 * PI / x0)) ^ 2). { apply pow_incr. rewrite !Rmult_assoc. split; [now apply Rmult_le_pos|]. now apply Rmult_le_compat_r. }
  destruct (Rle_lt_or_eq_dec _ _ M) as [M'|M']; [left; apply exp_increasing; lra|right; rewrite M'; reflexivity].
Qed.
Lemma PI_35 : PI < 7 / 2.
Proof. pose proof (PI_ineq 1) as [_ H]. cbn [Nat.mul Nat.add sum_f_R0] in H. unfold tg_alt, PI_tg in H. cbn in H. lra. Qed.
Lemma radius_lt s n : (Nat.sqrt (2 * y_nact s) <= n)%nat -> (1 <= n)%nat -> (radius s < Z.of_nat n)%Z.
Proof.
  intros H H1. unfold radius. assert (Z : IZR (Zfloor (sqrt PI / 2 * INR (Nat.sqrt (2 * y_nact s)))) < IZR (Z.of_nat n)); [|now apply lt_IZR]. eapply Rle_lt_trans; [apply Zfloor_lb|]. rewrite <- INR_IZR_INZ. apply le_INR in H. assert (0 < INR n) by (apply lt_0_INR; lia).
  assert (S : sqrt PI < 2). { rewrite <- (sqrt_pow2 2) by lra. apply sqrt_lt_1_alt. pose proof PI_RGT_0. pose proof PI_35. lra. } pose proof (sqrt_pos PI). apply Rle_lt_trans with (sqrt PI / 2 * INR n); [apply Rmult_le_compat_l; lra|]. rewrite <- (Rmult_1_l (INR n)) at 2. apply Rmult_lt_compat_r; lra.
Qed.
(** Mirrors with few actuators have no servo-lag error at all: up to 2 x 2 actuators, and up to 12 with a tip-tilt loop. *)
Theorem C120_few_actuators_refuted : forall s v w, good s -> meanWind (y_atm s) = Ok v -> errorBreakdown s = Ok w ->
  (y_nact s <= 4)%nat \/ ((y_nact s <= 12)%nat /\ y_lo s <> None /\ y_tts s <> None) -> w_lag w = 0.
Proof.
  intros s v w G HV H C. pose proof (breakdown_inv _ _ _ G HV H) as (_ & _ & (_ & ->) & _). assert (E : orders (first_order s) (radius s) = 0).
  { unfold orders. assert (Z.to_nat (radius s) - first_order s = 0)%nat as ->; [|reflexivity]. destruct C as [C|(C & C1 & C2)].
    - assert (radius s < 2)%Z. { apply (radius_lt s 2); [|lia]. apply Nat.le_trans with (Nat.sqrt 8); [apply Nat.sqrt_le_mono; lia|apply Nat.leb_le; reflexivity]. } unfold first_order. destruct (y_lo s), (y_tts s); lia.
    - assert (radius s < 4)%Z. { apply (radius_lt s 4); [|lia]. apply Nat.le_trans with (Nat.sqrt 24); [apply Nat.sqrt_le_mono; lia|apply Nat.leb_le; reflexivity]. } unfold first_order. destruct (y_lo s), (y_tts s); try contradiction. lia. }
  rewrite E. unfold lag_var. rewrite Rmult_0_r. unfold nm. rewrite sqrt_0. ring.
Qed.
(** Splitting off a tip-tilt loop of the same bandwidth loses the second radial order (focus and astigmatisms): the servo-lag
    variances of the two loops do not add up to that of the single loop. *)
Theorem C120_second_order_refuted : forall s t v x y, good s -> y_lo s = None -> meanWind (y_atm s) = Ok v -> 0 < v -> (3 <= radius s)%Z ->
  errorBreakdown s = Ok x -> errorBreakdown (with_tt s (y_ho s) t) = Ok y ->
  w_lag y ^ 2 + w_ttlag y ^ 2 + nm (a_wvl (y_atm s)) (lag_var v (y_D s) (bw (y_ho s)) (a_r0 (y_atm s)) (Rpower 3 (- 2 / 3))) ^ 2 = w_lag x ^ 2 /\ w_lag y ^ 2 + w_ttlag y ^ 2 < w_lag x ^ 2.
Proof.
  intros s t v x y G NL HV V HRd Hx Hy. pose proof G as (HD & HW & HR & HHO & HLO & HPi & HOp & HWv & HG).
  assert (G' : good (with_tt s (y_ho s) t)). { unfold good, with_tt. cbn [y_D y_atm y_ho y_lo y_pitch y_wfs y_wvl y_lgs]. do 4 (split; [assumption|]). split; [intros l E; injection E as <-; exact HHO|]. auto. }
  pose proof (breakdown_inv _ _ _ G HV Hx) as (_ & _ & (P & ->) & _). pose proof (breakdown_inv _ _ _ G' HV Hy) as (_ & _ & (P' & ->) & _ & T & _). cbn [with_tt y_lo y_tts y_D y_atm y_ho] in *. destruct T as ((PT & ->) & _).
  change (radius (mkAosys _ _ _ _ _ _ _ _ _ _ _)) with (radius s) in *. assert (first_order s = 1%nat) as E1 by (unfold first_order; now rewrite NL). rewrite E1 in *. change (first_order (mkAosys (y_D s) (y_atm s) (y_pitch s) (y_nact s) (y_wfs s) (y_noise s) (y_ho s) (Some (y_ho s)) (Some t) (y_lgs s) (y_wvl s))) with 3%nat in *.
  change (radius (with_tt s (y_ho s) t)) with (radius s) in *. change (first_order (with_tt s (y_ho s) t)) with 3%nat in *.
  destruct (bw_val _ HHO) as [_ B]. pose proof (turb_pos (y_D s) (a_r0 (y_atm s))). assert (CP : 0 < 4 / 100 * (v / (y_D s * bw (y_ho s))) * turb (y_D s) (a_r0 (y_atm s))). { apply Rmult_lt_0_compat; [|assumption]. apply Rmult_lt_0_compat; [lra|]. apply Rdiv_lt_0_compat; [exact V|now apply Rmult_lt_0_compat]. }
  assert (C3 : 0 < lag_var v (y_D s) (bw (y_ho s)) (a_r0 (y_atm s)) (Rpower 3 (- 2 / 3))) by (unfold lag_var; apply Rmult_lt_0_compat; [exact CP|apply exp_pos]).
  rewrite !nm_sq by lra. assert (O : orders 1 (radius s) = Rpower 2 (- 2 / 3) + Rpower 3 (- 2 / 3) + orders 3 (radius s)).
  { unfold orders. replace (Z.to_nat (radius s) - 1)%nat with (S (S (Z.to_nat (radius s) - 3))) by lia. cbn [seq map]. unfold total. cbn [fold_right]. replace (INR 1 + 1) with 2 by (cbn; lra). replace (INR 2 + 1) with 3 by (cbn; lra). ring. }
  assert (SUM : lag_var v (y_D s) (bw (y_ho s)) (a_r0 (y_atm s)) (orders 1 (radius s)) = lag_var v (y_D s) (bw (y_ho s)) (a_r0 (y_atm s)) (orders 3 (radius s)) + lag_var v (y_D s) (bw (y_ho s)) (a_r0 (y_atm s)) (Rpower 2 (- 2 / 3)) + lag_var v (y_D s) (bw (y_ho s)) (a_r0 (y_atm s)) (Rpower 3 (- 2 / 3))) by (rewrite O; unfold lag_var; ring).
  rewrite SUM. assert (K : 0 < (a_wvl (y_atm s) * 10 ^ 9 / (2 * PI)) ^ 2) by (apply pow_lt; pose proof PI_RGT_0; apply Rdiv_lt_0_compat; lra). split; [ring|]. rewrite <- Rmult_plus_distr_r. apply Rmult_lt_compat_r; [exact K|]. lra.
Qed.

(** * A case: a 8 m telescope, two layers, 20 x 20 actuators, given noise, a laser star at 90 km *)
Definition ex_atm : atmo := mkAtmo (5 / 10 ^ 7) (15 / 100) [7 / 10; 3 / 10] [0; 10000] (Lst [10; 10]) (Lst [0; 0]) (LNum (Fin 25)) [].
Definition ex_wfs : sensor := mkSensor "SHACK-HARTMANN" "cog" [5] [mkOpt 20 (4 / 10)] [].
Definition ex_sys : aosys := mkAosys 8 ex_atm [4 / 10] 400 ex_wfs (Some [1 / 10]) (mkLoop (1 / 2) 1000 2) None None (Some [90000]) [16 / 10 ^ 7].
Example C120_ex : good ex_sys /\ (exists v, meanWind (y_atm ex_sys) = Ok v /\ 0 < v) /\ (3 <= radius ex_sys)%Z /\ exists w, errorBreakdown ex_sys = Ok w.
Proof.
  assert (G : good ex_sys).
  { unfold good. cbn [ex_sys ex_atm y_D y_atm y_ho y_lo y_pitch y_wfs y_wvl y_lgs a_wvl a_r0 a_w a_h ex_wfs s_opt]. split; [lra|]. split; [lra|]. split; [lra|]. split; [unfold good_loop; cbn; lra|]. split; [discriminate|].
    split; [do 2 eexists; split; [reflexivity|lra]|]. split; [do 2 eexists; split; [reflexivity|cbn; lra]|]. split; [do 2 eexists; split; [reflexivity|lra]|]. intros hs E. injection E as <-. do 2 eexists. split; [reflexivity|]. intros x [<-|[<-|[]]]; cbn [fst snd]; lra. }
  assert (V : exists v, meanWind (y_atm ex_sys) = Ok v /\ 0 < v).
  { unfold meanWind, mean53. cbn [ex_sys ex_atm y_atm a_w a_v mapM]. rewrite !rpow_pos by lra. cbn [bind]. unfold bmul. cbn [List.length Nat.eqb combine map fst snd bind lsum fold_right]. set (q := Rpower 10 (5 / 3)). assert (0 < q) by apply exp_pos. rewrite rpow_pos by lra. eexists. split; [reflexivity|apply exp_pos]. }
  split; [exact G|]. split; [exact V|]. split.
  - unfold radius. cbn [ex_sys y_nact]. change (Nat.sqrt (2 * 400)) with 28%nat. apply Zfloor_lub. assert (1 < sqrt PI). { rewrite <- sqrt_1. apply sqrt_lt_1_alt. pose proof PI2_3_2. lra. } cbn [INR]. lra.
  - destruct V as (v & EV & PV). apply (C120_answers ex_sys v [1 / 10] G EV); [lra|reflexivity|discriminate|unfold avg, total; cbn; lra|]. intros N. exfalso. apply N. reflexivity.
Qed.

Print Assumptions C120_breakdown.
Print Assumptions C120_answers.
Print Assumptions C120_total.
Print Assumptions C120_achromatic.
Print Assumptions C120_faster.
Print Assumptions C120_few_actuators_refuted.
Print Assumptions C120_second_order_refuted.
