(** C127 (continued): the aliasing spectrum is not symmetric. *)
From Coq Require Import Reals List Arith ZArith Bool String Lia Lra.
From Flocq Require Import Core.Raux.
From Verif Require Import Base_Py Base_Sum M_Tools L_Tools M_Freq L_Freq M_Atmo S_Atmo L_Atmo P_Atmo M_Sensor M_Model S_Model L_Model L_Model2 P_Model P_Model2 S_Sym P_Model5.
From Coquelicot Require Import Complex.
Import ListNotations.
Open Scope R_scope.

(** a Shack-Hartmann sensor looking at turbulence without wind nor outer scale, no regularisation, loop closed *)
Record still_sh (y : fsys) : Prop := {
  sh_type : upper (y_type y) = "SHACK-HARTMANN"%string; sh_d : 0 < y_dsub y; sh_L0 : a_L0 (y_atm y) = LNum Inf; sh_r0 : 0 < a_r0 (y_atm y);
  sh_wvl : a_wvl (y_atm y) / y_gswvl y <> 0; sh_gs : y_gswvl y <> 0; sh_kc : y_kcMax y <> 0; sh_noise : y_noise y <> [];
  sh_sp : special_pos (y_sp y); sh_g : 0 < y_gain y; sh_rate : 0 < y_rate y; sh_clock : y_clock y <> [];
  sh_static : forall l, In l (y_layers y) -> l_vx l = 0 /\ l_vy l = 0; sh_w : weight_sum y = 1; sh_lay : y_layers y <> [] }.
Lemma lsum_cons a l : lsum (a :: l) = a + lsum l.
Proof. reflexivity. Qed.
Lemma sinc_int (m : Z) : m <> 0%Z -> sinc (IZR m) = 0.
Proof.
  intros N. unfold sinc. destruct (Req_EM_T (IZR m) 0) as [E|_]; [apply eq_IZR in E; contradiction|].
  assert (E : sin (PI * IZR m) = 0) by (rewrite Rmult_comm; apply sin_eq_0_1; exists m; ring). rewrite E. unfold Rdiv. ring.
Qed.
Lemma sin_shift_sq x (m : Z) : sin (PI * (x - IZR m)) ^ 2 = sin (PI * x) ^ 2.
Proof.
  replace (PI * (x - IZR m)) with (PI * x - IZR m * PI) by ring. rewrite sin_minus. assert (S0 : sin (IZR m * PI) = 0) by (apply sin_eq_0_1; exists m; reflexivity).
  assert (C1 : cos (IZR m * PI) ^ 2 = 1). { pose proof (sin2_cos2 (IZR m * PI)) as Q. unfold Rsqr in Q. rewrite S0 in Q. cbn [pow]. lra. }
  rewrite S0. replace ((sin (PI * x) * cos (IZR m * PI) - cos (PI * x) * 0) ^ 2) with (sin (PI * x) ^ 2 * cos (IZR m * PI) ^ 2) by ring. rewrite C1. ring.
Qed.

Lemma mean_some l : l <> [] -> exists m, mean l = Ok m.
Proof. intros H. unfold mean. destruct l; [contradiction|]. cbn. eauto. Qed.
Lemma mod_imag x : Cmod (imag x) ^ 2 = x ^ 2.
Proof. unfold Cmod, imag. cbn [fst snd]. rewrite pow2_sqrt; [ring|]. pose proof (pow2_ge_0 x). cbn [pow] in *. lra. Qed.
Lemma mod_cis t : Cmod (cis t) = 1.
Proof. unfold Cmod, cis. cbn [fst snd]. rewrite <- sqrt_1. f_equal. pose proof (sin2_cos2 t) as Q. unfold Rsqr in Q. cbn [pow]. lra. Qed.
Lemma mod_R2 x : Cmod (RtoC x) ^ 2 = x ^ 2.
Proof. rewrite Cmod_R. apply pow2_abs. Qed.
Lemma sinc_sq x : x <> 0 -> x ^ 2 * sinc x ^ 2 = sin (PI * x) ^ 2 / PI ^ 2.
Proof. intros N. unfold sinc. destruct (Req_EM_T x 0); [contradiction|]. field. split; [apply PI_neq0|exact N]. Qed.
Lemma sin_small u : 0 < Rabs u < 1 -> sin (PI * u) <> 0.
Proof.
  intros [H1 H2] E. assert (HP := PI_RGT_0). unfold Rabs in *. destruct (Rcase_abs u) as [L|L].
  - assert (0 < sin (PI * - u)) by (apply sin_gt_0; nra). replace (PI * - u) with (- (PI * u)) in H by ring. rewrite sin_neg, E in H. lra.
  - assert (0 < sin (PI * u)) by (apply sin_gt_0; nra). lra.
Qed.
Lemma lsum_flat {A} (f : A -> R) (g : A -> list A) : forall l, lsum (flat_map (fun a => map f (g a)) l) = lsum (map (fun a => lsum (map f (g a))) l).
Proof. induction l as [|a l IH]; [reflexivity|]. cbn [flat_map map]. unfold lsum in *. rewrite fold_right_app. cbn [fold_right]. rewrite IH. generalize (fold_right Rplus 0 (map (fun a0 => fold_right Rplus 0 (map f (g a0))) l)). intros r. induction (map f (g a)) as [|b m IHm]; cbn [fold_right]; [ring|rewrite IHm; ring]. Qed.
Lemma lsum_pick (f : Z -> R) n : (1 <= n)%nat -> (forall m, In m (shifts n) -> m <> 0%Z -> f m = 0) -> lsum (map f (shifts n)) = f 0%Z.
Proof.
  intros Hn H. unfold shifts in *. rewrite map_map. set (h := fun k => f (Z.of_nat k - Z.of_nat n)%Z).
  assert (G : forall len b, (b <= n < b + len)%nat -> (forall k, (b <= k < b + len)%nat -> k <> n -> h k = 0) -> lsum (map h (seq b len)) = h n).
  { assert (Z0 : forall len b, (forall k, (b <= k < b + len)%nat -> h k = 0) -> lsum (map h (seq b len)) = 0).
    { induction len as [|len IH]; intros b Hk; [reflexivity|]. cbn [seq map]. rewrite lsum_cons, IH, Hk by (intros; try apply Hk; lia). ring. }
    induction len as [|len IH]; intros b Hb Hk; [lia|]. cbn [seq map]. rewrite lsum_cons. destruct (Nat.eq_dec b n) as [ ->|N].
    - rewrite Z0; [ring|]. intros k Hk'. apply Hk; lia.
    - rewrite IH, (Hk b) by (intros; try apply Hk; lia). ring. }
  rewrite G; [unfold h; f_equal; lia|lia|]. intros k Hk N. unfold h. apply H; [|lia]. apply in_map_iff. exists k. split; [reflexivity|]. apply in_seq. lia.
Qed.

(** C127: on the axes of the frequency plane, for still turbulence, the aliasing of a Shack-Hartmann sensor is exactly the
    turbulence folded from the frequencies k - m/d, m = -n, ..., n-1 except 0: the spectrum without piston at the folded
    frequencies times the squared gain of the loop. *)
Theorem C127_aliasing_axis : forall y ch nTh nF nT i j x, still_sh y -> (1 <= nTh)%nat -> (1 <= ch)%nat -> (1 <= nT)%nat -> centre y i j = false ->
  kxAO y i j = x -> kyAO y i j = 0 -> 0 < Rabs x < / y_dsub y ->
  aliasingPSD y 0 ch nTh nF nT i j = Ok (maskAO y i j *
    lsum (map (fun m => if (m =? 0)%Z then 0 else (y_gain y / (y_gain y + eps)) ^ 2 * pistonFilter (y_j1 y) (y_D y) (Rabs (x - IZR m / y_dsub y)) * Rpower ((x - IZR m / y_dsub y) ^ 2) (- 11 / 6)) (shifts nT))
    * Rpower (a_r0 (y_atm y)) (- 5 / 3) * (229 / 10000)).
Proof.
  intros y ch nTh nF nT i j x [Ht Hd HL Hr Hw Hgs Hkc Hno Hsp Hg Hrate Hcl Hst Hws Hlay] HnTh Hch HnT Hce Hx Hy Hb.
  set (d := y_dsub y) in *. assert (HP := PI_RGT_0). assert (Nx : x <> 0) by (intros ->; rewrite Rabs_R0 in Hb; lra).
  assert (Hdx : 0 < Rabs (d * x) < 1). { rewrite Rabs_mult, (Rabs_right d) by lra. split; [apply Rmult_lt_0_compat; lra|]. apply (Rmult_lt_reg_l (/ d)); [apply Rinv_0_lt_compat; exact Hd|]. rewrite <- Rmult_assoc, Rinv_l by lra. lra. }
  assert (Ndx : d * x <> 0) by (intros E; rewrite E, Rabs_R0 in Hdx; lra). pose proof (sin_small _ Hdx) as NS.
  assert (NSC : sinc (d * x) <> 0). { intros E. pose proof (sinc_sq _ Ndx) as Q. rewrite E in Q. assert (0 < sin (PI * (d * x)) ^ 2 / PI ^ 2) by (apply Rdiv_lt_0_compat; apply pow2_gt_0; lra). lra. }
  unfold aliasingPSD.
  assert (EC : exists T, (do cs <- mapM (fun c => rdiv c (y_rate y)) (y_clock y); mean cs) = Ok T).
  { assert (Q : forall l, mapM (fun c => rdiv c (y_rate y)) l = Ok (map (fun c => c / y_rate y) l)) by (induction l as [|c l IH]; [reflexivity|]; cbn [mapM map]; unfold rdiv at 1; destruct (Req_EM_T (y_rate y) 0); [lra|]; cbn [bind]; rewrite IH; reflexivity).
    rewrite Q. cbn [bind]. apply mean_some. destruct (y_clock y); [contradiction|discriminate]. }
  destruct EC as (T & EC). destruct (mapM _ (y_clock y)) as [cs|]; [|discriminate]. cbn [bind] in EC |- *. rewrite EC. cbn [bind]. cbv zeta.
  (* reconstructor *)
  set (phi := PI * d * (x + 0)). set (sc := sinc (d * x)). set (sx := Cmult (imag (2 * PI * x * d)) (Cmult (RtoC (sc * sinc (d * 0))) (cis phi))).
  assert (S0 : sinc (d * 0) = 1) by (unfold sinc; destruct (Req_EM_T (d * 0) 0) as [|N]; [reflexivity|exfalso; apply N; ring]).
  assert (Esx : SxAv y i j = Ok sx). { unfold SxAv, Sx, Av. rewrite Ht, String.eqb_refl. cbn [bind]. rewrite Hx, Hy. reflexivity. }
  assert (Esy : SyAv y i j = Ok (RtoC 0)). { unfold SyAv, Sy. rewrite Ht, String.eqb_refl. cbn [bind]. f_equal. rewrite Hy. unfold imag, Cmult, RtoC. destruct (Av y i j) as [u v]. cbn. f_equal; ring. }
  assert (M2 : Cmod sx ^ 2 = (2 * PI * d) ^ 2 * (x ^ 2 * sc ^ 2)). { unfold sx. rewrite !Cmod_mult, mod_cis, Rmult_1_r, Rpow_mult_distr, mod_imag, mod_R2, S0. ring. }
  assert (X2 : x ^ 2 * sc ^ 2 = sin (PI * (d * x)) ^ 2 / (PI * d) ^ 2). { unfold sc. pose proof (sinc_sq _ Ndx) as Q. rewrite Rpow_mult_distr in Q. replace (x ^ 2 * sinc (d * x) ^ 2) with (d ^ 2 * x ^ 2 * sinc (d * x) ^ 2 / d ^ 2) by (field; lra). rewrite Q. field. lra. }
  assert (PX : 0 < x ^ 2 * sc ^ 2) by (apply Rmult_lt_0_compat; apply pow2_gt_0; assumption).
  assert (PM : 0 < Cmod sx ^ 2) by (rewrite M2; apply Rmult_lt_0_compat; [apply pow2_gt_0; nra|exact PX]).
  assert (K2 : 0 < k2AO y i j) by (unfold k2AO; rewrite Hx, Hy; replace (x ^ 2 + 0 ^ 2) with (x ^ 2) by ring; apply pow2_gt_0; exact Nx).
  assert (EW : exists p, Wphi y i j = Ok p /\ 0 < p).
  { unfold Wphi, spectrum. rewrite rpow_pos by exact Hr. cbn [bind]. rewrite HL. cbn [bind]. rewrite rpow_pos by (rewrite pow2_sqrt by lra; lra). cbn [bind]. eexists. split; [reflexivity|].
    apply Rmult_lt_0_compat; [apply Rmult_lt_0_compat; [apply exp_pos|]|apply exp_pos]. apply cte_pos; exact Hsp. }
  destruct EW as (p & EW & Pp).
  assert (ER : recon y 0 i j = Ok ((fst (Cconj sx) / Cmod sx ^ 2, snd (Cconj sx) / Cmod sx ^ 2), (0, 0))).
  { unfold recon. rewrite Hce, Esx, Esy. cbn [bind]. rewrite rdiv_ok by exact Hgs. cbn [bind]. rewrite EW. cbn [bind]. destruct (mean_some _ Hno) as (mn & En). unfold Wn. rewrite En. cbn [bind]. rewrite rdiv_ok by (apply pow_nonzero; nra). cbn [bind].
    rewrite rdiv_ok by (apply Rmult_integral_contrapositive_currified; [lra|apply pow_nonzero; exact Hw]). cbn [bind]. cbv zeta. rewrite Rmult_0_l. replace (0 / _) with 0 by (unfold Rdiv; ring). replace (Cmod (RtoC 0) ^ 2) with 0 by (rewrite Cmod_0; ring). rewrite !Rplus_0_r.
    unfold cdivr. destruct (Req_EM_T (Cmod sx ^ 2) 0); [lra|]. cbn [bind]. f_equal. f_equal. unfold Cconj, RtoC. cbn [fst snd]. f_equal; unfold Rdiv; ring. }
  rewrite ER. cbn [bind]. set (rx := (fst (Cconj sx) / Cmod sx ^ 2, snd (Cconj sx) / Cmod sx ^ 2)).
  assert (R2 : Cmod rx ^ 2 = / Cmod sx ^ 2).
  { assert (E : rx = Cmult (RtoC (/ Cmod sx ^ 2)) (Cconj sx)) by (unfold rx, Cmult, RtoC, Cconj; cbn [fst snd]; f_equal; unfold Rdiv; ring). rewrite E, Cmod_mult, mod_conj, Rpow_mult_distr, mod_R2. field. intros Z. rewrite Z in PM. cbn [pow] in PM. lra. }
  assert (EK : exists b g, controller y nTh nF = Ok (Some (h1 y nTh, b, g))) by (unfold controller; destruct (Req_EM_T (y_gain y) 0); [lra|]; destruct (Req_EM_T (y_rate y) 0); [lra|]; destruct (Rlt_dec (y_rate y) 0); [lra|]; eauto).
  destruct EK as (b & g & ->). cbn [bind].
  destruct (static_h y nTh i j HnTh Hg Hst) as [EH _]. rewrite EH, Hws, Rmult_1_l. set (ah := y_gain y / (y_gain y + eps)).
  (* terms *)
  set (val := fun m n : Z => if (n =? 0)%Z then (if (m =? 0)%Z then 0 else ah ^ 2 * pistonFilter (y_j1 y) (y_D y) (Rabs (x - IZR m / d)) * Rpower ((x - IZR m / d) ^ 2) (- 11 / 6)) else 0).
  assert (TERM : forall m n, alias_term y ch (rx, (0, 0)) (RtoC ah) T (T * y_delay y) i j m n = Ok (val m n)).
  { intros m n. unfold alias_term. cbv zeta. fold d. rewrite !rdiv_ok by lra. cbn [bind]. rewrite Hx, Hy. set (km := x - IZR m / d). set (kn := 0 - IZR n / d).
    assert (NK : km <> 0). { unfold km. intros E. assert (EX : d * x = IZR m) by (replace x with (IZR m / d) by lra; field; lra). rewrite EX in Hdx. rewrite <- abs_IZR in Hdx. destruct Hdx as [A B]. apply lt_IZR in A. apply lt_IZR in B. lia. }
    unfold inv_L0_2. rewrite HL. cbn [bind]. assert (PB : 0 < km ^ 2 + kn ^ 2 + 0) by (pose proof (pow2_gt_0 km NK); pose proof (pow2_ge_0 kn); lra).
    rewrite rpow_pos by exact PB. cbn [bind]. rewrite avr_sum_val by assumption. cbn [bind]. f_equal. cbn [fst snd].
    rewrite Rplus_0_r.
    assert (ES : clsum (map (fun l => Cmult (RtoC (l_w l)) (avr T (T * y_delay y) (RtoC ah) km kn l)) (y_layers y)) = RtoC ah).
    { assert (Q : forall ls, (forall l, In l ls -> l_vx l = 0 /\ l_vy l = 0) -> clsum (map (fun l => Cmult (RtoC (l_w l)) (avr T (T * y_delay y) (RtoC ah) km kn l)) ls) = RtoC (lsum (map l_w ls) * ah)).
      { induction ls as [|l ls IH]; intros Hl; [cbn; unfold RtoC; f_equal; ring|]. cbn [map]. rewrite lsum_cons. cbn [clsum fold_right]. fold (clsum (map (fun l => Cmult (RtoC (l_w l)) (avr T (T * y_delay y) (RtoC ah) km kn l)) ls)). rewrite IH by (intros; apply Hl; right; assumption).
        destruct (Hl l (or_introl eq_refl)) as [V1 V2]. unfold avr. rewrite V1, V2, !Rmult_0_r, !Rmult_0_l. rewrite !Rplus_0_l || idtac.
        assert (Z0 : sinc 0 = 1) by (unfold sinc; destruct (Req_EM_T 0 0); [reflexivity|congruence]). rewrite Z0.
        replace (2 * PI * (0 + 0) * (T * y_delay y)) with 0 by ring. unfold cis. rewrite ?Rplus_0_l, ?Rmult_0_r, ?Rmult_0_l, ?cos_0, ?sin_0. unfold Cmult, Cplus, RtoC. cbn [fst snd]. f_equal; ring. }
      rewrite (Q _ Hst). assert (LT : forall l, lsum l = S_Tools.total l) by (induction l as [|v l IHl]; [reflexivity|]; rewrite lsum_cons, IHl; reflexivity). rewrite LT. unfold weight_sum in Hws. rewrite Hws. f_equal. ring. }
    rewrite ES. unfold val.
    assert (SK : sinc (d * kn) = if (n =? 0)%Z then 1 else 0).
    { unfold kn. replace (d * (0 - IZR n / d)) with (IZR (- n)) by (rewrite opp_IZR; field; lra). destruct (Z.eqb_spec n 0) as [ ->|N]; [unfold sinc; destruct (Req_EM_T (IZR (- 0)) 0) as [|M]; [reflexivity|exfalso; apply M; reflexivity]|]. apply sinc_int. lia. }
    rewrite SK. destruct (Z.eqb_spec n 0) as [ ->|Nn].
    - destruct (Z.eqb_spec m 0) as [ ->|Nm]; cbn [andb negb b2R]; [ring|]. rewrite Rmult_1_r.
      assert (Kn0 : kn = 0) by (unfold kn; replace (IZR 0) with 0 by reflexivity; unfold Rdiv; ring).
      rewrite !Cmod_mult, !Rpow_mult_distr, mod_R2.
      assert (EQ : Cplus (Cmult (Cmult rx (imag (2 * PI * d))) (RtoC km)) (Cmult (Cmult (0, 0) (imag (2 * PI * d))) (RtoC kn)) = Cmult (Cmult rx (imag (2 * PI * d))) (RtoC km)) by (unfold Cplus, Cmult, imag, RtoC; cbn [fst snd]; f_equal; ring).
      rewrite EQ, !Cmod_mult, !Rpow_mult_distr, R2, mod_imag, !mod_R2.
      assert (KM : km ^ 2 * sinc (d * km) ^ 2 = sin (PI * (d * x)) ^ 2 / (PI * d) ^ 2).
      { assert (Ndk : d * km <> 0) by (apply Rmult_integral_contrapositive_currified; lra). pose proof (sinc_sq _ Ndk) as Q. rewrite Rpow_mult_distr in Q. replace (km ^ 2 * sinc (d * km) ^ 2) with (d ^ 2 * km ^ 2 * sinc (d * km) ^ 2 / d ^ 2) by (field; lra). rewrite Q.
        replace (d * km) with (d * x - IZR m) by (unfold km; field; lra). rewrite sin_shift_sq. field. lra. }
      rewrite M2, X2. rewrite Kn0. unfold hypot. replace (km ^ 2 + 0 ^ 2) with (km ^ 2) by ring. fold km. rewrite <- (Rsqr_pow2 km) at 1. rewrite sqrt_Rsqr_abs.
      replace (/ ((2 * PI * d) ^ 2 * (sin (PI * (d * x)) ^ 2 / (PI * d) ^ 2)) * (2 * PI * d) ^ 2 * km ^ 2 * (sinc (d * km) ^ 2 * 1 ^ 2) * ah ^ 2) with (km ^ 2 * sinc (d * km) ^ 2 / (sin (PI * (d * x)) ^ 2 / (PI * d) ^ 2) * ah ^ 2) by (field; repeat split; lra || exact NS).
      rewrite KM. replace (sin (PI * (d * x)) ^ 2 / (PI * d) ^ 2 / (sin (PI * (d * x)) ^ 2 / (PI * d) ^ 2)) with 1 by (field; repeat split; lra || exact NS). ring.
    - rewrite !Rmult_0_r. replace (Cmod _) with 0; [ring|]. rewrite !Cmod_mult, Cmod_R, Rabs_R0. ring. }
  assert (EM : forall l, mapM (fun mn => alias_term y ch (rx, (0, 0)) (RtoC ah) T (T * y_delay y) i j (fst mn) (snd mn)) l = Ok (map (fun mn => val (fst mn) (snd mn)) l)).
  { induction l as [|mn l IH]; [reflexivity|]. cbn [mapM map]. rewrite TERM. cbn [bind]. rewrite IH. reflexivity. }
  rewrite EM. cbn [bind]. rewrite rpow_pos by exact Hr. cbn [bind]. f_equal. f_equal. f_equal. f_equal.
  assert (FL : forall l, lsum (map (fun mn => val (fst mn) (snd mn)) (flat_map (fun m => map (fun n => (m, n)) (shifts nT)) l)) = lsum (map (fun m => val m 0%Z) l)).
  { induction l as [|m l IH]; [reflexivity|]. cbn [flat_map map]. rewrite map_app, lsum_cons, <- IH. rewrite map_map. cbn [fst snd].
    assert (LA : forall a c, lsum (a ++ c) = lsum a + lsum c) by (induction a as [|v a IHa]; intros c; [unfold lsum; cbn; ring|]; cbn [app]; rewrite !lsum_cons, IHa; ring). rewrite LA. f_equal.
    apply (lsum_pick (fun n => val m n) nT HnT). intros n _ Nn. unfold val. destruct (Z.eqb_spec n 0); [contradiction|reflexivity]. }
  rewrite FL. f_equal.
Qed.

Lemma PF_le1 j1 D f : pistonFilter j1 D f <= 1.
Proof. unfold pistonFilter. cbv zeta. destruct (Rlt_dec _ 0); [lra|]. pose proof (pow2_ge_0 (sombrero1 j1 (PI * D * (if Req_EM_T f 0 then / 10 ^ 10 else f)))). lra. Qed.
Lemma PF_ge j1 D f : (forall t, Rabs (j1 t) <= 1) -> 0 < D -> 0 < f -> 1 - 4 / (PI * D * f) ^ 2 <= pistonFilter j1 D f.
Proof.
  intros HJ HD Hf. assert (HP := PI_RGT_0). unfold pistonFilter. cbv zeta. destruct (Req_EM_T f 0); [lra|]. set (z := PI * D * f). assert (Hz : 0 < z) by (unfold z; apply Rmult_lt_0_compat; [nra|exact Hf]).
  assert (B : sombrero1 j1 z ^ 2 <= / z ^ 2).
  { unfold sombrero1. destruct (Req_EM_T z 0); [lra|]. unfold Rdiv. rewrite Rpow_mult_distr, pow_inv. rewrite <- (Rmult_1_l (/ z ^ 2)) at 2. apply Rmult_le_compat_r; [left; apply Rinv_0_lt_compat, pow_lt; exact Hz|].
    rewrite <- pow2_abs. pose proof (HJ z). pose proof (Rabs_pos (j1 z)). nra. }
  destruct (Rlt_dec _ 0); unfold Rdiv; lra.
Qed.
(** the spectrum without piston at u = q - x against its value at v = q + x *)
Lemma folded_lt j1 D x q : (forall t, Rabs (j1 t) <= 1) -> 0 < D -> / D <= x -> x <= q / 2 -> / D <= q ->
  pistonFilter j1 D (Rabs (x + q)) * Rpower ((x + q) ^ 2) (- 11 / 6) < pistonFilter j1 D (Rabs (x - q)) * Rpower ((x - q) ^ 2) (- 11 / 6).
Proof.
  intros HJ HD Hx Hxq Hq. assert (ID := Rinv_0_lt_compat _ HD). set (u := q - x). set (v := x + q). assert (Pu : 0 < u) by (unfold u; lra). assert (Pv : 0 < v) by (unfold v; lra).
  replace ((x - q) ^ 2) with (u ^ 2) by (unfold u; ring). replace (Rabs (x - q)) with u by (unfold u; rewrite Rabs_left1 by lra; ring). rewrite (Rabs_right v) by lra.
  assert (U2 : 0 < u ^ 2) by (apply pow_lt; exact Pu). assert (V2 : 0 < v ^ 2) by (apply pow_lt; exact Pv).
  assert (SP : forall w, 0 < w -> Rpower w (- 11 / 6) = / w * Rpower w (- (5 / 6))) by (intros w Hw; replace (- 11 / 6) with (- (1) + - (5 / 6)) by lra; rewrite Rpower_plus; f_equal; rewrite Rpower_Ropp, Rpower_1 by exact Hw; reflexivity).
  rewrite !SP by assumption. set (A := Rpower (v ^ 2) (- (5 / 6))). set (B := Rpower (u ^ 2) (- (5 / 6))). assert (PA : 0 < A) by apply exp_pos.
  assert (AB : A < B). { unfold A, B. rewrite !Rpower_Ropp. apply Rinv_lt_contravar; [apply Rmult_lt_0_compat; apply exp_pos|]. apply Rlt_Rpower_l; [lra|]. split; [exact U2|]. assert (u < v) by (unfold u, v; lra). nra. }
  assert (HPI : 9 <= PI ^ 2). { pose proof (PI2_3_2). assert (3 <= PI) by lra. nra. }
  assert (KEY : / v ^ 2 <= (1 - 4 / (PI * D * u) ^ 2) / u ^ 2).
  { assert (N : v ^ 2 <= q * x * PI ^ 2 * D ^ 2 * u ^ 2).
    { assert (Q1 : 1 <= q * x * D ^ 2). { assert (1 <= q * D) by (apply (Rmult_le_reg_l (/ D)); [exact ID|]; replace (/ D * (q * D)) with q by (field; lra); lra). assert (1 <= x * D) by (apply (Rmult_le_reg_l (/ D)); [exact ID|]; replace (/ D * (x * D)) with x by (field; lra); lra). replace (q * x * D ^ 2) with ((q * D) * (x * D)) by ring. nra. }
      assert (Q2 : v ^ 2 <= 9 * u ^ 2). { replace (9 * u ^ 2) with ((3 * u) ^ 2) by ring. apply pow_incr. unfold u, v. lra. }
      replace (q * x * PI ^ 2 * D ^ 2 * u ^ 2) with ((q * x * D ^ 2) * (PI ^ 2 * u ^ 2)) by ring. apply (Rle_trans _ (1 * (9 * u ^ 2))); [lra|]. apply Rmult_le_compat; [lra|nra|exact Q1|]. apply Rmult_le_compat_r; lra. }
    assert (E : (1 - 4 / (PI * D * u) ^ 2) / u ^ 2 - / v ^ 2 = 4 * (q * x * PI ^ 2 * D ^ 2 * u ^ 2 - v ^ 2) / (PI ^ 2 * D ^ 2 * u ^ 4 * v ^ 2)).
    { assert (PI <> 0) by apply PI_neq0. replace (q * x * PI ^ 2 * D ^ 2 * u ^ 2) with ((v ^ 2 - u ^ 2) / 4 * PI ^ 2 * D ^ 2 * u ^ 2) by (unfold u, v; field). field. repeat split; lra. }
    assert (0 <= 4 * (q * x * PI ^ 2 * D ^ 2 * u ^ 2 - v ^ 2) / (PI ^ 2 * D ^ 2 * u ^ 4 * v ^ 2)); [|lra]. apply Rmult_le_pos; [lra|]. left. apply Rinv_0_lt_compat. apply Rmult_lt_0_compat; [|exact V2]. apply Rmult_lt_0_compat; [apply Rmult_lt_0_compat; [lra|apply pow_lt; exact HD]|apply pow_lt; exact Pu]. }
  pose proof (PF_ge j1 D u HJ HD Pu) as GE. pose proof (PF_le1 j1 D v) as LE. assert (IV : 0 < / v ^ 2) by (apply Rinv_0_lt_compat; exact V2). assert (IU : 0 < / u ^ 2) by (apply Rinv_0_lt_compat; exact U2).
  apply (Rle_lt_trans _ (/ v ^ 2 * A)). { rewrite <- (Rmult_1_l (/ v ^ 2 * A)) at 2. apply Rmult_le_compat_r; [nra|exact LE]. }
  apply (Rlt_le_trans _ (/ v ^ 2 * B)); [apply Rmult_lt_compat_l; assumption|]. rewrite <- Rmult_assoc. apply Rmult_le_compat_r; [lra|]. eapply Rle_trans; [exact KEY|]. unfold Rdiv. apply Rmult_le_compat_r; lra.
Qed.

(** C127, finding: the aliasing spectrum of such a system is larger at -k than at k for every frequency k on the positive half
    of the axis between 1/D and 1/(2d), that is in the corrected area: the fold orders run from -n to n-1, so the turbulence
    at k - n/d has no counterpart. The Bessel function of the piston filter is only supposed to be bounded by one. (Frequency exactly on the axis: the arrays without
    their offset of 1e-10; C127_aliasing_orders below is exact for every offset.) *)
Theorem C127_aliasing_refuted : forall y ch nTh nF nT i j i' j', still_sh y -> (forall t, Rabs (y_j1 y t) <= 1) -> y_dsub y <= y_D y ->
  (1 <= nTh)%nat -> (1 <= ch)%nat -> (1 <= nT)%nat ->
  opposite (y_res y) i i' -> opposite (y_res y) j j' -> centre y i j = false -> maskAO y i j = 1 ->
  kyAO y i j = 0 -> / y_D y <= kxAO y i j <= / (2 * y_dsub y) ->
  exists a b, aliasingPSD y 0 ch nTh nF nT i j = Ok a /\ aliasingPSD (flip_offset y) 0 ch nTh nF nT i' j' = Ok b /\ a < b.
Proof.
  intros y ch nTh nF nT i j i' j' HS HJ HdD HnTh Hch HnT Hi Hj Hce Hm Hy HxD. set (x := kxAO y i j) in *. set (d := y_dsub y) in *. assert (Hd : 0 < d) by apply (sh_d y HS).
  assert (HD : 0 < y_D y) by lra. assert (IDD := Rinv_0_lt_compat _ HD). assert (I2 : / (2 * d) = / d / 2) by (field; lra). assert (ID : 0 < / d) by (apply Rinv_0_lt_compat; exact Hd). assert (Hx : 0 < x < / d) by lra.
  rewrite (C127_aliasing_axis y ch nTh nF nT i j x) by (try assumption; try reflexivity; rewrite Rabs_right by lra; exact Hx).
  rewrite (C127_aliasing_axis (flip_offset y) ch nTh nF nT i' j' (- x)).
  - eexists. eexists. split; [reflexivity|]. split; [reflexivity|]. change (y_gain (flip_offset y)) with (y_gain y). change (y_atm (flip_offset y)) with (y_atm y). change (y_dsub (flip_offset y)) with d. change (y_j1 (flip_offset y)) with (y_j1 y). change (y_D (flip_offset y)) with (y_D y). rewrite (sym_mask y i j i' j' Hi Hj), Hm. fold d.
    apply Rmult_lt_compat_r; [lra|]. apply Rmult_lt_compat_r; [apply exp_pos|]. rewrite !Rmult_1_l.
    set (ah := y_gain y / (y_gain y + eps)). assert (PA : 0 < ah ^ 2). { apply pow2_gt_0. unfold ah. pose proof (sh_g y HS). pose proof eps_pos. apply Rgt_not_eq, Rdiv_lt_0_compat; lra. }
    set (G := fun v => ah ^ 2 * pistonFilter (y_j1 y) (y_D y) (Rabs v) * Rpower (v ^ 2) (- 11 / 6)).
    assert (GE : forall v, G (- v) = G v) by (intros v; unfold G; rewrite Rabs_Ropp; replace ((- v) ^ 2) with (v ^ 2) by ring; reflexivity).
    set (f := fun m : Z => if (m =? 0)%Z then 0 else G (x - IZR m / d)).
    assert (E1 : map (fun m => if (m =? 0)%Z then 0 else ah ^ 2 * pistonFilter (y_j1 y) (y_D y) (Rabs (- x - IZR m / d)) * Rpower ((- x - IZR m / d) ^ 2) (- 11 / 6)) (shifts nT) = map (fun m => f (- m)%Z) (shifts nT)).
    { apply map_ext. intros m. unfold f. destruct (Z.eqb_spec m 0) as [ ->|N]; [reflexivity|]. destruct (Z.eqb_spec (- m) 0); [lia|]. rewrite <- GE, opp_IZR. replace (- (x - - IZR m / d)) with (- x - IZR m / d) by (unfold Rdiv; ring). reflexivity. }
    rewrite E1. change (lsum (map f (shifts nT)) < lsum (map (fun m => f (- m)%Z) (shifts nT))).
    assert (SUM : forall n, (1 <= n)%nat -> lsum (map (fun m => f (- m)%Z) (shifts n)) - lsum (map f (shifts n)) = f (Z.of_nat n) - f (- Z.of_nat n)%Z).
    { intros n Hn. unfold shifts. rewrite !map_map.
      assert (LR : forall (h : nat -> R) m, lsum (map h (seq 0 m)) = rsum m h). { intros h m. induction m as [|m IH]; [reflexivity|]. rewrite seq_S, map_app. cbn [map Nat.add rsum]. rewrite <- IH. assert (LA : forall a c, lsum (a ++ c) = lsum a + lsum c) by (induction a as [|v a IHa]; intros c; [unfold lsum; cbn; ring|]; cbn [app]; rewrite !lsum_cons, IHa; ring). rewrite LA. unfold lsum at 2. cbn. ring. }
      rewrite !LR. rewrite (rsum_rev (2 * n) (fun k => f (- (Z.of_nat k - Z.of_nat n))%Z)).
      rewrite <- rsum_minus. rewrite (rsum_ext _ _ (fun k => f (Z.of_nat (S k) - Z.of_nat n)%Z - f (Z.of_nat k - Z.of_nat n)%Z)) by (intros k Hk; f_equal; f_equal; lia).
      assert (TEL : forall m, rsum m (fun k => f (Z.of_nat (S k) - Z.of_nat n)%Z - f (Z.of_nat k - Z.of_nat n)%Z) = f (Z.of_nat m - Z.of_nat n)%Z - f (- Z.of_nat n)%Z).
      { induction m as [|m IH]; [cbn [rsum]; replace (Z.of_nat 0 - Z.of_nat n)%Z with (- Z.of_nat n)%Z by lia; ring|]. cbn [rsum]. rewrite IH. ring. }
      rewrite TEL. f_equal. f_equal. lia. }
    pose proof (SUM nT HnT) as Q.
    assert (LT : f (- Z.of_nat nT)%Z < f (Z.of_nat nT)).
    { unfold f. destruct (Z.eqb_spec (- Z.of_nat nT) 0); [lia|]. destruct (Z.eqb_spec (Z.of_nat nT) 0); [lia|]. unfold G. rewrite !Rmult_assoc. apply Rmult_lt_compat_l; [exact PA|]. rewrite opp_IZR, <- INR_IZR_INZ.
      assert (N1 : 1 <= INR nT) by (apply (le_INR 1); exact HnT). assert (ND : / d <= INR nT / d) by (unfold Rdiv; nra). set (q := INR nT / d) in *.
      replace (x - - INR nT / d) with (x + q) by (unfold q; unfold Rdiv; ring).
      assert (/ y_D y <= / d) by (apply Rinv_le_contravar; lra). apply folded_lt; try assumption; lra. }
    lra.
  - destruct HS. constructor; cbn [flip_offset y_type y_dsub y_atm y_gswvl y_kcMax y_noise y_sp y_gain y_rate y_clock y_layers y_j1 y_D]; assumption.
  - exact HnTh.
  - exact Hch.
  - exact HnT.
  - rewrite (sym_centre y i j i' j' Hi Hj). exact Hce.
  - apply (sym_kx y i j i' j' Hi).
  - rewrite (sym_ky y i j i' j' Hj), Hy. ring.
  - change (y_dsub (flip_offset y)) with d. rewrite Rabs_Ropp, Rabs_right by lra. exact Hx.
Qed.

(** C127: exactly how the aliasing spectrum fails to be symmetric, for every sensor, offset, wind and reconstructor: the value at
    the opposite frequency is the one at the frequency itself with the fold orders -n+1..n in place of -n..n-1. *)
Definition shifts_up (nT : nat) : list Z := map (fun k => (Z.of_nat k + 1 - Z.of_nat nT)%Z) (seq 0 (2 * nT)).
Definition aliasing_with (orders : list Z) (y : fsys) (MV : R) (chunk_max nTh nF : nat) (i j : nat) : result R :=
  do cs <- mapM (fun c => rdiv c (y_rate y)) (y_clock y);
  do T <- mean cs;
  do r <- recon y MV i j;
  do c <- controller y nTh nF;
  match c with
  | None => Err AttributeError
  | Some (a, _, _) =>
    do ts <- mapM (fun mn => alias_term y chunk_max r (a i j) T (T * y_delay y) i j (fst mn) (snd mn))
               (flat_map (fun m => map (fun n => (m, n)) orders) orders);
    do p <- rpow (a_r0 (y_atm y)) (- 5 / 3);
    Ok (maskAO y i j * lsum ts * p * (229 / 10000))
  end.
Lemma avr_conj T td tf km kn l : avr T td (Cconj tf) (- km) (- kn) l = Cconj (avr T td tf km kn l).
Proof.
  unfold avr. rewrite !conj_mult, conj_R, <- cis_opp. replace (- km * l_vx l * T) with (- (km * l_vx l * T)) by ring. replace (- kn * l_vy l * T) with (- (kn * l_vy l * T)) by ring. rewrite !sinc_opp. do 3 f_equal. ring.
Qed.
Lemma avr_sum_conj ch T td tf km kn ls : avr_sum ch T td (Cconj tf) (- km) (- kn) ls = rc Cconj (avr_sum ch T td tf km kn ls).
Proof.
  destruct ls as [|l ls].
  - unfold avr_sum. cbn [length]. rewrite Nat.min_0_r. reflexivity.
  - destruct ch as [|ch]; [reflexivity|]. rewrite !avr_sum_val by (lia || discriminate). cbn [rc]. f_equal. rewrite <- clsum_conj, map_map. f_equal. apply map_ext. intros k. rewrite conj_mult, conj_R, avr_conj. reflexivity.
Qed.
Lemma sym_term y ch r a T td i j i' j' m n : opposite (y_res y) i i' -> opposite (y_res y) j j' ->
  alias_term (flip_offset y) ch (conj2 r) (Cconj a) T td i' j' (- m) (- n) = alias_term y ch r a T td i j m n.
Proof.
  intros Hi Hj. unfold alias_term. cbv zeta. rewrite (sym_kx y i j i' j' Hi), (sym_ky y i j i' j' Hj). change (y_dsub (flip_offset y)) with (y_dsub y). change (y_j1 (flip_offset y)) with (y_j1 y). change (y_D (flip_offset y)) with (y_D y). change (y_atm (flip_offset y)) with (y_atm y). change (y_layers (flip_offset y)) with (y_layers y).
  unfold rdiv. destruct (Req_EM_T (y_dsub y) 0); [reflexivity|]. cbn [bind]. rewrite !opp_IZR. set (km := kxAO y i j - IZR m / y_dsub y). set (kn := kyAO y i j - IZR n / y_dsub y).
  replace (- kxAO y i j - - IZR m / y_dsub y) with (- km) by (unfold km, Rdiv; ring). replace (- kyAO y i j - - IZR n / y_dsub y) with (- kn) by (unfold kn, Rdiv; ring).
  replace (hypot (- km) (- kn)) with (hypot km kn) by (unfold hypot; f_equal; ring). destruct (inv_L0_2 (y_atm y)) as [l0|]; [|reflexivity]. cbn [bind]. replace ((- km) ^ 2 + (- kn) ^ 2 + l0) with (km ^ 2 + kn ^ 2 + l0) by ring. destruct (rpow _ _) as [W|]; [|reflexivity]. cbn [bind].
  rewrite avr_sum_conj. destruct (avr_sum ch T td a km kn (y_layers y)) as [s|]; [|reflexivity]. cbn [bind rc]. f_equal. f_equal.
  - f_equal. rewrite !Ropp_mult_distr_r_reverse, !sinc_opp.
    assert (E : forall c k, Cmult (Cmult (Cconj c) (imag (2 * PI * y_dsub y))) (RtoC (- k)) = Cconj (Cmult (Cmult c (imag (2 * PI * y_dsub y))) (RtoC k))) by (intros [u v] k; unfold Cconj, Cmult, imag, RtoC; cbn [fst snd]; f_equal; ring).
    unfold conj2. cbn [fst snd]. rewrite !E, <- conj_plus, <- (conj_R (sinc _ * sinc _)), <- !conj_mult, mod_conj, ?conj_R. reflexivity.
  - f_equal. f_equal. f_equal; [destruct (Z.eqb_spec (- m) 0), (Z.eqb_spec m 0)|destruct (Z.eqb_spec (- n) 0), (Z.eqb_spec n 0)]; lia || reflexivity.
Qed.
Lemma shifts_rev nT : shifts nT = map Z.opp (rev (shifts_up nT)).
Proof.
  unfold shifts, shifts_up. rewrite <- map_rev, map_map. set (N := (2 * nT)%nat).
  assert (R : rev (seq 0 N) = map (fun k => N - 1 - k)%nat (seq 0 N)).
  { apply (nth_ext _ _ 0%nat 0%nat); [rewrite rev_length, map_length; reflexivity|]. intros k Hk. rewrite rev_length, seq_length in Hk. rewrite rev_nth by (rewrite seq_length; exact Hk). rewrite seq_length, seq_nth by lia.
    rewrite (nth_indep _ 0%nat ((fun k => N - 1 - k)%nat 0%nat)) by (rewrite map_length, seq_length; exact Hk). rewrite (map_nth (fun k => N - 1 - k)%nat), seq_nth by exact Hk. lia. }
  rewrite R, map_map. apply map_ext_in. intros k Hk. apply in_seq in Hk. unfold N in *. lia.
Qed.
Definition opp2 (p : Z * Z) : Z * Z := (- fst p, - snd p)%Z.
Lemma pairs_opp l l2 : flat_map (fun m => map (fun n => (m, n)) (map Z.opp l2)) (map Z.opp l) = map opp2 (flat_map (fun m => map (fun n => (m, n)) l2) l).
Proof. induction l as [|a l IH]; [reflexivity|]. cbn [map flat_map]. rewrite map_app, IH. f_equal. rewrite !map_map. reflexivity. Qed.
Lemma pairs_rev (l2 : list Z) : forall l : list Z, flat_map (fun m => map (fun n => (m, n)) (rev l2)) (rev l) = rev (flat_map (fun m => map (fun n => (m, n)) l2) l).
Proof.
  induction l as [|a l IH]; [reflexivity|]. cbn [flat_map rev]. rewrite flat_map_app, IH, rev_app_distr. f_equal. cbn [flat_map]. rewrite app_nil_r, map_rev. reflexivity.
Qed.
Lemma mapM_app_ok {A B} (f : A -> result B) l1 l2 r : mapM f (l1 ++ l2) = Ok r -> exists r1 r2, mapM f l1 = Ok r1 /\ mapM f l2 = Ok r2 /\ r = r1 ++ r2.
Proof.
  revert r. induction l1 as [|a l1 IH]; intros r H; [exists [], r; repeat split; exact H|]. cbn [app mapM] in H. destruct (f a) as [b|] eqn:Ea; [|discriminate]. cbn [bind] in H. destruct (mapM f (l1 ++ l2)) as [t|] eqn:Et; [|discriminate]. cbn [bind] in H. apply Ok_inj in H. subst r.
  destruct (IH t eq_refl) as (r1 & r2 & E1 & E2 & ->). exists (b :: r1), r2. cbn [mapM]. rewrite Ea. cbn [bind]. rewrite E1. repeat split. exact E2.
Qed.
Lemma mapM_app_ok2 {A B} (f : A -> result B) l1 l2 r1 r2 : mapM f l1 = Ok r1 -> mapM f l2 = Ok r2 -> mapM f (l1 ++ l2) = Ok (r1 ++ r2).
Proof.
  revert r1. induction l1 as [|a l1 IH]; intros r1 H1 H2; cbn [mapM app] in *; [apply Ok_inj in H1; subst; exact H2|]. destruct (f a) as [b|]; [|discriminate]. cbn [bind] in *. destruct (mapM f l1) as [t|]; [|discriminate]. cbn [bind] in H1. apply Ok_inj in H1. subst r1. rewrite (IH t eq_refl H2). reflexivity.
Qed.
Lemma mapM_rev_ok {A B} (f : A -> result B) l : forall r, mapM f l = Ok r -> mapM f (rev l) = Ok (rev r).
Proof.
  induction l as [|a l IH]; intros r H; cbn [mapM rev] in *; [apply Ok_inj in H; subst; reflexivity|]. destruct (f a) as [b|] eqn:E; [|discriminate]. cbn [bind] in H. destruct (mapM f l) as [t|]; [|discriminate]. cbn [bind] in H. apply Ok_inj in H. subst r. cbn [rev]. apply mapM_app_ok2; [apply IH; reflexivity|]. cbn [mapM]. rewrite E. reflexivity.
Qed.
Lemma lsum_app a c : lsum (a ++ c) = lsum a + lsum c.
Proof. induction a as [|v a IHa]; [unfold lsum; cbn; ring|]. cbn [app]. rewrite !lsum_cons, IHa. ring. Qed.
Lemma lsum_rev l : lsum (rev l) = lsum l.
Proof. induction l as [|a l IH]; [reflexivity|]. cbn [rev]. rewrite lsum_app, !lsum_cons, IH. change (lsum []) with 0. ring. Qed.

Theorem C127_aliasing_orders : forall y MV ch nTh nF nT i j i' j' v, opposite (y_res y) i i' -> opposite (y_res y) j j' -> no_branch y nTh i j ->
  aliasingPSD y MV ch nTh nF nT i j = aliasing_with (shifts nT) y MV ch nTh nF i j /\
  (aliasingPSD (flip_offset y) MV ch nTh nF nT i' j' = Ok v <-> aliasing_with (shifts_up nT) y MV ch nTh nF i j = Ok v).
Proof.
  intros y MV ch nTh nF nT i j i' j' v Hi Hj NB. split; [reflexivity|]. set (y' := flip_offset y). unfold aliasingPSD, aliasing_with. change (y_clock y') with (y_clock y). change (y_rate y') with (y_rate y). change (y_delay y') with (y_delay y). change (y_atm y') with (y_atm y).
  destruct (mapM _ (y_clock y)) as [cs|]; [|reflexivity]. cbn [bind]. destruct (mean cs) as [T|]; [|reflexivity]. cbn [bind]. cbv zeta. pose proof (sym_recon y i j i' j' Hi Hj MV) as ER. fold y' in ER. rewrite ER. destruct (recon y MV i j) as [r|]; [|reflexivity]. cbn [bind rc].
  unfold controller. change (y_gain y') with (y_gain y). change (y_rate y') with (y_rate y). destruct (Req_EM_T (y_gain y) 0); [reflexivity|]. destruct (Req_EM_T (y_rate y) 0); [reflexivity|]. destruct (Rlt_dec (y_rate y) 0); [reflexivity|]. cbn [bind].
  pose proof (sym_h1 y i j i' j' Hi Hj nTh NB) as E1. fold y' in E1. rewrite E1. pose proof (sym_mask y i j i' j' Hi Hj) as EM. fold y' in EM. rewrite EM.
  rewrite shifts_rev, pairs_opp, pairs_rev. set (L := flat_map _ (shifts_up nT)).
  set (g := fun mn : Z * Z => alias_term y ch r (h1 y nTh i j) T (T * y_delay y) i j (fst mn) (snd mn)).
  assert (EG : forall l, mapM (fun mn => alias_term y' ch (conj2 r) (Cconj (h1 y nTh i j)) T (T * y_delay y) i' j' (fst mn) (snd mn)) (map opp2 l) = mapM g l).
  { induction l as [|a l IH]; [reflexivity|]. cbn [map mapM]. rewrite IH. unfold opp2 at 1 2. cbn [fst snd]. unfold y'. rewrite (sym_term y ch r (h1 y nTh i j) T (T * y_delay y) i j i' j' (fst a) (snd a) Hi Hj). reflexivity. }
  rewrite EG. split; intros H.
  - destruct (mapM g (rev L)) as [ts|] eqn:Et; [|discriminate]. apply mapM_rev_ok in Et. rewrite rev_involutive in Et. rewrite Et. cbn [bind] in *. rewrite lsum_rev. exact H.
  - destruct (mapM g L) as [ts|] eqn:Et; [|discriminate]. apply mapM_rev_ok in Et. rewrite Et. cbn [bind] in *. rewrite lsum_rev. exact H.
Qed.

(** C127: the hypotheses are met by a system with the offset of the code, two moving layers and two frames of delay; *)
Example C127_nonvacuous : let y := ex_sys ex_layers in opposite (y_res y) 5 3 /\ opposite (y_res y) 4 4 /\ no_branch y 8 5 4 /\ kxAO y 5 4 <> 0 /\
  (exists v, noisePSD y 1 1 1000 5 4 = Ok v) /\ (exists v, aliasingPSD y 1 5 1 1000 2 5 4 = Ok v).
Proof.
  intros y. split; [reflexivity|]. split; [reflexivity|]. split; [left; exists 2%Z; reflexivity|]. split; [unfold kxAO, freq_x; cbn; intros E; assert (0 < / 10 ^ 10) by (apply Rinv_0_lt_compat, pow_lt; lra); lra|].
  destruct C26_nonvacuous as (_ & _ & H). destruct (H 5%nat 4%nat ltac:(lia) ltac:(lia)) as (_ & A & B & _). split; [exact A|exact B].
Qed.
(** and those of the finding by still turbulence with an infinite outer scale on an 8 m telescope with 16 sub-apertures. *)
Definition ex_axis : fsys :=
  mkSys 8 (1 / 4) 0 1 true 8 (fun _ => / 2) (mkSpecial 1 1 1 (fun x => x)) (mkAtmo (/ 10 ^ 6) (1 / 10) [1 / 4; 3 / 4] [0; 1000] (Scal 0) (Scal 0) (LNum Inf) [])
    [mkLay (1 / 4) 0 0 0; mkLay (3 / 4) 1000 0 0] "Shack-Hartmann" (1 / 2) 16 0 1 [1] [1 / 2] (/ 10 ^ 6) (1 / 2) 500 2.
Example C127_aliasing_ex : still_sh ex_axis /\ (forall t, Rabs (y_j1 ex_axis t) <= 1) /\ y_dsub ex_axis <= y_D ex_axis /\
  opposite (y_res ex_axis) 6 2 /\ opposite (y_res ex_axis) 4 4 /\ centre ex_axis 6 4 = false /\ maskAO ex_axis 6 4 = 1 /\ kyAO ex_axis 6 4 = 0 /\ / y_D ex_axis <= kxAO ex_axis 6 4 <= / (2 * y_dsub ex_axis).
Proof.
  assert (K : kxAO ex_axis 6 4 = 1 / 2) by (unfold kxAO, freq_x; cbn; lra). assert (K' : kyAO ex_axis 6 4 = 0) by (unfold kyAO, freq_y; cbn; lra).
  split. { constructor; cbn; try lra; try discriminate; try reflexivity; [repeat split; cbn; lra|]. intros l [ <-|[ <-|[]]]; split; reflexivity. }
  split; [intros t; cbn; rewrite Rabs_right; lra|]. split; [cbn; lra|]. split; [reflexivity|]. split; [reflexivity|]. split; [reflexivity|]. split; [|split; [exact K'|rewrite K; cbn; lra]].
  unfold maskAO, mskIn. rewrite K, K'. cbn [ex_axis y_circle y_kcMax]. destruct (Rlt_dec _ _) as [|N]; [reflexivity|]. exfalso. apply N. lra.
Qed.

Print Assumptions C127_aliasing_axis.
Print Assumptions C127_aliasing_refuted.
Print Assumptions C127_aliasing_orders.
