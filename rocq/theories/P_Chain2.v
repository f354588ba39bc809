(** C138: the computation succeeds for every well-sampled single-wavelength Shack-Hartmann
    system, and its Strehl ratios are those of the structure functions. *)
From Coq Require Import Reals List Arith ZArith Lia Lra Bool String.
From Flocq Require Import Core.Raux.
From Verif Require Import Base_Py Base_Sum M_Image M_Fourier S_Fourier M_Tools S_Tools L_Tools2 M_Atmo S_Atmo L_Atmo M_Sensor S_Sensor M_Source M_Freq L_Freq M_Model S_Model L_Model M_Model2 S_Model2 L_Model3.
From Verif Require Import M_Psf L_Psf2 L_Psf3 M_Call M_Driver M_Config M_Chain.
From Verif Require Import P_Freq P_Sensor P_Atmo P_Model2 P_Model3 P_Fourier P_Driver P_Driver2 P_Call P_Chain.
Import ListNotations.
Open Scope R_scope.

(** Oversampling factor and frequency step at wavelength lam. *)
Definition over (x : scao) (lam : R) : Z := oversampling (lam * M_Freq.rad2mas / (x_ps x * x_D x)).
Definition fstep (x : scao) (lam : R) : R := x_ps x / (lam * M_Freq.rad2mas * IZR (over x lam)).
Definition noise_ready (n : noise_attr) : Prop := match n with NoiseNone => True | NoiseList l => l <> [] | NoiseArr l => List.length l = 1%nat end.
Definition placed (s : source) : Prop := List.length (so_zen s) = so_nSrc s /\ List.length (so_az s) = so_nSrc s.
(** One science wavelength lam, one deformable mirror of pitch p; the corrected area has at least
    one frequency and fits in the field of view; the aliases of a sub-aperture are outside of it. *)
Record sampled (w : world) (x : scao) (lam p : R) : Prop := {
  sm_err : ao_error (x_ao x) = false;
  sm_wvl : x_nBin x = 1%nat /\ exists c, np_unique (so_wvl (x_src x)) = [c] /\ lam = c - x_bw x / 2;
  sm_dm : x_pitch x = [p];
  sm_area : p * x_ps x <= lam * M_Freq.rad2mas * IZR (over x lam);
  sm_fov : lam * M_Freq.rad2mas <= IZR (x_nPix x) * x_ps x * p;
  sm_check : a_wvl (ao_atm (x_ao x)) * M_Freq.rad2mas <= IZR (x_nPix x * over x lam) * x_ps x * p;
  sm_off : offset < fstep x lam;
  sm_wfs : upper (s_type (ao_wfs (x_ao x))) = "SHACK-HARTMANN"%string /\
           exists o os, s_opt (ao_wfs (x_ao x)) = o :: os /\ 0 < o_dsub o /\ o_dsub o * (1 / (2 * p) + fstep x lam) < 1;
  sm_det : s_det (ao_wfs (x_ao x)) <> [];
  sm_nair : (forall v, exists n, wd_nair w v = Ok n) /\ forall g n, ao_ngs (x_ao x) = Some g -> wd_nair w (nth 0 (so_wvl g) 0) = Ok n -> n <> 0;
  sm_noise : noise_ready (ao_noise (x_ao x));
  sm_rec : forall n, ao_nRec (x_ao x) = Some n -> (1 <= n)%nat;
  sm_src : placed (x_src x) /\ forall g, ao_ngs (x_ao x) = Some g -> placed g;
  sm_img : pix_ok (Z.to_nat (x_nPix x)) /\ Z.even (x_nPix x * over x lam) = true }.

Lemma make_mono src bw ex ps D nPix c : np_unique src = [c] ->
  let lam := c - bw / 2 in let K := oversampling (lam * M_Freq.rad2mas / (ps * D)) in
  make_fdomain src 1 bw false ex ps D nPix = Ok (mkFD [lam] lam [ps] [K] [IZR K * (lam * M_Freq.rad2mas / (ps * D))] (ps / (lam * M_Freq.rad2mas * IZR K)) K (nPix * K)%Z).
Proof.
  intros H lam K. unfold make_fdomain. rewrite freq_wavelengths_one_bin, H. cbn [map bind argmin argmin_aux]. fold lam.
  cbn [pyindex Z.of_nat List.length].
  destruct ex; reflexivity.
Qed.

Lemma freq_bound r step off kc i : (i < r)%nat -> 0 < off < step -> IZR (Z.of_nat r) * step <= 2 * kc ->
  Rabs (IZR (Z.of_nat i - Z.of_nat r / 2) * step + off) < kc + step.
Proof.
  intros Hi Ho Hr. assert (A : (- Z.of_nat r <= 2 * (Z.of_nat i - Z.of_nat r / 2) <= Z.of_nat r)%Z).
  { assert (D := Z.div_mod (Z.of_nat r) 2 ltac:(lia)). assert (M := Z.mod_pos_bound (Z.of_nat r) 2 ltac:(lia)). lia. }
  destruct A as [A1 A2]. apply IZR_le in A1, A2. rewrite opp_IZR in A1. rewrite mult_IZR in A1, A2. set (z := IZR (Z.of_nat i - Z.of_nat r / 2)) in *.
  assert (B1 := Rmult_le_compat_r step _ _ ltac:(lra) A1). assert (B2 := Rmult_le_compat_r step _ _ ltac:(lra) A2).
  apply Rabs_def1; lra.
Qed.

Lemma noise_defined ao g wr : noise_ok (ao_noise ao) (ao_wfs ao) -> noise_ready (ao_noise ao) -> so_wvl g <> [] -> (forall w, In w (so_wvl g) -> 0 < w) -> 0 < wr ->
  0 < a_r0 (ao_atm ao) -> s_opt (ao_wfs ao) <> [] -> exists nv, M_Driver.noise_of ao g wr = Ok nv /\ nv <> [].
Proof.
  intros Hn Hr Hg Hgw Hw Hr0 Ho. unfold M_Driver.noise_of, noise_ok, noise_ready in *. destruct (ao_noise ao) as [|l|l].
  - destruct (so_wvl g) as [|w0 wl] eqn:E; [congruence|]. change (pyindex (w0 :: wl) 0) with (Ok w0 : result R). cbn [bind]. assert (P0 : 0 < w0) by (apply Hgw; left; reflexivity).
    unfold noise_at_wavelength. rewrite rpow_pos by (apply Rdiv_lt_0_compat; lra). cbn [bind].
    destruct (C19_defined_nonnegative (ao_wfs ao) (a_r0 (ao_atm ao) * Rpower (w0 / (500 * / 10 ^ 9)) (6 / 5)) w0 Hn) as (vs & Ev & Lv & F); [apply Rmult_lt_0_compat; [exact Hr0|apply exp_pos]|exact P0|].
    rewrite Ev. cbn [bind]. rewrite rdiv_ok by lra. cbn [bind]. eexists. split; [reflexivity|]. intros E0. apply Ho. apply length_zero_iff_nil. unfold nWfs in Lv. rewrite <- Lv. rewrite <- (map_length (fun v => v * (w0 / wr) ^ 2)). rewrite E0. reflexivity.
  - exists l. split; [reflexivity|exact Hr].
  - destruct (Nat.ltb_spec 1 (List.length l)); [lia|]. exists l. split; [reflexivity|]. intros ->. discriminate.
Qed.

Lemma direction_ok s : placed s -> exists d, direction s = Ok d /\ List.length (fst d) = so_nSrc s /\ List.length (snd d) = so_nSrc s.
Proof.
  intros [L1 L2]. unfold direction, bmul, assign_row. cbv zeta. rewrite !map_length, L1, L2, !Nat.eqb_refl. cbn [bind].
  rewrite !map_length, !combine_length, !map_length, L1, L2, Nat.min_id, !Nat.eqb_refl. cbn [bind]. eexists. split; [reflexivity|]. cbn [fst snd]. rewrite !map_length, !combine_length, !map_length, L1, L2. split; lia.
Qed.
Lemma pyidx_ok {A} (l : list A) s : (s < List.length l)%nat -> exists v, pyindex l (Z.of_nat s) = Ok v.
Proof.
  intros H. unfold pyindex. destruct (Z.ltb_spec (Z.of_nat s) 0); [lia|]. cbv zeta. destruct (_ || _)%bool eqn:E.
  - apply orb_prop in E. destruct E as [E|E]; [apply Z.ltb_lt in E|apply Z.leb_le in E]; lia.
  - rewrite Nat2Z.id. destruct (nth_error l s) eqn:En; [eauto|]. apply nth_error_None in En. lia.
Qed.
Lemma src_map_ok n f : (forall s, (s < n)%nat -> exists v, f s = Ok v) -> exists l, src_map n f = Ok l.
Proof. intros H. unfold src_map. apply mapM_total. intros s Hs. apply in_seq in Hs. apply H. lia. Qed.

Lemma spectrum_ok sp a k : special_pos sp -> 0 < a_r0 a -> (exists L, 0 < L /\ a_L0 a = LNum (Fin L)) -> 0 <= k -> exists v, spectrum sp a k = Ok v.
Proof. intros HS Hr (L & HL & EL) Hk. destruct (C17_spectrum_finite_L0 sp a L HS EL HL Hr k (k + 1) Hk ltac:(lra)) as (s1 & _ & _ & E & _). eauto. Qed.

Lemma sf_total p : (0 < rows p)%nat -> (0 < cols p)%nat -> exists sf, phaseStructureFunction p = Ok sf.
Proof.
  intros Hr Hc. unfold phaseStructureFunction. unfold cis_empty at 1. cbn [to_c crows ccols]. destruct (Nat.eqb_spec (rows p) 0); [lia|]. destruct (Nat.eqb_spec (cols p) 0); [lia|]. cbn [orb].
  set (cov := fftshift _). assert (E : exists m, carr_max cov = Ok m).
  { unfold carr_max. destruct (cpixels cov) eqn:E; [|eauto]. exfalso. unfold cpixels in E. assert (R1 : crows cov = rows p) by reflexivity. assert (R2 : ccols cov = cols p) by reflexivity. rewrite R1, R2 in E.
    destruct (rows p) as [|a]; [lia|]. destruct (cols p) as [|b]; [lia|]. discriminate. }
  destruct E as (m & ->). cbn [bind]. eauto.
Qed.

(** The whole computation succeeds. *)
Theorem C138_defined : forall w MV ex tp x lam p, physical w (mkOptions MV ex false) x -> sampled w x lam p -> camera_ok x 1 -> optics_ok tp (Z.to_nat (x_nPix x * over x lam)) ->
  x_dispx x = [0] -> x_dispy x = [0] -> x_spot x = [0; 0; 0] ->
  px (tp_stored tp) (Z.to_nat (x_nPix x * over x lam) / 2)%nat (Z.to_nat (x_nPix x * over x lam) / 2)%nat <> 0 -> img_sum (tp_dl tp) <> 0 ->
  exists r, chain w (mkOptions MV ex false) tp x = Ok r /\ r_wvl r = [lam] /\ r_n r = Z.to_nat (x_nPix x * over x lam) /\
    List.length (r_psf r) = 1%nat /\ exists imgs srs, nth_error (r_psf r) 0 = Some (imgs, srs) /\
    forall s sf, nth_error (r_sf r) s = Some sf -> exists sr, nth_error srs s = Some sr /\
      sr = 100 * rsum (r_n r) (fun i => rsum (r_n r) (fun j => exp (- / 2 * (px sf i j * (2 * PI / 10 ^ 9 / lam) ^ 2)) * Rabs (px (tp_stored tp) i j))) / img_sum (tp_dl tp).
Proof.
  intros w MV ex tp x lam p PH SM CO OO Edx Edy Esp Hce Hdl.
  pose proof PH as [Plg (g & Pg & Pg1 & Pgne & Pgw) Patm (L & PL & EL) Psum Pnoise (PD & Pps & Pnp) (Pbw & Pband) Ppitch (Pgain & Prate) PMV Pex Psp].
  destruct SM as [Serr (Snb & c & Sc & Slam) Sdm Sarea Sfov Scheck Soff (Sty & o & os & So & Sd1 & Sd2) Sdet (Snair & Snz) Snoise Srec (Ssrc & Sgs) (Simg & Sev)].
  cbn [op_MV] in PMV. assert (RP : 0 < M_Freq.rad2mas) by exact rad2mas_pos.
  assert (Plam : 0 < lam). { assert (In c (so_wvl (x_src x))) by (apply np_unique_In; rewrite Sc; left; reflexivity). specialize (Pband c H). lra. }
  assert (Pp : 0 < p) by (apply Ppitch; rewrite Sdm; left; reflexivity).
  assert (FD := make_mono (so_wvl (x_src x)) (x_bw x) ex (x_ps x) (x_D x) (x_nPix x) c Sc). cbv zeta in FD. rewrite <- Slam in FD. fold (over x lam) in FD. fold (fstep x lam) in FD.
  set (K := over x lam) in *. set (step := fstep x lam) in *.
  set (fd := mkFD [lam] lam [x_ps x] [K] [IZR K * (lam * M_Freq.rad2mas / (x_ps x * x_D x))] step K (x_nPix x * K)%Z) in *.
  assert (FD' : make_fdomain (so_wvl (x_src x)) (x_nBin x) (x_bw x) false ex (x_ps x) (x_D x) (x_nPix x) = Ok fd) by (rewrite Snb; exact FD).
  destruct (wave_agree _ _ _ _ _ _ _ _ _ FD') as (EW & _ & Wpos). specialize (Wpos Pbw Pband).
  destruct (fdomain_spec _ _ _ _ _ _ _ _ _ FD' Pps PD Wpos) as (_ & _ & _ & _ & _ & (ST0 & _) & K1 & _). cbn [fd_kRef fd fd_PSDstep] in K1, ST0.
  assert (KP : 0 < IZR K) by (apply (IZR_lt 0); lia). set (n := Z.to_nat (x_nPix x * K)) in *.
  assert (Zn : Z.of_nat n = (x_nPix x * K)%Z) by (unfold n; rewrite Z2Nat.id; nia).
  assert (Npos : (1 <= n)%nat) by nia.
  set (kc := 1 / (2 * p)). assert (Pkc : 0 < kc) by (apply Rdiv_lt_0_compat; lra).
  assert (CUT : cutoffs None (x_pitch x) = [kc]) by (rewrite Sdm; reflexivity).
  set (q := 2 * kc / step). assert (Estep : step = x_ps x / (lam * M_Freq.rad2mas * IZR K)) by reflexivity.
  assert (LR : 0 < lam * M_Freq.rad2mas * IZR K) by (apply Rmult_lt_0_compat; [apply Rmult_lt_0_compat; [exact Plam|exact RP]|exact KP]).
  assert (Eq : q = lam * M_Freq.rad2mas * IZR K / (p * x_ps x)). { unfold q, kc. rewrite Estep. field. repeat split; lra. }
  assert (PPS : 0 < p * x_ps x) by (apply Rmult_lt_0_compat; assumption).
  assert (Q1 : 1 <= q). { rewrite Eq. apply Rmult_le_reg_r with (p * x_ps x); [exact PPS|]. unfold Rdiv. rewrite Rmult_assoc, Rinv_l by lra. lra. }
  assert (Q2 : q <= IZR (Z.of_nat n)). { rewrite Eq, Zn, mult_IZR. apply Rmult_le_reg_r with (p * x_ps x); [exact PPS|]. unfold Rdiv. rewrite Rmult_assoc, Rinv_l, Rmult_1_r by lra.
    replace (IZR (x_nPix x) * IZR K * (p * x_ps x)) with ((IZR (x_nPix x) * x_ps x * p) * IZR K) by ring. apply Rmult_le_compat_r; lra. }
  set (res := Ztrunc q). assert (Eres : resAO [kc] step = Ok res) by reflexivity.
  assert (ET : res = Zfloor q) by (apply Ztrunc_floor; lra).
  assert (F1 : IZR res <= q) by (rewrite ET; apply Zfloor_lb).
  assert (R1 : (1 <= res)%Z) by (rewrite ET; apply Zfloor_lub; exact Q1).
  assert (Rn : (res <= Z.of_nat n)%Z) by (apply le_IZR; lra).
  set (r := Z.to_nat res). assert (Zr : Z.of_nat r = res) by (unfold r; lia).
  assert (RS : IZR (Z.of_nat r) * step <= 2 * kc). { rewrite Zr. apply Rle_trans with (q * step); [apply Rmult_le_compat_r; lra|]. unfold q. right. field. lra. }
  (* initialisation *)
  assert (Patm' := Patm). destruct Patm' as (vs & ds & L' & Ev & Ed & EL' & (Vw & Vr & Vn & Vp & Vh & Vv & Vd) & Vh0).
  set (f := mkFdom [kc] kc [x_ps x] (x_nPix x * K)%Z lam).
  destruct (noise_defined (x_ao x) g lam Pnoise Snoise Pgne Pgw Plam Vr) as (nv & Env & Nne); [rewrite So; discriminate|].
  destruct (C101_succeeds (wd_nair w) f (x_ao x) g nv Serr) as (ao' & dr & Ei & _ & _); try assumption.
  { cbn. lra. } { split; [exact Pgne|]. left. split; assumption. }
  { unfold fov_check. cbn [f f_kc f_ps f_nOtf flat_map map app rlist_max fold_left bind]. destruct (Rlt_dec _ _) as [Hlt|]; [|reflexivity]. exfalso. revert Hlt. apply Rle_not_lt.
    apply Rmult_le_reg_r with (x_ps x * p); [apply Rmult_lt_0_compat; assumption|]. unfold kc. replace (2 * (1 / (2 * p) * a_wvl (ao_atm (x_ao x)) * M_Freq.rad2mas) / x_ps x * (x_ps x * p)) with (a_wvl (ao_atm (x_ao x)) * M_Freq.rad2mas) by (field; lra). lra. }
  destruct (init_inv _ _ _ _ _ Ei) as (_ & g' & sc & m & s' & nv' & a' & m' & w0 & Hg & Hw0 & _ & Hng & _ & _ & Hnv & Ha & _ & Hne & _ & Eao & Edg & _ & Est & _ & _).
  assert (Eg : g' = g /\ sc = Scal 1). { unfold guide in Hg. rewrite Plg, Pg in Hg. apply Ok_inj in Hg. injection Hg as <- <-. split; reflexivity. } destruct Eg as [-> ->].
  cbn [f f_wvlRef] in *. rewrite Env in Hnv. apply Ok_inj in Hnv. subst nv'. rewrite set_wvl_val in Ha by assumption. apply Ok_inj in Ha. subst a'.
  assert (NN := noise_nonneg _ _ _ _ Env Pnoise Plam Pgw Vr).
  (* the system *)
  assert (ELS : exists ls, layers_of (ao_atm ao') (Scal 1) = Ok ls). { unfold layers_of, stretched. rewrite Eao. cbn [ao_atm a_w a_h a_v a_d bind spread]. rewrite map_length, Vh, Ev, Ed. cbn [spread] in *. rewrite Ev in *. rewrite Ed in *. rewrite Vv, Vd, !Nat.eqb_refl. cbn [andb]. eauto. }
  destruct ELS as (ls & ELS). assert (LW := layers_weights _ _ _ ELS). rewrite Eao in LW. cbn [ao_atm a_w] in LW.
  set (y := mkSys r step offset kc (x_circle x) (x_D x) (wd_j1 w) (wd_sp w) (ao_atm ao') ls (s_type (ao_wfs ao')) (o_dsub o) (IZR (o_nL o)) (x_modul x) (x_bin x) (map d_clock (s_det (ao_wfs ao')))
        (noise_list (ao_noise ao')) w0 (lp_gain (x_loop x)) (lp_rate (x_loop x)) (lp_delay (x_loop x))).
  assert (EY : fsys_of w x fd kc r ao' dr = Ok y). { unfold fsys_of. rewrite Est, ELS. cbn [bind]. assert (Wf : ao_wfs ao' = ao_wfs (x_ao x)) by (rewrite Eao; reflexivity). rewrite Edg, Hw0. unfold y. rewrite Wf, So. reflexivity. }
  assert (P0 : 0 < w0). { destruct (so_wvl g) as [|a l] eqn:E; [congruence|]. cbn in Hw0. apply Ok_inj in Hw0. subst a. apply Pgw. left. reflexivity. }
  assert (HV : valid_sys y). { unfold valid_sys. cbn [y y_kcMax y_sp y_atm y_gswvl y_layers y_noise]. rewrite Eao. cbn [ao_atm ao_noise a_r0 a_wvl a_L0 noise_list]. split; [exact Pkc|]. split; [exact Psp|]. split; [apply Rmult_lt_0_compat; [exact Vr|apply exp_pos]|]. split; [exact Plam|]. split; [exact P0|].
    split; [exists L; split; [exact PL|exact EL]|]. split; [|split; [exact Hne|exact NN]]. intros l Hl. assert (Hi : In (l_w l) (map l_w ls)) by (apply in_map; exact Hl). rewrite LW in Hi. apply Rlt_le. apply Vp. exact Hi. }
  assert (Off : 0 < offset < step). { split; [|exact Soff]. unfold offset. apply Rinv_0_lt_compat, pow_lt. lra. }
  assert (DB : forall t, Rabs t < kc + step -> Rabs (o_dsub o * t) < 1). { intros t Ht. rewrite Rabs_mult, (Rabs_pos_eq (o_dsub o)) by lra. apply Rle_lt_trans with (o_dsub o * (kc + step)); [apply Rmult_le_compat_l; lra|exact Sd2]. }
  assert (NG : dr_n_gs dr <> 0). { apply (Snz g); [exact Pg|]. destruct (so_wvl g) as [|a l]; [congruence|]. cbn in Hw0. apply Ok_inj in Hw0. subst a. exact Hng. }
  assert (RT : 0 < lp_rate (x_loop x)) by (eapply Rlt_le_trans; [|exact Prate]; lra).
  assert (CD : forall i j, (i < r)%nat -> (j < r)%nat -> forall nT tx ty ze th az n2 ak, (exists v, noisePSD y MV 1 1000 i j = Ok v) /\ (exists v, aliasingPSD y MV 5 1 1000 nT i j = Ok v) /\
      (exists v, spatioTemporalPSD y MV 1 1000 tx ty i j = Ok v) /\ (exists v, differentialRefractionPSD y ze th az ak i j = Ok v) /\ (exists v, chromatismPSD y (dr_n_gs dr) n2 i j = Ok v)).
  { intros i j Hi Hj nT tx ty ze th az n2 ak.
    assert (H0 : y_layers y <> []) by (intros E; cbn [y y_layers] in E; subst ls; apply Vn; rewrite <- LW; reflexivity).
    assert (H1 : y_clock y <> []) by (cbn [y y_clock]; rewrite Eao; cbn [ao_wfs]; destruct (s_det (ao_wfs (x_ao x))); [congruence|discriminate]).
    assert (H2 : upper (y_type y) = "SHACK-HARTMANN"%string) by (cbn [y y_type]; rewrite Eao; exact Sty).
    destruct (C26_contributions_defined y MV 5 1 1000 nT i j tx ty ze th az (dr_n_gs dr) n2 ak HV PMV H2 Sd1 Off) as (A1 & A2 & A3 & _ & _ & _ & A4 & A5); try assumption; try lia.
    - apply DB. apply (freq_bound r step offset kc i Hi Off RS).
    - apply DB. apply (freq_bound r step offset kc j Hj Off RS).
    - repeat split; assumption. }
  set (nT := Z.to_nat (nTimes (x_nPix x * K) res)).
  assert (EP : exists pp, parts_of x MV n nT y dr = Ok pp).
  { unfold parts_of. cbv zeta. cbn [y_res y].
    destruct (grid_res_total r (fun i j => noisePSD y MV 1 1000 i j)) as (g1 & ->); [intros i j Hi Hj; destruct (CD i j Hi Hj nT 0 0 0 0 0 0 (fun _ _ => 0)) as (A1 & A2 & A3 & A4 & A5); assumption|]. cbn [bind].
    destruct (grid_res_total r (fun i j => aliasingPSD y MV 5 1 1000 nT i j)) as (g2 & ->); [intros i j Hi Hj; destruct (CD i j Hi Hj nT 0 0 0 0 0 0 (fun _ _ => 0)) as (A1 & A2 & A3 & A4 & A5); assumption|]. cbn [bind].
    match goal with |- context [src_map ?a ?b] => destruct (src_map_ok a b) as (g3 & ->) end.
    { intros s Hs. destruct Ssrc as (_ & La). destruct (pyidx_ok (so_az (x_src x)) s) as (az & ->); [rewrite La; exact Hs|]. cbn [bind]. apply grid_res_total. intros i j Hi Hj. 
      destruct (CD i j Hi Hj nT 0 0 (x_zenith x) (refr_angle dr (x_zenith x)) az 0 (fun a b => arctan2 (kyAO y a b) (kxAO y a b))) as (A1 & A2 & A3 & A4 & A5). exact A4. }
    cbn [bind]. destruct (grid_res_total r (fun i j => chromatismPSD y (dr_n_gs dr) (dr_n_ref dr) i j)) as (g4 & ->); [intros i j Hi Hj; destruct (CD i j Hi Hj nT 0 0 0 0 0 (dr_n_ref dr) (fun _ _ => 0)) as (A1 & A2 & A3 & A4 & A5); assumption|]. cbn [bind].
    destruct (direction_ok _ Ssrc) as (dS & -> & D1 & D2). cbn [bind]. rewrite Edg. destruct (direction_ok _ (Sgs g Pg)) as (dG & -> & D3 & D4). cbn [bind].
    match goal with |- context [src_map ?a ?b] => destruct (src_map_ok a b) as (g5 & ->) end.
    { intros s Hs. assert (DD : exists t, dir_diff dS dG s = Ok t).
      { unfold dir_diff. destruct (pyidx_ok (fst dS) s) as (u1 & ->); [lia|]. destruct (pyidx_ok (snd dS) s) as (u2 & ->); [lia|].
        destruct (pyidx_ok (fst dG) 0) as (u3 & E3); [lia|]. destruct (pyidx_ok (snd dG) 0) as (u4 & E4); [lia|]. cbn [Z.of_nat] in E3, E4. rewrite E3, E4. cbn [bind]. eauto. }
      destruct DD as (t & ->). cbn [bind]. apply grid_res_total. intros i j Hi Hj. destruct (CD i j Hi Hj nT (fst t) (snd t) 0 0 0 0 (fun _ _ => 0)) as (A1 & A2 & A3 & A4 & A5). exact A3. }
    cbn [bind]. match goal with |- context [grid_res n ?b] => destruct (grid_res_total n b) as (g6 & ->) end.
    { intros i j Hi Hj. unfold fittingPSD. destruct (mskOut _ _ _ _); [|eauto]. destruct HV as (_ & B1 & B2 & _ & _ & B3 & _). apply spectrum_ok; try assumption. apply sqrt_pos. }
    cbn [bind]. eauto. }
  destruct EP as (pp & EP).
  assert (DK : exists dk, dk_step kc (Z.of_nat r) = Ok dk). { unfold dk_step. destruct (Z.eqb_spec (Z.of_nat r) 0); [lia|eauto]. } destruct DK as (dk & EDK).
  set (cc := mkPC (x_nPix x * K)%Z (Z.of_nat r) (so_nSrc (x_src x)) 1 0 false None false false (x_extraNm x) false 0 0 dk (lam * 10 ^ 9 / 2 / PI)).
  assert (EC : cfg_of x fd kc r = Ok cc) by (unfold cfg_of; rewrite EDK; reflexivity).
  assert (EMB : embed_ok (x_nPix x * K)%Z (Z.of_nat r) = true). { unfold embed_ok. rewrite <- Zn. assert (Q := proj2 (C24_embedding_size (Z.of_nat n) (Z.of_nat r) ltac:(lia) ltac:(lia)) ltac:(lia)). rewrite Q, Z.eqb_refl. reflexivity. }
  assert (EPS : exists psd, src_map (so_nSrc (x_src x)) (fun s => grid_res n (fun a b => powerSpectrumDensity cc pp s a b)) = Ok psd).
  { apply src_map_ok. intros s Hs. apply grid_res_total. intros a b Ha Hb. unfold powerSpectrumDensity, psd_norm, psd_extra, nLO_. cbn [cc k_n k_r k_wfe k_ngsPos]. rewrite EMB. cbn [negb bind andb Nat.ltb Nat.leb]. eauto. }
  destruct EPS as (psd & EPS).
  assert (ESF : exists sf, M_Tools.mapM (fun g => phaseStructureFunction (mkImg n n (grid_at g))) psd = Ok sf).
  { apply mapM_total. intros a _. apply sf_total; cbn [rows cols]; lia. }
  destruct ESF as (sf & ESF).
  set (ff := mkFmod (inst_of x 1) n (Z.to_nat K) (Z.to_nat (x_nPix x)) false (base_of x fd) (tp_static tp) (tp_dl tp) (map px sf)).
  assert (Ls : List.length sf = so_nSrc (x_src x)). { destruct (mapMt_inv _ _ _ ESF) as (L1 & _). destruct (src_map_inv _ _ _ EPS) as (L2 & _). congruence. }
  destruct CO as [Ct Cx Cy _]. destruct (x_trans x) as [|t tl] eqn:Etr; [discriminate|]. destruct tl; [|discriminate].
  assert (FL : fourier_labels ff). { unfold fourier_labels, ff. cbn [fm_inst fm_base fm_sfs inst_of i_atm i_dphi i_jit i_wvl i_trans i_dispx i_dispy i_star]. rewrite Etr, Edx, Edy, map_length, Ls. repeat split. }
  destruct (mono_default ff (tp_stored tp) lam (Z.to_nat K) (jit_norm2 (IZR K * (lam * M_Freq.rad2mas / (x_ps x * x_D x))) (x_D x) lam) t FL) as (out & imgs & srs & EO & EN & ESR); try reflexivity; try assumption.
  { cbn [ff fm_n fm_fov]. unfold n. rewrite Z2Nat.inj_mul by lia. reflexivity. } { lia. }
  { cbn [ff fm_n]. unfold n. rewrite <- Sev. rewrite <- (Z2Nat.id (x_nPix x * K)%Z) at 2 by nia. generalize (Z.to_nat (x_nPix x * K)) as k. intros k. clear. induction k as [|k IH]; [reflexivity|]. rewrite Nat2Z.inj_succ, Z.even_succ, <- Z.negb_even, <- IH, Nat.even_succ, <- Nat.negb_even. reflexivity. }
  assert (CH : chain w (mkOptions MV ex false) tp x = Ok (mkRun ao' [lam] n r psd sf out)).
  { unfold chain. cbn [op_MV op_expand op_pixel]. rewrite EW. cbn [bind]. rewrite FD'. cbn [bind]. cbv zeta. rewrite CUT. change (rlist_max [kc]) with (Ok kc : result R). cbn [bind fd fd_PSDstep fd_nOtf fd_psInMas fd_wvlRef fd_kRef]. rewrite Eres. cbn [bind]. fold fd. fold f. rewrite Ei. cbn [bind fst snd].
    fold r. fold n. rewrite EY. cbn [bind]. fold nT. rewrite EP. cbn [bind]. rewrite EC. cbn [bind]. rewrite EPS. cbn [bind]. rewrite ESF. cbn [bind fd_wvl fd List.length]. fold fd. fold ff. rewrite EO. reflexivity. }
  exists (mkRun ao' [lam] n r psd sf out). split; [exact CH|]. cbn [r_wvl r_n r_psf r_sf]. split; [reflexivity|]. split; [reflexivity|]. split.
  { assert (CO : camera_ok x 1). { split; try (rewrite Etr; reflexivity); try assumption. exists 0, 0, 0. split; [exact Esp|]. lra. }
    destruct (C138_images _ _ _ _ _ PH CH CO OO) as (L1 & _). exact L1. }
  exists imgs, srs. split; [exact EN|]. intros s sfs Hs. exists (strehl_with ff lam (tp_stored tp) (px sfs)). split.
  - apply ESR. cbn [ff fm_sfs]. rewrite nth_error_map, Hs. reflexivity.
  - unfold strehl_with. cbn [ff fm_n fm_dl]. f_equal. f_equal. apply rsum_ext. intros i Hi. apply rsum_ext. intros j Hj. f_equal. f_equal. f_equal. f_equal. field. lra.
Qed.
Print Assumptions C138_defined.

(** ** Non-vacuity: an 8 m telescope, two layers, a 16x16 Shack-Hartmann sensor, one mirror of
    pitch 50 cm, three science sources, 32x32 pixels at 1 micron. *)
Definition ex_world : world := mkWorld (fun _ => Ok (3 / 10000)) (fun _ => 0) (mkSpecial 1 1 1 (fun x => x)).
Definition ex_lam : R := / 10 ^ 6.
Definition ex_x : scao :=
  mkScao (mkAO false (mkAtmo (5 / 10 ^ 7) (1 / 10) [1 / 4; 3 / 4] [0; 1000] (Lst [5; 10]) (Lst [0; 90]) (LNum (Fin 25)) [])
            None (Some (mkSource [7 / 10 ^ 7] [0] [0] [0] 1 1)) (Some 1%nat)
            (mkSensor "Shack-Hartmann" "wcog" [5; 0; 0] [mkOpt 16 (1 / 2)] [mkDet 1 6 [] (NNum Inf) 0 1 1]) (NoiseList [1 / 2]))
    8 30 0 (mkSource [ex_lam; ex_lam; ex_lam] [0; 10; 20] [0; 45; 90] [0; 0; 0] 3 1)
    [1 / 2] true (mkLoop (1 / 2) 1000 2 (Err NonFinite)) 0 1
    32 (M_Freq.rad2mas / (16 * 10 ^ 6)) 1 0 [0; 0; 0] [1] [0] [0].
Definition ex_tp : optics := mkOptics (fun _ _ => mkImg 32 32 (fun _ _ => 1)) (mkImg 32 32 (fun _ _ => 1)) (mkImg 32 32 (fun _ _ => 1)).
Lemma ex_over : over ex_x ex_lam = 1%Z.
Proof.
  unfold over. cbn [ex_x x_ps x_D]. assert (H := rad2mas_pos). replace (ex_lam * M_Freq.rad2mas / (M_Freq.rad2mas / (16 * 10 ^ 6) * 8)) with 2 by (unfold ex_lam; field; lra).
  unfold oversampling. apply Zceil_imp. cbn. lra.
Qed.
Lemma ex_step : fstep ex_x ex_lam = / 16.
Proof. unfold fstep. rewrite ex_over. cbn [ex_x x_ps]. assert (H := rad2mas_pos). unfold ex_lam. field. lra. Qed.
Example C138_nonvacuous : physical ex_world (mkOptions 0 false false) ex_x /\ sampled ex_world ex_x ex_lam (1 / 2) /\ camera_ok ex_x 1 /\ optics_ok ex_tp 32 /\
  exists r, chain ex_world (mkOptions 0 false false) ex_tp ex_x = Ok r /\ r_wvl r = [ex_lam] /\ r_n r = 32%nat /\ List.length (r_psd r) = 3%nat.
Proof.
  assert (HR := rad2mas_pos). assert (PL : 0 < ex_lam) by (unfold ex_lam; apply Rinv_0_lt_compat; lra).
  assert (PH : physical ex_world (mkOptions 0 false false) ex_x).
  { split; cbn [ex_x x_ao ao_lgs ao_ngs ao_atm ao_noise ao_wfs a_L0 a_w x_D x_ps x_nPix x_bw x_src so_wvl x_pitch x_loop lp_gain lp_rate op_MV x_extraNm ex_world wd_sp].
    - reflexivity.
    - eexists. split; [reflexivity|]. split; [reflexivity|]. split; [discriminate|]. intros v [ <-|[]]. lra.
    - exists [5; 10], [0; 90], (Fin 25). cbn. repeat split; try discriminate; try lra; intros v Hv; repeat (destruct Hv as [ <-|Hv]; [lra|]); destruct Hv.
    - exists 25. split; [lra|reflexivity].
    - unfold total. cbn. lra.
    - intros v [ <-|[]]. lra.
    - split; [lra|]. split; [apply Rdiv_lt_0_compat; [exact HR|lra]|lia].
    - split; [lra|]. intros v Hv. assert (v = ex_lam) by (repeat (destruct Hv as [ <-|Hv]; [reflexivity|]); destruct Hv). subst v. lra.
    - intros v [ <-|[]]. lra.
    - lra.
    - lra.
    - lra.
    - repeat split; cbn; lra. }
  assert (SM : sampled ex_world ex_x ex_lam (1 / 2)).
  { split; rewrite ?ex_over, ?ex_step; cbn [ex_x x_ao ao_error x_nBin x_src so_wvl x_bw x_pitch x_ps x_nPix ao_atm a_wvl ao_wfs s_type s_opt s_det ao_noise noise_ready ao_nRec ao_ngs ex_world wd_nair].
    - reflexivity.
    - split; [reflexivity|]. exists ex_lam. split; [|lra]. assert (I : insert_unique ex_lam [ex_lam] = [ex_lam]) by (cbn [insert_unique]; destruct (Rlt_dec ex_lam ex_lam) as [Q|_]; [exfalso; lra|]; destruct (Req_EM_T ex_lam ex_lam) as [_|Q]; [reflexivity|congruence]).
      change (np_unique [ex_lam; ex_lam; ex_lam]) with (insert_unique ex_lam (insert_unique ex_lam (insert_unique ex_lam []))). change (insert_unique ex_lam []) with [ex_lam]. rewrite I, I. reflexivity.
    - reflexivity.
    - unfold ex_lam. lra.
    - unfold ex_lam. lra.
    - replace (32 * 1)%Z with 32%Z by reflexivity. lra.
    - unfold offset. apply Rinv_lt_contravar; lra.
    - split; [reflexivity|]. do 2 eexists. split; [reflexivity|]. cbn [o_dsub]. split; lra.
    - discriminate.
    - split; [eauto|]. intros g n _ E. apply Ok_inj in E. lra.
    - discriminate.
    - intros n E. injection E as <-. lia.
    - split; [split; reflexivity|]. intros g E. injection E as <-. split; reflexivity.
    - split; [unfold pix_ok; cbn; lia|reflexivity]. }
  assert (CO : camera_ok ex_x 1). { split; try reflexivity. exists 0, 0, 0. split; [reflexivity|lra]. }
  assert (OO : optics_ok ex_tp 32). { split; [reflexivity|]. split; [reflexivity|]. split; [|intros q o]; intros i j _ _; cbn; rewrite Rabs_R1; lra. }
  split; [exact PH|]. split; [exact SM|]. split; [exact CO|]. split; [exact OO|].
  destruct (C138_defined ex_world 0 false ex_tp ex_x ex_lam (1 / 2) PH SM CO) as (r & E & Ew & En & _); rewrite ?ex_over in *; cbn [ex_x x_nPix] in *; try reflexivity; try exact OO.
  - cbn. lra.
  - cbn [ex_tp tp_dl]. unfold img_sum. cbn [rows cols px]. rewrite (rsum_ext 32 _ (fun _ => INR 32)). { rewrite rsum_const. apply Rmult_integral_contrapositive; split; apply not_0_INR; lia. } intros i _. rewrite rsum_const. ring.
  - exists r. split; [exact E|]. split; [exact Ew|]. split; [exact En|]. destruct (C138_psd _ _ _ _ _ PH E) as (_ & _ & _ & _ & L & _). exact L.
Qed.
