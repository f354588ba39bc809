(** C138: from an AO system object (one natural guide star, closed loop) to the images. *)
From Coq Require Import Reals List Arith ZArith Lia Lra Bool String.
From Flocq Require Import Core.Raux.
From Verif Require Import Base_Py Base_Sum M_Image M_Fourier S_Fourier M_Tools S_Tools L_Tools2 M_Atmo S_Atmo L_Atmo M_Sensor S_Sensor M_Source M_Freq L_Freq M_Model S_Model M_Model2 S_Model2 L_Model3.
From Verif Require Import M_Psf L_Psf3 M_Call M_Driver M_Config M_Chain.
From Verif Require Import P_Freq P_Sensor P_Model2 P_Model3 P_Fourier P_Driver P_Driver2 P_Call.
Import ListNotations.
Open Scope R_scope.

(** ** Specification *)
(** A physically meaningful system in the scope of the model: one natural guide star, closed
    loop, positive weights of sum at most 1, finite outer scale, positive wavelengths, pixel scale,
    diameter and pitches, non-negative noise. *)
Definition star_ok (g : source) : Prop := so_nSrc g = 1%nat /\ so_wvl g <> [] /\ forall w, In w (so_wvl g) -> 0 < w.
Definition noise_ok (n : noise_attr) (s : sensor) : Prop :=
  match n with NoiseNone => valid_sensor s | NoiseList l => forall v, In v l -> 0 <= v | NoiseArr l => forall v, In v l -> 0 <= v end.
Record physical (w : world) (op : options) (x : scao) : Prop := {
  ph_lgs : ao_lgs (x_ao x) = None;
  ph_ngs : exists g, ao_ngs (x_ao x) = Some g /\ star_ok g;
  ph_atm : regular (x_ao x);
  ph_L0 : exists L, 0 < L /\ a_L0 (ao_atm (x_ao x)) = LNum (Fin L);
  ph_sum : total (a_w (ao_atm (x_ao x))) <= 1;
  ph_noise : noise_ok (ao_noise (x_ao x)) (ao_wfs (x_ao x));
  ph_tel : 0 < x_D x /\ 0 < x_ps x /\ (1 <= x_nPix x)%Z;
  ph_band : 0 <= x_bw x /\ forall c, In c (so_wvl (x_src x)) -> x_bw x / 2 < c;
  ph_pitch : forall p, In p (x_pitch x) -> 0 < p;
  ph_loop : lp_gain (x_loop x) <> 0 /\ / 500 <= lp_rate (x_loop x);
  ph_MV : 0 <= op_MV op;
  ph_extra : x_extraNm x <= 0;
  ph_sp : special_pos (wd_sp w) }.
(** The camera describes one transmittance and dispersion per wavelength of the vector, and
    a symmetric non-negative jitter matrix. *)
Record camera_ok (x : scao) (nwvl : nat) : Prop := {
  co_trans : List.length (x_trans x) = nwvl; co_dx : List.length (x_dispx x) = nwvl; co_dy : List.length (x_dispy x) = nwvl;
  co_spot : exists a b c, x_spot x = [a; b; c] /\ c * c <= (a * a) * (b * b) }.
(** The static OTFs are dominated by the diffraction-limited OTF (C07) *)
Definition optics_ok (tp : optics) (n : nat) : Prop :=
  rows (tp_dl tp) = n /\ cols (tp_dl tp) = n /\ dominated n (tp_stored tp) (tp_dl tp) /\ forall j o, dominated n (tp_static tp j o) (tp_dl tp).

(** ** Wavelengths *)
Lemma linspace_range a b n v : a <= b -> In v (linspace a b n) -> a <= v <= b.
Proof.
  intros Hab H. unfold linspace in H. apply in_map_iff in H. destruct H as (i & <- & Hi). apply in_seq in Hi.
  destruct (Nat.eqb_spec n 1) as [|Hn]; [lra|]. assert (P : 0 < INR (n - 1)) by (apply (lt_INR 0); lia).
  assert (Q : 0 <= INR i / INR (n - 1) <= 1).
  { split; [apply Rmult_le_pos; [apply pos_INR|apply Rlt_le, Rinv_0_lt_compat; exact P]|].
    apply Rmult_le_reg_r with (INR (n - 1)); [exact P|]. unfold Rdiv. rewrite Rmult_assoc, Rinv_l, Rmult_1_r, Rmult_1_l by lra. apply le_INR. lia. }
  replace (INR i * ((b - a) / INR (n - 1))) with ((INR i / INR (n - 1)) * (b - a)) by (field; lra).
  set (t := INR i / INR (n - 1)) in *. assert (0 <= t * (b - a)) by (apply Rmult_le_pos; lra). assert (t * (b - a) <= 1 * (b - a)) by (apply Rmult_le_compat_r; lra). lra.
Qed.
Lemma wave_agree src nb bw ny ex ps D np fd : make_fdomain src nb bw ny ex ps D np = Ok fd ->
  create_wavelength_vector src nb bw = Ok (fd_wvl fd, List.length (fd_wvl fd)) /\ fd_wvl fd <> [] /\
  (0 <= bw -> (forall c, In c src -> bw / 2 < c) -> forall w, In w (fd_wvl fd) -> 0 < w).
Proof.
  intros H. unfold make_fdomain in H. apply bind_Ok in H; destruct H as (w & Ew & H). apply bind_Ok in H; destruct H as (iW & EW & H).
  assert (Efd : fd_wvl fd = w).
  { apply bind_Ok in H; destruct H as (wr & _ & H). cbv zeta in H. apply bind_Ok in H; destruct H as (ip & _ & H). apply bind_Ok in H; destruct H as (st & _ & H). apply bind_Ok in H; destruct H as (kr & _ & H). apply Ok_inj in H. subst fd. reflexivity. }
  rewrite Efd. clear H Efd. assert (Hw : w <> []) by (intros ->; discriminate).
  assert (Eq : create_wavelength_vector src nb bw = Ok (w, List.length w)).
  { assert (G : (nb = 1%nat \/ (List.length (np_unique src) <= 1)%nat) \/ (nb = 0)%nat \/ ((2 <= nb)%nat /\ (2 <= List.length (np_unique src))%nat)) by lia.
    destruct G as [G|[ ->|[G1 G2]]].
    - destruct (C04_constructor_agrees src nb bw G) as (w' & k & E1 & E2). rewrite Ew in E2. apply Ok_inj in E2. subst w'.
      rewrite create_wavelength_vector_val in *. apply Ok_inj in E1. injection E1 as E1 <-. rewrite <- E1. f_equal. f_equal.
      symmetry. apply flat_map_length_const. intros. apply linspace_length.
    - exfalso. apply Hw. unfold freq_wavelengths in Ew. cbv zeta in Ew. cbn [Nat.mul repeat] in Ew. revert Ew.
      assert (Z0 : forall js cs, fill_bands (fun j => Z.of_nat j) 0 bw js cs [] = Ok w -> w = []); [|apply Z0].
      induction js as [|j js IH]; intros cs Ew; cbn [fill_bands] in Ew; [apply Ok_inj in Ew; congruence|].
      destruct cs as [|c cs]; [apply Ok_inj in Ew; congruence|]. apply bind_Ok in Ew; destruct Ew as (w' & E1 & Ew). 
      assert (w' = []). { unfold assign_slice in E1. cbv zeta in E1. cbn [linspace seq map List.length] in E1. destruct (_ =? _)%nat; [|discriminate]. apply Ok_inj in E1. subst w'. rewrite firstn_nil, skipn_nil. reflexivity. }
      subst w'. exact (IH cs Ew).
    - rewrite freq_wavelengths_fail in Ew by assumption. discriminate. }
  split; [exact Eq|]. split; [exact Hw|]. intros Hb Hc v Hv. rewrite create_wavelength_vector_val in Eq. apply Ok_inj in Eq. injection Eq as Eq _. rewrite <- Eq in Hv.
  apply in_flat_map in Hv. destruct Hv as (c & Hc' & Hv). assert (Hc2 : In c src) by (apply np_unique_In; exact Hc'). apply linspace_range in Hv; [|lra]. specialize (Hc c Hc2). lra.
Qed.

(** ** The stages *)
Lemma chain_inv w op tp x r : chain w op tp x = Ok r -> exists fd kcMax res dr y p c st,
  make_fdomain (so_wvl (x_src x)) (x_nBin x) (x_bw x) false (op_expand op) (x_ps x) (x_D x) (x_nPix x) = Ok fd /\
  rlist_max (cutoffs None (x_pitch x)) = Ok kcMax /\ resAO (cutoffs None (x_pitch x)) (fd_PSDstep fd) = Ok res /\
  initComputations (wd_nair w) (mkFdom (cutoffs None (x_pitch x)) kcMax (fd_psInMas fd) (fd_nOtf fd) (fd_wvlRef fd)) (x_ao x) = Ok (r_ao r, Some dr) /\
  fsys_of w x fd kcMax (r_res r) (r_ao r) dr = Ok y /\
  parts_of x (op_MV op) (r_n r) (Z.to_nat (nTimes (fd_nOtf fd) res)) y dr = Ok p /\
  cfg_of x fd kcMax (r_res r) = Ok c /\
  src_map (so_nSrc (x_src x)) (fun s => grid_res (r_n r) (fun a b => powerSpectrumDensity c p s a b)) = Ok (r_psd r) /\
  M_Tools.mapM (fun g => phaseStructureFunction (mkImg (r_n r) (r_n r) (grid_at g))) (r_psd r) = Ok (r_sf r) /\
  point_spread_function (mkFmod (inst_of x (List.length (r_wvl r))) (r_n r) (Z.to_nat (fd_kRef fd)) (Z.to_nat (x_nPix x)) false (base_of x fd)
      (tp_static tp) (tp_dl tp) (map px (r_sf r))) (op_pixel op) (tp_stored tp) [] None = Ok (r_psf r, st) /\
  r_wvl r = fd_wvl fd /\ r_n r = Z.to_nat (fd_nOtf fd) /\ r_res r = Z.to_nat res.
Proof.
  intros H. unfold chain in H. apply bindOk in H. destruct H as (wv & Ewv & H). apply bindOk in H. destruct H as (fd & Efd & H). cbv zeta in H.
  apply bindOk in H. destruct H as (kcMax & Ekc & H). apply bindOk in H. destruct H as (res & Eres & H). apply bindOk in H. destruct H as ([ao' [dr|]] & Ei & H); cbn [snd fst] in H; [|discriminate].
  apply bindOk in H. destruct H as (y & Ey & H). apply bindOk in H. destruct H as (p & Ep & H). apply bindOk in H. destruct H as (c & Ec & H).
  apply bindOk in H. destruct H as (psd & Epsd & H). apply bindOk in H. destruct H as (sf & Esf & H). apply bindOk in H. destruct H as ([out st] & Eout & H). apply Ok_inj in H. subst r. cbn [fst].
  destruct (wave_agree _ _ _ _ _ _ _ _ _ Efd) as (Ew & _ & _). rewrite Ewv in Ew. apply Ok_inj in Ew. subst wv. cbn [fst snd] in *.
  exists fd, kcMax, res, dr, y, p, c, st. cbn [r_ao r_wvl r_n r_res r_psd r_sf r_psf]. repeat (split; [first [assumption|reflexivity]|]). reflexivity.
Qed.

Lemma rmax_pos l : (forall v, In v l -> 0 < v) -> forall a, 0 < a -> 0 < fold_left Rmax l a.
Proof.
  induction l as [|b l IH]; intros Hl a Ha; cbn [fold_left]; [exact Ha|]. apply IH; [intros v Hv; apply Hl; right; exact Hv|]. apply Rlt_le_trans with a; [exact Ha|apply Rmax_l].
Qed.
Lemma cut_pos pitch k : (forall p, In p pitch -> 0 < p) -> rlist_max (cutoffs None pitch) = Ok k -> 0 < k.
Proof.
  intros Hp H. cbn [cutoffs] in H. assert (G : forall v, In v (map (fun p => 1 / (2 * p)) pitch) -> 0 < v).
  { intros v Hv. apply in_map_iff in Hv. destruct Hv as (p & <- & Hi). specialize (Hp p Hi). apply Rdiv_lt_0_compat; lra. }
  destruct (map _ pitch) as [|a l]; [discriminate|]. cbn [rlist_max] in H. apply Ok_inj in H. subst k. apply rmax_pos; [intros v Hv; apply G; right; exact Hv|apply G; left; reflexivity].
Qed.

Lemma map_combine4 (A B C D : list R) n : List.length A = n -> List.length B = n -> List.length C = n -> List.length D = n ->
  map (fun q : (R * R) * (R * R) => fst (fst q)) (combine (combine A B) (combine C D)) = A.
Proof.
  revert B C D n. induction A as [|a A IH]; intros [|b B] [|c C] [|d D] n HA HB HC HD; cbn in *; subst n; try discriminate; [reflexivity|]. f_equal. apply (IH B C D (List.length A)); lia.
Qed.
Lemma layers_weights a s ls : layers_of a s = Ok ls -> map l_w ls = a_w a.
Proof.
  intros H. unfold layers_of in H. apply bindOk in H. destruct H as (hs & _ & H). cbv zeta in H. destruct (_ && _ && _)%bool eqn:E; [|discriminate]. apply Ok_inj in H. subst ls.
  apply andb_prop in E. destruct E as [E E3]. apply andb_prop in E. destruct E as [E1 E2]. apply Nat.eqb_eq in E1, E2, E3. rewrite map_map. cbn [l_w]. apply map_combine4 with (List.length (a_w a)); auto.
Qed.

Lemma mapMt_inv {A B} (f : A -> result B) l l' : M_Tools.mapM f l = Ok l' -> List.length l' = List.length l /\ forall i a, nth_error l i = Some a -> exists b, nth_error l' i = Some b /\ f a = Ok b.
Proof.
  revert l'. induction l as [|a l IH]; intros l' H; cbn [M_Tools.mapM] in H.
  - apply Ok_inj in H. subst l'. split; [reflexivity|]. intros [|i] a Hi; discriminate.
  - apply bindOk in H. destruct H as (b & Eb & H). apply bindOk in H. destruct H as (bs & Ebs & H). apply Ok_inj in H. subst l'. destruct (IH _ Ebs) as [L I]. split; [cbn; congruence|].
    intros [|i] a' Hi; [injection Hi as <-; exists b; split; [reflexivity|exact Eb]|exact (I i a' Hi)].
Qed.
Lemma src_map_inv n f l : src_map n f = Ok l -> List.length l = n /\ forall s, (s < n)%nat -> f s = Ok (nth s l []).
Proof.
  intros H. unfold src_map in H. destruct (mapMt_inv _ _ _ H) as [L I]. rewrite seq_length in L. split; [exact L|]. intros s Hs.
  destruct (I s s) as (b & Hb & E); [rewrite nth_error_nth' with (d := 0%nat) by (rewrite seq_length; exact Hs); rewrite seq_nth by exact Hs; reflexivity|].
  rewrite E. f_equal. symmetry. apply nth_error_nth. exact Hb.
Qed.

(** Initialisation: what the rest of the computation reads. *)
Lemma noise_nonneg ao g wr nv : M_Driver.noise_of ao g wr = Ok nv -> noise_ok (ao_noise ao) (ao_wfs ao) -> 0 < wr -> (forall w, In w (so_wvl g) -> 0 < w) -> 0 < a_r0 (ao_atm ao) ->
  forall v, In v nv -> 0 <= v.
Proof.
  intros H Hn Hw Hg Hr. unfold M_Driver.noise_of in H. unfold noise_ok in Hn. destruct (ao_noise ao) as [|l|l].
  - apply bindOk in H. destruct H as (w0 & E0 & H). assert (P0 : 0 < w0). { apply Hg. destruct (so_wvl g) as [|a l]; [discriminate|]. cbn in E0. apply Ok_inj in E0. left. exact E0. }
    unfold noise_at_wavelength in H. rewrite rpow_pos in H by (apply Rdiv_lt_0_compat; lra). cbn [bind] in H. apply bindOk in H. destruct H as (vn & En & H).
    rewrite rdiv_ok in H by lra. cbn [bind] in H. apply Ok_inj in H. subst nv.
    destruct (C19_defined_nonnegative (ao_wfs ao) (a_r0 (ao_atm ao) * Rpower (w0 / (500 * / 10 ^ 9)) (6 / 5)) w0 Hn) as (vs & Ev & _ & F); [apply Rmult_lt_0_compat; [exact Hr|apply exp_pos]|exact P0|].
    rewrite Ev in En. apply Ok_inj in En. subst vs. intros v Hv. apply in_map_iff in Hv. destruct Hv as (u & <- & Hu). rewrite Forall_forall in F. apply Rmult_le_pos; [apply F; exact Hu|apply pow2_ge_0].
  - apply Ok_inj in H. subst nv. exact Hn.
  - destruct (1 <? List.length l)%nat; [discriminate|]. apply Ok_inj in H. subst nv. exact Hn.
Qed.

Lemma chain_system w op tp x r : physical w op x -> chain w op tp x = Ok r -> exists fd kcMax y p c st,
  valid_sys y /\ weight_sum y <= 1 /\ / 500 <= y_rate y /\ y_res y = r_res r /\
  (forall s, (s < so_nSrc (x_src x))%nat -> exists nT dir p', scao_parts y (op_MV op) 5 1 1000 nT (r_n r) dir p' /\ forall a b, powerSpectrumDensity c p s a b = powerSpectrumDensity c p' s a b) /\
  0 < kcMax /\ k_n c = Z.of_nat (r_n r) /\ k_r c = Z.of_nat (r_res r) /\ k_src c = so_nSrc (x_src x) /\ (1 <= r_res r)%nat /\
  k_nGs c = 1%nat /\ k_h c = 0 /\ k_tiltOn c = false /\ k_wind c = false /\ k_extra c <= 0 /\ k_ngsPos c = false /\
  make_fdomain (so_wvl (x_src x)) (x_nBin x) (x_bw x) false (op_expand op) (x_ps x) (x_D x) (x_nPix x) = Ok fd /\
  src_map (so_nSrc (x_src x)) (fun s => grid_res (r_n r) (fun a b => powerSpectrumDensity c p s a b)) = Ok (r_psd r) /\
  M_Tools.mapM (fun g => phaseStructureFunction (mkImg (r_n r) (r_n r) (grid_at g))) (r_psd r) = Ok (r_sf r) /\
  point_spread_function (mkFmod (inst_of x (List.length (r_wvl r))) (r_n r) (Z.to_nat (fd_kRef fd)) (Z.to_nat (x_nPix x)) false (base_of x fd)
      (tp_static tp) (tp_dl tp) (map px (r_sf r))) (op_pixel op) (tp_stored tp) [] None = Ok (r_psf r, st) /\
  r_wvl r = fd_wvl fd /\ r_n r = Z.to_nat (fd_nOtf fd) /\ (1 <= fd_kRef fd)%Z /\ fd_nOtf fd = (x_nPix x * fd_kRef fd)%Z.
Proof.
  intros PH H. destruct (chain_inv _ _ _ _ _ H) as (fd & kcMax & res & dr & y & p & c & st & Efd & Ekc & Eres & Ei & Ey & Ep & Ec & Epsd & Esf & Eout & Ewv & En & Er).
  destruct PH as [Plg (g & Pg & Pg1 & Pgne & Pgw) Patm (L & PL & EL) Psum Pnoise (PD & Pps & Pnp) (Pbw & Pband) Ppitch (Pgain & Prate) PMV Pex Psp].
  destruct (wave_agree _ _ _ _ _ _ _ _ _ Efd) as (_ & Wne & Wpos). specialize (Wpos Pbw Pband).
  destruct (fdomain_spec _ _ _ _ _ _ _ _ _ Efd Pps PD Wpos) as (Wr & _ & _ & _ & _ & _ & K1 & Kn & _).
  assert (WR : 0 < fd_wvlRef fd) by (apply Wpos; exact Wr). assert (KP := cut_pos _ _ Ppitch Ekc).
  destruct (init_inv _ _ _ _ _ Ei) as (_ & g' & sc & m & s & nv & a' & m' & w0 & Hg & Hw0 & _ & _ & _ & _ & Hnv & Ha & _ & Hne & _ & Eao & Edg & _ & Est & _ & _).
  assert (Eg : g' = g /\ sc = Scal 1). { unfold guide in Hg. rewrite Plg, Pg in Hg. apply Ok_inj in Hg. injection Hg as <- <-. split; reflexivity. } destruct Eg as [-> ->].
  destruct Patm as (vs & ds & L' & Ev & Ed & EL' & (Vw & Vr & Vn & Vp & Vh & Vv & Vd) & Vh0). cbn [f_wvlRef] in *.
  rewrite set_wvl_val in Ha by assumption. apply Ok_inj in Ha. subst a'.
  assert (NN := noise_nonneg _ _ _ _ Hnv Pnoise WR Pgw Vr).
  unfold cfg_of in Ec. apply bindOk in Ec. destruct Ec as (dk & Edk & Ec). apply Ok_inj in Ec.
  assert (R1 : (1 <= r_res r)%nat). { unfold dk_step in Edk. destruct (Z.eqb_spec (Z.of_nat (r_res r)) 0); [discriminate|lia]. }
  assert (Nn : (0 <= fd_nOtf fd)%Z) by (rewrite Kn; nia).
  unfold fsys_of in Ey. apply bindOk in Ey. destruct Ey as (ls & Els & Ey). apply bindOk in Ey. destruct Ey as (o & Eo & Ey). apply bindOk in Ey. destruct Ey as (gw & Egw & Ey). apply Ok_inj in Ey.
  assert (LW := layers_weights _ _ _ Els). rewrite Eao in LW. cbn [ao_atm a_w] in LW.
  assert (PGW : 0 < gw). { apply Pgw. rewrite Edg in Egw. destruct (so_wvl g) as [|a l]; [discriminate|]. cbn in Egw. apply Ok_inj in Egw. left. exact Egw. }
  exists fd, kcMax, y, p, c, st.
  assert (Y1 : y_layers y = ls) by (subst y; reflexivity). assert (Y2 : y_res y = r_res r) by (subst y; reflexivity).
  split. { subst y. unfold valid_sys. cbn [y_kcMax y_sp y_atm y_gswvl y_layers y_noise]. rewrite Eao. cbn [ao_atm ao_noise a_r0 a_wvl a_L0 noise_list]. split; [exact KP|]. split; [exact Psp|]. split; [apply Rmult_lt_0_compat; [exact Vr|apply exp_pos]|]. split; [exact WR|]. split; [exact PGW|].
    split; [exists L; split; [exact PL|exact EL]|]. split; [|split; [exact Hne|exact NN]]. intros l Hl. assert (Hi : In (l_w l) (map l_w ls)) by (apply in_map; exact Hl). rewrite LW in Hi. apply Rlt_le. apply Vp. exact Hi. }
  split. { unfold weight_sum. rewrite Y1, LW. exact Psum. }
  split; [subst y; exact Prate|]. split; [exact Y2|]. split.
  { unfold parts_of in Ep. cbv zeta in Ep. apply bindOk in Ep. destruct Ep as (noise & E1 & Ep). apply bindOk in Ep. destruct Ep as (alias & E2 & Ep). apply bindOk in Ep. destruct Ep as (diff & E3 & Ep).
    apply bindOk in Ep. destruct Ep as (chrom & E4 & Ep). apply bindOk in Ep. destruct Ep as (dds & Eds & Ep). apply bindOk in Ep. destruct Ep as (ddg & Edg' & Ep). apply bindOk in Ep. destruct Ep as (stp & E5 & Ep). apply bindOk in Ep. destruct Ep as (fit & E6 & Ep). apply Ok_inj in Ep.
    destruct (grid_res_spec _ _ _ E1) as (_ & _ & S1). destruct (grid_res_spec _ _ _ E2) as (_ & _ & S2). destruct (grid_res_spec _ _ _ E4) as (_ & _ & S4). destruct (grid_res_spec _ _ _ E6) as (_ & _ & S6).
    intros k Hk. destruct (src_map_inv _ _ _ E3) as (_ & S3). specialize (S3 k Hk). apply bindOk in S3. destruct S3 as (az & _ & S3). destruct (grid_res_spec _ _ _ S3) as (_ & _ & T3).
    destruct (src_map_inv _ _ _ E5) as (_ & S5). specialize (S5 k Hk). apply bindOk in S5. destruct S5 as (t & _ & S5). destruct (grid_res_spec _ _ _ S5) as (_ & _ & T5).
    exists (Z.to_nat (nTimes (fd_nOtf fd) res)), (fun _ => t).
    exists (mkParts (fun _ => grid_at noise) (grid_at alias) (fun _ => at_src diff k) (fun _ => grid_at chrom) (fun _ => at_src stp k)
        (fun _ _ => 0) (fun _ _ _ _ => 0) (grid_at fit) (fun _ _ => 0) (fun _ _ => 0) (fun _ _ => 0) (LoMany [])).
    split.
    - split; cbn [p_noise p_alias p_diff p_chrom p_st p_fit]; intros; try (unfold at_src); first [apply S1; assumption|apply S2; assumption|apply S6; assumption|apply T5; assumption|idtac].
      + do 4 eexists. apply T3; assumption.
      + do 2 eexists. apply S4; assumption.
    - intros a b. subst c p. reflexivity. }
  split; [exact KP|]. subst c. cbn [k_n k_r k_src k_nGs k_h k_tiltOn k_wind k_extra k_ngsPos].
  split; [rewrite En; rewrite Z2Nat.id by exact Nn; reflexivity|]. repeat (split; [first [reflexivity|assumption]|]). exact Kn.
Qed.

(** ** The computed quantities are physical *)
Definition psd_at (r : run) (s a b : nat) : R := grid_at (nth s (r_psd r) []) a b.
(** Grid of n pixels, n being the field of view times the oversampling factor; one plane
    per source; no negative value; the corrected area is not empty and fits in the grid. *)
Theorem C138_psd : forall w op tp x r, physical w op x -> chain w op tp x = Ok r ->
  create_wavelength_vector (so_wvl (x_src x)) (x_nBin x) (x_bw x) = Ok (r_wvl r, List.length (r_wvl r)) /\
  (forall v, In v (r_wvl r) -> 0 < v) /\
  (exists k, (1 <= k)%nat /\ r_n r = (Z.to_nat (x_nPix x) * k)%nat) /\ (1 <= r_res r)%nat /\
  List.length (r_psd r) = so_nSrc (x_src x) /\
  forall s, (s < so_nSrc (x_src x))%nat -> (r_res r <= r_n r)%nat /\
    List.length (nth s (r_psd r) []) = r_n r /\ (forall a, (a < r_n r)%nat -> List.length (nth a (nth s (r_psd r) []) []) = r_n r) /\
    forall a b, (a < r_n r)%nat -> (b < r_n r)%nat -> 0 <= psd_at r s a b.
Proof.
  intros w op tp x r PH H. destruct (chain_system _ _ _ _ _ PH H) as (fd & kcMax & y & p & c & st & HV & HW & Hra & Yr & SP & KP & Cn & Cr & Cs & R1 & Cg & Ch & Ct & Cw & Ce & Cp & Efd & Epsd & _ & _ & Ewv & En & K1 & Kn).
  destruct (wave_agree _ _ _ _ _ _ _ _ _ Efd) as (EW & _ & Wpos). destruct PH as [_ _ _ _ _ _ (_ & _ & Pnp) (Pbw & Pband) _ _ PMV _ _].
  rewrite Ewv. split; [exact EW|]. split; [exact (Wpos Pbw Pband)|]. split.
  { exists (Z.to_nat (fd_kRef fd)). split; [lia|]. rewrite En, Kn, Z2Nat.inj_mul by lia. reflexivity. }
  split; [exact R1|]. destruct (src_map_inv _ _ _ Epsd) as (Lp & Ip). split; [exact Lp|]. intros s Hs. specialize (Ip s Hs). destruct (grid_res_spec _ _ _ Ip) as (G1 & G2 & G3).
  assert (Npos : (1 <= r_n r)%nat) by (rewrite En, Kn; nia).
  destruct (SP s Hs) as (nT & dir & p' & SC & Eq).
  assert (RN : (r_res r <= r_n r)%nat).
  { destruct (le_lt_dec (r_res r) (r_n r)) as [|Hlt]; [assumption|]. exfalso. specialize (G3 0%nat 0%nat ltac:(lia) ltac:(lia)). rewrite Eq in G3.
    rewrite (C26_area_must_fit c p' s 0 0 (r_n r) (r_res r) Cn Cr) in G3 by lia. discriminate. }
  split; [exact RN|]. split; [exact G1|]. split; [exact G2|]. intros a b Ha Hb. specialize (G3 a b Ha Hb). rewrite Eq in G3.
  eapply (C26_scao_total_nonnegative c y (op_MV op) 5 1 1000 nT (r_n r) dir p' s a b); try eassumption; try lia.
Qed.
Print Assumptions C138_psd.

(** One structure function per source: same grid, no negative value, zero at the origin, at
    most four times the variance of the residual phase; for an even grid it is the structure
    function of a stationary phase having this PSD. *)
Theorem C138_structure_function : forall w op tp x r, physical w op x -> chain w op tp x = Ok r ->
  List.length (r_sf r) = so_nSrc (x_src x) /\
  forall s, (s < so_nSrc (x_src x))%nat -> exists sf, nth_error (r_sf r) s = Some sf /\ rows sf = r_n r /\ cols sf = r_n r /\
    px sf (r_n r / 2) (r_n r / 2) = 0 /\ (forall i j, 0 <= px sf i j <= 4 * img_sum (mkImg (r_n r) (r_n r) (psd_at r s))) /\
    (Nat.even (r_n r) = true -> forall i j, px sf i j = structure_function (mkImg (r_n r) (r_n r) (psd_at r s)) (r_n r / 2) (r_n r / 2)
        (Z.of_nat i - Z.of_nat (r_n r / 2)) (Z.of_nat j - Z.of_nat (r_n r / 2))).
Proof.
  intros w op tp x r PH H. destruct (C138_psd _ _ _ _ _ PH H) as (_ & _ & (k & Hk & En) & R1 & Lp & Ps). destruct (chain_inv _ _ _ _ _ H) as (fd & kcMax & res & dr & y & p & c & st & _ & _ & _ & _ & _ & _ & _ & _ & Esf & _).
  destruct (mapMt_inv _ _ _ Esf) as (Ls & Is). split; [congruence|]. intros s Hs. destruct (Ps s Hs) as (RN & _ & _ & Nn).
  destruct (Is s (nth s (r_psd r) [])) as (sf & E1 & E2); [apply nth_error_nth'; lia|].
  destruct (C06_phaseStructureFunction (mkImg (r_n r) (r_n r) (psd_at r s))) as (sf' & E & F1 & F2 & F3 & F4 & F5); cbn [rows cols]; try lia.
  { intros i j Hi Hj. cbn [px]. apply Nn; assumption. }
  change (mkImg (r_n r) (r_n r) (grid_at (nth s (r_psd r) []))) with (mkImg (r_n r) (r_n r) (psd_at r s)) in E2. rewrite E in E2. apply Ok_inj in E2. subst sf'.
  cbn [rows cols] in *. exists sf. split; [exact E1|]. split; [exact F1|]. split; [exact F2|]. split; [exact F3|]. split; [exact F4|]. intros He. exact (F5 He He).
Qed.
Print Assumptions C138_structure_function.

(** One entry per wavelength; one image and one Strehl ratio per source; Strehl ratios between
    0 and 100 %; images of the requested field of view whose sum is the transmittance. *)
Theorem C138_images : forall w op tp x r, physical w op x -> chain w op tp x = Ok r -> camera_ok x (List.length (r_wvl r)) -> optics_ok tp (r_n r) ->
  List.length (r_psf r) = List.length (r_wvl r) /\
  forall j imgs srs t, nth_error (r_psf r) j = Some (imgs, srs) -> nth_error (x_trans x) j = Some t ->
    List.length imgs = so_nSrc (x_src x) /\ List.length srs = so_nSrc (x_src x) /\
    (forall s sr, nth_error srs s = Some sr -> 0 <= sr <= 100) /\
    (forall s im, nth_error imgs s = Some im -> rows im = Z.to_nat (x_nPix x) /\ cols im = Z.to_nat (x_nPix x) /\ img_sum im = t).
Proof.
  intros w op tp x r PH H [Ct Cx Cy (ja & jb & jc & Esp & Hj)] (Od1 & Od2 & Od3 & Od4).
  destruct (C138_structure_function _ _ _ _ _ PH H) as (Ls & Is). destruct (chain_system _ _ _ _ _ PH H) as (fd & kcMax & y & p & c & st & _ & _ & _ & _ & _ & _ & _ & _ & _ & R1 & _ & _ & _ & _ & _ & _ & Efd & _ & _ & Eout & Ewv & En & K1 & Kn).
  destruct (wave_agree _ _ _ _ _ _ _ _ _ Efd) as (_ & _ & Wpos). assert (PH' := PH). destruct PH' as [_ _ _ _ _ _ (PD & Pps & Pnp) (Pbw & Pband) _ _ PMV _ _].
  destruct (fdomain_spec _ _ _ _ _ _ _ _ _ Efd Pps PD (Wpos Pbw Pband)) as (_ & _ & Lk & Lsm & _).
  set (f := mkFmod _ _ _ _ _ _ _ _ _) in Eout.
  assert (Lb : List.length (fm_base f) = List.length (r_wvl r)). { subst f. cbn [fm_base]. unfold base_of. rewrite map_length, !combine_length, Lk, Lsm, Ewv. lia. }
  assert (Npos : (1 <= r_n r)%nat) by (rewrite En, Kn; nia).
  assert (FL : fourier_labels f). { unfold fourier_labels. rewrite Lb. subst f. cbn [fm_inst inst_of i_atm i_dphi i_jit i_wvl i_trans i_dispx i_dispy i_star fm_sfs]. rewrite map_length, Ls. repeat split; assumption. }
  assert (NP : npx_of f None = Z.to_nat (x_nPix x)). { subst f. cbn [npx_of fm_n fm_kRef]. rewrite En, Kn, Z2Nat.inj_mul by lia. apply Nat.div_mul. lia. }
  destruct (C104_strehl f (op_pixel op) (tp_stored tp) [] None (r_psf r) st Eout) as (L1 & I1); try assumption.
  { intros w0 k nf Hin. subst f. cbn [fm_base] in Hin. unfold base_of in Hin. apply in_map_iff in Hin. destruct Hin as (q & Eq & _). injection Eq as _ _ <-. unfold jit_norm2. apply Rmult_le_pos; apply pow2_ge_0. }
  { intros sf Hin. subst f. cbn [fm_sfs fm_n] in *. apply in_map_iff in Hin. destruct Hin as (im & <- & Him). apply In_nth_error in Him. destruct Him as (s & Hs).
    assert (Hlt : (s < so_nSrc (x_src x))%nat) by (rewrite <- Ls; apply nth_error_Some; congruence). destruct (Is s Hlt) as (sf & E1 & _ & _ & _ & Rg & _). rewrite Hs in E1. injection E1 as <-. intros i j _ _. apply Rg. }
  { intros s jit Es Ej. destruct FL as (La & Ld & Lj & Lw & Lt & Lx & Ly & _).
    destruct (sort_defaults (fm_inst f) [] 0%nat None None) as (so & Eso & _ & _ & _ & _ & _ & SJ & _).
    { unfold sort_atm. rewrite La. reflexivity. } { cbn. lia. } { congruence. } { congruence. } { congruence. }
    rewrite Es in Eso. apply Ok_inj in Eso. subst so. rewrite (SJ Lj) in Ej by (cbn; lia). subst f. cbn [fm_inst inst_of i_spot] in Ej. rewrite Esp in Ej. cbn [jitter_of] in Ej. apply Ok_inj in Ej. subst jit. exact Hj. }
  split; [congruence|]. intros j imgs srs t Hj' Ht. destruct (I1 j imgs srs Hj') as (A1 & A2 & A3). subst f. cbn [fm_sfs] in *. rewrite map_length, Ls in A1, A2.
  split; [exact A1|]. split; [exact A2|]. split; [exact A3|]. intros s im Him. assert (Hs : (s < so_nSrc (x_src x))%nat) by (rewrite <- A1; apply nth_error_Some; congruence).
  destruct (C104_defaults _ _ _ _ _ _ FL Eout ltac:(left; rewrite NP; cbn [fm_fov]; lia) j t s Ht ltac:(cbn [fm_sfs]; rewrite map_length; lia)) as (im1 & sr1 & i1 & B1 & B2 & B3 & B4 & B5).
  rewrite Hj' in B1. injection B1 as <- <-. rewrite Him in B2. injection B2 as <-. rewrite NP in B3, B4. auto.
Qed.
Print Assumptions C138_images.
