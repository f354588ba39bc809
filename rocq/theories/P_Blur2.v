(** C140: the blur requested by the keyword SpotFWHM, for the whole computation. *)
From Coq Require Import Reals List Arith ZArith Lia Lra Bool FunctionalExtensionality.
From Verif Require Import Base_Py Base_Sum M_Image M_Fourier M_Source M_Atmo M_Sensor M_Tools L_Tools2 M_Psf M_Freq M_Model M_Model2 M_Call M_Driver M_Chain L_Sensor L_Freq L_Psf3 P_Driver P_Driver2 P_Chain P_Chain2 P_Blur.
Import ListNotations.
Open Scope R_scope.

(** ** Specification *)
(** the same system with another SpotFWHM *)
Definition with_spot (sp : list R) (x : scao) : scao :=
  mkScao (x_ao x) (x_D x) (x_zenith x) (x_extraNm x) (x_src x) (x_pitch x) (x_circle x) (x_loop x) (x_modul x) (x_bin x) (x_nPix x) (x_ps x) (x_nBin x) (x_bw x) sp
    (x_trans x) (x_dispx x) (x_dispy x).
Definition blur_img (n : nat) (p f g : R) (m : img) : img := mkImg (rows m) (cols m) (fun i j => px m i j * (gauss_otf f (cycles n p i) * gauss_otf g (cycles n p j))).
(** the instrument whose static transfer functions are multiplied by Gaussian ones (the
    diffraction-limited reference of the Strehl ratios is kept) *)
Definition blur_optics (n : nat) (p f g : R) (tp : optics) : optics :=
  mkOptics (fun j st => blur_img n p f g (tp_static tp j st)) (blur_img n p f g (tp_stored tp)) (tp_dl tp).

(** ** Lemmas *)
Lemma fd_fields src nB bw nyq ex ps D np fd : make_fdomain src nB bw nyq ex ps D np = Ok fd ->
  fd_k fd = map (fun w => oversampling (samp0 nyq ps D w)) (fd_wvl fd) /\
  fd_samp fd = map (fun w => IZR (oversampling (samp0 nyq ps D w)) * samp0 nyq ps D w) (fd_wvl fd).
Proof.
  intros H. unfold make_fdomain in H. apply bindOk in H; destruct H as (w & Ew & H). apply bindOk in H; destruct H as (iW & EW & H).
  apply bindOk in H; destruct H as (wr & _ & H). cbv zeta in H. apply bindOk in H; destruct H as (ip & _ & H). apply bindOk in H; destruct H as (st & _ & H). apply bindOk in H; destruct H as (kr & _ & H).
  apply Ok_inj in H. subst fd. cbn [fd_k fd_samp fd_wvl]. rewrite map_map. split; reflexivity.
Qed.
Lemma base_fields x fd : fd_k fd = map (fun w => oversampling (samp0 false (x_ps x) (x_D x) w)) (fd_wvl fd) ->
  fd_samp fd = map (fun w => IZR (oversampling (samp0 false (x_ps x) (x_D x) w)) * samp0 false (x_ps x) (x_D x) w) (fd_wvl fd) ->
  base_of x fd = map (fun w => (w, Z.to_nat (oversampling (samp0 false (x_ps x) (x_D x) w)), jit_norm2 (IZR (oversampling (samp0 false (x_ps x) (x_D x) w)) * samp0 false (x_ps x) (x_D x) w) (x_D x) w)) (fd_wvl fd).
Proof.
  intros E1 E2. unfold base_of. rewrite E1, E2. clear E1 E2. set (l := fd_wvl fd). clearbody l. set (h := fun w => oversampling (samp0 false (x_ps x) (x_D x) w)). induction l as [|a l IH]; [reflexivity|]. cbn [map combine]. rewrite IH. reflexivity.
Qed.
Lemma sf4_zero n kRef fov npix chans dl pix sfs x : sf_3D_to_psf_4D n kRef fov npix false chans dl pix (Some (0, 0, 0)) sfs x = sf_3D_to_psf_4D n kRef fov npix false chans dl pix None sfs x.
Proof.
  unfold sf_3D_to_psf_4D. match goal with |- bind (M_Psf.mapM ?f ?l) _ = bind (M_Psf.mapM ?g ?l) _ => rewrite (mapM_ext' f g l) end; [reflexivity|].
  intros [j c] _. unfold channel4. cbn [andb]. assert (E : jitter4_active (0, 0, 0) = false). { unfold jitter4_active, any_nonzero. cbn [existsb]. destruct (Req_EM_T 0 0); [reflexivity|congruence]. }
  rewrite E. reflexivity.
Qed.
Lemma chans_blur f f' stored n p a b : fm_base f' = fm_base f -> (forall j st, fm_static f' j st = blur_img n p a b (fm_static f j st)) ->
  chans_of f' (blur_img n p a b stored) None = map (blurred n p a b) (chans_of f stored None).
Proof.
  intros EB ES. unfold chans_of, refresh. rewrite EB, map_map. apply map_ext. intros [j [[w k] nf]]. cbn [snd fst]. unfold blurred. cbn [c_wvl c_k c_otf c_nf2]. rewrite ES. destruct (_ || _)%bool; reflexivity.
Qed.
Section Blur.
Variables (op : options) (tp : optics) (x : scao) (fd : fdomain) (fx fy : R) (nw : nat) (sfs : list (nat -> nat -> R)).
Hypothesis Efd : make_fdomain (so_wvl (x_src x)) (x_nBin x) (x_bw x) false (op_expand op) (x_ps x) (x_D x) (x_nPix x) = Ok fd.
Hypothesis Pps : 0 < x_ps x.
Hypothesis PD : 0 < x_D x.
Hypothesis WP : forall v, In v (fd_wvl fd) -> 0 < v.
Hypothesis Esp : x_spot x = [fx; fy; 0].
Let n := Z.to_nat (fd_nOtf fd).
Let k := Z.to_nat (oversampling (samp0 false (x_ps x) (x_D x) (fd_wvlRef fd))).
Let tp' := blur_optics n (x_ps x / INR k) (kappa * fx) (kappa * fy) tp.
Let fm (x' : scao) (t : optics) : fmod :=
  mkFmod (inst_of x' nw) n (Z.to_nat (fd_kRef fd)) (Z.to_nat (x_nPix x)) false (base_of x fd) (tp_static t) (tp_dl t) sfs.
Hypothesis NP : (0 < n)%nat.
Lemma k_pos : (1 <= oversampling (samp0 false (x_ps x) (x_D x) (fd_wvlRef fd)))%Z.
Proof. destruct (fdomain_spec _ _ _ _ _ _ _ _ _ Efd Pps PD WP) as (I1 & _). apply oversampling_spec. apply samp0_pos; auto. Qed.
Lemma psf_blur : exists st', point_spread_function (fm (with_spot [0; 0; 0] x) tp') (op_pixel op) (tp_stored tp') [] None =
  match point_spread_function (fm x tp) (op_pixel op) (tp_stored tp) [] None with Ok q => Ok (fst q, st') | Err e => Err e end.
Proof.
  destruct (fdomain_spec _ _ _ _ _ _ _ _ _ Efd Pps PD WP) as (I1 & I2 & _). destruct (fd_fields _ _ _ _ _ _ _ _ _ Efd) as [EK ES].
  assert (EB := base_fields x fd EK ES). assert (K1 := k_pos).
  set (lam := fd_wvlRef fd) in *. set (K := oversampling (samp0 false (x_ps x) (x_D x) lam)) in *.
  assert (SP : forall v, In v (fd_wvl fd) -> 0 < samp0 false (x_ps x) (x_D x) v) by (intros v Hv; apply samp0_pos; auto).
  set (q := x_ps x / INR k) in *. set (f := fm x tp). set (f' := fm (with_spot [0; 0; 0] x) tp').
  exists (stored_after f' (tp_stored tp') None). unfold point_spread_function.
  unfold sort_params, sort_atm. change (i_atm (fm_inst f)) with 0%nat. change (i_atm (fm_inst f')) with 0%nat. change (i_dphi (fm_inst f)) with 0%nat. change (i_dphi (fm_inst f')) with 0%nat.
  change (i_jit (fm_inst f)) with true. change (i_jit (fm_inst f')) with true. change (i_spot (fm_inst f)) with (x_spot x). change (i_spot (fm_inst f')) with [0; 0; 0]. rewrite Esp.
  cbn [Nat.ltb Nat.leb bind Nat.add List.length].
  change (sort_stellar (fm_inst f') [] 3) with (sort_stellar (fm_inst f) [] 3). destruct (sort_stellar (fm_inst f) [] 3) as [[[[F dx] dy] bk]|er]; cbn [bind]; [|reflexivity].
  cbn [s_jit s_stat M_Tools.s_F M_Tools.s_dx M_Tools.s_dy s_bkg jitter_of].
  change (fm_kRef f') with (fm_kRef f). destruct (fm_kRef f =? 0)%nat; [reflexivity|]. cbn [bind].
  change (fm_n f') with (fm_n f). change (fm_fov f') with (fm_fov f). change (fm_nyq f') with false. change (fm_nyq f) with false. change (fm_dl f') with (fm_dl f). change (fm_sfs f') with (fm_sfs f).
  rewrite sf4_zero. change (tp_stored tp') with (blur_img n q (kappa * fx) (kappa * fy) (tp_stored tp)).
  rewrite (chans_blur f f' (tp_stored tp) n q (kappa * fx) (kappa * fy)) by reflexivity.
  rewrite (C140_blur_4D (fm_n f) (fm_kRef f) (fm_fov f) _ (chans_of f (tp_stored tp) None) (fm_dl f) _ fx fy (x_ps x) k).
  - change (fm_n f) with n. fold q. destruct (sf_3D_to_psf_4D _ _ _ _ _ _ _ _ _ _ _); reflexivity.
  - exact NP.
  - exact Pps.
  - unfold k. fold lam. fold K. lia.
  - intros ch Hch. unfold chans_of in Hch. apply in_map_iff in Hch. destruct Hch as ([j [[v kv] nf]] & <- & Hin). cbn [snd fst c_nf2 c_k].
    assert (Ib : In (v, kv, nf) (base_of x fd)). { change (fm_base f) with (base_of x fd) in Hin. clear - Hin. revert Hin. generalize 0%nat. induction (base_of x fd) as [|b l IH]; intros k0 Hin; [destruct Hin|]. destruct Hin as [E|Hin]; [left; congruence|right; exact (IH _ Hin)]. }
    rewrite EB in Ib. apply in_map_iff in Ib. destruct Ib as (u & Eu & Iu). injection Eu as <- <- <-. change (u * M_Freq.rad2mas / (x_ps x * x_D x)) with (samp0 false (x_ps x) (x_D x) u). set (Ku := oversampling (samp0 false (x_ps x) (x_D x) u)).
    assert (Ku1 : (1 <= Ku)%Z) by (apply oversampling_spec; apply SP; exact Iu). split.
    + unfold samp0 at 1. rewrite jit_norm2_value by auto. rewrite INR_IZR_INZ, Z2Nat.id by lia. reflexivity.
    + unfold k. fold lam. apply Z2Nat.inj_le; [lia|lia|]. apply oversampling_mono; [apply SP; exact I1|]. apply samp0_mono; auto.
  - assert (Ib : In (lam, k, jit_norm2 (IZR K * samp0 false (x_ps x) (x_D x) lam) (x_D x) lam) (base_of x fd)). { rewrite EB. apply in_map_iff. exists lam. split; [reflexivity|exact I1]. }
    unfold chans_of. change (fm_base f) with (base_of x fd). clear - Ib. revert Ib. generalize 0%nat. generalize (base_of x fd). induction l as [|b l IH]; intros k0 Ib; [destruct Ib|]. destruct Ib as [->|Ib].
    + eexists. split; [left; reflexivity|]. reflexivity.
    + destruct (IH (S k0) Ib) as (cc & I & E). exists cc. split; [right; exact I|exact E].
Qed.
End Blur.
(** the two runs are equal, failures included *)
Lemma blur_equal w op tp x fd fx fy : make_fdomain (so_wvl (x_src x)) (x_nBin x) (x_bw x) false (op_expand op) (x_ps x) (x_D x) (x_nPix x) = Ok fd ->
  0 < x_ps x -> 0 < x_D x -> (forall v, In v (fd_wvl fd) -> 0 < v) -> x_spot x = [fx; fy; 0] -> (0 < Z.to_nat (fd_nOtf fd))%nat ->
  chain w op tp x = chain w op (blur_optics (Z.to_nat (fd_nOtf fd)) (x_ps x / INR (Z.to_nat (oversampling (samp0 false (x_ps x) (x_D x) (fd_wvlRef fd))))) (kappa * fx) (kappa * fy) tp) (with_spot [0; 0; 0] x).
Proof.
  intros Efd Pps PD WP Esp NP. unfold chain. cbn [with_spot x_src x_nBin x_bw x_ps x_D x_nPix x_pitch x_ao].
  destruct (create_wavelength_vector (so_wvl (x_src x)) (x_nBin x) (x_bw x)) as [wv|]; cbn [bind]; [|reflexivity]. rewrite Efd. cbn [bind]. cbv zeta.
  destruct (rlist_max (cutoffs None (x_pitch x))) as [kc|]; cbn [bind]; [|reflexivity]. destruct (resAO _ _) as [res|]; cbn [bind]; [|reflexivity].
  destruct (initComputations _ _ _) as [[ao' [dr|]]|]; cbn [bind snd fst]; [|reflexivity|reflexivity].
  set (x0 := with_spot [0; 0; 0] x).
  change (fsys_of w x0) with (fsys_of w x). destruct (fsys_of w x _ _ _ _ _) as [y|]; cbn [bind]; [|reflexivity].
  change (parts_of x0) with (parts_of x). destruct (parts_of x _ _ _ _ _) as [p|]; cbn [bind]; [|reflexivity].
  change (cfg_of x0) with (cfg_of x). destruct (cfg_of x _ _ _) as [c|]; cbn [bind]; [|reflexivity].
  destruct (src_map _ _) as [psd|]; cbn [bind]; [|reflexivity]. destruct (M_Tools.mapM _ _) as [sf|]; cbn [bind]; [|reflexivity].
  change (base_of x0) with (base_of x). 
  destruct (psf_blur op tp x fd fx fy (snd wv) (map px sf) Efd Pps PD WP Esp NP) as (st' & E). unfold x0. cbn [tp_dl blur_optics] in E |- *. rewrite E. clear E.
  destruct (point_spread_function _ _ _ _ _) as [[o st]|]; reflexivity.
Qed.

(** C140: a run with SpotFWHM = [fx, fy, 0] gives what the run with SpotFWHM = [0, 0, 0] gives
    for the instrument whose static transfer functions are multiplied by those of a Gaussian
    of widths kappa*fx and kappa*fy (kappa = 8 ln 2/pi), on the pixels of the channel of the
    shortest wavelength (pixel scale over the oversampling factor at that wavelength). *)
Theorem C140_blur : forall w op tp x fx fy, physical w op x -> x_spot x = [fx; fy; 0] ->
  (forall r, chain w op tp x = Ok r -> exists lam k, In lam (r_wvl r) /\ (forall v, In v (r_wvl r) -> lam <= v) /\
    Z.of_nat k = oversampling (lam * M_Freq.rad2mas / (x_ps x * x_D x)) /\ (1 <= k)%nat /\
    chain w op (blur_optics (r_n r) (x_ps x / INR k) (kappa * fx) (kappa * fy) tp) (with_spot [0; 0; 0] x) = Ok r) /\
  (forall wv nw lam k r, create_wavelength_vector (so_wvl (x_src x)) (x_nBin x) (x_bw x) = Ok (wv, nw) -> In lam wv -> (forall v, In v wv -> lam <= v) ->
    Z.of_nat k = oversampling (lam * M_Freq.rad2mas / (x_ps x * x_D x)) ->
    chain w op (blur_optics (r_n r) (x_ps x / INR k) (kappa * fx) (kappa * fy) tp) (with_spot [0; 0; 0] x) = Ok r -> chain w op tp x = Ok r).
Proof.
  intros w op tp x fx fy PH Esp. assert (PH' : physical w op (with_spot [0; 0; 0] x)) by (destruct PH; split; assumption).
  assert (B := PH). destruct B as [_ _ _ _ _ _ (PD & Pps & Pnp) (Pb & Pband) _ _ _ _ _].
  split.
  - intros r H. destruct (C138_psd _ _ _ _ _ PH H) as (_ & WP & (kk & Kk & Nn) & _).
    destruct (chain_inv _ _ _ _ _ H) as (fd & _ & _ & _ & _ & _ & _ & _ & Efd & _ & _ & _ & _ & _ & _ & _ & _ & _ & Ewv & En & _). rewrite Ewv in WP.
    destruct (fdomain_spec _ _ _ _ _ _ _ _ _ Efd Pps PD WP) as (I1 & I2 & _). assert (K1 := k_pos op x fd Efd Pps PD WP).
    exists (fd_wvlRef fd), (Z.to_nat (oversampling (samp0 false (x_ps x) (x_D x) (fd_wvlRef fd)))). rewrite Ewv. split; [exact I1|]. split; [exact I2|]. split; [rewrite Z2Nat.id by lia; reflexivity|]. split; [lia|].
    rewrite En. rewrite <- (blur_equal w op tp x fd fx fy Efd Pps PD WP Esp); [exact H|]. rewrite <- En. nia.
  - intros wv nw lam k r Ew Il Ml Ek H. destruct (C138_psd _ _ _ _ _ PH' H) as (_ & WP & (kk & Kk & Nn) & _). cbn [with_spot x_nPix] in Nn.
    destruct (chain_inv _ _ _ _ _ H) as (fd & _ & _ & _ & _ & _ & _ & _ & Efd & _ & _ & _ & _ & _ & _ & _ & _ & _ & Ewv & En & _). rewrite Ewv in WP. cbn [with_spot x_src x_nBin x_bw x_ps x_D x_nPix] in Efd.
    destruct (wave_agree _ _ _ _ _ _ _ _ _ Efd) as (Ew' & _ & _). rewrite Ew in Ew'. apply Ok_inj in Ew'. injection Ew' as -> _.
    destruct (fdomain_spec _ _ _ _ _ _ _ _ _ Efd Pps PD WP) as (I1 & I2 & _). assert (lam = fd_wvlRef fd) by (apply Rle_antisym; [apply Ml; exact I1|apply I2; exact Il]). subst lam.
    rewrite (blur_equal w op tp x fd fx fy Efd Pps PD WP Esp); [|rewrite <- En; nia].
    assert (EkN : Z.to_nat (oversampling (samp0 false (x_ps x) (x_D x) (fd_wvlRef fd))) = k). { change (samp0 false (x_ps x) (x_D x) (fd_wvlRef fd)) with (fd_wvlRef fd * M_Freq.rad2mas / (x_ps x * x_D x)). rewrite <- Ek. apply Nat2Z.id. }
    rewrite EkN, <- En. exact H.
Qed.

Lemma gauss_le f nu : 0 < gauss_otf f nu <= 1.
Proof.
  unfold gauss_otf. split; [apply exp_pos|]. rewrite <- exp_0. assert (L := ln2_pos). assert (Q : 0 <= (PI * f * nu) ^ 2 / (4 * ln 2)) by (apply Rmult_le_pos; [apply pow2_ge_0|left; apply Rinv_0_lt_compat; lra]).
  destruct Q as [Q|Q]; [left; apply exp_increasing; lra|rewrite <- Q; right; f_equal; lra].
Qed.

(** Non-vacuity: a blur of 10 by 20 mas; the run succeeds. *)
Example C140_nonvacuous : let x := with_spot [10; 20; 0] ex_x in physical ex_world (mkOptions 0 false false) x /\ x_spot x = [10; 20; 0] /\
  exists r, chain ex_world (mkOptions 0 false false) ex_tp x = Ok r.
Proof.
  cbv zeta. destruct C138_nonvacuous as (PH & SM & CO & OO & _). set (x := with_spot [10; 20; 0] ex_x).
  assert (PHx : physical ex_world (mkOptions 0 false false) x) by (destruct PH; split; assumption).
  split; [exact PHx|]. split; [reflexivity|].
  assert (OL : 0 < ex_lam) by (unfold ex_lam; apply Rinv_0_lt_compat; lra).
  set (tp' := blur_optics 32 (x_ps x / INR 1) (kappa * 10) (kappa * 20) ex_tp).
  assert (DO : forall m, (forall i j, px m i j = 1) -> dominated 32 (blur_img 32 (x_ps x / INR 1) (kappa * 10) (kappa * 20) m) (mkImg 32 32 (fun _ _ => 1))).
  { intros m Hm i j _ _. unfold blur_img. cbn [px]. rewrite Hm, Rmult_1_l. destruct (gauss_le (kappa * 10) (cycles 32 (x_ps x / INR 1) i)) as [A1 A2]. destruct (gauss_le (kappa * 20) (cycles 32 (x_ps x / INR 1) j)) as [B1 B2].
    rewrite Rabs_pos_eq by (apply Rmult_le_pos; lra). rewrite <- (Rmult_1_l 1). apply Rmult_le_compat; lra. }
  assert (OO' : optics_ok tp' 32). { split; [reflexivity|]. split; [reflexivity|]. split; [|intros q o]; apply DO; reflexivity. }
  destruct (C138_defined ex_world 0 false tp' ex_x ex_lam (1 / 2) PH SM CO) as (r & E & Ew & En & _); rewrite ?ex_over in *; cbn [ex_x x_nPix] in *; try reflexivity; try exact OO'.
  - unfold tp', blur_optics. cbn [tp_stored blur_img px ex_tp]. match goal with |- 1 * (?a * ?b) <> 0 => assert (0 < a /\ 0 < b) by (split; apply exp_pos) end. apply Rgt_not_eq. rewrite Rmult_1_l. apply Rmult_lt_0_compat; tauto.
  - unfold tp', blur_optics. cbn [ex_tp tp_dl]. unfold img_sum. cbn [rows cols px]. rewrite (rsum_ext 32 _ (fun _ => INR 32)). { rewrite rsum_const. apply Rmult_integral_contrapositive; split; apply not_0_INR; lia. } intros i _. rewrite rsum_const. ring.
  - exists r. destruct (C140_blur ex_world (mkOptions 0 false false) ex_tp x 10 20 PHx eq_refl) as [_ G].
    destruct (C138_psd _ _ _ _ _ (let 'conj a _ := C138_nonvacuous in a) E) as (EWV & WP & _).
    change (so_wvl (x_src ex_x)) with (so_wvl (x_src x)) in EWV. change (x_nBin ex_x) with (x_nBin x) in EWV. change (x_bw ex_x) with (x_bw x) in EWV. rewrite Ew in EWV.
    refine (G _ _ ex_lam 1%nat r EWV (or_introl eq_refl) _ _ _).
    + intros v [<-|[]]. lra.
    + change (oversampling (ex_lam * M_Freq.rad2mas / (x_ps x * x_D x))) with (over ex_x ex_lam). rewrite ex_over. reflexivity.
    + rewrite En. exact E.
Qed.

Print Assumptions C140_blur.
