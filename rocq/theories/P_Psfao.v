(** C81: the psfao21 model, one wavelength. *)
From Coq Require Import Reals List Arith ZArith Lia Lra Psatz.
From Coq Require Import ZifyBool ZifyNat.
From Verif Require Import Base_Py Base_Sum Base_DFT M_Image S_Image L_Image L_Image2 M_Fourier S_Fourier L_Fourier L_Fourier2 L_Fourier3 M_Psf M_Float L_Float L_Psf L_Psf2 L_Psf3 L_Psf4 P_Psf M_Bounds M_Model2 M_Tools S_Tools L_Tools L_Tools2 L_Fit M_Psf M_Psfao L_Psfao M_Tools.
From Coquelicot Require Import Complex.
Import ListNotations.
Open Scope R_scope.

(** C81: on-axis structure function. With a nonnegative power spectrum of any (even or odd)
    size the map is the same for every source; it is the structure function of the spectrum
    divided by (D samp)^2: nonnegative, zero at the centre, symmetric about the centre, and
    at most 4 times the total power. *)
Theorem C81_structure_function : forall psd D samp nSrc c ani,
  (0 < rows psd)%nat -> (0 < cols psd)%nat -> nonneg psd -> D * samp <> 0 ->
  (ani = None \/ c = None \/ exists l k p, c = Some l /\ ani = Some (k, p) /\ length l <> k) ->
  exists s, psfao_sf psd D samp nSrc ani c = Ok (repeat s nSrc) /\ rows s = rows psd /\ cols s = cols psd /\
  px s (rows psd / 2)%nat (cols psd / 2)%nat = 0 /\
  forall i j, (i < rows psd)%nat -> (j < cols psd)%nat ->
    px s i j = structure_function psd (hup (rows psd)) (hup (cols psd)) (Z.of_nat i - Z.of_nat (rows psd / 2)) (Z.of_nat j - Z.of_nat (cols psd / 2)) / (D * samp) ^ 2 /\
    0 <= px s i j <= 4 * img_sum psd / (D * samp) ^ 2 /\
    forall i' j', (i' < rows psd)%nat -> (j' < cols psd)%nat -> (i + i' = 2 * (rows psd / 2))%nat -> (j + j' = 2 * (cols psd / 2))%nat -> px s i' j' = px s i j.
Proof.
  intros psd D samp nSrc c ani Hr Hc Hn HD Ha. destruct (psfao_sf0_val psd D samp Hr Hc Hn HD) as (s & E & Rs & Cs & V).
  exists s. assert (P : 0 < / (D * samp) ^ 2) by (apply Rinv_0_lt_compat; rewrite <- Rsqr_pow2; apply Rsqr_pos_lt, HD).
  split; [|split; [exact Rs|split; [exact Cs|]]].
  - unfold psfao_sf. rewrite E. cbn [bind]. destruct Ha as [ ->|[ ->|(l & k & p & -> & -> & N)]]; [reflexivity|destruct ani as [[? ?]|]; reflexivity|].
    destruct (Nat.eqb_spec (length l) k); [congruence|reflexivity].
  - split.
    + rewrite V by (apply half_lt; assumption). rewrite !Z.sub_diag, sf_zero. unfold Rdiv; ring.
    + intros i j Hi Hj. split; [apply V; assumption|]. split.
      * rewrite V by assumption. split; [apply Rmult_le_pos; [apply sf_nonneg, Hn|lra]|].
        apply Rmult_le_compat_r; [lra|apply sf_le, Hn].
      * intros i' j' Hi' Hj' Ei Ej. rewrite !V by assumption. f_equal.
        rewrite <- sf_sym. f_equal; lia.
Qed.
Print Assumptions C81_structure_function.

(** ** The parameter vector *)
Lemma app_inj_len {A} (a b c d : list A) : length a = length c -> a ++ b = c ++ d -> a = c /\ b = d.
Proof.
  revert c; induction a as [|x a IH]; intros [|y c] L E; cbn in *; try lia; [split; [reflexivity|exact E]|].
  injection E as -> E. destruct (IH c) as [ -> ->]; [lia|exact E|]. split; reflexivity.
Qed.
(** one layer, one wavelength, one transmittance/dispersion value *)
Definition mono (nL nRec nSrc : nat) (spot : list R) (w tr ex ey : R) : psf_inst := psfao_inst nL nRec nSrc spot [w] [tr] [ex] [ey].
Lemma mono_sort nL nRec nSrc spot w tr ex ey r0 dphi jit fl ax ay b stat :
  (1 <= nL)%nat -> (1 <= nRec)%nat -> (nL = 1 \/ nRec = 1)%nat ->
  length dphi = 6%nat -> length jit = 3%nat -> length fl = nSrc -> length ax = nSrc -> length ay = nSrc ->
  exists s, sort_params (mono nL nRec nSrc spot w tr ex ey) (r0 :: dphi ++ jit ++ fl ++ ax ++ ay ++ b :: stat) = Ok s /\
    s_Cn2 s = None /\ s_r0 s = Some r0 /\ s_dphi s = Some dphi /\ s_jit s = Some jit /\
    column (s_F s) 0 = Ok (map (fun f => f * tr) fl) /\ column (s_dx s) 0 = Ok (map (fun d => d + ex) ax) /\ column (s_dy s) 0 = Ok (map (fun d => d + ey) ay) /\
    s_bkg s = [b] /\ s_stat s = (match stat with [] => None | _ => Some stat end).
Proof.
  intros H1 H2 H3 Ld Lj Lf Lx Ly. set (m := mono nL nRec nSrc spot w tr ex ey). set (x := r0 :: _).
  assert (EM : (0 <? i_atm m)%nat = true) by (unfold m; cbn [mono psfao_inst i_atm]; lia).
  assert (EL : ((1 <? i_nL m) && (1 <? i_nRec m))%nat%bool = false) by (unfold m; cbn [mono psfao_inst i_nL i_nRec]; lia).
  assert (LX : length x = (11 + 3 * nSrc + length stat)%nat) by (unfold x; cbn [length]; rewrite !app_length; cbn [length]; lia).
  assert (NT : n_tt m = 10%nat).
  { unfold n_tt, n_dphi, n_atm. rewrite EM, EL. reflexivity. }
  assert (NF : n_full m = (11 + 3 * nSrc)%nat) by (unfold n_full; rewrite NT; unfold m, mono, psfao_inst, init_src_wvl; cbn [i_star i_wvl i_frame length Nat.ltb Nat.leb]; lia).
  assert (EA : sort_atm m x = Ok (1%nat, None, Some r0)) by (unfold sort_atm; rewrite EM, EL; reflexivity).
  assert (ES : exists s, sort_params m x = Ok s).
  { unfold sort_params. rewrite EA. cbn [bind]. unfold sort_stellar. change (i_jit m) with true. change (i_dphi m) with 6%nat. change (i_wvl m) with 1%nat. cbv iota zeta. destruct (Nat.ltb_spec (1 + 6 + 3) (length x)); [|lia]. change (1 =? 1)%nat with true. cbv iota.
    cbn [bind]. eexists; reflexivity. }
  destruct ES as (s & ES). exists s. split; [exact ES|].
  assert (EC : s_Cn2 s = None /\ s_r0 s = Some r0).
  { unfold sort_params in ES. rewrite EA in ES. cbn [bind] in ES. apply bindOk in ES. destruct ES as ([[[F X] Y] B] & _ & ES). apply Ok_inj in ES. subst s. split; reflexivity. }
  destruct EC as [EC ER].
  destruct (sort_full_mono m x s ES eq_refl) as (fl' & ax' & ay' & Ex & L1 & L2 & L3 & EF & EX & EY & LB & LD & LJ); [lia|lia|].
  rewrite EC, ER in Ex. change (length (s_bkg s) = 1%nat) in LB. change (length (opt_list (s_dphi s)) = 6%nat) in LD. change (length (opt_list (s_jit s)) = 3%nat) in LJ.
  change (i_star m) with nSrc in L1, L2, L3.
  unfold x, atm_head in Ex. cbn [app] in Ex. injection Ex as Ex.
  apply app_inj_len in Ex; [|congruence]. destruct Ex as [Ed Ex].
  apply app_inj_len in Ex; [|congruence]. destruct Ex as [Ej Ex].
  apply app_inj_len in Ex; [|congruence]. destruct Ex as [Ef Ex].
  apply app_inj_len in Ex; [|congruence]. destruct Ex as [Ea' Ex].
  apply app_inj_len in Ex; [|congruence]. destruct Ex as [Eb' Ex].
  destruct (s_bkg s) as [|b' [|? ?]] eqn:EB; cbn in LB; try lia. cbn [app] in Ex. injection Ex as <- Est.
  subst fl' ax' ay'. split; [exact EC|]. split; [exact ER|].
  split; [destruct (s_dphi s); cbn in *; [congruence|subst; cbn in *; lia]|].
  split; [destruct (s_jit s); cbn in *; [congruence|subst; cbn in *; lia]|].
  assert (CM : forall (g : R -> R) l, column (map (fun f => [g f]) l) 0 = Ok (map g l)).
  { intros g l. unfold column. induction l as [|a l IH]; [reflexivity|]. simpl in *. rewrite IH. reflexivity. }
  rewrite EF, EX, EY. change (i_trans m) with [tr]. change (i_dispx m) with [ex]. change (i_dispy m) with [ey]. cbn [map].
  split; [apply (CM (fun f => f * tr))|]. split; [apply (CM (fun f => f + ex))|]. split; [apply (CM (fun f => f + ey))|].
  split; [reflexivity|].
  destruct (sort_params_parts m x s ES) as (st & _ & _ & _ & _ & _ & St & _); [lia|].
  rewrite St, NF, LX. destruct stat as [|v stat]; cbn [length].
  - destruct (Nat.ltb_spec (11 + 3 * nSrc) (11 + 3 * nSrc + 0)); [lia|reflexivity].
  - destruct (Nat.ltb_spec (11 + 3 * nSrc) (11 + 3 * nSrc + S (length stat))); [|lia]. f_equal.
    unfold x. replace (11 + 3 * nSrc)%nat with (length ((r0 :: dphi ++ jit ++ fl ++ ax ++ ay) ++ [b])) by (cbn [length]; rewrite !app_length; cbn [length]; rewrite !app_length; lia).
    transitivity (skipn (length ((r0 :: dphi ++ jit ++ fl ++ ax ++ ay) ++ [b])) (((r0 :: dphi ++ jit ++ fl ++ ax ++ ay) ++ [b]) ++ v :: stat)); [f_equal; cbn [app]; rewrite <- !app_assoc; reflexivity|].
    rewrite skipn_app, skipn_all, Nat.sub_diag. reflexivity.
Qed.

Lemma map_repeat' {A B} (g : A -> B) x n : map g (repeat x n) = repeat (g x) n.
Proof. induction n; cbn; congruence. Qed.
(** A power-spectrum model whose output has the size of the OTF and is nonnegative. *)
Definition psd_model_ok (n : nat) (psdm : list R -> result img) : Prop :=
  forall p, exists a, psdm p = Ok a /\ rows a = n /\ cols a = n /\ nonneg a.

Lemma mono_call nL nRec nSrc spot w tr ex ey r0 dphi a0 a1 a2 fl ax ay b stat psdm f cur npix :
  (1 <= nL)%nat -> (1 <= nRec)%nat -> (nL = 1 \/ nRec = 1)%nat ->
  length dphi = 6%nat -> length fl = nSrc -> length ax = nSrc -> length ay = nSrc ->
  (0 < f_n f)%nat -> f_D f * f_samp f <> 0 -> psd_model_ok (f_n f) psdm ->
  exists s, rows s = f_n f /\ cols s = f_n f /\ sf_nonneg_on (f_n f) (px s) /\
  (do psd <- psdm (r0 :: dphi); psfao_sf0 psd (f_D f) (f_samp f)) = Ok s /\
  psfao_call1 (mono nL nRec nSrc spot w tr ex ey) psdm f cur npix (r0 :: dphi ++ [a0; a1; a2] ++ fl ++ ax ++ ay ++ b :: stat) =
   let ncpa := (match stat with [] => cur | _ => f_static f stat end) in
   (sf_3D_to_psf_3D (f_n f) (f_k f) (f_fov f) npix ncpa (f_dl f) (f_pix f) (Some (f_nf2 f, a0, a1, a2)) (repeat (px s) nSrc)
      (map (fun v => v * tr) fl) (map (fun d => d + ex) ax) (map (fun d => d + ey) ay) b, ncpa).
Proof.
  intros H1 H2 H3 Ld Lf Lx Ly Hn HD Hp.
  destruct (mono_sort nL nRec nSrc spot w tr ex ey r0 dphi [a0; a1; a2] fl ax ay b stat H1 H2 H3 Ld eq_refl Lf Lx Ly) as (s & ES & EC & ER & Ed & Ej & EF & EX & EY & EB & Est).
  destruct (Hp (r0 :: dphi)) as (psd & Ep & Rp & Cp & Np).
  destruct (psfao_sf0_val psd (f_D f) (f_samp f)) as (sf & E0 & Rs & Cs & V); try (rewrite ?Rp, ?Cp; assumption).
  assert (Esf : psfao_sf psd (f_D f) (f_samp f) nSrc (f_ani f) None = Ok (repeat sf nSrc)) by (unfold psfao_sf; rewrite E0; cbn [bind]; destruct (f_ani f) as [[? ?]|]; reflexivity).
  exists sf. rewrite Rs, Cs. split; [exact Rp|]. split; [exact Cp|]. rewrite Rp, Cp in V.
  split; [intros i j Hi Hj; rewrite (V i j Hi Hj); apply Rmult_le_pos; [apply sf_nonneg, Np|left; apply Rinv_0_lt_compat; rewrite <- Rsqr_pow2; apply Rsqr_pos_lt, HD]|].
  split; [rewrite Ep; exact E0|].
  unfold psfao_call1. rewrite ES. cbn [bind]. rewrite ER. cbn [bind]. rewrite EF, EX, EY, EB. cbn [bind pyindex]. rewrite Ed, Ep. cbn [bind].
  change (i_star (mono nL nRec nSrc spot w tr ex ey)) with nSrc. rewrite EC, Esf. cbn [bind]. rewrite Ej.
  change (jit3 (f_nf2 f) (Some [a0; a1; a2])) with (Ok (Some (f_nf2 f, a0, a1, a2))). cbn [bind].
  change (pyindex [b] 0) with (Ok b). cbn [bind]. rewrite Est. rewrite map_repeat'.
  destruct stat; reflexivity.
Qed.

(** C81: photometry. When the evaluation succeeds there is one image per source, of the
    requested size (at most the field of view), and its total is the flux asked for times the
    transmittance, plus the background on every pixel. Holds whatever the spectrum, jitter,
    static coefficients, positions and earlier evaluations. *)
Theorem C81_flux : forall nL nRec nSrc spot w tr ex ey r0 dphi a0 a1 a2 fl ax ay b stat psdm f cur cur' npix out srs,
  (1 <= nL)%nat -> (1 <= nRec)%nat -> (nL = 1 \/ nRec = 1)%nat ->
  length dphi = 6%nat -> length fl = nSrc -> length ax = nSrc -> length ay = nSrc ->
  (0 < f_n f)%nat -> f_D f * f_samp f <> 0 -> psd_model_ok (f_n f) psdm ->
  psfao_call1 (psfao_inst nL nRec nSrc spot [w] [tr] [ex] [ey]) psdm f cur npix (r0 :: dphi ++ [a0; a1; a2] ++ fl ++ ax ++ ay ++ b :: stat) = (Ok (out, srs), cur') ->
  let side := Nat.min npix (f_fov f) in
  length out = nSrc /\ length srs = nSrc /\
  forall s v, nth_error fl s = Some v -> exists p, nth_error out s = Some p /\ rows p = side /\ cols p = side /\
    img_sum p = v * tr + INR side * INR side * b.
Proof.
  intros nL nRec nSrc spot w tr ex ey r0 dphi a0 a1 a2 fl ax ay b stat psdm f cur cur' npix out srs H1 H2 H3 Ld Lf Lx Ly Hn HD Hp H side.
  destruct (mono_call nL nRec nSrc spot w tr ex ey r0 dphi a0 a1 a2 fl ax ay b stat psdm f cur npix) as (s & _ & _ & _ & _ & E); try assumption.
  unfold mono in E. rewrite E in H. cbv zeta in H. apply pair_equal_spec in H. destruct H as [H _].
  destruct (C08_flux_3D _ _ _ _ _ _ _ _ _ _ _ _ _ _ _ H) as (L1 & L2 & V). rewrite repeat_length in *. fold side in V.
  split; [exact L1|]. split; [exact L2|]. intros k v Hk.
  assert (Hlt : (k < nSrc)%nat) by (rewrite <- Lf; apply nth_error_Some; congruence).
  destruct (V k Hlt) as (p & Ep & Rp & Cp & Sp). exists p. split; [exact Ep|]. split; [exact Rp|]. split; [exact Cp|].
  rewrite Sp. f_equal. unfold per_source. destruct fl as [|x [|y l]]; cbn [map].
  - destruct k; discriminate.
  - destruct k as [|k]; [injection Hk as ->; reflexivity|destruct k; discriminate].
  - change (x * tr :: y * tr :: map (fun v0 => v0 * tr) l) with (map (fun v0 => v0 * tr) (x :: y :: l)).
    apply nth_error_nth. rewrite nth_error_map, Hk. reflexivity.
Qed.
Print Assumptions C81_flux.

(** C81: Strehl ratios between 0 and 100 when the static OTF that applies is dominated by the
    diffraction-limited one, the pixel OTF by one, and the jitter matrix is nonnegative. *)
Theorem C81_strehl : forall nL nRec nSrc spot w tr ex ey r0 dphi a0 a1 a2 fl ax ay b stat psdm f cur cur' npix out srs,
  (1 <= nL)%nat -> (1 <= nRec)%nat -> (nL = 1 \/ nRec = 1)%nat ->
  length dphi = 6%nat -> length fl = nSrc -> length ax = nSrc -> length ay = nSrc ->
  (0 < f_n f)%nat -> f_D f * f_samp f <> 0 -> psd_model_ok (f_n f) psdm ->
  rows (f_dl f) = f_n f -> cols (f_dl f) = f_n f -> sub_unit (f_n f) (f_pix f) ->
  dominated (f_n f) (match stat with [] => cur | _ => f_static f stat end) (f_dl f) ->
  0 <= f_nf2 f -> 0 <= a0 -> 0 <= a1 -> a2 * a2 <= a0 * a1 ->
  psfao_call1 (psfao_inst nL nRec nSrc spot [w] [tr] [ex] [ey]) psdm f cur npix (r0 :: dphi ++ [a0; a1; a2] ++ fl ++ ax ++ ay ++ b :: stat) = (Ok (out, srs), cur') ->
  length srs = nSrc /\ Forall (fun r => 0 <= r <= 100) srs.
Proof.
  intros nL nRec nSrc spot w tr ex ey r0 dphi a0 a1 a2 fl ax ay b stat psdm f cur cur' npix out srs H1 H2 H3 Ld Lf Lx Ly Hn HD Hp R C U Dm N A B J H.
  destruct (mono_call nL nRec nSrc spot w tr ex ey r0 dphi a0 a1 a2 fl ax ay b stat psdm f cur npix) as (s & _ & _ & Ns & _ & E); try assumption.
  unfold mono in E. rewrite E in H. cbv zeta in H. apply pair_equal_spec in H. destruct H as [H _].
  destruct (C07_strehl_range_3D _ _ _ _ _ _ _ _ _ _ _ _ _ _ _ H Hn R C Dm U) as [L V].
  - repeat split; assumption.
  - intros sf Hs. apply repeat_spec in Hs. subst sf. exact Ns.
  - rewrite repeat_length in L. split; [exact L|]. apply Forall_forall. intros r Hr. apply In_nth_error in Hr. destruct Hr as [k Hk]. apply (V k r Hk).
Qed.
Print Assumptions C81_strehl.

(** C81: in the nominal geometry (even OTF side = field of view x binning factor; the static
    and pixel OTFs do not vanish at the centre) the evaluation succeeds. *)
Theorem C81_defined : forall nL nRec nSrc spot w tr ex ey r0 dphi a0 a1 a2 fl ax ay b stat psdm f cur npix,
  (1 <= nL)%nat -> (1 <= nRec)%nat -> (nL = 1 \/ nRec = 1)%nat ->
  length dphi = 6%nat -> length fl = nSrc -> length ax = nSrc -> length ay = nSrc ->
  f_D f * f_samp f <> 0 -> psd_model_ok (f_n f) psdm ->
  f_n f = (f_fov f * f_k f)%nat -> (1 <= f_k f)%nat -> pix_ok (f_fov f) -> (f_fov f <= npix)%nat -> Nat.even (f_n f) = true ->
  (let h := (f_n f / 2)%nat in px (match stat with [] => cur | _ => f_static f stat end) h h <> 0 /\ px (f_pix f) h h <> 0) -> img_sum (f_dl f) <> 0 ->
  exists out srs cur', psfao_call1 (psfao_inst nL nRec nSrc spot [w] [tr] [ex] [ey]) psdm f cur npix (r0 :: dphi ++ [a0; a1; a2] ++ fl ++ ax ++ ay ++ b :: stat) = (Ok (out, srs), cur').
Proof.
  intros nL nRec nSrc spot w tr ex ey r0 dphi a0 a1 a2 fl ax ay b stat psdm f cur npix H1 H2 H3 Ld Lf Lx Ly HD Hp En Hk Hf Hnp Hev [Z1 Z2] Hdl.
  assert (Hn : (0 < f_n f)%nat) by (rewrite En; destruct Hf; nia).
  destruct (mono_call nL nRec nSrc spot w tr ex ey r0 dphi a0 a1 a2 fl ax ay b stat psdm f cur npix) as (s & _ & _ & _ & _ & E); try assumption.
  unfold mono in E. rewrite E. cbv zeta.
  destruct (C08_defined_3D (f_n f) (f_k f) (f_fov f) npix (match stat with [] => cur | _ => f_static f stat end) (f_dl f) (f_pix f) (Some (f_nf2 f, a0, a1, a2)) (repeat (px s) nSrc) (map (fun v => v * tr) fl) (map (fun d => d + ex) ax) (map (fun d => d + ey) ay) b) as (out & srs & EO); try assumption; try (left; rewrite map_length, repeat_length; assumption).
  exists out, srs. eexists. rewrite EO. reflexivity.
Qed.
Print Assumptions C81_defined.

(** A concrete telescope: 2-pixel OTF, all transmission one. *)
Definition ex_one : img := mkImg 2 2 (fun _ _ => 1).
Definition ex_f : fdom := mkFdom 2 1 2 8 2 0 ex_one ex_one (fun _ => ex_one) (/ 1000000) None.
Definition ex_psd : list R -> result img := fun _ => Ok (mkImg 2 2 (fun i j => if (i =? j)%nat then 3 else 0)).
Lemma ex_psd_ok : psd_model_ok 2 ex_psd.
Proof. intros p. eexists. split; [reflexivity|]. do 2 (split; [reflexivity|]). intros i j _ _. cbn [px]. destruct (i =? j)%nat; lra. Qed.
Example C81_ex : exists out srs cur', psfao_call1 (psfao_inst 1 1 2 [0; 0; 0] [/ 1000000] [1 / 2] [0] [0]) ex_psd ex_f ex_one 2
    (/ 5 :: [1; 2; 3; 4; 5; 6] ++ [1; 1; 0] ++ [10; 20] ++ [0; 1] ++ [0; 1] ++ 3 :: []) = (Ok (out, srs), cur').
Proof.
  apply C81_defined; try reflexivity; try lia; cbn [ex_f f_D f_samp f_n f_fov f_k f_pix f_dl]; try lra; try lia.
  - apply ex_psd_ok.
  - split; [lia|]. unfold ex_f. cbn. lia.
  - cbn. lra.
  - unfold img_sum, ex_one. cbn. lra.
Qed.

(** C81 refuted: with anisoplanatism, a profile of two or more layers (other than the OTF
    side) makes every evaluation fail: the profile multiplies the pixel axis. *)
Lemma two_layers_sort nL nRec nSrc spot w tr ex ey c tail s :
  (2 <= nL)%nat -> (2 <= nRec)%nat -> length c = nL -> sort_params (psfao_inst nL nRec nSrc spot [w] [tr] [ex] [ey]) (c ++ tail) = Ok s -> s_Cn2 s = Some c.
Proof.
  intros H1 H2 Lc H. unfold sort_params in H. apply bindOk in H. destruct H as ([[n c'] r] & Ea & H).
  cbv zeta in H. apply bindOk in H. destruct H as ([[[F dx] dy] bkg] & _ & H). apply Ok_inj in H. subst s. cbn [s_Cn2].
  unfold sort_atm in Ea. cbn [psfao_inst i_atm i_nL i_nRec] in Ea. destruct (Nat.ltb_spec 0 (Nat.min nL nRec)); [|lia].
  destruct (Nat.ltb_spec 1 nL), (Nat.ltb_spec 1 nRec); try lia. cbn [andb] in Ea. apply bindOk in Ea. destruct Ea as (q & _ & Ea). apply Ok_inj in Ea. injection Ea as _ <- _.
  rewrite <- Lc, firstn_app, firstn_all, Nat.sub_diag, firstn_O, app_nil_r. reflexivity.
Qed.
Theorem C81_aniso_refuted : forall nL nRec nSrc spot w tr ex ey c tail psdm f cur npix planes,
  (2 <= nL)%nat -> (2 <= nRec)%nat -> length c = nL -> f_ani f = Some (nL, planes) -> nL <> f_n f ->
  (0 < f_n f)%nat -> f_D f * f_samp f <> 0 -> psd_model_ok (f_n f) psdm ->
  exists e, fst (psfao_call1 (psfao_inst nL nRec nSrc spot [w] [tr] [ex] [ey]) psdm f cur npix (c ++ tail)) = Err e.
Proof.
  intros nL nRec nSrc spot w tr ex ey c tail psdm f cur npix planes H1 H2 Lc Ha Hne Hn HD Hp.
  destruct (psfao_call1 _ _ _ _ _ _) as [[o|e] c'] eqn:E; [exfalso|exists e; reflexivity]. unfold psfao_call1 in E.
  match type of E with context [match ?r with Ok _ => _ | Err _ => _ end] => destruct r as [[[[[[[s F] dx] dy] b] sfs] j]|e'] eqn:E' end; [|discriminate].
  apply bindOk in E'. destruct E' as (s' & Es & E'). assert (Ec := two_layers_sort _ _ _ _ _ _ _ _ _ _ _ H1 H2 Lc Es).
  apply bindOk in E'. destruct E' as (r0 & _ & E'). do 4 (let v := fresh "v" in apply bindOk in E'; destruct E' as (v & _ & E')).
  apply bindOk in E'. destruct E' as (psd & Ep & E'). apply bindOk in E'. destruct E' as (sf & Esf & E').
  destruct (Hp (r0 :: match s_dphi s' with Some l => l | None => [] end)) as (a & Ea & Ra & Ca & Na). rewrite Ep in Ea. apply Ok_inj in Ea. subst a.
  destruct (psfao_sf0_val psd (f_D f) (f_samp f)) as (s0 & E0 & R0 & _ & _); try (rewrite ?Ra, ?Ca; assumption).
  unfold psfao_sf in Esf. rewrite E0, Ec, Ha in Esf. cbn [bind] in Esf. rewrite Lc, Nat.eqb_refl, R0, Ra in Esf.
  destruct (Nat.eqb_spec nL (f_n f)); [contradiction|]. destruct (Nat.eqb_spec nL 1); [lia|]. cbn [orb negb] in Esf. discriminate.
Qed.
Print Assumptions C81_aniso_refuted.

(** C81: the wavefront errors reported (nm): defined exactly for r0 > 0 and a nonnegative
    variance; the fitting error is r0^(-5/6) times its normalisation, decreasing in r0. *)
Lemma sqrt_rpower x : 0 < x -> sqrt (Rpower x (- 5 / 3)) = Rpower x (- 5 / 6).
Proof.
  intros H. replace (- 5 / 3) with (- 5 / 6 + - 5 / 6) by lra. rewrite Rpower_plus. apply sqrt_square. left. apply exp_pos.
Qed.
Theorem C81_wfe : forall wvl var r0 nrm, 0 <= wvl -> 0 <= var -> 0 < r0 -> 0 <= nrm ->
  psfao_wfe wvl var r0 nrm = Ok (sqrt var * (wvl * 10 ^ 9 / 2 / PI), Rpower r0 (- 5 / 6) * nrm * (wvl * 10 ^ 9 / 2 / PI)) /\
  (forall r0', r0 <= r0' -> Rpower r0' (- 5 / 6) * nrm * (wvl * 10 ^ 9 / 2 / PI) <= Rpower r0 (- 5 / 6) * nrm * (wvl * 10 ^ 9 / 2 / PI)) /\
  (forall a b, psfao_wfe wvl var r0 nrm = Ok (a, b) -> 0 <= a /\ 0 <= b).
Proof.
  intros wvl var r0 nrm Hw Hv Hr Hn.
  assert (C0 : 0 <= wvl * 10 ^ 9 / 2 / PI) by (assert (P := PI_RGT_0); apply Rmult_le_pos; [assert (0 < 10 ^ 9) by (apply pow_lt; lra); nra|left; apply Rinv_0_lt_compat, P]).
  assert (E : psfao_wfe wvl var r0 nrm = Ok (sqrt var * (wvl * 10 ^ 9 / 2 / PI), Rpower r0 (- 5 / 6) * nrm * (wvl * 10 ^ 9 / 2 / PI))).
  { unfold psfao_wfe, M_Model2.rsqrt. destruct (Rlt_dec var 0); [lra|]. cbn [bind]. unfold rpow. destruct (Rlt_dec r0 0); [lra|]. destruct (Req_EM_T r0 0); [lra|]. cbn [bind].
    destruct (Rlt_dec (Rpower r0 (- 5 / 3)) 0) as [N|_]; [exfalso; assert (P := exp_pos (- 5 / 3 * ln r0)); unfold Rpower in N; lra|]. cbn [bind]. rewrite sqrt_rpower by exact Hr. reflexivity. }
  split; [exact E|]. split.
  - intros r0' H. apply Rmult_le_compat_r; [exact C0|]. apply Rmult_le_compat_r; [exact Hn|].
    replace (- 5 / 6) with (- (5 / 6)) by lra. rewrite !Rpower_Ropp. apply Rinv_le_contravar; [apply exp_pos|]. apply Rle_Rpower_l; lra.
  - intros a b H. rewrite E in H. apply Ok_inj in H. injection H as <- <-. split.
    + apply Rmult_le_pos; [apply sqrt_pos|exact C0].
    + apply Rmult_le_pos; [|exact C0]. apply Rmult_le_pos; [left; apply exp_pos|exact Hn].
Qed.
Print Assumptions C81_wfe.
