(** C142: in the composed computation the residual phase does not depend on how the images are formed. *)
From Coq Require Import Reals List Arith ZArith Lia Lra Bool FunctionalExtensionality.
From Verif Require Import Base_Py Base_Sum M_Image M_Source M_Fourier M_Atmo M_Sensor M_Tools M_Psf M_Freq M_Model M_Model2 M_Call M_Driver M_Chain L_Sensor L_Model3 L_Freq L_Psf L_Psf2 L_Psf3 L_Tools2 P_Source P_Call P_Chain P_Chain2 P_Blur P_Blur2.
Import ListNotations.
Open Scope R_scope.

(** The same system with another image formation: spotFWHM, transmittance and dispersion of the camera. *)
Definition with_camera (sp tr dx dy : list R) (x : scao) : scao :=
  mkScao (x_ao x) (x_D x) (x_zenith x) (x_extraNm x) (x_src x) (x_pitch x) (x_circle x) (x_loop x) (x_modul x) (x_bin x)
    (x_nPix x) (x_ps x) (x_nBin x) (x_bw x) sp tr dx dy.
Definition with_pixel (b : bool) (op : options) : options := mkOptions (op_MV op) (op_expand op) b.

(** C142: two runs of the same system which differ only by the jitter, transmittance and dispersion of the camera, by the telescope's
    transfer functions and by the pixel transfer function have the same wavelengths, grids, AO system, spectra and structure functions. *)
Theorem C142_residual_phase : forall w op b b' tp tp' x sp tr dx dy r r',
  chain w (with_pixel b op) tp x = Ok r -> chain w (with_pixel b' op) tp' (with_camera sp tr dx dy x) = Ok r' ->
  r_wvl r = r_wvl r' /\ r_n r = r_n r' /\ r_res r = r_res r' /\ r_ao r = r_ao r' /\ r_psd r = r_psd r' /\ r_sf r = r_sf r'.
Proof.
  intros w op b b' tp tp' x sp tr dx dy r r' H H'.
  destruct (chain_inv _ _ _ _ _ H) as (fd & kcMax & res & dr & y & p & cf & st & Q0 & Q1 & Q2 & Q3 & Q4 & Q5 & Q6 & Q7 & Q8 & Q9 & Q10 & Q11 & Q12).
  destruct (chain_inv _ _ _ _ _ H') as (fd' & kcMax' & res' & dr' & y' & p' & cf' & st' & P0 & P1 & P2 & P3 & P4 & P5 & P6 & P7 & P8 & P9 & P10 & P11 & P12).
  clear H H' Q9 P9. cbn [with_camera with_pixel op_MV op_expand x_src x_nBin x_bw x_ps x_D x_nPix x_pitch x_ao] in *.
  rewrite Q0 in P0. apply Ok_inj in P0. subst fd'. rewrite Q1 in P1. apply Ok_inj in P1. subst kcMax'. rewrite Q2 in P2. apply Ok_inj in P2. subst res'.
  assert (En : r_n r' = r_n r) by congruence. assert (Er : r_res r' = r_res r) by congruence. assert (Ew : r_wvl r = r_wvl r') by congruence. rewrite En, Er in *.
  rewrite Q3 in P3. apply Ok_inj in P3. injection P3 as EA ED. subst dr'. rewrite <- EA in *.
  change (fsys_of w (with_camera sp tr dx dy x)) with (fsys_of w x) in *. rewrite Q4 in P4. apply Ok_inj in P4. subst y'.
  change (parts_of (with_camera sp tr dx dy x)) with (parts_of x) in *. rewrite Q5 in P5. apply Ok_inj in P5. subst p'.
  change (cfg_of (with_camera sp tr dx dy x)) with (cfg_of x) in *. rewrite Q6 in P6. apply Ok_inj in P6. subst cf'.
  rewrite Q7 in P7. apply Ok_inj in P7. rewrite <- P7 in *. rewrite Q8 in P8. apply Ok_inj in P8.
  repeat split; try reflexivity; assumption.
Qed.
Print Assumptions C142_residual_phase.

(** C142: the transfer function of the pixel never raises a Strehl ratio. *)
Theorem C142_pixel_strehl : forall w op tp x r r', 0 < img_sum (tp_dl tp) ->
  chain w (with_pixel false op) tp x = Ok r -> chain w (with_pixel true op) tp x = Ok r' ->
  forall j s imgs imgs' srs srs' v v', nth_error (r_psf r) j = Some (imgs, srs) -> nth_error (r_psf r') j = Some (imgs', srs') ->
  (s < so_nSrc (x_src x))%nat -> nth_error srs s = Some v -> nth_error srs' s = Some v' -> v' <= v.
Proof.
  intros w op tp x r r' Hd H H' j s imgs imgs' srs srs' v v' O1 O2 Hs V1 V2.
  assert (X : with_camera (x_spot x) (x_trans x) (x_dispx x) (x_dispy x) x = x) by (destruct x; reflexivity).
  destruct (C142_residual_phase w op false true tp tp x (x_spot x) (x_trans x) (x_dispx x) (x_dispy x) r r' H) as (Ew & En & _ & _ & Ep & Es); [rewrite X; exact H'|].
  destruct (chain_inv _ _ _ _ _ H) as (fd & kcMax & res & dr & y & p & cf & st & Q0 & _ & _ & _ & _ & _ & _ & Q7 & Q8 & Q9 & _).
  destruct (chain_inv _ _ _ _ _ H') as (fd' & kcMax' & res' & dr' & y' & p' & cf' & st' & P0 & _ & _ & _ & _ & _ & _ & _ & _ & P9 & _).
  cbn [with_pixel op_expand op_pixel] in *. rewrite Q0 in P0. apply Ok_inj in P0. subst fd'. rewrite <- Ew, <- En, <- Es in P9.
  destruct (mapMt_inv _ _ _ Q8) as [M1 _]. destruct (src_map_inv _ _ _ Q7) as [M3 _].
  destruct (C104_pixel_strehl _ _ _ _ _ _ _ _ Q9 P9 Hd) as [_ G]. apply (G j s imgs imgs' srs srs' v v' O1 O2); [|exact V1|exact V2].
  cbn [fm_sfs]. rewrite map_length, M1, M3. exact Hs.
Qed.
Print Assumptions C142_pixel_strehl.

(** ** The pixel as a part of the instrument *)
(** Multiplication of an image of side n by the transfer function of the pixel: product of sinc along the two axes. *)
Definition pixel_img (n : nat) (m : img) : img := mkImg (rows m) (cols m) (fun i j => px m i j * (sinc (Uax n i) * sinc (Uax n j))).
(** The telescope whose static transfer functions are those of the telescope and of the pixel together (the diffraction-limited reference
    of the Strehl ratios is kept). *)
Definition pixel_optics (n : nat) (tp : optics) : optics := mkOptics (fun j st => pixel_img n (tp_static tp j st)) (pixel_img n (tp_stored tp)) (tp_dl tp).
Definition pixelled (n : nat) (c : chan) : chan := mkChan (c_wvl c) (c_k c) (pixel_img n (c_otf c)) (c_nf2 c).

Lemma pixel_4D n kRef fov npix nyq chans dl jit sfs x :
  sf_3D_to_psf_4D n kRef fov npix nyq chans dl (pixel_otf n true) jit sfs x = sf_3D_to_psf_4D n kRef fov npix nyq (map (pixelled n) chans) dl (pixel_otf n false) jit sfs x.
Proof.
  unfold sf_3D_to_psf_4D. rewrite map_length, map_map. change (map (fun c => c_nf2 (pixelled n c)) chans) with (map c_nf2 chans). rewrite indexed_map, mapM_map'.
  match goal with |- bind (M_Psf.mapM ?f ?l) _ = bind (M_Psf.mapM ?g ?l) _ => rewrite (mapM_ext' f g l) end; [reflexivity|].
  intros [j c] _. cbn [fst snd]. unfold channel4. cbn [pixelled c_wvl c_k c_nf2].
  match goal with |- bind ?a _ = bind ?a _ => destruct a as [K|]; cbn [bind]; [|reflexivity] end. cbv zeta.
  match goal with |- bind (M_Psf.mapM ?f ?l) _ = bind (M_Psf.mapM ?g ?l) _ => rewrite (mapM_ext' f g l) end; [reflexivity|].
  intros q _. match goal with |- bind ?a _ = bind ?a _ => destruct a as [ph|]; cbn [bind]; [|reflexivity] end.
  f_equal. unfold otf_product. f_equal. apply functional_extensionality. intros a. apply functional_extensionality. intros b. cbn [pixelled c_otf pixel_img pixel_otf px]. f_equal. f_equal. ring.
Qed.
Lemma pixel_psf f f' n stored : fm_n f = n -> fm_base f' = fm_base f -> fm_inst f' = fm_inst f -> fm_n f' = fm_n f -> fm_kRef f' = fm_kRef f -> fm_fov f' = fm_fov f -> fm_nyq f' = fm_nyq f ->
  fm_dl f' = fm_dl f -> fm_sfs f' = fm_sfs f -> (forall j st, fm_static f' j st = pixel_img n (fm_static f j st)) ->
  exists st', point_spread_function f' false (pixel_img n stored) [] None = match point_spread_function f true stored [] None with Ok q => Ok (fst q, st') | Err e => Err e end.
Proof.
  intros <- EB EI En Ek Ef Eq Ed Es ES. unfold point_spread_function. rewrite EI. destruct (sort_params (fm_inst f) []) as [so|er]; cbn [bind]; [|exists stored; reflexivity].
  exists (stored_after f' (pixel_img (fm_n f) stored) (s_stat so)). rewrite En, Ek, Ef, Eq, Ed, Es. destruct (fm_kRef f =? 0)%nat; [reflexivity|]. destruct (jitter_of (s_jit so)) as [jit|]; cbn [bind]; [|reflexivity]. cbv zeta.
  rewrite pixel_4D. assert (EC : chans_of f' (pixel_img (fm_n f) stored) (s_stat so) = map (pixelled (fm_n f)) (chans_of f stored (s_stat so))).
  { unfold chans_of, refresh. rewrite EB, map_map. apply map_ext. intros [j [[w k] nf]]. cbn [snd fst]. unfold pixelled. cbn [c_wvl c_k c_otf c_nf2]. rewrite ES. destruct (_ || _)%bool; reflexivity. }
  rewrite EC. destruct (sf_3D_to_psf_4D _ _ _ _ _ _ _ _ _ _ _); reflexivity.
Qed.

Lemma pixel_equal w op tp x fd : make_fdomain (so_wvl (x_src x)) (x_nBin x) (x_bw x) false (op_expand op) (x_ps x) (x_D x) (x_nPix x) = Ok fd ->
  chain w (with_pixel true op) tp x = chain w (with_pixel false op) (pixel_optics (Z.to_nat (fd_nOtf fd)) tp) x.
Proof.
  intros Efd. unfold chain. cbn [with_pixel op_MV op_expand op_pixel].
  destruct (create_wavelength_vector (so_wvl (x_src x)) (x_nBin x) (x_bw x)) as [wv|]; cbn [bind]; [|reflexivity]. rewrite Efd. cbn [bind]. cbv zeta.
  destruct (rlist_max (cutoffs None (x_pitch x))) as [kc|]; cbn [bind]; [|reflexivity]. destruct (resAO _ _) as [res|]; cbn [bind]; [|reflexivity].
  destruct (initComputations _ _ _) as [[ao' [dr|]]|]; cbn [bind snd fst]; [|reflexivity|reflexivity].
  destruct (fsys_of w x _ _ _ _ _) as [y|]; cbn [bind]; [|reflexivity].
  destruct (parts_of x _ _ _ _ _) as [p|]; cbn [bind]; [|reflexivity].
  destruct (cfg_of x _ _ _) as [c|]; cbn [bind]; [|reflexivity].
  destruct (src_map _ _) as [psd|]; cbn [bind]; [|reflexivity]. destruct (M_Tools.mapM _ _) as [sf|]; cbn [bind]; [|reflexivity].
  set (n := Z.to_nat (fd_nOtf fd)). cbn [pixel_optics tp_static tp_stored tp_dl].
  match goal with |- bind (point_spread_function ?f true ?s _ _) _ = bind (point_spread_function ?g _ _ _ _) _ => destruct (pixel_psf f g n s) as (st' & E); try reflexivity; rewrite E end. clear E.
  destruct (point_spread_function _ _ _ _ _) as [[o st]|]; reflexivity.
Qed.

(** C142: a run with the pixel transfer function gives exactly what the run without it gives on the telescope whose static transfer
    functions include the one of the pixel. *)
Theorem C142_pixel : forall w op tp x r, chain w (with_pixel true op) tp x = Ok r <-> chain w (with_pixel false op) (pixel_optics (r_n r) tp) x = Ok r.
Proof.
  intros w op tp x r. split; intros H; destruct (chain_inv _ _ _ _ _ H) as (fd & _ & _ & _ & _ & _ & _ & _ & Efd & _ & _ & _ & _ & _ & _ & _ & _ & _ & _ & En & _); cbn [with_pixel op_expand] in Efd.
  - rewrite En, <- (pixel_equal w op tp x fd Efd). exact H.
  - rewrite (pixel_equal w op tp x fd Efd), <- En. exact H.
Qed.
Print Assumptions C142_pixel.

(** The hypotheses of C142 hold for the system of C138_nonvacuous, with and without the pixel, and for the same system with a spot. *)
Example C142_nonvacuous : 0 < img_sum (tp_dl ex_tp) /\ with_pixel false (mkOptions 0 false false) = mkOptions 0 false false /\
  (exists r, chain ex_world (with_pixel false (mkOptions 0 false false)) ex_tp ex_x = Ok r) /\
  exists r, chain ex_world (with_pixel true (mkOptions 0 false false)) ex_tp ex_x = Ok r.
Proof.
  destruct C138_nonvacuous as (PH & SM & CO & OO & r0 & H & W & _).
  assert (PS : 0 < img_sum (tp_dl ex_tp)). { unfold ex_tp. cbn [tp_dl]. unfold img_sum. cbn [rows cols px]. rewrite (rsum_ext 32 _ (fun _ => INR 32)) by (intros i _; rewrite rsum_const; ring). rewrite rsum_const. apply Rmult_lt_0_compat; apply lt_0_INR; lia. }
  split; [exact PS|]. split; [reflexivity|]. split; [exists r0; exact H|].
  assert (OO' : optics_ok (pixel_optics 32 ex_tp) 32).
  { assert (DO : forall m, (forall i j, px m i j = 1) -> dominated 32 (pixel_img 32 m) (mkImg 32 32 (fun _ _ => 1))).
    { intros m Hm i j Hi Hj. unfold pixel_img. cbn [px]. rewrite Hm, Rmult_1_l. exact (pixel_sub 32 true i j Hi Hj). }
    split; [reflexivity|]. split; [reflexivity|]. split; [|intros q o]; apply DO; reflexivity. }
  destruct (C138_defined ex_world 0 false (pixel_optics 32 ex_tp) ex_x ex_lam (1 / 2) PH SM CO) as (r & E & Ew & En & _); rewrite ?ex_over in *; cbn [ex_x x_nPix] in *; try reflexivity; try exact OO'.
  - cbn [pixel_optics tp_stored pixel_img px ex_tp]. change (Z.to_nat (32 * 1) / 2)%nat with 16%nat.
    assert (U : Uax 32 16 = 0) by (unfold Uax; cbn; lra). rewrite U. unfold sinc. destruct (Req_EM_T 0 0); lra.
  - cbn [pixel_optics tp_dl]. lra.
  - exists r. apply C142_pixel. rewrite En. exact E.
Qed.
