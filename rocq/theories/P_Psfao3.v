(** C83: the psfao21 model with several wavelengths. *)
From Coq Require Import Reals List Arith ZArith Lia Lra Psatz.
From Coq Require Import ZifyBool ZifyNat.
From Verif Require Import Base_Py Base_Sum Base_DFT M_Image S_Image L_Image L_Image2 M_Fourier S_Fourier L_Fourier L_Fourier2 L_Fourier3 M_Psf M_Float L_Float L_Psf L_Psf2 L_Psf3 L_Psf4 P_Psf M_Bounds M_Atmo M_Model2 M_Tools S_Tools L_Tools L_Tools2 L_Fit M_Psf M_Psfao L_Psfao P_Psfao M_Tools.
From Coquelicot Require Import Complex.
Import ListNotations.
Open Scope R_scope.

Lemma init_last wvl : (2 <= length wvl)%nat -> exists w, init_src_wvl wvl = [w] /\ nth_error wvl (length wvl - 1) = Some w.
Proof.
  intros H. unfold init_src_wvl. destruct (Nat.ltb_spec 1 (length wvl)); [|lia].
  destruct (exists_last (l := wvl)) as (l & w & E); [intros ->; cbn in H; lia|]. exists w. rewrite E at 1. rewrite fold_left_app. cbn [fold_left]. split; [reflexivity|].
  rewrite E, app_length. cbn [length]. replace (length l + 1 - 1)%nat with (length l) by lia. rewrite nth_error_app2 by lia. rewrite Nat.sub_diag. reflexivity.
Qed.
Lemma concat_inj {A} k (a b : list (list A)) : length a = length b -> Forall (fun r => length r = k) a -> Forall (fun r => length r = k) b -> concat a = concat b -> a = b.
Proof.
  revert b. induction a as [|x a IH]; intros [|y b] L Ha Hb E; cbn in *; try lia; [reflexivity|].
  inversion Ha as [|? ? H1 H2]; subst. inversion Hb as [|? ? H3 H4]; subst. apply app_inj_len in E; [|congruence]. destruct E as [ -> E]. f_equal. apply IH; try assumption. lia.
Qed.
Lemma concat_len {A} k (a : list (list A)) : Forall (fun r => length r = k) a -> length (concat a) = (length a * k)%nat.
Proof. induction 1; cbn; [reflexivity|]. rewrite app_length. lia. Qed.

(** The matrix of a quantity per source and wavelength. *)
Definition per_src_wvl (nSrc nwvl : nat) (F : list (list R)) : Prop := length F = nSrc /\ Forall (fun r => length r = nwvl) F.

Lemma multi_sort nL nRec nSrc spot wvl trans dx dy r0 dphi jit F X Y b rest :
  (1 <= nL)%nat -> (1 <= nRec)%nat -> (nL = 1 \/ nRec = 1)%nat -> (2 <= length wvl)%nat ->
  length dphi = 6%nat -> length jit = 3%nat ->
  per_src_wvl nSrc (length wvl) F -> per_src_wvl nSrc (length wvl) X -> per_src_wvl nSrc (length wvl) Y ->
  exists s, sort_params (psfao_inst nL nRec nSrc spot wvl trans dx dy) (r0 :: dphi ++ jit ++ concat F ++ concat X ++ concat Y ++ b :: rest) = Ok s /\
    s_Cn2 s = None /\ s_r0 s = Some r0 /\ s_dphi s = Some dphi /\ s_jit s = Some jit /\
    s_F s = F /\ s_dx s = X /\ s_dy s = Y /\ s_bkg s = [b] /\ s_stat s = (match rest with [] => None | _ => Some rest end).
Proof.
  intros H1 H2 H3 Hw Ld Lj [LF WF] [LX WX] [LY WY]. set (m := psfao_inst nL nRec nSrc spot wvl trans dx dy). set (x := r0 :: _).
  assert (CF := concat_len _ _ WF). assert (CX := concat_len _ _ WX). assert (CY := concat_len _ _ WY). rewrite LF in CF. rewrite LX in CX. rewrite LY in CY.
  set (K := (nSrc * length wvl)%nat) in *.
  assert (EM : (0 <? i_atm m)%nat = true) by (unfold m; cbn [psfao_inst i_atm]; lia).
  assert (EL : ((1 <? i_nL m) && (1 <? i_nRec m))%nat%bool = false) by (unfold m; cbn [psfao_inst i_nL i_nRec]; lia).
  assert (LE : length x = (11 + 3 * K + length rest)%nat) by (unfold x; cbn [length]; rewrite !app_length; cbn [length]; lia).
  assert (NT : n_tt m = 10%nat) by (unfold n_tt, n_dphi, n_atm; rewrite EM, EL; reflexivity).
  assert (FR : i_frame m = 1%nat) by (unfold m; cbn [psfao_inst i_frame]; destruct (init_last wvl Hw) as (w & -> & _); reflexivity).
  assert (NF : n_full m = (11 + 3 * K)%nat) by (unfold n_full; rewrite NT, FR; unfold m; cbn [psfao_inst i_star i_wvl]; fold K; lia).
  assert (EA : sort_atm m x = Ok (1%nat, None, Some r0)) by (unfold sort_atm; rewrite EM, EL; reflexivity).
  assert (ES : exists s, sort_params m x = Ok s).
  { unfold sort_params. rewrite EA. cbn [bind]. unfold sort_stellar. change (i_jit m) with true. change (i_dphi m) with 6%nat. rewrite FR. change (i_wvl m) with (length wvl). change (i_star m) with nSrc. fold K. cbv iota zeta.
    destruct (Nat.ltb_spec (1 + 6 + 3) (length x)); [|lia]. destruct (Nat.eqb_spec (length wvl) 1); [lia|].
    rewrite !seg_seg by lia.
    destruct (reshape_ok nSrc (length wvl) (seg x (1 + 6 + 3 + 0) (1 + 6 + 3 + K))) as (? & -> & _); [rewrite seg_length by lia; fold K; lia|].
    destruct (reshape_ok nSrc (length wvl) (seg x (1 + 6 + 3 + K) (1 + 6 + 3 + 2 * K))) as (? & -> & _); [rewrite seg_length by lia; fold K; lia|].
    destruct (reshape_ok nSrc (length wvl) (seg x (1 + 6 + 3 + 2 * K) (1 + 6 + 3 + 3 * K))) as (? & -> & _); [rewrite seg_length by lia; fold K; lia|].
    cbn [bind]. eexists; reflexivity. }
  destruct ES as (s & ES). exists s. split; [exact ES|].
  assert (EC : s_Cn2 s = None /\ s_r0 s = Some r0).
  { unfold sort_params in ES. rewrite EA in ES. cbn [bind] in ES. apply bindOk in ES. destruct ES as ([[[F' X'] Y'] B'] & _ & ES). apply Ok_inj in ES. subst s. split; reflexivity. }
  destruct EC as [EC ER].
  destruct (sort_full_multi m x s ES) as (Ex & (L1 & L2 & L3) & WA & LB & LD & LJ & _); [change (length wvl <> 1%nat); lia|lia|lia|].
  rewrite EC, ER in Ex. rewrite FR in LB. change (length (opt_list (s_dphi s)) = 6%nat) in LD. change (length (opt_list (s_jit s)) = 3%nat) in LJ.
  change (i_star m) with nSrc in L1, L2, L3. change (i_wvl m) with (length wvl) in WA.
  apply Forall_app in WA. destruct WA as [WF' WA]. apply Forall_app in WA. destruct WA as [WX' WY'].
  unfold x, atm_head in Ex. cbn [app] in Ex. injection Ex as Ex.
  apply app_inj_len in Ex; [|congruence]. destruct Ex as [Ed Ex].
  apply app_inj_len in Ex; [|congruence]. destruct Ex as [Ej Ex].
  apply app_inj_len in Ex; [|rewrite CF, (concat_len _ _ WF'), L1; reflexivity]. destruct Ex as [Ef Ex].
  apply app_inj_len in Ex; [|rewrite CX, (concat_len _ _ WX'), L2; reflexivity]. destruct Ex as [Ea' Ex].
  apply app_inj_len in Ex; [|rewrite CY, (concat_len _ _ WY'), L3; reflexivity]. destruct Ex as [Eb' Ex].
  destruct (s_bkg s) as [|b' [|? ?]] eqn:EB; cbn in LB; try lia. cbn [app] in Ex. injection Ex as <- Est.
  split; [exact EC|]. split; [exact ER|].
  split; [destruct (s_dphi s); cbn in *; [congruence|subst; cbn in *; lia]|].
  split; [destruct (s_jit s); cbn in *; [congruence|subst; cbn in *; lia]|].
  split; [symmetry; apply (concat_inj (length wvl)); congruence|].
  split; [symmetry; apply (concat_inj (length wvl)); congruence|].
  split; [symmetry; apply (concat_inj (length wvl)); congruence|].
  split; [reflexivity|].
  destruct (sort_params_parts m x s ES) as (st & _ & _ & _ & _ & _ & St & _); [lia|].
  rewrite St in Est |- *. rewrite NF, LE in *. destruct rest as [|v rest]; cbn [length] in *.
  - destruct (Nat.ltb_spec (11 + 3 * K) (11 + 3 * K + 0)); [lia|reflexivity].
  - destruct (Nat.ltb_spec (11 + 3 * K) (11 + 3 * K + S (length rest))); [|lia]. cbn [opt_list] in Est. rewrite Est. reflexivity.
Qed.

(** C83: after the construction on several wavelengths the source list holds the last
    wavelength only. *)
Theorem C83_source_wavelength : forall wvl, (2 <= length wvl)%nat ->
  exists w, init_src_wvl wvl = [w] /\ nth_error wvl (length wvl - 1) = Some w.
Proof. exact init_last. Qed.
Print Assumptions C83_source_wavelength.

(** C83 refuted: a parameter vector laid out like the bounds of the model (one background
    per wavelength, no static mode) is not read back: only the first background is used, and
    the others are taken for static aberration coefficients. *)
Theorem C83_backgrounds_refuted : forall nL nRec nSrc spot wvl trans dx dy npix wmax r0 dphi jit F X Y bkg,
  (1 <= nL)%nat -> (1 <= nRec)%nat -> (nL = 1 \/ nRec = 1)%nat -> (2 <= length wvl)%nat ->
  length dphi = 6%nat -> length jit = 3%nat -> length bkg = length wvl ->
  per_src_wvl nSrc (length wvl) F -> per_src_wvl nSrc (length wvl) X -> per_src_wvl nSrc (length wvl) Y ->
  let x := r0 :: dphi ++ jit ++ concat F ++ concat X ++ concat Y ++ bkg in
  length x = length (fst (psfao_bounds nL nRec nSrc (length wvl) npix wmax 0)) /\
  exists s b rest, sort_params (psfao_inst nL nRec nSrc spot wvl trans dx dy) x = Ok s /\ bkg = b :: rest /\
    s_bkg s = [b] /\ s_stat s = Some rest /\ length rest = (length wvl - 1)%nat.
Proof.
  intros nL nRec nSrc spot wvl trans dx dy npix wmax r0 dphi jit F X Y bkg H1 H2 H3 Hw Ld Lj Lb HF HX HY x. split.
  - destruct HF as [LF WF], HX as [LX WX], HY as [LY WY]. unfold x, psfao_bounds. cbn [fst length]. rewrite !app_length, (concat_len _ _ WF), (concat_len _ _ WX), (concat_len _ _ WY), !repeat_length, LF, LX, LY. cbn [length]. nia.
  - destruct bkg as [|b [|b' rest]]; cbn in Lb; try lia. unfold x.
    destruct (multi_sort nL nRec nSrc spot wvl trans dx dy r0 dphi jit F X Y b (b' :: rest)) as (s & E & _ & _ & _ & _ & _ & _ & _ & EB & ES); try assumption.
    exists s, b, (b' :: rest). repeat split; try assumption. cbn [length]. lia.
Qed.
Print Assumptions C83_backgrounds_refuted.

(** C83: with a single background at the end the vector is read back; every channel gives one
    image per source, whose total is the flux of that source at that wavelength (the
    transmittance is not applied) plus the background on each pixel. *)
Theorem C83_flux : forall nL nRec nSrc spot wvl trans dx dy r0 dphi a0 a1 a2 F X Y b chans npix outs,
  (1 <= nL)%nat -> (1 <= nRec)%nat -> (nL = 1 \/ nRec = 1)%nat -> (2 <= length wvl)%nat -> length chans = length wvl ->
  length dphi = 6%nat ->
  per_src_wvl nSrc (length wvl) F -> per_src_wvl nSrc (length wvl) X -> per_src_wvl nSrc (length wvl) Y ->
  (forall psdm f cur, In (psdm, f, cur) chans -> (0 < f_n f)%nat /\ f_D f * f_samp f <> 0 /\ psd_model_ok (f_n f) psdm) ->
  psfao_call_multi (psfao_inst nL nRec nSrc spot wvl trans dx dy) chans npix (r0 :: dphi ++ [a0; a1; a2] ++ concat F ++ concat X ++ concat Y ++ [b]) = Ok outs ->
  length outs = length wvl /\
  forall k psdm f cur, nth_error chans k = Some (psdm, f, cur) -> exists out srs, nth_error outs k = Some (out, srs) /\ length out = nSrc /\ length srs = nSrc /\
    forall s row v, nth_error F s = Some row -> nth_error row k = Some v -> exists p, nth_error out s = Some p /\
      let side := Nat.min npix (f_fov f) in rows p = side /\ cols p = side /\ img_sum p = v + INR side * INR side * b.
Proof.
  intros nL nRec nSrc spot wvl trans dx dy r0 dphi a0 a1 a2 F X Y b chans npix outs H1 H2 H3 Hw Lc Ld HF HX HY Hch H.
  unfold psfao_call_multi in H.
  destruct (multi_sort nL nRec nSrc spot wvl trans dx dy r0 dphi [a0; a1; a2] F X Y b []) as (s & E & EC & ER & Edp & EJ & EF & EX & EY & EB & ES); try assumption; [reflexivity|].
  rewrite E in H. cbn [bind] in H. rewrite ER in H. cbn [bind] in H. apply bindOk in H. destruct H as (w0 & _ & H).
  assert (L := mapM_length _ _ _ H). rewrite combine_length, seq_length, Nat.min_id in L. split; [congruence|].
  intros k psdm f cur Hk.
  assert (Hk' : nth_error (combine (seq 0 (length chans)) chans) k = Some (k, (psdm, f, cur))).
  { apply nth_error_combine; [|exact Hk]. assert ((k < length chans)%nat) by (apply nth_error_Some; congruence). rewrite (nth_error_nth' _ 0%nat) by (rewrite seq_length; lia). f_equal. apply seq_nth. lia. }
  destruct (mapM_nth _ _ _ k H _ Hk') as ([out srs] & Ho & Hc). exists out, srs. split; [exact Ho|]. cbn [fst snd] in Hc.
  destruct (Hch psdm f cur) as (Hn & HD & Hp); [apply nth_error_In in Hk; exact Hk|].
  unfold psfao_chan in Hc. rewrite Edp, EC, EJ, EF, EX, EY, EB, ES in Hc.
  apply bindOk in Hc. destruct Hc as (psd & Ep & Hc). apply bindOk in Hc. destruct Hc as (sfs & Esf & Hc).
  assert (Lsf : length sfs = nSrc).
  { unfold psfao_sf in Esf. apply bindOk in Esf. destruct Esf as (s0 & _ & Esf). destruct (f_ani f) as [[? ?]|]; apply Ok_inj in Esf; subst sfs; apply repeat_length. }
  apply bindOk in Hc. destruct Hc as (q & _ & Hc). apply bindOk in Hc. destruct Hc as (Fc & EFc & Hc). apply bindOk in Hc. destruct Hc as (xc & _ & Hc). apply bindOk in Hc. destruct Hc as (yc & _ & Hc).
  apply bindOk in Hc. destruct Hc as (jt & _ & Hc). cbv zeta in Hc. apply bindOk in Hc. destruct Hc as ([o sr] & Eo & Hc). cbn [fst snd] in Hc. cbn [add_bkg bind] in Hc. apply Ok_inj in Hc. injection Hc as <- <-.
  destruct (C08_flux_3D _ _ _ _ _ _ _ _ _ _ _ _ _ _ _ Eo) as (L1 & L2 & V). rewrite map_length, Lsf in L1, L2, V. rewrite ?map_length.
  split; [exact L1|]. split; [exact L2|]. intros t row v Ht Hv.
  assert (Htl : (t < nSrc)%nat) by (destruct HF as [<- _]; apply nth_error_Some; congruence).
  destruct (V t Htl) as (p & Ept & Rp & Cp & Sp). exists (img_map (fun u => u + b) p). rewrite nth_error_map, Ept. split; [reflexivity|]. cbv zeta. cbn [img_map rows cols]. split; [exact Rp|]. split; [exact Cp|].
  assert (EV : per_source Fc t = v).
  { assert (LFc := mapM_length _ _ _ EFc). destruct (mapM_nth _ _ _ t EFc _ Ht) as (v' & Hv' & E'). rewrite Hv in E'. apply Ok_inj in E'. subst v'.
    unfold per_source. destruct Fc as [|u [|u' Fc]].
    - destruct t; discriminate.
    - destruct t as [|t]; [injection Hv' as ->; reflexivity|destruct t; discriminate].
    - apply nth_error_nth. exact Hv'. }
  rewrite EV in Sp. transitivity (img_sum p + INR (rows p) * INR (cols p) * b).
  - unfold img_sum, img_map. cbn [rows cols px].
    rewrite (rsum_ext _ _ (fun i => rsum (cols p) (fun j => px p i j) + INR (cols p) * b)) by (intros i _; rewrite rsum_plus, rsum_const; reflexivity).
    rewrite rsum_plus, rsum_const. ring.
  - rewrite Sp, Rp, Cp. ring.
Qed.
Print Assumptions C83_flux.

(** C83 refuted: the default vector (spectrum and jitter only). The default background has
    one value per wavelength and is added along the source axis: a single source comes back
    as nwvl identical planes per channel; several sources (not nwvl of them) are refused. *)
Definition default_vector (r0 : R) (dphi jit : list R) : list R := r0 :: dphi ++ jit.
Lemma multi_default nL nRec nSrc spot wvl trans dx dy r0 dphi jit :
  (1 <= nL)%nat -> (1 <= nRec)%nat -> (nL = 1 \/ nRec = 1)%nat -> length dphi = 6%nat -> length jit = 3%nat ->
  length trans = length wvl -> length dx = length wvl -> length dy = length wvl ->
  exists s, sort_params (psfao_inst nL nRec nSrc spot wvl trans dx dy) (default_vector r0 dphi jit) = Ok s /\ s_r0 s = Some r0 /\ s_bkg s = repeat 0 (length wvl).
Proof.
  intros H1 H2 H3 Ld Lj Lt Lx Ly. set (m := psfao_inst _ _ _ _ _ _ _ _).
  assert (EM : (0 <? i_atm m)%nat = true) by (unfold m; cbn [psfao_inst i_atm]; lia).
  assert (EL : ((1 <? i_nL m) && (1 <? i_nRec m))%nat%bool = false) by (unfold m; cbn [psfao_inst i_nL i_nRec]; lia).
  assert (NT : n_tt m = 10%nat) by (unfold n_tt, n_dphi, n_atm; rewrite EM, EL; reflexivity).
  assert (EA : sort_atm m (default_vector r0 dphi jit) = Ok (1%nat, None, Some r0)) by (unfold sort_atm; rewrite EM, EL; reflexivity).
  destruct (sort_defaults m _ _ _ _ EA) as (s & E & _ & _ & _ & EB & _); try assumption.
  - unfold default_vector. cbn [length]. rewrite app_length, Ld, Lj, NT. lia.
  - exists s. split; [exact E|]. split; [|exact EB].
    unfold sort_params in E. rewrite EA in E. cbn [bind] in E. apply bindOk in E. destruct E as ([[[F' X'] Y'] B'] & _ & E). apply Ok_inj in E. subst s. reflexivity.
Qed.
Lemma chan_inv psdm f cur npix nSrc w0 k s r0 o : psfao_chan psdm f cur npix nSrc w0 k s r0 = Ok o -> s_Cn2 s = None \/ f_ani f = None ->
  exists imgs, length imgs = nSrc /\ add_bkg imgs (s_bkg s) = Ok (fst o).
Proof.
  intros Hc Ha. unfold psfao_chan in Hc. apply bindOk in Hc. destruct Hc as (psd & Ep & Hc). apply bindOk in Hc. destruct Hc as (sfs & Esf & Hc).
  assert (Lsf : length sfs = nSrc).
  { unfold psfao_sf in Esf. apply bindOk in Esf. destruct Esf as (s0 & _ & Esf). destruct Ha as [Ha|Ha]; rewrite Ha in Esf; [destruct (f_ani f) as [[? ?]|]|]; apply Ok_inj in Esf; subst sfs; apply repeat_length. }
  apply bindOk in Hc. destruct Hc as (q & _ & Hc). apply bindOk in Hc. destruct Hc as (Fc & EFc & Hc). apply bindOk in Hc. destruct Hc as (xc & _ & Hc). apply bindOk in Hc. destruct Hc as (yc & _ & Hc).
  apply bindOk in Hc. destruct Hc as (jt & _ & Hc). cbv zeta in Hc. apply bindOk in Hc. destruct Hc as ([im sr] & Eo & Hc). cbn [fst snd] in Hc. apply bindOk in Hc. destruct Hc as (im' & Eb & Hc). apply Ok_inj in Hc. subst o.
  destruct (C08_flux_3D _ _ _ _ _ _ _ _ _ _ _ _ _ _ _ Eo) as (L1 & _ & _). rewrite map_length, Lsf in L1. exists im. split; [exact L1|exact Eb].
Qed.
Theorem C83_default_single_refuted : forall nL nRec spot wvl trans dx dy r0 dphi jit chans npix outs,
  (1 <= nL)%nat -> (1 <= nRec)%nat -> (nL = 1 \/ nRec = 1)%nat -> (2 <= length wvl)%nat -> length chans = length wvl ->
  length dphi = 6%nat -> length jit = 3%nat -> length trans = length wvl -> length dx = length wvl -> length dy = length wvl ->
  (forall psdm f cur, In (psdm, f, cur) chans -> f_ani f = None) ->
  psfao_call_multi (psfao_inst nL nRec 1 spot wvl trans dx dy) chans npix (default_vector r0 dphi jit) = Ok outs ->
  forall o, In o outs -> length (fst o) = length wvl /\ exists p, fst o = repeat p (length wvl).
Proof.
  intros nL nRec spot wvl trans dx dy r0 dphi jit chans npix outs H1 H2 H3 Hw Lc Ld Lj Lt Lx Ly Han H o Ho.
  destruct (multi_default nL nRec 1 spot wvl trans dx dy r0 dphi jit) as (s & E & ER & EB); try assumption.
  unfold psfao_call_multi in H. rewrite E in H. cbn [bind] in H. rewrite ER in H. cbn [bind] in H. apply bindOk in H. destruct H as (w0 & _ & H).
  apply In_nth_error in Ho. destruct Ho as [k Ho].
  assert (L := mapM_length _ _ _ H). rewrite combine_length, seq_length, Nat.min_id in L.
  assert (Hkl : (k < length chans)%nat) by (rewrite <- L; apply nth_error_Some; congruence).
  destruct (nth_error chans k) as [[[psdm f] cur]|] eqn:Hk; [|apply nth_error_None in Hk; lia].
  assert (Hk' : nth_error (combine (seq 0 (length chans)) chans) k = Some (k, (psdm, f, cur))).
  { apply nth_error_combine; [|exact Hk]. rewrite (nth_error_nth' _ 0%nat) by (rewrite seq_length; lia). f_equal. apply seq_nth. lia. }
  destruct (mapM_nth _ _ _ k H _ Hk') as (o' & Ho' & Hc). rewrite Ho in Ho'. injection Ho' as <-. cbn [fst snd] in Hc.
  destruct (chan_inv _ _ _ _ _ _ _ _ _ _ Hc) as (imgs & Li & Ea); [right; apply (Han psdm f cur); apply nth_error_In in Hk; exact Hk|].
  change (i_star _) with 1%nat in Li. destruct imgs as [|im [|? ?]]; cbn in Li; try lia. rewrite EB in Ea.
  destruct (length wvl) as [|[|n]] eqn:EW; try lia. cbn [repeat] in Ea. unfold add_bkg in Ea. cbn [length] in Ea. change (S (S (length (repeat 0 n))) =? 1)%nat with false in Ea. cbv iota in Ea.
  change (0 :: 0 :: repeat 0 n) with (repeat 0 (S (S n))) in Ea. rewrite map_repeat' in Ea. apply Ok_inj in Ea. rewrite <- Ea. rewrite repeat_length. split; [reflexivity|]. eexists; reflexivity.
Qed.
Print Assumptions C83_default_single_refuted.
Theorem C83_default_several_refuted : forall nL nRec nSrc spot wvl trans dx dy r0 dphi jit chans npix,
  (1 <= nL)%nat -> (1 <= nRec)%nat -> (nL = 1 \/ nRec = 1)%nat -> (2 <= length wvl)%nat -> length chans = length wvl -> (2 <= nSrc)%nat -> nSrc <> length wvl ->
  length dphi = 6%nat -> length jit = 3%nat -> length trans = length wvl -> length dx = length wvl -> length dy = length wvl ->
  (forall psdm f cur, In (psdm, f, cur) chans -> f_ani f = None) ->
  exists e, psfao_call_multi (psfao_inst nL nRec nSrc spot wvl trans dx dy) chans npix (default_vector r0 dphi jit) = Err e.
Proof.
  intros nL nRec nSrc spot wvl trans dx dy r0 dphi jit chans npix H1 H2 H3 Hw Lc Hs Hne Ld Lj Lt Lx Ly Han.
  destruct (psfao_call_multi _ _ _ _) as [outs|e] eqn:H; [|eexists; reflexivity]. exfalso.
  destruct (multi_default nL nRec nSrc spot wvl trans dx dy r0 dphi jit) as (s & E & ER & EB); try assumption.
  unfold psfao_call_multi in H. rewrite E in H. cbn [bind] in H. rewrite ER in H. cbn [bind] in H. apply bindOk in H. destruct H as (w0 & _ & H).
  destruct chans as [|[[psdm f] cur] chans]; [cbn in Lc; lia|].
  assert (Hk' : nth_error (combine (seq 0 (length ((psdm, f, cur) :: chans))) ((psdm, f, cur) :: chans)) 0 = Some (0%nat, (psdm, f, cur))) by reflexivity.
  destruct (mapM_nth _ _ _ 0%nat H _ Hk') as (o' & Ho' & Hc). cbn [fst snd] in Hc.
  destruct (chan_inv _ _ _ _ _ _ _ _ _ _ Hc) as (imgs & Li & Ea); [right; apply (Han psdm f cur); left; reflexivity|].
  change (i_star _) with nSrc in Li. rewrite EB in Ea. unfold add_bkg in Ea.
  destruct (length wvl) as [|[|n]] eqn:EW; try lia. cbn [repeat] in Ea. destruct (Nat.eqb_spec (length (0 :: 0 :: repeat 0 n)) (length imgs)) as [Q|Q]; [cbn [length] in Q; rewrite repeat_length in Q; lia|].
  destruct imgs as [|i1 [|i2 imgs]]; cbn in Li; try lia. discriminate.
Qed.
Print Assumptions C83_default_several_refuted.

(** C83: in the nominal geometry of every channel the evaluation with one background
    succeeds (so the theorems above are about real outcomes). *)
Lemma column_ok n k (F : list (list R)) : Forall (fun r => length r = n) F -> (k < n)%nat -> exists c, column F k = Ok c /\ length c = length F.
Proof.
  intros H Hk. unfold column. induction H as [|r F Hr _ IH]; [exists []; split; reflexivity|].
  destruct IH as (c & E & L). destruct (nth_error r k) as [v|] eqn:Ev; [|apply nth_error_None in Ev; lia].
  exists (v :: c). cbn [M_Psf.mapM]. rewrite Ev. cbn [bind]. rewrite E. cbn [bind length]. split; [reflexivity|lia].
Qed.
Definition nominal (npix : nat) (f : fdom) (cur : img) : Prop :=
  f_n f = (f_fov f * f_k f)%nat /\ (1 <= f_k f)%nat /\ pix_ok (f_fov f) /\ (f_fov f <= npix)%nat /\ Nat.even (f_n f) = true /\
  px cur (f_n f / 2)%nat (f_n f / 2)%nat <> 0 /\ px (f_pix f) (f_n f / 2)%nat (f_n f / 2)%nat <> 0 /\ img_sum (f_dl f) <> 0 /\ f_D f * f_samp f <> 0 /\ f_wvl f <> 0.
Theorem C83_defined : forall nL nRec nSrc spot wvl trans dx dy r0 dphi a0 a1 a2 F X Y b chans npix,
  (1 <= nL)%nat -> (1 <= nRec)%nat -> (nL = 1 \/ nRec = 1)%nat -> (2 <= length wvl)%nat -> length chans = length wvl ->
  length dphi = 6%nat ->
  per_src_wvl nSrc (length wvl) F -> per_src_wvl nSrc (length wvl) X -> per_src_wvl nSrc (length wvl) Y ->
  (forall psdm f cur, In (psdm, f, cur) chans -> nominal npix f cur /\ psd_model_ok (f_n f) psdm) ->
  exists outs, psfao_call_multi (psfao_inst nL nRec nSrc spot wvl trans dx dy) chans npix (r0 :: dphi ++ [a0; a1; a2] ++ concat F ++ concat X ++ concat Y ++ [b]) = Ok outs.
Proof.
  intros nL nRec nSrc spot wvl trans dx dy r0 dphi a0 a1 a2 F X Y b chans npix H1 H2 H3 Hw Lc Ld HF HX HY Hch.
  unfold psfao_call_multi.
  destruct (multi_sort nL nRec nSrc spot wvl trans dx dy r0 dphi [a0; a1; a2] F X Y b []) as (s & E & EC & ER & Edp & EJ & EF & EX & EY & EB & ES); try assumption; [reflexivity|].
  rewrite E. cbn [bind]. rewrite ER. cbn [bind].
  assert (W : exists w0, (match chans with c :: _ => Ok (f_wvl (snd (fst c))) | [] => Err IndexError end) = Ok w0) by (destruct chans; [cbn in Lc; lia|eexists; reflexivity]).
  destruct W as (w0 & ->). cbn [bind].
  assert (T : forall l, (forall kc, In kc l -> (fst kc < length wvl)%nat /\ In (snd kc) chans) ->
     exists outs, M_Psf.mapM (fun kc => psfao_chan (fst (fst (snd kc))) (snd (fst (snd kc))) (snd (snd kc)) npix (i_star (psfao_inst nL nRec nSrc spot wvl trans dx dy)) w0 (fst kc) s r0) l = Ok outs).
  { induction l as [|[k [[psdm f] cur]] l IH]; intros Hl; [exists []; reflexivity|]. destruct IH as (outs & Eo); [intros kc Hk; apply Hl; right; exact Hk|].
    destruct (Hl (k, (psdm, f, cur))) as [Hk Hin]; [left; reflexivity|]. cbn [fst snd] in Hk, Hin.
    destruct (Hch _ _ _ Hin) as [(N1 & N2 & N3 & N4 & N5 & N6 & N7 & N8 & N9 & N10) Hp].
    assert (Hn : (0 < f_n f)%nat) by (rewrite N1; destruct N3; nia).
    assert (EE : exists o, psfao_chan psdm f cur npix nSrc w0 k s r0 = Ok o).
    { unfold psfao_chan. rewrite Edp, EC, EJ, EF, EX, EY, EB, ES. destruct (Hp (r0 :: dphi)) as (psd & Ep & Rp & Cp & Np). rewrite Ep. cbn [bind].
      destruct (psfao_sf0_val psd (f_D f) (f_samp f)) as (s0 & E0 & _); try (rewrite ?Rp, ?Cp; assumption).
      assert (Esf : psfao_sf psd (f_D f) (f_samp f) nSrc (f_ani f) None = Ok (repeat s0 nSrc)) by (unfold psfao_sf; rewrite E0; cbn [bind]; destruct (f_ani f) as [[? ?]|]; reflexivity).
      rewrite Esf. cbn [bind]. unfold rdiv. destruct (Req_EM_T (f_wvl f) 0); [contradiction|]. cbn [bind].
      destruct HF as [LF WF], HX as [LX WX], HY as [LY WY].
      destruct (column_ok _ k _ WF Hk) as (Fc & EFc & LFc). destruct (column_ok _ k _ WX Hk) as (Xc & EXc & LXc). destruct (column_ok _ k _ WY Hk) as (Yc & EYc & LYc).
      rewrite EFc, EXc, EYc. cbn [bind]. change (jit3 (f_nf2 f) (Some [a0; a1; a2])) with (Ok (Some (f_nf2 f, a0, a1, a2))). cbn [bind].
      destruct (C08_defined_3D (f_n f) (f_k f) (f_fov f) npix cur (f_dl f) (f_pix f) (Some (f_nf2 f, a0, a1, a2)) (map (fun im i j => px im i j * (w0 / f_wvl f) ^ 2) (repeat s0 nSrc)) Fc Xc Yc 0) as (out & srs & EO); try assumption; try (left; rewrite map_length, repeat_length; congruence).
      rewrite EO. cbn [bind add_bkg]. eexists; reflexivity. }
    destruct EE as (o & EE). exists (o :: outs). cbn [M_Psf.mapM fst snd]. change (i_star (psfao_inst nL nRec nSrc spot wvl trans dx dy)) with nSrc in *. rewrite EE. cbn [bind]. rewrite Eo. reflexivity. }
  apply T. intros [k c] Hin. cbn [fst snd]. split; [|apply in_combine_r in Hin; exact Hin]. apply in_combine_l in Hin. apply in_seq in Hin. lia.
Qed.
Print Assumptions C83_defined.
Example C83_ex : exists outs, psfao_call_multi (psfao_inst 1 1 1 [0; 0; 0] [/ 1000000; 2 / 1000000] [1; 1] [0; 0] [0; 0]) [(ex_psd, ex_f, ex_one); (ex_psd, ex_f, ex_one)] 2
   (/ 5 :: [1; 2; 3; 4; 5; 6] ++ [0; 0; 0] ++ concat [[1; 2]] ++ concat [[0; 0]] ++ concat [[0; 0]] ++ [7]) = Ok outs.
Proof.
  apply C83_defined; try reflexivity; try (cbn; lia); try (split; [reflexivity|repeat constructor]).
  intros psdm f cur H. assert (Q : (psdm, f, cur) = (ex_psd, ex_f, ex_one)) by (destruct H as [H|[H|[]]]; symmetry; exact H). injection Q as -> -> ->.
  split; [|apply ex_psd_ok]. unfold nominal, ex_f. cbn [f_n f_k f_fov f_pix f_dl f_D f_samp f_wvl].
  repeat split; try reflexivity; try lia; try (unfold img_sum, ex_one; cbn; lra); try (cbn; lia).
Qed.
