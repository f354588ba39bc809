(** C81, C83 (continued): positions of the sources and wavelength scaling. *)
From Coq Require Import Reals List Arith ZArith Lia Lra Psatz.
From Coq Require Import ZifyBool ZifyNat.
From Verif Require Import Base_Py Base_Sum Base_DFT M_Image S_Image L_Image L_Image2 M_Fourier S_Fourier L_Fourier L_Fourier2 L_Fourier3 M_Psf M_Float L_Float L_Psf L_Psf2 L_Psf3 L_Psf4 P_Psf M_Bounds M_Atmo M_Model2 M_Tools S_Tools L_Tools L_Tools2 L_Fit M_Psf M_Psfao L_Psfao P_Psfao P_Psfao3 M_Tools.
From Coquelicot Require Import Complex.
Import ListNotations.
Open Scope R_scope.

Lemma bcast_zero n : bcast (repeat 0 n) n = bcast [0] n.
Proof.
  unfold bcast. rewrite repeat_length, Nat.eqb_refl. cbn [length]. destruct (Nat.eqb_spec 1 n) as [<-|N]; reflexivity.
Qed.
Lemma any_zero n : any_nonzero (repeat 0 n) = false.
Proof. unfold any_nonzero. induction n; [reflexivity|]. cbn [repeat existsb]. rewrite IHn. destruct (Req_EM_T 0 0); [reflexivity|lra]. Qed.
Lemma sf3_zero n kRef fov npix ncpa dl pix jit sfs F bkg :
  sf_3D_to_psf_3D n kRef fov npix ncpa dl pix jit sfs F (repeat 0 (length sfs)) (repeat 0 (length sfs)) bkg = sf_3D_to_psf_3D n kRef fov npix ncpa dl pix jit sfs F [0] [0] bkg.
Proof.
  unfold sf_3D_to_psf_3D. rewrite bcast_zero, any_zero. replace (any_nonzero [0]) with false; [reflexivity|].
  unfold any_nonzero. cbn [existsb]. destruct (Req_EM_T 0 0); [reflexivity|lra].
Qed.
Lemma map_add0 l : map (fun d => d + 0) l = l.
Proof. induction l; cbn; [reflexivity|]. rewrite IHl. f_equal. lra. Qed.

(** C81: in the nominal geometry, with no dispersion, a source at the integer position
    (zx, zy) gives the image of the source at (0, 0) moved cyclically by zx rows and zy
    columns, whatever the other parameters. *)
Theorem C81_position : forall nL nRec nSrc spot w tr r0 dphi a0 a1 a2 fl zx zy b stat psdm f cur npix out srs c out' srs' c',
  (1 <= nL)%nat -> (1 <= nRec)%nat -> (nL = 1 \/ nRec = 1)%nat ->
  length dphi = 6%nat -> length fl = nSrc -> length zx = nSrc -> length zy = nSrc ->
  f_D f * f_samp f <> 0 -> psd_model_ok (f_n f) psdm ->
  f_n f = (f_fov f * f_k f)%nat -> (1 <= f_k f)%nat -> pix_ok (f_fov f) -> (f_fov f <= npix)%nat -> Nat.even (f_n f) = true ->
  let m := psfao_inst nL nRec nSrc spot [w] [tr] [0] [0] in
  psfao_call1 m psdm f cur npix (r0 :: dphi ++ [a0; a1; a2] ++ fl ++ repeat 0 nSrc ++ repeat 0 nSrc ++ b :: stat) = (Ok (out, srs), c) ->
  psfao_call1 m psdm f cur npix (r0 :: dphi ++ [a0; a1; a2] ++ fl ++ map IZR zx ++ map IZR zy ++ b :: stat) = (Ok (out', srs'), c') ->
  forall s dx dy, nth_error zx s = Some dx -> nth_error zy s = Some dy -> exists p p', nth_error out s = Some p /\ nth_error out' s = Some p' /\
    forall u v, (u < f_fov f)%nat -> (v < f_fov f)%nat -> px p' (cyc (f_fov f) u dx) (cyc (f_fov f) v dy) = px p u v.
Proof.
  intros nL nRec nSrc spot w tr r0 dphi a0 a1 a2 fl zx zy b stat psdm f cur npix out srs c out' srs' c' H1 H2 H3 Ld Lf Lx Ly HD Hp En Hk Hf Hnp Hev m E1 E2 s dx dy Hx Hy.
  assert (Hn : (0 < f_n f)%nat) by (rewrite En; destruct Hf; nia).
  destruct (mono_call nL nRec nSrc spot w tr 0 0 r0 dphi a0 a1 a2 fl (repeat 0 nSrc) (repeat 0 nSrc) b stat psdm f cur npix) as (s1 & _ & _ & _ & Es1 & C1); try assumption; try apply repeat_length.
  destruct (mono_call nL nRec nSrc spot w tr 0 0 r0 dphi a0 a1 a2 fl (map IZR zx) (map IZR zy) b stat psdm f cur npix) as (s2 & _ & _ & _ & Es2 & C2); try assumption; try (rewrite map_length; assumption).
  rewrite Es1 in Es2. apply Ok_inj in Es2. subst s2. unfold mono in C1, C2. fold m in C1, C2. rewrite E1 in C1. rewrite E2 in C2. cbv zeta in C1, C2.
  apply pair_equal_spec in C1. destruct C1 as [C1 _]. apply pair_equal_spec in C2. destruct C2 as [C2 _]. rewrite (map_add0 (repeat 0 nSrc)) in C1. rewrite (map_add0 (map IZR zx)), (map_add0 (map IZR zy)) in C2.
  assert (LS : length (repeat (px s1) nSrc) = nSrc) by apply repeat_length.
  pose proof (sf3_zero (f_n f) (f_k f) (f_fov f) npix (match stat with [] => cur | _ :: _ => f_static f stat end) (f_dl f) (f_pix f) (Some (f_nf2 f, a0, a1, a2)) (repeat (px s1) nSrc) (map (fun v => v * tr) fl) b) as SZ.
  rewrite LS in SZ. rewrite SZ in C1. symmetry in C1, C2. clear SZ.
  assert (Hs : (s < nSrc)%nat) by (rewrite <- Lx; apply nth_error_Some; congruence).
  destruct (C42_shift_3D _ _ _ _ _ _ _ _ _ _ _ _ _ _ _ _ _ En Hk Hf Hnp Hev C1 C2 s) as (p & p' & Ep & Ep' & V); [rewrite LS; exact Hs|].
  exists p, p'. split; [exact Ep|]. split; [exact Ep'|].
  assert (Z : forall l (d : Z), nth_error l s = Some d -> length l = nSrc -> zper l s = d).
  { intros l d Hd Ll. unfold zper. destruct l as [|z [|z' l]].
    - destruct s; discriminate.
    - destruct s as [|s]; [injection Hd as ->; reflexivity|destruct s; discriminate].
    - apply nth_error_nth. exact Hd. }
  rewrite (Z zx dx Hx Lx), (Z zy dy Hy Ly) in V. exact V.
Qed.
Print Assumptions C81_position.

(** C83: channel k is the one-wavelength PSF of the structure function of its own spectrum
    times (lambda_0 / lambda_k)^2, with the fluxes and positions of column k. *)
Theorem C83_channel : forall nL nRec nSrc spot wvl trans dx dy r0 dphi a0 a1 a2 F X Y b chans npix outs,
  (1 <= nL)%nat -> (1 <= nRec)%nat -> (nL = 1 \/ nRec = 1)%nat -> (2 <= length wvl)%nat -> length chans = length wvl ->
  length dphi = 6%nat ->
  per_src_wvl nSrc (length wvl) F -> per_src_wvl nSrc (length wvl) X -> per_src_wvl nSrc (length wvl) Y ->
  (forall psdm f cur, In (psdm, f, cur) chans -> (0 < f_n f)%nat /\ f_D f * f_samp f <> 0 /\ psd_model_ok (f_n f) psdm) ->
  psfao_call_multi (psfao_inst nL nRec nSrc spot wvl trans dx dy) chans npix (r0 :: dphi ++ [a0; a1; a2] ++ concat F ++ concat X ++ concat Y ++ [b]) = Ok outs ->
  forall psdm0 f0 cur0 k psdm f cur, nth_error chans 0 = Some (psdm0, f0, cur0) -> nth_error chans k = Some (psdm, f, cur) ->
  exists psd o srs,
    psdm (r0 :: dphi) = Ok psd /\
    sf_3D_to_psf_3D (f_n f) (f_k f) (f_fov f) npix cur (f_dl f) (f_pix f) (Some (f_nf2 f, a0, a1, a2))
      (repeat (fun i j => (match psfao_sf0 psd (f_D f) (f_samp f) with Ok s => px s i j | Err _ => 0 end) * (f_wvl f0 / f_wvl f) ^ 2) nSrc)
      (map (fun r => nth k r 0) F) (map (fun r => nth k r 0) X) (map (fun r => nth k r 0) Y) 0 = Ok (o, srs) /\
    nth_error outs k = Some (map (img_map (fun v => v + b)) o, srs).
Proof.
  intros nL nRec nSrc spot wvl trans dx dy r0 dphi a0 a1 a2 F X Y b chans npix outs H1 H2 H3 Hw Lc Ld HF HX HY Hch H psdm0 f0 cur0 k psdm f cur Hk0 Hk.
  unfold psfao_call_multi in H.
  destruct (multi_sort nL nRec nSrc spot wvl trans dx dy r0 dphi [a0; a1; a2] F X Y b []) as (s & E & EC & ER & Edp & EJ & EF & EX & EY & EB & ES); try assumption; [reflexivity|].
  rewrite E in H. cbn [bind] in H. rewrite ER in H. cbn [bind] in H.
  assert (W0 : (match chans with c :: _ => Ok (f_wvl (snd (fst c))) | [] => Err IndexError end) = Ok (f_wvl f0)) by (destruct chans; [discriminate|]; cbn in Hk0; injection Hk0 as ->; reflexivity).
  rewrite W0 in H. cbn [bind] in H.
  assert (Hk' : nth_error (combine (seq 0 (length chans)) chans) k = Some (k, (psdm, f, cur))).
  { apply nth_error_combine; [|exact Hk]. assert ((k < length chans)%nat) by (apply nth_error_Some; congruence). rewrite (nth_error_nth' _ 0%nat) by (rewrite seq_length; lia). f_equal. apply seq_nth. lia. }
  destruct (mapM_nth _ _ _ k H _ Hk') as ([out srs] & Ho & Hc). cbn [fst snd] in Hc.
  destruct (Hch psdm f cur) as (Hn & HD & Hp); [apply nth_error_In in Hk; exact Hk|].
  unfold psfao_chan in Hc. rewrite Edp, EC, EJ, EF, EX, EY, EB, ES in Hc.
  apply bindOk in Hc. destruct Hc as (psd & Ep & Hc). apply bindOk in Hc. destruct Hc as (sfs & Esf & Hc).
  unfold psfao_sf in Esf. apply bindOk in Esf. destruct Esf as (s0 & Es0 & Esf).
  assert (sfs = repeat s0 nSrc) as -> by (destruct (f_ani f) as [[? ?]|]; apply Ok_inj in Esf; symmetry; exact Esf).
  apply bindOk in Hc. destruct Hc as (q & Eq & Hc). unfold rdiv in Eq. destruct (Req_EM_T (f_wvl f) 0); [discriminate|]. apply Ok_inj in Eq. subst q.
  apply bindOk in Hc. destruct Hc as (Fc & EFc & Hc). apply bindOk in Hc. destruct Hc as (xc & Exc & Hc). apply bindOk in Hc. destruct Hc as (yc & Eyc & Hc).
  apply bindOk in Hc. destruct Hc as (jt & Ej & Hc). cbv zeta in Hc. change (jit3 (f_nf2 f) (Some [a0; a1; a2])) with (Ok (Some (f_nf2 f, a0, a1, a2))) in Ej. apply Ok_inj in Ej. subst jt.
  apply bindOk in Hc. destruct Hc as ([o sr] & Eo & Hc). cbn [fst snd] in Hc. cbn [add_bkg bind] in Hc. apply Ok_inj in Hc. injection Hc as <- <-.
  assert (COL : forall (A : list (list R)) c, column A k = Ok c -> c = map (fun r => nth k r 0) A).
  { unfold column. induction A as [|r A IH]; intros c Hc; [apply Ok_inj in Hc; subst c; reflexivity|].
    cbn [M_Psf.mapM] in Hc. apply bindOk in Hc. destruct Hc as (v & Ev & Hc). apply bindOk in Hc. destruct Hc as (c' & Ec & Hc). apply Ok_inj in Hc. subst c. cbn [map]. rewrite <- (IH c' Ec).
    destruct (nth_error r k) as [v'|] eqn:Er; [|discriminate]. apply Ok_inj in Ev. subst v'. f_equal. symmetry. apply nth_error_nth. exact Er. }
  rewrite (COL _ _ EFc), (COL _ _ Exc), (COL _ _ Eyc) in Eo. rewrite map_repeat' in Eo.
  exists psd, o, sr. split; [exact Ep|]. rewrite Es0. split; [exact Eo|exact Ho].
Qed.
Print Assumptions C83_channel.
