(** Existence of the 4-D result in the nominal geometry. *)
From Coq Require Import Reals List Arith ZArith Lia Lra.
From Verif Require Import Base_Py Base_Sum Base_DFT M_Image S_Image L_Image L_Image2 M_Fourier S_Fourier L_Fourier L_Fourier2 L_Fourier3 L_Fourier4 M_Float L_Float M_Psf L_Psf L_Psf2 L_Psf3.
From Coquelicot Require Import Complex.
Import ListNotations.
Open Scope R_scope.

(** an ns x nW array *)
Definition mat_shape (m : list (list R)) (ns nW : nat) : Prop :=
  length m = ns /\ forall r, In r m -> length r = nW.

Lemma mat_get m ns nW s j : mat_shape m ns nW -> (s < ns)%nat -> (j < nW)%nat ->
  exists r v, nth_error m s = Some r /\ nth_error r j = Some v.
Proof.
  intros [L H] Hs Hj. destruct (nth_error m s) as [r|] eqn:E; [|apply nth_error_None in E; lia].
  assert (Lr := H r (nth_error_In _ _ E)). destruct (nth_error r j) as [v|] eqn:E'; [|apply nth_error_None in E'; lia]. eauto.
Qed.
Lemma column_ok m ns nW j : mat_shape m ns nW -> (j < nW)%nat -> exists c, column m j = Ok c /\ length c = ns.
Proof.
  intros [L H] Hj. unfold column.
  destruct (mapM_ok (fun row : list R => match nth_error row j with Some v => Ok v | None => Err IndexError end) m) as (c & Ec).
  { intros r Hr. destruct (nth_error r j) eqn:E; [eauto|]. apply nth_error_None in E. rewrite (H r Hr) in E. lia. }
  exists c. split; [exact Ec|]. rewrite (mapM_length _ _ _ Ec). exact L.
Qed.
Lemma bcast_ok l m : length l = m \/ length l = 1%nat -> exists r, bcast l m = Ok r.
Proof.
  intros H. unfold bcast. destruct (Nat.eqb_spec (length l) m); [eauto|].
  destruct H as [H|H]; [contradiction|]. destruct l as [|x [|y l]]; try discriminate. eauto.
Qed.

Lemma psf4D_defined n kRef k fov npix nyq chans dl pix jit sfs y :
  n = (fov * k)%nat -> (1 <= k)%nat -> pix_ok fov -> npix = fov -> Nat.even n = true ->
  (2 <= length chans)%nat ->
  (forall c, In c chans -> c_k c = k /\ px (c_otf c) (n / 2)%nat (n / 2)%nat <> 0) ->
  px pix (n / 2)%nat (n / 2)%nat <> 0 -> img_sum dl <> 0 ->
  match jit with None => True | Some v => jitter4_active v = true end ->
  mat_shape (x_F y) (length sfs) (length chans) -> mat_shape (x_dx y) (length sfs) (length chans) ->
  mat_shape (x_dy y) (length sfs) (length chans) ->
  (length (x_bkg y) = length chans \/ length (x_bkg y) = 1%nat) ->
  exists out, sf_3D_to_psf_4D n kRef fov npix nyq chans dl pix jit sfs (Some y) = Ok out.
Proof.
  intros Hn Hk Hf Hnp He HW Hch Hp Hd Hjit HF Hx Hy Hb.
  assert (Hn0 : (0 < n)%nat) by (destruct Hf; nia).
  unfold sf_3D_to_psf_4D. cbv zeta.
  match goal with |- context [mapM ?f (indexed 0 chans)] => set (g := f) end.
  assert (G : forall j c, nth_error chans j = Some c -> exists r, g (j, c) = Ok r).
  { intros j c Hc. unfold g. cbn [fst snd]. unfold channel4. cbv zeta.
    assert (Hj : (j < length chans)%nat) by (apply nth_error_Some; congruence).
    destruct (Hch c (nth_error_In _ _ Hc)) as [Ek Ec].
    match goal with |- context [bind ?r _] => assert (EK : exists K, r = Ok K /\ K (n / 2)%nat (n / 2)%nat = 1) end.
    { destruct jit as [[[a b] d]|].
      - rewrite Hjit. destruct (nyq && (1 <? length chans)%nat)%bool; eexists; (split; [reflexivity|]); unfold jitter4; apply jitter_centre; assumption.
      - eexists; split; reflexivity. }
    destruct EK as (K & EK & K1). rewrite EK. cbn [bind].
    match goal with |- context [mapM ?f (combine (seq 0 (length sfs)) sfs)] => set (f1 := f) end.
    assert (F1 : forall s sf, (s < length sfs)%nat -> exists o, f1 (s, sf) = Ok o /\ crows o = n /\ ccols o = n /\
        fst (cpx o (n / 2)%nat (n / 2)%nat) <> 0).
    { intros s sf Hs. unfold f1. cbn [fst snd].
      match goal with |- context [bind ?r _] => assert (EP : exists ph, r = Ok ph /\ ph (n / 2)%nat (n / 2)%nat = RtoC 1) end.
      { destruct (mat_any (x_dx y) || mat_any (x_dy y))%bool; [|eexists; split; reflexivity].
        unfold shifts4. destruct (Nat.ltb_spec 1 (length chans)); [|lia].
        destruct (mat_get _ _ _ s j Hx Hs Hj) as (r1 & v1 & E1 & E2). rewrite E1.
        destruct (mat_get _ _ _ s j Hy Hs Hj) as (r2 & v2 & E3 & E4). rewrite E3, E2, E4. cbn [bind fst snd].
        eexists; split; [reflexivity|]. apply phasor_centre; assumption. }
      destruct EP as (ph & EP & P1). rewrite EP. cbn [bind].
      eexists; split; [reflexivity|]. split; [reflexivity|]. split; [reflexivity|].
      unfold otf_product; cbn [cpx]. rewrite K1, P1. cbn. rewrite Rmult_1_r, Rmult_0_r, Rmult_1_r, Rminus_0_r.
      apply Rmult_integral_contrapositive. split; [apply Rgt_not_eq, exp_pos|].
      apply Rmult_integral_contrapositive. split; assumption. }
    assert (SEQ : forall q, In q (combine (seq 0 (length sfs)) sfs) -> (fst q < length sfs)%nat).
    { intros [s sf] Hq. apply in_combine_l in Hq. apply in_seq in Hq. cbn. lia. }
    destruct (mapM_ok f1 (combine (seq 0 (length sfs)) sfs)) as (otfs & Eo).
    { intros [s sf] Hq. destruct (F1 s sf (SEQ _ Hq)) as (o & Ho & _). eauto. }
    rewrite Eo. cbn [bind].
    assert (Lo := mapM_length _ _ _ Eo). rewrite combine_length, seq_length, Nat.min_id in Lo.
    assert (OO : forall o, In o otfs -> exists p, psf_plane o (c_k c) fov npix = Ok p /\ rows p = fov /\ cols p = fov /\ img_sum p <> 0).
    { intros o Ho. apply In_nth_error in Ho. destruct Ho as (s & Ho).
      assert (Hs : (s < length sfs)%nat) by (rewrite <- Lo; apply nth_error_Some; congruence).
      destruct (nth_error sfs s) as [sf|] eqn:Es; [|apply nth_error_None in Es; lia].
      assert (Nq : nth_error (combine (seq 0 (length sfs)) sfs) s = Some (s, sf)).
      { apply nth_error_combine; [|exact Es].
        rewrite (nth_error_nth' _ 0%nat) by (rewrite seq_length; exact Hs). rewrite seq_nth by exact Hs. reflexivity. }
      destruct (mapM_nth _ _ _ s Eo _ Nq) as (o' & Ho' & Ff). rewrite Ho in Ho'. injection Ho' as <-.
      destruct (F1 s sf Hs) as (o' & Ho' & Ro & Co & Nz). rewrite Ho' in Ff. apply Ok_inj in Ff. subst o'.
      rewrite Ek. assert (Hnp' : (fov <= npix)%nat) by lia.
      destruct (psf_plane_val o k fov npix Hk Hf Hnp') as (p & Ep & Rp & Cp & _ & Sp); [congruence|congruence|].
      exists p. split; [exact Ep|]. split; [exact Rp|]. split; [exact Cp|]. rewrite Sp, raw_psf_sum_even; rewrite ?Ro, ?Co; assumption. }
    destruct (mapM_ok (fun o => psf_plane o (c_k c) fov npix) otfs) as (psfs & Ep).
    { intros o Ho. destruct (OO o Ho) as (p & Hpp & _). eauto. }
    rewrite Ep. cbn [bind].
    destruct (column_ok _ _ _ j HF Hj) as (Fc & EFc & LFc). rewrite EFc. cbn [bind].
    destruct (bcast_ok Fc (length sfs) (or_introl LFc)) as (Fs & EFs). rewrite EFs. cbn [bind].
    match goal with |- context [mapM ?f (combine psfs Fs)] => destruct (mapM_ok f (combine psfs Fs)) as (os & Eos) end.
    { intros [p Fv] Hin. apply in_combine_l in Hin. apply In_nth_error in Hin. destruct Hin as (s & Hs).
      assert (exists o, nth_error otfs s = Some o) as (o & Hoo).
      { destruct (nth_error otfs s) eqn:E; [eauto|]. apply nth_error_None in E. rewrite <- (mapM_length _ _ _ Ep) in E.
        apply nth_error_None in E. congruence. }
      destruct (mapM_nth _ _ _ s Ep _ Hoo) as (p' & Hp' & Hf'). rewrite Hs in Hp'. injection Hp' as <-.
      destruct (OO o (nth_error_In _ _ Hoo)) as (p' & Hp' & Rp & Cp & Nz). rewrite Hp' in Hf'. apply Ok_inj in Hf'. subst p'.
      cbn [fst snd]. unfold scale_psf. destruct (Req_EM_T (img_sum p) 0); [contradiction|]. cbn [bind].
      unfold assign_plane, img_map; cbn [rows cols]. rewrite Rp, Cp, Hnp, Nat.eqb_refl. cbn [andb]. eauto. }
    rewrite Eos. cbn [bind].
    destruct (mapM_ok (fun o => strehl o dl) otfs) as (rs & Ers).
    { intros o _. unfold strehl. destruct (Req_EM_T (img_sum dl) 0); [contradiction|]. eauto. }
    rewrite Ers. cbn [bind]. eauto. }
  destruct (mapM_ok g (indexed 0 chans)) as (raw & Er).
  { intros [j c] Hin. apply In_nth_error in Hin. destruct Hin as (i & Hi).
    destruct (nth_error chans i) as [c'|] eqn:Ec.
    - rewrite (indexed_nth chans 0 i c' Ec) in Hi. injection Hi as <- <-. cbn [Nat.add]. apply G. exact Ec.
    - apply nth_error_None in Ec. rewrite <- (indexed_length chans 0) in Ec. apply nth_error_None in Ec. congruence. }
  rewrite Er. cbn [bind]. destruct (bcast_ok (x_bkg y) (length chans) Hb) as (bk & Ebk). rewrite Ebk. cbn [bind]. eauto.
Qed.
