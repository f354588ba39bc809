(** Lemmas on the PSF chain, continued: nominal geometry, shifts, 4-D. *)
From Coq Require Import Reals List Arith ZArith Lia Lra Psatz.
From Coq Require Import ZifyBool ZifyNat.
From Verif Require Import Base_Py Base_Sum Base_DFT M_Image S_Image L_Image L_Image2 M_Fourier S_Fourier L_Fourier L_Fourier2 L_Fourier3 M_Float L_Float M_Psf L_Psf.
From Coquelicot Require Import Complex.
Import ListNotations.
Open Scope R_scope.

Definition pix_ok (n : nat) : Prop := (1 <= n)%nat /\ (Z.of_nat n <= 2 ^ 53)%Z.

Lemma crop_to_id a m : rows a = m -> cols a = m -> pix_ok m -> 
  rows (crop_to a m) = m /\ cols (crop_to a m) = m /\ forall i j, px (crop_to a m) i j = px a i j.
Proof.
  intros Hr Hc [H1 H2]. unfold crop_to. rewrite Hr.
  assert (E : crop_side (Z.of_nat m) (Z.of_nat m) = Z.of_nat m).
  { assert (X := crop_side_divides (Z.of_nat m) 1). rewrite Z.mul_1_r in X. apply X; lia. }
  rewrite E. replace (Z.of_nat m - Z.of_nat m)%Z with 0%Z by lia. change (Z.quot 0 2) with 0%Z.
  rewrite Z.add_0_l. unfold slice2; cbn [rows cols px]. rewrite Hr, Hc.
  rewrite slice_len_in, slice_bound_in by lia. rewrite Z.sub_0_r, Nat2Z.id.
  split; [reflexivity|]. split; [reflexivity|]. intros i j. reflexivity.
Qed.

Lemma assign_plane_same m x : rows x = m -> cols x = m -> assign_plane m x = Ok x.
Proof. intros H H'. unfold assign_plane. rewrite H, H', !Nat.eqb_refl. reflexivity. Qed.

Lemma psf_plane_val otf k fov npix :
  (1 <= k)%nat -> pix_ok fov -> (fov <= npix)%nat ->
  crows otf = (fov * k)%nat -> ccols otf = (fov * k)%nat ->
  exists p, psf_plane otf k fov npix = Ok p /\ rows p = fov /\ cols p = fov /\
    (forall u v, px p u v = rsum k (fun i => rsum k (fun j => px (raw_psf otf) (u * k + i) (v * k + j)))) /\
    img_sum p = img_sum (raw_psf otf).
Proof.
  intros Hk Hf Hn Hr Hc. destruct (Hf) as [Hf1 Hf2]. unfold psf_plane.
  assert (Ho : cis_empty otf = false). { unfold cis_empty. rewrite Hr, Hc. assert (0 < fov * k)%nat by nia. lia. }
  rewrite Ho. fold (raw_psf otf).
  assert (T : exists tmp, (if (1 <? k)%nat then binning (raw_psf otf) k else Ok (raw_psf otf)) = Ok tmp /\
     rows tmp = fov /\ cols tmp = fov /\
     (forall u v, px tmp u v = rsum k (fun i => rsum k (fun j => px (raw_psf otf) (u * k + i) (v * k + j)))) /\
     img_sum tmp = img_sum (raw_psf otf)).
  { destruct (Nat.ltb_spec 1 k) as [L|L].
    - destruct (binning_ok (raw_psf otf) k ltac:(lia)) as (tmp & Ht & Htr & Htc & Htp).
      exists tmp. unfold raw_psf, re_img in Htr, Htc; cbn [rows cols fftshift ifft2 crows ccols] in Htr, Htc.
      assert (Hk0 : k <> 0%nat) by (clear - L; lia).
      rewrite Hr, (Nat.div_mul _ _ Hk0) in Htr. rewrite Hc, (Nat.div_mul _ _ Hk0) in Htc.
      repeat split; try assumption.
      assert (Hkp : (0 < k)%nat) by (clear - L; lia). rewrite (binning_flux _ _ _ Hkp Ht).
      unfold img_sum, raw_psf, re_img; cbn [rows cols fftshift ifft2 crows ccols].
      rewrite Hr, Hc, !(Nat.div_mul _ _ Hk0). reflexivity.
    - assert (k = 1)%nat by lia. subst k. exists (raw_psf otf).
      split; [reflexivity|]. split; [|split; [|split; [|reflexivity]]].
      + change (rows (raw_psf otf)) with (crows otf). rewrite Hr. apply Nat.mul_1_r.
      + change (cols (raw_psf otf)) with (ccols otf). rewrite Hc. apply Nat.mul_1_r.
      + intros u v. cbn [rsum]. rewrite !Nat.mul_1_r, !Nat.add_0_r. lra. }
  destruct T as (tmp & Et & Htr & Htc & Htp & Hts). rewrite Et. cbn [bind].
  destruct (Nat.eqb_spec fov 0); [lia|]. rewrite Htr. destruct (Nat.eqb_spec fov 0); [lia|].
  destruct (crop_to_id tmp fov Htr Htc Hf) as (Cr & Cc & Cp).
  rewrite assign_plane_same by assumption. cbn [bind].
  destruct (Nat.ltb_spec npix fov); [lia|].
  exists (crop_to tmp fov). split; [reflexivity|]. split; [exact Cr|]. split; [exact Cc|]. split.
  - intros u v. rewrite Cp. apply Htp.
  - rewrite <- Hts. unfold img_sum. rewrite Cr, Cc, Htr, Htc.
    apply rsum_ext; intros; apply rsum_ext; intros; apply Cp.
Qed.

(** total of the raw PSF on an even grid: real part of the OTF at the centre *)
Lemma even_half n : Nat.even n = true -> (2 * (n / 2) = n)%nat.
Proof.
  intros H. apply Nat.even_spec in H. destruct H as (k & ->).
  rewrite (Nat.mul_comm 2 k), Nat.div_mul by lia. lia.
Qed.
Lemma shift_0_even n : (0 < n)%nat -> Nat.even n = true -> shift_ix n 0 = (n / 2)%nat.
Proof.
  intros Hn He. unfold shift_ix. assert (E := even_half n He).
  rewrite Nat.add_0_l. rewrite Nat.mod_small; lia.
Qed.
Lemma raw_psf_sum_even otf :
  (0 < crows otf)%nat -> (0 < ccols otf)%nat -> Nat.even (crows otf) = true -> Nat.even (ccols otf) = true ->
  img_sum (raw_psf otf) = fst (cpx otf (crows otf / 2)%nat (ccols otf / 2)%nat).
Proof.
  intros Hr Hc Er Ec. unfold raw_psf. rewrite sum_ifft by assumption.
  cbn [fftshift cpx crows ccols]. rewrite !shift_0_even by assumption. reflexivity.
Qed.

Lemma Uax_centre n : (0 < n)%nat -> Nat.even n = true -> Uax n (n / 2) = 0.
Proof.
  intros Hn He. unfold Uax. assert (E := even_half n He).
  replace (INR n) with (2 * INR (n / 2)) at 1.
  - field. apply INR_pos_neq, Hn.
  - rewrite <- E at 2. rewrite mult_INR. cbn [INR]. lra.
Qed.
Lemma phasor_centre n b dx dy : (0 < n)%nat -> Nat.even n = true -> phasor n b dx dy (n / 2) (n / 2) = RtoC 1.
Proof.
  intros Hn He. unfold phasor. rewrite !Uax_centre by assumption.
  replace (- PI * (b * (0 * dx + 0 * dy))) with 0 by ring. rewrite cos_0, sin_0. reflexivity.
Qed.
Lemma jitter_centre n nf2 a b c : (0 < n)%nat -> Nat.even n = true -> jitter_kernel n nf2 a b c (n / 2) (n / 2) = 1.
Proof.
  intros Hn He. unfold jitter_kernel. rewrite !Uax_centre by assumption.
  match goal with |- exp ?x = 1 => replace x with 0 by ring end. apply exp_0.
Qed.

(** inversion of the 3-D function *)
Definition K3 (n : nat) (jit : option (R * R * R * R)) : nat -> nat -> R :=
  match jit with None => fun _ _ => 1 | Some (nf2, jx, jy, jxy) => jitter_kernel n nf2 jx jy jxy end.
Definition ph3 (n kRef : nat) (dx dy : list R) (s : nat) : nat -> nat -> C :=
  if (any_nonzero dx || any_nonzero dy)%bool
  then phasor n (bin_fact_3D kRef) (per_source dx s) (per_source dy s) else fun _ _ => RtoC 1.

Lemma psf3D_inv n kRef fov npix ncpa dl pix jit sfs F dx dy bkg out srs :
  sf_3D_to_psf_3D n kRef fov npix ncpa dl pix jit sfs F dx dy bkg = Ok (out, srs) ->
  forall s sf, nth_error sfs s = Some sf ->
  exists p q r, let o := otf_product n sf (px ncpa) (px pix) (K3 n jit) (ph3 n kRef dx dy s) in
    psf_plane o kRef fov npix = Ok p /\ scale_psf p (per_source F s) bkg = Ok q /\
    nth_error out s = Some q /\ strehl o dl = Ok r /\ nth_error srs s = Some r.
Proof.
  unfold sf_3D_to_psf_3D. cbv zeta.
  destruct (bcast dx (length sfs)) as [dxs|e] eqn:Ex; cbn [bind]; [|discriminate].
  destruct (bcast dy (length sfs)) as [dys|e] eqn:Ey; cbn [bind]; [|discriminate].
  destruct (bcast F (length sfs)) as [Fs|e] eqn:EF; cbn [bind]; [|discriminate].
  match goal with |- context [mapM ?f (combine sfs (combine dxs dys))] => set (f1 := f) end.
  destruct (mapM f1 _) as [psfs|e] eqn:E1; cbn [bind]; [|discriminate].
  destruct (mapM _ (combine psfs Fs)) as [outs|e] eqn:E2; cbn [bind]; [|discriminate].
  match goal with |- context [mapM ?f (combine sfs (combine dxs dys))] => set (f3 := f) end.
  destruct (mapM f3 _) as [srs'|e] eqn:E3; cbn [bind]; [|discriminate].
  intros H. apply Ok_inj in H. injection H as <- <-.
  apply bcast_nth in Ex. destruct Ex as [Lx Nx]. apply bcast_nth in Ey. destruct Ey as [Ly Ny].
  apply bcast_nth in EF. destruct EF as [LF NF].
  intros s sf Es. assert (Hs : (s < length sfs)%nat) by (apply nth_error_Some; congruence).
  assert (Nq : nth_error (combine sfs (combine dxs dys)) s = Some (sf, (per_source dx s, per_source dy s))).
  { apply nth_error_combine; [exact Es|]. apply nth_error_combine; [apply Nx|apply Ny]; exact Hs. }
  destruct (mapM_nth _ _ _ s E1 _ Nq) as (p & Hp & Hf).
  assert (Nc : nth_error (combine psfs Fs) s = Some (p, per_source F s)).
  { apply nth_error_combine; [exact Hp|apply NF; exact Hs]. }
  destruct (mapM_nth _ _ _ s E2 _ Nc) as (q & Hq & Hg). cbn [fst snd] in Hg.
  destruct (mapM_nth _ _ _ s E3 _ Nq) as (r & Hr & Hsr).
  exists p, q, r. cbv zeta. unfold f1, f3 in *. cbn [fst snd] in *.
  repeat split; assumption.
Qed.

(** existence (no exception) in the nominal geometry *)
Lemma psf3D_defined n kRef fov npix ncpa dl pix jit sfs F dx dy bkg :
  n = (fov * kRef)%nat -> (1 <= kRef)%nat -> pix_ok fov -> (fov <= npix)%nat -> Nat.even n = true ->
  (length F = length sfs \/ length F = 1%nat) ->
  (length dx = length sfs \/ length dx = 1%nat) ->
  (length dy = length sfs \/ length dy = 1%nat) ->
  px ncpa (n / 2)%nat (n / 2)%nat <> 0 -> px pix (n / 2)%nat (n / 2)%nat <> 0 -> img_sum dl <> 0 ->
  exists out srs, sf_3D_to_psf_3D n kRef fov npix ncpa dl pix jit sfs F dx dy bkg = Ok (out, srs).
Proof.
  intros Hn Hk Hf Hnp He LF Lx Ly Hc Hp Hd.
  assert (Hn0 : (0 < n)%nat) by (destruct Hf; nia).
  assert (B : forall l m, length l = m \/ length l = 1%nat -> exists r, bcast l m = Ok r).
  { intros l m H. unfold bcast. destruct (Nat.eqb_spec (length l) m); [eauto|].
    destruct H as [H|H]; [contradiction|]. destruct l as [|x [|y l]]; try discriminate. eauto. }
  unfold sf_3D_to_psf_3D. cbv zeta.
  destruct (B dx _ Lx) as (dxs & Ex). rewrite Ex. cbn [bind].
  destruct (B dy _ Ly) as (dys & Ey). rewrite Ey. cbn [bind].
  destruct (B F _ LF) as (Fs & EF). rewrite EF. cbn [bind].
  assert (HK : K3 n jit (n / 2)%nat (n / 2)%nat = 1).
  { unfold K3. destruct jit as [[[[? ?] ?] ?]|]; [apply jitter_centre; assumption|reflexivity]. }
  fold (K3 n jit).
  match goal with |- context [mapM ?f (combine sfs (combine dxs dys))] => set (f1 := f) end.
  assert (P1 : forall q, exists p, f1 q = Ok p /\ img_sum p <> 0).
  { intros q. unfold f1.
    match goal with |- context [psf_plane ?o _ _ _] => set (otf := o) end.
    destruct (psf_plane_val otf kRef fov npix Hk Hf Hnp) as (p & Ep & _ & _ & _ & Hs); [exact Hn|exact Hn|].
    exists p. split; [exact Ep|]. rewrite Hs. rewrite raw_psf_sum_even; [|exact Hn0|exact Hn0|exact He|exact He].
    unfold otf, otf_product; cbn [cpx crows ccols]. rewrite HK.
    assert (Hph : (if any_nonzero dx || any_nonzero dy
       then phasor n (bin_fact_3D kRef) (fst (snd q)) (snd (snd q)) else fun _ _ => RtoC 1)%bool (n / 2)%nat (n / 2)%nat = RtoC 1).
    { destruct (_ || _)%bool; [apply phasor_centre; assumption|reflexivity]. }
    rewrite Hph. cbn. rewrite Rmult_1_r, Rmult_0_r, Rmult_1_r, Rminus_0_r.
    apply Rmult_integral_contrapositive. split; [apply Rgt_not_eq, exp_pos|].
    apply Rmult_integral_contrapositive. split; assumption. }
  destruct (mapM_ok f1 (combine sfs (combine dxs dys))) as (psfs & E1).
  { intros q _. destruct (P1 q) as (p & Ep & _). eauto. }
  rewrite E1. cbn [bind].
  destruct (mapM_ok (fun pf : img * R => scale_psf (fst pf) (snd pf) bkg) (combine psfs Fs)) as (outs & E2).
  { intros [p Fv] Hin. apply in_combine_l in Hin. apply In_nth_error in Hin. destruct Hin as (s & Hs).
    assert (Ls := mapM_length _ _ _ E1).
    assert (exists q, nth_error (combine sfs (combine dxs dys)) s = Some q) as (q & Hq).
    { destruct (nth_error (combine sfs (combine dxs dys)) s) eqn:E; [eauto|].
      apply nth_error_None in E. rewrite <- Ls in E. apply nth_error_None in E. congruence. }
    destruct (mapM_nth _ _ _ s E1 _ Hq) as (p' & Hp' & Hf1). rewrite Hp' in Hs. injection Hs as ->.
    destruct (P1 q) as (p'' & Ep & Hne). rewrite Ep in Hf1. apply Ok_inj in Hf1. subst p''.
    cbn [fst snd]. unfold scale_psf. destruct (Req_EM_T (img_sum p) 0); [contradiction|]. eauto. }
  rewrite E2. cbn [bind].
  match goal with |- context [mapM ?f (combine sfs (combine dxs dys))] => set (f3 := f) end.
  destruct (mapM_ok f3 (combine sfs (combine dxs dys))) as (srs & E3).
  { intros q _. unfold f3, strehl. destruct (Req_EM_T (img_sum dl) 0); [contradiction|]. eauto. }
  rewrite E3. cbn [bind]. eauto.
Qed.

(** ** displacement after binning *)
Lemma cyc_block m k u i (d : Z) : (0 < m)%nat -> (i < k)%nat ->
  (cyc m u d * k + i)%nat = cyc (m * k) (u * k + i) (Z.of_nat k * d).
Proof.
  intros Hm Hi. apply Nat2Z.inj. unfold cyc.
  assert (H1 := Z.mod_pos_bound (Z.of_nat u + d) (Z.of_nat m) ltac:(lia)).
  assert (H2 := Z.mod_pos_bound (Z.of_nat (u * k + i) + Z.of_nat k * d) (Z.of_nat (m * k)) ltac:(nia)).
  rewrite Nat2Z.inj_add, Nat2Z.inj_mul, !Z2Nat.id by lia.
  apply Z.mod_unique_pos with (q := ((Z.of_nat u + d) / Z.of_nat m)%Z).
  - rewrite Nat2Z.inj_mul. nia.
  - assert (E := Z.div_mod (Z.of_nat u + d) (Z.of_nat m) ltac:(lia)).
    rewrite !Nat2Z.inj_add, !Nat2Z.inj_mul.
    set (q := ((Z.of_nat u + d) / Z.of_nat m)%Z) in *. set (r := ((Z.of_nat u + d) mod Z.of_nat m)%Z) in *.
    replace (Z.of_nat u * Z.of_nat k + Z.of_nat i + Z.of_nat k * d)%Z
      with ((Z.of_nat u + d) * Z.of_nat k + Z.of_nat i)%Z by ring.
    rewrite E. ring.
Qed.

Lemma cyc_0 n i : (i < n)%nat -> cyc n i 0 = i.
Proof. intros H. unfold cyc. rewrite Z.add_0_r, Z.mod_small by lia. apply Nat2Z.id. Qed.

Lemma any_nonzero_false l : any_nonzero l = false -> forall x, In x l -> x = 0.
Proof.
  unfold any_nonzero. intros H x Hx.
  destruct (Req_EM_T x 0) as [E|E]; [exact E|].
  assert (T : existsb (fun v => if Req_EM_T v 0 then false else true) l = true).
  { apply existsb_exists. exists x. split; [exact Hx|]. destruct (Req_EM_T x 0); [contradiction|reflexivity]. }
  congruence.
Qed.

Lemma per_source_IZR l s : per_source (map IZR l) s = IZR (match l with [x] => x | _ => nth s l 0%Z end).
Proof.
  destruct l as [|x [|y l]]; cbn [map per_source].
  - destruct s; reflexivity.
  - reflexivity.
  - change (IZR x :: IZR y :: map IZR l) with (map IZR (x :: y :: l)).
    change 0 with (IZR 0) at 1. apply map_nth.
Qed.
Definition zper (l : list Z) (s : nat) : Z := match l with [x] => x | _ => nth s l 0%Z end.

Lemma bin3_val k : (1 <= k)%nat -> bin_fact_3D k = INR k.
Proof.
  intros H. unfold bin_fact_3D. destruct (Nat.ltb_spec 1 k); [reflexivity|].
  assert (k = 1)%nat by lia. subst. reflexivity.
Qed.

Lemma raw_px_out otf otf' : (forall i j, cpx otf i j = cpx otf' i j) -> crows otf = crows otf' -> ccols otf = ccols otf' ->
  forall u v, px (raw_psf otf) u v = px (raw_psf otf') u v.
Proof.
  intros H Hr Hc u v. unfold raw_psf, re_img, fftshift, ifft2; cbn [px crows ccols cpx]. rewrite Hr, Hc.
  f_equal. apply idft2_ext. intros i j _ _. rewrite H. reflexivity.
Qed.

(** Displacement of one plane with an arbitrary binning factor [b]:
    b*dx = k*Dx. *)
Lemma plane_shift n k fov sf ncpa pix K b dx dy (Dx Dy : Z) npix p p' F bkg q q' :
  n = (fov * k)%nat -> (1 <= k)%nat -> pix_ok fov -> (fov <= npix)%nat -> Nat.even n = true ->
  b * dx = INR k * IZR Dx -> b * dy = INR k * IZR Dy ->
  psf_plane (otf_product n sf ncpa pix K (fun _ _ => RtoC 1)) k fov npix = Ok p ->
  psf_plane (otf_product n sf ncpa pix K (phasor n b dx dy)) k fov npix = Ok p' ->
  scale_psf p F bkg = Ok q -> scale_psf p' F bkg = Ok q' ->
  forall u v, (u < fov)%nat -> (v < fov)%nat -> px q' (cyc fov u Dx) (cyc fov v Dy) = px q u v.
Proof.
  intros Hn Hk Hf Hnp He Ex Ey Hp Hp' Hq Hq' u v Hu Hv.
  assert (Hn0 : (0 < n)%nat) by (destruct Hf; nia).
  destruct (psf_plane_val (otf_product n sf ncpa pix K (fun _ _ => RtoC 1)) k fov npix Hk Hf Hnp Hn Hn) as (p0 & E0 & _ & _ & V0 & S0).
  destruct (psf_plane_val (otf_product n sf ncpa pix K (phasor n b dx dy)) k fov npix Hk Hf Hnp Hn Hn) as (p1 & E1 & _ & _ & V1 & S1).
  rewrite E0 in Hp. apply Ok_inj in Hp. subst p0. rewrite E1 in Hp'. apply Ok_inj in Hp'. subst p1.
  assert (Ex' : b * dx = IZR (Z.of_nat k * Dx)) by (rewrite mult_IZR, <- INR_IZR_INZ; exact Ex).
  assert (Ey' : b * dy = IZR (Z.of_nat k * Dy)) by (rewrite mult_IZR, <- INR_IZR_INZ; exact Ey).
  assert (SS : img_sum p' = img_sum p).
  { rewrite S0, S1. rewrite !raw_psf_sum_even by assumption.
    unfold otf_product; cbn [cpx crows ccols]. rewrite phasor_centre by assumption. reflexivity. }
  assert (VV : px p' (cyc fov u Dx) (cyc fov v Dy) = px p u v).
  { rewrite V0, V1. apply rsum_ext; intros i Hi. apply rsum_ext; intros j Hj.
    destruct Hf as [Hf1 _].
    rewrite (cyc_block fov k u i Dx), (cyc_block fov k v j Dy) by lia. rewrite <- Hn.
    apply raw_psf_shift; assumption. }
  unfold scale_psf in Hq, Hq'. rewrite SS in Hq'.
  destruct (Req_EM_T (img_sum p) 0); [discriminate|].
  apply Ok_inj in Hq. apply Ok_inj in Hq'. subst q q'. unfold img_map; cbn [px]. rewrite VV. reflexivity.
Qed.

Lemma psf3D_shift n kRef fov npix ncpa dl pix jit sfs F bkg ax ay out out' srs srs' :
  n = (fov * kRef)%nat -> (1 <= kRef)%nat -> pix_ok fov -> (fov <= npix)%nat -> Nat.even n = true ->
  sf_3D_to_psf_3D n kRef fov npix ncpa dl pix jit sfs F [0] [0] bkg = Ok (out, srs) ->
  sf_3D_to_psf_3D n kRef fov npix ncpa dl pix jit sfs F (map IZR ax) (map IZR ay) bkg = Ok (out', srs') ->
  forall s, (s < length sfs)%nat -> exists p p', nth_error out s = Some p /\ nth_error out' s = Some p' /\
    forall u v, (u < fov)%nat -> (v < fov)%nat ->
      px p' (cyc fov u (zper ax s)) (cyc fov v (zper ay s)) = px p u v.
Proof.
  intros Hn Hk Hf Hnp He H H' s Hs.
  destruct (nth_error sfs s) as [sf|] eqn:Es; [|apply nth_error_None in Es; lia].
  destruct (psf3D_inv _ _ _ _ _ _ _ _ _ _ _ _ _ _ _ H s sf Es) as (p & q & r & Hp & Hq & Hnq & _ & _).
  destruct (psf3D_inv _ _ _ _ _ _ _ _ _ _ _ _ _ _ _ H' s sf Es) as (p' & q' & r' & Hp' & Hq' & Hnq' & _ & _).
  exists q, q'. split; [exact Hnq|]. split; [exact Hnq'|].
  unfold ph3 in Hp. cbn [any_nonzero existsb] in Hp.
  destruct (Req_EM_T 0 0) as [_|NE] in Hp; [|lra]. cbn [orb] in Hp.
  unfold ph3 in Hp'. rewrite !per_source_IZR in Hp'. fold (zper ax s) (zper ay s) in Hp'.
  destruct (any_nonzero (map IZR ax) || any_nonzero (map IZR ay))%bool eqn:En.
  - apply (plane_shift n kRef fov sf (px ncpa) (px pix) (K3 n jit) (bin_fact_3D kRef)
             (IZR (zper ax s)) (IZR (zper ay s)) _ _ npix p p' (per_source F s) bkg); try assumption.
    + rewrite bin3_val by exact Hk. reflexivity.
    + rewrite bin3_val by exact Hk. reflexivity.
  - apply orb_false_iff in En. destruct En as [Ex Ey].
    assert (Z0 : forall l, any_nonzero (map IZR l) = false -> zper l s = 0%Z).
    { intros l Hl. assert (A := any_nonzero_false _ Hl).
      assert (B : forall z, In z l -> z = 0%Z).
      { intros z Hz. apply eq_IZR. apply A. apply in_map. exact Hz. }
      unfold zper. destruct l as [|x [|y l]].
      - destruct s; reflexivity.
      - apply B. left; reflexivity.
      - destruct (Nat.lt_ge_cases s (length (x :: y :: l))) as [L|L].
        + apply B. apply nth_In. exact L.
        + apply nth_overflow. exact L. }
    rewrite (Z0 ax Ex), (Z0 ay Ey). intros u v Hu Hv. rewrite !cyc_0 by assumption.
    rewrite Hp in Hp'. apply Ok_inj in Hp'. subst p'. rewrite Hq in Hq'. apply Ok_inj in Hq'. subst q'. reflexivity.
Qed.
