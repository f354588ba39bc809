(** C134: the image of an unshifted source is its own mirror image through the pixel n/2 - whatever the static aberration. *)
From Coq Require Import Reals List Arith ZArith Lia Lra Psatz.
From Coq Require Import ZifyBool ZifyNat.
From Verif Require Import Base_Py Base_Sum Base_DFT M_Image S_Image L_Image L_Image2 M_Fourier S_Fourier L_Fourier L_Fourier2 L_Fourier3 L_Fourier4 M_Float L_Float M_Psf L_Psf L_Psf2 L_Psf3 L_Psf4 P_Fourier P_Psf.
From Coquelicot Require Import Complex.
Import ListNotations.
Open Scope R_scope.

(** Specification: rows (or columns) i and i' at the same distance of the row n/2, one on each side (n even; the first row
    has no partner). *)
Definition mirrored (n i i' : nat) : Prop := (i + i' = n)%nat.
(** Specification: the diffraction pattern of the field E on an n x n grid, with the zero frequency at pixel n/2. *)
Definition diffraction (n : nat) (E : nat -> nat -> C) (u v : nat) : R :=
  (Cmod (csum n (fun i => csum n (fun j => Cmult (E i j)
     (Cmult (W n ((Z.of_nat u - Z.of_nat (n / 2)) * Z.of_nat i)) (W n ((Z.of_nat v - Z.of_nat (n / 2)) * Z.of_nat j))))))) ^ 2.

Lemma W_opp_re (n : nat) (a b : Z) (x : C) : snd x = 0 ->
  fst (Cmult x (Cmult (W n (- a)) (W n (- b)))) = fst (Cmult x (Cmult (W n a) (W n b))).
Proof. intros H. rewrite <- !W_conj. destruct x as [x y]. cbn in H. subst y. cbn. ring. Qed.

Lemma mirror_shift n i i' (k : Z) : (0 < n)%nat -> Nat.even n = true -> mirrored n i i' ->
  W n (- (Z.of_nat (shift_ix n i') * k)) = W n (Z.of_nat (shift_ix n i) * k).
Proof.
  intros Hn He Hm. destruct (shift_ix_cong n i Hn) as [q Hq]. destruct (shift_ix_cong n i' Hn) as [q' Hq'].
  pose proof (even_half n He) as Eh. rewrite Hq, Hq'.
  set (h := (n / 2)%nat) in *.
  unfold mirrored in Hm.
  replace (- ((Z.of_nat i' - Z.of_nat h + Z.of_nat n * q') * k))%Z with ((Z.of_nat i - Z.of_nat h + Z.of_nat n * q) * k + Z.of_nat n * (- (q + q') * k))%Z by nia.
  apply W_per, Hn.
Qed.

Lemma re_scal_l r (z : C) : fst (Cmult (RtoC r) z) = r * fst z.
Proof. destruct z; cbn; ring. Qed.
Lemma raw_mirror n (o : carr) i j i' j' : (0 < n)%nat -> Nat.even n = true -> crows o = n -> ccols o = n ->
  (forall a b, snd (cpx o a b) = 0) -> mirrored n i i' -> mirrored n j j' ->
  px (raw_psf o) i' j' = px (raw_psf o) i j.
Proof.
  intros Hn He Hr Hc Hre Hi Hj. unfold raw_psf, re_img, fftshift, ifft2; cbn [px crows ccols cpx]. rewrite Hr, Hc.
  unfold idft2. rewrite !re_scal_l, !csum_Re. f_equal. apply rsum_ext. intros a _. rewrite !csum_Re. apply rsum_ext. intros b _.
  rewrite (mirror_shift n i i' _ Hn He Hi), (mirror_shift n j j' _ Hn He Hj).
  symmetry. apply W_opp_re. apply Hre.
Qed.

Lemma scale_mirror p F b q i j i' j' : scale_psf p F b = Ok q -> px p i' j' = px p i j -> px q i' j' = px q i j.
Proof. unfold scale_psf. destruct (Req_EM_T _ 0); [discriminate|]. intros H E. apply Ok_inj in H. subst q. cbn [img_map px]. rewrite E. reflexivity. Qed.

Lemma otf_real n sf ncpa pix K a b : snd (cpx (otf_product n sf ncpa pix K (fun _ _ => RtoC 1)) a b) = 0.
Proof. cbn. ring. Qed.

Lemma crop_px a n m : rows a = n -> cols a = n -> pix_ok n -> (1 <= m)%nat -> Nat.even m = true -> Nat.even n = true -> (exists d, n = (m * d)%nat) ->
  rows (crop_to a m) = m /\ cols (crop_to a m) = m /\ forall i j, (i < m)%nat -> (j < m)%nat -> px (crop_to a m) i j = px a ((n - m) / 2 + i) ((n - m) / 2 + j).
Proof.
  intros Hr Hc [H1 H2] Hm Em En [d Hd]. unfold crop_to. rewrite Hr.
  assert (Hd1 : (1 <= d)%nat) by (destruct d; lia).
  assert (E : crop_side (Z.of_nat n) (Z.of_nat m) = Z.of_nat m).
  { rewrite Hd, Nat2Z.inj_mul. apply crop_side_divides; lia. }
  rewrite E. assert (Hle : (m <= n)%nat) by nia.
  assert (Q : Z.quot (Z.of_nat n - Z.of_nat m) 2 = Z.of_nat ((n - m) / 2)).
  { rewrite Z.quot_div_nonneg by lia. rewrite Nat2Z.inj_div. f_equal. lia. }
  rewrite Q. set (x := ((n - m) / 2)%nat). assert (X : (2 * x <= n - m)%nat) by (unfold x; apply Nat.mul_div_le; lia).
  unfold slice2; cbn [rows cols px]. rewrite Hr, Hc.
  rewrite slice_len_in, slice_bound_in by lia.
  split; [lia|]. split; [lia|]. intros i j Hi Hj. f_equal; lia.
Qed.

Lemma plane_mirror n fov npix o p i j i' j' : crows o = n -> ccols o = n -> n = fov -> Nat.even n = true -> pix_ok fov ->
  (fov <= npix \/ (1 <= npix)%nat /\ Nat.even npix = true /\ exists d, fov = npix * d)%nat ->
  (forall a b, snd (cpx o a b) = 0) -> psf_plane o 1 fov npix = Ok p ->
  let m := Nat.min fov npix in
  (i < m)%nat -> (j < m)%nat -> (i' < m)%nat -> (j' < m)%nat -> mirrored m i i' -> mirrored m j j' ->
  px p i' j' = px p i j.
Proof.
  intros Hr Hc Hn He Hf Hp Hre H m Hi Hj Hi' Hj' Mi Mj. assert (N0 : (0 < n)%nat) by (destruct Hf; lia).
  assert (Full : (fov <= npix)%nat -> px p i' j' = px p i j).
  { intros L. destruct (psf_plane_val o 1 fov npix) as (p' & E & _ & _ & V & _); [lia|exact Hf|exact L|lia|lia|].
    rewrite H in E. apply Ok_inj in E. subst p'. rewrite !V. cbn [rsum]. rewrite !Nat.mul_1_r, !Nat.add_0_r.
    replace m with n in * by lia. rewrite (raw_mirror n o i j i' j') by assumption. reflexivity. }
  destruct (Nat.le_gt_cases fov npix) as [L|L]; [exact (Full L)|]. destruct Hp as [Hp|(P1 & P2 & P3)]; [lia|].
  destruct (psf_plane_val o 1 fov fov) as (p0 & E & R0 & C0 & V & _); [lia|exact Hf|lia|lia|lia|].
  revert H E. unfold psf_plane. destruct (cis_empty o); [discriminate|]. rewrite !Nat.ltb_irrefl. change (1 <? 1)%nat with false. cbn [bind].
  destruct (Nat.eqb_spec fov 0); [lia|]. destruct (Nat.eqb (rows _) 0); [discriminate|].
  destruct (assign_plane fov _) as [q|]; cbn [bind]; [|discriminate].
  destruct (Nat.ltb_spec npix fov) as [L1|L1]; [|lia]. destruct (Nat.eqb_spec npix 0); [lia|].
  intros H E. apply Ok_inj in E. subst q.
  destruct (crop_px p0 fov npix R0 C0 Hf P1 P2 ltac:(rewrite <- Hn; exact He) P3) as (Rc & Cc & Pc).
  rewrite assign_plane_same in H by assumption. apply Ok_inj in H. subst p.
  replace m with npix in * by lia. rewrite !Pc by assumption. rewrite !V. cbn [rsum]. rewrite !Nat.mul_1_r, !Nat.add_0_r. f_equal. f_equal.
  pose proof (even_half _ P2) as Ep. pose proof (even_half _ He) as En.
  assert (Ed : ((fov - npix) / 2 + (fov - npix) / 2 + npix = fov)%nat).
  { replace (fov - npix)%nat with ((fov / 2 - npix / 2) * 2)%nat by lia. rewrite Nat.div_mul by lia. lia. }
  rewrite (raw_mirror n o ((fov - npix) / 2 + i) ((fov - npix) / 2 + j) ((fov - npix) / 2 + i') ((fov - npix) / 2 + j')); try assumption; [reflexivity| |].
  - unfold mirrored in *. lia.
  - unfold mirrored in *. lia.
Qed.

(** C134: without a stellar displacement and without binning, every image of the 3-D function is its own mirror image through
    the central pixel: for every structure function, jitter, pixel response, background, flux - and every instrumental OTF. *)
Theorem C134_symmetric_3D : forall n npix ncpa dl pix jit sfs F bkg out srs,
  Nat.even n = true -> pix_ok n -> (n <= npix \/ (1 <= npix)%nat /\ Nat.even npix = true /\ exists d, n = npix * d)%nat ->
  sf_3D_to_psf_3D n 1 n npix ncpa dl pix jit sfs F [0] [0] bkg = Ok (out, srs) ->
  forall s sf, nth_error sfs s = Some sf -> exists p, nth_error out s = Some p /\
  forall i j i' j', let m := Nat.min n npix in (i < m)%nat -> (j < m)%nat -> (i' < m)%nat -> (j' < m)%nat ->
    mirrored m i i' -> mirrored m j j' -> px p i' j' = px p i j.
Proof.
  intros n npix ncpa dl pix jit sfs F bkg out srs He Hf Hp H s sf Es.
  destruct (psf3D_inv _ _ _ _ _ _ _ _ _ _ _ _ _ _ _ H s sf Es) as (p & q & r & Hpl & Hsc & Ho & _).
  exists q. split; [exact Ho|]. intros i j i' j' m Hi Hj Hi' Hj' Mi Mj.
  apply (scale_mirror p _ _ _ _ _ _ _ Hsc).
  assert (Z : any_nonzero [0] = false) by (cbn; destruct (Req_EM_T 0 0); [reflexivity|congruence]).
  assert (Ph : ph3 n 1 [0] [0] s = fun _ _ => RtoC 1) by (unfold ph3; rewrite Z; reflexivity).
  rewrite Ph in Hpl.
  refine (plane_mirror n n npix _ p i j i' j' _ _ eq_refl He Hf Hp _ Hpl Hi Hj Hi' Hj' Mi Mj); [reflexivity|reflexivity|].
  intros a b. apply otf_real.
Qed.
Print Assumptions C134_symmetric_3D.

(** The same of the 4-D function, in every wavelength channel without binning. *)
Theorem C134_symmetric_4D : forall n kRef nyq chans dl pix jit sfs y out,
  Nat.even n = true -> pix_ok n -> shifted4 y = false ->
  sf_3D_to_psf_4D n kRef n n nyq chans dl pix jit sfs (Some y) = Ok out ->
  forall k c s sf, nth_error chans k = Some c -> c_k c = 1%nat -> nth_error sfs s = Some sf ->
  exists imgs srs p, nth_error out k = Some (imgs, srs) /\ nth_error imgs s = Some p /\
  forall i j i' j', (i < n)%nat -> (j < n)%nat -> (i' < n)%nat -> (j' < n)%nat ->
    mirrored n i i' -> mirrored n j j' -> px p i' j' = px p i j.
Proof.
  intros n kRef nyq chans dl pix jit sfs y out He Hf Hsh H k c s sf Hc Hk Es.
  destruct (psf4D_inv _ _ _ _ _ _ _ _ _ _ _ _ H) as [_ Inv]. destruct (Inv k c Hc) as (y' & imgs & srs & Ey & Ho & _ & _ & V).
  injection Ey as <-. destruct (V s sf Es) as (ph & p & q & q' & r & Fc & Hph & Hpl & _ & Hsc & Has & Hi & _).
  rewrite Hsh in Hph. subst ph. rewrite Hk in Hpl.
  exists imgs, srs, (img_map (fun v => v + per_source (x_bkg y) k) q'). split; [exact Ho|]. split; [exact Hi|].
  intros i j i' j' Li Lj Li' Lj' Mi Mj. cbn [img_map px]. f_equal.
  assert (M := Nat.min_id n).
  assert (Eq : px p i' j' = px p i j).
  { refine (plane_mirror n n n _ p i j i' j' _ _ eq_refl He Hf _ _ Hpl _ _ _ _ _ _); rewrite ?M; try assumption; try reflexivity; [left; lia|].
    intros a b. apply otf_real. }
  apply (scale_mirror p _ _ _ _ _ _ _ Hsc) in Eq.
  unfold assign_plane in Has. destruct (_ && _)%bool; [apply Ok_inj in Has; subst q'; exact Eq|].
  destruct (_ && _)%bool; [|discriminate]. apply Ok_inj in Has. subst q'. reflexivity.
Qed.
Print Assumptions C134_symmetric_4D.

(** A field that is not symmetric has a diffraction pattern that is not: a tilted pupil of 2 x 2 pixels on a 4 x 4 grid has all
    its light at one pixel from the centre, on one side. *)
Definition tilted (i j : nat) : C := if ((i <? 2) && (j <? 2))%nat%bool then (cos (PI / 2 * INR i), sin (PI / 2 * INR i)) else RtoC 0.

Lemma tilted_pattern : diffraction 4 tilted 3 2 = 16 /\ diffraction 4 tilted 1 2 = 0.
Proof.
  assert (W1 : W 4 1 = (0, -1)).
  { unfold W, ang. replace (2 * PI * 1 / INR 4) with (PI / 2) by (cbn; field). rewrite cos_PI2, sin_PI2. reflexivity. }
  assert (Wm : W 4 (-1) = (0, 1)).
  { change (-1)%Z with (- (1))%Z. rewrite <- W_conj, W1. apply C_eq; cbn; lra. }
  assert (T0 : tilted 0 0 = RtoC 1 /\ tilted 0 1 = RtoC 1 /\ tilted 1 0 = (0, 1) /\ tilted 1 1 = (0, 1)).
  { unfold tilted; cbn [Nat.ltb Nat.leb andb INR]. rewrite Rmult_0_r, Rmult_1_r, cos_0, sin_0, cos_PI2, sin_PI2. repeat split. }
  destruct T0 as (A & B & C & D).
  assert (G : forall u, diffraction 4 tilted u 2 = (Cmod (Cplus (RtoC 2) (Cmult (RtoC 2) (Cmult (0, 1) (W 4 (Z.of_nat u - 2)))))) ^ 2).
  { intros u. unfold diffraction. change (4 / 2)%nat with 2%nat. change (Z.of_nat 2) with 2%Z. f_equal. f_equal. cbn [csum].
    change (Z.of_nat 0) with 0%Z. change (Z.of_nat 1) with 1%Z. change (Z.of_nat 2) with 2%Z. change (Z.of_nat 3) with 3%Z.
    rewrite A, B, C, D. unfold tilted; cbn [Nat.ltb Nat.leb andb].
    rewrite !Z.mul_0_r, !Z.mul_1_r. change (2 - 2)%Z with 0%Z. rewrite !W_0. ring_simplify. apply C_eq; cbn; ring. }
  rewrite !G. change (Z.of_nat 3 - 2)%Z with 1%Z. change (Z.of_nat 1 - 2)%Z with (-1)%Z. rewrite W1, Wm. split.
  - replace (Cplus (RtoC 2) _) with (RtoC 4) by (apply C_eq; cbn; lra). rewrite Cmod_R, Rabs_right by lra. lra.
  - replace (Cplus (RtoC 2) _) with (RtoC 0) by (apply C_eq; cbn; lra). rewrite Cmod_R, Rabs_R0. lra.
Qed.

(** C134, refuted: a static tilt moves the diffraction pattern of the telescope by one pixel, but the image made from the
    instrumental OTF of that same tilt is symmetric - half of its light is put on the wrong side (the real part of the OTF is
    taken, FourierUtils.py:101). *)
Theorem C134_static_tilt_refuted : exists pup phase stat dl out srs p,
  (forall i j, (i < 2)%nat -> (j < 2)%nat -> px pup i j = 1 /\ px phase i j = PI / 2 * INR i) /\ rows pup = 2%nat /\ cols pup = 2%nat /\
  diffraction 4 tilted 3 2 = 16 /\ diffraction 4 tilted 1 2 = 0 /\
  getStaticOTF (fun a => a) pup pup phase 2 1 = Ok (stat, dl) /\
  sf_3D_to_psf_3D 4 1 4 4 stat dl (mkImg 4 4 (fun _ _ => 1)) None [fun _ _ => 0] [1] [0] [0] 0 = Ok (out, srs) /\
  nth_error out 0 = Some p /\ img_sum p = 1 /\ px p 3 2 = px p 1 2.
Proof.
  set (pup := mkImg 2 2 (fun _ _ => 1)). set (phase := mkImg 2 2 (fun i j => PI / 2 * INR i)).
  assert (Hl : exists i j, (i < rows pup)%nat /\ (j < cols pup)%nat /\ px pup i j * px pup i j <> 0).
  { exists 0%nat, 0%nat. cbn. repeat split; try lia. lra. }
  destruct (static_otf_dominated pup pup phase 2 1) as (stat & dl & Hst & Rd & Cd & C1 & C2 & Dom); try (cbn [rows cols pup phase]; lia); try exact Hl.
  pose proof Hst as Hst0.
  assert (SZ : rows stat = 4%nat /\ cols stat = 4%nat).
  { unfold getStaticOTF in Hst. cbv zeta in Hst. apply bind_Ok in Hst. destruct Hst as (o & Eo & Hst).
    apply bind_Ok in Hst. destruct Hst as (st & Es & Hst).
    assert (st = stat).
    { destruct (all_zero phase); [apply Ok_inj in Hst; congruence|].
      apply bind_Ok in Hst. destruct Hst as (o0 & _ & Hst). apply bind_Ok in Hst. destruct Hst as (dd & _ & Hst). apply Ok_inj in Hst. congruence. }
    subst st.
    assert (RS : rows stat = crows o /\ cols stat = ccols o).
    { unfold norm_max in Es. apply bind_Ok in Es. destruct Es as (m & _ & Es). unfold img_div in Es.
      destruct (Req_EM_T m 0); [discriminate|]. apply Ok_inj in Es. subst stat. split; reflexivity. }
    assert (AZ : all_zero phase = false).
    { destruct (all_zero phase) eqn:A; [|reflexivity]. apply all_zero_spec with (i := 1%nat) (j := 0%nat) in A; cbn in A |- *; try lia. pose proof PI_RGT_0. lra. }
    unfold pupil2otf in Eo. rewrite AZ in Eo.
    cbn [rows cols pup phase Nat.eqb andb negb] in Eo.
    apply bind_Ok in Eo. destruct Eo as (E & EE & Eo). apply bind_Ok in Eo. destruct Eo as (c & Ec & Eo). apply Ok_inj in Eo. subst o.
    unfold cenlarge in EE. apply bind_Ok in EE. destruct EE as (re & Ere & EE). apply bind_Ok in EE. destruct EE as (im & Eim & EE).
    apply Ok_inj in EE. unfold enlargeSupport in Ere. cbn in Ere. apply Ok_inj in Ere.
    assert (RE : crows E = 4%nat /\ ccols E = 4%nat) by (rewrite <- EE; cbn; rewrite <- Ere; split; reflexivity).
    destruct RE as [RE CE].
    destruct (fftCorrel_val E E) as (c' & Ec' & R' & C' & _); try lia; try reflexivity.
    rewrite Ec in Ec'. apply Ok_inj in Ec'. subst c'. cbn [fftshift crows ccols] in RS. destruct RS. split; congruence. }
  destruct SZ as [Rs Cs].
  assert (D00 : px dl 2 2 = 1) by (rewrite <- Rd, <- Cd, Rs, Cs in C2; exact C2).
  assert (S00 : px stat 2 2 = 1) by (rewrite Rs, Cs in C1; exact C1).
  assert (Dpos : forall i j, (i < 4)%nat -> (j < 4)%nat -> 0 <= px dl i j).
  { intros i j Hi Hj. assert (X := Dom i j). rewrite <- Rd, <- Cd, Rs, Cs in X. specialize (X Hi Hj).
    assert (Y := Rabs_pos (px stat i j)). lra. }
  assert (Hdl : img_sum dl <> 0).
  { assert (1 <= img_sum dl); [|lra]. rewrite <- D00. unfold img_sum. rewrite <- Rd, <- Cd, Rs, Cs.
    eapply Rle_trans; [|apply (rsum_term_le 4 _ 2); [|lia]].
    - cbv beta. apply (rsum_term_le 4 (fun j => px dl 2 j)); [|lia]. intros; apply Dpos; lia.
    - intros i Hi. apply rsum_nonneg. intros j Hj. apply Dpos; lia. }
  destruct (C08_defined_3D 4 1 4 4 stat dl (mkImg 4 4 (fun _ _ => 1)) None [fun _ _ => 0] [1] [0] [0] 0) as (out & srs & H);
    [reflexivity|lia|unfold pix_ok; lia|lia|reflexivity|left; reflexivity|left; reflexivity|left; reflexivity
    |change (4 / 2)%nat with 2%nat; rewrite S00; lra|cbn [px]; lra|exact Hdl|].
  destruct (C134_symmetric_3D 4 4 stat dl (mkImg 4 4 (fun _ _ => 1)) None [fun _ _ => 0] [1] 0 out srs) with (s := 0%nat) (sf := fun _ _ : nat => 0) as (p & Hp & Hsym);
    [reflexivity|unfold pix_ok; lia|left; lia|exact H|reflexivity|].
  destruct (C08_flux_3D _ _ _ _ _ _ _ _ _ _ _ _ _ _ _ H) as (_ & _ & V).
  destruct (V 0%nat) as (p' & Hp' & _ & _ & Hs); [cbn; lia|]. assert (p' = p) by congruence. subst p'.
  exists pup, phase, stat, dl, out, srs, p.
  split; [intros i j _ _; split; reflexivity|]. split; [reflexivity|]. split; [reflexivity|].
  destruct tilted_pattern as [T1 T2]. split; [exact T1|]. split; [exact T2|]. split; [exact Hst0|]. split; [exact H|]. split; [exact Hp|].
  split; [rewrite Hs; cbn; lra|]. apply Hsym; cbn; unfold mirrored; lia.
Qed.
Print Assumptions C134_static_tilt_refuted.

(** An OTF made of the zero frequency and of one more, along the first axis, of an 8 x 8 grid. *)
Definition two_freq : img := mkImg 8 8 (fun i j => if (Nat.eqb j 4 && (Nat.eqb i 4 || Nat.eqb i 5))%bool then 1 else 0).

Lemma two_freq_raw u v : px (raw_psf (otf_product 8 (fun _ _ => 0) (px two_freq) (fun _ _ => 1) (fun _ _ => 1) (fun _ _ => RtoC 1))) u v
  = / 64 * (1 + cos (PI / 4 * INR (shift_ix 8 u))).
Proof.
  unfold raw_psf, re_img, fftshift, ifft2, otf_product; cbn [px crows ccols cpx]. unfold idft2.
  rewrite re_scal_l. f_equal; [cbn; lra|].
  rewrite (csum_ext 8 _ (fun i => if (i <? 2)%nat then W 8 (- (Z.of_nat (shift_ix 8 u) * Z.of_nat i)) else RtoC 0)).
  - cbn [csum Nat.ltb Nat.leb]. change (Z.of_nat 0) with 0%Z. change (Z.of_nat 1) with 1%Z. rewrite Z.mul_0_r, Z.mul_1_r. change (- 0)%Z with 0%Z. rewrite W_0.
    unfold W, ang. rewrite opp_IZR, <- INR_IZR_INZ. set (k := INR (shift_ix 8 u)).
    replace (2 * PI * - k / INR 8) with (- (PI / 4 * k)) by (cbn [INR]; field). rewrite cos_neg.
    unfold Cplus, RtoC; cbn [fst snd]. lra.
  - intros i Hi. rewrite (csum_single 8 0).
    2: lia.
    2: { intros j Hj Nj. unfold two_freq; cbn [px].
         assert (Ej : Nat.eqb (shift_ix 8 j) 4 = false) by (do 8 (destruct j as [|j]; [try reflexivity; congruence|]); lia).
         rewrite Ej. cbn [andb]. apply C_eq; cbn; ring. }
    change (Z.of_nat 0) with 0%Z. rewrite Z.mul_0_r. change (- 0)%Z with 0%Z. rewrite W_0. rewrite Rmult_0_r, exp_0.
    unfold two_freq; cbn [px]. generalize (W 8 (- (Z.of_nat (shift_ix 8 u) * Z.of_nat i))). intros w.
    assert (Eb : (Nat.eqb (shift_ix 8 0) 4 && (Nat.eqb (shift_ix 8 i) 4 || Nat.eqb (shift_ix 8 i) 5))%bool = (i <? 2)%nat)
      by (do 8 (destruct i as [|i]; [reflexivity|]); lia).
    rewrite Eb. destruct (i <? 2)%nat; apply C_eq; cbn; ring.
Qed.

Lemma scale_neq p q : scale_psf p 1 0 = Ok q -> rows q = rows p /\ cols q = cols p /\
  forall i j i' j', px p i j <> px p i' j' -> px q i j <> px q i' j'.
Proof.
  unfold scale_psf. destruct (Req_EM_T (img_sum p) 0) as [Es|Es]; [discriminate|]. intros H. apply Ok_inj in H. subst q.
  cbn [img_map rows cols px]. split; [reflexivity|]. split; [reflexivity|]. intros i j i' j' Hab Heq. apply Hab.
  apply (Rmult_eq_reg_r (/ img_sum p)); [|apply Rinv_neq_0_compat; exact Es]. unfold Rdiv in Heq. lra.
Qed.

(** C134, refuted with binning: with a binning factor of 2 the image is symmetric neither about the pixel fov/2 nor about the
    middle of the array: the binned pixels are not centred on the optical axis. *)
Theorem C134_binned_refuted : exists out srs p,
  sf_3D_to_psf_3D 8 2 4 4 two_freq two_freq (mkImg 8 8 (fun _ _ => 1)) None [fun _ _ => 0] [1] [0] [0] 0 = Ok (out, srs) /\
  nth_error out 0 = Some p /\ rows p = 4%nat /\ cols p = 4%nat /\ px p 1 2 <> px p 3 2 /\ px p 0 2 <> px p 3 2.
Proof.
  assert (Hdl : img_sum two_freq <> 0) by (unfold img_sum, two_freq; cbn; lra).
  destruct (C08_defined_3D 8 2 4 4 two_freq two_freq (mkImg 8 8 (fun _ _ => 1)) None [fun _ _ => 0] [1] [0] [0] 0) as (out & srs & H);
    [reflexivity|lia|unfold pix_ok; lia|lia|reflexivity|left; reflexivity|left; reflexivity|left; reflexivity
    |cbn; lra|cbn [px]; lra|exact Hdl|].
  destruct (psf3D_inv _ _ _ _ _ _ _ _ _ _ _ _ _ _ _ H 0%nat (fun _ _ => 0) eq_refl) as (p & q & r & Hpl & Hsc & Ho & _).
  assert (Z : any_nonzero [0] = false) by (cbn; destruct (Req_EM_T 0 0); [reflexivity|congruence]).
  assert (Ph : ph3 8 2 [0] [0] 0 = fun _ _ => RtoC 1) by (unfold ph3; rewrite Z; reflexivity). rewrite Ph in Hpl.
  destruct (psf_plane_val (otf_product 8 (fun _ _ => 0) (px two_freq) (fun _ _ => 1) (fun _ _ => 1) (fun _ _ => RtoC 1)) 2 4 4)
    as (p' & E & R0 & C0 & V & _); [lia|unfold pix_ok; lia|lia|reflexivity|reflexivity|].
  change (px (mkImg 8 8 (fun _ _ => 1))) with (fun _ _ : nat => 1) in Hpl. change (K3 8 None) with (fun _ _ : nat => 1) in Hpl.
  rewrite E in Hpl. apply Ok_inj in Hpl. subst p'.
  assert (C3 : cos (PI / 4 * 3) = - cos (PI / 4)) by (replace (PI / 4 * 3) with (- (PI / 4) + PI) by field; rewrite neg_cos, cos_neg; reflexivity).
  assert (P4 : 0 < cos (PI / 4)) by (apply cos_gt_0; pose proof PI_RGT_0; lra).
  assert (Pv : forall u v, px p u v = 2 * (/ 64 * (1 + cos (PI / 4 * INR (shift_ix 8 (u * 2)))) + / 64 * (1 + cos (PI / 4 * INR (shift_ix 8 (u * 2 + 1)))))).
  { intros u v. rewrite V. cbn [rsum]. rewrite !two_freq_raw. rewrite !Nat.add_0_r. lra. }
  assert (S0 : shift_ix 8 (0 * 2) = 4%nat /\ shift_ix 8 (0 * 2 + 1) = 5%nat /\ shift_ix 8 (1 * 2) = 6%nat /\ shift_ix 8 (1 * 2 + 1) = 7%nat /\ shift_ix 8 (3 * 2) = 2%nat /\ shift_ix 8 (3 * 2 + 1) = 3%nat) by (repeat split; reflexivity).
  destruct S0 as (S1 & S2 & S3 & S4 & S5 & S6).
  pose proof (Pv 0%nat 2%nat) as V0. pose proof (Pv 1%nat 2%nat) as V1. pose proof (Pv 3%nat 2%nat) as V3.
  rewrite S1, S2 in V0. rewrite S3, S4 in V1. rewrite S5, S6 in V3.
  replace (INR 4) with 4 in V0 by (cbn; lra). replace (INR 5) with 5 in V0 by (cbn; lra).
  replace (INR 6) with 6 in V1 by (cbn; lra). replace (INR 7) with 7 in V1 by (cbn; lra).
  replace (INR 2) with 2 in V3 by (cbn; lra). replace (INR 3) with 3 in V3 by (cbn; lra).
  replace (PI / 4 * 4) with PI in V0 by field. rewrite cos_PI in V0.
  replace (PI / 4 * 5) with (PI / 4 + PI) in V0 by field. rewrite neg_cos in V0.
  replace (PI / 4 * 6) with (PI / 2 + PI) in V1 by field. rewrite neg_cos, cos_PI2 in V1.
  replace (PI / 4 * 7) with (- (PI / 4) + 2 * INR 1 * PI) in V1 by (cbn; field). rewrite cos_period, cos_neg in V1.
  replace (PI / 4 * 2) with (PI / 2) in V3 by field. rewrite cos_PI2, C3 in V3.
  destruct (scale_neq p q Hsc) as (Rq & Cq & Nq).
  exists out, srs, q. split; [exact H|]. split; [exact Ho|]. split; [rewrite Rq; exact R0|]. split; [rewrite Cq; exact C0|].
  split; apply Nq; rewrite ?V0, ?V1, ?V3; lra.
Qed.
Print Assumptions C134_binned_refuted.
