(** Lemmas on the PSF chain. *)
From Coq Require Import Reals List Arith ZArith Lia Lra Psatz.
From Coq Require Import ZifyBool ZifyNat.
From Verif Require Import Base_Py Base_Sum Base_DFT M_Image S_Image L_Image L_Image2 M_Fourier S_Fourier L_Fourier L_Fourier2 L_Fourier3 M_Float L_Float M_Psf.
From Coquelicot Require Import Complex.
Import ListNotations.
Open Scope R_scope.

(** ** mapM *)
Lemma mapM_length {A B} (f : A -> result B) l r : mapM f l = Ok r -> length r = length l.
Proof.
  revert r; induction l as [|x l IH]; cbn [mapM]; intros r H.
  - apply Ok_inj in H; subst; reflexivity.
  - destruct (f x) as [y|e]; cbn [bind] in H; [|discriminate].
    destruct (mapM f l) as [ys|e]; cbn [bind] in H; [|discriminate].
    apply Ok_inj in H; subst. cbn [length]. rewrite IH; reflexivity.
Qed.
Lemma mapM_nth {A B} (f : A -> result B) l r i :
  mapM f l = Ok r -> forall x, nth_error l i = Some x ->
  exists y, nth_error r i = Some y /\ f x = Ok y.
Proof.
  revert r i; induction l as [|a l IH]; cbn [mapM]; intros r i H x Hx.
  - destruct i; discriminate.
  - destruct (f a) as [y|e] eqn:E; cbn [bind] in H; [|discriminate].
    destruct (mapM f l) as [ys|e] eqn:El; cbn [bind] in H; [|discriminate].
    apply Ok_inj in H; subst. destruct i as [|i]; cbn [nth_error] in *.
    + injection Hx as <-. exists y. split; [reflexivity|exact E].
    + apply (IH ys i eq_refl x Hx).
Qed.
Lemma mapM_ok {A B} (f : A -> result B) l :
  (forall x, In x l -> exists y, f x = Ok y) -> exists r, mapM f l = Ok r.
Proof.
  induction l as [|a l IH]; intros H; cbn [mapM]; [eexists; reflexivity|].
  destruct (H a) as (y & Hy); [left; reflexivity|]. rewrite Hy. cbn [bind].
  destruct IH as (r & Hr); [intros; apply H; right; assumption|]. rewrite Hr. cbn [bind]. eexists; reflexivity.
Qed.

(** ** shapes *)
Lemma assign_plane_shape m x y : assign_plane m x = Ok y -> rows y = m /\ cols y = m.
Proof.
  unfold assign_plane. destruct (Nat.eqb_spec (rows x) m); destruct (Nat.eqb_spec (cols x) m); cbn [andb].
  - intros H; apply Ok_inj in H; subst y. split; assumption.
  - destruct (_ && _)%bool; [|discriminate]. intros H; apply Ok_inj in H; subst y. split; reflexivity.
  - destruct (_ && _)%bool; [|discriminate]. intros H; apply Ok_inj in H; subst y. split; reflexivity.
  - destruct (_ && _)%bool; [|discriminate]. intros H; apply Ok_inj in H; subst y. split; reflexivity.
Qed.

Lemma psf_plane_shape otf k fov npix p :
  psf_plane otf k fov npix = Ok p ->
  rows p = Nat.min npix fov /\ cols p = Nat.min npix fov.
Proof.
  unfold psf_plane. destruct (cis_empty otf); [discriminate|].
  match goal with |- context [bind ?r _] => destruct r as [tmp|e]; cbn [bind]; [|discriminate] end.
  destruct (fov =? 0)%nat; [discriminate|]. destruct (rows tmp =? 0)%nat; [discriminate|].
  destruct (assign_plane fov (crop_to tmp fov)) as [psf|e] eqn:E; cbn [bind]; [|discriminate].
  apply assign_plane_shape in E. destruct (Nat.ltb_spec npix fov).
  - destruct (npix =? 0)%nat; [discriminate|]. intros H'. apply assign_plane_shape in H'. lia.
  - intros H'. apply Ok_inj in H'. subst p. lia.
Qed.

Lemma scale_psf_spec p F b q :
  scale_psf p F b = Ok q ->
  rows q = rows p /\ cols q = cols p /\ img_sum q = F + INR (rows p) * INR (cols p) * b.
Proof.
  unfold scale_psf. destruct (Req_EM_T (img_sum p) 0) as [E|E]; [discriminate|].
  intros H. apply Ok_inj in H. subst q. split; [reflexivity|]. split; [reflexivity|].
  unfold img_sum at 1, img_map; cbn [rows cols px].
  rewrite (rsum_ext _ _ (fun i => (rsum (cols p) (fun j => px p i j)) * (/ img_sum p * F) + INR (cols p) * b)).
  - rewrite rsum_plus, rsum_scal_r, rsum_const.
    change (rsum (rows p) (fun i => rsum (cols p) (fun j => px p i j))) with (img_sum p). field. exact E.
  - intros i _. rewrite <- rsum_scal_r, <- rsum_const, <- rsum_plus. apply rsum_ext; intros j _.
    unfold Rdiv. ring.
Qed.

(** ** broadcast *)
Definition per_source (l : list R) (s : nat) : R := match l with [x] => x | _ => nth s l 0 end.
Lemma bcast_nth l n r : bcast l n = Ok r -> length r = n /\ forall s, (s < n)%nat -> nth_error r s = Some (per_source l s).
Proof.
  unfold bcast. destruct (Nat.eqb_spec (length l) n) as [E|E].
  - intros H; apply Ok_inj in H; subst r. split; [exact E|]. intros s Hs. subst n.
    destruct l as [|x [|y l']].
    + cbn in Hs; lia.
    + cbn in Hs. assert (s = 0)%nat by lia. subst s. reflexivity.
    + cbn [per_source]. apply nth_error_nth'. exact Hs.
  - destruct l as [|x [|y l']]; try discriminate.
    intros H; apply Ok_inj in H; subst r. split; [apply repeat_length|].
    intros s Hs. cbn [per_source]. apply nth_error_repeat. exact Hs.
Qed.

Lemma nth_error_combine {A B} (l : list A) (l' : list B) i a b :
  nth_error l i = Some a -> nth_error l' i = Some b -> nth_error (combine l l') i = Some (a, b).
Proof.
  revert l' i; induction l as [|x l IH]; intros [|y l'] [|i]; cbn; intros H H'; try discriminate.
  - congruence.
  - apply IH; assumption.
Qed.

(** ** the flux of the 3-D function *)
Lemma psf3D_flux n kRef fov npix ncpa dl pix jit sfs F dx dy bkg out srs :
  sf_3D_to_psf_3D n kRef fov npix ncpa dl pix jit sfs F dx dy bkg = Ok (out, srs) ->
  length out = length sfs /\ length srs = length sfs /\
  forall s, (s < length sfs)%nat -> exists p, nth_error out s = Some p /\
    rows p = Nat.min npix fov /\ cols p = Nat.min npix fov /\
    img_sum p = per_source F s + INR (Nat.min npix fov) * INR (Nat.min npix fov) * bkg.
Proof.
  unfold sf_3D_to_psf_3D. cbv zeta.
  destruct (bcast dx (length sfs)) as [dxs|e] eqn:Ex; cbn [bind]; [|discriminate].
  destruct (bcast dy (length sfs)) as [dys|e] eqn:Ey; cbn [bind]; [|discriminate].
  destruct (bcast F (length sfs)) as [Fs|e] eqn:EF; cbn [bind]; [|discriminate].
  match goal with |- context [mapM ?f (combine sfs (combine dxs dys))] => set (f1 := f) end.
  destruct (mapM f1 _) as [psfs|e] eqn:E1; cbn [bind]; [|discriminate].
  destruct (mapM _ (combine psfs Fs)) as [outs|e] eqn:E2; cbn [bind]; [|discriminate].
  match goal with |- context [mapM ?f (combine sfs (combine dxs dys))] => set (f3 := f) end.
  destruct (mapM f3 _) as [srs'|e] eqn:E3; cbn [bind]; [|discriminate].
  intros H. apply Ok_inj in H. injection H as <- <-.
  apply bcast_nth in Ex. destruct Ex as [Lx Nx]. apply bcast_nth in Ey. destruct Ey as [Ly Ny].
  apply bcast_nth in EF. destruct EF as [LF NF].
  assert (L1 := mapM_length _ _ _ E1). rewrite !combine_length, Lx, Ly, !Nat.min_id in L1.
  assert (L2 := mapM_length _ _ _ E2). rewrite combine_length, L1, LF, Nat.min_id in L2.
  assert (L3 := mapM_length _ _ _ E3). rewrite !combine_length, Lx, Ly, !Nat.min_id in L3.
  split; [exact L2|]. split; [exact L3|]. intros s Hs.
  destruct (nth_error sfs s) as [sf|] eqn:Es; [|apply nth_error_None in Es; lia].
  assert (Nq : nth_error (combine sfs (combine dxs dys)) s = Some (sf, (per_source dx s, per_source dy s))).
  { apply nth_error_combine; [exact Es|]. apply nth_error_combine; [apply Nx|apply Ny]; exact Hs. }
  destruct (mapM_nth _ _ _ s E1 _ Nq) as (p & Hp & Hf).
  assert (Nc : nth_error (combine psfs Fs) s = Some (p, per_source F s)).
  { apply nth_error_combine; [exact Hp|apply NF; exact Hs]. }
  destruct (mapM_nth _ _ _ s E2 _ Nc) as (q & Hq & Hg). cbn [fst snd] in Hg.
  apply scale_psf_spec in Hg. destruct Hg as (Hr & Hc & Hsum).
  unfold f1 in Hf. apply psf_plane_shape in Hf. destruct Hf as [Hpr Hpc].
  exists q. split; [exact Hq|]. rewrite Hr, Hc, Hsum, Hpr, Hpc. repeat split.
Qed.

(** ** Strehl *)
Lemma phasor_mod n b dx dy i j : Cmod (phasor n b dx dy i j) = 1.
Proof.
  unfold phasor, Cmod; cbn [fst snd]. rewrite <- sqrt_1. f_equal.
  generalize (- PI * (b * (Uax n i * dx + Uax n j * dy))). intros t.
  rewrite <- (sin2_cos2 t). unfold Rsqr. ring.
Qed.

Lemma exp_neg_le1 x : 0 <= x -> 0 < exp (- / 2 * x) <= 1.
Proof.
  intros H. split; [apply exp_pos|]. rewrite <- exp_0.
  destruct (Req_dec x 0) as [->|Hx]; [right; f_equal; lra|].
  left. apply exp_increasing. lra.
Qed.

Lemma quad_nonneg jx jy jxy a b : 0 <= jx -> 0 <= jy -> jxy * jxy <= jx * jy ->
  0 <= jx * (a * a) + jy * (b * b) + 2 * jxy * (a * b).
Proof.
  intros Hx Hy H. destruct (Req_dec jx 0) as [->|Hn].
  - assert (jxy = 0) by nra. subst. nra.
  - assert (0 < jx) by lra.
    apply Rmult_le_reg_l with jx; [lra|]. rewrite Rmult_0_r.
    replace (jx * (jx * (a * a) + jy * (b * b) + 2 * jxy * (a * b)))
      with ((jx * a + jxy * b) * (jx * a + jxy * b) + (jx * jy - jxy * jxy) * (b * b)) by ring.
    assert (Q1 := Rle_0_sqr (jx * a + jxy * b)). assert (Q2 := Rle_0_sqr b). unfold Rsqr in *.
    assert (0 <= (jx * jy - jxy * jxy) * (b * b)) by (apply Rmult_le_pos; lra). lra.
Qed.

Lemma rsum2_le n m f g :
  (forall i j, (i < n)%nat -> (j < m)%nat -> f i j <= g i j) ->
  rsum n (fun i => rsum m (fun j => f i j)) <= rsum n (fun i => rsum m (fun j => g i j)).
Proof. intros H. apply rsum_le; intros i Hi. apply rsum_le; intros j Hj. apply H; assumption. Qed.

Lemma rsum2_fftshift (r c : nat) (f : nat -> nat -> R) :
  (0 < r)%nat -> (0 < c)%nat ->
  rsum r (fun i => rsum c (fun j => f (shift_ix r i) (shift_ix c j))) = rsum r (fun i => rsum c (fun j => f i j)).
Proof.
  intros Hr Hc. rewrite (rsum_shift r (fun i => rsum c (fun j => f i (shift_ix c j))) Hr).
  apply rsum_ext; intros i _. apply (rsum_shift c (fun j => f i j) Hc).
Qed.

Lemma strehl_val otf dl sr :
  (0 < crows otf)%nat -> (0 < ccols otf)%nat -> strehl otf dl = Ok sr ->
  sr = 100 * rsum (crows otf) (fun i => rsum (ccols otf) (fun j => Cmod (cpx otf i j))) / img_sum dl.
Proof.
  intros Hr Hc. unfold strehl. destruct (Req_EM_T (img_sum dl) 0); [discriminate|].
  intros H. apply Ok_inj in H. subst sr. cbn [fftshift crows ccols cpx].
  rewrite (rsum2_fftshift _ _ (fun i j => Cmod (cpx otf i j))) by assumption. reflexivity.
Qed.

Lemma otf_product_mod n sf ncpa pix K ph i j :
  Cmod (ph i j) = 1 ->
  Cmod (cpx (otf_product n sf ncpa pix K ph) i j) = exp (- / 2 * sf i j) * (Rabs (ncpa i j) * Rabs (K i j) * Rabs (pix i j)).
Proof.
  intros H. unfold otf_product; cbn [cpx]. rewrite Cmod_mult, H, Rmult_1_r, Cmod_R, !Rabs_mult.
  rewrite (Rabs_pos_eq (exp _)) by (left; apply exp_pos). reflexivity.
Qed.

Lemma strehl_bound n sf ncpa pix K ph dl sr :
  (0 < n)%nat -> rows dl = n -> cols dl = n ->
  (forall i j, Cmod (ph i j) = 1) ->
  (forall i j, (i < n)%nat -> (j < n)%nat -> 0 <= sf i j) ->
  (forall i j, (i < n)%nat -> (j < n)%nat -> Rabs (ncpa i j) <= px dl i j) ->
  (forall i j, (i < n)%nat -> (j < n)%nat -> Rabs (pix i j) <= 1) ->
  (forall i j, (i < n)%nat -> (j < n)%nat -> 0 <= K i j <= 1) ->
  strehl (otf_product n sf ncpa pix K ph) dl = Ok sr -> 0 <= sr <= 100.
Proof.
  intros Hn Hr Hc Hph Hsf Hnc Hpx HK Hs.
  apply strehl_val in Hs; [|exact Hn|exact Hn]. cbn [otf_product crows ccols] in Hs.
  set (tot := rsum n _) in Hs.
  assert (Hs2 := Hs). 
  assert (T0 : 0 <= tot). { apply rsum_nonneg; intros i _. apply rsum_nonneg; intros j _. apply Cmod_ge_0. }
  assert (T1 : tot <= img_sum dl).
  { unfold tot, img_sum. rewrite Hr, Hc. apply rsum2_le. intros i j Hi Hj.
    change (cpx _ i j) with (cpx (otf_product n sf ncpa pix K ph) i j).
    rewrite (otf_product_mod n sf ncpa pix K ph i j (Hph i j)).
    destruct (exp_neg_le1 (sf i j) (Hsf i j Hi Hj)) as [X0 X1].
    specialize (Hnc i j Hi Hj). specialize (Hpx i j Hi Hj). specialize (HK i j Hi Hj).
    rewrite (Rabs_pos_eq (K i j)) by lra.
    assert (A0 := Rabs_pos (ncpa i j)). assert (B0 := Rabs_pos (pix i j)).
    assert (P1 : 0 <= Rabs (ncpa i j) * K i j <= Rabs (ncpa i j)) by nra.
    assert (P2 : 0 <= Rabs (ncpa i j) * K i j * Rabs (pix i j) <= Rabs (ncpa i j)) by nra.
    nra. }
  destruct (Req_dec (img_sum dl) 0) as [E|E].
  - subst sr. rewrite E. unfold Rdiv. rewrite Rinv_0. lra.
  - assert (0 < img_sum dl) by lra. subst sr. split.
    + apply Rmult_le_pos; [lra|]. left; apply Rinv_0_lt_compat; lra.
    + apply Rmult_le_reg_r with (img_sum dl); [lra|].
      unfold Rdiv. rewrite Rmult_assoc, Rinv_l by exact E. lra.
Qed.

Lemma strehl_mono n sf sf' ncpa pix K ph dl sr sr' :
  (0 < n)%nat -> 0 < img_sum dl ->
  (forall i j, Cmod (ph i j) = 1) ->
  (forall i j, (i < n)%nat -> (j < n)%nat -> sf i j <= sf' i j) ->
  strehl (otf_product n sf ncpa pix K ph) dl = Ok sr ->
  strehl (otf_product n sf' ncpa pix K ph) dl = Ok sr' -> sr' <= sr.
Proof.
  intros Hn Hd Hph Hsf H H'. apply strehl_val in H; [|exact Hn|exact Hn]. apply strehl_val in H'; [|exact Hn|exact Hn].
  subst sr sr'. cbn [otf_product crows ccols]. unfold Rdiv.
  apply Rmult_le_compat_r; [left; apply Rinv_0_lt_compat; exact Hd|].
  apply Rmult_le_compat_l; [lra|]. apply rsum2_le. intros i j Hi Hj.
  change (cpx _ i j) with (cpx (otf_product n sf' ncpa pix K ph) i j) at 1.
  match goal with |- _ <= Cmod ?z => change z with (cpx (otf_product n sf ncpa pix K ph) i j) end.
  rewrite !otf_product_mod by apply Hph.
  apply Rmult_le_compat_r.
  - assert (A0 := Rabs_pos (ncpa i j)). assert (B0 := Rabs_pos (pix i j)). assert (C0 := Rabs_pos (K i j)). 
    apply Rmult_le_pos; [apply Rmult_le_pos|]; assumption.
  - specialize (Hsf i j Hi Hj). destruct (Req_dec (sf i j) (sf' i j)) as [->|Hne]; [lra|].
    left. apply exp_increasing. lra.
Qed.

Lemma jitter_range n nf2 jx jy jxy i j :
  0 <= nf2 -> 0 <= jx -> 0 <= jy -> jxy * jxy <= jx * jy -> 0 <= jitter_kernel n nf2 jx jy jxy i j <= 1.
Proof.
  intros H0 H1 H2 H3. unfold jitter_kernel.
  assert (Q := quad_nonneg jx jy jxy (Uax n i) (Uax n j) H1 H2 H3).
  match goal with |- context [exp (- / 2 * ?q)] => destruct (exp_neg_le1 q) as [X0 X1] end.
  - apply Rmult_le_pos; assumption.
  - lra.
Qed.

(** ** astrometric shift *)
Lemma Cpolar a : (cos (- a), sin (- a)) = (cos a, - sin a).
Proof. rewrite cos_neg, sin_neg. reflexivity. Qed.

(** for an even grid and an integer displacement the phasor is a product of
    twiddle factors, once shifted *)
Lemma phasor_W n (b : R) dx dy (Dx Dy : Z) i j :
  (0 < n)%nat -> Nat.even n = true -> b * dx = IZR Dx -> b * dy = IZR Dy -> 
  phasor n b dx dy (shift_ix n i) (shift_ix n j) =
  Cmult (W n (Dx * Z.of_nat i)) (W n (Dy * Z.of_nat j)).
Proof.
  intros Hn Hev Ex Ey.
  assert (Hh : INR n / 2 = INR (n / 2)).
  { apply Nat.even_spec in Hev. destruct Hev as (k & ->).
    rewrite (Nat.mul_comm 2 k), Nat.div_mul by lia. rewrite mult_INR. cbn [INR]. field. }
  assert (U : forall m, Uax n m = 2 * IZR (Z.of_nat m - Z.of_nat (n / 2)) / INR n).
  { intros m. unfold Uax. rewrite Hh, minus_IZR, <- !INR_IZR_INZ. field. apply INR_pos_neq, Hn. }
  transitivity (Cmult (W n (Dx * (Z.of_nat (shift_ix n i) - Z.of_nat (n / 2))))
                      (W n (Dy * (Z.of_nat (shift_ix n j) - Z.of_nat (n / 2))))).
  - rewrite WW. unfold phasor. rewrite <- Cpolar.
    match goal with |- (cos ?a, sin ?a) = (cos ?b, sin ?b) => replace a with b; [reflexivity|] end.
    rewrite !U. unfold ang. rewrite !mult_IZR, <- Ex, <- Ey. field. apply INR_pos_neq, Hn.
  - assert (K : forall D m, W n (D * (Z.of_nat (shift_ix n m) - Z.of_nat (n / 2))) = W n (D * Z.of_nat m)).
    { intros D m. apply W_mod; [exact Hn|]. destruct (shift_ix_cong n m Hn) as (q & ->).
      assert (H2 : (2 * Z.of_nat (n / 2) = Z.of_nat n)%Z).
      { apply Nat.even_spec in Hev. destruct Hev as (k & ->).
        rewrite (Nat.mul_comm 2 k), Nat.div_mul by lia. lia. }
      replace (D * (Z.of_nat m - Z.of_nat (n / 2) + Z.of_nat n * q - Z.of_nat (n / 2)))%Z
        with (D * Z.of_nat m + (D * (q - 1)) * Z.of_nat n)%Z by (rewrite <- H2; ring).
      apply Z.mod_add. lia. }
    rewrite !K. reflexivity.
Qed.

Definition cyc (n : nat) (i : nat) (D : Z) : nat := Z.to_nat ((Z.of_nat i + D) mod Z.of_nat n).
Lemma cyc_lt n i D : (0 < n)%nat -> (cyc n i D < n)%nat.
Proof. intros Hn. unfold cyc. assert (H := Z.mod_pos_bound (Z.of_nat i + D) (Z.of_nat n) ltac:(lia)). lia. Qed.

Lemma idft2_modulate n x (Dx Dy : Z) u v :
  (0 < n)%nat ->
  idft2 n n (fun i j => Cmult (x i j) (Cmult (W n (Dx * Z.of_nat i)) (W n (Dy * Z.of_nat j)))) (cyc n u Dx) (cyc n v Dy)
  = idft2 n n x u v.
Proof.
  intros Hn. unfold idft2. f_equal. apply csum_ext; intros i _. apply csum_ext; intros j _.
  rewrite <- Cmult_assoc. f_equal.
  assert (K : forall D m k, Cmult (W n (D * k)) (W n (- (Z.of_nat (cyc n m D) * k))) = W n (- (Z.of_nat m * k))).
  { intros D m k. rewrite <- W_add. apply W_mod; [exact Hn|]. unfold cyc.
    assert (H := Z.mod_pos_bound (Z.of_nat m + D) (Z.of_nat n) ltac:(lia)).
    rewrite Z2Nat.id by lia.
    rewrite (Z.mod_eq (Z.of_nat m + D)) by lia. set (q := ((Z.of_nat m + D) / Z.of_nat n)%Z).
    replace (D * k + - ((Z.of_nat m + D - Z.of_nat n * q) * k))%Z
      with (- (Z.of_nat m * k) + (q * k) * Z.of_nat n)%Z by ring.
    apply Z.mod_add. lia. }
  rewrite <- (K Dx u (Z.of_nat i)), <- (K Dy v (Z.of_nat j)). ring.
Qed.

Definition raw_psf (otf : carr) : img := re_img (fftshift (ifft2 (fftshift otf))).

Lemma shift_cyc n u D : (0 < n)%nat -> shift_ix n (cyc n u D) = cyc n (shift_ix n u) D.
Proof.
  intros Hn. assert (Hn' : (Z.of_nat n <> 0)%Z) by lia.
  apply Nat2Z.inj. unfold shift_ix, cyc.
  assert (H := Z.mod_pos_bound (Z.of_nat u + D) (Z.of_nat n) ltac:(lia)).
  rewrite Nat2Z.inj_mod, Nat2Z.inj_add. rewrite Z2Nat.id by lia.
  rewrite Z.add_mod_idemp_l by lia.
  rewrite Z2Nat.id by (apply Z.mod_pos_bound; lia).
  rewrite Nat2Z.inj_mod, Nat2Z.inj_add. rewrite Z.add_mod_idemp_l by lia. f_equal. lia.
Qed.

Lemma raw_psf_shift n sf ncpa pix K b dx dy Dx Dy u v :
  (0 < n)%nat -> Nat.even n = true -> b * dx = IZR Dx -> b * dy = IZR Dy ->
  px (raw_psf (otf_product n sf ncpa pix K (phasor n b dx dy))) (cyc n u Dx) (cyc n v Dy) =
  px (raw_psf (otf_product n sf ncpa pix K (fun _ _ => RtoC 1))) u v.
Proof.
  intros Hn Hev Ex Ey. unfold raw_psf, re_img, fftshift, ifft2, otf_product; cbn [px crows ccols cpx].
  rewrite !shift_cyc by exact Hn. f_equal.
  rewrite <- (idft2_modulate n _ Dx Dy (shift_ix n u) (shift_ix n v) Hn).
  apply idft2_ext. intros i j _ _. rewrite (phasor_W n b dx dy Dx Dy i j Hn Hev Ex Ey).
  rewrite <- !Cmult_assoc. f_equal. ring.
Qed.
