(** C95: Strehl ratio. *)
From Coq Require Import Reals List Arith ZArith Lia Lra Psatz Bool.
From Coq Require Import ZifyBool ZifyNat.
From Flocq Require Import Core.
From Verif Require Import Base_Py Base_Sum Base_DFT M_Image S_Image L_Image L_Image2 M_Fourier S_Fourier L_Fourier L_Fourier2 L_Fourier3 S_Metric3 M_Metric3 L_Strehl P_Metric9.
From Coquelicot Require Import Complex.
Import ListNotations.
Open Scope R_scope.

(** sum of all the samples of the transform = N times the first sample *)
Lemma csum2_dft2 nx ny x : (0 < nx)%nat -> (0 < ny)%nat ->
  csum nx (fun u => csum ny (fun v => dft2 nx ny x u v)) = Cmult (RtoC (INR nx * INR ny)) (x 0%nat 0%nat).
Proof.
  intros Hx Hy. assert (E := idft2_dft2 nx ny x 0 0 Hx Hy). unfold idft2 in E.
  rewrite <- E. rewrite Cmult_assoc, <- RtoC_mult.
  assert (INR nx <> 0) by (apply INR_pos_neq; exact Hx). assert (INR ny <> 0) by (apply INR_pos_neq; exact Hy).
  replace (INR nx * INR ny * / (INR nx * INR ny)) with 1 by (field; split; assumption). rewrite Cmult_1_l.
  apply csum_ext; intros i _. apply csum_ext; intros j _. rewrite !Z.mul_0_l. cbn [Z.opp]. rewrite !W_0. ring.
Qed.

Lemma psf2otf_val psf : (0 < rows psf)%nat -> (0 < cols psf)%nat -> nonneg psf -> 0 < img_sum psf ->
  exists o, psf2otf psf = Ok o /\ crows o = rows psf /\ ccols o = cols psf /\
    carr_max (fftshift o) = Ok (RtoC 1) /\
    csum_arr (fftshift o) = RtoC (INR (rows psf) * INR (cols psf) * px psf (shift_ix (rows psf) 0) (shift_ix (cols psf) 0) / img_sum psf).
Proof.
  intros Hr Hc Hn Hs. unfold psf2otf.
  replace (cis_empty (to_c psf)) with false by (unfold cis_empty; cbn [crows ccols to_c]; lia).
  destruct (Req_EM_T (img_sum psf) 0) as [Q|_]; [lra|].
  eexists. split; [reflexivity|]. split; [reflexivity|]. split; [reflexivity|].
  assert (C0 : cpx (fft2 (fftshift (to_c psf))) 0 0 = RtoC (img_sum psf)).
  { rewrite cov_val by assumption. change (Z.of_nat 0) with 0%Z. rewrite covre_0, covim_0. apply C_eq; cbn; lra. }
  split.
  - set (o := fftshift _).
    rewrite (carr_max_at o (rows psf / 2) (cols psf / 2)).
    + f_equal. unfold o. cbn [fftshift cmap cpx crows ccols fft2 to_c]. rewrite !shift_half by assumption.
      change (dft2 (rows psf) (cols psf) (fun i j => RtoC (px psf (shift_ix (rows psf) i) (shift_ix (cols psf) j))) 0 0) with (cpx (fft2 (fftshift (to_c psf))) 0 0).
      rewrite C0, <- RtoC_div by lra. f_equal. apply Rinv_r. lra.
    + apply half_lt; assumption.
    + apply half_lt; assumption.
    + intros i j _ _. unfold o. cbn [fftshift cmap cpx crows ccols fft2 to_c]. rewrite !shift_half by assumption.
      set (F := dft2 (rows psf) (cols psf) _).
      assert (D := cov_dominates psf (shift_ix (rows psf) i) (shift_ix (cols psf) j) Hr Hc Hn).
      change (dominates (F 0%nat 0%nat) (F (shift_ix (rows psf) i) (shift_ix (cols psf) j))) in D.
      destruct D as [D|D]; [left|right].
      * generalize (F 0%nat 0%nat), (F (shift_ix (rows psf) i) (shift_ix (cols psf) j)), D. intros a b L.
        unfold Cdiv. assert (I : Cinv (RtoC (img_sum psf)) = RtoC (/ img_sum psf)) by (rewrite <- RtoC_inv by lra; reflexivity). rewrite I. cbn [Cmult RtoC fst snd].
        assert (0 < / img_sum psf) by (apply Rinv_0_lt_compat; exact Hs). nra.
      * rewrite D. reflexivity.
  - unfold csum_arr. cbn [fftshift cmap crows ccols cpx fft2 to_c].
    rewrite (csum_shift (rows psf) (fun i => csum (cols psf) (fun j => Cdiv (dft2 (rows psf) (cols psf)
       (fun i0 j0 => RtoC (px psf (shift_ix (rows psf) i0) (shift_ix (cols psf) j0))) i (shift_ix (cols psf) j)) (RtoC (img_sum psf)))) Hr).
    rewrite (csum_ext _ _ (fun i => Cmult (csum (cols psf) (fun j => dft2 (rows psf) (cols psf)
       (fun i0 j0 => RtoC (px psf (shift_ix (rows psf) i0) (shift_ix (cols psf) j0))) i j)) (Cinv (RtoC (img_sum psf))))).
    + rewrite csum_scal_r, csum2_dft2 by assumption.
      rewrite <- RtoC_mult, <- RtoC_inv, <- RtoC_mult by lra. reflexivity.
    + intros i _. rewrite (csum_shift (cols psf) (fun j => Cdiv (dft2 (rows psf) (cols psf)
         (fun i0 j0 => RtoC (px psf (shift_ix (rows psf) i0) (shift_ix (cols psf) j0))) i j) (RtoC (img_sum psf))) Hc).
      unfold Cdiv. apply csum_scal_r.
Qed.

(** largest value of the self-convolution of the zero-padded pupil *)
Definition conv_peak (n m : nat) (e : nat -> nat -> R) (peak : R) : Prop :=
  (exists s t, self_convolution n m e s t = peak) /\ forall s t, self_convolution n m e s t <= peak.

Lemma conv_mod n m e s t : (0 < n)%nat -> (0 < m)%nat -> self_convolution n m e s t = self_convolution n m e (s mod n) (t mod m).
Proof.
  intros Hn Hm. unfold self_convolution. apply rsum_ext; intros a _. apply rsum_ext; intros b _.
  rewrite (Nat.add_mod_idemp_l s (n - a) n), (Nat.add_mod_idemp_l t (m - b) m) by lia. reflexivity.
Qed.
Lemma ix_cover n s : (0 < n)%nat -> exists i, (i < n)%nat /\ ((i + 3 * (n - n / 2)) mod n = s mod n)%nat.
Proof.
  intros Hn. exists ((s + 3 * (n / 2)) mod n)%nat. split; [apply Nat.mod_upper_bound; lia|].
  rewrite Nat.add_mod_idemp_l by lia.
  assert (n / 2 <= n)%nat by (apply Nat.div_le_upper_bound; lia).
  replace (s + 3 * (n / 2) + 3 * (n - n / 2))%nat with (s + 3 * n)%nat by lia. apply Nat.mod_add. lia.
Qed.

(** 'otf' method, image of the size of the OTF: the Strehl ratio is the value of one
    pixel (the one of index (n+1)/2 on each axis) over the mean of the image, multiplied by the
    peak of the pupil's self-convolution over the square of its total, rounded. The image
    is left as it was. *)
Theorem C95_strehl interp rec psf pup p q nR b o :
  (0 < q < p)%Z -> (0 < rows pup)%nat -> (0 < cols pup)%nat -> nonneg pup -> 0 < img_sum pup ->
  nonneg psf -> 0 < img_sum psf ->
  telescopeOtf interp pup p q = Ok o -> crows o = rows psf -> ccols o = cols psf ->
  let n := rows psf in let m := cols psf in
  exists pr pc e peak, zero_padded pup pr pc e /\ n = (rows pup + 2 * pr)%nat /\ m = (cols pup + 2 * pc)%nat /\
    conv_peak n m e peak /\ 0 < peak /\
    getStrehl interp rec psf pup p q false nR SOtf b =
      Ok (psf, np_round (INR n * INR m * px psf ((n + 1) / 2 mod n) ((m + 1) / 2 mod m) / img_sum psf
                         * (peak / (img_sum pup * img_sum pup))) nR).
Proof.
  intros HQ Hr Hc Hn Hs Hnp Hsp Ho Or Oc n m.
  destruct (C95_otf interp pup p q HQ Hr Hc Hn Hs) as (pr & pc & e & o' & peak & Ho' & HP & Er & Ec & _ & _ & Pos & Hv & (i0 & j0 & Hi0 & Hj0 & H1) & HS).
  rewrite Ho in Ho'. apply Ok_inj in Ho'. subst o'. rewrite Or, Oc in *. fold n m in Er, Ec, Hv, Hi0, Hj0, HS.
  exists pr, pc, e, peak. split; [exact HP|]. split; [exact Er|]. split; [exact Ec|].
  split; [split|].
  - destruct (Hv i0 j0 Hi0 Hj0) as [V _]. rewrite H1 in V. apply RtoC_inj in V.
    exists (i0 + 3 * (n - n / 2))%nat, (j0 + 3 * (m - m / 2))%nat.
    apply (f_equal (fun x => x * peak)) in V. field_simplify in V; lra.
  - intros s t. destruct (ix_cover n s ltac:(lia)) as (i & Hi & Ei). destruct (ix_cover m t ltac:(lia)) as (j & Hj & Ej).
    destruct (Hv i j Hi Hj) as [_ B]. rewrite (conv_mod n m e s t) by lia. rewrite <- Ei, <- Ej, <- conv_mod by lia. apply B.
  - split; [exact Pos|].
    destruct (psf2otf_val psf ltac:(unfold n in *; lia) ltac:(unfold m in *; lia) Hnp Hsp) as (f & Hf & Fr & Fc & Fm & Fs).
    unfold getStrehl. cbn [bind]. rewrite Ho. cbn [bind]. rewrite Hf. cbn [bind]. rewrite Fm. cbn [bind].
    unfold cdiv_arr. destruct (Ceq_dec (RtoC 1) (RtoC 0)) as [Q|_]; [apply RtoC_inj in Q; lra|]. cbn [bind].
    unfold interpolateSupport. cbn [cmap fftshift crows ccols]. rewrite Or, Oc, Fr, Fc, !Z.eqb_refl. cbn [andb bind].
    assert (HS' : csum_arr o = RtoC (img_sum pup * img_sum pup / peak)) by (unfold csum_arr; rewrite Or, Oc; exact HS).
    assert (PP : 0 < img_sum pup * img_sum pup / peak).
    { apply Rmult_lt_0_compat; [apply Rmult_lt_0_compat; assumption|apply Rinv_0_lt_compat; exact Pos]. }
    rewrite HS'. destruct (Ceq_dec _ (RtoC 0)) as [Q|_]; [apply RtoC_inj in Q; lra|].
    f_equal. f_equal. f_equal.
    assert (E1 : csum_arr (cmap (fun w => Cdiv w (RtoC 1)) (fftshift f)) = csum_arr (fftshift f)).
    { unfold csum_arr. cbn [cmap crows ccols cpx]. apply csum_ext; intros i _. apply csum_ext; intros j _. apply C_eq; cbn; field. }
    rewrite E1, Fs, <- RtoC_div by lra. cbn [RtoC fst].
    assert (SI : forall k, (0 < k)%nat -> shift_ix k 0 = ((k + 1) / 2 mod k)%nat).
    { intros k Hk. unfold shift_ix. f_equal. cbn [Nat.add]. assert (D := Nat.div_mod k 2 ltac:(lia)). assert (D' := Nat.div_mod (k + 1) 2 ltac:(lia)).
      assert (k mod 2 < 2)%nat by (apply Nat.mod_upper_bound; lia). assert ((k + 1) mod 2 < 2)%nat by (apply Nat.mod_upper_bound; lia). lia. }
    rewrite !SI by (unfold n, m in *; lia). unfold n, m. field. split; [|split]; lra.
Qed.

(** The 'otf' Strehl ratio does not depend on the flux of the image. *)
Theorem C95_strehl_flux interp rec psf pup p q nR b o c :
  (0 < q < p)%Z -> (0 < rows pup)%nat -> (0 < cols pup)%nat -> nonneg pup -> 0 < img_sum pup ->
  nonneg psf -> 0 < img_sum psf -> 0 < c ->
  telescopeOtf interp pup p q = Ok o -> crows o = rows psf -> ccols o = cols psf ->
  exists s, getStrehl interp rec psf pup p q false nR SOtf b = Ok (psf, s) /\
    getStrehl interp rec (img_map (fun v => c * v) psf) pup p q false nR SOtf b = Ok (img_map (fun v => c * v) psf, s).
Proof.
  intros HQ Hr Hc Hn Hs Hnp Hsp Hcp Ho Or Oc.
  assert (S2 : img_sum (img_map (fun v => c * v) psf) = c * img_sum psf).
  { unfold img_sum, img_map; cbn [rows cols px]. rewrite <- rsum_scal. apply rsum_ext; intros i _. rewrite rsum_scal. reflexivity. }
  destruct (C95_strehl interp rec psf pup p q nR b o HQ Hr Hc Hn Hs Hnp Hsp Ho Or Oc) as (pr & pc & e & k & P & E1 & E2 & K & Kp & G).
  destruct (C95_strehl interp rec (img_map (fun v => c * v) psf) pup p q nR b o HQ Hr Hc Hn Hs) as (pr' & pc' & e' & k' & P' & E1' & E2' & K' & Kp' & G').
  - intros i j Hi Hj. cbn [img_map px]. apply Rmult_le_pos; [lra|apply Hnp; assumption].
  - rewrite S2. nra.
  - exact Ho.
  - exact Or.
  - exact Oc.
  - cbn [img_map rows cols px] in *.
    assert (EQ : forall i j, e i j = e' i j).
    { assert (pr = pr') by lia. assert (pc = pc') by lia. subst pr' pc'. destruct P as [A1 A2], P' as [A1' A2']. intros i j.
      destruct (le_lt_dec pr i) as [A|A]; [|rewrite A2, A2' by lia; reflexivity].
      destruct (le_lt_dec (pr + rows pup) i) as [B|B]; [rewrite A2, A2' by lia; reflexivity|].
      destruct (le_lt_dec pc j) as [C|C]; [|rewrite A2, A2' by lia; reflexivity].
      destruct (le_lt_dec (pc + cols pup) j) as [D|D]; [rewrite A2, A2' by lia; reflexivity|].
      replace i with (pr + (i - pr))%nat by lia. replace j with (pc + (j - pc))%nat by lia.
      rewrite A1, A1' by lia. reflexivity. }
    assert (KK : k = k').
    { destruct K as [(s & t & K1) K2], K' as [(s' & t' & K1') K2'].
      assert (CE : forall u v, self_convolution (rows psf) (cols psf) e u v = self_convolution (rows psf) (cols psf) e' u v).
      { intros u v. unfold self_convolution. apply rsum_ext; intros x _. apply rsum_ext; intros y _. rewrite !EQ. reflexivity. }
      apply Rle_antisym; [rewrite <- K1, CE; apply K2'|rewrite <- K1', <- CE; apply K2]. }
    eexists. split; [exact G|]. rewrite G'. f_equal. f_equal. f_equal. rewrite S2, KK. field. split; lra.
Qed.

(** Finding: for an image of odd size the pixel read is not the central one. An image whose
    light is all in its central pixel has a Strehl ratio of zero. *)
Theorem C95_odd_refuted interp rec psf pup p q nR b o :
  (0 < q < p)%Z -> (0 < rows pup)%nat -> (0 < cols pup)%nat -> nonneg pup -> 0 < img_sum pup ->
  nonneg psf -> 0 < img_sum psf ->
  telescopeOtf interp pup p q = Ok o -> crows o = rows psf -> ccols o = cols psf ->
  Nat.odd (rows psf) = true -> (3 <= rows psf)%nat ->
  (forall i j, (i, j) <> (rows psf / 2, cols psf / 2)%nat -> px psf i j = 0) ->
  getStrehl interp rec psf pup p q false nR SOtf b = Ok (psf, 0).
Proof.
  intros HQ Hr Hc Hn Hs Hnp Hsp Ho Or Oc Od H3 HZ.
  destruct (C95_strehl interp rec psf pup p q nR b o HQ Hr Hc Hn Hs Hnp Hsp Ho Or Oc) as (pr & pc & e & k & P & E1 & E2 & K & Kp & G).
  rewrite G. f_equal. f_equal. rewrite HZ.
  - unfold np_round. replace (_ * 10 ^ nR) with (IZR 0) by (cbn; field; split; lra).
    rewrite Znearest_imp with (n := 0%Z); [cbn; unfold Rdiv; apply Rmult_0_l|]. rewrite Rminus_diag_eq, Rabs_R0 by reflexivity. lra.
  - apply Nat.odd_spec in Od. destruct Od as [h Hh]. rewrite Hh. intros Q. apply (f_equal fst) in Q. cbn [fst] in Q.
    replace ((2 * h + 1 + 1) / 2)%nat with (h + 1)%nat in Q by (replace (2 * h + 1 + 1)%nat with ((h + 1) * 2)%nat by lia; symmetry; apply Nat.div_mul; lia).
    replace ((2 * h + 1) / 2)%nat with h in Q by (replace (2 * h + 1)%nat with (1 + h * 2)%nat by lia; rewrite Nat.div_add by lia; reflexivity).
    rewrite Nat.mod_small in Q by lia. lia.
Qed.

Lemma img_max_ok a : (0 < rows a)%nat -> (0 < cols a)%nat -> exists m, img_max a = Ok m.
Proof.
  intros Hr Hc. unfold img_max, list_max. destruct (pixels a) as [|x l] eqn:E; [|eexists; reflexivity].
  exfalso. assert (I : In (px a 0 0) (pixels a)) by (apply pixels_in; exists 0%nat, 0%nat; auto). rewrite E in I. destruct I.
Qed.
Lemma img_max_div a s mx : 0 < s -> img_max (img_map (fun v => v / s) a) = Ok mx -> exists m, img_max a = Ok m /\ mx = m / s.
Proof.
  intros Hs H. apply img_max_spec in H. destruct H as [H1 (i & j & Hi & Hj & E)]. cbn [img_map rows cols px] in *.
  destruct (img_max_ok a) as [m Hm]; [lia|lia|]. exists m. split; [exact Hm|].
  apply img_max_spec in Hm. destruct Hm as [M1 (i' & j' & Hi' & Hj' & E')].
  assert (0 < / s) by (apply Rinv_0_lt_compat; exact Hs).
  apply Rle_antisym.
  - rewrite <- E. apply Rmult_le_compat_r; [lra|]. apply M1; assumption.
  - rewrite <- E'. apply H1; assumption.
Qed.

(** 'max' method: peak of the normalised image over that of the diffraction-limited PSF. (Finding:
    the caller's image is divided by its total, and negative pixels are not clipped.) *)
Theorem C95_strehl_max interp rec psf pup p q nR b a s :
  getStrehl interp rec psf pup p q false nR SMax b = Ok (a, s) -> 0 < img_sum psf ->
  exists o dl mx mdl, telescopeOtf interp pup p q = Ok o /\ otf2psf o b = Ok dl /\
    img_max psf = Ok mx /\ img_max dl = Ok mdl /\ mdl <> 0 /\
    s = np_round (mx / img_sum psf / mdl) nR /\
    a = img_map (fun v => v / img_sum psf) psf.
Proof.
  intros H Ps. unfold getStrehl in H. cbn [bind] in H.
  destruct (telescopeOtf interp pup p q) as [o|er] eqn:Ho; [|discriminate]. cbn [bind] in H.
  destruct (otf2psf o b) as [dl|er] eqn:Hd; [|discriminate]. cbn [bind] in H.
  assert (S1 := otf2psf_sum _ _ _ Hd). rewrite S1 in H.
  unfold img_div in H. destruct (Req_EM_T 1 0) as [Q|_]; [lra|]. cbn [bind] in H.
  destruct (Req_EM_T (img_sum psf) 0) as [Q|Q]; [discriminate|]. cbn [bind] in H.
  destruct (img_max (img_map (fun v => v / img_sum psf) psf)) as [mx|er] eqn:Hm; [|discriminate]. cbn [bind] in H.
  destruct (img_max (img_map (fun v => v / 1) dl)) as [md|er] eqn:Hmd; [|discriminate]. cbn [bind] in H.
  destruct (Req_EM_T md 0) as [Q'|Q']; [discriminate|]. apply Ok_inj in H. injection H as <- <-.
  destruct (img_max_div _ _ _ Ps Hm) as (m & Hm1 & Hm2). destruct (img_max_div _ _ _ Rlt_0_1 Hmd) as (m' & Hm1' & Hm2').
  assert (md = m') by (rewrite Hm2'; field). subst md.
  exists o, dl, m, m'. split; [reflexivity|]. split; [exact Hd|]. split; [exact Hm1|]. split; [exact Hm1'|]. split; [lra|]. split; [|reflexivity]. rewrite Hm2, H. reflexivity.
Qed.
Theorem C95_inplace_refuted interp rec psf pup p q nR b a s i j :
  getStrehl interp rec psf pup p q false nR SMax b = Ok (a, s) -> 0 < img_sum psf -> img_sum psf <> 1 -> px psf i j <> 0 ->
  px a i j <> px psf i j.
Proof.
  intros H Ps H1 Hp E. destruct (C95_strehl_max _ _ _ _ _ _ _ _ _ _ H Ps) as (o & dl & mx & mdl & _ & _ & _ & _ & _ & _ & ->).
  cbn [img_map px] in E. apply H1. apply (f_equal (fun x => x * img_sum psf)) in E. field_simplify in E; [|lra].
  assert (px psf i j * (1 - img_sum psf) = 0) by lra. apply Rmult_integral in H0. destruct H0; [contradiction|lra].
Qed.

(** Finding: the OTF is a self-convolution, not the autocorrelation. For an L-shaped pupil
    of three pixels the value at zero frequency (the centre (2,2) of the 4x4 array) is 0, where that
    of an OTF is 1, and the total is 9/2 where the autocorrelation gives 3. *)
Definition ell : img := mkImg 2 2 (fun i j => if (i + j <? 2)%nat then 1 else 0).
Fixpoint zsum (n : nat) (f : nat -> Z) : Z := match n with O => 0%Z | S k => (zsum k f + f k)%Z end.
Lemma rsum_IZR n f : rsum n (fun i => IZR (f i)) = IZR (zsum n f).
Proof. induction n as [|n IH]; cbn [rsum zsum]; [reflexivity|]. rewrite IH, plus_IZR. reflexivity. Qed.
Definition zconv (n m : nat) (z : nat -> nat -> Z) s t : Z :=
  zsum n (fun a => zsum m (fun b => z a b * z ((s + (n - a)) mod n)%nat ((t + (m - b)) mod m)%nat)%Z).
Lemma conv_IZR n m z s t : self_convolution n m (fun i j => IZR (z i j)) s t = IZR (zconv n m z s t).
Proof.
  unfold self_convolution, zconv. rewrite <- rsum_IZR. apply rsum_ext; intros a _. rewrite <- rsum_IZR.
  apply rsum_ext; intros b _. rewrite mult_IZR. reflexivity.
Qed.
Definition zell (i j : nat) : Z := if ((1 <=? i) && (1 <=? j) && (i + j <? 4))%nat%bool then 1%Z else 0%Z.

Theorem C95_convolution_refuted : forall interp, exists o,
  telescopeOtf interp ell 2 1 = Ok o /\ crows o = 4%nat /\ ccols o = 4%nat /\
  cpx o 2 2 = RtoC 0 /\
  csum 4 (fun i => csum 4 (fun j => cpx o i j)) = RtoC (9 / 2) /\
  img_sum ell = 3 /\ img_sum (img_map (fun v => v * v) ell) = 3.
Proof.
  intros interp.
  assert (NN : nonneg ell) by (intros i j _ _; cbn [px ell]; destruct (_ <? _)%nat; lra).
  assert (S3 : img_sum ell = 3) by (unfold img_sum, ell; cbn; lra).
  destruct (C95_otf interp ell 2 1 ltac:(lia) ltac:(cbn; lia) ltac:(cbn; lia) NN ltac:(lra))
    as (pr & pc & e & o & peak & Ho & HP & Er & Ec & B1 & B2 & Pos & Hv & (i0 & j0 & Hi0 & Hj0 & H1) & HS).
  cbn [rows cols ell] in Er, Ec, B1, B2. assert (pr = 1%nat) by lia. assert (pc = 1%nat) by lia. subst pr pc.
  cbn [Nat.add Nat.mul] in Er, Ec. rewrite Er, Ec in *.
  assert (EE : forall i j, e i j = IZR (zell i j)).
  { destruct HP as [P1 P2]. cbn [rows cols ell px] in P1, P2. intros i j. unfold zell.
    destruct i as [|i]; [rewrite P2 by lia; reflexivity|]. destruct j as [|j]; [rewrite P2 by lia; reflexivity|].
    destruct (le_lt_dec 2 i); [rewrite P2 by lia; replace ((1 <=? S i) && (1 <=? S j) && (S i + S j <? 4))%nat%bool with false by lia; reflexivity|].
    destruct (le_lt_dec 2 j); [rewrite P2 by lia; replace ((1 <=? S i) && (1 <=? S j) && (S i + S j <? 4))%nat%bool with false by lia; reflexivity|].
    change (S i) with (1 + i)%nat. change (S j) with (1 + j)%nat. rewrite P1 by lia.
    destruct (Nat.ltb_spec (i + j) 2).
    - replace ((1 <=? 1 + i) && (1 <=? 1 + j) && (1 + i + (1 + j) <? 4))%nat%bool with true by lia. reflexivity.
    - replace ((1 <=? 1 + i) && (1 <=? 1 + j) && (1 + i + (1 + j) <? 4))%nat%bool with false by lia. reflexivity. }
  assert (CE : forall s t, self_convolution 4 4 e s t = IZR (zconv 4 4 zell s t)).
  { intros s t. rewrite <- conv_IZR. unfold self_convolution. apply rsum_ext; intros a _. apply rsum_ext; intros b _. rewrite !EE. reflexivity. }
  assert (PK : peak = 2).
  { apply Rle_antisym.
    - destruct (Hv i0 j0 Hi0 Hj0) as [V B]. rewrite H1 in V. apply RtoC_inj in V. rewrite CE in V.
      assert (Z2 : (zconv 4 4 zell (i0 + 3 * (4 - 4 / 2)) (j0 + 3 * (4 - 4 / 2)) <= 2)%Z).
      { destruct i0 as [|[|[|[|i0]]]]; [| | | |lia]; (destruct j0 as [|[|[|[|j0]]]]; [| | | |lia]); vm_compute; discriminate. }
      apply IZR_le in Z2. apply (f_equal (fun x => x * peak)) in V. field_simplify in V; [|lra]. lra.
    - destruct (Hv 1%nat 1%nat ltac:(lia) ltac:(lia)) as [_ B]. rewrite CE in B.
      replace (zconv 4 4 zell (1 + 3 * (4 - 4 / 2)) (1 + 3 * (4 - 4 / 2))) with 2%Z in B by (vm_compute; reflexivity). lra. }
  exists o. split; [exact Ho|]. split; [exact Er|]. split; [exact Ec|]. split; [|split].
  - destruct (Hv 2%nat 2%nat ltac:(lia) ltac:(lia)) as [V _]. rewrite V, CE. 
    replace (zconv 4 4 zell (2 + 3 * (4 - 4 / 2)) (2 + 3 * (4 - 4 / 2))) with 0%Z by (vm_compute; reflexivity). f_equal. unfold Rdiv. apply Rmult_0_l.
  - rewrite HS, S3, PK. f_equal. lra.
  - split; [exact S3|]. unfold img_sum, ell, img_map; cbn. lra.
Qed.

(** Non-vacuity: a 4x4 image and the L-shaped pupil meet the hypotheses; the Strehl ratio of the
    flat image is 2/9, rounded. *)
Definition flat4 : img := mkImg 4 4 (fun _ _ => 1).
Example C95_ex : forall interp rec, exists peak,
  getStrehl interp rec flat4 ell 2 1 false 5 SOtf false = Ok (flat4, np_round (1 * (peak / 9)) 5) /\ 0 < peak.
Proof.
  intros interp rec. destruct (C95_convolution_refuted interp) as (o & Ho & Or & Oc & _ & _ & S3 & _).
  destruct (C95_strehl interp rec flat4 ell 2 1 5 false o) as (pr & pc & e & k & P & E1 & E2 & K & Kp & G); try assumption.
  - lia.
  - cbn; lia.
  - cbn; lia.
  - intros i j _ _. cbn [px ell]. destruct (_ <? _)%nat; lra.
  - lra.
  - intros i j _ _. cbn [px flat4]. lra.
  - unfold img_sum, flat4. cbn. lra.
  - exists k. split; [|exact Kp]. rewrite G. f_equal. f_equal. f_equal. rewrite S3.
    unfold img_sum, flat4. cbn. lra.
Qed.
Example C95_sym_ex : forall interp, exists o, telescopeOtf interp (mkImg 2 2 (fun _ _ => 1)) 2 1 = Ok o /\ crows o = 4%nat /\ cpx o 1 1 = RtoC 1.
Proof.
  intros interp. destruct (C95_symmetric interp (mkImg 2 2 (fun _ _ => 1)) 2 1) as (pr & pc & e & o & Ho & P & Er & Ec & V & V1).
  - lia.
  - cbn; lia.
  - cbn; lia.
  - intros i j _ _. cbn [px]. lra.
  - unfold img_sum. cbn. lra.
  - intros i j _ _. reflexivity.
  - reflexivity.
  - reflexivity.
  - destruct (C95_otf interp (mkImg 2 2 (fun _ _ => 1)) 2 1) as (pr' & pc' & e' & o' & k & Ho' & _ & Er' & Ec' & B1 & B2 & _).
    + lia.
    + cbn; lia.
    + cbn; lia.
    + intros i j _ _. cbn [px]. lra.
    + unfold img_sum. cbn. lra.
    + rewrite Ho in Ho'. apply Ok_inj in Ho'. subst o'. cbn [rows cols] in *.
      assert (pr' = 1%nat) by lia. assert (pc' = 1%nat) by lia. subst pr' pc'. cbn [Nat.add Nat.mul] in Er', Ec'.
      exists o. split; [exact Ho|]. split; [exact Er'|]. rewrite Er', Ec' in V1. exact V1.
Qed.

Print Assumptions C95_strehl.
Print Assumptions C95_strehl_flux.
Print Assumptions C95_odd_refuted.
Print Assumptions C95_strehl_max.
Print Assumptions C95_inplace_refuted.
Print Assumptions C95_convolution_refuted.
