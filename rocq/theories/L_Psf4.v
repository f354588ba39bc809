(** The PSF is non-negative. *)
From Coq Require Import Reals List Arith ZArith Lia Lra.
From Verif Require Import Base_Py Base_Sum Base_DFT M_Image S_Image L_Image L_Image2 M_Fourier S_Fourier L_Fourier L_Fourier2 L_Fourier3 L_Fourier4 M_Float L_Float M_Psf L_Psf L_Psf2 L_Psf3 L_PosDef.
From Coquelicot Require Import Complex.
Import ListNotations.
Open Scope R_scope.

Definition cshift (n : nat) (f : nat -> nat -> C) : nat -> nat -> C := fun i j => f (shift_ix n i) (shift_ix n j).

Lemma shift_shift n i : Nat.even n = true -> (i < n)%nat -> shift_ix n (shift_ix n i) = i.
Proof. intros He Hi. rewrite (even_shift n i He). apply shift_ishift, Hi. Qed.

Lemma Pd_pupil2otf pup phase p q o n :
  (0 < n)%nat -> Nat.even n = true -> pupil2otf pup phase p q = Ok o -> crows o = n -> ccols o = n ->
  Pd n (cshift n (cpx o)).
Proof.
  intros Hn He H Hr Hc. unfold pupil2otf in H.
  destruct (negb _); [discriminate|].
  assert (G : forall E c, fftCorrel E E = Ok c -> crows c = n -> ccols c = n ->
     Pd n (cshift n (cpx (fftshift c)))).
  { intros E c Ec Rc Cc.
    assert (SE : (0 < crows E)%nat /\ (0 < ccols E)%nat).
    { unfold fftCorrel in Ec. destruct (negb _); [discriminate|]. destruct (cis_empty E) eqn:Em; [discriminate|].
      unfold cis_empty in Em. apply Bool.orb_false_iff in Em. destruct Em as [A B].
      apply Nat.eqb_neq in A. apply Nat.eqb_neq in B. lia. }
    destruct SE as [SR SC].
    destruct (fftCorrel_val E E SR SC eq_refl eq_refl) as (c' & Ec' & R' & C' & V).
    rewrite Ec in Ec'. apply Ok_inj in Ec'. subst c'.
    assert (RE : crows E = n) by congruence. assert (CE : ccols E = n) by congruence.
    apply (Pd_ext n (fun i j => Cmult (RtoC (/ (INR n * INR n))) (ccorr n n (cpx E) (cpx E) i j))).
    - intros i j Hi Hj. unfold cshift, fftshift; cbn [cpx]. rewrite Rc, Cc, !shift_shift by assumption.
      rewrite V, RE, CE.
      assert (NZ : INR n * INR n <> 0) by (apply Rmult_integral_contrapositive; split; apply INR_pos_neq; exact Hn).
      unfold Cdiv. rewrite RtoC_inv by exact NZ. ring.
    - apply Pd_scal; [|apply Pd_autocorr, Hn].
      left. apply Rinv_0_lt_compat, Rmult_lt_0_compat; apply lt_0_INR; exact Hn. }
  destruct (all_zero phase).
  - apply bind_Ok in H. destruct H as (E & EE & H). apply bind_Ok in H. destruct H as (c & Ec & H).
    apply Ok_inj in H. subst o. cbn [cmap crows ccols fftshift] in Hr, Hc.
    apply (Pd_re n (cshift n (cpx (fftshift c))) Hn). apply (G _ _ Ec); assumption.
  - apply bind_Ok in H. destruct H as (E & EE & H). apply bind_Ok in H. destruct H as (c & Ec & H).
    apply Ok_inj in H. subst o. cbn [crows ccols fftshift] in Hr, Hc. apply (G _ _ Ec); assumption.
Qed.

(** normalised real part *)
Lemma Pd_static pup phase p q o n s :
  (0 < n)%nat -> Nat.even n = true -> pupil2otf pup phase p q = Ok o -> crows o = n -> ccols o = n ->
  norm_max (re_img o) = Ok s -> (forall m, img_max (re_img o) = Ok m -> 0 <= m) ->
  Pd n (cshift n (fun i j => RtoC (px s i j))).
Proof.
  intros Hn He Ho Hr Hc Hs Hm. unfold norm_max in Hs. apply bind_Ok in Hs. destruct Hs as (m & Em & Hs).
  unfold img_div in Hs. destruct (Req_EM_T m 0) as [|Ne]; [discriminate|]. apply Ok_inj in Hs. subst s.
  specialize (Hm m Em).
  assert (P := Pd_re n _ Hn (Pd_pupil2otf _ _ _ _ _ _ Hn He Ho Hr Hc)).
  assert (Hi : 0 <= / m) by (left; apply Rinv_0_lt_compat; lra).
  apply (Pd_ext n _ _ (fun i j _ _ => eq_refl)).
  apply (Pd_ext n _ (cshift n (fun i j => RtoC (px (img_map (fun v => v / m) (re_img o)) i j))) ) with (2 := Pd_scal n (/ m) _ Hi P).
  intros i j _ _. unfold cshift, img_map, re_img; cbn [px]. rewrite <- RtoC_mult. f_equal. unfold Rdiv. ring.
Qed.

Lemma raw_nonneg n psd sf stat pix ph :
  (0 < n)%nat -> Nat.even n = true -> rows psd = n -> cols psd = n -> nonneg psd ->
  phaseStructureFunction psd = Ok sf ->
  Pd n (cshift n (fun i j => RtoC (px stat i j))) -> Pd n (cshift n (fun i j => RtoC (px pix i j))) ->
  Pd n (cshift n ph) ->
  forall u v, 0 <= px (raw_psf (otf_product n (px sf) (px stat) (px pix) (fun _ _ => 1) ph)) u v.
Proof.
  intros Hn He Hr Hc Hnn Hsf Ps Pp Pph u v.
  destruct (phase_sf_val psd ltac:(lia) ltac:(lia) Hnn) as (sf' & E & _ & _ & V).
  rewrite Hsf in E. apply Ok_inj in E. subst sf'.
  unfold raw_psf, re_img, fftshift, ifft2, otf_product; cbn [px cpx crows ccols].
  set (u' := shift_ix n u). set (v' := shift_ix n v).
  set (h1 := hup (rows psd)) in *. set (h2 := hup (cols psd)) in *.
  assert (Pn : Pd n (fun i j => RtoC (covre psd h1 h2 (Z.of_nat i) (Z.of_nat j)))).
  { apply Pd_cov; try assumption. intros i j Hi Hj. apply Hnn; congruence. }
  set (T := fun i j => Cmult (RtoC (exp (- img_sum psd))) (Cmult (Cmult (cshift n (fun i j => RtoC (px stat i j)) i j)
              (cshift n (fun i j => RtoC (px pix i j)) i j)) (cshift n ph i j))).
  assert (PT : Pd n T).
  { apply Pd_scal; [left; apply exp_pos|]. apply Pd_mult; [exact Hn| |exact Pph]. apply Pd_mult; assumption. }
  assert (M := exp_idft_nonneg n T _ u' v' Hn PT Pn).
  erewrite idft2_ext; [exact M|]. intros i j Hi Hj. cbv beta. unfold T, cshift.
  rewrite V. rewrite sf_covre.
  assert (EQ : covre psd h1 h2 (Z.of_nat (shift_ix n i) - Z.of_nat (rows psd / 2)) (Z.of_nat (shift_ix n j) - Z.of_nat (cols psd / 2))
     = covre psd h1 h2 (Z.of_nat i) (Z.of_nat j)).
  { rewrite <- wave_shift by lia. rewrite Hr, Hc, !shift_shift by assumption. reflexivity. }
  rewrite EQ. 
  replace (- / 2 * (2 * (img_sum psd - covre psd h1 h2 (Z.of_nat i) (Z.of_nat j))))
    with (- img_sum psd + covre psd h1 h2 (Z.of_nat i) (Z.of_nat j)) by field.
  rewrite exp_plus, !RtoC_mult. ring.
Qed.

Definition all_nonneg (a : img) : Prop := forall i j, 0 <= px a i j.
Lemma assign_nonneg m x y : assign_plane m x = Ok y -> all_nonneg x -> all_nonneg y.
Proof.
  unfold assign_plane. destruct (_ && _)%bool; [intros H; apply Ok_inj in H; subst; auto|].
  destruct (_ && _)%bool; [|discriminate]. intros H Hx. apply Ok_inj in H. subst y. intros i j. apply Hx.
Qed.
Lemma crop_nonneg x m : all_nonneg x -> all_nonneg (crop_to x m).
Proof. intros H i j. unfold crop_to, slice2; cbn [px]. apply H. Qed.
Lemma psf_plane_nonneg otf k fov npix p :
  psf_plane otf k fov npix = Ok p -> all_nonneg (raw_psf otf) -> all_nonneg p.
Proof.
  intros H Hr. unfold psf_plane in H. destruct (cis_empty otf); [discriminate|]. fold (raw_psf otf) in H.
  apply bind_Ok in H. destruct H as (tmp & Et & H).
  assert (Ht : all_nonneg tmp).
  { destruct (Nat.ltb_spec 1 k) as [L|L].
    - assert (Hk : (0 < k)%nat) by lia.
      destruct (binning_ok (raw_psf otf) k Hk) as (t & Eb & _ & _ & Vb). rewrite Et in Eb. apply Ok_inj in Eb. subst t.
      intros i j. rewrite Vb. apply rsum_nonneg; intros a _. apply rsum_nonneg; intros b _. apply Hr.
    - apply Ok_inj in Et. subst tmp. exact Hr. }
  destruct (Nat.eqb fov 0); [discriminate|]. destruct (Nat.eqb (rows tmp) 0); [discriminate|].
  apply bind_Ok in H. destruct H as (psf & Ep & H).
  assert (Hp := assign_nonneg _ _ _ Ep (crop_nonneg _ _ Ht)).
  destruct (npix <? fov)%nat; [|apply Ok_inj in H; subst; exact Hp].
  destruct (Nat.eqb npix 0); [discriminate|]. apply (assign_nonneg _ _ _ H (crop_nonneg _ _ Hp)).
Qed.
Lemma scale_nonneg p F b q : scale_psf p F b = Ok q -> all_nonneg p -> 0 <= F -> 0 <= b -> all_nonneg q.
Proof.
  intros H Hp HF Hb. unfold scale_psf in H. destruct (Req_EM_T (img_sum p) 0) as [|Ne]; [discriminate|].
  apply Ok_inj in H. subst q. intros i j. unfold img_map; cbn [px].
  assert (S : 0 <= img_sum p) by (apply rsum_nonneg; intros; apply rsum_nonneg; intros; apply Hp).
  apply Rplus_le_le_0_compat; [|exact Hb]. apply Rmult_le_pos; [|exact HF].
  apply Rmult_le_pos; [apply Hp|]. left. apply Rinv_0_lt_compat. lra.
Qed.

(** the whole chain from PSDs and a pupil *)
Lemma psf_chain_nonneg n kRef fov npix pup apod phase p q stat dl sfs psds (F : list R) (ax ay : list Z) bkg out srs :
  (0 < q)%Z -> (q <= p)%Z -> (0 < rows pup)%nat -> (0 < cols pup)%nat -> rows phase = rows pup -> cols phase = cols pup ->
  (exists i j, (i < rows pup)%nat /\ (j < cols pup)%nat /\ px pup i j * px apod i j <> 0) ->
  getStaticOTF (fun a => a) pup apod phase p q = Ok (stat, dl) -> rows stat = n -> cols stat = n -> Nat.even n = true ->
  Forall2 (fun psd sf => rows psd = n /\ cols psd = n /\ nonneg psd /\
              exists s, phaseStructureFunction psd = Ok s /\ sf = px s) psds sfs ->
  (1 <= kRef)%nat ->
  (forall f, In f F -> 0 <= f) -> 0 <= bkg ->
  sf_3D_to_psf_3D n kRef fov npix stat dl (mkImg n n (fun _ _ => 1)) None sfs F (map IZR ax) (map IZR ay) bkg = Ok (out, srs) ->
  forall im i j, In im out -> 0 <= px im i j.
Proof.
  intros Hq Hp Hr0 Hc0 Er Ec Hlight Hst Rs Cs He Hpsd Hk HF Hb H im i0 j0 Him.
  destruct (static_otf_dominated pup apod phase p q Hq Hp Hr0 Hc0 Er Ec Hlight) as (s' & d' & Hst' & R1 & C1 & Ct1 & _ & _).
  rewrite Hst in Hst'. apply Ok_inj in Hst'. injection Hst' as <- <-.
  assert (Pstat : (0 < n)%nat /\ Pd n (cshift n (fun i j => RtoC (px stat i j)))).
  { unfold getStaticOTF in Hst. cbv zeta in Hst.
    set (pa := mkImg (rows pup) (cols pup) (fun i j => px pup i j * px apod i j)) in *.
    apply bind_Ok in Hst. destruct Hst as (o & Eo & Hst). apply bind_Ok in Hst. destruct Hst as (st & Es & Hst).
    assert (st = stat).
    { destruct (all_zero phase); [apply Ok_inj in Hst; congruence|].
      apply bind_Ok in Hst. destruct Hst as (o0 & _ & Hst). apply bind_Ok in Hst. destruct Hst as (dd & _ & Hst). apply Ok_inj in Hst. congruence. }
    subst st.
    destruct (static_aberration pa phase p q Hq Hp Hr0 Hc0 Er Ec) as (o' & o0 & E & _ & _ & _ & _ & _ & _ & Ctr).
    rewrite Eo in E. apply Ok_inj in E. subst o'.
    assert (SZ : rows stat = crows o /\ cols stat = ccols o).
    { unfold norm_max in Es. apply bind_Ok in Es. destruct Es as (m & _ & Es). unfold img_div in Es.
      destruct (Req_EM_T m 0); [discriminate|]. apply Ok_inj in Es. subst stat. split; reflexivity. }
    assert (Ro : crows o = n) by (destruct SZ; congruence). assert (Co : ccols o = n) by (destruct SZ; congruence).
    assert (Hn : (0 < n)%nat).
    { unfold norm_max, img_max, list_max in Es. destruct n; [|lia].
      unfold pixels, re_img in Es; cbn [rows cols] in Es. rewrite Ro in Es. discriminate. }
    split; [exact Hn|]. apply (Pd_static pa phase p q o n stat Hn He Eo Ro Co Es).
    intros m Hm. apply img_max_spec in Hm. destruct Hm as [Hle _].
    specialize (Hle (crows o / 2)%nat (ccols o / 2)%nat). cbn [re_img rows cols px] in Hle.
    assert (Zo : (0 < crows o)%nat) by (rewrite Ro; exact Hn). assert (Zc : (0 < ccols o)%nat) by (rewrite Co; exact Hn). assert (X := Hle (half_lt _ Zo) (half_lt _ Zc)). rewrite Ctr in X.
    refine (Rle_trans _ _ _ _ X). apply Rmult_le_pos.
    - unfold energy. apply rsum_nonneg; intros. apply rsum_nonneg; intros. apply Rle_0_sqr.
    - left. apply Rinv_0_lt_compat, Rmult_lt_0_compat; apply lt_0_INR; assumption. }
  destruct Pstat as [Hn Pstat].
  apply In_nth_error in Him. destruct Him as (s & Hs).
  destruct (psf3D_flux _ _ _ _ _ _ _ _ _ _ _ _ _ _ _ H) as (Lo & _ & _).
  destruct (nth_error sfs s) as [sf|] eqn:Es.
  2:{ apply nth_error_None in Es. rewrite <- Lo in Es. apply nth_error_None in Es. congruence. }
  destruct (psf3D_inv _ _ _ _ _ _ _ _ _ _ _ _ _ _ _ H s sf Es) as (pl & qq & r & Hpl & Hsc & Hnq & _).
  rewrite Hs in Hnq. injection Hnq as <-.
  assert (exists psd, rows psd = n /\ cols psd = n /\ nonneg psd /\ exists s, phaseStructureFunction psd = Ok s /\ sf = px s)
    as (psd & Rp & Cp & Np & sfi & Hsfi & ->).
  { clear - Hpsd Es. revert s Es. induction Hpsd as [|a b l l' Hab Hl IH]; intros [|s] Es; cbn in Es; try discriminate.
    - injection Es as ->. exists a. exact Hab.
    - eapply IH; exact Es. }
  refine (scale_nonneg _ _ _ _ Hsc (psf_plane_nonneg _ _ _ _ _ Hpl _) _ Hb i0 j0).
  - unfold K3. intros u v. apply (raw_nonneg n psd sfi stat (mkImg n n (fun _ _ => 1)) (ph3 n kRef (map IZR ax) (map IZR ay) s)
       Hn He Rp Cp Np Hsfi Pstat).
    + unfold cshift; cbn [px]. apply Pd_one, Hn.
    + unfold cshift, ph3. destruct (_ || _)%bool; [|apply Pd_one, Hn].
      rewrite !per_source_IZR. fold (zper ax s) (zper ay s). rewrite bin3_val by exact Hk.
      apply (Pd_ext n (fun i j => Cmult (W n (Z.of_nat kRef * zper ax s * Z.of_nat i)) (W n (Z.of_nat kRef * zper ay s * Z.of_nat j)))).
      * intros i j _ _. symmetry. apply phasor_W; try assumption; rewrite mult_IZR, <- INR_IZR_INZ; reflexivity.
      * apply Pd_wave, Hn.
  - unfold per_source. assert (NN : 0 <= nth s F 0).
    { destruct (Nat.lt_ge_cases s (length F)) as [L|L]; [apply HF, nth_In, L|]. rewrite nth_overflow by exact L. lra. }
    destruct F as [|f [|f' F']]; [exact NN|apply HF; left; reflexivity|exact NN].
Qed.
