(** Corollaries for the Fourier properties. *)
From Coq Require Import Reals List Arith ZArith Lia Lra.
From Verif Require Import Base_Py Base_Sum Base_DFT M_Image S_Image L_Image L_Image2 M_Fourier S_Fourier L_Fourier L_Fourier2 L_Fourier3.
From Coquelicot Require Import Complex.
Open Scope R_scope.

Lemma covre_neg psd a0 b0 u v :
  (u < rows psd)%nat -> (v < cols psd)%nat ->
  covre psd a0 b0 (Z.of_nat (neg_ix (rows psd) u)) (Z.of_nat (neg_ix (cols psd) v))
  = covre psd a0 b0 (Z.of_nat u) (Z.of_nat v).
Proof.
  intros Hu Hv. rewrite <- covre_sym. unfold covre.
  apply rsum_ext; intros a _. apply rsum_ext; intros b _. f_equal.
  rewrite <- !wave_ang.
  assert (N : forall n w c, (w < n)%nat -> exists k : Z,
     ang n (- Z.of_nat (neg_ix n w) * c) = ang n (Z.of_nat w * c) + 2 * IZR k * PI).
  { intros n w c Hw. destruct (Nat.eq_dec w 0) as [ ->|H0].
    - exists 0%Z. rewrite neg_ix_0 by lia. change (- Z.of_nat 0)%Z with 0%Z. change (Z.of_nat 0) with 0%Z. rewrite Z.mul_0_l.
      rewrite ang_0. ring.
    - exists (- c)%Z. rewrite neg_ix_pos by lia. rewrite Nat2Z.inj_sub by lia.
      replace (- (Z.of_nat n - Z.of_nat w) * c)%Z with (Z.of_nat w * c + Z.of_nat n * (- c))%Z by ring.
      rewrite ang_add, ang_mul by lia. reflexivity. }
  destruct (N (rows psd) u (Z.of_nat a - Z.of_nat a0)%Z Hu) as (k & Ek).
  destruct (N (cols psd) v (Z.of_nat b - Z.of_nat b0)%Z Hv) as (l & El).
  rewrite Ek, El.
  replace (ang (rows psd) (Z.of_nat u * (Z.of_nat a - Z.of_nat a0)) + 2 * IZR k * PI +
     (ang (cols psd) (Z.of_nat v * (Z.of_nat b - Z.of_nat b0)) + 2 * IZR l * PI))
   with (ang (rows psd) (Z.of_nat u * (Z.of_nat a - Z.of_nat a0)) +
     ang (cols psd) (Z.of_nat v * (Z.of_nat b - Z.of_nat b0)) + 2 * IZR (k + l) * PI) by (rewrite plus_IZR; ring).
  apply cos_period_Z.
Qed.

Lemma sf_props (psd : img) (ps : R) : (0 < rows psd)%nat -> (0 < cols psd)%nat -> nonneg psd ->
  exists cov sf, psd2cov psd ps = Ok cov /\ cov2sf cov = Ok sf /\
    carr_max cov = Ok (cpx cov 0 0) /\ cpx cov 0 0 = RtoC (ps * ps * img_sum psd) /\
    crows sf = rows psd /\ ccols sf = cols psd /\
    cpx sf 0 0 = RtoC 0 /\
    forall u v, (u < rows psd)%nat -> (v < cols psd)%nat ->
      snd (cpx sf u v) = 0 /\ 0 <= fst (cpx sf u v) <= 4 * (ps * ps * img_sum psd) /\
      cpx sf (neg_ix (rows psd) u) (neg_ix (cols psd) v) = cpx sf u v.
Proof.
  intros Hx Hy Hn.
  destruct (psd_sf_val psd ps Hx Hy Hn) as (cov & sf & Ec & Em & Es & Hr & Hc & V).
  assert (C0 : cpx cov 0 0 = RtoC (ps * ps * img_sum psd)).
  { unfold psd2cov in Ec. destruct (cis_empty (to_c psd)); [discriminate|]. apply Ok_inj in Ec. subst cov.
    unfold cmap; cbn [cpx]. rewrite cov_val by assumption. change (Z.of_nat 0) with 0%Z.
    rewrite covre_0, covim_0. apply C_eq; cbn; lra. }
  exists cov, sf. split; [exact Ec|]. split; [exact Es|]. split; [rewrite C0; exact Em|].
  split; [exact C0|]. split; [exact Hr|]. split; [exact Hc|]. split.
  - rewrite V. change (Z.of_nat 0) with 0%Z. rewrite sf_zero. f_equal. lra.
  - intros u v Hu Hv. split; [rewrite V; reflexivity|]. split.
    + rewrite V. cbn [fst RtoC].
      assert (A := sf_nonneg psd (hup (rows psd)) (hup (cols psd)) (Z.of_nat u) (Z.of_nat v) Hn).
      assert (B := sf_le psd (hup (rows psd)) (hup (cols psd)) (Z.of_nat u) (Z.of_nat v) Hn).
      assert (P := Rle_0_sqr ps). unfold Rsqr in P. split.
      * apply Rmult_le_pos; assumption.
      * replace (4 * (ps * ps * img_sum psd)) with (ps * ps * (4 * img_sum psd)) by ring.
        apply Rmult_le_compat_l; assumption.
    + rewrite !V, !sf_covre, covre_neg by assumption. reflexivity.
Qed.

Lemma sf_even (cov sf : carr) (a : img) (ps : R) :
  (0 < rows a)%nat -> (0 < cols a)%nat -> nonneg a ->
  Nat.even (rows a) = true -> Nat.even (cols a) = true ->
  psd2cov a ps = Ok cov -> cov2sf cov = Ok sf ->
  forall u v, cpx sf u v =
    RtoC (ps * ps * structure_function a (rows a / 2) (cols a / 2) (Z.of_nat u) (Z.of_nat v)).
Proof.
  intros Hx Hy Hn Ex Ey Hc Hs u v.
  destruct (psd_sf_val a ps Hx Hy Hn) as (cov' & sf' & Ec & Em & Es & _ & _ & V).
  rewrite Ec in Hc. apply Ok_inj in Hc. subst cov'. rewrite Es in Hs. apply Ok_inj in Hs. subst sf'.
  rewrite V, !hup_even by assumption. reflexivity.
Qed.

Lemma phase_sf_props (psd : img) : (0 < rows psd)%nat -> (0 < cols psd)%nat -> nonneg psd ->
  exists sf, phaseStructureFunction psd = Ok sf /\ rows sf = rows psd /\ cols sf = cols psd /\
    px sf (rows psd / 2) (cols psd / 2) = 0 /\
    (forall i j, 0 <= px sf i j <= 4 * img_sum psd) /\
    (Nat.even (rows psd) = true -> Nat.even (cols psd) = true ->
     forall i j, px sf i j = structure_function psd (rows psd / 2) (cols psd / 2)
        (Z.of_nat i - Z.of_nat (rows psd / 2)) (Z.of_nat j - Z.of_nat (cols psd / 2))).
Proof.
  intros Hx Hy Hn. destruct (phase_sf_val psd Hx Hy Hn) as (sf & E & Hr & Hc & V).
  exists sf. split; [exact E|]. split; [exact Hr|]. split; [exact Hc|]. split; [|split].
  - rewrite V, !Z.sub_diag. apply sf_zero.
  - intros i j. rewrite V. split; [apply sf_nonneg|apply sf_le]; exact Hn.
  - intros Ex Ey i j. rewrite V, !hup_even by assumption. reflexivity.
Qed.

Lemma phase_sf_linear (x y : img) (a b : R) sx sy s : rows x = rows y -> cols x = cols y ->
  (0 < rows x)%nat -> (0 < cols x)%nat -> nonneg x -> nonneg y -> 0 <= a -> 0 <= b ->
  phaseStructureFunction x = Ok sx -> phaseStructureFunction y = Ok sy ->
  phaseStructureFunction (mkImg (rows x) (cols x) (fun i j => a * px x i j + b * px y i j)) = Ok s ->
  forall i j, px s i j = a * px sx i j + b * px sy i j.
Proof.
  intros Hr Hc Hx Hy Nx Ny Ha Hb Ex Ey Es i j.
  set (z := mkImg (rows x) (cols x) (fun i j => a * px x i j + b * px y i j)) in *.
  assert (Nz : nonneg z).
  { intros u v Hu Hv. cbn in *. apply Rplus_le_le_0_compat; apply Rmult_le_pos; try assumption.
    - apply Nx; assumption. - apply Ny; congruence. }
  destruct (phase_sf_val x Hx Hy Nx) as (s1 & E1 & _ & _ & V1).
  destruct (phase_sf_val y ltac:(lia) ltac:(lia) Ny) as (s2 & E2 & _ & _ & V2).
  destruct (phase_sf_val z Hx Hy Nz) as (s3 & E3 & _ & _ & V3).
  rewrite E1 in Ex. apply Ok_inj in Ex. subst s1. rewrite E2 in Ey. apply Ok_inj in Ey. subst s2.
  rewrite E3 in Es. apply Ok_inj in Es. subst s3.
  rewrite V1, V2, V3. rewrite <- Hr, <- Hc. unfold structure_function. cbn [rows cols px z].
  rewrite <- Hr, <- Hc.
  rewrite (rsum_ext (rows x) _ (fun c => a * rsum (cols x) (fun d => px x c d * (1 - cos (wave (rows x) (cols x)
     (hup (rows x)) (hup (cols x)) c d (Z.of_nat i - Z.of_nat (rows x / 2)) (Z.of_nat j - Z.of_nat (cols x / 2)))))
     + b * rsum (cols x) (fun d => px y c d * (1 - cos (wave (rows x) (cols x)
     (hup (rows x)) (hup (cols x)) c d (Z.of_nat i - Z.of_nat (rows x / 2)) (Z.of_nat j - Z.of_nat (cols x / 2))))))).
  - rewrite rsum_plus, !rsum_scal. ring.
  - intros c _. rewrite <- !rsum_scal, <- rsum_plus. apply rsum_ext. intros d _. unfold z; cbn [px rows cols]. ring.
Qed.

Lemma delta_sum n (f : nat -> nat -> R) a b : (a < n)%nat -> (b < n)%nat ->
  rsum n (fun i => rsum n (fun j => (if ((i =? a) && (j =? b))%nat%bool then 1 else 0) * f i j)) = f a b.
Proof.
  intros Ha Hb. rewrite (rsum_single n a).
  - rewrite (rsum_single n b).
    + rewrite !Nat.eqb_refl. cbn. lra.
    + exact Hb.
    + intros j Hj Hne. destruct (Nat.eqb_spec j b); [contradiction|]. rewrite andb_false_r. lra.
  - exact Ha.
  - intros i Hi Hne. apply rsum_zero. intros j _. destruct (Nat.eqb_spec i a); [contradiction|]. cbn. lra.
Qed.

Lemma odd_refuted (n : nat) : (3 <= n)%nat -> Nat.even n = false ->
  let psd := mkImg n n (fun i j => if ((i =? n / 2) && (j =? n / 2))%nat%bool then 1 else 0) in
  (forall s t, structure_function psd (n / 2) (n / 2) s t = 0) /\
  exists sf, phaseStructureFunction psd = Ok sf /\ 0 < px sf (n / 2 + 1) (n / 2).
Proof.
  intros Hn Ho psd.
  assert (Hh : (n / 2 < n)%nat) by (apply half_lt; lia).
  assert (S : forall a0 b0 s t, structure_function psd a0 b0 s t =
     2 * (1 - cos (wave n n a0 b0 (n / 2) (n / 2) s t))).
  { intros. unfold structure_function, psd; cbn [rows cols px]. f_equal.
    apply (delta_sum n (fun a b => 1 - cos (wave n n a0 b0 a b s t))); exact Hh. }
  split.
  - intros s t. rewrite S. unfold wave. rewrite !Z.sub_diag.
    replace (2 * PI * (0 * IZR s / INR n + 0 * IZR t / INR n)) with 0 by (unfold Rdiv; ring).
    rewrite cos_0. lra.
  - assert (Nn : nonneg psd).
    { intros i j _ _. unfold psd; cbn [px]. destruct (_ && _)%bool; lra. }
    destruct (phase_sf_val psd ltac:(cbn; lia) ltac:(cbn; lia) Nn) as (sf & E & _ & _ & V).
    exists sf. split; [exact E|]. rewrite V, S. cbn [rows cols psd]. rewrite hup_odd by exact Ho.
    rewrite Z.sub_diag. replace (Z.of_nat (n / 2 + 1) - Z.of_nat (n / 2))%Z with 1%Z by lia.
    assert (Hc : cos (wave n n (n / 2 + 1) (n / 2 + 1) (n / 2) (n / 2) 1 0) <> 1).
    { intros Hc. apply cos_eq_1_Z in Hc. destruct Hc as (k & Hk). unfold wave in Hk.
      replace (Z.of_nat (n / 2) - Z.of_nat (n / 2 + 1))%Z with (-1)%Z in Hk by lia.
      assert (P := PI_RGT_0). assert (N0 : INR n <> 0) by (apply INR_pos_neq; clear - Hn; apply Nat.lt_le_trans with 3%nat; [repeat constructor|exact Hn]).
      assert (Hz : IZR (k * Z.of_nat n) = IZR (-1)).
      { rewrite mult_IZR, <- INR_IZR_INZ. apply (Rmult_eq_reg_l (2 * PI / INR n)).
        - transitivity (2 * IZR k * PI); [field; exact N0|]. rewrite <- Hk. field. exact N0.
        - apply Rmult_integral_contrapositive. split; [lra|]. apply Rinv_neq_0_compat; exact N0. }
      apply eq_IZR in Hz.
      assert (H3 : (3 <= Z.of_nat n)%Z) by (clear - Hn; lia). clear - Hz H3. set (z := Z.of_nat n) in *. destruct (Z.le_gt_cases k (-1)); nia. }
    assert (B := COS_bound (wave n n (n / 2 + 1) (n / 2 + 1) (n / 2) (n / 2) 1 0)). lra.
Qed.

Lemma fftsym_wrong (n : nat) : (2 <= n)%nat ->
  exists x : nat -> nat -> C, exists i j, (i < n)%nat /\ (j < n)%nat /\
    fftsym n x i j <> x (neg_ix n i) (neg_ix n j).
Proof.
  intros Hn. exists (fun _ _ => RtoC 1), (n - 1)%nat, 0%nat. split; [lia|]. split; [lia|].
  destruct (fftsym_last_zero n (fun _ _ => RtoC 1) 0 Hn) as [_ E]. rewrite E.
  intros H. apply (f_equal fst) in H. cbn in H. lra.
Qed.

Lemma static_aberration (pup phase : img) (p q : Z) : (0 < q)%Z -> (q <= p)%Z ->
  (0 < rows pup)%nat -> (0 < cols pup)%nat -> rows phase = rows pup -> cols phase = cols pup ->
  exists o o0, pupil2otf pup phase p q = Ok o /\
    pupil2otf pup (img_map (fun v => 0 * v) phase) p q = Ok o0 /\
    crows o = crows o0 /\ ccols o = ccols o0 /\
    (forall i j, snd (cpx o0 i j) = 0 /\ 0 <= fst (cpx o0 i j) <= energy pup / (INR (crows o) * INR (ccols o))) /\
    (forall i j, Cmod (cpx o i j) <= fst (cpx o0 i j)) /\
    fst (cpx o (crows o / 2)%nat (ccols o / 2)%nat) = fst (cpx o0 (crows o / 2)%nat (ccols o / 2)%nat) /\
    fst (cpx o (crows o / 2)%nat (ccols o / 2)%nat) = energy pup / (INR (crows o) * INR (ccols o)).
Proof.
  intros Hq Hp Hr Hc Er Ec.
  destruct (pupil2otf_val pup phase p q Hq Hp Hr Hc Er Ec)
    as (R' & C' & e & o & o0 & LR & LC & He & Hen & E0 & E & R0 & C0 & Ro & Co & V0 & M & Ctr).
  exists o, o0. split; [exact E|]. split; [exact E0|]. rewrite Ro, Co, R0, C0.
  assert (NP : 0 < INR R' * INR C') by (apply Rmult_lt_0_compat; apply lt_0_INR; lia).
  split; [reflexivity|]. split; [reflexivity|]. split; [|split; [|split]].
  - intros i j. rewrite V0. cbn [fst snd RtoC]. split; [reflexivity|]. split.
    + apply Rmult_le_pos; [apply rcorr_nonneg; exact He|]. left. apply Rinv_0_lt_compat; exact NP.
    + apply Rmult_le_compat_r; [left; apply Rinv_0_lt_compat; exact NP|].
      rewrite <- Hen. apply rcorr_le; lia.
  - intros i j. rewrite V0. cbn [fst RtoC]. apply M.
  - rewrite Ctr, V0. cbn [fst RtoC]. rewrite !shift_half by lia. rewrite rcorr_0, Hen. reflexivity.
  - exact Ctr.
Qed.

Lemma img_max_at a m i0 j0 : (i0 < rows a)%nat -> (j0 < cols a)%nat -> px a i0 j0 = m ->
  (forall i j, (i < rows a)%nat -> (j < cols a)%nat -> px a i j <= m) -> img_max a = Ok m.
Proof.
  intros Hi Hj E H.
  assert (exists m', img_max a = Ok m') as (m' & Hm).
  { unfold img_max, list_max. assert (In (px a i0 j0) (pixels a)).
    { unfold pixels. apply in_flat_map. exists i0. split; [apply in_seq; lia|].
      apply in_map_iff. exists j0. split; [reflexivity|apply in_seq; lia]. }
    destruct (pixels a); [contradiction|]. eauto. }
  rewrite Hm. f_equal. apply img_max_spec in Hm. destruct Hm as [Hle (i & j & Hi' & Hj' & Hv)].
  assert (X := Hle i0 j0 Hi Hj). assert (Y := H i j Hi' Hj'). lra.
Qed.

Lemma norm_max_centre (o : carr) c : (0 < crows o)%nat -> (0 < ccols o)%nat -> 0 < c ->
  fst (cpx o (crows o / 2)%nat (ccols o / 2)%nat) = c ->
  (forall i j, fst (cpx o i j) <= c) ->
  norm_max (re_img o) = Ok (img_map (fun v => v / c) (re_img o)).
Proof.
  intros Hr Hc Hp E H. unfold norm_max.
  rewrite (img_max_at (re_img o) c (crows o / 2) (ccols o / 2)); cbn [re_img rows cols px]; try assumption.
  - cbn [bind]. unfold img_div. destruct (Req_EM_T c 0); [lra|reflexivity].
  - apply half_lt; exact Hr. - apply half_lt; exact Hc.
  - intros; apply H.
Qed.

Lemma static_otf_dominated (pup apod phase : img) (p q : Z) : (0 < q)%Z -> (q <= p)%Z ->
  (0 < rows pup)%nat -> (0 < cols pup)%nat -> rows phase = rows pup -> cols phase = cols pup ->
  (exists i j, (i < rows pup)%nat /\ (j < cols pup)%nat /\ px pup i j * px apod i j <> 0) ->
  exists s d, getStaticOTF (fun a => a) pup apod phase p q = Ok (s, d) /\
    rows s = rows d /\ cols s = cols d /\
    px s (rows s / 2) (cols s / 2) = 1 /\ px d (rows d / 2) (cols d / 2) = 1 /\
    forall i j, (i < rows d)%nat -> (j < cols d)%nat -> Rabs (px s i j) <= px d i j <= 1.
Proof.
  intros Hq Hp Hr Hc Er Ec (i0 & j0 & Hi & Hj & Hne). unfold getStaticOTF. cbv zeta.
  set (pa := mkImg (rows pup) (cols pup) (fun i j => px pup i j * px apod i j)).
  destruct (static_aberration pa phase p q Hq Hp Hr Hc Er Ec)
    as (o & o0 & E & E0 & Hrr & Hcc & B0 & M & Ceq & Ctr).
  assert (Szo : (0 < crows o)%nat /\ (0 < ccols o)%nat).
  { destruct (pupil2otf_val pa phase p q Hq Hp Hr Hc Er Ec)
    as (R' & C' & _ & o' & _ & LR & LC & _ & _ & _ & E' & _ & _ & Ro & Co & _).
    rewrite E in E'. apply Ok_inj in E'. subst o'. unfold pa in LR, LC; cbn [rows cols] in LR, LC. lia. }
  destruct Szo as [Zr Zc].
  assert (NP : 0 < INR (crows o) * INR (ccols o)) by (apply Rmult_lt_0_compat; apply lt_0_INR; assumption).
  set (c := energy pa / (INR (crows o) * INR (ccols o))) in *.
  assert (Pe : 0 < energy pa).
  { assert (T : px pa i0 j0 * px pa i0 j0 <= energy pa).
    { unfold energy. eapply Rle_trans; [|apply (rsum_term_le (rows pa) _ i0); [|exact Hi]].
      - cbv beta. apply (rsum_term_le (cols pa) (fun j => px pa i0 j * px pa i0 j)); [|exact Hj].
        intros; apply Rle_0_sqr.
      - intros i _. apply rsum_nonneg. intros j _. apply Rle_0_sqr. }
    assert (S0 := Rsqr_pos_lt _ Hne). unfold Rsqr in S0. unfold pa at 1 2 in T; cbn [px] in T. lra. }
  assert (Pc : 0 < c) by (apply Rdiv_lt_0_compat; assumption).
  rewrite E. cbn [bind].
  assert (Ro : forall i j, fst (cpx o i j) <= c).
  { intros i j. destruct (B0 i j) as [_ [_ B]]. assert (A := Re_le_Cmod (cpx o i j)). assert (A' := Rle_abs (fst (cpx o i j))).
    specialize (M i j). lra. }
  rewrite (norm_max_centre o c Zr Zc Pc Ctr Ro). cbn [bind].
  assert (Ro0 : forall i j, fst (cpx o0 i j) <= c) by (intros; apply B0).
  assert (FIN : exists d, img_map (fun v => v / c) (re_img o0) = d /\
     rows (img_map (fun v => v / c) (re_img o)) = rows d /\ cols (img_map (fun v => v / c) (re_img o)) = cols d /\
     px (img_map (fun v => v / c) (re_img o)) (crows o / 2) (ccols o / 2) = 1 /\
     px d (crows o / 2) (ccols o / 2) = 1 /\
     forall i j, Rabs (px (img_map (fun v => v / c) (re_img o)) i j) <= px d i j <= 1).
  { exists (img_map (fun v => v / c) (re_img o0)). split; [reflexivity|]. unfold img_map, re_img; cbn [rows cols px].
    split; [exact Hrr|]. split; [exact Hcc|]. rewrite <- Ceq, Ctr.
    split; [field; lra|]. split; [field; lra|]. intros i j.
    assert (A := Re_le_Cmod (cpx o i j)). specialize (M i j). specialize (Ro0 i j).
    assert (Ic : 0 < / c) by (apply Rinv_0_lt_compat; exact Pc).
    unfold Rdiv. rewrite Rabs_mult, (Rabs_right (/ c)) by lra. split.
    - apply Rmult_le_compat_r; lra.
    - replace 1 with (c * / c) by (field; lra). apply Rmult_le_compat_r; lra. }
  destruct FIN as (d & Ed & F1 & F2 & F3 & F4 & F5).
  destruct (all_zero phase) eqn:Az.
  - (* same OTF *)
    assert (Eo : o0 = o).
    { assert (Z : forall i j, (i < rows phase)%nat -> (j < cols phase)%nat -> px phase i j = 0) by (apply all_zero_spec; exact Az).
      assert (Az' : all_zero (img_map (fun v => 0 * v) phase) = true).
      { apply all_zero_spec. intros i j _ _. unfold img_map; cbn [px]. lra. }
      unfold pupil2otf in E, E0. rewrite Az in E. rewrite Az' in E0. cbn [img_map rows cols] in E0. congruence. }
    subst o0. eexists _, _. split; [reflexivity|]. split; [reflexivity|]. split; [reflexivity|].
    cbn [img_map re_img rows cols] in *. split; [exact F3|]. split; [exact F3|].
    intros i j _ _. rewrite <- Ed in F5. exact (F5 i j).
  - rewrite E0. cbn [bind]. 
    rewrite (norm_max_centre o0 c) ; try (rewrite <- ?Hrr, <- ?Hcc; assumption); try assumption.
    2:{ rewrite <- Hrr, <- Hcc, <- Ceq. exact Ctr. }
    cbn [bind]. rewrite Ed. eexists _, _. split; [reflexivity|].
    split; [exact F1|]. split; [exact F2|]. split; [exact F3|]. split.
    + rewrite <- F1, <- F2. exact F4.
    + intros i j _ _. apply F5.
Qed.
