(** Lemmas: structure functions, OTFs. *)
From Coq Require Import Reals List Arith ZArith Lia Lra Psatz.
From Coq Require Import ZifyBool ZifyNat.
From Verif Require Import Base_Py Base_Sum Base_DFT M_Image S_Image L_Image L_Image2 M_Fourier S_Fourier.
From Coquelicot Require Import Complex.
Import ListNotations.
Open Scope R_scope.

(** ** complex maximum *)
Lemma cge_refl x : cge x x = true.
Proof.
  unfold cge. destruct (Rlt_dec (fst x) (fst x)); [reflexivity|].
  destruct (Req_EM_T (fst x) (fst x)); [|congruence].
  destruct (Rle_dec (snd x) (snd x)); [reflexivity|lra].
Qed.

Definition dominates (m z : C) : Prop := fst z < fst m \/ z = m.
Lemma dominates_max m z : dominates m z -> cmaximum m z = m /\ cmaximum z m = m.
Proof.
  intros [H| ->].
  - unfold cmaximum, cge.
    destruct (Rlt_dec (fst z) (fst m)); [|lra].
    destruct (Rlt_dec (fst m) (fst z)); [lra|].
    destruct (Req_EM_T (fst z) (fst m)); [lra|]. split; reflexivity.
  - unfold cmaximum. rewrite cge_refl. split; reflexivity.
Qed.

Lemma fold_cmax_stay l m : (forall z, In z l -> dominates m z) -> fold_left cmaximum l m = m.
Proof.
  induction l as [|z l IH]; intros H; cbn [fold_left]; [reflexivity|].
  destruct (dominates_max m z) as [E _]; [apply H; left; reflexivity|].
  rewrite E. apply IH. intros; apply H; right; assumption.
Qed.

Lemma fold_cmax l x m :
  In m (x :: l) -> (forall z, In z (x :: l) -> dominates m z) -> fold_left cmaximum l x = m.
Proof.
  revert x; induction l as [|z l IH]; intros x Hin H; cbn [fold_left].
  - destruct Hin as [ ->|[]]. reflexivity.
  - destruct (H x) as [Hx|Hx]; [left; reflexivity| |].
    + destruct Hin as [ ->|[ ->|Hin]].
      * lra.
      * destruct (dominates_max m x) as [_ E]; [left; exact Hx|]. rewrite E.
        apply fold_cmax_stay. intros w Hw; apply H; right; right; exact Hw.
      * apply IH.
        -- right; exact Hin.
        -- intros w [<-|Hw].
           ++ unfold cmaximum. destruct (cge x z); apply H; [left|right; left]; reflexivity.
           ++ apply H; right; right; exact Hw.
    + subst x. destruct (dominates_max m z) as [E _]; [apply H; right; left; reflexivity|].
      rewrite E. apply fold_cmax_stay. intros w Hw; apply H; right; right; exact Hw.
Qed.

Lemma cpixels_in a i j : (i < crows a)%nat -> (j < ccols a)%nat -> In (cpx a i j) (cpixels a).
Proof.
  intros Hi Hj. unfold cpixels. apply in_flat_map. exists i. split; [apply in_seq; lia|].
  apply in_map_iff. exists j. split; [reflexivity|apply in_seq; lia].
Qed.
Lemma cpixels_inv a z : In z (cpixels a) -> exists i j, (i < crows a)%nat /\ (j < ccols a)%nat /\ z = cpx a i j.
Proof.
  unfold cpixels. intros H. apply in_flat_map in H. destruct H as (i & Hi & H).
  apply in_map_iff in H. destruct H as (j & <- & Hj).
  apply in_seq in Hi. apply in_seq in Hj. exists i, j. repeat split; lia.
Qed.

Lemma carr_max_at a i0 j0 :
  (i0 < crows a)%nat -> (j0 < ccols a)%nat ->
  (forall i j, (i < crows a)%nat -> (j < ccols a)%nat -> dominates (cpx a i0 j0) (cpx a i j)) ->
  carr_max a = Ok (cpx a i0 j0).
Proof.
  intros Hi Hj H. unfold carr_max. assert (Hin := cpixels_in a i0 j0 Hi Hj).
  destruct (cpixels a) as [|x l] eqn:E; [destruct Hin|].
  f_equal. apply fold_cmax; [exact Hin|].
  intros z Hz. rewrite <- E in Hz. apply cpixels_inv in Hz.
  destruct Hz as (i & j & Hi' & Hj' & ->). apply H; assumption.
Qed.

(** ** shifts *)
Lemma shift_ix_lt n i : (0 < n)%nat -> (shift_ix n i < n)%nat.
Proof. intros H. apply Nat.mod_upper_bound. lia. Qed.
Lemma ishift_ix_lt n i : (0 < n)%nat -> (ishift_ix n i < n)%nat.
Proof. intros H. apply Nat.mod_upper_bound. lia. Qed.

Lemma shift_ishift n a : (a < n)%nat -> shift_ix n (ishift_ix n a) = a.
Proof.
  intros H. unfold shift_ix, ishift_ix.
  rewrite Nat.add_mod_idemp_l by lia.
  assert (n / 2 <= n)%nat by (apply Nat.div_le_upper_bound; lia).
  replace (a + n / 2 + (n - n / 2))%nat with (a + 1 * n)%nat by lia.
  rewrite Nat.mod_add by lia. apply Nat.mod_small, H.
Qed.
Lemma ishift_shift n a : (a < n)%nat -> ishift_ix n (shift_ix n a) = a.
Proof.
  intros H. unfold shift_ix, ishift_ix.
  rewrite Nat.add_mod_idemp_l by lia.
  assert (n / 2 <= n)%nat by (apply Nat.div_le_upper_bound; lia).
  replace (a + (n - n / 2) + n / 2)%nat with (a + 1 * n)%nat by lia.
  rewrite Nat.mod_add by lia. apply Nat.mod_small, H.
Qed.
Lemma even_shift n i : Nat.even n = true -> shift_ix n i = ishift_ix n i.
Proof.
  intros H. unfold shift_ix, ishift_ix. f_equal. f_equal.
  apply Nat.even_spec in H. destruct H as (k & ->).
  rewrite Nat.mul_comm, Nat.div_mul by lia. lia.
Qed.

(** congruences of the shifted indices *)
Lemma ishift_ix_cong n a :
  (0 < n)%nat ->
  exists q, Z.of_nat (ishift_ix n a) = (Z.of_nat a - Z.of_nat (n - n / 2) + Z.of_nat n * q)%Z.
Proof.
  intros Hn. unfold ishift_ix. assert (n / 2 <= n)%nat by (apply Nat.div_le_upper_bound; lia).
  exists (1 - Z.of_nat ((a + n / 2) / n))%Z.
  assert (D := Nat.div_mod (a + n / 2) n ltac:(lia)).
  set (m := ((a + n / 2) mod n)%nat) in *. set (d := ((a + n / 2) / n)%nat) in *.
  set (h := (n / 2)%nat) in *. clearbody m d h. nia.
Qed.
Lemma shift_ix_cong n a :
  (0 < n)%nat ->
  exists q, Z.of_nat (shift_ix n a) = (Z.of_nat a - Z.of_nat (n / 2) + Z.of_nat n * q)%Z.
Proof.
  intros Hn. unfold shift_ix. assert (n / 2 <= n)%nat by (apply Nat.div_le_upper_bound; lia).
  exists (1 - Z.of_nat ((a + (n - n / 2)) / n))%Z.
  assert (D := Nat.div_mod (a + (n - n / 2)) n ltac:(lia)).
  set (m := ((a + (n - n / 2)) mod n)%nat) in *. set (d := ((a + (n - n / 2)) / n)%nat) in *.
  set (h := (n / 2)%nat) in *. clearbody m d h. nia.
Qed.

Lemma csum_ishift n f : (0 < n)%nat -> csum n f = csum n (fun a => f (ishift_ix n a)).
Proof. intros Hn. unfold ishift_ix. symmetry. apply (csum_shift_mod n (n / 2) f Hn). Qed.
Lemma rsum_ishift n f : (0 < n)%nat -> rsum n f = rsum n (fun a => f (ishift_ix n a)).
Proof. intros Hn. unfold ishift_ix. symmetry. apply (rsum_shift_mod n (n / 2) f Hn). Qed.
Lemma rsum_shift n f : (0 < n)%nat -> rsum n (fun a => f (shift_ix n a)) = rsum n f.
Proof. intros Hn. unfold shift_ix. apply (rsum_shift_mod n (n - n / 2) f Hn). Qed.
Lemma csum_shift n f : (0 < n)%nat -> csum n (fun a => f (shift_ix n a)) = csum n f.
Proof. intros Hn. unfold shift_ix. apply (csum_shift_mod n (n - n / 2) f Hn). Qed.

(** W W as a single angle *)
Lemma WW nx ny k l : Cmult (W nx k) (W ny l) = (cos (ang nx k + ang ny l), - sin (ang nx k + ang ny l)).
Proof. unfold W. apply C_eq; cbn; [rewrite cos_plus|rewrite sin_plus]; ring. Qed.

(** The transform of a shifted real array, with the origin moved to the bin
    h = n - n//2. *)
Lemma fft2_fftshift_val (x : carr) u v :
  (0 < crows x)%nat -> (0 < ccols x)%nat ->
  cpx (fft2 (fftshift x)) u v =
  csum (crows x) (fun a => csum (ccols x) (fun b => Cmult (cpx x a b)
    (Cmult (W (crows x) (Z.of_nat u * (Z.of_nat a - Z.of_nat (crows x - crows x / 2))))
           (W (ccols x) (Z.of_nat v * (Z.of_nat b - Z.of_nat (ccols x - ccols x / 2))))))).
Proof.
  intros Hx Hy. set (nx := crows x) in *. set (ny := ccols x) in *.
  unfold fft2, fftshift; cbn [cpx crows ccols]. unfold dft2. fold nx ny.
  rewrite (csum_ishift nx) by exact Hx. apply csum_ext; intros a Ha.
  rewrite (csum_ishift ny) by exact Hy. apply csum_ext; intros b Hb.
  rewrite !shift_ishift by assumption. f_equal. f_equal.
  - apply W_mod; [exact Hx|]. destruct (ishift_ix_cong nx a Hx) as (q & ->).
    replace (Z.of_nat u * (Z.of_nat a - Z.of_nat (nx - nx / 2) + Z.of_nat nx * q))%Z
      with (Z.of_nat u * (Z.of_nat a - Z.of_nat (nx - nx / 2)) + (Z.of_nat u * q) * Z.of_nat nx)%Z by ring.
    apply Z.mod_add. lia.
  - apply W_mod; [exact Hy|]. destruct (ishift_ix_cong ny b Hy) as (q & ->).
    replace (Z.of_nat v * (Z.of_nat b - Z.of_nat (ny - ny / 2) + Z.of_nat ny * q))%Z
      with (Z.of_nat v * (Z.of_nat b - Z.of_nat (ny - ny / 2)) + (Z.of_nat v * q) * Z.of_nat ny)%Z by ring.
    apply Z.mod_add. lia.
Qed.

(** phase as used by S_Fourier.wave *)
Lemma wave_ang nx ny a0 b0 a b s t :
  ang nx (s * (Z.of_nat a - Z.of_nat a0)) + ang ny (t * (Z.of_nat b - Z.of_nat b0))
  = wave nx ny a0 b0 a b s t.
Proof. unfold ang, wave. rewrite !mult_IZR. unfold Rdiv. ring. Qed.

Definition hup (n : nat) : nat := (n - n / 2)%nat.

Definition covre (psd : img) (a0 b0 : nat) (s t : Z) : R :=
  rsum (rows psd) (fun a => rsum (cols psd) (fun b => px psd a b * cos (wave (rows psd) (cols psd) a0 b0 a b s t))).
Definition covim (psd : img) (a0 b0 : nat) (s t : Z) : R :=
  rsum (rows psd) (fun a => rsum (cols psd) (fun b => px psd a b * sin (wave (rows psd) (cols psd) a0 b0 a b s t))).

Lemma cov_val psd u v :
  (0 < rows psd)%nat -> (0 < cols psd)%nat ->
  cpx (fft2 (fftshift (to_c psd))) u v =
  (covre psd (hup (rows psd)) (hup (cols psd)) (Z.of_nat u) (Z.of_nat v),
   - covim psd (hup (rows psd)) (hup (cols psd)) (Z.of_nat u) (Z.of_nat v)).
Proof.
  intros Hx Hy. rewrite fft2_fftshift_val by assumption.
  cbn [to_c crows ccols cpx].
  apply C_eq; cbn [fst snd].
  - rewrite csum_Re. unfold covre. apply rsum_ext; intros a Ha.
    rewrite csum_Re. apply rsum_ext; intros b Hb. rewrite WW, wave_ang. unfold hup. unfold Cmult, RtoC; cbn [fst snd]. ring.
  - rewrite csum_Im. unfold covim. rewrite <- rsum_opp. apply rsum_ext; intros a Ha.
    rewrite csum_Im, <- rsum_opp. apply rsum_ext; intros b Hb. rewrite WW, wave_ang. unfold hup. unfold Cmult, RtoC; cbn [fst snd]. ring.
Qed.

Lemma wave_0 nx ny a0 b0 a b : wave nx ny a0 b0 a b 0 0 = 0.
Proof. unfold wave, Rdiv. ring. Qed.

Lemma covre_0 psd a0 b0 : covre psd a0 b0 0 0 = img_sum psd.
Proof.
  unfold covre, img_sum. apply rsum_ext; intros a _. apply rsum_ext; intros b _.
  rewrite wave_0, cos_0. lra.
Qed.
Lemma covim_0 psd a0 b0 : covim psd a0 b0 0 0 = 0.
Proof.
  unfold covim. apply rsum_zero; intros a _. apply rsum_zero; intros b _.
  rewrite wave_0, sin_0. lra.
Qed.

Lemma covre_le psd a0 b0 s t : nonneg psd -> covre psd a0 b0 s t <= img_sum psd.
Proof.
  intros H. unfold covre, img_sum. apply rsum_le; intros a Ha. apply rsum_le; intros b Hb.
  assert (0 <= px psd a b) by (apply H; assumption).
  assert (C1 := COS_bound (wave (rows psd) (cols psd) a0 b0 a b s t)). nra.
Qed.

Lemma rsum_eq_0_terms n f :
  (forall i, (i < n)%nat -> 0 <= f i) -> rsum n f = 0 -> forall i, (i < n)%nat -> f i = 0.
Proof.
  intros H E i Hi. assert (f i <= rsum n f) by (apply rsum_term_le; assumption).
  assert (0 <= f i) by (apply H; exact Hi). lra.
Qed.

Lemma covre_eq_covim psd a0 b0 s t :
  nonneg psd -> covre psd a0 b0 s t = img_sum psd -> covim psd a0 b0 s t = 0.
Proof.
  intros H E.
  assert (Z0 : rsum (rows psd) (fun a => rsum (cols psd) (fun b =>
     px psd a b * (1 - cos (wave (rows psd) (cols psd) a0 b0 a b s t)))) = 0).
  { rewrite (rsum_ext (rows psd) _ (fun a => rsum (cols psd) (fun b => px psd a b)
       - rsum (cols psd) (fun b => px psd a b * cos (wave (rows psd) (cols psd) a0 b0 a b s t)))).
    - rewrite rsum_minus. unfold covre, img_sum in E. lra.
    - intros a _. rewrite <- rsum_minus. apply rsum_ext; intros b _. lra. }
  assert (T : forall a b, (a < rows psd)%nat -> (b < cols psd)%nat ->
     px psd a b * (1 - cos (wave (rows psd) (cols psd) a0 b0 a b s t)) = 0).
  { intros a b Ha Hb.
    assert (P : forall a b, (a < rows psd)%nat -> (b < cols psd)%nat ->
       0 <= px psd a b * (1 - cos (wave (rows psd) (cols psd) a0 b0 a b s t))).
    { intros a' b' Ha' Hb'. apply Rmult_le_pos; [apply H; assumption|].
      assert (C1 := COS_bound (wave (rows psd) (cols psd) a0 b0 a' b' s t)). lra. }
    assert (T1 := rsum_eq_0_terms _ _ (fun i Hi => rsum_nonneg _ _ (fun j Hj => P i j Hi Hj)) Z0 a Ha).
    cbn beta in T1.
    exact (rsum_eq_0_terms _ _ (fun j Hj => P a j Ha Hj) T1 b Hb). }
  unfold covim. apply rsum_zero; intros a Ha. apply rsum_zero; intros b Hb.
  specialize (T a b Ha Hb). set (w := wave _ _ _ _ _ _ _ _) in *.
  apply Rmult_integral in T. destruct T as [T|T]; [rewrite T; lra|].
  assert (S2 := sin2_cos2 w). unfold Rsqr in S2. assert (cos w = 1) by lra.
  assert (sin w = 0) by nra. rewrite H1. lra.
Qed.

Lemma sf_covre psd a0 b0 s t : structure_function psd a0 b0 s t = 2 * (img_sum psd - covre psd a0 b0 s t).
Proof.
  unfold structure_function. f_equal. unfold img_sum, covre. rewrite <- rsum_minus.
  apply rsum_ext; intros a _. rewrite <- rsum_minus. apply rsum_ext; intros b _. lra.
Qed.

(** zero-lag covariance dominates *)
Lemma cov_dominates psd u v :
  (0 < rows psd)%nat -> (0 < cols psd)%nat -> nonneg psd ->
  dominates (cpx (fft2 (fftshift (to_c psd))) 0 0) (cpx (fft2 (fftshift (to_c psd))) u v).
Proof.
  intros Hx Hy Hn. rewrite !cov_val by assumption.
  change (Z.of_nat 0) with 0%Z. rewrite covre_0, covim_0.
  set (a0 := hup (rows psd)). set (b0 := hup (cols psd)).
  destruct (Req_EM_T (covre psd a0 b0 (Z.of_nat u) (Z.of_nat v)) (img_sum psd)) as [E|E].
  - right. rewrite E, (covre_eq_covim psd a0 b0 _ _ Hn E). reflexivity.
  - left. cbn [fst]. assert (L := covre_le psd a0 b0 (Z.of_nat u) (Z.of_nat v) Hn). lra.
Qed.

Lemma nonempty_psd psd : cis_empty (to_c psd) = false -> (0 < rows psd)%nat /\ (0 < cols psd)%nat.
Proof. unfold cis_empty; cbn [crows ccols to_c]. lia. Qed.

(** ** psd2cov / cov2sf *)
Lemma psd_sf_val psd ps :
  (0 < rows psd)%nat -> (0 < cols psd)%nat -> nonneg psd ->
  exists cov sf, psd2cov psd ps = Ok cov /\ carr_max cov = Ok (RtoC (ps * ps * img_sum psd)) /\
    cov2sf cov = Ok sf /\ crows sf = rows psd /\ ccols sf = cols psd /\
    forall u v, cpx sf u v =
      RtoC (ps * ps * structure_function psd (hup (rows psd)) (hup (cols psd)) (Z.of_nat u) (Z.of_nat v)).
Proof.
  intros Hx Hy Hn.
  assert (He : cis_empty (to_c psd) = false) by (unfold cis_empty; cbn [crows ccols to_c]; lia).
  unfold psd2cov. rewrite He.
  set (cov := cmap (fun z => Cmult z (RtoC (ps * ps))) (fft2 (fftshift (to_c psd)))).
  assert (Hmax : carr_max cov = Ok (RtoC (ps * ps * img_sum psd))).
  { rewrite (carr_max_at cov 0 0); [|exact Hx|exact Hy|].
    - f_equal. unfold cov; cbn [cpx cmap]. rewrite cov_val by assumption.
      change (Z.of_nat 0) with 0%Z. rewrite covre_0, covim_0. apply C_eq; cbn; lra.
    - intros i j _ _. unfold cov; cbn [cpx cmap].
      destruct (cov_dominates psd i j Hx Hy Hn) as [D|D].
      + destruct (Req_EM_T ps 0) as [ ->|Hps].
        * right. apply C_eq; cbn; lra.
        * left. rewrite !cov_val in * by assumption. cbn in *.
          assert (0 < ps * ps) by nra. nra.
      + right. rewrite D. reflexivity. }
  exists cov. eexists. split; [reflexivity|]. split; [exact Hmax|].
  split; [unfold cov2sf; rewrite Hmax; cbn [bind]; reflexivity|].
  split; [reflexivity|]. split; [reflexivity|].
  intros u v. cbn [cpx cmap]. unfold cov. cbn [cpx cmap]. rewrite cov_val by assumption.
  rewrite sf_covre. apply C_eq; cbn; lra.
Qed.

(** ** phaseStructureFunction *)
Lemma wave_shift psd a0 b0 i j :
  (0 < rows psd)%nat -> (0 < cols psd)%nat ->
  covre psd a0 b0 (Z.of_nat (shift_ix (rows psd) i)) (Z.of_nat (shift_ix (cols psd) j))
  = covre psd a0 b0 (Z.of_nat i - Z.of_nat (rows psd / 2)) (Z.of_nat j - Z.of_nat (cols psd / 2)).
Proof.
  intros Hx Hy. unfold covre. apply rsum_ext; intros a _. apply rsum_ext; intros b _. f_equal.
  rewrite <- !wave_ang.
  assert (E : forall k l, cos (ang (rows psd) k + ang (cols psd) l)
                 = fst (Cmult (W (rows psd) k) (W (cols psd) l))) by (intros; rewrite WW; reflexivity).
  rewrite !E. f_equal. f_equal.
  - apply W_mod; [exact Hx|]. destruct (shift_ix_cong (rows psd) i Hx) as (q & ->).
    set (d := (Z.of_nat a - Z.of_nat a0)%Z). set (h := Z.of_nat (rows psd / 2)).
    replace ((Z.of_nat i - h + Z.of_nat (rows psd) * q) * d)%Z
      with ((Z.of_nat i - h) * d + (q * d) * Z.of_nat (rows psd))%Z by ring.
    apply Z.mod_add. lia.
  - apply W_mod; [exact Hy|]. destruct (shift_ix_cong (cols psd) j Hy) as (q & ->).
    set (d := (Z.of_nat b - Z.of_nat b0)%Z). set (h := Z.of_nat (cols psd / 2)).
    replace ((Z.of_nat j - h + Z.of_nat (cols psd) * q) * d)%Z
      with ((Z.of_nat j - h) * d + (q * d) * Z.of_nat (cols psd))%Z by ring.
    apply Z.mod_add. lia.
Qed.

Lemma shift_half n : (0 < n)%nat -> shift_ix n (n / 2) = 0%nat.
Proof.
  intros Hn. unfold shift_ix. assert (n / 2 <= n)%nat by (apply Nat.div_le_upper_bound; lia).
  replace (n / 2 + (n - n / 2))%nat with n by lia. apply Nat.mod_same. lia.
Qed.

Lemma half_lt n : (0 < n)%nat -> (n / 2 < n)%nat.
Proof. intros Hn. apply Nat.div_lt; lia. Qed.

Lemma phase_sf_val psd :
  (0 < rows psd)%nat -> (0 < cols psd)%nat -> nonneg psd ->
  exists sf, phaseStructureFunction psd = Ok sf /\ rows sf = rows psd /\ cols sf = cols psd /\
    forall i j, px sf i j =
      structure_function psd (hup (rows psd)) (hup (cols psd))
        (Z.of_nat i - Z.of_nat (rows psd / 2)) (Z.of_nat j - Z.of_nat (cols psd / 2)).
Proof.
  intros Hx Hy Hn. unfold phaseStructureFunction.
  assert (He : cis_empty (to_c psd) = false) by (unfold cis_empty; cbn [crows ccols to_c]; lia).
  rewrite He. set (cov := fftshift (fft2 (fftshift (to_c psd)))).
  assert (V : forall i j, cpx cov i j =
     cpx (fft2 (fftshift (to_c psd))) (shift_ix (rows psd) i) (shift_ix (cols psd) j)) by reflexivity.
  assert (Hmax : carr_max cov = Ok (RtoC (img_sum psd))).
  { rewrite (carr_max_at cov (rows psd / 2) (cols psd / 2)).
    - f_equal. rewrite V, !shift_half by assumption. rewrite cov_val by assumption.
      change (Z.of_nat 0) with 0%Z. rewrite covre_0, covim_0. apply C_eq; cbn; lra.
    - apply half_lt; exact Hx.
    - apply half_lt; exact Hy.
    - intros i j _ _. rewrite !V, !shift_half by assumption. apply cov_dominates; assumption. }
  rewrite Hmax. cbn [bind]. eexists. split; [reflexivity|]. split; [reflexivity|]. split; [reflexivity|].
  intros i j. cbn [px]. rewrite V, cov_val by assumption.
  rewrite sf_covre, <- wave_shift by assumption. cbn [fst Cminus Cplus Copp RtoC]. lra.
Qed.

(** elementary facts about the specification *)
Lemma sf_nonneg psd a0 b0 s t : nonneg psd -> 0 <= structure_function psd a0 b0 s t.
Proof. intros H. rewrite sf_covre. assert (L := covre_le psd a0 b0 s t H). lra. Qed.
Lemma sf_zero psd a0 b0 : structure_function psd a0 b0 0 0 = 0.
Proof. rewrite sf_covre, covre_0. lra. Qed.
Lemma covre_sym psd a0 b0 s t : covre psd a0 b0 (- s) (- t) = covre psd a0 b0 s t.
Proof.
  unfold covre. apply rsum_ext; intros a _. apply rsum_ext; intros b _. f_equal.
  rewrite <- cos_neg. f_equal. unfold wave. rewrite !opp_IZR. unfold Rdiv. ring.
Qed.
Lemma sf_sym psd a0 b0 s t : structure_function psd a0 b0 (- s) (- t) = structure_function psd a0 b0 s t.
Proof. rewrite !sf_covre, covre_sym. reflexivity. Qed.
Lemma sf_le psd a0 b0 s t : nonneg psd -> structure_function psd a0 b0 s t <= 4 * img_sum psd.
Proof.
  intros H. unfold structure_function, img_sum.
  replace (4 * rsum (rows psd) (fun i => rsum (cols psd) (fun j => px psd i j)))
    with (2 * rsum (rows psd) (fun i => rsum (cols psd) (fun j => px psd i j * 2))).
  - apply Rmult_le_compat_l; [lra|]. apply rsum_le; intros a Ha. apply rsum_le; intros b Hb.
    assert (0 <= px psd a b) by (apply H; assumption).
    assert (C1 := COS_bound (wave (rows psd) (cols psd) a0 b0 a b s t)). nra.
  - rewrite (rsum_ext _ _ (fun i => rsum (cols psd) (fun j => px psd i j) * 2)).
    + rewrite rsum_scal_r. lra.
    + intros; apply rsum_scal_r.
Qed.
Lemma hup_even n : Nat.even n = true -> hup n = (n / 2)%nat.
Proof.
  intros H. unfold hup. apply Nat.even_spec in H. destruct H as (k & ->).
  rewrite Nat.mul_comm, Nat.div_mul by lia. lia.
Qed.
Lemma hup_odd n : Nat.even n = false -> hup n = (n / 2 + 1)%nat.
Proof.
  intros H. unfold hup. assert (Ho : Nat.odd n = true) by (rewrite <- Nat.negb_even, H; reflexivity).
  apply Nat.odd_spec in Ho. destruct Ho as (k & ->).
  replace (2 * k + 1)%nat with (1 + k * 2)%nat by lia. rewrite Nat.div_add by lia.
  change (1 / 2)%nat with 0%nat. lia.
Qed.
