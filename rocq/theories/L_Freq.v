(** Lemmas on wavelength vectors and frequency domains. *)
From Coq Require Import Reals List Arith ZArith Lia Lra Sorting.Sorted Psatz.
From Flocq Require Import Core.Raux.
From Verif Require Import Base_Py M_Freq.
Import ListNotations.
Open Scope R_scope.

(** ** np.unique *)
Lemma insert_unique_In x y l : In y (insert_unique x l) <-> y = x \/ In y l.
Proof.
  induction l as [|z l IH]; cbn; [intuition congruence|].
  destruct (Rlt_dec x z); [cbn; intuition congruence|].
  destruct (Req_EM_T x z) as [->|]; [cbn; intuition congruence|].
  cbn. rewrite IH. intuition congruence.
Qed.
Lemma insert_unique_sorted x l : StronglySorted Rlt l -> StronglySorted Rlt (insert_unique x l).
Proof.
  induction 1 as [|z l S IH F]; cbn.
  - constructor; [constructor|constructor].
  - destruct (Rlt_dec x z).
    + constructor; [constructor; assumption|]. constructor; [assumption|].
      rewrite Forall_forall in *. intros y Hy. specialize (F y Hy). lra.
    + destruct (Req_EM_T x z) as [->|]; [constructor; assumption|].
      constructor; [assumption|]. rewrite Forall_forall in *. intros y Hy.
      apply insert_unique_In in Hy. destruct Hy as [->|Hy]; [lra|auto].
Qed.
Lemma np_unique_In l y : In y (np_unique l) <-> In y l.
Proof. induction l as [|x l IH]; cbn; [tauto|]. rewrite insert_unique_In, IH. intuition congruence. Qed.
Lemma np_unique_sorted l : StronglySorted Rlt (np_unique l).
Proof. induction l; cbn; [constructor|]. apply insert_unique_sorted; assumption. Qed.

(** ** linspace *)
Lemma linspace_length a b n : length (linspace a b n) = n.
Proof. unfold linspace. rewrite map_length, seq_length. reflexivity. Qed.
Lemma linspace_nth a b n i : (i < n)%nat ->
  nth_error (linspace a b n) i = Some (if (n =? 1)%nat then a else a + INR i * ((b - a) / INR (n - 1))).
Proof.
  intros H. unfold linspace. rewrite nth_error_map.
  rewrite (nth_error_nth' _ 0%nat) by (rewrite seq_length; exact H). rewrite seq_nth by exact H. reflexivity.
Qed.

(** ** assignments *)
Lemma assign_slice_ok l s e v : (s <= e)%nat -> (e <= length l)%nat -> length v = (e - s)%nat ->
  assign_slice l (Z.of_nat s) (Z.of_nat e) v = Ok (firstn s l ++ v ++ skipn e l).
Proof.
  intros H1 H2 Hv. unfold assign_slice. rewrite slice_bound_in by lia. rewrite slice_len_in by lia.
  rewrite Nat2Z.id. replace (Z.to_nat (Z.of_nat e - Z.of_nat s)) with (e - s)%nat by lia.
  rewrite Hv, Nat.eqb_refl. do 4 f_equal. lia.
Qed.

Lemma fill_bands_ok n_bin bw cen : forall j0 done,
  length done = (j0 * n_bin)%nat ->
  fill_bands (fun j => Z.of_nat (j * n_bin)) n_bin bw (seq j0 (length cen)) cen
     (done ++ repeat 0 (n_bin * length cen)) =
  Ok (done ++ flat_map (fun c => linspace (c - bw / 2) (c + bw / 2) n_bin) cen).
Proof.
  induction cen as [|c cen IH]; intros j0 done Hd; cbn [length seq fill_bands flat_map].
  - rewrite Nat.mul_0_r. reflexivity.
  - rewrite assign_slice_ok; rewrite ?app_length, ?repeat_length, ?linspace_length; try nia.
    cbn [bind]. rewrite firstn_app. replace (j0 * n_bin - length done)%nat with 0%nat by lia.
    rewrite firstn_all2 by lia. cbn [firstn]. rewrite app_nil_r.
    rewrite skipn_app. replace (skipn ((j0 + 1) * n_bin) done) with (@nil R) by (rewrite skipn_all2; [reflexivity|nia]).
    cbn [app]. replace (skipn ((j0 + 1) * n_bin - length done) (repeat 0 (n_bin * S (length cen))))
      with (repeat 0 (n_bin * length cen)).
    2:{ replace ((j0 + 1) * n_bin - length done)%nat with n_bin by nia.
        replace (n_bin * S (length cen))%nat with (n_bin + n_bin * length cen)%nat by lia.
        rewrite repeat_app, skipn_app, skipn_all2, repeat_length, Nat.sub_diag by (rewrite repeat_length; lia). reflexivity. }
    rewrite app_assoc. rewrite IH.
    + rewrite <- app_assoc. reflexivity.
    + rewrite app_length, linspace_length. nia.
Qed.

Lemma create_wavelength_vector_val src n_bin bw :
  create_wavelength_vector src n_bin bw =
  Ok (flat_map (fun c => linspace (c - bw / 2) (c + bw / 2) n_bin) (np_unique src), (n_bin * length (np_unique src))%nat).
Proof.
  unfold create_wavelength_vector. pose proof (fill_bands_ok n_bin bw (np_unique src) 0 [] eq_refl) as E. cbn [app] in E.
  cbv zeta. rewrite E. reflexivity.
Qed.

Lemma nth_error_blocks {A B} (f : A -> list B) n l j i c : (forall x, length (f x) = n) -> (i < n)%nat ->
  nth_error l j = Some c -> nth_error (flat_map f l) (j * n + i) = nth_error (f c) i.
Proof.
  intros Hf Hi. revert j. induction l as [|x l IH]; intros [|j] H; cbn in H |- *; try discriminate.
  - injection H as ->. apply nth_error_app1. rewrite Hf; exact Hi.
  - rewrite nth_error_app2 by (rewrite Hf; lia). rewrite Hf. replace (n + j * n + i - n)%nat with (j * n + i)%nat by lia.
    apply IH; exact H.
Qed.
Lemma flat_map_length_const {A B} (f : A -> list B) n l : (forall x, length (f x) = n) -> length (flat_map f l) = (n * length l)%nat.
Proof. intros Hf. induction l; cbn; [lia|]. rewrite app_length, Hf, IHl. lia. Qed.

(** ** the constructor of frequencyDomain *)
Lemma freq_one_bin_aux bw cen : forall j0 done, length done = j0 ->
  fill_bands (fun j => Z.of_nat j) 1 bw (seq j0 (length cen)) cen (done ++ repeat 0 (1 * length cen)) =
  Ok (done ++ flat_map (fun c => linspace (c - bw / 2) (c + bw / 2) 1) cen).
Proof.
  intros j0 done H. rewrite <- (fill_bands_ok 1 bw cen j0 done) by lia.
  clear H. generalize (done ++ repeat 0 (1 * length cen)) as w. revert j0 done.
  induction cen as [|c cen IH]; intros j0 done w; cbn [length seq fill_bands]; [reflexivity|].
  rewrite !Nat.mul_1_r. destruct (assign_slice _ _ _ _); cbn [bind]; [|reflexivity]. apply IH; assumption.
Qed.
Lemma freq_wavelengths_one_bin src bw :
  freq_wavelengths src 1 bw = Ok (map (fun c => c - bw / 2) (np_unique src)).
Proof.
  unfold freq_wavelengths. pose proof (freq_one_bin_aux bw (np_unique src) 0 [] eq_refl) as E. cbn [app] in E.
  cbv zeta. rewrite E. clear E. apply f_equal.
  induction (np_unique src); cbn [flat_map map linspace seq Nat.eqb app]; [reflexivity|]. (cbn; rewrite <- IHl; reflexivity).
Qed.
Lemma freq_wavelengths_one_centre src n bw : (length (np_unique src) <= 1)%nat ->
  freq_wavelengths src n bw = do p <- create_wavelength_vector src n bw; Ok (fst p).
Proof.
  intros H. rewrite create_wavelength_vector_val. cbn [bind fst]. unfold freq_wavelengths.
  destruct (np_unique src) as [|c [|d r]]; cbn [length] in *; [rewrite Nat.mul_0_r; reflexivity| |lia].
  pose proof (fill_bands_ok n bw [c] 0 [] eq_refl) as E. cbn [app length] in E. rewrite <- E. reflexivity.
Qed.
Lemma freq_wavelengths_fail src n bw : (2 <= length (np_unique src))%nat -> (2 <= n)%nat ->
  freq_wavelengths src n bw = Err ValueError.
Proof.
  intros H Hn. unfold freq_wavelengths. destruct (np_unique src) as [|c [|d r]]; cbn [length] in *; try lia.
  cbn [seq fill_bands].
  set (N := (n * S (S (length r)))%nat).
  pose proof (assign_slice_ok (repeat 0 N) 0 ((0 + 1) * n) (linspace (c - bw / 2) (c + bw / 2) n)) as E.
  change (Z.of_nat 0) with 0%Z in *.
  rewrite E; rewrite ?repeat_length, ?linspace_length; try (unfold N; nia). clear E. cbn [bind firstn app].
  set (l := linspace _ _ _ ++ skipn _ _).
  assert (Hl : length l = N).
  { unfold l. rewrite app_length, linspace_length, skipn_length, repeat_length. unfold N. nia. }
  unfold assign_slice at 1. rewrite Hl.
  rewrite slice_len_in by (unfold N; nia). rewrite linspace_length.
  destruct (Nat.eqb_spec n (Z.to_nat (Z.of_nat ((1 + 1) * n) - Z.of_nat 1))); [lia|].
  assert (L := linspace_length (d - bw / 2) (d + bw / 2) n).
  destruct (linspace (d - bw / 2) (d + bw / 2) n) as [|x [|y q]]; cbn [length] in L; try lia. reflexivity.
Qed.

(** ** argmin *)
Lemma argmin_aux_spec : forall l best bi i pre,
  length pre = i -> nth_error pre bi = Some best -> (forall x, In x pre -> best <= x) ->
  exists m, nth_error (pre ++ l) (argmin_aux best bi i l) = Some m /\ forall x, In x (pre ++ l) -> m <= x.
Proof.
  induction l as [|x l IH]; intros best bi i pre Hl Hb Hm; cbn [argmin_aux].
  - rewrite app_nil_r. exists best; split; assumption.
  - replace (pre ++ x :: l) with ((pre ++ [x]) ++ l) by (rewrite <- app_assoc; reflexivity).
    destruct (Rlt_dec x best).
    + apply IH.
      * rewrite app_length; cbn; lia.
      * rewrite nth_error_app2 by lia. replace (i - length pre)%nat with 0%nat by lia. reflexivity.
      * intros y Hy. apply in_app_or in Hy. destruct Hy as [Hy|[ <-|[]]]; [|lra]. specialize (Hm y Hy). lra.
    + apply IH.
      * rewrite app_length; cbn; lia.
      * rewrite nth_error_app1; [exact Hb|]. apply nth_error_Some. congruence.
      * intros y Hy. apply in_app_or in Hy. destruct Hy as [Hy|[ <-|[]]]; [|lra]. auto.
Qed.
Lemma argmin_spec l i : argmin l = Ok i -> exists m, nth_error l i = Some m /\ forall x, In x l -> m <= x.
Proof.
  destruct l as [|x l]; cbn; [discriminate|]. intros H. apply Ok_inj in H. subst i.
  apply (argmin_aux_spec l x 0 1 [x]); cbn; auto. intros y [ <-|[]]. lra.
Qed.
Lemma argmin_defined l : l <> [] -> exists i, argmin l = Ok i.
Proof. destruct l; [congruence|]. eexists; reflexivity. Qed.

Lemma pyindex_nth {A} (l : list A) i a : nth_error l i = Some a -> pyindex l (Z.of_nat i) = Ok a.
Proof.
  intros H. assert (i < length l)%nat by (apply nth_error_Some; congruence). unfold pyindex.
  destruct (Z.ltb_spec (Z.of_nat i) 0); [lia|].
  destruct (Z.ltb_spec (Z.of_nat i) 0); [lia|]. destruct (Z.leb_spec (Z.of_nat (length l)) (Z.of_nat i)); [lia|].
  cbn [orb]. rewrite Nat2Z.id, H. reflexivity.
Qed.

(** ** oversampling *)
Lemma rad2mas_pos : 0 < rad2mas.
Proof. unfold rad2mas. apply Rdiv_lt_0_compat; [apply Rmult_lt_0_compat; [apply Rmult_lt_0_compat|]; apply IZR_lt; reflexivity|apply PI_RGT_0]. Qed.

Lemma oversampling_spec s : 0 < s ->
  (1 <= oversampling s)%Z /\ 2 <= IZR (oversampling s) * s /\ (IZR (oversampling s) - 1) * s < 2.
Proof.
  intros Hs. unfold oversampling. assert (P : 0 < 2 / s) by (apply Rdiv_lt_0_compat; lra).
  assert (U := Zceil_ub (2 / s)).
  assert (L : IZR (Zceil (2 / s)) - 1 < 2 / s).
  { unfold Zceil. rewrite opp_IZR. assert (X := Zfloor_ub (- (2 / s))). lra. }
  assert (E : 2 / s * s = 2) by (field; lra).
  repeat split.
  - assert (0 < IZR (Zceil (2 / s))) by lra. apply lt_IZR in H. lia.
  - apply Rmult_le_compat_r with (r := s) in U; lra.
  - apply Rmult_lt_compat_r with (r := s) in L; lra.
Qed.
Lemma oversampling_mono s t : 0 < s -> s <= t -> (oversampling t <= oversampling s)%Z.
Proof.
  intros Hs Hst. unfold oversampling. apply Zceil_le. unfold Rdiv. apply Rmult_le_compat_l; [lra|].
  apply Rinv_le_contravar; lra.
Qed.

Lemma samp0_pos nyq ps D w : 0 < ps -> 0 < D -> 0 < w -> 0 < samp0 nyq ps D w.
Proof.
  intros. unfold samp0. destruct nyq; [lra|]. assert (R := rad2mas_pos).
  apply Rdiv_lt_0_compat; apply Rmult_lt_0_compat; lra.
Qed.
Lemma samp0_mono nyq ps D w w' : 0 < ps -> 0 < D -> w <= w' -> samp0 nyq ps D w <= samp0 nyq ps D w'.
Proof.
  intros. unfold samp0. destruct nyq; [lra|]. assert (R := rad2mas_pos). unfold Rdiv.
  apply Rmult_le_compat_r; [left; apply Rinv_0_lt_compat; apply Rmult_lt_0_compat; lra|].
  apply Rmult_le_compat_r; lra.
Qed.
(** sampling x telescope diameter = lambda / pixel scale *)
Lemma samp_step nyq ps D w : 0 < ps -> 0 < D -> 0 < w ->
  pix_scale nyq ps D w / (w * rad2mas * IZR (oversampling (samp0 nyq ps D w))) =
  / (IZR (oversampling (samp0 nyq ps D w)) * samp0 nyq ps D w * D).
Proof.
  intros Hp HD Hw. assert (R := rad2mas_pos). destruct (oversampling_spec (samp0 nyq ps D w)) as (K & _).
  { apply samp0_pos; assumption. }
  assert (Hk : IZR (oversampling (samp0 nyq ps D w)) <> 0) by (intros X; apply eq_IZR in X; lia).
  set (k := IZR (oversampling (samp0 nyq ps D w))) in *. unfold samp0, pix_scale. destruct nyq; field; repeat split; try assumption; try lra.
Qed.

Lemma bind_Ok {A B} (r : result A) (f : A -> result B) b : bind r f = Ok b -> exists a, r = Ok a /\ f a = Ok b.
Proof. destruct r; cbn; [eauto|discriminate]. Qed.
Lemma pyindex_of_nat {A} (l : list A) i a : pyindex l (Z.of_nat i) = Ok a -> nth_error l i = Some a.
Proof.
  unfold pyindex. destruct (Z.ltb_spec (Z.of_nat i) 0); [lia|].
  destruct (_ || _)%bool eqn:E; [discriminate|]. rewrite Nat2Z.id. destruct (nth_error l i); [|discriminate].
  intros H1; apply Ok_inj in H1; congruence.
Qed.

Lemma fdomain_spec src nBin bw nyq ex ps D nPix fd :
  make_fdomain src nBin bw nyq ex ps D nPix = Ok fd -> 0 < ps -> 0 < D ->
  (forall w, In w (fd_wvl fd) -> 0 < w) ->
  In (fd_wvlRef fd) (fd_wvl fd) /\ (forall w, In w (fd_wvl fd) -> fd_wvlRef fd <= w) /\
  length (fd_k fd) = length (fd_wvl fd) /\ length (fd_samp fd) = length (fd_wvl fd) /\
  (forall i w k s, nth_error (fd_wvl fd) i = Some w -> nth_error (fd_k fd) i = Some k -> nth_error (fd_samp fd) i = Some s ->
     (1 <= k)%Z /\ 2 <= s /\ s = IZR k * samp0 nyq ps D w /\ (IZR k - 1) * samp0 nyq ps D w < 2 /\
     fd_PSDstep fd <= / (s * D)) /\
  0 < fd_PSDstep fd <= / (2 * D) /\
  (1 <= fd_kRef fd)%Z /\ fd_nOtf fd = (nPix * fd_kRef fd)%Z /\
  (ex = false -> fd_kRef fd = oversampling (samp0 nyq ps D (fd_wvlRef fd)) /\ forall k, In k (fd_k fd) -> (k <= fd_kRef fd)%Z).
Proof.
  intros H Hp HD HW. unfold make_fdomain in H.
  apply bind_Ok in H; destruct H as (w & Ew & H). apply bind_Ok in H; destruct H as (iW & EW & H).
  apply bind_Ok in H; destruct H as (wRef & ER & H). cbv zeta in H.
  apply bind_Ok in H; destruct H as (iP & EP & H). apply bind_Ok in H; destruct H as (st & ES & H).
  apply bind_Ok in H; destruct H as (kR & EK & H). apply Ok_inj in H. subst fd.
  cbn [fd_wvl fd_wvlRef fd_psInMas fd_k fd_samp fd_PSDstep fd_kRef fd_nOtf] in *.
  apply pyindex_of_nat in ER, ES, EK.
  destruct (argmin_spec _ _ EW) as (m & Em & Mm). rewrite ER in Em. injection Em as <-.
  destruct (argmin_spec _ _ EP) as (m & Em & Mst). rewrite ES in Em. injection Em as <-.
  assert (InR : In wRef w) by (eapply nth_error_In; exact ER).
  split; [exact InR|]. split; [exact Mm|].
  split; [rewrite !map_length; reflexivity|]. split; [rewrite !map_length; reflexivity|].
  assert (STEP : forall x, In x w -> st <= / (IZR (oversampling (samp0 nyq ps D x)) * samp0 nyq ps D x * D)).
  { intros x Hx. rewrite <- samp_step by (auto). apply Mst. apply in_map_iff. exists x. split; [reflexivity|exact Hx]. }
  assert (KPOS : forall x, In x w -> (1 <= oversampling (samp0 nyq ps D x))%Z).
  { intros x Hx. apply oversampling_spec. apply samp0_pos; auto. }
  split.
  - intros i x k s Hi Hk Hs. rewrite map_map, nth_error_map in Hk. rewrite nth_error_map in Hs. rewrite Hi in *. cbn in Hk, Hs.
    injection Hk as <-. injection Hs as <-. assert (Ix := nth_error_In _ _ Hi).
    destruct (oversampling_spec (samp0 nyq ps D x)) as (K1 & K2 & K3). { apply samp0_pos; auto. }
    split; [exact K1|]. split; [exact K2|]. split; [reflexivity|]. split; [exact K3|].
    apply STEP. exact Ix.
  - split.
    + assert (InS := nth_error_In _ _ ES). apply in_map_iff in InS. destruct InS as (x & Ex & Ix).
      rewrite samp_step in Ex by auto.
      destruct (oversampling_spec (samp0 nyq ps D x)) as (K1 & K2 & K3). { apply samp0_pos; auto. }
      rewrite <- Ex. split.
      * apply Rinv_0_lt_compat. apply Rmult_lt_0_compat; lra.
      * apply Rinv_le_contravar; [lra|]. apply Rmult_le_compat_r; lra.
    + split; [|split; [reflexivity|]].
      * apply nth_error_In in EK. rewrite map_map in EK. apply in_map_iff in EK. destruct EK as (x & <- & Ix). auto.
      * intros ->. rewrite map_map, nth_error_map, ER in EK. cbn in EK. injection EK as <-. split; [reflexivity|].
        intros k Hk. rewrite map_map in Hk. apply in_map_iff in Hk. destruct Hk as (x & <- & Ix).
        apply oversampling_mono; [apply samp0_pos; auto|]. apply samp0_mono; auto.
Qed.

Lemma fdomain_defined src nBin bw nyq ex ps D nPix : src <> [] ->
  (nBin = 1%nat \/ ((1 <= nBin)%nat /\ (length (np_unique src) <= 1)%nat)) ->
  exists fd, make_fdomain src nBin bw nyq ex ps D nPix = Ok fd.
Proof.
  intros Hs Hn. assert (Hu : np_unique src <> []).
  { intros E. destruct src as [|x r]; [congruence|]. assert (In x (np_unique (x :: r))) by (apply np_unique_In; left; reflexivity).
    rewrite E in H. destruct H. }
  assert (exists w, freq_wavelengths src nBin bw = Ok w /\ w <> []).
  { destruct Hn as [ ->|[Hb Hl]].
    - rewrite freq_wavelengths_one_bin. eexists; split; [reflexivity|]. destruct (np_unique src); [congruence|discriminate].
    - rewrite freq_wavelengths_one_centre, create_wavelength_vector_val by exact Hl. cbn [bind fst]. eexists; split; [reflexivity|].
      intros E. apply (f_equal (@length R)) in E. rewrite (flat_map_length_const _ nBin) in E by (intros; apply linspace_length).
      cbn in E. destruct (np_unique src); cbn in E; [congruence|lia]. }
  destruct H as (w & Ew & Hw). unfold make_fdomain. rewrite Ew. cbn [bind].
  destruct (argmin_defined w Hw) as (iW & EW). rewrite EW. cbn [bind].
  destruct (argmin_spec _ _ EW) as (m & Em & _). rewrite (pyindex_nth _ _ _ Em). cbn [bind]. cbv zeta.
  set (steps := map _ w). destruct (argmin_defined steps) as (iP & EP). { unfold steps. destruct w; [congruence|discriminate]. }
  rewrite EP. cbn [bind]. destruct (argmin_spec _ _ EP) as (m' & Em' & _). rewrite (pyindex_nth _ _ _ Em'). cbn [bind].
  assert (iP < length w)%nat.
  { assert (iP < length steps)%nat by (apply nth_error_Some; congruence). unfold steps in H. rewrite map_length in H. exact H. }
  assert (iW < length w)%nat by (apply nth_error_Some; congruence).
  destruct (nth_error (map oversampling (map (samp0 nyq ps D) w)) (if ex then iP else iW)) as [k|] eqn:EK.
  - rewrite (pyindex_nth _ _ _ EK). cbn [bind]. eexists; reflexivity.
  - apply nth_error_None in EK. rewrite !map_length in EK. destruct ex; lia.
Qed.

(** ** corrected area *)
Lemma Zceil_half (z : Z) : Zceil (IZR z / 2) = ((z + 1) / 2)%Z.
Proof.
  apply Zceil_imp. assert (D := Z.div_mod (z + 1) 2 ltac:(lia)). assert (M := Z.mod_pos_bound (z + 1) 2 ltac:(lia)).
  set (q := ((z + 1) / 2)%Z) in *. split.
  - rewrite minus_IZR. assert (IZR z = 2 * IZR q + IZR ((z + 1) mod 2) - 1).
    { rewrite <- mult_IZR, <- plus_IZR, <- minus_IZR. f_equal. lia. }
    assert (IZR ((z + 1) mod 2) >= 0) by (apply IZR_ge; lia). lra.
  - assert (IZR z <= 2 * IZR q). { rewrite <- mult_IZR. apply IZR_le. lia. } lra.
Qed.
Lemma id1_val n r : id1 n r = ((n - r + 1) / 2)%Z.
Proof. unfold id1. rewrite <- Zceil_half. f_equal. rewrite minus_IZR. lra. Qed.
Lemma id2_val n r : id2 n r = (id1 n r + r)%Z.
Proof.
  rewrite id1_val. unfold id2. replace (IZR n / 2 + IZR r / 2) with (IZR (n + r) / 2) by (rewrite plus_IZR; lra).
  rewrite Zceil_half. replace (n + r + 1)%Z with (n - r + 1 + r * 2)%Z by ring. rewrite Z.div_add by lia. reflexivity.
Qed.
Lemma id1_aligned n r : (0 <= n -> 0 <= r -> (id1 n r = n / 2 - r / 2 <-> ~ (n mod 2 = 1 /\ r mod 2 = 0)))%Z.
Proof.
  intros Hn Hr. rewrite id1_val.
  assert (D1 := Z.div_mod n 2 ltac:(lia)). assert (M1 := Z.mod_pos_bound n 2 ltac:(lia)).
  assert (D2 := Z.div_mod r 2 ltac:(lia)). assert (M2 := Z.mod_pos_bound r 2 ltac:(lia)).
  assert (D3 := Z.div_mod (n - r + 1) 2 ltac:(lia)). assert (M3 := Z.mod_pos_bound (n - r + 1) 2 ltac:(lia)).
  set (a := (n / 2)%Z) in *. set (b := (r / 2)%Z) in *. set (c := ((n - r + 1) / 2)%Z) in *.
  set (x := (n mod 2)%Z) in *. set (y := (r mod 2)%Z) in *. set (z := ((n - r + 1) mod 2)%Z) in *.
  clearbody a b c x y z. split; intros H; lia.
Qed.

Lemma fold_Rmax_ge : forall l x, x <= fold_left Rmax l x /\ forall y, In y l -> y <= fold_left Rmax l x.
Proof.
  induction l as [|z l IH]; intros x; cbn; [split; [lra|tauto]|].
  destruct (IH (Rmax x z)) as [H1 H2]. assert (A := Rmax_l x z). assert (B := Rmax_r x z). split; [lra|].
  intros y [ <-|Hy]; [lra|auto].
Qed.
Lemma fold_Rmax_in : forall l x, fold_left Rmax l x = x \/ In (fold_left Rmax l x) l.
Proof.
  induction l as [|z l IH]; intros x; cbn; [left; reflexivity|].
  destruct (IH (Rmax x z)) as [H|H]; [|right; right; exact H].
  rewrite H. unfold Rmax. destruct (Rle_dec x z); [right; left; reflexivity|left; reflexivity].
Qed.
Lemma rlist_max_spec l m : rlist_max l = Ok m -> In m l /\ forall x, In x l -> x <= m.
Proof.
  destruct l as [|a l]; cbn; [discriminate|]. intros H. apply Ok_inj in H. subst m.
  destruct (fold_Rmax_ge l a) as [H1 H2]. split.
  - destruct (fold_Rmax_in l a) as [H|H]; [left; congruence|right; exact H].
  - intros x [ <-|Hx]; auto.
Qed.
Lemma mskIn_Out circle kc kx ky : mskIn circle kc kx ky = negb (mskOut circle kc kx ky).
Proof.
  unfold mskIn, mskOut. destruct circle.
  - destruct (Rlt_dec _ _), (Rge_dec _ _); try reflexivity; lra.
  - destruct (Rlt_dec (Rabs kx) kc), (Rge_dec (Rabs kx) kc), (Rlt_dec (Rabs ky) kc), (Rge_dec (Rabs ky) kc); try reflexivity; lra.
Qed.
Lemma mskIn_circle_square kc kx ky : 0 <= kc -> mskIn true kc kx ky = true -> mskIn false kc kx ky = true.
Proof.
  unfold mskIn. intros Hk. destruct (Rlt_dec (kx ^ 2 + ky ^ 2) (kc ^ 2)); [|discriminate]. intros _.
  assert (A : Rabs kx < kc). { apply Rabs_def1; nra. }
  assert (B : Rabs ky < kc). { apply Rabs_def1; nra. }
  destruct (Rlt_dec (Rabs kx) kc), (Rlt_dec (Rabs ky) kc); try reflexivity; lra.
Qed.
Lemma nTimes_range n r : (2 <= nTimes n r <= 4)%Z.
Proof. unfold nTimes. lia. Qed.
Lemma pistonFilter_range j1 D f : 0 <= pistonFilter j1 D f <= 1.
Proof. unfold pistonFilter. destruct (Rlt_dec _ 0); [lra|]. split; [lra|]. assert (H := pow2_ge_0 (sombrero1 j1 (PI * D * (if Req_EM_T f 0 then / 10 ^ 10 else f)))). lra. Qed.
