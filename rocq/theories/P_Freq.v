(** Properties C04, C14, C23, C24, C46: wavelengths and frequency domain. *)
From Coq Require Import Reals List Arith ZArith Lia Lra Sorting.Sorted Psatz.
From Flocq Require Import Core.Raux.
From Verif Require Import Base_Py M_Freq L_Freq.
Import ListNotations.
Open Scope R_scope.

(** C04: [cen] are the distinct central wavelengths in increasing order; sample
    i of band j is at position j*n_bin+i, from edge to edge of the band. *)
Theorem C04_wavelength_vector :
  forall (src : list R) (n_bin : nat) (bw : R),
  exists w cen, create_wavelength_vector src n_bin bw = Ok (w, (n_bin * length cen)%nat) /\
    StronglySorted Rlt cen /\ (forall c, In c cen <-> In c src) /\
    length w = (n_bin * length cen)%nat /\
    forall j c i, nth_error cen j = Some c -> (i < n_bin)%nat ->
      nth_error w (j * n_bin + i) =
        Some (if (n_bin =? 1)%nat then c - bw / 2 else c - bw / 2 + INR i * (bw / INR (n_bin - 1))).
Proof.
  intros src n bw. exists (flat_map (fun c => linspace (c - bw / 2) (c + bw / 2) n) (np_unique src)), (np_unique src).
  split; [apply create_wavelength_vector_val|]. split; [apply np_unique_sorted|]. split; [intros c; apply np_unique_In|].
  split; [apply flat_map_length_const; intros; apply linspace_length|].
  intros j c i Hj Hi. rewrite (nth_error_blocks _ n _ j i c); try assumption; [|intros; apply linspace_length].
  rewrite linspace_nth by exact Hi. replace (c + bw / 2 - (c - bw / 2)) with bw by lra. reflexivity.
Qed.
Print Assumptions C04_wavelength_vector.

(** C04: the frequency-domain constructor agrees for one central wavelength or
    one bin, and raises as soon as there are two of each. *)
Theorem C04_constructor_agrees :
  forall src n_bin bw, (n_bin = 1%nat \/ (length (np_unique src) <= 1)%nat) ->
  exists w k, create_wavelength_vector src n_bin bw = Ok (w, k) /\ freq_wavelengths src n_bin bw = Ok w.
Proof.
  intros src n bw H. rewrite create_wavelength_vector_val. do 2 eexists. split; [reflexivity|].
  destruct H as [ ->|H].
  - rewrite freq_wavelengths_one_bin. apply f_equal. induction (np_unique src); cbn; [reflexivity|]. rewrite IHl. reflexivity.
  - rewrite freq_wavelengths_one_centre, create_wavelength_vector_val by exact H. reflexivity.
Qed.
Print Assumptions C04_constructor_agrees.
Theorem C04_constructor_refuted :
  forall (src : list R) n_bin bw a b, In a src -> In b src -> a <> b -> (2 <= n_bin)%nat ->
  freq_wavelengths src n_bin bw = Err ValueError /\
  exists w k, create_wavelength_vector src n_bin bw = Ok (w, k).
Proof.
  intros src n bw a b Ha Hb Hab Hn. split.
  - apply freq_wavelengths_fail; [|exact Hn]. apply np_unique_In in Ha, Hb.
    destruct (np_unique src) as [|x [|y r]]; cbn in *; [tauto| |lia]. exfalso; apply Hab. destruct Ha as [ <-|[]], Hb as [ <-|[]]. reflexivity.
  - rewrite create_wavelength_vector_val. eauto.
Qed.
Print Assumptions C04_constructor_refuted.
(** C04 (finding): with a single bin the sample is the blue edge of the band,
    not its centre. *)
Theorem C04_single_bin_refuted :
  forall c bw, bw <> 0 -> exists w, create_wavelength_vector [c] 1 bw = Ok ([w], 1%nat) /\ w <> c.
Proof.
  intros c bw H. exists (c - bw / 2). rewrite create_wavelength_vector_val. split; [reflexivity|]. lra.
Qed.
Print Assumptions C04_single_bin_refuted.
Example C04_nonvacuous : exists w, create_wavelength_vector [2; 1; 2] 2 (1/2) = Ok (w, 4%nat) /\ nth_error w 3 = Some (9/4).
Proof.
  destruct (C04_wavelength_vector [2; 1; 2] 2 (1/2)) as (w & cen & H & S & I & L & V).
  assert (cen = [1; 2]).
  { destruct cen as [|a [|b [|c r]]].
    - exfalso. apply (I 1). right; left; reflexivity.
    - exfalso. assert (A := proj2 (I 1) (or_intror (or_introl eq_refl))). assert (B := proj2 (I 2) (or_introl eq_refl)).
      destruct A as [A|[]], B as [B|[]]. lra.
    - inversion S as [|? ? S1 F1]; subst. inversion F1; subst. assert (A := proj2 (I 1) (or_intror (or_introl eq_refl))).
      assert (B := proj2 (I 2) (or_introl eq_refl)). cbn in A, B.
      destruct A as [A|[A|[]]], B as [B|[B|[]]]; subst; try lra. reflexivity.
    - exfalso. inversion S as [|? ? S1 F1]; subst. inversion F1 as [|? ? ? F2]; subst. inversion F2; subst.
      inversion S1 as [|? ? S2 F3]; subst. inversion F3; subst.
      assert (A := proj1 (I a) (or_introl eq_refl)). assert (B := proj1 (I b) (or_intror (or_introl eq_refl))).
      assert (C := proj1 (I c) (or_intror (or_intror (or_introl eq_refl)))). cbn in A, B, C.
      destruct A as [A|[A|[A|[]]]], B as [B|[B|[B|[]]]], C as [C|[C|[C|[]]]]; lra. }
  subst cen. exists w. split; [exact H|]. change 3%nat with (1 * 2 + 1)%nat. rewrite (V 1%nat 2 1%nat); try reflexivity; try lia.
  cbn [Nat.eqb Nat.sub INR]. f_equal. lra.
Qed.

(** C14: grids of frequencies. *)
Theorem C14_freq_array :
  forall (n : nat) (L off : R) (j : nat), 
    freq_x n L off (n / 2) j = off /\ freq_y n L off j (n / 2) = off /\
    (forall i, freq_x n L off (S i) j - freq_x n L off i j = L /\ freq_y n L off j (S i) - freq_y n L off j i = L) /\
    (0 < L -> forall i i', (i < i')%nat -> freq_x n L off i j < freq_x n L off i' j).
Proof.
  intros n L off j.
  assert (Z0 : (Z.of_nat (n / 2) - Z.of_nat n / 2 = 0)%Z) by (rewrite (Nat2Z.inj_div n 2); change (Z.of_nat 2) with 2%Z; lia).
  unfold freq_x, freq_y. rewrite Z0. split; [lra|]. split; [lra|]. split.
  - intros i. rewrite !minus_IZR, Nat2Z.inj_succ. unfold Z.succ. rewrite plus_IZR. lra.
  - intros HL i i' H. apply Rplus_lt_compat_r. apply Rmult_lt_compat_r; [exact HL|]. apply IZR_lt. lia.
Qed.
Print Assumptions C14_freq_array.
Theorem C14_shift_array :
  forall (n m : nat) (fact : R) (i j : nat), (i < n)%nat -> (j < m)%nat -> 0 < fact ->
    - fact / 2 <= shift_x n m fact i j < fact / 2 /\ - fact / 2 <= shift_y n m fact i j < fact / 2 /\
    (shift_x n m fact i j = 0 <-> n = (2 * i)%nat) /\ (shift_y n m fact i j = 0 <-> m = (2 * j)%nat).
Proof.
  assert (G : forall (n i : nat) f, (i < n)%nat -> 0 < f -> - f / 2 <= (INR i - INR n / 2) * f / INR n < f / 2 /\
                     ((INR i - INR n / 2) * f / INR n = 0 <-> n = (2 * i)%nat)).
  { intros n i f Hi Hf. assert (Pn : 0 < INR n) by (apply lt_0_INR; lia). assert (L := lt_INR i n Hi). assert (P := pos_INR i).
    assert (E : (INR i - INR n / 2) * f / INR n = f * (INR i / INR n) - f / 2) by (field; lra).
    assert (Q : 0 <= INR i / INR n < 1).
    { split; [apply Rmult_le_pos; [exact P|left; apply Rinv_0_lt_compat; exact Pn]|].
      apply Rmult_lt_reg_r with (INR n); [exact Pn|]. unfold Rdiv. rewrite Rmult_assoc, Rinv_l by lra. lra. }
    rewrite E. split; [nra|]. split; intros H.
    - assert (H1 : INR i / INR n = / 2) by nra. assert (H2 : INR n = 2 * INR i).
      { replace (INR i) with (INR i / INR n * INR n) at 1 by (field; lra). rewrite H1. lra. }
      change 2 with (INR 2) in H2. rewrite <- mult_INR in H2. apply INR_eq in H2. exact H2.
    - assert (H2 : INR n = 2 * INR i) by (rewrite H, mult_INR; reflexivity). rewrite H2. field. lra. }
  intros n m f i j Hi Hj Hf. unfold shift_x, shift_y. destruct (G n i f Hi Hf) as [A B]. destruct (G m j f Hj Hf) as [A' B'].
  repeat split; try apply A; try apply A'; try apply B; try apply B'; assumption.
Qed.
Print Assumptions C14_shift_array.
Theorem C14_odd_no_origin_refuted :
  forall n, Nat.even n = false -> forall i j, (i < n)%nat -> (j < n)%nat -> shift_x n n 2 i j <> 0.
Proof.
  intros n Hn i j Hi Hj H. destruct (C14_shift_array n n 2 i j Hi Hj ltac:(lra)) as (_ & _ & B & _). apply B in H.
  subst n. rewrite Nat.even_mul in Hn. discriminate.
Qed.
Print Assumptions C14_odd_no_origin_refuted.
Example C14_nonvacuous : shift_x 4 4 2 2 0 = 0 /\ shift_x 4 4 2 0 0 = -1 /\ freq_x 5 2 0 4 0 = 4.
Proof. unfold shift_x, freq_x. cbn. repeat split; try lra. Qed.
(** C14: the piston filter takes values in [0,1] whatever the Bessel function. *)
Theorem C14_piston_filter : forall j1 D f, 0 <= pistonFilter j1 D f <= 1.
Proof. exact pistonFilter_range. Qed.
Print Assumptions C14_piston_filter.

(** C23: sampling of the science images. [samp0]: lambda/D divided by the pixel
    scale (2 when Nyquist sampling is forced). *)
Theorem C23_sampling :
  forall src nBin bw nyq ex ps D nPix fd,
  make_fdomain src nBin bw nyq ex ps D nPix = Ok fd -> 0 < ps -> 0 < D ->
  (forall w, In w (fd_wvl fd) -> 0 < w) ->
  In (fd_wvlRef fd) (fd_wvl fd) /\ (forall w, In w (fd_wvl fd) -> fd_wvlRef fd <= w) /\
  length (fd_k fd) = length (fd_wvl fd) /\ length (fd_samp fd) = length (fd_wvl fd) /\
  (forall i w k s, nth_error (fd_wvl fd) i = Some w -> nth_error (fd_k fd) i = Some k -> nth_error (fd_samp fd) i = Some s ->
     (1 <= k)%Z /\ 2 <= s /\ s = IZR k * samp0 nyq ps D w /\ (IZR k - 1) * samp0 nyq ps D w < 2 /\
     fd_PSDstep fd <= / (s * D)) /\
  0 < fd_PSDstep fd <= / (2 * D) /\
  (1 <= fd_kRef fd)%Z /\ fd_nOtf fd = (nPix * fd_kRef fd)%Z /\
  (ex = false -> fd_kRef fd = oversampling (samp0 nyq ps D (fd_wvlRef fd)) /\ forall k, In k (fd_k fd) -> (k <= fd_kRef fd)%Z).
Proof. exact fdomain_spec. Qed.
Print Assumptions C23_sampling.
Theorem C23_defined :
  forall src nBin bw nyq ex ps D nPix, src <> [] ->
  (nBin = 1%nat \/ ((1 <= nBin)%nat /\ (length (np_unique src) <= 1)%nat)) ->
  exists fd, make_fdomain src nBin bw nyq ex ps D nPix = Ok fd.
Proof. exact fdomain_defined. Qed.
Print Assumptions C23_defined.

Lemma over_9_10 : oversampling (9/10) = 3%Z.
Proof. unfold oversampling. apply Zceil_imp. cbn. split; lra. Qed.
Lemma over_19_10 : oversampling (19/10) = 2%Z.
Proof. unfold oversampling. apply Zceil_imp. cbn. split; lra. Qed.
Lemma samp0_unit w : samp0 false rad2mas 1 w = w.
Proof. unfold samp0. assert (H := rad2mas_pos). field. lra. Qed.
(** C23 refuted with psdExpansion: the reference factor may be smaller than the
    factor of another wavelength (0.9 and 1.9 pixels per lambda/D). *)
Theorem C23_expansion_refuted :
  exists src ps D fd, make_fdomain src 1 0 false true ps D 64 = Ok fd /\ 0 < ps /\ 0 < D /\
    (forall w, In w (fd_wvl fd) -> 0 < w) /\ exists k, In k (fd_k fd) /\ (fd_kRef fd < k)%Z.
Proof.
  exists [9/10; 19/10], rad2mas, 1. assert (P := rad2mas_pos).
  destruct (C23_defined [9/10; 19/10] 1 0 false true rad2mas 1 64) as (fd & E); [discriminate|left; reflexivity|].
  exists fd. split; [exact E|]. split; [exact P|]. split; [lra|].
  unfold make_fdomain in E. rewrite freq_wavelengths_one_bin in E.
  assert (U : np_unique [9/10; 19/10] = [9/10; 19/10]).
  { unfold np_unique. cbn [fold_right insert_unique]. destruct (Rlt_dec (9/10) (19/10)); [reflexivity|lra]. }
  rewrite U in E. cbn [map bind] in E. cbv zeta in E. cbn [map] in E.
  assert (ST : forall w, 0 < w -> pix_scale false rad2mas 1 (w - 0 / 2) / ((w - 0 / 2) * rad2mas * IZR (oversampling (samp0 false rad2mas 1 (w - 0 / 2))))
              = / (IZR (oversampling w) * w)).
  { intros w Hw. replace (w - 0 / 2) with w by lra. rewrite samp_step by lra. rewrite samp0_unit. rewrite Rmult_1_r. reflexivity. }
  rewrite !ST in E by lra. rewrite over_9_10, over_19_10 in E.
  cbn [argmin argmin_aux bind] in E.
  destruct (Rlt_dec (19 / 10 - 0 / 2) (9 / 10 - 0 / 2)) as [X|X]; [lra|]. cbn [bind] in E.
  change (Z.of_nat 0) with 0%Z in E. cbn [pyindex length Z.of_nat Pos.of_succ_nat Pos.succ Z.ltb Z.compare Z.leb orb Z.to_nat nth_error bind] in E.
  destruct (Rlt_dec (/ (2 * (19 / 10))) (/ (3 * (9 / 10)))) as [Y|Y].
  2:{ exfalso. apply Y. apply Rinv_lt_contravar; lra. }
  cbn [bind] in E. replace (9 / 10 - 0 / 2) with (9/10) in E by lra. replace (19 / 10 - 0 / 2) with (19/10) in E by lra.
  rewrite !samp0_unit, over_9_10, over_19_10 in E.
  change (pyindex [/ (3 * (9 / 10)); / (2 * (19 / 10))] (Z.of_nat 1)) with (Ok (/ (2 * (19 / 10)))) in E. cbn [bind] in E.
  change (pyindex [3%Z; 2%Z] (Z.of_nat 1)) with (Ok 2%Z) in E. cbn [bind] in E.
  apply Ok_inj in E. subst fd. cbn [fd_wvl fd_k fd_kRef]. split.
  - intros w [ <-|[ <-|[]]]; lra.
  - exists 3%Z. split; [left; reflexivity|lia].
Qed.
Print Assumptions C23_expansion_refuted.
Example C23_nonvacuous :
  exists fd, make_fdomain [1/1000000; 2/1000000] 1 0 false false 10 8 100 = Ok fd /\ 0 < fd_PSDstep fd <= / (2 * 8).
Proof.
  destruct (C23_defined [1/1000000; 2/1000000] 1 0 false false 10 8 100) as (fd & E); [discriminate|left; reflexivity|].
  exists fd. split; [exact E|].
  assert (W : forall w, In w (fd_wvl fd) -> 0 < w).
  { unfold make_fdomain in E. rewrite freq_wavelengths_one_bin in E. cbn [bind] in E.
    set (w := map _ _) in E.
    apply bind_Ok in E; destruct E as (? & ? & E). apply bind_Ok in E; destruct E as (? & ? & E). cbv zeta in E.
    apply bind_Ok in E; destruct E as (? & ? & E). apply bind_Ok in E; destruct E as (? & ? & E). apply bind_Ok in E; destruct E as (? & ? & E).
    apply Ok_inj in E. subst fd. cbn [fd_wvl]. intros xx Hx. unfold w in Hx. apply in_map_iff in Hx. destruct Hx as (c & <- & Hc).
    apply (proj1 (np_unique_In _ _)) in Hc. destruct Hc as [ <-|[ <-|[]]]; lra. }
  destruct (C23_sampling _ _ _ _ _ _ _ _ _ E) as (_ & _ & _ & _ & _ & S & _); [lra|lra|exact W|exact S].
Qed.

(** C24: corrected and uncorrected areas. *)
Theorem C24_partition :
  forall circle kc kx ky, mskIn circle kc kx ky = negb (mskOut circle kc kx ky).
Proof. exact mskIn_Out. Qed.
Print Assumptions C24_partition.
Theorem C24_meaning :
  forall kc kx ky, 0 <= kc ->
  (mskIn true kc kx ky = true <-> sqrt (kx ^ 2 + ky ^ 2) < kc) /\
  (mskIn false kc kx ky = true <-> Rmax (Rabs kx) (Rabs ky) < kc) /\
  (mskIn true kc kx ky = true -> mskIn false kc kx ky = true).
Proof.
  intros kc kx ky Hk. split; [|split; [|apply mskIn_circle_square; exact Hk]].
  - unfold mskIn. assert (P : 0 <= kx ^ 2 + ky ^ 2) by (assert (A := pow2_ge_0 kx); assert (B := pow2_ge_0 ky); lra).
    assert (S := sqrt_sqrt _ P). assert (S' := sqrt_pos (kx ^ 2 + ky ^ 2)).
    destruct (Rlt_dec (kx ^ 2 + ky ^ 2) (kc ^ 2)); split; intros; try reflexivity; try discriminate; nra.
  - unfold mskIn. assert (M : Rmax (Rabs kx) (Rabs ky) < kc <-> Rabs kx < kc /\ Rabs ky < kc).
    { unfold Rmax. destruct (Rle_dec _ _); split; intros; lra. }
    rewrite M. destruct (Rlt_dec (Rabs kx) kc), (Rlt_dec (Rabs ky) kc); cbn; intuition; discriminate.
Qed.
Print Assumptions C24_meaning.
(** C24: the slice given to the corrected area has exactly its size, if and
    only if it fits in the full grid ... *)
Theorem C24_embedding_size :
  forall n r, (0 <= n)%Z -> (1 <= r)%Z -> (slice_len n (id1 n r) (id2 n r) = r <-> (r <= n)%Z).
Proof.
  intros n r Hn Hr. rewrite id2_val. assert (V := id1_val n r).
  assert (D := Z.div_mod (n - r + 1) 2 ltac:(lia)). assert (M := Z.mod_pos_bound (n - r + 1) 2 ltac:(lia)).
  set (q := ((n - r + 1) / 2)%Z) in *. clearbody q. rewrite V. clear V. unfold slice_len, slice_bound.
  set (m := ((n - r + 1) mod 2)%Z) in *. clearbody m.
  destruct (Z.ltb_spec (q + r) 0), (Z.ltb_spec q 0); lia.
Qed.
Print Assumptions C24_embedding_size.
(** ... and each of its pixels lands on the pixel of the full grid with the same
    frequency, except when the full grid is odd and the area even (finding). *)
Theorem C24_embedding_aligned :
  forall (n r : nat) (L off : R), L <> 0 -> (r <= n)%nat ->
  ((forall i j, (i < r)%nat -> freq_x r L off i j = freq_x n L off (Z.to_nat (id1 (Z.of_nat n) (Z.of_nat r)) + i) j)
   <-> ~ (Nat.odd n = true /\ Nat.even r = true /\ (0 < r)%nat)).
Proof.
  intros n r L off HL Hrn.
  assert (Q : (0 <= id1 (Z.of_nat n) (Z.of_nat r))%Z) by (rewrite id1_val; apply Z.div_pos; lia).
  assert (A := id1_aligned (Z.of_nat n) (Z.of_nat r) ltac:(lia) ltac:(lia)).
  assert (On : (Z.of_nat n mod 2 = 1)%Z <-> Nat.odd n = true).
  { rewrite Nat.odd_spec. rewrite <- Zodd_mod_equiv || idtac. rewrite Zmod_odd. split; intros H.
    - destruct (Z.odd (Z.of_nat n)) eqn:E; [|discriminate]. apply Z.odd_spec in E. destruct E as [m Em]. exists (Z.to_nat m). lia.
    - destruct H as [m ->]. rewrite Nat2Z.inj_add, Nat2Z.inj_mul, Z.odd_add, Z.odd_mul. reflexivity. }
  assert (Er : (Z.of_nat r mod 2 = 0)%Z <-> Nat.even r = true).
  { rewrite Nat.even_spec. rewrite Zmod_odd. split; intros H.
    - destruct (Z.odd (Z.of_nat r)) eqn:E; [discriminate|]. rewrite <- Z.negb_even in E. apply Bool.negb_false_iff in E.
      apply Z.even_spec in E. destruct E as [m Em]. exists (Z.to_nat m). lia.
    - destruct H as [m ->]. rewrite Nat2Z.inj_mul, Z.odd_mul. reflexivity. }
  rewrite <- On, <- Er. unfold freq_x. set (d := id1 (Z.of_nat n) (Z.of_nat r)) in *. split.
  - intros H (N1 & N2 & N3). apply A; [|split; assumption].
    specialize (H 0%nat 0%nat N3). apply Rplus_eq_reg_r in H. apply Rmult_eq_reg_r in H; [|exact HL]. apply eq_IZR in H. lia.
  - intros H i j Hi. assert (E : (d = Z.of_nat n / 2 - Z.of_nat r / 2)%Z) by (apply A; intros [N1 N2]; apply H; repeat split; try assumption; lia).
    do 2 f_equal. f_equal. lia.
Qed.
Print Assumptions C24_embedding_aligned.
(** C24: the integration step dk = 2*kcMax/resAO is the sampling step of the
    grid, up to the rounding of the area to a whole number of pixels. *)
Theorem C24_integration_step :
  forall kc step r m dk, rlist_max kc = Ok m -> 0 < step -> 0 < m ->
  resAO kc step = Ok r -> dk_step m r = Ok dk ->
  (1 <= r)%Z /\ step <= dk < step * (1 + / IZR r) /\ IZR r <= 2 * m / step < IZR r + 1.
Proof.
  intros kc step r m dk Hm Hs Hpos Hr Hd. unfold dk_step in Hd. destruct (Z.eqb_spec r 0); [discriminate|]. apply Ok_inj in Hd. subst dk.
  unfold resAO in Hr. apply bind_Ok in Hr. destruct Hr as (x & Hx & Hr). apply Ok_inj in Hr.
  destruct (rlist_max_spec _ _ Hm) as [I1 M1]. destruct (rlist_max_spec _ _ Hx) as [I2 M2].
  assert (x = 2 * m / step).
  { apply Rle_antisym.
    - apply in_map_iff in I2. destruct I2 as (y & <- & Iy). unfold Rdiv. apply Rmult_le_compat_r; [left; apply Rinv_0_lt_compat; exact Hs|].
      apply Rmult_le_compat_l; [lra|auto].
    - apply M2. apply in_map_iff. exists m. split; [reflexivity|exact I1]. }
  subst x. assert (P : 0 < 2 * m / step) by (apply Rdiv_lt_0_compat; lra).
  rewrite Ztrunc_floor in Hr by lra. assert (F1 := Zfloor_lb (2 * m / step)). assert (F2 := Zfloor_ub (2 * m / step)). rewrite Hr in *.
  assert (0 <= r)%Z. { assert (-1 < IZR r) by lra. apply lt_IZR in H. lia. }
  assert (R1 : (1 <= r)%Z) by lia. apply IZR_le in R1 as R2.
  assert (E : 2 * m = 2 * m / step * step) by (field; lra).
  split; [exact R1|]. split; [|split; [exact F1|exact F2]]. split.
  - apply Rmult_le_reg_r with (IZR r); [lra|]. unfold Rdiv. rewrite Rmult_assoc, Rinv_l by lra. rewrite Rmult_1_r, E. nra.
  - apply Rmult_lt_reg_r with (IZR r); [lra|]. unfold Rdiv. rewrite Rmult_assoc, Rinv_l by lra. rewrite Rmult_1_r, E.
    replace (step * (1 + / IZR r) * IZR r) with (step * (IZR r + 1)) by (field; lra). nra.
Qed.
Print Assumptions C24_integration_step.
Theorem C24_nTimes : forall n r, (2 <= nTimes n r <= 4)%Z.
Proof. exact nTimes_range. Qed.
Print Assumptions C24_nTimes.
Example C24_nonvacuous : mskIn true 5 3 3 = true /\ mskIn false 5 4 4 = true /\ mskIn true 5 4 4 = false /\ id1 20 7 = 7%Z /\ slice_len 20 (id1 20 7) (id2 20 7) = 7%Z.
Proof.
  unfold mskIn. repeat split.
  - destruct (Rlt_dec (3 ^ 2 + 3 ^ 2) (5 ^ 2)); [reflexivity|lra].
  - rewrite Rabs_right by lra. destruct (Rlt_dec 4 5); [reflexivity|lra].
  - destruct (Rlt_dec (4 ^ 2 + 4 ^ 2) (5 ^ 2)); [lra|reflexivity].
  - rewrite id1_val. reflexivity.
  - rewrite id2_val, id1_val. reflexivity.
Qed.

(** C46: the field-of-view check of the constructor is sound when no
    oversampling is needed and the atmosphere wavelength is at least the
    science one ... *)
Theorem C46_fov_check_sound :
  forall src bw ps D nPix fd kc aw r, make_fdomain src 1 bw false false ps D nPix = Ok fd -> 0 < ps -> 0 < D -> (0 <= nPix)%Z ->
  (forall w, In w (fd_wvl fd) -> 0 < w <= aw) -> fd_kRef fd = 1%Z -> (forall k, In k kc -> 0 <= k) ->
  fov_check kc aw (fd_psInMas fd) (fd_nOtf fd) = Ok tt -> resAO kc (fd_PSDstep fd) = Ok r ->
  (r <= fd_nOtf fd)%Z.
Proof.
  intros src bw ps D nPix fd kc aw r E Hps HD HN HW HK Hkc Hc Hr.
  destruct (fdomain_spec _ _ _ _ _ _ _ _ _ E) as (_ & _ & L1 & L2 & S & [P1 P2] & _ & Hn & Hk); try assumption.
  { intros w Hw; apply HW; exact Hw. }
  destruct (Hk eq_refl) as [_ Kle].
  unfold make_fdomain in E.
  apply bind_Ok in E; destruct E as (w & Ew & E). apply bind_Ok in E; destruct E as (iW & EW & E).
  apply bind_Ok in E; destruct E as (wRef & ER & E). cbv zeta in E.
  apply bind_Ok in E; destruct E as (iP & EP & E). apply bind_Ok in E; destruct E as (st & ES & E).
  apply bind_Ok in E; destruct E as (kR & EK & E). apply Ok_inj in E. subst fd.
  cbn [fd_wvl fd_wvlRef fd_psInMas fd_k fd_samp fd_PSDstep fd_kRef fd_nOtf] in *.
  apply pyindex_of_nat in ES. assert (IS := nth_error_In _ _ ES). apply in_map_iff in IS. destruct IS as (x & Ex & Ix).
  destruct (HW x Ix) as [Px Lx].
  assert (Kx : oversampling (samp0 false ps D x) = 1%Z).
  { assert (A : (oversampling (samp0 false ps D x) <= kR)%Z) by (apply Kle; rewrite map_map; apply in_map_iff; exists x; split; [reflexivity|exact Ix]).
    destruct (oversampling_spec (samp0 false ps D x)) as (B & _); [apply samp0_pos; assumption|]. lia. }
  rewrite Kx in Ex. unfold pix_scale in Ex.
  unfold resAO in Hr. apply bind_Ok in Hr. destruct Hr as (m & Hm & Hr). apply Ok_inj in Hr.
  destruct (rlist_max_spec _ _ Hm) as [Im Mm]. apply in_map_iff in Im. destruct Im as (k & Em & Ik).
  unfold fov_check in Hc. apply bind_Ok in Hc. destruct Hc as (m' & Hm' & Hc).
  destruct (Rlt_dec (IZR (nPix * kR)) m'); [discriminate|]. destruct (rlist_max_spec _ _ Hm') as [_ Mm'].
  assert (B : 2 * (k * aw * rad2mas) / ps <= m').
  { apply Mm'. apply in_flat_map. exists k. split; [exact Ik|]. apply in_map_iff. exists ps. split; [reflexivity|].
    apply in_map_iff. exists x. split; [reflexivity|exact Ix]. }
  assert (R := rad2mas_pos). assert (Pk := Hkc k Ik).
  assert (m <= 2 * (k * aw * rad2mas) / ps).
  { rewrite <- Em, <- Ex. replace (2 * k / (ps / (x * rad2mas * 1))) with (2 * (k * x * rad2mas) / ps) by (field; repeat split; lra).
    unfold Rdiv. apply Rmult_le_compat_r; [left; apply Rinv_0_lt_compat; lra|].
    apply Rmult_le_compat_l; [lra|]. apply Rmult_le_compat_r; [lra|]. apply Rmult_le_compat_l; lra. }
  assert (0 <= m). { rewrite <- Em. unfold Rdiv. apply Rmult_le_pos; [lra|]. left. apply Rinv_0_lt_compat. exact P1. }
  rewrite Ztrunc_floor in Hr by lra. assert (F := Zfloor_lb m). rewrite Hr in F. apply le_IZR. lra.
Qed.
Print Assumptions C46_fov_check_sound.
(** ... but it is evaluated at the atmosphere wavelength and in oversampled
    pixels: a field too small by any factor is accepted, and the correction
    area then does not fit: NumPy refuses the assignment. *)
Theorem C46_fov_check_refuted :
  forall N : Z, (2 <= N)%Z ->
  exists src kc aw fd r, make_fdomain src 1 0 false false rad2mas 1 N = Ok fd /\
    fov_check kc aw (fd_psInMas fd) (fd_nOtf fd) = Ok tt /\ resAO kc (fd_PSDstep fd) = Ok r /\
    (fd_nOtf fd < r)%Z /\ embed_ok (fd_nOtf fd) r = false.
Proof.
  intros N HN. assert (R := rad2mas_pos). assert (HN' := IZR_le _ _ HN).
  assert (E : make_fdomain [2] 1 0 false false rad2mas 1 N = Ok (mkFD [2 - 0 / 2] (2 - 0 / 2) [rad2mas] [1%Z] [2] (/ 2) 1 (N * 1))).
  { unfold make_fdomain. rewrite freq_wavelengths_one_bin. cbn [np_unique fold_right insert_unique map bind argmin argmin_aux].
    change (Z.of_nat 0) with 0%Z.
    cbn [pyindex length Z.of_nat Pos.of_succ_nat Pos.succ Z.ltb Z.compare Z.leb orb Z.to_nat nth_error bind].
    replace (samp0 false rad2mas 1 (2 - 0 / 2)) with 2 by (rewrite samp0_unit; lra).
    replace (oversampling 2) with 1%Z by (unfold oversampling; symmetry; apply Zceil_imp; cbn; split; lra).
    cbn [pix_scale]. do 2 f_equal.
    - f_equal. lra.
    - field. lra. }
  exists [2], [IZR N / 2], (/ 2), (mkFD [2 - 0 / 2] (2 - 0 / 2) [rad2mas] [1%Z] [2] (/ 2) 1 (N * 1)), (N * 2)%Z.
  split; [exact E|]. cbn [fd_psInMas fd_nOtf fd_PSDstep]. rewrite Z.mul_1_r. split; [|split; [|split]].
  - unfold fov_check. cbn [flat_map map app rlist_max fold_left bind]. destruct (Rlt_dec _ _) as [H|H]; [|reflexivity].
    exfalso. replace (2 * (IZR N / 2 * / 2 * rad2mas) / rad2mas) with (IZR N / 2) in H by (field; lra). lra.
  - unfold resAO. cbn [map rlist_max fold_left bind]. f_equal.
    replace (2 * (IZR N / 2) / / 2) with (IZR (N * 2)) by (rewrite mult_IZR; field). apply Ztrunc_IZR.
  - lia.
  - unfold embed_ok. apply Bool.orb_false_iff. split.
    + apply Z.eqb_neq. intros H. apply C24_embedding_size in H; lia.
    + apply Z.eqb_neq. lia.
Qed.
Print Assumptions C46_fov_check_refuted.
