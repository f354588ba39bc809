(** Properties C21 (sources), C22 (actuator indices), C48 (deformable mirrors),
    C49 (real-time computer). *)
From Coq Require Import Reals List Arith ZArith Lia Lra Psatz Bool.
From Flocq Require Import Core.Raux.
From Verif Require Import Base_Py M_Tools L_Tools L_Tools2 M_Atmo L_Atmo M_Source.
Import ListNotations.
Open Scope R_scope.

Lemma bmul_eq a b : length a = length b -> bmul a b = Ok (map (fun p => fst p * snd p) (combine a b)).
Proof. intros H. unfold bmul. rewrite H, Nat.eqb_refl. reflexivity. Qed.
Lemma nth_combine_map (f g : R -> R) z a i zi ai : nth_error z i = Some zi -> nth_error a i = Some ai ->
  nth_error (map (fun p => fst p * snd p) (combine (map f z) (map g a))) i = Some (f zi * g ai).
Proof.
  revert z a. induction i as [|i IH]; intros [|x z] [|y a]; cbn; try discriminate.
  - intros E1 E2. injection E1 as ->. injection E2 as ->. reflexivity.
  - apply IH.
Qed.
Lemma assign_row_eq n x : length x = n -> assign_row n x = Ok x.
Proof. intros H. unfold assign_row. rewrite H, Nat.eqb_refl. reflexivity. Qed.
Lemma times_ones_one x n : times_ones [x] n = Ok (repeat x n).
Proof. unfold times_ones. destruct n as [|[|n]]; reflexivity. Qed.
Lemma heights_scal h n : heights_of (HScal h) n = Ok (repeat h n).
Proof. unfold heights_of. destruct (Req_EM_T h 0) as [ ->|]; [reflexivity|apply times_ones_one]. Qed.

Lemma Some_eq {A} (x y : A) : Some x = Some y -> x = y.
Proof. congruence. Qed.
Lemma map_rep {A B} (f : A -> B) x n : map f (repeat x n) = repeat (f x) n.
Proof. induction n; cbn; [reflexivity|]. rewrite IHn. reflexivity. Qed.
(** The direction (x,y) of a source at zenith angle z (arcsec) and azimuth a (deg). *)
Definition points_to (z a x y : R) : Prop :=
  x = tan (z * (PI / 180 / 3600)) * cos (a * (PI / 180)) /\ y = tan (z * (PI / 180 / 3600)) * sin (a * (PI / 180)).
Lemma direction_val s : length (so_zen s) = so_nSrc s -> length (so_az s) = so_nSrc s ->
  exists xs ys, direction s = Ok (xs, ys) /\ length xs = so_nSrc s /\ length ys = so_nSrc s /\
    forall i z a, nth_error (so_zen s) i = Some z -> nth_error (so_az s) i = Some a ->
      exists x y, nth_error xs i = Some x /\ nth_error ys i = Some y /\ points_to z a x y.
Proof.
  intros Hz Ha. unfold direction. rewrite !bmul_eq by (rewrite !map_length; lia). cbn [bind].
  rewrite !assign_row_eq by (rewrite map_length, combine_length, !map_length; lia). cbn [bind].
  do 2 eexists. split; [reflexivity|]. rewrite !map_length, !combine_length, !map_length. split; [lia|]. split; [lia|].
  intros i z a Ez Ea. do 2 eexists. split; [apply (nth_combine_map (fun z => tan (z * arcsec2rad)) (fun a => cos (a * deg2rad)) _ _ _ _ _ Ez Ea)|].
  split; [apply (nth_combine_map (fun z => tan (z * arcsec2rad)) (fun a => sin (a * deg2rad)) _ _ _ _ _ Ez Ea)|]. split; reflexivity.
Qed.
(** C21: one source per (zenith, azimuth) pair, in order, each at the scalar
    height given, with the documented direction. *)
Theorem C21_direction :
  forall (wvl : sol R) (z a : list R) (h : R), length z = length a -> z <> [] ->
  exists s xs ys, source_init wvl (Lst z) (Lst a) (HScal h) = Ok s /\ so_nSrc s = length z /\ so_zen s = z /\ so_az s = a /\
    so_h s = repeat h (length z) /\ direction s = Ok (xs, ys) /\ length xs = length z /\ length ys = length z /\
    forall i zi ai, nth_error z i = Some zi -> nth_error a i = Some ai ->
      exists x y, nth_error xs i = Some x /\ nth_error ys i = Some y /\ points_to zi ai x y.
Proof.
  intros wvl z a h HL Hn. unfold source_init. cbn [vec].
  assert (T : test1 z = test1 a) by (unfold test1; rewrite HL; reflexivity).
  cbv zeta. set (r := if (test1 z && test1 a && test1 (vec wvl))%bool then _ else _).
  assert (R : r = (length z, z, a)).
  { unfold r. rewrite <- T. destruct (test1 z) eqn:E; cbn [negb andb]; [|reflexivity].
    destruct (test1 (vec wvl)); [|reflexivity]. unfold test1 in E. apply Nat.eqb_eq in E. rewrite E. reflexivity. }
  rewrite R. cbn [fst snd]. rewrite heights_scal. cbn [bind].
  set (s := mkSource _ _ _ _ _ _). destruct (direction_val s) as (xs & ys & D & L1 & L2 & F); [reflexivity|cbn; lia|].
  exists s, xs, ys. split; [reflexivity|]. do 4 (split; [reflexivity|]). split; [exact D|]. split; [exact L1|]. split; [exact L2|exact F].
Qed.
Print Assumptions C21_direction.
(** C21: one zenith angle for several azimuths, or one azimuth for several
    zenith angles, is repeated (single wavelength). *)
Theorem C21_broadcast :
  forall (w : R) (h v : R) (l : list R), (2 <= length l)%nat ->
  (exists s d, source_init (Scal w) (Scal v) (Lst l) (HScal h) = Ok s /\ so_nSrc s = length l /\
     so_zen s = repeat v (length l) /\ so_az s = l /\ direction s = Ok d) /\
  (exists s d, source_init (Scal w) (Lst l) (Scal v) (HScal h) = Ok s /\ so_nSrc s = length l /\
     so_zen s = l /\ so_az s = repeat v (length l) /\ direction s = Ok d).
Proof.
  intros w h v l HL. unfold source_init. cbn [vec].
  assert (T : test1 l = false) by (unfold test1; apply Nat.eqb_neq; lia). assert (Tv : forall x, test1 [x] = true) by reflexivity.
  rewrite !Tv, !T. cbn [negb andb fst snd nth]. split; (rewrite heights_scal; cbn [bind]).
  - set (s := mkSource (fst _) _ _ _ _ _). destruct (direction_val s) as (xs & ys & D & _); [cbn; apply repeat_length|reflexivity|].
    exists s, (xs, ys). split; [reflexivity|]. do 3 (split; [reflexivity|]). exact D.
  - set (s := mkSource (fst _) _ _ _ _ _). destruct (direction_val s) as (xs & ys & D & _); [reflexivity|cbn; apply repeat_length|].
    exists s, (xs, ys). split; [reflexivity|]. do 3 (split; [reflexivity|]). exact D.
Qed.
Print Assumptions C21_broadcast.
(** C21 refuted: unequal lists are accepted by the constructor and only fail when
    the directions are read. *)
Theorem C21_mismatch_accepted_refuted :
  forall (wvl : sol R) (z a : list R) (h : R), (2 <= length z)%nat -> (2 <= length a)%nat -> length z <> length a ->
  exists s, source_init wvl (Lst z) (Lst a) (HScal h) = Ok s /\ direction s = Err ValueError.
Proof.
  intros wvl z a h Hz Ha Hne. unfold source_init. cbn [vec].
  assert (T : test1 z = false) by (unfold test1; apply Nat.eqb_neq; lia). assert (T' : test1 a = false) by (unfold test1; apply Nat.eqb_neq; lia).
  rewrite T, T'. cbn [negb andb fst snd]. rewrite heights_scal. cbn [bind]. eexists. split; [reflexivity|].
  unfold direction, bmul. cbn [so_zen so_az]. rewrite !map_length. destruct (Nat.eqb_spec (length z) (length a)); [contradiction|].
  destruct z as [|? [|? ?]]; cbn in Hz; try lia. destruct a as [|? [|? ?]]; cbn in Ha; try lia. reflexivity.
Qed.
Print Assumptions C21_mismatch_accepted_refuted.
(** C21 refuted: one zenith angle with several azimuths AND several wavelengths is
    accepted as one source and its direction cannot be read. *)
Theorem C21_multi_wavelength_broadcast_refuted :
  forall (w a : list R) (z h : R), length w <> 1%nat -> (2 <= length a)%nat ->
  exists s, source_init (Lst w) (Scal z) (Lst a) (HScal h) = Ok s /\ so_nSrc s = 1%nat /\ direction s = Err ValueError.
Proof.
  intros w a z h Hw Ha. unfold source_init. cbn [vec].
  assert (T : test1 w = false) by (unfold test1; apply Nat.eqb_neq; exact Hw). assert (T' : test1 a = false) by (unfold test1; apply Nat.eqb_neq; lia).
  rewrite T, T'. rewrite !andb_false_r. cbn [negb andb fst snd length]. rewrite heights_scal. cbn [bind]. eexists. split; [reflexivity|]. split; [reflexivity|].
  unfold direction, bmul. cbn [so_zen so_az so_nSrc map length]. rewrite map_length.
  destruct a as [|a0 [|a1 ar]]; cbn in Ha; try lia. cbn. reflexivity.
Qed.
Print Assumptions C21_multi_wavelength_broadcast_refuted.
(** C21 refuted: different heights for different sources: a NumPy array is refused
    whatever its length, and a list is accepted for one source with a wrong length. *)
Theorem C21_heights_refuted :
  forall (wvl : sol R) (z a h : list R), length z = length a -> z <> [] -> (2 <= length h)%nat ->
  source_init wvl (Lst z) (Lst a) (HArr h) = Err ValueError /\
  (length z = 1%nat -> exists s, source_init wvl (Lst z) (Lst a) (HList h) = Ok s /\ so_nSrc s = 1%nat /\ so_h s = h) /\
  (length z = length h -> exists s, source_init wvl (Lst z) (Lst a) (HList h) = Ok s /\ so_h s = h).
Proof.
  intros wvl z a h HL Hn Hh. unfold source_init. cbn [vec].
  assert (T : test1 z = test1 a) by (unfold test1; rewrite HL; reflexivity).
  cbv zeta. set (r := if (test1 z && test1 a && test1 (vec wvl))%bool then _ else _).
  assert (R : r = (length z, z, a)).
  { unfold r. rewrite <- T. destruct (test1 z) eqn:E; cbn [negb andb]; [|reflexivity].
    destruct (test1 (vec wvl)); [|reflexivity]. unfold test1 in E. apply Nat.eqb_eq in E. rewrite E. reflexivity. }
  rewrite R. cbn [fst snd]. destruct h as [|h0 [|h1 hr]]; cbn [length] in Hh; try lia. split; [reflexivity|]. split.
  - intros E. rewrite E. cbn [heights_of times_ones length Nat.eqb bind]. eexists. split; [reflexivity|]. split; reflexivity.
  - intros E. unfold heights_of, times_ones. rewrite E, Nat.eqb_refl. cbn [bind]. eexists. split; reflexivity.
Qed.
Print Assumptions C21_heights_refuted.
(** C21: azimuths are angles: adding whole turns changes nothing. *)
Lemma cos_turn x k : cos ((x + 360 * INR k) * deg2rad) = cos (x * deg2rad).
Proof. unfold deg2rad. replace ((x + 360 * INR k) * (PI / 180)) with (x * (PI / 180) + 2 * INR k * PI) by field. apply cos_period. Qed.
Lemma sin_turn x k : sin ((x + 360 * INR k) * deg2rad) = sin (x * deg2rad).
Proof. unfold deg2rad. replace ((x + 360 * INR k) * (PI / 180)) with (x * (PI / 180) + 2 * INR k * PI) by field. apply sin_period. Qed.
Theorem C21_azimuth_periodic :
  forall wvl z a h k s t, source_init wvl z (Lst a) h = Ok s -> source_init wvl z (Lst (map (fun x => x + 360 * INR k) a)) h = Ok t -> direction s = direction t.
Proof.
  intros wvl z a h k s t. unfold source_init. cbn [vec].
  assert (T : test1 (map (fun x => x + 360 * INR k) a) = test1 a) by (unfold test1; rewrite map_length; reflexivity). rewrite T, map_length.
  cbv zeta.
  set (r := if (test1 (vec z) && test1 a && test1 (vec wvl))%bool then (1%nat, vec z, a) else _).
  set (r' := if (test1 (vec z) && test1 a && test1 (vec wvl))%bool then (1%nat, vec z, map _ a) else _).
  assert (E : fst r' = fst r /\ snd r' = map (fun x => x + 360 * INR k) (snd r)).
  { unfold r, r'. destruct (test1 (vec z)), (test1 a) eqn:Ta, (test1 (vec wvl)); cbn [negb andb fst snd]; repeat split; try reflexivity.
    unfold test1 in Ta. apply Nat.eqb_eq in Ta. destruct a as [|x [|]]; try discriminate. cbn [map nth]. rewrite map_rep. reflexivity. }
  destruct E as (E1 & E2). rewrite E1, E2. destruct (heights_of h (fst (fst r))); cbn [bind]; [|discriminate].
  intros H1 H2. apply Ok_inj in H1. apply Ok_inj in H2. subst s t. unfold direction. cbn [so_zen so_az so_nSrc]. rewrite !map_map.
  rewrite (map_ext (fun x => cos ((x + 360 * INR k) * deg2rad)) (fun x => cos (x * deg2rad))) by (intros; apply cos_turn).
  rewrite (map_ext (fun x => sin ((x + 360 * INR k) * deg2rad)) (fun x => sin (x * deg2rad))) by (intros; apply sin_turn). reflexivity.
Qed.
Print Assumptions C21_azimuth_periodic.
Example C21_nonvacuous : exists s xs ys, source_init (Scal 1) (Lst [0; 30; 60]) (Lst [0; 120; 240]) (HScal 90000) = Ok s /\
  so_nSrc s = 3%nat /\ so_h s = [90000; 90000; 90000] /\ direction s = Ok (xs, ys) /\ nth_error xs 0 = Some 0.
Proof.
  destruct (C21_direction (Scal 1) [0; 30; 60] [0; 120; 240] 90000) as (s & xs & ys & E & N & _ & _ & H & D & _ & _ & F); [reflexivity|discriminate|].
  exists s, xs, ys. repeat (split; [assumption|]). destruct (F 0%nat 0 0 eq_refl eq_refl) as (x & y & Ex & _ & -> & _). rewrite Ex. f_equal.
  rewrite !Rmult_0_l, tan_0, Rmult_0_l. reflexivity.
Qed.

(** C22: row/column -> index -> row/column on a grid of [r] rows and [c] columns. *)
Lemma roundtrip_val r c i j : (0 < r -> 0 < c -> 0 <= i < r -> 0 <= j < c ->
  ind2sub r c (sub2ind r c i j) = (i * c / r, j))%Z.
Proof.
  intros Hr Hc Hi Hj. unfold ind2sub, sub2ind. assert (A : (0 <= i * c + j < r * c)%Z) by nia.
  assert (C : forall x, (0 <= x < r * c)%Z -> clip_ind r c x = x).
  { intros x Hx. unfold clip_ind. destruct (Z.ltb_spec x 0); [lia|]. destruct (Z.leb_spec (r * c) x); [lia|reflexivity]. }
  rewrite (C (i * c + j)%Z A), (C (i * c + j)%Z A).
  assert (M : ((i * c + j) mod c = j)%Z) by (rewrite Z.add_comm, Z.mod_add by lia; apply Z.mod_small; lia). rewrite M. f_equal.
  replace (i * c + j - j)%Z with (i * c)%Z by ring. apply Z.quot_div_nonneg; nia.
Qed.
Theorem C22_square_roundtrip :
  forall n i j : Z, (0 < n)%Z -> (0 <= i < n)%Z -> (0 <= j < n)%Z -> ind2sub n n (sub2ind n n i j) = (i, j).
Proof. intros n i j Hn Hi Hj. rewrite roundtrip_val by lia. f_equal. apply Z.div_mul. lia. Qed.
Print Assumptions C22_square_roundtrip.
Theorem C22_square_roundtrip_index :
  forall n k : Z, (0 < n)%Z -> (0 <= k < n * n)%Z -> sub2ind n n (fst (ind2sub n n k)) (snd (ind2sub n n k)) = k.
Proof.
  intros n k Hn Hk. unfold ind2sub, sub2ind. assert (C : clip_ind n n k = k).
  { unfold clip_ind. destruct (Z.ltb_spec k 0); [lia|]. destruct (Z.leb_spec (n * n) k); [lia|reflexivity]. }
  rewrite C. cbn [fst snd]. assert (D := Z.div_mod k n ltac:(lia)). assert (B := Z.mod_pos_bound k n Hn).
  replace (k - k mod n)%Z with (k / n * n)%Z by lia. rewrite Z.quot_mul by lia. replace (k / n * n + k mod n)%Z with k by lia. exact C.
Qed.
Print Assumptions C22_square_roundtrip_index.
(** C22: exact condition on rectangular grids (finding: the row is divided by the
    number of rows instead of columns, so it fails unless r <= c <= r+1 or r = 1). *)
Theorem C22_rectangular :
  forall r c : Z, (0 < r)%Z -> (0 < c)%Z ->
  ((forall i j, (0 <= i < r)%Z -> (0 <= j < c)%Z -> ind2sub r c (sub2ind r c i j) = (i, j)) <-> (r = 1 \/ r <= c <= r + 1)%Z).
Proof.
  intros r c Hr Hc. split.
  - intros H. destruct (Z.eq_dec r 1) as [|N]; [left; assumption|right].
    assert (E : (forall i, 0 <= i < r -> i * c / r = i)%Z).
    { intros i Hi. assert (X := H i 0%Z Hi ltac:(lia)). rewrite roundtrip_val in X by lia. congruence. }
    assert (E1 := E 1%Z ltac:(lia)). assert (E2 := E (r - 1)%Z ltac:(lia)). rewrite Z.mul_1_l in E1.
    assert (D1 := Z.div_mod c r ltac:(lia)). assert (B1 := Z.mod_pos_bound c r Hr).
    assert (D2 := Z.div_mod ((r - 1) * c) r ltac:(lia)). assert (B2 := Z.mod_pos_bound ((r - 1) * c) r Hr). rewrite E1 in D1. rewrite E2 in D2. nia.
  - intros H i j Hi Hj. rewrite roundtrip_val by lia. f_equal. symmetry. apply (Z.div_unique _ _ i (i * c - r * i)); [|lia].
    left. destruct H as [ ->|H]; [nia|]. assert (i * (c - r) <= i)%Z by nia. assert (0 <= i * (c - r))%Z by nia. lia.
Qed.
Print Assumptions C22_rectangular.
Example C22_nonvacuous : ind2sub 5 5 (sub2ind 5 5 3 4) = (3, 4)%Z /\ ind2sub 4 8 (sub2ind 4 8 3 4) = (6, 4)%Z.
Proof. split; reflexivity. Qed.

(** C48: deformable mirrors: consistent lists are required; exactly one coupling
    value per mirror; default actuator maps. *)
Theorem C48_dm_lists :
  forall nAct pitch h c od ow d, dm_init nAct pitch h c od ow = Ok d ->
  length nAct = length pitch /\ length h = length pitch /\ length (fst od) = length ow /\ length (dm_coupling d) = length pitch /\
  (length c = length pitch -> dm_coupling d = c) /\ ((length pitch < length c)%nat -> dm_coupling d = firstn (length pitch) c) /\
  (forall x r, c = x :: r -> (length c < length pitch)%nat -> dm_coupling d = repeat x (length pitch)) /\
  nValidActuator d = map (fun n => Z.to_nat n * Z.to_nat n)%nat nAct.
Proof.
  intros nAct pitch h c od ow d. unfold dm_init.
  destruct (Nat.eqb_spec (length nAct) (length pitch)) as [E1|]; cbn [negb orb]; [|discriminate].
  destruct (Nat.eqb_spec (length h) (length pitch)) as [E2|]; cbn [negb orb]; [|discriminate].
  destruct (fix_coupling (length pitch) c) as [c'|] eqn:F; cbn [bind]; [|discriminate].
  destruct (Nat.eqb_spec (length (fst od)) (length ow)) as [E3|]; cbn [negb]; [|discriminate].
  destruct (mapM _ nAct) as [v|] eqn:V; cbn [bind]; [|discriminate]. intros H; apply Ok_inj in H. subst d. cbn [dm_coupling].
  split; [exact E1|]. split; [exact E2|]. split; [exact E3|]. unfold fix_coupling in F.
  assert (Hv : nValidActuator (mkDM nAct pitch h c' od ow v) = map (fun n => Z.to_nat n * Z.to_nat n)%nat nAct).
  { unfold nValidActuator. cbn [dm_valid]. clear -V. revert v V. induction nAct as [|k l IH]; cbn; intros v V; [apply Ok_inj in V; subst; reflexivity|].
    destruct (k <? 0)%Z; cbn [bind] in V; [discriminate|]. apply bindOk in V. destruct V as (r & Er & V). apply Ok_inj in V. subst v. cbn. rewrite (IH r Er). reflexivity. }
  destruct (Nat.ltb_spec (length c) (length pitch)).
  - destruct c as [|x r]; [discriminate|]. apply Ok_inj in F. subst c'. split; [apply repeat_length|]. split; [lia|]. split; [lia|]. split; [|exact Hv].
    intros x' r' E _. injection E as <- _. reflexivity.
  - apply Ok_inj in F. subst c'. split; [rewrite firstn_length; lia|]. split; [intros E; rewrite <- E; apply firstn_all|]. split; [reflexivity|]. split; [lia|exact Hv].
Qed.
Print Assumptions C48_dm_lists.
Theorem C48_dm_accepted :
  forall nAct pitch h c od ow, length nAct = length pitch -> length h = length pitch -> length (fst od) = length ow -> c <> [] ->
  (forall n, In n nAct -> (0 <= n)%Z) -> exists d, dm_init nAct pitch h c od ow = Ok d.
Proof.
  intros nAct pitch h c od ow E1 E2 E3 Hc Hn. unfold dm_init. rewrite E1, E2, E3, !Nat.eqb_refl. cbn [negb orb].
  assert (F : exists c', fix_coupling (length pitch) c = Ok c').
  { unfold fix_coupling. destruct (length c <? length pitch)%nat; [|eexists; reflexivity]. destruct c; [congruence|eexists; reflexivity]. }
  destruct F as (c' & F). rewrite F. cbn [bind].
  rewrite (mapM_map _ (fun k => (Z.to_nat k, Z.to_nat k))).
  - cbn [bind]. eexists. reflexivity.
  - intros k Hk. assert (X := Hn k Hk). destruct (Z.ltb_spec k 0); [lia|reflexivity].
Qed.
Print Assumptions C48_dm_accepted.
Theorem C48_dm_refused :
  forall nAct pitch h c od ow, length nAct <> length pitch \/ length h <> length pitch \/ (c <> [] /\ length (fst od) <> length ow) ->
  dm_init nAct pitch h c od ow = Err ValueError.
Proof.
  intros nAct pitch h c od ow H. unfold dm_init.
  destruct (Nat.eqb_spec (length nAct) (length pitch)); cbn [negb orb]; [|reflexivity].
  destruct (Nat.eqb_spec (length h) (length pitch)); cbn [negb orb]; [|reflexivity].
  destruct H as [H|[H|(Hc & H)]]; [contradiction|contradiction|].
  assert (F : exists c', fix_coupling (length pitch) c = Ok c').
  { unfold fix_coupling. destruct (length c <? length pitch)%nat; [|eexists; reflexivity]. destruct c; [congruence|eexists; reflexivity]. }
  destruct F as (c' & F). rewrite F. cbn [bind]. destruct (Nat.eqb_spec (length (fst od)) (length ow)); [contradiction|reflexivity].
Qed.
Print Assumptions C48_dm_refused.
(** C48: the controlled radial order N of an n x n mirror is the largest with
    (N+1)^2 <= 2 n^2. *)
Lemma trunc_sqrt m : Ztrunc (sqrt (INR m)) = Z.sqrt (Z.of_nat m).
Proof.
  rewrite Ztrunc_floor by apply sqrt_pos. apply Zfloor_imp.
  assert (S := Z.sqrt_spec (Z.of_nat m) ltac:(lia)). cbv zeta in S. set (q := Z.sqrt (Z.of_nat m)) in *. assert (Q : (0 <= q)%Z) by apply Z.sqrt_nonneg.
  rewrite INR_IZR_INZ. split.
  - rewrite <- (sqrt_square (IZR q)) by (apply IZR_le; exact Q). apply sqrt_le_1; [apply Rle_0_sqr|apply IZR_le; lia|]. rewrite <- mult_IZR. apply IZR_le. lia.
  - rewrite <- (sqrt_square (IZR (q + 1))) by (apply IZR_le; lia). apply sqrt_lt_1; [apply IZR_le; lia|apply Rle_0_sqr|]. rewrite <- mult_IZR. apply IZR_lt. lia.
Qed.
Theorem C48_radial_order :
  forall nAct pitch h c od ow d i n N, dm_init nAct pitch h c od ow = Ok d -> nth_error nAct i = Some n -> (1 <= n)%Z ->
  nth_error (nControlledRadialOrder d) i = Some N ->
  (0 <= N /\ (N + 1) * (N + 1) <= 2 * (n * n) < (N + 2) * (N + 2))%Z.
Proof.
  intros nAct pitch h c od ow d i n N Ed Ei Hn EN. apply C48_dm_lists in Ed. destruct Ed as (_ & _ & _ & _ & _ & _ & _ & V).
  unfold nControlledRadialOrder in EN. rewrite V, map_map, nth_error_map, Ei in EN. cbn [option_map] in EN. apply Some_eq in EN. rewrite <- EN.
  rewrite trunc_sqrt. assert (E : (Z.of_nat (2 * (Z.to_nat n * Z.to_nat n)) = 2 * (n * n))%Z) by (rewrite !Nat2Z.inj_mul, Z2Nat.id by lia; reflexivity).
  rewrite E. assert (S := Z.sqrt_spec (2 * (n * n)) ltac:(nia)). assert (P : (1 <= Z.sqrt (2 * (n * n)))%Z) by (apply Z.sqrt_le_square; nia).
  cbv zeta in S. set (q := Z.sqrt _) in *. replace (q - 1 + 1)%Z with q by lia. replace (q - 1 + 2)%Z with (Z.succ q) by lia. lia.
Qed.
Print Assumptions C48_radial_order.
(** C48 refuted: the controlled modes can outnumber the actuators (5 x 5 mirror:
    orders up to 6, i.e. 28 Zernike modes for 25 actuators). *)
Theorem C48_modes_exceed_actuators_refuted :
  exists d N, dm_init [5%Z] [1/2] [0] [1/5] ([0],[0]) [1] = Ok d /\ nControlledRadialOrder d = [N] /\
  nValidActuator d = [25%nat] /\ (25 < (N + 1) * (N + 2) / 2)%Z.
Proof.
  eexists. exists 6%Z. split; [reflexivity|]. split; [|split; reflexivity]. unfold nControlledRadialOrder. cbn [nValidActuator dm_valid map fst snd].
  rewrite trunc_sqrt. reflexivity.
Qed.
Print Assumptions C48_modes_exceed_actuators_refuted.
(** C48 refuted: no mirror can be displayed. *)
Theorem C48_repr_refuted :
  forall nAct pitch h c od ow d, dm_init nAct pitch h c od ow = Ok d -> pitch <> [] -> dm_repr d = Err ValueError.
Proof.
  intros nAct pitch h c od ow d. unfold dm_init. destruct (_ || _)%bool; [discriminate|]. destruct (fix_coupling _ _); cbn [bind]; [|discriminate].
  destruct (negb _); [discriminate|]. destruct (mapM _ _); cbn [bind]; [|discriminate]. intros H Hp; apply Ok_inj in H. subst d. unfold dm_repr. cbn [dm_pitch].
  destruct pitch; [congruence|reflexivity].
Qed.
Print Assumptions C48_repr_refuted.
Example C48_nonvacuous : exists d, dm_init [16; 8]%Z [1/2; 1] [0; 5000] [1/5] ([0; 1],[0; 1]) [1; 1] = Ok d /\ dm_coupling d = [1/5; 1/5] /\
  nControlledRadialOrder d = [21; 10]%Z.
Proof.
  eexists. split; [reflexivity|]. split; [reflexivity|]. unfold nControlledRadialOrder. cbn [nValidActuator dm_valid map fst snd]. rewrite !trunc_sqrt. reflexivity.
Qed.

(** C49: the loop bandwidth is defined for gain >= 0 and delay >= 0, grows with
    the gain and the rate, and decreases with the delay. *)
Theorem C49_bandwidth :
  forall g1 g2 f1 f2 d1 d2, 0 <= g1 <= g2 -> 0 <= f1 <= f2 -> 0 <= d2 <= d1 ->
  exists b1 b2, bandwidth g1 f1 d1 = Ok b1 /\ bandwidth g2 f2 d2 = Ok b2 /\ 0 <= b1 <= b2.
Proof.
  intros g1 g2 f1 f2 d1 d2 Hg Hf Hd. unfold bandwidth. rewrite !rdiv_ok by lra. cbn [bind].
  assert (Q1 : 0 <= g1 / (1 + 2 * d1)) by (apply Rmult_le_pos; [lra|left; apply Rinv_0_lt_compat; lra]).
  assert (Q12 : g1 / (1 + 2 * d1) <= g2 / (1 + 2 * d2)).
  { apply Rmult_le_compat; [lra|left; apply Rinv_0_lt_compat; lra|lra|apply Rinv_le_contravar; lra]. }
  destruct (Rlt_dec _ 0); [lra|]. destruct (Rlt_dec (g2 / _) 0); [lra|]. do 2 eexists. split; [reflexivity|]. split; [reflexivity|].
  assert (IP : 0 < / PI) by (apply Rinv_0_lt_compat, PI_RGT_0). assert (S1 := sqrt_pos (g1 / (1 + 2 * d1))). assert (S12 := sqrt_le_1 _ _ Q1 (Rle_trans _ _ _ Q1 Q12) Q12).
  split.
  - apply Rmult_le_pos; [|exact S1]. unfold Rdiv. apply Rmult_le_pos; [lra|lra].
  - apply Rmult_le_compat; [unfold Rdiv; apply Rmult_le_pos; lra|exact S1| |exact S12]. unfold Rdiv. apply Rmult_le_compat_r; lra.
Qed.
Print Assumptions C49_bandwidth.
(** C49: the low-order loop exists iff its three settings are given. *)
Theorem C49_low_order_loop :
  forall g f d gl fl dl, (exists l, ttloop (rtc_init g f d gl fl dl) = Some l) <-> (gl <> None /\ fl <> None /\ dl <> None).
Proof.
  intros g f d gl fl dl. unfold rtc_init. cbn [ttloop]. destruct gl, fl, dl; split; intros H; try (destruct H as (l & H); discriminate);
    try (destruct H as (H1 & H2 & H3); congruence); [repeat split; discriminate|eexists; reflexivity].
Qed.
Print Assumptions C49_low_order_loop.
(** C49 refuted: the low-order delay is displayed in ms with the high-order frame
    rate, hence wrong whenever the two rates differ. *)
Theorem C49_shown_delay_refuted :
  forall g f d gl fl dl, 0 < f -> 0 < fl -> 0 < dl -> fl <> f ->
  exists x, snd (shown_delay_ms (rtc_init g f d (Some gl) (Some fl) (Some dl))) = Some x /\ x <> 1000 * dl / fl.
Proof.
  intros g f d gl fl dl Hf Hfl Hdl Hne. eexists. split; [reflexivity|]. cbn. intros E. apply Hne.
  assert (E' : 1000 * dl / f * (f * fl) = 1000 * dl / fl * (f * fl)) by (rewrite E; reflexivity).
  replace (1000 * dl / f * (f * fl)) with (1000 * dl * fl) in E' by (field; lra). replace (1000 * dl / fl * (f * fl)) with (1000 * dl * f) in E' by (field; lra).
  apply Rmult_eq_reg_l in E'; [exact E'|nra].
Qed.
Print Assumptions C49_shown_delay_refuted.
Example C49_nonvacuous : exists b, bandwidth (1/2) 1000 2 = Ok b /\ 0 <= b.
Proof. destruct (C49_bandwidth (1/2) (1/2) 1000 1000 2 2) as (b1 & b2 & E & _ & H & _); try lra. exists b1. split; assumption. Qed.
