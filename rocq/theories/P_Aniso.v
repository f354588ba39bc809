(** C76: structure function of the angular anisoplanatism. *)
From Coq Require Import Reals List Arith ZArith Bool Lia Lra Psatz FunctionalExtensionality.
From Verif Require Import Base_Py Base_Sum Base_DFT M_Image M_Fourier S_Fourier M_Tools M_Freq M_Atmo M_Sensor M_Source M_Model M_Model2 M_Zernike2 M_Aniso L_Tools L_Atmo L_Fourier L_Model L_Model3 P_FocalAniso.
From Coquelicot Require Import Complex.
Import ListNotations.
Open Scope R_scope.

Lemma sf_of_psd_val psd step : (0 < rows psd)%nat -> (0 < cols psd)%nat -> nonneg psd ->
  exists d, sf_of_psd psd step = Ok d /\ rows d = rows psd /\ cols d = cols psd /\
    forall i j, px d i j = step ^ 2 * structure_function psd (hup (rows psd)) (hup (cols psd)) (Z.of_nat i - Z.of_nat (rows psd / 2)) (Z.of_nat j - Z.of_nat (cols psd / 2)).
Proof.
  intros Hx Hy Hn. destruct (psd_sf_val psd step Hx Hy Hn) as (cov & sf & Ec & Em & _). unfold sf_of_psd. rewrite Ec. cbn [bind]. rewrite Em. cbn [bind].
  eexists. split; [reflexivity|]. unfold psd2cov in Ec. destruct (cis_empty (to_c psd)) in Ec; [discriminate|]. injection Ec as <-. split; [reflexivity|]. split; [reflexivity|].
  intros i j. match goal with |- px ?x i j = _ => change (px x i j) with (fst (Cmult (RtoC 2) (Cminus (RtoC (step * step * img_sum psd)) (Cmult (cpx (fft2 (fftshift (to_c psd))) (shift_ix (rows psd) i) (shift_ix (cols psd) j)) (RtoC (step * step)))))) end.
  rewrite cov_val by assumption. rewrite sf_covre, <- wave_shift by assumption. cbn. ring.
Qed.
Lemma kolm_cte_nonneg gam : 0 <= kolm_cte gam.
Proof.
  unfold kolm_cte. apply Rmult_le_pos; [left; apply exp_pos|]. apply Rmult_le_pos; [apply pow2_ge_0|]. left. apply Rinv_0_lt_compat. assert (0 < Rpower PI (11 / 3)) by apply exp_pos. lra.
Qed.
Lemma rpow_nonneg x y v : rpow x y = Ok v -> 0 <= v.
Proof. unfold rpow. destruct (Rlt_dec x 0); [discriminate|]. destruct (Req_EM_T x 0); [destruct (Rlt_dec 0 y); [|discriminate]|]; intros H; injection H as <-; [lra|left; apply exp_pos]. Qed.
Lemma watm_nonneg gam n step L i j w : watm gam n step L i j = Ok w -> 0 <= w.
Proof.
  unfold watm. destruct (inv_L0_sq L) as [q|]; cbn [bind]; [|discriminate]. destruct (_ && _)%bool; [intros H; injection H as <-; lra|]. intros H. destruct (rpow _ _) as [p|] eqn:E in H; cbn [bind] in H; [|discriminate]. injection H as <-. apply Rmult_le_pos; [apply kolm_cte_nonneg|exact (rpow_nonneg _ _ _ E)].
Qed.
Lemma shear_bounds n step zl tx ty i j : 0 <= shear n step zl tx ty i j <= 4.
Proof. unfold shear. match goal with |- context [cos ?x] => pose proof (COS_bound x) end. lra. Qed.
(** spectrum whose structure function is computed: turbulence seen along two paths *)
Definition aniso_spectrum (gam : R -> R) (n : nat) (step : R) (L : L0attr) (msk : nat -> nat -> R) (z thx thy : R) (a b : nat) : R :=
  let kx := INR b * step - INR (n / 2) * step + / 10 ^ 10 in
  let ky := INR a * step - INR (n / 2) * step + / 10 ^ 10 in
  2 * (1 - cos (2 * PI * z * (kx * thx + ky * thy))) * (match watm gam n step L a b with Ok w => w | Err _ => 0 end) * msk a b.
Lemma freq_y_val n step e i j : freq_y n step e i j = INR j * step - INR (n / 2) * step + e.
Proof. unfold freq_y. change 2%Z with (Z.of_nat 2). rewrite minus_IZR, <- Nat2Z.inj_div, <- !INR_IZR_INZ. ring. Qed.
Lemma freq_x_val n step e i j : freq_x n step e i j = INR i * step - INR (n / 2) * step + e.
Proof. unfold freq_x. change 2%Z with (Z.of_nat 2). rewrite minus_IZR, <- Nat2Z.inj_div, <- !INR_IZR_INZ. ring. Qed.
Lemma shear_zero n step zl tx ty i j : (nz zl && (nz tx || nz ty))%bool = false -> shear n step zl tx ty i j = 0.
Proof.
  unfold shear, nz. intros H. destruct (Req_EM_T zl 0) as [ ->|]; [rewrite Rmult_0_r, Rmult_0_l, cos_0; ring|]. destruct (Req_EM_T tx 0) as [ ->|]; [|discriminate]. destruct (Req_EM_T ty 0) as [ ->|]; [|discriminate]. rewrite !Rmult_0_r, Rplus_0_r, Rmult_0_r, cos_0. ring.
Qed.
Lemma structure_function_ext p q a0 b0 s t : rows p = rows q -> cols p = cols q -> (forall i j, (i < rows p)%nat -> (j < cols p)%nat -> px p i j = px q i j) -> structure_function p a0 b0 s t = structure_function q a0 b0 s t.
Proof. intros Er Ec H. unfold structure_function. rewrite <- Er, <- Ec. f_equal. apply rsum_ext. intros i Hi. apply rsum_ext. intros j Hj. now rewrite H. Qed.
Lemma angular_plane_val gam n step L msk zl tx ty d : (0 < n)%nat -> (forall i j, (i < n)%nat -> (j < n)%nat -> 0 <= msk i j) -> angular_plane gam n step L msk zl tx ty = Ok d ->
  rows d = n /\ cols d = n /\ nonneg (mkImg n n (aniso_spectrum gam n step L msk zl tx ty)) /\
  forall i j, px d i j = step ^ 2 * structure_function (mkImg n n (aniso_spectrum gam n step L msk zl tx ty)) (hup n) (hup n) (Z.of_nat i - Z.of_nat (n / 2)) (Z.of_nat j - Z.of_nat (n / 2)).
Proof.
  intros Hn Hm H. unfold angular_plane in H.
  assert (Sp : forall a b, aniso_spectrum gam n step L msk zl tx ty a b = shear n step zl tx ty a b * (match watm gam n step L a b with Ok w => w | Err _ => 0 end) * msk a b).
  { intros a b. unfold aniso_spectrum, shear. cbv zeta. now rewrite freq_x_val, freq_y_val. }
  assert (NN : nonneg (mkImg n n (aniso_spectrum gam n step L msk zl tx ty))).
  { intros a b Ha Hb. cbn [px rows cols] in *. rewrite Sp. apply Rmult_le_pos; [|now apply Hm]. apply Rmult_le_pos; [apply shear_bounds|]. destruct (watm gam n step L a b) eqn:E; [exact (watm_nonneg _ _ _ _ _ _ _ E)|lra]. }
  destruct (nz zl && (nz tx || nz ty))%bool eqn:B.
  - destruct (grid_res _ _) as [g|] eqn:Eg in H; cbn [bind] in H; [|discriminate]. destruct (grid_res_spec _ _ _ Eg) as (_ & _ & G).
    assert (EQ : forall i j, (i < n)%nat -> (j < n)%nat -> grid_at g i j = aniso_spectrum gam n step L msk zl tx ty i j).
    { intros i j Hi Hj. specialize (G i j Hi Hj). rewrite Sp. destruct (watm gam n step L i j); cbn [bind] in G; [|discriminate]. now injection G as <-. }
    assert (NG : nonneg (mkImg n n (grid_at g))) by (intros a b Ha Hb; cbn [px rows cols] in *; rewrite EQ by assumption; now apply (NN a b)).
    destruct (sf_of_psd_val (mkImg n n (grid_at g)) step Hn Hn NG) as (d' & Ed & R1 & R2 & V). rewrite H in Ed. injection Ed as <-. cbn [rows cols] in *. split; [exact R1|]. split; [exact R2|]. split; [exact NN|]. intros i j. rewrite V. f_equal. apply structure_function_ext; [reflexivity|reflexivity|]. cbn [rows cols px]. exact EQ.
  - injection H as <-. split; [reflexivity|]. split; [reflexivity|]. split; [exact NN|]. intros i j. cbn [px]. unfold structure_function. cbn [rows cols px]. rewrite rsum_zero; [ring|]. intros a _. apply rsum_zero. intros b _. rewrite Sp, (shear_zero _ _ _ _ _ _ _ B). ring.
Qed.
Lemma angular_inv gam n D samp am a msk dth out s l d : angular_function gam n D samp am a msk dth = Ok out -> nth_error out s = Some d -> forall p, nth_error d l = Some p ->
  exists th h, D * samp <> 0 /\ (0 < n)%nat /\ nth_error dth s = Some th /\ nth_error (a_h a) l = Some h /\ (l < length (a_w a))%nat /\ angular_plane gam n (1 / (D * samp)) (a_L0 a) msk (h * am) (fst th) (snd th) = Ok p.
Proof.
  unfold angular_function. intros H Hs p Hp. destruct (rdiv 1 (D * samp)) as [st|] eqn:Es; cbn [bind] in H; [|discriminate]. apply rdiv_inv in Es. destruct Es as (Nz & ->). destruct (Nat.eqb_spec n 0); [discriminate|].
  apply mapM_inv in H. assert (N : forall {A B} (P : A -> B -> Prop) xs ys k y, Forall2 P xs ys -> nth_error ys k = Some y -> exists x, nth_error xs k = Some x /\ P x y).
  { clear. intros A B P xs ys k y F. revert k. induction F as [|x y' xs ys HP F IH]; intros [|k] Hk; cbn in *; try discriminate; [injection Hk as <-; now exists x|now apply IH]. }
  destruct (N _ _ _ _ _ _ _ H Hs) as (th & Eth & Hd). apply mapM_inv in Hd. destruct (N _ _ _ _ _ _ _ Hd Hp) as (h & Eh & Ha). exists th, h.
  split; [exact Nz|]. split; [lia|]. split; [exact Eth|].
  assert (Q : forall (xs : list R) m k x, nth_error (firstn m xs) k = Some x -> nth_error xs k = Some x /\ (k < m)%nat). { clear. induction xs as [|y xs IH]; intros [|m] [|k] x; cbn; try discriminate; [intros E; split; [exact E|lia]|]. intros E. destruct (IH _ _ _ E). split; [assumption|lia]. }
  destruct (Q _ _ _ _ Eh). split; [assumption|]. split; [assumption|exact Ha].
Qed.
(** C76: whatever the atmosphere, the telescope and the directions, each plane (one per
    source and layer) is non-negative, null at the centre, symmetric about the centre, and
    at most four times the power of the spectrum of the difference; it is identically null
    for a layer on the ground and for a source in the direction of the guide star. *)
Theorem C76_structure_function : forall gam n D samp am a msk dth out s d l p, (forall i j, (i < n)%nat -> (j < n)%nat -> 0 <= msk i j) ->
  angular_function gam n D samp am a msk dth = Ok out -> nth_error out s = Some d -> nth_error d l = Some p ->
  exists th h, nth_error dth s = Some th /\ nth_error (a_h a) l = Some h /\
  rows p = n /\ cols p = n /\
  (forall i j, 0 <= px p i j <= 4 * (1 / (D * samp)) ^ 2 * gsum n (aniso_spectrum gam n (1 / (D * samp)) (a_L0 a) msk (h * am) (fst th) (snd th))) /\
  px p (n / 2) (n / 2) = 0 /\
  (forall i j i' j', (i + i' = 2 * (n / 2))%nat -> (j + j' = 2 * (n / 2))%nat -> px p i' j' = px p i j) /\
  (h * am = 0 \/ (fst th = 0 /\ snd th = 0) -> forall i j, px p i j = 0).
Proof.
  intros gam n D samp am a msk dth out s d l p Hm H Hs Hp. destruct (angular_inv _ _ _ _ _ _ _ _ _ _ _ _ H Hs p Hp) as (th & h & Nz & Hn & Eth & Eh & Hl & E). exists th, h. split; [exact Eth|]. split; [exact Eh|].
  destruct (angular_plane_val _ _ _ _ _ _ _ _ _ Hn Hm E) as (R1 & R2 & NN & V). set (sp := mkImg n n _) in *. split; [exact R1|]. split; [exact R2|]. split; [|split; [|split]].
  - intros i j. rewrite V. pose proof (pow2_ge_0 (1 / (D * samp))). split; [apply Rmult_le_pos; [assumption|now apply sf_nonneg]|]. replace (4 * (1 / (D * samp)) ^ 2 * gsum n _) with ((1 / (D * samp)) ^ 2 * (4 * img_sum sp)) by (unfold img_sum, gsum, sp; cbn [rows cols px]; ring). apply Rmult_le_compat_l; [assumption|]. now apply sf_le.
  - rewrite V, !Z.sub_diag, sf_zero. ring.
  - intros i j i' j' Hi Hj. rewrite !V. f_equal. replace (Z.of_nat i' - Z.of_nat (n / 2))%Z with (- (Z.of_nat i - Z.of_nat (n / 2)))%Z by lia. replace (Z.of_nat j' - Z.of_nat (n / 2))%Z with (- (Z.of_nat j - Z.of_nat (n / 2)))%Z by lia. apply sf_sym.
  - intros B i j. unfold angular_plane in E. assert (B' : (nz (h * am) && (nz (fst th) || nz (snd th)))%bool = false). { unfold nz. destruct B as [ ->|( -> & ->)]; [destruct (Req_EM_T 0 0); [reflexivity|congruence]|]. destruct (Req_EM_T 0 0); [apply andb_false_r|congruence]. }
    rewrite B' in E. injection E as <-. reflexivity.
Qed.
Print Assumptions C76_structure_function.
(** C76: for an even grid the value at the separation (s, t) pixels is the structure
    function of the difference of the phases on the two paths:
    2 step^2 sum over the frequencies of the spectrum times 1 - cos(2 pi (a s + b t)/n). *)
Theorem C76_formula : forall gam n D samp am a msk dth out s d l p th h, Nat.even n = true -> (forall i j, (i < n)%nat -> (j < n)%nat -> 0 <= msk i j) ->
  angular_function gam n D samp am a msk dth = Ok out -> nth_error out s = Some d -> nth_error d l = Some p -> nth_error dth s = Some th -> nth_error (a_h a) l = Some h ->
  let step := 1 / (D * samp) in
  forall i j, px p i j = 2 * step ^ 2 * gsum n (fun u v =>
     aniso_spectrum gam n step (a_L0 a) msk (h * am) (fst th) (snd th) u v *
     (1 - cos (2 * PI * ((INR u - INR (n / 2)) * (INR i - INR (n / 2)) + (INR v - INR (n / 2)) * (INR j - INR (n / 2))) / INR n))).
Proof.
  intros gam n D samp am a msk dth out s d l p th h Ev Hm H Hs Hp Eth Eh step i j. destruct (angular_inv _ _ _ _ _ _ _ _ _ _ _ _ H Hs p Hp) as (th' & h' & Nz & Hn & Eth' & Eh' & Hl & E). rewrite Eth in Eth'. injection Eth' as <-. rewrite Eh in Eh'. injection Eh' as <-.
  destruct (angular_plane_val _ _ _ _ _ _ _ _ _ Hn Hm E) as (_ & _ & _ & V). rewrite V. fold step. rewrite (hup_even n Ev). unfold structure_function. cbn [rows cols px]. unfold gsum. rewrite <- Rmult_assoc. replace (step ^ 2 * 2) with (2 * step ^ 2) by ring. f_equal. apply rsum_ext. intros u _. apply rsum_ext. intros v _. f_equal. f_equal. f_equal. unfold wave. rewrite !minus_IZR, <- !INR_IZR_INZ. field. apply not_0_INR. lia.
Qed.
Print Assumptions C76_formula.
(** C76: only the separation matters, not which of the two stars is the guide star. *)
Theorem C76_exchange : forall gam n D samp am a msk dth, angular_function gam n D samp am a msk (map (fun th => (- fst th, - snd th)) dth) = angular_function gam n D samp am a msk dth.
Proof.
  intros gam n D samp am a msk dth. unfold angular_function. destruct (rdiv 1 (D * samp)) as [st|]; cbn [bind]; [|reflexivity]. destruct (n =? 0)%nat; [reflexivity|].
  assert (P : forall h tx ty, angular_plane gam n st (a_L0 a) msk h (- tx) (- ty) = angular_plane gam n st (a_L0 a) msk h tx ty).
  { intros h tx ty. unfold angular_plane. assert (Z : forall x, nz (- x) = nz x) by (intros x; unfold nz; destruct (Req_EM_T (- x) 0), (Req_EM_T x 0); try reflexivity; lra). rewrite !Z. destruct (_ && _)%bool; [|reflexivity]. f_equal. unfold grid_res. f_equal.
    assert (S : forall i j, shear n st h (- tx) (- ty) i j = shear n st h tx ty i j). { intros i j. unfold shear. f_equal. f_equal. rewrite <- cos_neg. f_equal. ring. }
    apply functional_extensionality. intros i. f_equal. apply functional_extensionality. intros j. now rewrite S. }
  induction dth as [|(tx, ty) r IH]; [reflexivity|]. cbn [map mapM fst snd]. rewrite IH. f_equal. f_equal. apply functional_extensionality. intros h. apply P.
Qed.
Print Assumptions C76_exchange.
(** C76: defined for every telescope, every finite outer scale, every grid. *)
Theorem C76_defined : forall gam n D samp am a msk dth L0, D * samp <> 0 -> (0 < n)%nat -> a_L0 a = LNum (Fin L0) -> L0 <> 0 ->
  exists out, angular_function gam n D samp am a msk dth = Ok out /\ length out = length dth /\ forall d, In d out -> length d = length (firstn (length (a_w a)) (a_h a)).
Proof.
  intros gam n D samp am a msk dth L0 Hd Hn HL Hz. unfold angular_function. rewrite rdiv_ok by exact Hd. cbn [bind]. destruct (Nat.eqb_spec n 0); [lia|].
  assert (L2 : 0 < L0 ^ 2) by (destruct (Rle_lt_or_eq_dec _ _ (pow2_ge_0 L0)) as [|E]; [assumption|symmetry in E; exfalso; revert E; apply pow_nonzero, Hz]).
  assert (P : forall z tx ty, exists p, angular_plane gam n (1 / (D * samp)) (a_L0 a) msk z tx ty = Ok p).
  { intros z tx ty. unfold angular_plane. destruct (_ && _)%bool; [|eexists; reflexivity]. rewrite HL.
    assert (W : forall i j, exists w, watm gam n (1 / (D * samp)) (LNum (Fin L0)) i j = Ok w /\ 0 <= w).
    { intros i j. assert (exists w, watm gam n (1 / (D * samp)) (LNum (Fin L0)) i j = Ok w) as (w & Ew).
      { unfold watm, inv_L0_sq. rewrite rdiv_ok by lra. cbn [bind]. destruct (_ && _)%bool; [eexists; reflexivity|]. rewrite rpow_pos; [cbn [bind]; eexists; reflexivity|]. assert (0 < 1 / L0 ^ 2) by (apply Rdiv_lt_0_compat; lra). pose proof (pow2_ge_0 (freq_y n (1 / (D * samp)) eps10 i j)). pose proof (pow2_ge_0 (freq_x n (1 / (D * samp)) eps10 i j)). lra. }
      exists w. split; [exact Ew|exact (watm_nonneg _ _ _ _ _ _ _ Ew)]. }
    destruct (grid_res_total n (fun i j => do w <- watm gam n (1 / (D * samp)) (LNum (Fin L0)) i j; Ok (shear n (1 / (D * samp)) z tx ty i j * w * msk i j))) as (g & Eg).
    { intros i j _ _. destruct (W i j) as (w & -> & _). cbn [bind]. eexists. reflexivity. }
    rewrite Eg. cbn [bind]. unfold sf_of_psd, psd2cov. assert (Em : cis_empty (to_c (mkImg n n (grid_at g))) = false) by (unfold cis_empty; cbn [crows ccols to_c rows cols]; destruct (Nat.eqb_spec n 0); [lia|reflexivity]). rewrite Em. cbn [bind].
    unfold carr_max. match goal with |- context [cpixels ?x] => assert (In (cpx x 0 0) (cpixels x)) as I by (apply cpixels_in; cbn; lia); destruct (cpixels x); [destruct I|] end. cbn [bind]. eexists. reflexivity. }
  assert (Q : forall th, exists d, mapM (fun h => angular_plane gam n (1 / (D * samp)) (a_L0 a) msk (h * am) (fst th) (snd th)) (firstn (length (a_w a)) (a_h a)) = Ok d) by (intros th; apply mapM_total; intros h _; apply P).
  destruct (mapM_total (fun th => mapM (fun h => angular_plane gam n (1 / (D * samp)) (a_L0 a) msk (h * am) (fst th) (snd th)) (firstn (length (a_w a)) (a_h a))) dth (fun th _ => Q th)) as (out & Eo). exists out. split; [exact Eo|]. split; [exact (mapM_len _ _ _ Eo)|]. apply (mapM_prop _ (fun d => length d = length (firstn (length (a_w a)) (a_h a))) _ _ Eo). intros th d _ Ed. exact (mapM_len _ _ _ Ed).
Qed.
Print Assumptions C76_defined.
Example C76_nonvacuous : let a := mkAtmo (1/2000000) (1/10) [1/2; 1/2] [0; 5000] (Scal 10) (Scal 0) (LNum (Fin 25)) [] in
  exists out, angular_function (fun _ => 1) 8 8 2 1 a (fun _ _ => 1) [(1/100000, 0); (0, 0)] = Ok out /\ length out = 2%nat.
Proof. intros a. destruct (C76_defined (fun _ => 1) 8 8 2 1 a (fun _ _ => 1) [(1/100000, 0); (0, 0)] 25) as (out & E & L & _); [lra|lia|reflexivity|lra|]. now exists out. Qed.

(** C76: with a laser, the call moves the laser on the axis and puts it back: a successful
    call leaves it as it was. *)
Theorem C76_laser_restored : forall F (padd : F -> F -> result F) zero an tt ang foc l r l', aniso_sf padd zero an tt ang foc l = (Ok r, l') -> l' = l.
Proof.
  intros F padd zero an tt ang foc l r l' H. unfold aniso_sf in H. destruct l as [g|]; [|now injection H as _ <-]. destruct (height_is_zero (lg_h g)) as [[]|]; [now injection H as _ <-| |discriminate].
  destruct (foc _) as [f|]; [|discriminate]. injection H as _ <-. destruct g; reflexivity.
Qed.
Print Assumptions C76_laser_restored.
(** C76: the focal part is evaluated for a laser on the axis and the angular part for its
    true direction; the first term is their sum. *)
Theorem C76_laser_split : forall F (padd : F -> F -> result F) zero an tt ang foc h z az r l', h <> 0 -> aniso_sf padd zero an tt ang foc (Some (mkLgs [h] z az)) = (Ok r, l') ->
  exists f d t, foc (mkLgs [h] [0] [0]) = Ok f /\ ang (mkLgs [h] z az) = Ok d /\ tt = Ok t /\ padd f d = Ok (fst (fst r)) /\ snd (fst r) = d /\ snd r = t.
Proof.
  intros F padd zero an tt ang foc h z az r l' Hh H. unfold aniso_sf in H. cbn [lg_h height_is_zero lg_zen lg_az] in H. unfold nz in H. destruct (Req_EM_T h 0); [contradiction|]. cbn [negb] in H. destruct (foc _) as [f|] eqn:Ef; [|discriminate]. destruct (ang _) as [d|] eqn:Ea in H; cbn [bind] in H; [|discriminate]. destruct (padd f d) as [s|] eqn:Es in H; cbn [bind] in H; [|discriminate]. destruct tt as [t|]; cbn [bind] in H; [|discriminate]. injection H as <- _. exists f, d, t. now repeat split.
Qed.
Print Assumptions C76_laser_split.
(** C76, refuted: an exception in the focal part leaves the laser on the axis; two lasers
    make the test of the altitude ambiguous (ValueError). *)
Theorem C76_laser_after_failure_refuted : forall F (padd : F -> F -> result F) zero an tt ang foc h z az e, h <> 0 -> foc (mkLgs [h] [0] [0]) = Err e ->
  aniso_sf padd zero an tt ang foc (Some (mkLgs [h] z az)) = (Err e, Some (mkLgs [h] [0] [0])).
Proof. intros F padd zero an tt ang foc h z az e Hh Ef. unfold aniso_sf. cbn [lg_h height_is_zero]. unfold nz. destruct (Req_EM_T h 0); [contradiction|]. cbn [negb]. now rewrite Ef. Qed.
Print Assumptions C76_laser_after_failure_refuted.
Theorem C76_two_lasers_refuted : forall F (padd : F -> F -> result F) zero an tt ang foc h1 h2 hs z az, aniso_sf padd zero an tt ang foc (Some (mkLgs (h1 :: h2 :: hs) z az)) = (Err ValueError, Some (mkLgs (h1 :: h2 :: hs) z az)).
Proof. reflexivity. Qed.
Print Assumptions C76_two_lasers_refuted.
(** C76, refuted: with a natural guide star, every source off the direction of the guide
    star makes the frequency domain fail, whatever the structure function (the triple is
    not unpacked). *)
Theorem C76_off_axis_refuted : forall F G src ngs (padd : F -> F -> result F) (wsum : F -> result G) call, src <> [] -> length ngs = 1%nat -> (exists p, In p src /\ ~ In p ngs) ->
  exists e, aniso_phase_sf true AM_SCAO src ngs padd wsum call = Err e.
Proof.
  intros F G src ngs padd wsum call Hs Hg (p & Hp & Hn). destruct ngs as [|q [|]]; try discriminate. unfold aniso_phase_sf. cbn [negb].
  unfold same_dirs. set (same := same_dir).
  assert (Sm : same p q = false). { unfold same, same_dir. destruct (Req_EM_T (fst p) (fst q)) as [E1|]; [|reflexivity]. destruct (Req_EM_T (snd p) (snd q)) as [E2|]; [|reflexivity]. exfalso. apply Hn. left. destruct p, q; cbn in *; congruence. }
  assert (A : forallb (fun p => same p q) src = false). { destruct (forallb (fun p => same p q) src) eqn:E; [|reflexivity]. rewrite forallb_forall in E. specialize (E p Hp). congruence. }
  destruct src as [|p0 [|p1 r]]; [contradiction| |].
  - destruct Hp as [ ->|[]]. cbn [length Nat.eqb combine forallb fst snd andb]. fold same. rewrite Sm. cbn [andb bind]. destruct call; cbn [bind]; eexists; reflexivity.
  - cbn [length Nat.eqb]. fold same. rewrite A. cbn [bind]. destruct call; cbn [bind]; eexists; reflexivity.
Qed.
Print Assumptions C76_off_axis_refuted.
(** C76: a single laser: the result is the weighted sum over the layers of the focal-angular
    and of the tip-tilt terms; multi-guide-star modes have no such term. *)
Theorem C76_modes : forall F G src ngs (padd : F -> F -> result F) (wsum : F -> result G) call,
  aniso_phase_sf true AM_Other src ngs padd wsum call = Ok (false, None) /\
  (forall m, aniso_phase_sf false m src ngs padd wsum call = Ok (false, None)) /\
  (forall b g, aniso_phase_sf true AM_SLAO src ngs padd wsum call = Ok (b, g) -> b = true /\ exists f d t s x, call = Ok (f, d, t) /\ padd f t = Ok s /\ wsum s = Ok x /\ g = Some x) /\
  (src = ngs -> aniso_phase_sf true AM_SCAO src ngs padd wsum call = Ok (false, None)).
Proof.
  intros F G src ngs padd wsum call. split; [reflexivity|]. split; [reflexivity|]. split.
  - intros b g H. unfold aniso_phase_sf in H. cbn [negb] in H. destruct call as [[[f d] t]|]; cbn [bind fst snd] in H; [|discriminate]. destruct (padd f t) as [s|] eqn:E1; cbn [bind] in H; [|discriminate]. destruct (wsum s) as [x|] eqn:E2; cbn [bind] in H; [|discriminate]. injection H as <- <-. split; [reflexivity|]. exists f, d, t, s, x. now repeat split.
  - intros ->. unfold aniso_phase_sf. cbn [negb]. unfold same_dirs. rewrite Nat.eqb_refl. cbn [bind]. set (same := same_dir). assert (A : forallb (fun x => same (fst x) (snd x)) (combine ngs ngs) = true).
    { apply forallb_forall. intros (p, q) Hp. assert (p = q) as -> by (clear - Hp; induction ngs as [|x r IH]; [destruct Hp|destruct Hp as [E|Hp]; [injection E; congruence|auto]]). unfold same, same_dir. cbn [fst snd]. destruct (Req_EM_T (fst q) (fst q)); [|congruence]. destruct (Req_EM_T (snd q) (snd q)); [reflexivity|congruence]. }
    rewrite A. reflexivity.
Qed.
Print Assumptions C76_modes.

(** C76: the spectrum of the turbulence used there is the von Karman law, except at the centre
    of the array where it is zero. *)
Theorem C76_spectrum : forall gam n step L0 i j, 0 < L0 ->
  watm gam n step (LNum (Fin L0)) i j = Ok
    (if ((i =? n / 2) && (j =? n / 2))%nat%bool then 0
     else kolm_cte gam * Rpower (1 / L0 ^ 2 + ((INR i - INR (n / 2)) * step + / 10 ^ 10) ^ 2 + ((INR j - INR (n / 2)) * step + / 10 ^ 10) ^ 2) (- (11 / 6))).
Proof.
  intros gam n step L0 i j H. unfold watm, inv_L0_sq. rewrite rdiv_ok by (pose proof (pow_lt L0 2 H); lra). cbn [bind]. destruct (_ && _)%bool; [reflexivity|].
  assert (0 < 1 / L0 ^ 2) by (apply Rdiv_lt_0_compat; [lra|apply pow_lt; exact H]).
  rewrite rpow_pos; [|pose proof (pow2_ge_0 (freq_y n step eps10 i j)); pose proof (pow2_ge_0 (freq_x n step eps10 i j)); lra]. cbn [bind]. rewrite freq_x_val, freq_y_val. unfold eps10. do 2 f_equal. f_equal; [|lra]. ring.
Qed.
Print Assumptions C76_spectrum.
