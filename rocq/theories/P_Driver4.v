(** Property C103: the metrics reported with a PSF (getPsfMetrics). *)
From Coq Require Import Reals List Arith ZArith Lia Lra Psatz Bool Sorting.Sorted Permutation.
From Verif Require Import Base_Py M_Image S_Image L_Image L_Image2 P_Image M_Tools M_Metric S_Metric P_Metric P_Metric2 M_Driver P_Driver L_Psf.
Import ListNotations.
Open Scope R_scope.

(** value reported for source n and wavelength j *)
Definition at2 {A} (t : list (list A)) (n j : nat) : option A :=
  match nth_error t n with Some r => nth_error r j | None => None end.

Lemma mapM_tab {A} (f : nat -> result A) k : forall s l, mapM f (seq s k) = Ok l ->
  length l = k /\ forall i, (i < k)%nat -> exists x, nth_error l i = Some x /\ f (s + i)%nat = Ok x.
Proof.
  induction k as [|k IH]; intros s l E; cbn in E. { apply Ok_inj in E. subst l. split; [reflexivity|lia]. }
  bnd E x Ex. bnd E r Er. apply Ok_inj in E. subst l. destruct (IH (S s) r Er) as [L H]. split; [cbn; lia|].
  intros [|i] Hi. { exists x. rewrite Nat.add_0_r. auto. } destruct (H i ltac:(lia)) as (y & H1 & H2). exists y. split; [exact H1|]. rewrite <- H2. f_equal. lia.
Qed.
Lemma over_spec {A} nS nW (f : nat -> nat -> result A) t : over nS nW f = Ok t ->
  forall n j, (n < nS)%nat -> (j < nW)%nat -> exists x, at2 t n j = Some x /\ f n j = Ok x.
Proof.
  unfold over. intros E n j Hn Hj. destruct (mapM_tab _ _ _ _ E) as [_ H]. destruct (H n Hn) as (r & Hr & Er).
  destruct (mapM_tab _ _ _ _ Er) as [_ H2]. destruct (H2 j Hj) as (x & Hx & Ex). exists x. unfold at2. rewrite Hr. auto.
Qed.
Lemma mapM_tab_ok {A} (f : nat -> result A) k : forall s, (forall i, (s <= i < s + k)%nat -> exists x, f i = Ok x) -> exists l, mapM f (seq s k) = Ok l.
Proof.
  induction k as [|k IH]; intros s H; cbn; [eauto|]. destruct (H s ltac:(lia)) as [x ->]. cbn [bind]. destruct (IH (S s)) as [l ->]; [intros i Hi; apply H; lia|]. cbn [bind]. eauto.
Qed.
Lemma over_ok {A} nS nW (f : nat -> nat -> result A) : (forall n j, (n < nS)%nat -> (j < nW)%nat -> exists x, f n j = Ok x) -> exists t, over nS nW f = Ok t.
Proof. intros H. unfold over. apply mapM_tab_ok. intros n Hn. apply mapM_tab_ok. intros j Hj. apply H; lia. Qed.
Lemma mapM_tab_err {A} (f : nat -> result A) k e : forall s, (1 <= k)%nat -> f s = Err e -> mapM f (seq s k) = Err e.
Proof. intros s Hk H. destruct k; [lia|]. cbn. rewrite H. reflexivity. Qed.
Lemma over_err {A} nS nW (f : nat -> nat -> result A) e : (1 <= nS)%nat -> (1 <= nW)%nat -> f 0%nat 0%nat = Err e -> over nS nW f = Err e.
Proof. intros H1 H2 H. unfold over. apply mapM_tab_err; [exact H1|]. apply mapM_tab_err; assumption. Qed.

Section Metrics.
Variable argsort : list R -> list nat.
Variable pa_of : R -> R -> R.
Variable fwhm : img -> R -> result (R * R).
Variable psf : nat -> nat -> img.
Variables nSrc nWvl nOtf : nat.
Variable ps : list R.
Notation metrics_of := (getPsfMetrics argsort pa_of fwhm psf nSrc nWvl nOtf ps).

(** C103: each request is answered for every source and wavelength with the metric of that very
    PSF: the width in the pixel scale of that wavelength, the energies in percent. A width that
    is not requested is reported as 0, an energy that is not requested is not reported. *)
Theorem C103_reported : forall gS gC gF m, metrics_of gS gC gF = Ok m ->
  (forall n j, (n < nSrc)%nat -> (j < nWvl)%nat ->
     (gF = true -> exists s w, nth_error ps j = Some s /\ fwhm (psf n j) s = Ok w /\ at2 (me_fwhm m) n j = Some w) /\
     (gF = false -> at2 (me_fwhm m) n j = Some (0, 0)) /\
     (gS = true -> exists t e, me_ens m = Some t /\ getEnsquaredEnergy (psf n j) = Ok e /\ length e = (nOtf / 2 + 1)%nat /\ at2 t n j = Some (map (fun x => 100 * x) e)) /\
     (gC = true -> exists t e r, me_enc m = Some t /\ getEncircledEnergy argsort pa_of (psf n j) 1 None = Ok (e, r) /\ ((2 <= length e)%nat -> at2 t n j = Some (map (fun x => 100 * x) e)))) /\
  (gS = false -> me_ens m = None) /\ (gC = false -> me_enc m = None).
Proof.
  intros gS gC gF m H. unfold getPsfMetrics in H. bnd H fw Ef. bnd H es Es. bnd H ec Ec. apply Ok_inj in H. subst m. cbn [me_fwhm me_ens me_enc].
  split; [|split; [intros ->; cbn in Es; apply Ok_inj in Es; congruence|intros ->; cbn in Ec; apply Ok_inj in Ec; congruence]].
  intros n j Hn Hj. split; [|split; [|split]].
  - intros ->. destruct (over_spec _ _ _ _ Ef n j Hn Hj) as (w & Hw & Ew). bnd Ew s Esc. exists s, w. split; [|split; [exact Ew|exact Hw]].
    unfold pyindex in Esc. destruct (Z.ltb_spec (Z.of_nat j) 0); [lia|]. destruct (orb _ _); [discriminate|]. rewrite Nat2Z.id in Esc. destruct (nth_error ps j); [|discriminate]. apply Ok_inj in Esc. congruence.
  - intros ->. apply Ok_inj in Ef. subst fw. unfold at2. rewrite nth_error_repeat by exact Hn. apply nth_error_repeat. exact Hj.
  - intros ->. bnd Es t Et. apply Ok_inj in Es. subst es. destruct (over_spec _ _ _ _ Et n j Hn Hj) as (w & Hw & Ew). bnd Ew e Ee.
    exists t, e. split; [reflexivity|]. split; [exact Ee|]. unfold assign_col in Ew. rewrite map_length in Ew.
    destruct (Nat.eqb_spec (length e) (nOtf / 2 + 1)) as [El|El].
    + split; [exact El|]. apply Ok_inj in Ew. congruence.
    + exfalso. unfold getEnsquaredEnergy in Ee. destruct (argmax_list (pixels (psf n j))) as [[k mx]|] eqn:Ek; [|discriminate]. cbv zeta in Ee. destruct (Req_EM_T _ 0); [discriminate|]. apply Ok_inj in Ee.
      assert (Le : length e = (ee_count (psf n j) (k / cols (psf n j)) (k mod cols (psf n j)) + 1)%nat) by (subst e; rewrite map_length, seq_length; reflexivity).
      assert (Hge : (1 <= ee_count (psf n j) (k / cols (psf n j)) (k mod cols (psf n j)))%nat).
      { assert (Hk : (k < rows (psf n j) * cols (psf n j))%nat).
        { assert (Hp : (k < length (pixels (psf n j)))%nat).
          { clear - Ek. revert k mx Ek. generalize (pixels (psf n j)) as l. induction l as [|x l IH]; intros k mx E; cbn in E; [discriminate|].
            destruct (argmax_list l) as [[k' m']|] eqn:E'.
            - destruct (Rle_dec m' x); injection E as <- <-; cbn; [lia|]. specialize (IH k' m' eq_refl). lia.
            - injection E as <- <-. cbn. lia. }
          unfold pixels in Hp. rewrite flat_map_concat_map in Hp. revert Hp. clear.
          assert (G : forall r s, length (concat (map (fun i => map (fun j0 => px (psf n j) i j0) (seq 0 (cols (psf n j)))) (seq s r))) = (r * cols (psf n j))%nat).
          { induction r as [|r IH]; intros s; cbn; [reflexivity|]. rewrite app_length, map_length, seq_length, IH. reflexivity. }
          rewrite G. auto. }
        assert (Hc : (cols (psf n j) <> 0)%nat) by nia. unfold ee_count.
        pose proof (Nat.mod_upper_bound k (cols (psf n j)) Hc). assert (k / cols (psf n j) < rows (psf n j))%nat by (apply Nat.div_lt_upper_bound; nia). lia. }
      destruct e as [|x1 [|x2 e]]; cbn in Le; try lia. discriminate.
  - intros ->. bnd Ec p Ep. bnd Ec t Et. apply Ok_inj in Ec. subst ec. destruct (over_spec _ _ _ _ Et n j Hn Hj) as (w & Hw & Ew). bnd Ew e Ee. destruct e as [e r].
    exists t, e, r. split; [reflexivity|]. split; [exact Ee|]. cbn [fst] in Ew. intros Hl. unfold assign_col in Ew. rewrite map_length in Ew. destruct (Nat.eqb (length e) _); [apply Ok_inj in Ew; congruence|].
    destruct e as [|x1 [|x2 e]]; cbn in Hl, Ew; try lia; discriminate.
Qed.

(** C103: the encircled energy never runs into a size mismatch: PSFs of the same shape have
    curves of the same length. *)
Lemma rings_same r c sel ring zs zs' : rings_but_last r c sel ring zs -> rings_but_last r c sel ring zs' -> length zs = length zs'.
Proof.
  intros [S1 M1] [S2 M2]. apply Permutation_length. apply NoDup_Permutation.
  - clear -S1. induction S1 as [|z l Hl IH Hz]; constructor; [|exact IH]. intros Hin. rewrite Forall_forall in Hz. specialize (Hz z Hin). lia.
  - clear -S2. induction S2 as [|z l Hl IH Hz]; constructor; [|exact IH]. intros Hin. rewrite Forall_forall in Hz. specialize (Hz z Hin). lia.
  - intros z. rewrite M1, M2. reflexivity.
Qed.
Lemma none_im a im o : radial_profile argsort pa_of a 1 None None None NormNone None = Ok (im, o) -> im = a.
Proof.
  intros E. unfold radial_profile in E. cbn [rp_normalize bind] in E. destruct (rp_center _ _ _). destruct (Req_EM_T _ 0); [discriminate|].
  cbv zeta in E. destruct (rp_profile _ _); [|discriminate]. cbn [bind] in E. destruct (list_min _); [|discriminate]. cbn [bind] in E.
  destruct (list_max _); [|discriminate]. cbn [bind] in E. destruct (Req_EM_T _ 0); [discriminate|]. apply Ok_inj in E. congruence.
Qed.
Theorem C103_encircled : sorts argsort -> (1 <= nSrc)%nat -> (1 <= nWvl)%nat ->
  (forall n j, (n < nSrc)%nat -> (j < nWvl)%nat -> rows (psf n j) = rows (psf 0%nat 0%nat) /\ cols (psf n j) = cols (psf 0%nat 0%nat) /\
     (forall y x, (y < rows (psf n j))%nat -> (x < cols (psf n j))%nat -> 0 <= px (psf n j) y x)) ->
  (forall n j, (n < nSrc)%nat -> (j < nWvl)%nat -> exists e r, getEncircledEnergy argsort pa_of (psf n j) 1 None = Ok (e, r)) ->
  exists m t, metrics_of false true false = Ok m /\ me_enc m = Some t /\
  forall n j, (n < nSrc)%nat -> (j < nWvl)%nat -> exists l, at2 t n j = Some l /\ length l = length (match at2 t 0 0 with Some l0 => l0 | None => [] end) /\
    StronglySorted Rle l /\ Forall (fun v => 0 <= v <= 100) l /\ last l 100 = 100.
Proof.
  intros Hs H1 H2 Hshape Hee.
  assert (Hlen : forall n j, (n < nSrc)%nat -> (j < nWvl)%nat -> forall e r im o, getEncircledEnergy argsort pa_of (psf n j) 1 None = Ok (e, r) ->
     radial_profile argsort pa_of (psf 0%nat 0%nat) 1 None None None NormNone None = Ok (im, o) -> length e = length (rp_prof o)).
  { intros n j Hn Hj e r im o Ee Eo. pose proof (none_im _ _ _ Eo) as ->. unfold getEncircledEnergy in Ee. bnd Ee q Eq. apply Ok_inj in Ee. injection Ee as <- <-. destruct q as [im' o']. pose proof (none_im _ _ _ Eq) as ->. cbn [snd].
    destruct (Hshape n j Hn Hj) as (Hr & Hc & _).
    destruct (C93_profile _ _ _ _ _ _ _ _ _ _ Hs Eq) as (zs & mx & Z1 & _ & _ & _ & Z2 & _). destruct (C93_profile _ _ _ _ _ _ _ _ _ _ Hs Eo) as (zs' & mx' & Z1' & _ & Z2' & _).
    rewrite Z2, Z2', !map_length. rewrite Hr, Hc in Z1. eapply rings_same; [exact Z1|exact Z1']. }
  assert (H0 : exists im o, radial_profile argsort pa_of (psf 0%nat 0%nat) 1 None None None NormNone None = Ok (im, o)).
  { destruct (Hee 0%nat 0%nat ltac:(lia) ltac:(lia)) as (e & r & E). unfold getEncircledEnergy in E. bnd E q Eq. destruct q as [im o]. eauto. }
  destruct H0 as (im & o & E0).
  unfold getPsfMetrics. cbn [bind]. rewrite E0. cbn [bind snd].
  set (F := fun n j : nat => do e <- getEncircledEnergy argsort pa_of (psf n j) 1 None; assign_col (length (rp_prof o)) (map (fun x : R => 100 * x) (fst e))).
  assert (HF : forall n j, (n < nSrc)%nat -> (j < nWvl)%nat -> exists e r, getEncircledEnergy argsort pa_of (psf n j) 1 None = Ok (e, r) /\ F n j = Ok (map (fun x : R => 100 * x) e) /\ length e = length (rp_prof o)).
  { intros n j Hn Hj. destruct (Hee n j Hn Hj) as (e & r & E). pose proof (Hlen n j Hn Hj e r im o E E0) as L. exists e, r. split; [exact E|]. split; [|exact L].
    unfold F. rewrite E. cbn [bind fst]. unfold assign_col. rewrite map_length, L, Nat.eqb_refl. reflexivity. }
  destruct (over_ok nSrc nWvl F) as [t Et]. { intros n j Hn Hj. destruct (HF n j Hn Hj) as (e & r & _ & E & _). eauto. }
  rewrite Et. cbn [bind]. eexists. exists t. split; [reflexivity|]. split; [reflexivity|].
  assert (HT : forall n j, (n < nSrc)%nat -> (j < nWvl)%nat -> exists e r, getEncircledEnergy argsort pa_of (psf n j) 1 None = Ok (e, r) /\ at2 t n j = Some (map (fun x : R => 100 * x) e) /\ length e = length (rp_prof o)).
  { intros n j Hn Hj. destruct (HF n j Hn Hj) as (e & r & E & E' & L). destruct (over_spec _ _ _ _ Et n j Hn Hj) as (x & Hx & Ex). rewrite E' in Ex. apply Ok_inj in Ex. subst x. eauto 6. }
  intros n j Hn Hj. destruct (HT n j Hn Hj) as (e & r & E & Ha & L). destruct (HT 0%nat 0%nat ltac:(lia) ltac:(lia)) as (e0 & r0 & E1 & Ha0 & L0).
  exists (map (fun x => 100 * x) e). rewrite Ha, Ha0. split; [reflexivity|]. split; [rewrite !map_length; lia|].
  destruct (C93_encircled _ _ _ _ _ _ _ Hs E) as (_ & Hso & Hfo & Hla & Hne); [apply Hshape; assumption|].
  split; [|split].
  - revert Hso. apply SS_map. intros; lra.
  - apply Forall_forall. intros v Hv. apply in_map_iff in Hv. destruct Hv as (x & <- & Hx). rewrite Forall_forall in Hfo. specialize (Hfo x Hx). lra.
  - destruct (exists_last Hne) as (l' & a & ->). rewrite last_last in Hla. subst a. rewrite map_app. cbn. rewrite last_last. lra.
Qed.

(** C103 refuted (the ensquared energy can be requested): PSF of side nPix, frequency domain of side
    nOtf = nPix*k. With oversampling (k >= 2) the request stops with ValueError, unless the peak
    of the first PSF is at the corner of the image. *)
Theorem C103_ensquared_refuted : forall nPix k y0 x0 gC,
  (1 <= nSrc)%nat -> (1 <= nWvl)%nat -> nOtf = (nPix * k)%nat -> (2 <= k)%nat ->
  rows (psf 0%nat 0%nat) = nPix -> cols (psf 0%nat 0%nat) = nPix -> is_peak (psf 0%nat 0%nat) y0 x0 -> (0 < y0 \/ 0 < x0)%nat ->
  img_sum (psf 0%nat 0%nat) <> 0 ->
  metrics_of true gC false = Err ValueError.
Proof.
  intros nPix k y0 x0 gC H1 H2 Hn Hk Hr Hc Hpk Hoff HS. unfold getPsfMetrics. cbn [bind].
  rewrite (over_err nSrc nWvl _ ValueError H1 H2); [reflexivity|].
  assert (Hp : exists e, getEnsquaredEnergy (psf 0%nat 0%nat) = Ok e /\ length e = (Nat.min (nPix - y0) (nPix - x0) + 1)%nat).
  { rewrite (ee_ok _ _ _ Hpk HS). eexists. split; [reflexivity|]. rewrite map_length, seq_length, Hr, Hc. reflexivity. }
  destruct Hp as (e & -> & Le). cbn [bind]. unfold assign_col. rewrite map_length.
  destruct Hpk as (Hy & Hx & _). rewrite Hr in Hy. rewrite Hc in Hx.
  assert (Hdiv : (nPix <= nOtf / 2)%nat). { apply Nat.div_le_lower_bound; [lia|]. subst nOtf. nia. }
  destruct (Nat.eqb_spec (length e) (nOtf / 2 + 1)); [lia|]. destruct e as [|a [|b e]]; cbn in Le; try lia. reflexivity.
Qed.

(** C103: without oversampling, for PSFs of even side with the peak at the centre pixel, the
    ensquared energies are available, in percent, up to 100. *)
Theorem C103_ensquared : forall h,
  nOtf = (2 * h)%nat -> (1 <= h)%nat ->
  (forall n j, (n < nSrc)%nat -> (j < nWvl)%nat -> rows (psf n j) = nOtf /\ cols (psf n j) = nOtf /\ is_peak (psf n j) h h /\ img_sum (psf n j) <> 0 /\
     (forall y x, (y < rows (psf n j))%nat -> (x < cols (psf n j))%nat -> 0 <= px (psf n j) y x)) ->
  exists m t, metrics_of true false false = Ok m /\ me_ens m = Some t /\
  forall n j, (n < nSrc)%nat -> (j < nWvl)%nat -> exists l, at2 t n j = Some l /\ length l = (h + 1)%nat /\ nth h l 0 = 100 /\
    forall i, (i <= h)%nat -> nth i l 0 = 100 * (energy_in_square (psf n j) h h i / img_sum (psf n j)).
Proof.
  intros h Hn Hh HP. unfold getPsfMetrics. cbn [bind].
  set (F := fun n j : nat => do e <- getEnsquaredEnergy (psf n j); assign_col (nOtf / 2 + 1) (map (fun x : R => 100 * x) e)).
  assert (HF : forall n j, (n < nSrc)%nat -> (j < nWvl)%nat -> exists e, getEnsquaredEnergy (psf n j) = Ok e /\ F n j = Ok (map (fun x : R => 100 * x) e) /\ length e = (h + 1)%nat).
  { intros n j Hns Hj. destruct (HP n j Hns Hj) as (Hr & Hc & Hpk & HS & Hpos).
    assert (E : exists e, getEnsquaredEnergy (psf n j) = Ok e) by (rewrite (ee_ok _ _ _ Hpk HS); eauto).
    destruct E as [e E]. exists e. split; [exact E|].
    destruct (C10_even_reaches_one (psf n j) h e ltac:(congruence) ltac:(congruence) Hpk Hpos E) as [L _]. split; [|exact L].
    unfold F. rewrite E. cbn [bind]. unfold assign_col. rewrite map_length, L. replace (nOtf / 2)%nat with h by (subst nOtf; rewrite Nat.mul_comm, Nat.div_mul; lia). rewrite Nat.eqb_refl. reflexivity. }
  destruct (over_ok nSrc nWvl F) as [t Et]. { intros n j Hns Hj. destruct (HF n j Hns Hj) as (e & _ & E & _). eauto. }
  rewrite Et. cbn [bind]. eexists. exists t. split; [reflexivity|]. split; [reflexivity|]. intros n j Hns Hj.
  destruct (HF n j Hns Hj) as (e & E & E' & L). destruct (over_spec _ _ _ _ Et n j Hns Hj) as (x & Hx & Ex). rewrite E' in Ex. apply Ok_inj in Ex. subst x.
  destruct (HP n j Hns Hj) as (Hr & Hc & Hpk & HS & Hpos).
  exists (map (fun x => 100 * x) e). split; [exact Hx|]. split; [rewrite map_length; exact L|].
  assert (N : forall i, nth i (map (fun x => 100 * x) e) 0 = 100 * nth i e 0). { intros i. replace 0 with (100 * 0) at 1 by ring. apply (map_nth (fun x => 100 * x)). }
  destruct (C10_even_reaches_one (psf n j) h e ltac:(congruence) ltac:(congruence) Hpk Hpos E) as [_ L1].
  split; [rewrite N, L1; ring|]. intros i Hi. rewrite N. f_equal.
  destruct (C10_ensquared_energy (psf n j) h h e Hpk Hpos E) as (_ & Q & _); [rewrite Hr, Hc; lia|rewrite Hr, Hc; lia|]. apply Q. rewrite Hr, Hc. lia.
Qed.
End Metrics.
Print Assumptions C103_reported.
Print Assumptions C103_encircled.
Print Assumptions C103_ensquared_refuted.
Print Assumptions C103_ensquared.

(** a case with two sources and one wavelength: 4 x 4 PSFs with the peak at (2,2) *)
Example C103_nonvacuous : exists m t, getPsfMetrics (fun _ => []) (fun _ _ => 0) (fun _ _ => Ok (1, 2)) (fun n _ => pedestal 4 2 2) 2 1 4 [1] true false false = Ok m /\
  me_ens m = Some t /\ exists l, at2 t 1 0 = Some l /\ length l = 3%nat /\ nth 2 l 0 = 100 /\ at2 (me_fwhm m) 1 0 = Some (0, 0).
Proof.
  destruct (C103_ensquared (fun _ => []) (fun _ _ => 0) (fun _ _ => Ok (1, 2)) (fun n _ => pedestal 4 2 2) 2 1 4 [1] 2 eq_refl ltac:(lia)) as (m & t & E & Et & Hl).
  { intros n j _ _. split; [reflexivity|]. split; [reflexivity|]. split.
    - unfold is_peak, pedestal. cbn [rows cols px]. split; [lia|]. split; [lia|]. split.
      + intros i j' _ _. cbn. destruct ((i =? 2) && (j' =? 2))%nat%bool; lra.
      + intros i j' _ _ H. cbn. destruct (Nat.eqb_spec i 2), (Nat.eqb_spec j' 2); cbn; try lia; lra.
    - split; [unfold img_sum, pedestal; cbn; lra|]. intros y x _ _. cbn. destruct ((y =? 2) && (x =? 2))%nat%bool; lra. }
  exists m, t. split; [exact E|]. split; [exact Et|]. destruct (Hl 1%nat 0%nat ltac:(lia) ltac:(lia)) as (l & A & L & N & _). exists l. split; [exact A|]. split; [exact L|]. split; [exact N|].
  destruct (C103_reported _ _ _ _ _ _ _ _ _ _ _ _ E) as (H & _). destruct (H 1%nat 0%nat ltac:(lia) ltac:(lia)) as (_ & Hz & _). apply Hz. reflexivity.
Qed.
(** the same PSFs with a frequency domain twice as large (the usual Nyquist oversampling) *)
Example C103_refuted_nonvacuous : getPsfMetrics (fun _ => []) (fun _ _ => 0) (fun _ _ => Ok (1, 2)) (fun n _ => pedestal 4 2 2) 2 1 8 [1] true false false = Err ValueError.
Proof.
  apply (C103_ensquared_refuted (fun _ => []) (fun _ _ => 0) (fun _ _ => Ok (1, 2)) (fun n _ => pedestal 4 2 2) 2 1 8 [1] 4 2 2 2); try lia; try reflexivity.
  - unfold is_peak, pedestal. cbn [rows cols px]. split; [lia|]. split; [lia|]. split.
    + intros i j' _ _. cbn. destruct ((i =? 2) && (j' =? 2))%nat%bool; lra.
    + intros i j' _ _ H. cbn. destruct (Nat.eqb_spec i 2), (Nat.eqb_spec j' 2); cbn; try lia; lra.
  - unfold img_sum, pedestal; cbn; lra.
Qed.
