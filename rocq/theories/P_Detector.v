(** C100: the detector object. *)
From Coq Require Import Reals List Arith ZArith Lia Lra Bool.
From Coq Require Import ZifyBool ZifyNat.
From Verif Require Import Base_Py M_Map L_Map L_Fit M_Detector.
Import ListNotations.
Open Scope R_scope.

(** field of view in arcsec of [f] pixels of [p] milli-arcsec *)
Definition arcsec (p f : R) : R := p * f / 1000.
(** Accepted detectors: one transmittance per dispersion value, that number of wavelengths, and one field of view per
    element: pixel scale times field for two numbers; element by element otherwise. *)
Theorem C100_detector : forall ps fov trans disp d, new_detector ps fov trans disp = Ok d ->
  d_nwvl d = length trans /\ (exists d0 r, disp = d0 :: r /\ length d0 = length trans) /\
  match ps, fov, d_arc d with
  | Sc p, Sc f, Sc a => a = arcsec p f
  | Sc p, Ls f, Ls a => length a = length f /\ forall i, (i < length f)%nat -> nth i a 0 = arcsec p (nth i f 0)
  | Ls p, Sc f, Ls a => length a = length p /\ forall i, (i < length p)%nat -> nth i a 0 = arcsec (nth i p 0) f
  | Ls p, Ls f, Ls a => (length f <= length p)%nat /\ length a = length f /\ forall i, (i < length f)%nat -> nth i a 0 = arcsec (nth i p 0) (nth i f 0)
  | _, _, _ => False
  end.
Proof.
  intros ps fov trans disp d H. unfold new_detector in H. apply bind_ok in H. destruct H as [arc [Ha H]].
  apply bind_ok in H. destruct H as [d0 [Hd H]]. destruct (Nat.eqb_spec (length d0) (length trans)) as [El|]; [|discriminate].
  cbn [negb] in H. apply Ok_inj in H. subst d. cbn [d_nwvl d_arc]. split; [reflexivity|]. split.
  { destruct disp as [|x r]; [cbn in Hd; discriminate|]. unfold pyindex in Hd. cbn [length] in Hd. destruct ((0 <? 0) || (Z.of_nat (S (length r)) <=? 0))%Z eqn:E; [discriminate|]. cbn in Hd. apply Ok_inj in Hd. subst x. exists d0, r. auto. }
  unfold fov_arcsec in Ha. destruct fov as [f|f], ps as [p|p]; try (apply Ok_inj in Ha; subst arc).
  - reflexivity.
  - rewrite map_length. split; [reflexivity|]. intros i Hi. rewrite (nth_indep _ 0 ((fun x => x * f / 1000) 0)) by (rewrite map_length; assumption).
    rewrite (map_nth (fun x => x * f / 1000)). reflexivity.
  - rewrite map_length. split; [reflexivity|]. intros i Hi. rewrite (nth_indep _ 0 ((fun x => p * x / 1000) 0)) by (rewrite map_length; assumption).
    rewrite (map_nth (fun x => p * x / 1000)). reflexivity.
  - apply bind_ok in Ha. destruct Ha as [l [Hl Ha]]. apply Ok_inj in Ha. subst arc.
    assert (G : forall ks r, mapR (fun i => do s <- pyindex p (Z.of_nat i); Ok (s * nth i f 0 / 1000)) ks = Ok r ->
       length r = length ks /\ forall q, (q < length ks)%nat -> (nth q ks 0 < length p)%nat /\ nth q r 0 = arcsec (nth (nth q ks 0%nat) p 0) (nth (nth q ks 0%nat) f 0)).
    { induction ks as [|k ks IH]; intros r Hr; cbn [mapR] in Hr.
      - apply Ok_inj in Hr. subst r. split; [reflexivity|]. intros q Hq. cbn in Hq. lia.
      - apply bind_ok in Hr. destruct Hr as [y [Hy Hr]]. apply bind_ok in Hr. destruct Hr as [t [Ht Hr]]. apply Ok_inj in Hr. subst r.
        apply bind_ok in Hy. destruct Hy as [s [Hs Hy]]. apply Ok_inj in Hy. subst y. destruct (IH t Ht) as [L N].
        split; [cbn [length]; congruence|]. intros [|q] Hq; cbn [nth].
        + unfold pyindex in Hs. destruct (Z.ltb_spec (Z.of_nat k) 0); [lia|]. destruct (Z.leb_spec (Z.of_nat (length p)) (Z.of_nat k)); [rewrite Bool.orb_true_r in Hs; discriminate|].
          destruct (Z.ltb_spec (Z.of_nat k) 0); [lia|]. cbn [orb] in Hs. rewrite Nat2Z.id in Hs. destruct (nth_error p k) eqn:Ep; [|discriminate]. apply Ok_inj in Hs. subst r.
          split; [lia|]. rewrite (nth_error_nth _ _ 0 Ep). reflexivity.
        + apply N. cbn [length] in Hq. lia. }
    apply G in Hl. destruct Hl as [L N]. rewrite seq_length in L, N. split; [|split; [exact L|]].
    + destruct (le_lt_dec (length f) (length p)) as [|Hlt]; [assumption|]. exfalso. destruct (N (length p) Hlt) as [A _]. rewrite seq_nth in A by assumption. lia.
    + intros i Hi. destruct (N i Hi) as [_ B]. rewrite seq_nth in B by assumption. exact B.
Qed.
(** Refused: inconsistent numbers of wavelengths; more fields of view than pixel scales. *)
Theorem C100_refused : forall ps fov trans d0 r, length d0 <> length trans -> exists e, new_detector ps fov trans (d0 :: r) = Err e.
Proof.
  intros ps fov trans d0 r H. unfold new_detector. destruct (fov_arcsec ps fov); cbn [bind]; [|eexists; reflexivity].
  cbn. destruct (Nat.eqb_spec (length d0) (length trans)); [congruence|]. cbn [negb]. eexists. reflexivity.
Qed.
Theorem C100_short_scales : forall p f trans disp, (length p < length f)%nat -> exists e, new_detector (Ls p) (Ls f) trans disp = Err e.
Proof.
  intros p f trans disp H. destruct (new_detector (Ls p) (Ls f) trans disp) as [d|e] eqn:E; [|eexists; reflexivity].
  exfalso. apply C100_detector in E. destruct E as [_ [_ E]]. destruct (d_arc d); [exact E|]. lia.
Qed.
(** More pixel scales than fields are dropped silently, and printing a detector with lists fails. *)
Theorem C100_extra_scales_refuted : forall p f x trans disp d, (length f <= length p)%nat -> new_detector (Ls (p ++ [x])) (Ls f) trans disp = Ok d ->
  exists d', new_detector (Ls p) (Ls f) trans disp = Ok d' /\ d_arc d' = d_arc d.
Proof.
  intros p f x trans disp d Hl H. unfold new_detector in *. apply bind_ok in H. destruct H as [arc [Ha H]].
  assert (E : fov_arcsec (Ls p) (Ls f) = Ok arc).
  { rewrite <- Ha. unfold fov_arcsec.
    assert (G : forall ks, (forall k, In k ks -> (k < length p)%nat) ->
       mapR (fun i => do s <- pyindex p (Z.of_nat i); Ok (s * nth i f 0 / 1000)) ks = mapR (fun i => do s <- pyindex (p ++ [x]) (Z.of_nat i); Ok (s * nth i f 0 / 1000)) ks).
    { induction ks as [|k ks IH]; intros Hk; [reflexivity|]. cbn [mapR]. rewrite IH by (intros; apply Hk; right; assumption).
      assert (k < length p)%nat by (apply Hk; left; reflexivity).
      replace (pyindex (p ++ [x]) (Z.of_nat k)) with (pyindex p (Z.of_nat k)); [reflexivity|].
      unfold pyindex. rewrite app_length. cbn [length]. destruct (Z.ltb_spec (Z.of_nat k) 0); [lia|]. destruct (Z.ltb_spec (Z.of_nat k) 0); [lia|].
      destruct (Z.leb_spec (Z.of_nat (length p)) (Z.of_nat k)); [lia|]. destruct (Z.leb_spec (Z.of_nat (length p + 1)) (Z.of_nat k)); [lia|]. cbn [orb]. rewrite Nat2Z.id, nth_error_app1 by assumption. reflexivity. }
    rewrite G; [reflexivity|]. intros k Hk. apply in_seq in Hk. lia. }
  rewrite E. cbn [bind]. apply bind_ok in H. destruct H as [d0 [Hd H]]. rewrite Hd. cbn [bind]. destruct (negb _); [discriminate|]. apply Ok_inj in H. subst d. eexists. split; reflexivity.
Qed.
Theorem C100_print : forall ps fov trans disp d, new_detector ps fov trans disp = Ok d ->
  (det_repr d = Ok tt <-> exists p f, ps = Sc p /\ fov = Sc f).
Proof.
  intros ps fov trans disp d H. pose proof (C100_detector _ _ _ _ _ H) as [_ [_ K]].
  unfold new_detector in H. apply bind_ok in H. destruct H as [arc [Ha H]]. apply bind_ok in H. destruct H as [d0 [Hd H]]. destruct (negb _); [discriminate|]. apply Ok_inj in H. subst d.
  unfold det_repr; cbn [d_ps d_fov d_arc] in *. destruct ps as [p|p], fov as [f|f], arc as [a|a]; try contradiction; split; intros Q; try reflexivity; try discriminate; try (destruct Q as (p' & f' & A & B); discriminate). exists p, f. auto.
Qed.
Example C100_ex : exists d, new_detector (Sc 10) (Ls [100; 200]) [1] [[0]; [0]] = Ok d /\ d_arc d = Ls [10 * 100 / 1000; 10 * 200 / 1000] /\ det_repr d = Err TypeError.
Proof. eexists. split; [reflexivity|]. split; reflexivity. Qed.

Print Assumptions C100_detector.
Print Assumptions C100_refused.
Print Assumptions C100_short_scales.
Print Assumptions C100_extra_scales_refuted.
Print Assumptions C100_print.
