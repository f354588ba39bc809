(** Property C18, continued: structure functions. *)
From Coq Require Import Reals List Arith ZArith Lia Lra Psatz.
From Verif Require Import Base_Py M_Tools S_Tools M_Atmo S_Atmo L_Atmo P_Atmo.
Import ListNotations.
Open Scope R_scope.

Lemma bind_inv {A B} (r : result A) (f : A -> result B) b : bind r f = Ok b -> exists a, r = Ok a /\ f a = Ok b.
Proof. destruct r as [a|]; [|discriminate]. intros H. exists a. split; [reflexivity|exact H]. Qed.
Lemma Ok_inj' {A} (a b : A) : Ok a = Ok b -> a = b.
Proof. now injection 1. Qed.

(** D(rho) = 2 (variance - covariance(rho)), zero at zero separation; without
    outer scale a 5/3 power law, positive away from 0. *)
Theorem C18_structure_function : forall sp a,
  (forall L rho s, a_L0 a = LNum (Fin L) -> structureFunction sp a rho = Ok s ->
     exists v c, variance sp a = Ok v /\ covariance sp a rho = Ok c /\ s = 2 * v - 2 * c) /\
  (forall L, a_L0 a = LNum (Fin L) -> 0 < L -> 0 < a_r0 a -> structureFunction sp a 0 = Ok 0) /\
  (a_L0 a = LNum Inf -> 0 < a_r0 a -> structureFunction sp a 0 = Ok 0 /\
     forall rho t, 0 < rho -> 0 < t -> exists s s', structureFunction sp a rho = Ok s /\ structureFunction sp a (t * rho) = Ok s' /\
       0 < s /\ s' = Rpower t (5 / 3) * s).
Proof.
  intros sp a. repeat split.
  - intros L rho s E H. unfold structureFunction in H. rewrite E in H.
    apply bind_inv in H as (v & Hv & H). apply bind_inv in H as (c & Hc & H). apply Ok_inj' in H. subst s.
    exists v, c. repeat split; try assumption. ring.
  - intros L E HL Hr. unfold structureFunction. rewrite E, covariance_zero, (variance_val sp a L) by assumption. cbn [bind]. f_equal. ring.
  - unfold structureFunction. rewrite H. destruct (Req_EM_T 0 0); [reflexivity|lra].
  - intros rho t Hp Ht. unfold structureFunction. rewrite H.
    assert (0 < t * rho) by (apply Rmult_lt_0_compat; assumption).
    assert (0 < rho / a_r0 a) by (apply Rdiv_lt_0_compat; assumption).
    assert (Q : t * rho / a_r0 a = t * (rho / a_r0 a)) by (field; lra).
    destruct (Req_EM_T rho 0); [lra|]. destruct (Req_EM_T (t * rho) 0); [lra|].
    rewrite !rdiv_ok by lra. cbn [bind]. rewrite Q, !rpow_pos by (try assumption; apply Rmult_lt_0_compat; assumption). cbn [bind].
    do 2 eexists. split; [reflexivity|]. split; [reflexivity|]. split.
    + pose proof (Rpower_pos (24 * g65 sp / 5) (5 / 6)). pose proof (Rpower_pos (rho / a_r0 a) (5 / 3)). unfold c1. apply Rmult_lt_0_compat; lra.
    + rewrite <- Rpower_mult_distr by assumption. ring.
Qed.
Print Assumptions C18_structure_function.

Lemma total_lin (f g : nat -> R) l : total (map (fun i => 2 * (f i - g i)) l) = 2 * (total (map f l) - total (map g l)).
Proof. induction l; cbn [map total]; [ring|]. rewrite IHl. ring. Qed.
Lemma sumM_inv f n s : sumM f n = Ok s -> exists F, (forall i, (i < n)%nat -> f i = Ok (F i)).
Proof.
  revert s. induction n; cbn [sumM]; intros s H; [exists (fun _ => 0); intros; lia|].
  apply bind_inv in H as (u & Hu & H). apply bind_inv in H as (x & Hx & _). destruct (IHn u Hu) as (F & HF).
  exists (fun i => if (i =? n)%nat then x else F i). intros i Hi. destruct (Nat.eqb_spec i n) as [ ->|N]; [exact Hx|]. apply HF. lia.
Qed.
(** Whenever the angular covariance is defined, the angular structure function
    is twice the difference of the phase variance (times the total weight) and
    the covariance, for every history of wavelength changes. *)
Theorem C18_angular_structure :
  forall sp wvl r0 w h v d L ws b theta cov, valid_profile wvl r0 w h v d -> (forall x, In x ws -> 0 < x) -> 0 < L ->
  (do a <- atmosphere wvl r0 w h v d (Scal (Fin L)); set_wvls a ws) = Ok b ->
  angularCovariance sp b theta = Ok cov ->
  exists var, variance sp b = Ok var /\ angularStructureFunction sp b theta = Ok (2 * (var * total w - cov)).
Proof.
  intros sp wvl r0 w h v d L ws b theta cov HV Hws HL H Hc.
  destruct (history_val wvl r0 w h v d (Fin L) ws b HV Hws H) as (wv & r & Hwv & Hr & ->).
  destruct HV as (Hl & Hr0 & _ & Hw & _). revert Hc.
  set (ls := map _ _). set (b := mkAtmo wv r w h v d (LNum (Fin L)) ls). intros Hc.
  rewrite (variance_val sp b L) by (try reflexivity; assumption). eexists. split; [reflexivity|].
  destruct (sumM_inv _ _ _ Hc) as (F & HF).
  unfold angularCovariance in Hc. rewrite (sumM_val _ F) in Hc by exact HF. apply Ok_inj' in Hc. subst cov.
  unfold angularStructureFunction. rewrite (sumM_val _ (fun l => 2 * (c1 sp * c3 sp * Rpower (L / r) (5/3) * nth l w 0 - F l))).
  - f_equal. rewrite (total_lin (fun l => c1 sp * c3 sp * Rpower (L / r) (5/3) * nth l w 0) F). f_equal. f_equal. cbn [a_w b a_r0].
    rewrite <- (map_map (fun l => nth l w 0) (fun x => c1 sp * c3 sp * Rpower (L / r) (5/3) * x)), total_scal, total_nth. reflexivity.
  - intros l Hi. specialize (HF l Hi). cbn [a_w b] in Hi.
    destruct (slab_r0_val wv r r0 w h v d (Fin L) l ls Hwv Hr Hr0 Hw Hi eq_refl) as (s & Es & Er & EL & _). fold b in Es.
    rewrite Es in HF |- *. cbn [bind] in HF |- *. assert (Pw : 0 < nth l w 0) by (apply Hw, nth_In; exact Hi).
    rewrite (variance_val sp s L) by first [assumption | rewrite Er; apply Rmult_lt_0_compat; [exact Hr|apply Rpower_pos]].
    cbn [bind]. rewrite HF. cbn [bind]. rewrite Er, slab_strength by assumption. f_equal. ring.
Qed.
Print Assumptions C18_angular_structure.
(** a two-layer atmosphere meets the hypotheses at a non-zero angle *)
Example C18_angular_structure_ex : exists b cov, 
  (do a <- atmosphere 500 (1 / 10) [7 / 10; 3 / 10] [0; 10000] (Scal 10) (Scal 0) (Scal (Fin 25)); set_wvls a [1000]) = Ok b /\
  angularCovariance (mkSpecial 1 1 1 (fun x => x)) b (PI / 4) = Ok cov /\ valid_profile 500 (1 / 10) [7 / 10; 3 / 10] [0; 10000] (Scal 10) (Scal 0).
Proof.
  assert (V : valid_profile 500 (1 / 10) [7 / 10; 3 / 10] [0; 10000] (Scal 10) (Scal 0)).
  { split; [lra|]. split; [lra|]. split; [discriminate|]. split; [|repeat split]. intros x [ <-|[ <-|[]]]; lra. }
  set (sp := mkSpecial 1 1 1 (fun x => x)).
  eassert (E : (do a <- atmosphere 500 (1 / 10) [7 / 10; 3 / 10] [0; 10000] (Scal 10) (Scal 0) (Scal (Fin 25)); set_wvls a [1000]) = Ok _).
  { rewrite atmosphere_val by exact V. cbn [bind set_wvls]. rewrite set_wvl_val by (cbn; lra). cbn [bind]. reflexivity. }
  rewrite E. match type of E with _ = Ok ?x => set (b := x) in * end. clearbody b.
  assert (H := fun k => history_val _ _ _ _ _ _ (Fin 25) [1000] b V k E).
  destruct H as (wv & r & Hwv & Hr & Eb). { intros x [ <-|[]]. lra. }
  exists b. revert Eb. set (ls := map _ _). intros Eb.
  assert (W : forall x, In x [7 / 10; 3 / 10] -> 0 < x) by (intros x [ <-|[ <-|[]]]; lra).
  assert (HH : exists cov, angularCovariance sp b (PI / 4) = Ok cov).
  { destruct (slab_r0_val wv r (1/10) [7 / 10; 3 / 10] [0; 10000] (Scal 10) (Scal 0) (Fin 25) 0 ls Hwv Hr ltac:(lra) W ltac:(cbn; lia) eq_refl) as (s0 & Es0 & Er0 & EL0 & Eh0).
    destruct (slab_r0_val wv r (1/10) [7 / 10; 3 / 10] [0; 10000] (Scal 10) (Scal 0) (Fin 25) 1 ls Hwv Hr ltac:(lra) W ltac:(cbn; lia) eq_refl) as (s1 & Es1 & Er1 & EL1 & Eh1).
    rewrite <- Eb in Es0, Es1.
    assert (K : forall s q, a_L0 s = LNum (Fin 25) -> 0 < a_r0 s -> 0 <= q -> exists c, covariance sp s q = Ok c).
    { intros s q EL Ps Hq. unfold covariance. rewrite (L0r0_val s 25) by (try assumption; lra). cbn [bind]. destruct (Req_EM_T q 0); [eauto|]. rewrite EL.
      rewrite rdiv_ok by lra. cbn [bind]. pose proof PI_RGT_0. rewrite rpow_pos by (apply Rdiv_lt_0_compat; nra). cbn [bind]. eauto. }
    unfold angularCovariance. assert (Lw : length (a_w b) = 2%nat) by (rewrite Eb; reflexivity). rewrite Lw. cbn [sumM bind]. rewrite Es0, Es1. cbn [bind].
    rewrite tan_PI4. pose proof (Rpower_pos (nth 0 [7 / 10; 3 / 10] 0) (- 3 / 5)). pose proof (Rpower_pos (nth 1 [7 / 10; 3 / 10] 0) (- 3 / 5)).
    destruct (K s0 (slab_height s0 * 1) EL0) as (c0 & ->). { rewrite Er0. now apply Rmult_lt_0_compat. } { rewrite Eh0. cbn. lra. }
    cbn [bind].
    destruct (K s1 (slab_height s1 * 1) EL1) as (d0 & ->). { rewrite Er1. now apply Rmult_lt_0_compat. } { rewrite Eh1. cbn. lra. }
    cbn [bind]. eauto. }
  destruct HH as (cov & HH). exists cov. split; [reflexivity|]. split; [exact HH|exact V].
Qed.
