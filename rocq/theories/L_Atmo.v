(** Lemmas on the atmosphere model. *)
From Coq Require Import Reals List Arith ZArith Lia Lra Psatz.
From Verif Require Import Base_Py M_Tools S_Tools L_Tools L_Tools2 M_Atmo S_Atmo.
Import ListNotations.
Open Scope R_scope.

Lemma rpow_pos x y : 0 < x -> rpow x y = Ok (Rpower x y).
Proof. intros H. unfold rpow. destruct (Rlt_dec x 0); [lra|]. destruct (Req_EM_T x 0); [lra|]. reflexivity. Qed.
Lemma rdiv_ok x y : y <> 0 -> rdiv x y = Ok (x / y).
Proof. intros H. unfold rdiv. destruct (Req_EM_T y 0); [congruence|reflexivity]. Qed.
Lemma Rpower_pos x y : 0 < Rpower x y.
Proof. apply exp_pos. Qed.
Lemma Rpower_1_base y : Rpower 1 y = 1.
Proof. unfold Rpower. rewrite ln_1, Rmult_0_r. apply exp_0. Qed.
Lemma Rpower_inv_base x y : 0 < x -> Rpower (/ x) y = Rpower x (- y).
Proof. intros H. unfold Rpower. rewrite ln_Rinv by exact H. f_equal. ring. Qed.

(** ** wavelength history *)
Lemma set_wvl_val a w : 0 < a_wvl a -> 0 < w ->
  set_wvl a w = Ok (mkAtmo w (a_r0 a * Rpower (w / a_wvl a) (12/10)) (a_w a) (a_h a) (a_v a) (a_d a) (a_L0 a) (a_layers a)).
Proof.
  intros Ha Hw. unfold set_wvl. rewrite rdiv_ok by lra. cbn [bind]. rewrite rpow_pos by (apply Rdiv_lt_0_compat; assumption). reflexivity.
Qed.
Lemma set_wvls_val ws : forall a w, 0 < a_wvl a -> (forall x, In x ws -> 0 < x) -> 0 < w ->
  set_wvls a (ws ++ [w]) = set_wvl a w.
Proof.
  induction ws as [|x ws IH]; intros a w Ha Hws Hw; cbn [app set_wvls].
  - destruct (set_wvl a w); reflexivity.
  - assert (Hx : 0 < x) by (apply Hws; left; reflexivity). rewrite (set_wvl_val a x) by assumption. cbn [bind].
    rewrite IH; [|exact Hx|intros y Hy; apply Hws; right; exact Hy|exact Hw].
    rewrite !set_wvl_val by (cbn; assumption). cbn [a_wvl a_r0 a_w a_h a_v a_d a_L0 a_layers]. f_equal. f_equal.
    rewrite Rmult_assoc. f_equal. rewrite Rpower_mult_distr by (apply Rdiv_lt_0_compat; assumption).
    f_equal. field. split; lra.
Qed.

(** ** construction *)
Lemma mapM_map {A B} (f : A -> result B) (F : A -> B) l : (forall a, In a l -> f a = Ok (F a)) -> mapM f l = Ok (map F l).
Proof.
  induction l as [|a l IH]; intros H; cbn; [reflexivity|]. rewrite (H a (or_introl eq_refl)). cbn [bind].
  rewrite IH by (intros b Hb; apply H; right; exact Hb). reflexivity.
Qed.
Lemma pyindex_nth {A} (d : A) (l : list A) i : (i < length l)%nat -> pyindex l (Z.of_nat i) = Ok (nth i l d).
Proof.
  intros H. unfold pyindex. destruct (Z.ltb_spec (Z.of_nat i) 0); [lia|].
  destruct (Z.ltb_spec (Z.of_nat i) 0); [lia|]. destruct (Z.leb_spec (Z.of_nat (length l)) (Z.of_nat i)); [lia|].
  cbn [orb]. rewrite Nat2Z.id, (nth_error_nth' _ d) by exact H. reflexivity.
Qed.
Definition the_layer (r0 : R) (w h v d : list R) (L : list xR) (l : nat) : layer :=
  mkLayer (Rpower (nth l w 0 * Rpower r0 (- 5 / 3)) (- 3 / 5)) (nth l w 0) (nth l h 0) (nth l L Inf) (nth l v 0) (nth l d 0).
Lemma spread_length n v : match v with Lst l => length l = n | Scal _ => True end -> length (spread n v) = n.
Proof. destruct v; cbn; [intros _; apply repeat_length|auto]. Qed.
Lemma atmosphere_val wvl r0 w h v d L : valid_profile wvl r0 w h v d ->
  atmosphere wvl r0 w h v d (Scal L) =
  Ok (mkAtmo wvl r0 w h v d (LNum L) (map (the_layer r0 w h (spread (length w) v) (spread (length w) d) (repeat L (length w))) (seq 0 (length w)))).
Proof.
  intros (_ & Hr & _ & Hw & Hh & Hv & Hd). unfold atmosphere. cbn [parse_L0 bind fst snd].
  rewrite (mapM_map _ (the_layer r0 w h (spread (length w) v) (spread (length w) d) (repeat L (length w)))).
  - reflexivity.
  - intros l Hl. apply in_seq in Hl. unfold make_layer, the_layer.
    assert (Pw : 0 < nth l w 0) by (apply Hw, nth_In; lia).
    rewrite (pyindex_nth 0 w) by lia. cbn [bind]. rewrite rpow_pos by exact Hr. cbn [bind].
    rewrite rpow_pos by (apply Rmult_lt_0_compat; [exact Pw|apply Rpower_pos]). cbn [bind].
    rewrite (pyindex_nth 0 h) by lia. rewrite (pyindex_nth Inf (repeat L (length w))) by (rewrite repeat_length; lia).
    rewrite (pyindex_nth 0 (spread (length w) v)) by (rewrite spread_length; [lia|exact Hv]).
    rewrite (pyindex_nth 0 (spread (length w) d)) by (rewrite spread_length; [lia|exact Hd]).
    cbn [bind]. reflexivity.
Qed.
Lemma total_nth l : total (map (fun i => nth i l 0) (seq 0 (length l))) = total l.
Proof. induction l as [|x l IH]; [reflexivity|]. cbn [length seq map nth total]. rewrite <- seq_shift, map_map. cbn [nth]. rewrite IH. reflexivity. Qed.
Lemma total_scal c l : total (map (fun x => c * x) l) = c * total l.
Proof. induction l; cbn; [ring|]. rewrite IHl. ring. Qed.
Lemma layer_strength w p : 0 < w -> 0 < p -> Rpower (Rpower (w * p) (- 3 / 5)) (- 5 / 3) = w * p.
Proof.
  intros Hw Hp. rewrite Rpower_mult. replace (- 3 / 5 * (- 5 / 3)) with 1 by field. apply Rpower_1. apply Rmult_lt_0_compat; assumption.
Qed.

(** every atmosphere reached by a history of wavelength changes *)
Lemma history_val wvl r0 w h v d L ws b : valid_profile wvl r0 w h v d -> (forall x, In x ws -> 0 < x) ->
  (do a <- atmosphere wvl r0 w h v d (Scal L); set_wvls a ws) = Ok b ->
  exists wv r, 0 < wv /\ 0 < r /\
    b = mkAtmo wv r w h v d (LNum L) (map (the_layer r0 w h (spread (length w) v) (spread (length w) d) (repeat L (length w))) (seq 0 (length w))).
Proof.
  intros HV Hws. rewrite atmosphere_val by exact HV. cbn [bind]. destruct HV as (Hl & Hr & _).
  set (ls := map _ _). clearbody ls.
  destruct (rev ws) as [|x t] eqn:E.
  - apply (f_equal (@rev R)) in E. rewrite rev_involutive in E. subst ws. intros H. apply Ok_inj in H. subst b.
    exists wvl, r0. repeat split; assumption.
  - apply (f_equal (@rev R)) in E. rewrite rev_involutive in E. cbn [rev] in E. subst ws.
    assert (Hx : 0 < x) by (apply Hws, in_or_app; right; left; reflexivity).
    rewrite set_wvls_val; [|exact Hl|intros y Hy; apply Hws, in_or_app; left; exact Hy|exact Hx].
    rewrite set_wvl_val by (cbn; assumption). intros H; apply Ok_inj in H. subst b. cbn [a_wvl a_r0 a_w a_h a_v a_d a_L0 a_layers].
    exists x, (r0 * Rpower (x / wvl) (12/10)). split; [exact Hx|]. split; [apply Rmult_lt_0_compat; [exact Hr|apply Rpower_pos]|reflexivity].
Qed.

(** ** slabs *)
Lemma nth_error_layers r0 w h v d L k : (k < length w)%nat ->
  nth_error (map (the_layer r0 w h v d L) (seq 0 (length w))) k = Some (the_layer r0 w h v d L k).
Proof.
  intros H. rewrite nth_error_map, (nth_error_nth' _ 0%nat) by (rewrite seq_length; exact H). rewrite seq_nth by exact H. reflexivity.
Qed.
Lemma pyindex_some {A} (l : list A) i a : nth_error l i = Some a -> pyindex l (Z.of_nat i) = Ok a.
Proof.
  intros H. assert (i < length l)%nat by (apply nth_error_Some; congruence). unfold pyindex.
  destruct (Z.ltb_spec (Z.of_nat i) 0); [lia|].
  destruct (Z.ltb_spec (Z.of_nat i) 0); [lia|]. destruct (Z.leb_spec (Z.of_nat (length l)) (Z.of_nat i)); [lia|].
  cbn [orb]. rewrite Nat2Z.id, H. reflexivity.
Qed.
Lemma slab_val wv r r0 w h v d L k ls : 0 < wv -> 0 < r0 -> (forall x, In x w -> 0 < x) -> (k < length w)%nat ->
  ls = map (the_layer r0 w h (spread (length w) v) (spread (length w) d) (repeat L (length w))) (seq 0 (length w)) ->
  exists s, slab (mkAtmo wv r w h v d (LNum L) ls) k = Ok s /\ a_wvl s = wv /\
    a_r0 s = Rpower (nth k w 0 * Rpower r0 (- 5 / 3)) (- 3 / 5) /\ a_w s = [1] /\ a_h s = [nth k h 0] /\ a_L0 s = LNum L.
Proof.
  intros Hwv Hr Hw Hk ->. unfold slab. cbn [a_layers a_wvl].
  rewrite (pyindex_some _ _ _ (nth_error_layers _ _ _ _ _ _ _ Hk)). cbn [bind].
  cbn [the_layer ly_r0 ly_h ly_v ly_d ly_L0]. rewrite atmosphere_val.
  - eexists. split; [reflexivity|]. cbn [a_wvl a_r0 a_w a_h a_L0]. repeat split.
    f_equal. rewrite (nth_indep _ Inf L) by (rewrite repeat_length; exact Hk). apply nth_repeat.
  - split; [exact Hwv|]. split; [apply Rpower_pos|]. split; [discriminate|]. split; [intros x [ <-|[]]; lra|]. repeat split.
Qed.

(** ** covariances *)
Lemma L0r0_val a L : a_L0 a = LNum (Fin L) -> 0 < L -> 0 < a_r0 a -> L0r0ratio a = Ok (Rpower (L / a_r0 a) (5/3)).
Proof.
  intros E HL Hr. unfold L0r0ratio. rewrite E. rewrite rdiv_ok by lra. cbn [bind]. apply rpow_pos. apply Rdiv_lt_0_compat; assumption.
Qed.
Lemma variance_val sp a L : a_L0 a = LNum (Fin L) -> 0 < L -> 0 < a_r0 a -> variance sp a = Ok (c1 sp * c3 sp * Rpower (L / a_r0 a) (5/3)).
Proof. intros. unfold variance. rewrite (L0r0_val a L) by assumption. reflexivity. Qed.
Lemma covariance_zero sp a : covariance sp a 0 = variance sp a.
Proof. unfold covariance, variance. destruct (L0r0ratio a); cbn [bind]; [|reflexivity]. destruct (Req_EM_T 0 0); [reflexivity|lra]. Qed.
Lemma sumM_val f F n : (forall i, (i < n)%nat -> f i = Ok (F i)) -> sumM f n = Ok (total (map F (seq 0 n))).
Proof.
  induction n as [|n IH]; intros H; cbn [sumM]; [reflexivity|]. rewrite IH by (intros; apply H; lia). cbn [bind].
  rewrite H by lia. cbn [bind]. f_equal. rewrite seq_S, map_app, total_app. cbn. lra.
Qed.
Lemma slab_strength L r w : 0 < L -> 0 < r -> 0 < w ->
  Rpower (L / (r * Rpower w (- 3 / 5))) (5/3) = w * Rpower (L / r) (5/3).
Proof.
  intros HL Hr Hw. replace (L / (r * Rpower w (- 3 / 5))) with ((L / r) * Rpower w (3/5)).
  - rewrite <- Rpower_mult_distr by (try apply Rpower_pos; apply Rdiv_lt_0_compat; assumption).
    rewrite Rpower_mult. replace (3 / 5 * (5 / 3)) with 1 by field. rewrite Rpower_1 by exact Hw. ring.
  - assert (P := Rpower_pos w (- 3 / 5)). replace (3/5) with (- (- 3 / 5)) by field. rewrite Rpower_Ropp. field. split; lra.
Qed.
Lemma slab_r0_val wv r r0 w h v d L k ls : 0 < wv -> 0 < r -> 0 < r0 -> (forall x, In x w -> 0 < x) -> (k < length w)%nat ->
  ls = map (the_layer r0 w h (spread (length w) v) (spread (length w) d) (repeat L (length w))) (seq 0 (length w)) ->
  exists s, slab_r0 (mkAtmo wv r w h v d (LNum L) ls) k = Ok s /\ a_r0 s = r * Rpower (nth k w 0) (- 3 / 5) /\ a_L0 s = LNum L /\ slab_height s = nth k h 0.
Proof.
  intros Hwv Hr Hr0 Hw Hk E. destruct (slab_val wv r r0 w h v d L k ls Hwv Hr0 Hw Hk E) as (s & Es & _ & _ & _ & Eh & EL).
  unfold slab_r0. rewrite Es. cbn [bind a_w a_r0]. rewrite (pyindex_nth 0 w) by exact Hk. cbn [bind].
  rewrite rpow_pos by (apply Hw, nth_In; exact Hk). cbn [bind]. eexists. split; [reflexivity|]. cbn [a_r0 a_L0]. split; [reflexivity|].
  split; [exact EL|]. unfold slab_height. cbn [a_h]. rewrite Eh. reflexivity.
Qed.
