(** Properties C15-C18, C47: atmosphere object. *)
From Coq Require Import Reals List Arith ZArith Lia Lra Psatz.
From Verif Require Import Base_Py M_Tools S_Tools L_Tools L_Tools2 M_Atmo S_Atmo L_Atmo.
Import ListNotations.
Open Scope R_scope.

(** C15: only the last wavelength set matters, and only wavelength and r0 change. *)
Theorem C15_path_independent :
  forall (a : atmo) (ws : list R) (w : R), 0 < a_wvl a -> (forall x, In x ws -> 0 < x) -> 0 < w ->
  exists b, set_wvls a (ws ++ [w]) = Ok b /\ set_wvl a w = Ok b /\
    a_wvl b = w /\ a_r0 b = a_r0 a * Rpower (w / a_wvl a) (6/5) /\
    a_w b = a_w a /\ a_h b = a_h a /\ a_v b = a_v a /\ a_d b = a_d a /\ a_L0 b = a_L0 a.
Proof.
  intros a ws w Ha Hws Hw. rewrite set_wvls_val, set_wvl_val by assumption. eexists. split; [reflexivity|]. split; [reflexivity|].
  cbn. replace (12/10) with (6/5) by field. repeat split.
Qed.
Print Assumptions C15_path_independent.
Theorem C15_reversible :
  forall (a : atmo) (ws : list R), 0 < a_wvl a -> (forall x, In x ws -> 0 < x) ->
  set_wvls a (ws ++ [a_wvl a]) = Ok a.
Proof.
  intros a ws Ha Hws. rewrite set_wvls_val, set_wvl_val by assumption. f_equal.
  replace (a_wvl a / a_wvl a) with 1 by (field; lra). rewrite Rpower_1_base, Rmult_1_r. destruct a; reflexivity.
Qed.
Print Assumptions C15_reversible.
(** C15: the seeing decreases as wavelength^(-1/5). *)
Theorem C15_seeing :
  forall (a b : atmo) (w s t : R), 0 < a_wvl a -> 0 < a_r0 a -> 0 < w ->
  seeing a = Ok s -> set_wvl a w = Ok b -> seeing b = Ok t -> t = s * Rpower (w / a_wvl a) (- 1 / 5).
Proof.
  intros a b w s t Ha Hr Hw. rewrite set_wvl_val by assumption. unfold seeing. intros Hs Hb. apply Ok_inj in Hb. subst b.
  cbn [a_wvl a_r0]. assert (P := Rpower_pos (w / a_wvl a) (12/10)).
  rewrite rdiv_ok in * by (try apply Rgt_not_eq; try apply Rmult_lt_0_compat; lra). intros Ht. apply Ok_inj in Hs. apply Ok_inj in Ht. subst s t.
  replace (- 1 / 5) with (1 + - (12/10)) by field. rewrite Rpower_plus, Rpower_Ropp, Rpower_1 by (apply Rdiv_lt_0_compat; assumption).
  field. repeat split; try lra. apply PI_neq0.
Qed.
Print Assumptions C15_seeing.
Example C15_nonvacuous : exists a b s t, atmosphere 500 (1/10) [1/4; 3/4] [0; 1000] (Scal 10) (Scal 0) (Scal (Fin 25)) = Ok a /\
  set_wvls a [600; 400; 1000] = Ok b /\ seeing a = Ok s /\ seeing b = Ok t /\ a_r0 b = 1/10 * Rpower 2 (6/5).
Proof.
  rewrite atmosphere_val.
  2:{ split; [lra|]. split; [lra|]. split; [discriminate|]. split; [|repeat split]. cbn. intros x [ <-|[ <-|[]]]; lra. }
  set (a := mkAtmo _ _ _ _ _ _ _ _). destruct (C15_path_independent a [600;400] 1000) as (b & E & _ & _ & Er & _);
    [cbn; lra|cbn; intros x [ <-|[ <-|[]]]; lra|lra|]. cbn [app] in E.
  assert (P := Rpower_pos (1000 / 500) (6/5)).
  exists a, b. do 2 eexists. split; [reflexivity|]. split; [exact E|]. unfold seeing. rewrite !rdiv_ok; [|rewrite Er; cbn; nra|cbn; lra].
  split; [reflexivity|]. split; [reflexivity|]. rewrite Er. cbn. do 2 f_equal. lra.
Qed.

(** C16: the layers of a new atmosphere share r0^(-5/3) according to their weights. *)
Theorem C16_layers_share_strength :
  forall (wvl r0 : R) (w h : list R) (v d : sol R) (L : xR), valid_profile wvl r0 w h v d ->
  exists a, atmosphere wvl r0 w h v d (Scal L) = Ok a /\ length (a_layers a) = length w /\
    total (map (fun l => Rpower (ly_r0 l) (- 5 / 3)) (a_layers a)) = total w * Rpower r0 (- 5 / 3) /\
    forall i l, nth_error (a_layers a) i = Some l ->
      nth_error w i = Some (ly_w l) /\ nth_error h i = Some (ly_h l) /\ ly_L0 l = L /\
      Rpower (ly_r0 l) (- 5 / 3) = ly_w l * Rpower r0 (- 5 / 3).
Proof.
  intros wvl r0 w h v d L HV. rewrite atmosphere_val by exact HV. destruct HV as (_ & Hr & _ & Hw & Hh & Hv & Hd).
  eexists. split; [reflexivity|]. cbn [a_layers]. split; [rewrite map_length, seq_length; reflexivity|].
  assert (S : forall i, (i < length w)%nat -> Rpower (Rpower (nth i w 0 * Rpower r0 (- 5 / 3)) (- 3 / 5)) (- 5 / 3) = nth i w 0 * Rpower r0 (- 5 / 3)).
  { intros i Hi. apply layer_strength; [apply Hw, nth_In; exact Hi|apply Rpower_pos]. }
  split.
  - rewrite map_map. cbn [the_layer ly_r0]. transitivity (total (map (fun x => Rpower r0 (- 5 / 3) * x) (map (fun i => nth i w 0) (seq 0 (length w))))).
    + rewrite map_map. f_equal. apply map_ext_in. intros i Hi. apply in_seq in Hi. rewrite S by lia. ring.
    + rewrite total_scal, total_nth. ring.
  - intros i l Hi. assert (i < length w)%nat.
    { assert (X : (i < length (map (the_layer r0 w h (spread (length w) v) (spread (length w) d) (repeat L (length w))) (seq 0 (length w))))%nat) by (apply nth_error_Some; congruence).
      rewrite map_length, seq_length in X. exact X. }
    rewrite nth_error_layers in Hi by assumption. injection Hi as <-. cbn [the_layer ly_w ly_h ly_L0 ly_r0].
    split; [apply nth_error_nth'; assumption|]. split; [apply nth_error_nth'; rewrite Hh; assumption|]. split; [|apply S; assumption].
    rewrite (nth_indep _ Inf L) by (rewrite repeat_length; assumption). apply nth_repeat.
Qed.
Print Assumptions C16_layers_share_strength.
(** C16: right after construction slab(k) is an atmosphere with the layer's share. *)
Theorem C16_slab_fresh :
  forall wvl r0 w h v d L a k wk, valid_profile wvl r0 w h v d -> atmosphere wvl r0 w h v d (Scal L) = Ok a ->
  nth_error w k = Some wk ->
  exists s, slab a k = Ok s /\ Rpower (a_r0 s) (- 5 / 3) = wk * Rpower (a_r0 a) (- 5 / 3) /\ a_wvl s = a_wvl a.
Proof.
  intros wvl r0 w h v d L a k wk HV E Hk. rewrite atmosphere_val in E by exact HV. apply Ok_inj in E. subst a.
  assert (K : (k < length w)%nat) by (apply nth_error_Some; congruence). destruct HV as (Hl & Hr & _ & Hw & _).
  edestruct (slab_val wvl r0 r0 w h v d L k) as (s & Es & Ew & Er & _); [exact Hl|exact Hr|exact Hw|exact K|reflexivity|].
  exists s. split; [exact Es|]. split; [|exact Ew]. rewrite Er. cbn [a_r0]. rewrite (nth_error_nth _ _ 0 Hk).
  apply layer_strength; [apply Hw; eapply nth_error_In; exact Hk|apply Rpower_pos].
Qed.
Print Assumptions C16_slab_fresh.
(** C16 refuted: after any real change of wavelength every slab still has the
    strength of the construction wavelength while claiming the new wavelength. *)
Theorem C16_slab_stale_refuted :
  forall wvl r0 w h v d L a w' b k wk, valid_profile wvl r0 w h v d -> atmosphere wvl r0 w h v d (Scal L) = Ok a ->
  0 < w' -> w' <> wvl -> set_wvl a w' = Ok b -> nth_error w k = Some wk ->
  exists s, slab b k = Ok s /\ a_wvl s = w' /\ Rpower (a_r0 s) (- 5 / 3) = wk * Rpower r0 (- 5 / 3) /\
    Rpower (a_r0 s) (- 5 / 3) <> wk * Rpower (a_r0 b) (- 5 / 3).
Proof.
  intros wvl r0 w h v d L a w' b k wk HV E Hw' Hne Eb Hk. rewrite atmosphere_val in E by exact HV. apply Ok_inj in E. subst a.
  destruct HV as (Hl & Hr & _ & Hw & _).
  rewrite set_wvl_val in Eb by (cbn; assumption). apply Ok_inj in Eb. subst b. cbn [a_wvl a_r0 a_w a_h a_v a_d a_L0 a_layers].
  assert (K : (k < length w)%nat) by (apply nth_error_Some; congruence).
  edestruct (slab_val w' (r0 * Rpower (w' / wvl) (12/10)) r0 w h v d L k) as (s & Es & Ew & Er & _); [exact Hw'|exact Hr|exact Hw|exact K|reflexivity|].
  assert (Pk : 0 < wk) by (apply Hw; eapply nth_error_In; exact Hk).
  exists s. split; [exact Es|]. split; [exact Ew|]. rewrite Er, (nth_error_nth _ _ 0 Hk), layer_strength by (try apply Rpower_pos; exact Pk).
  split; [reflexivity|]. intros X. apply Rmult_eq_reg_l in X; [|lra].
  rewrite <- Rpower_mult_distr in X by (try apply Rpower_pos; assumption). assert (P := Rpower_pos r0 (- 5 / 3)).
  assert (Y : Rpower (Rpower (w' / wvl) (12 / 10)) (- 5 / 3) = 1) by nra.
  rewrite Rpower_mult in Y. replace (12 / 10 * (- 5 / 3)) with (- 2) in Y by field.
  unfold Rpower in Y. rewrite <- exp_0 in Y. apply exp_inv in Y.
  assert (Z : ln (w' / wvl) = ln 1) by (rewrite ln_1; lra). apply ln_inv in Z; [|apply Rdiv_lt_0_compat; assumption|lra].
  apply Hne. apply Rmult_eq_reg_r with (/ wvl); [|apply Rinv_neq_0_compat; lra]. rewrite Rinv_r by lra. exact Z.
Qed.
Print Assumptions C16_slab_stale_refuted.
Example C16_nonvacuous : valid_profile 500 (1/10) [1/4; 3/4] [0; 1000] (Lst [5; 10]) (Scal 0) /\
  exists a b, atmosphere 500 (1/10) [1/4; 3/4] [0; 1000] (Lst [5; 10]) (Scal 0) (Scal (Fin 25)) = Ok a /\ set_wvl a 1000 = Ok b.
Proof.
  assert (V : valid_profile 500 (1/10) [1/4; 3/4] [0; 1000] (Lst [5; 10]) (Scal 0)).
  { split; [lra|]. split; [lra|]. split; [discriminate|]. split; [|repeat split]. cbn. intros x [ <-|[ <-|[]]]; lra. }
  split; [exact V|]. rewrite atmosphere_val by exact V. do 2 eexists. split; [reflexivity|]. rewrite set_wvl_val by (cbn; lra). reflexivity.
Qed.

(** C17: finite outer scale: defined, positive, strictly decreasing with the
    spatial frequency, hence bounded by its value at zero. *)
Lemma spectrum_fin sp a L k : a_L0 a = LNum (Fin L) -> 0 < L -> 0 < a_r0 a ->
  spectrum sp a k = Ok (Rpower (a_r0 a) (- 5 / 3) * (c1 sp * (g116 sp ^ 2 / (2 * Rpower PI (11/3)))) * Rpower (k ^ 2 + 1 / L ^ 2) (- 11 / 6)).
Proof.
  intros E HL Hr. unfold spectrum. rewrite E, rpow_pos by exact Hr. cbn [bind].
  assert (P : 0 < L ^ 2) by nra. rewrite rdiv_ok by lra. cbn [bind]. rewrite rpow_pos; [reflexivity|].
  assert (0 < 1 / L ^ 2) by (apply Rdiv_lt_0_compat; lra). assert (0 <= k ^ 2) by nra. lra.
Qed.
Lemma spectrum_inf sp a k : a_L0 a = LNum Inf -> 0 < a_r0 a -> k <> 0 ->
  spectrum sp a k = Ok (Rpower (a_r0 a) (- 5 / 3) * (c1 sp * (g116 sp ^ 2 / (2 * Rpower PI (11/3)))) * Rpower (k ^ 2 + 0) (- 11 / 6)).
Proof.
  intros E Hr Hk. unfold spectrum. rewrite E, rpow_pos by exact Hr. cbn [bind]. rewrite rpow_pos; [reflexivity|].
  assert (0 < k ^ 2) by nra. lra.
Qed.
Lemma cte_pos sp : special_pos sp -> 0 < c1 sp * (g116 sp ^ 2 / (2 * Rpower PI (11/3))).
Proof.
  intros (_ & H & _). assert (P := Rpower_pos PI (11/3)). apply Rmult_lt_0_compat; [apply Rpower_pos|].
  apply Rdiv_lt_0_compat; [nra|lra].
Qed.
Lemma Rpower_neg_lt x y e : 0 < x -> x < y -> e < 0 -> Rpower y e < Rpower x e.
Proof.
  intros Hx Hxy He. unfold Rpower. apply exp_increasing. assert (ln x < ln y) by (apply ln_increasing; assumption). nra.
Qed.
Theorem C17_spectrum_finite_L0 :
  forall (sp : special) (a : atmo) (L : R), special_pos sp -> a_L0 a = LNum (Fin L) -> 0 < L -> 0 < a_r0 a ->
  forall k1 k2 : R, 0 <= k1 -> k1 < k2 ->
  exists s1 s2 s0, spectrum sp a k1 = Ok s1 /\ spectrum sp a k2 = Ok s2 /\ spectrum sp a 0 = Ok s0 /\
    0 < s2 /\ s2 < s1 /\ s1 <= s0.
Proof.
  intros sp a L HS E HL Hr k1 k2 H1 H2. rewrite !(spectrum_fin sp a L) by assumption.
  do 3 eexists. do 3 (split; [reflexivity|]).
  assert (C := cte_pos sp HS). assert (P := Rpower_pos (a_r0 a) (- 5 / 3)).
  assert (Q : 0 < 1 / L ^ 2) by (apply Rdiv_lt_0_compat; nra).
  set (K := Rpower (a_r0 a) (- 5 / 3) * _). assert (HK : 0 < K) by (apply Rmult_lt_0_compat; assumption).
  split; [apply Rmult_lt_0_compat; [exact HK|apply Rpower_pos]|]. split.
  - apply Rmult_lt_compat_l; [exact HK|]. apply Rpower_neg_lt; [nra|nra|lra].
  - apply Rmult_le_compat_l; [lra|]. destruct (Req_dec k1 0) as [ ->|N]; [lra|].
    left. apply Rpower_neg_lt; [nra|nra|lra].
Qed.
Print Assumptions C17_spectrum_finite_L0.
Theorem C17_spectrum_infinite_L0 :
  forall (sp : special) (a : atmo), special_pos sp -> a_L0 a = LNum Inf -> 0 < a_r0 a ->
  (forall k1 k2 : R, 0 < k1 -> k1 < k2 ->
    exists s1 s2, spectrum sp a k1 = Ok s1 /\ spectrum sp a k2 = Ok s2 /\ 0 < s2 /\ s2 < s1) /\
  spectrum sp a 0 = Err NonFinite.
Proof.
  intros sp a HS E Hr. split.
  - intros k1 k2 H1 H2. rewrite !spectrum_inf by (try assumption; lra). do 2 eexists. do 2 (split; [reflexivity|]).
    assert (C := cte_pos sp HS). assert (P := Rpower_pos (a_r0 a) (- 5 / 3)).
    set (K := Rpower (a_r0 a) (- 5 / 3) * _). assert (HK : 0 < K) by (apply Rmult_lt_0_compat; assumption).
    split; [apply Rmult_lt_0_compat; [exact HK|apply Rpower_pos]|]. apply Rmult_lt_compat_l; [exact HK|]. apply Rpower_neg_lt; [nra|nra|lra].
  - unfold spectrum. rewrite E, rpow_pos by exact Hr. cbn [bind]. unfold rpow.
    replace (0 ^ 2 + 0) with 0 by ring. destruct (Rlt_dec 0 0); [lra|]. destruct (Req_EM_T 0 0); [|lra].
    destruct (Rlt_dec 0 (- 11 / 6)); [lra|]. destruct (Req_EM_T (- 11 / 6) 0); [lra|]. reflexivity.
Qed.
Print Assumptions C17_spectrum_infinite_L0.
(** C17: stronger turbulence (smaller r0) has more power at every frequency. *)
Theorem C17_spectrum_r0 :
  forall (sp : special) (a b : atmo) (k s t : R), special_pos sp -> a_L0 a = a_L0 b ->
  0 < a_r0 a -> a_r0 a < a_r0 b -> spectrum sp a k = Ok s -> spectrum sp b k = Ok t -> t < s.
Proof.
  intros sp a b k s t HS EL Ha Hab. unfold spectrum. rewrite <- EL, !rpow_pos by lra. cbn [bind].
  destruct (match a_L0 a with LNum (Fin L) => _ | _ => _ end) as [i|]; cbn [bind]; [|discriminate].
  destruct (rpow (k ^ 2 + i) (- 11 / 6)) as [q|] eqn:Q; cbn [bind]; [|discriminate].
  assert (Qp : 0 < q).
  { unfold rpow in Q. destruct (Rlt_dec (k ^ 2 + i) 0); [discriminate|]. destruct (Req_EM_T (k ^ 2 + i) 0).
    - destruct (Rlt_dec 0 (- 11 / 6)); [lra|]. destruct (Req_EM_T (- 11 / 6) 0); [lra|discriminate].
    - apply Ok_inj in Q. subst q. apply Rpower_pos. }
  intros H1 H2. apply Ok_inj in H1. apply Ok_inj in H2. subst s t. apply Rmult_lt_compat_r; [exact Qp|].
  apply Rmult_lt_compat_r; [apply cte_pos; exact HS|]. apply Rpower_neg_lt; lra.
Qed.
Print Assumptions C17_spectrum_r0.
Example C17_nonvacuous : exists a b s t sp, special_pos sp /\
  atmosphere 500 (1/10) [1] [0] (Scal 0) (Scal 0) (Scal (Fin 25)) = Ok a /\ atmosphere 500 (2/10) [1] [0] (Scal 0) (Scal 0) (Scal (Fin 25)) = Ok b /\
  spectrum sp a 3 = Ok s /\ spectrum sp b 3 = Ok t /\ t < s.
Proof.
  set (sp := mkSpecial 1 1 1 (fun x => x)). assert (HS : special_pos sp) by (repeat split; cbn; lra).
  assert (V : forall r, 0 < r -> valid_profile 500 r [1] [0] (Scal 0) (Scal 0)).
  { intros r Hr. split; [lra|]. split; [exact Hr|]. split; [discriminate|]. split; [|repeat split]. intros x [ <-|[]]; lra. }
  rewrite !atmosphere_val by (apply V; lra).
  set (a := mkAtmo 500 (1/10) _ _ _ _ _ _). set (b := mkAtmo 500 (2/10) _ _ _ _ _ _).
  assert (Ea := spectrum_fin sp a 25 3 eq_refl ltac:(lra) ltac:(cbn; lra)).
  assert (Eb := spectrum_fin sp b 25 3 eq_refl ltac:(lra) ltac:(cbn; lra)).
  exists a, b. do 2 eexists. exists sp. split; [exact HS|]. do 2 (split; [reflexivity|]). split; [exact Ea|]. split; [exact Eb|].
  eapply (C17_spectrum_r0 sp a b 3); [exact HS|reflexivity|cbn; lra|cbn; lra|exact Ea|exact Eb].
Qed.

(** C18: for every atmosphere reached by any history of wavelength changes. *)
Theorem C18_angular_zero :
  forall sp wvl r0 w h v d L ws b, valid_profile wvl r0 w h v d -> (forall x, In x ws -> 0 < x) -> 0 < L ->
  (do a <- atmosphere wvl r0 w h v d (Scal (Fin L)); set_wvls a ws) = Ok b ->
  exists var, variance sp b = Ok var /\ angularCovariance sp b 0 = Ok (var * total w) /\ angularStructureFunction sp b 0 = Ok 0.
Proof.
  intros sp wvl r0 w h v d L ws b HV Hws HL H.
  destruct (history_val wvl r0 w h v d (Fin L) ws b HV Hws H) as (wv & r & Hwv & Hr & ->).
  destruct HV as (Hl & Hr0 & _ & Hw & _).
  set (ls := map _ _). set (b := mkAtmo wv r w h v d (LNum (Fin L)) ls).
  rewrite (variance_val sp b L) by (try reflexivity; assumption). eexists. split; [reflexivity|].
  assert (S : forall l, (l < length w)%nat -> exists s, slab_r0 b l = Ok s /\
      variance sp s = Ok (c1 sp * c3 sp * Rpower (L / r) (5/3) * nth l w 0) /\ covariance sp s (slab_height s * tan 0) = variance sp s).
  { intros l Hk. destruct (slab_r0_val wv r r0 w h v d (Fin L) l ls Hwv Hr Hr0 Hw Hk eq_refl) as (s & Es & Er & EL & _).
    exists s. split; [exact Es|]. assert (Pw : 0 < nth l w 0) by (apply Hw, nth_In; exact Hk).
    split.
    - rewrite (variance_val sp s L) by first [assumption | rewrite Er; apply Rmult_lt_0_compat; [exact Hr|apply Rpower_pos]].
      rewrite Er, slab_strength by assumption. f_equal. ring.
    - rewrite tan_0, Rmult_0_r. apply covariance_zero. }
  split.
  - unfold angularCovariance. rewrite (sumM_val _ (fun l => c1 sp * c3 sp * Rpower (L / r) (5/3) * nth l w 0)).
    + cbn [a_w b a_r0]. f_equal. rewrite <- (map_map (fun l => nth l w 0) (fun x => c1 sp * c3 sp * Rpower (L / r) (5/3) * x)).
      rewrite total_scal, total_nth. reflexivity.
    + cbn [a_w b]. intros i Hi. destruct (S i Hi) as (s & Es & Ev & Ec). rewrite Es. cbn [bind]. rewrite Ec. exact Ev.
  - unfold angularStructureFunction. rewrite (sumM_val _ (fun l => 0)).
    + f_equal. generalize (length (a_w b)) as n. induction n; cbn [seq map total]; [reflexivity|]. rewrite <- seq_shift, map_map, IHn. lra.
    + cbn [a_w b]. intros i Hi. destruct (S i Hi) as (s & Es & Ev & Ec). rewrite Es. cbn [bind]. rewrite Ec, Ev. cbn [bind]. f_equal. ring.
Qed.
Print Assumptions C18_angular_zero.
(** C18 refuted: at zero delay the temporal covariance is the variance times the
    number of layers, whatever the weights. *)
Theorem C18_temporal_zero :
  forall sp a L l, a_L0 a = LNum (Fin L) -> 0 < L -> 0 < a_r0 a -> a_v a = Lst l -> length l = length (a_w a) ->
  exists var, variance sp a = Ok var /\ temporalCovariance sp a 0 = Ok (INR (length (a_w a)) * var).
Proof.
  intros sp a L l E HL Hr Ev Hl. rewrite (variance_val sp a L) by assumption. eexists. split; [reflexivity|].
  unfold temporalCovariance. rewrite (sumM_val _ (fun _ => c1 sp * c3 sp * Rpower (L / a_r0 a) (5 / 3))).
  - f_equal. generalize (length (a_w a)) as n. set (q := c1 sp * _). intros n. rewrite <- (seq_length n 0) at 2.
    generalize (seq 0 n) as s. induction s; cbn [map total length]; [cbn; ring|]. rewrite IHs, S_INR. ring.
  - intros i Hi. rewrite Ev, (pyindex_nth 0) by lia. cbn [bind]. rewrite Rmult_0_r, covariance_zero. apply variance_val; assumption.
Qed.
Print Assumptions C18_temporal_zero.
Theorem C18_temporal_refuted :
  forall sp a L l, special_pos sp -> a_L0 a = LNum (Fin L) -> 0 < L -> 0 < a_r0 a -> a_v a = Lst l -> length l = length (a_w a) ->
  (2 <= length (a_w a))%nat ->
  exists var c, variance sp a = Ok var /\ temporalCovariance sp a 0 = Ok c /\ 2 * var <= c /\ 0 < var.
Proof.
  intros sp a L l (S1 & S2 & S3) E HL Hr Ev Hl H2. destruct (C18_temporal_zero sp a L l E HL Hr Ev Hl) as (var & Hv & Hc).
  exists var, (INR (length (a_w a)) * var). split; [exact Hv|]. split; [exact Hc|].
  assert (P : 0 < var).
  { rewrite (variance_val sp a L) in Hv by assumption. apply Ok_inj in Hv. subst var.
    assert (0 < c3 sp). { unfold c3. assert (Q := Rpower_pos PI (8/3)). apply Rdiv_lt_0_compat; nra. }
    apply Rmult_lt_0_compat; [|apply Rpower_pos]. apply Rmult_lt_0_compat; [apply Rpower_pos|assumption]. }
  apply le_INR in H2. cbn [INR] in H2. split; [nra|exact P].
Qed.
Print Assumptions C18_temporal_refuted.
(** C18 refuted: with the documented scalar wind (the default 0.0) the call raises. *)
Theorem C18_scalar_wind_refuted :
  forall sp a s tau, a_v a = Scal s -> a_w a <> [] -> temporalCovariance sp a tau = Err IndexError.
Proof.
  intros sp a s tau Ev Hw. unfold temporalCovariance. destruct (a_w a) as [|x r]; [congruence|]. cbn [length]. clear Hw.
  induction (length r) as [|n IH]; cbn [sumM] in *; rewrite Ev in *; cbn [bind] in *; [reflexivity|]. rewrite IH. reflexivity.
Qed.
Print Assumptions C18_scalar_wind_refuted.
Example C18_nonvacuous : exists sp b, special_pos sp /\
  (do a <- atmosphere 500 (1/10) [1/4; 3/4] [0; 1000] (Lst [5; 10]) (Scal 0) (Scal (Fin 25)); set_wvls a [1000]) = Ok b /\
  a_v b = Lst [5; 10] /\ a_r0 b <> 0.
Proof.
  exists (mkSpecial 1 1 1 (fun x => x)). destruct C16_nonvacuous as (V & _).
  rewrite atmosphere_val by exact V. cbn [bind set_wvls]. rewrite set_wvl_val by (cbn; lra). eexists.
  split; [repeat split; cbn; lra|]. split; [reflexivity|]. cbn. split; [reflexivity|]. assert (P := Rpower_pos (1000/500) (12/10)). nra.
Qed.

(** C47: integrated quantities. *)
Theorem C47_mean_height_between_layers :
  forall a, a_w a <> [] -> length (a_h a) = length (a_w a) -> (forall x, In x (a_w a) -> 0 < x) -> (forall x, In x (a_h a) -> 0 <= x) ->
  total (a_w a) = 1 ->
  exists m, meanHeight a = Ok m /\ (exists x, In x (a_h a) /\ x <= m) /\ (exists x, In x (a_h a) /\ m <= x).
Proof.
  intros a Hn HL Hw Hh T. unfold meanHeight, mean53.
  rewrite mapM_rpow by (try exact Hh; lra). cbn [bind]. unfold bmul. rewrite map_length, HL, Nat.eqb_refl. cbn [bind].
  set (s := combine (a_w a) (a_h a)).
  assert (G : good s). { intros [x y] Hx. split; [apply Hw; eapply in_combine_l; exact Hx|apply Hh; eapply in_combine_r; exact Hx]. }
  assert (Sn : s <> []). { unfold s. destruct (a_w a); [congruence|]. destruct (a_h a); [discriminate|discriminate]. }
  assert (W : weight s = 1). { unfold weight, s. rewrite combine_fst by (symmetry; exact HL). exact T. }
  assert (M : lsum (map (fun q => fst q * snd q) (combine (a_w a) (map (fun h => hpow h (5/3)) (a_h a)))) = moment (5/3) s).
  { rewrite lsum_total. unfold moment, s. f_equal. clear. revert a. intros a. generalize (a_w a) (a_h a). clear.
    induction l as [|x l IH]; intros [|y h]; cbn; try reflexivity. rewrite IH. reflexivity. }
  rewrite M, rpow_hpow by (try (apply moment_nonneg; exact G); lra). eexists. split; [reflexivity|].
  destruct (seg_val_spec (5/3) s Sn G) as (_ & _ & (x & Ix & Lx) & (y & Iy & Ly)); [lra|].
  cbn [seg_val snd] in Lx, Ly. rewrite W in Lx, Ly. replace (moment (5/3) s / 1) with (moment (5/3) s) in * by field.
  replace (1 / (5/3)) with (3/5) in * by field. split.
  - exists (snd x). split; [|exact Lx]. destruct x; cbn. eapply in_combine_r; exact Ix.
  - exists (snd y). split; [|exact Ly]. destruct y; cbn. eapply in_combine_r; exact Iy.
Qed.
Print Assumptions C47_mean_height_between_layers.
Theorem C47_tau0_scaling :
  forall a b w t u, 0 < a_wvl a -> 0 < w -> set_wvl a w = Ok b -> tau0 a = Ok t -> tau0 b = Ok u ->
  u = t * Rpower (w / a_wvl a) (6/5).
Proof.
  intros a b w t u Ha Hw. rewrite set_wvl_val by assumption. intros Hb. apply Ok_inj in Hb. subst b. unfold tau0, meanWind. cbn [a_w a_v a_r0].
  destruct (mean53 _ _) as [m|]; cbn [bind]; [|discriminate]. unfold rdiv. destruct (Req_EM_T m 0); [discriminate|].
  intros Ht Hu. apply Ok_inj in Ht. apply Ok_inj in Hu. subst t u. replace (6/5) with (12/10) by field. field. assumption.
Qed.
Print Assumptions C47_tau0_scaling.
Lemma Rpower_scale x f e : 0 < x -> 0 < f -> Rpower (x * f) e = Rpower x e * Rpower f e.
Proof. intros. symmetry. apply Rpower_mult_distr; assumption. Qed.
(** isoplanatic angle, infinite outer scale *)
Theorem C47_theta0_scaling :
  forall sp a b w t u, special_pos sp -> 0 < a_wvl a -> 0 < a_r0 a -> 0 < w -> set_wvl a w = Ok b ->
  theta0_kolmogorov sp a = Ok (Fin t) -> theta0_kolmogorov sp b = Ok (Fin u) ->
  u = t * Rpower (w / a_wvl a) (6/5).
Proof.
  intros sp a b w t u (S1 & _) Ha Hr Hw. rewrite set_wvl_val by assumption. intros Hb. apply Ok_inj in Hb. subst b.
  unfold theta0_kolmogorov. cbn [a_w a_h a_r0]. destruct (forallb _ (a_h a)); [discriminate|].
  rewrite (rpow_pos (24 * g65 sp / 5)) by lra. cbn [bind].
  assert (F : 0 < Rpower (w / a_wvl a) (12/10)) by apply Rpower_pos.
  rewrite !(rpow_pos _ (5/3)) by (try apply Rmult_lt_0_compat; assumption). cbn [bind].
  destruct (mapM (fun h => rpow h (5/3)) (a_h a)) as [ps|]; cbn [bind]; [|discriminate].
  destruct (bmul (a_w a) ps) as [m|]; cbn [bind]; [|discriminate].
  unfold rdiv. destruct (Req_EM_T (lsum m) 0) as [E0|E0]; [discriminate|]. cbn [bind].
  rewrite Rpower_scale by assumption. rewrite Rpower_mult. replace (12 / 10 * (5 / 3)) with 2 by field.
  set (G := Rpower (24 * g65 sp / 5) (- 5 / 6)). set (A := Rpower (a_r0 a) (5/3)). set (B := Rpower (w / a_wvl a) 2).
  assert (PG : 0 < G) by apply Rpower_pos. assert (PA : 0 < A) by apply Rpower_pos. assert (PB : 0 < B) by apply Rpower_pos.
  replace (G * (A * B) / lsum m) with (G * A / lsum m * B) by (field; assumption).
  destruct (Rlt_dec (lsum m) 0) as [N|N].
  - assert (X : G * A / lsum m < 0). { unfold Rdiv. assert (/ lsum m < 0) by (apply Rinv_lt_0_compat; exact N). assert (0 < G * A) by (apply Rmult_lt_0_compat; assumption). nra. }
    unfold rpow at 1. destruct (Rlt_dec _ 0); [discriminate|lra].
  - assert (X : 0 < G * A / lsum m). { apply Rdiv_lt_0_compat; [apply Rmult_lt_0_compat; assumption|]. destruct (Rtotal_order (lsum m) 0) as [?|[?|?]]; [lra|congruence|assumption]. }
    rewrite !rpow_pos by first [assumption | apply Rmult_lt_0_compat; assumption]. cbn [bind]. intros Ht Hu. apply Ok_inj in Ht. apply Ok_inj in Hu.
    injection Ht as <-. injection Hu as <-. rewrite Rpower_scale by assumption. unfold B. rewrite Rpower_mult.
    replace (2 * (3 / 5)) with (6/5) by field. field. apply PI_neq0.
Qed.
Print Assumptions C47_theta0_scaling.
(** L0 given as a list of equal values behaves as that value iff the weights sum to one. *)
Theorem C47_equal_L0_list :
  forall w L, (2 <= length w)%nat -> (forall x, In x w -> 0 < x) -> 0 < L ->
  exists q, parse_L0 w (Lst (repeat (Fin L) (length w))) = Ok (LNum (Fin q), repeat (Fin L) (length w)) /\
    q = L * Rpower (total w) (- 2 / 5) /\ (total w = 1 -> q = L).
Proof.
  intros w L H2 Hw HL.
  assert (EP : parse_L0 w (Lst (repeat (Fin L) (length w))) =
      let l' := firstn (length w) (repeat (Fin L) (length w)) in
      do ps <- mapM (fun x => match x with Fin r => rpow r (5/3) | Inf => Err NonFinite end) l';
      do m <- bmul w ps; do s <- rpow (lsum m) (3/5); do q <- rdiv s (lsum w); Ok (LNum (Fin q), l')).
  { unfold parse_L0. destruct (length w) as [|[|n]]; try lia. reflexivity. }
  rewrite EP. cbv zeta. clear EP.
  rewrite firstn_all2 by (rewrite repeat_length; lia).
  assert (MM : mapM (fun x => match x with Fin r => rpow r (5/3) | Inf => Err NonFinite end) (repeat (Fin L) (length w)) = Ok (repeat (Rpower L (5/3)) (length w))).
  { generalize (length w) as m. induction m; cbn [repeat mapM]; [reflexivity|]. rewrite rpow_pos by exact HL. cbn [bind]. rewrite IHm. reflexivity. }
  rewrite MM. cbn [bind]. unfold bmul. rewrite repeat_length, Nat.eqb_refl. cbn [bind].
  assert (TW : 0 < total w) by (apply total_pos; [destruct w; [cbn in H2; lia|discriminate]|exact Hw]).
  replace (lsum (map (fun q => fst q * snd q) (combine w (repeat (Rpower L (5/3)) (length w))))) with (total w * Rpower L (5/3)).
  2:{ clear. generalize (Rpower L (5/3)) as K. intros K. induction w as [|x w IHw]; cbn [total repeat length combine map lsum fst snd]; [unfold lsum; cbn; ring|]. unfold lsum in *. cbn [fold_right]. rewrite <- IHw. ring. }
  assert (PL := Rpower_pos L (5/3)).
  rewrite rpow_pos by (apply Rmult_lt_0_compat; assumption). cbn [bind]. replace (lsum w) with (total w) by (symmetry; apply lsum_total). rewrite rdiv_ok by lra. cbn [bind].
  eexists. split; [reflexivity|].
  assert (V : Rpower (total w * Rpower L (5 / 3)) (3 / 5) / total w = L * Rpower (total w) (- 2 / 5)).
  { rewrite Rpower_scale, Rpower_mult by assumption. replace (5 / 3 * (3 / 5)) with 1 by field. rewrite Rpower_1 by exact HL.
    replace (Rpower (total w) (3/5)) with (total w * Rpower (total w) (- 2 / 5)).
    - field. lra.
    - rewrite <- (Rpower_1 (total w)) at 1 by exact TW. rewrite <- Rpower_plus. f_equal. field. }
  split; [exact V|]. intros T. rewrite V, T, Rpower_1_base. ring.
Qed.
Print Assumptions C47_equal_L0_list.
(** A one-element list L0=[x] is kept as a list: every statistic raises TypeError. *)
Theorem C47_single_L0_list_refuted :
  forall sp wvl r0 w h v d x a, atmosphere wvl r0 w h v d (Lst [x]) = Ok a ->
  variance sp a = Err TypeError /\ forall k, 0 < r0 -> spectrum sp a k = Err TypeError.
Proof.
  intros sp wvl r0 w h v d x a. unfold atmosphere. cbn [parse_L0 bind fst snd].
  destruct (mapM _ _); cbn [bind]; [|discriminate]. intros H; apply Ok_inj in H. subst a. split; [reflexivity|].
  intros k Hr. unfold spectrum. cbn [a_r0 a_L0]. rewrite rpow_pos by exact Hr. reflexivity.
Qed.
Print Assumptions C47_single_L0_list_refuted.
Example C47_nonvacuous : exists a m, atmosphere 500 (1/10) [1/4; 3/4] [0; 1000] (Lst [5; 10]) (Scal 0) (Scal (Fin 25)) = Ok a /\
  meanHeight a = Ok m /\ 0 <= m <= 1000 /\ exists t, tau0 a = Ok t /\ 0 < t.
Proof.
  destruct C16_nonvacuous as (V & _). rewrite atmosphere_val by exact V. set (a := mkAtmo _ _ _ _ _ _ _ _).
  destruct (C47_mean_height_between_layers a) as (m & E & (x & Ix & Lx) & (y & Iy & Ly));
   [discriminate|reflexivity|cbn; intros x [ <-|[ <-|[]]]; lra|cbn; intros x [ <-|[ <-|[]]]; lra|cbn; lra|].
  exists a, m. split; [reflexivity|]. split; [exact E|]. split; [cbn in Ix, Iy; destruct Ix as [ <-|[ <-|[]]], Iy as [ <-|[ <-|[]]]; lra|].
  unfold tau0, meanWind, mean53. cbn [a_v a a_w mapM]. rewrite !rpow_pos by lra. cbn [bind bmul length Nat.eqb combine map lsum fst snd].
  assert (P5 := Rpower_pos 5 (5/3)). assert (P10 := Rpower_pos 10 (5/3)).
  rewrite rpow_pos by (cbn; lra). cbn [bind]. set (q := Rpower _ (3/5)). assert (Q : 0 < q) by apply Rpower_pos.
  rewrite rdiv_ok by lra. eexists. split; [reflexivity|]. apply Rdiv_lt_0_compat; [cbn; lra|exact Q].
Qed.
