(** C77: wavefront errors of the anisoplanatism. *)
From Coq Require Import Reals List Arith ZArith Bool Lia Lra Psatz.
From Verif Require Import Base_Py Base_Sum Base_DFT M_Image M_Fourier S_Fourier M_Tools S_Tools M_Freq M_Atmo M_Sensor M_Source M_Model M_Model2 M_Zernike2 M_Aniso L_Tools L_Atmo L_Fourier L_Model L_Model3 P_FocalAniso P_Aniso P_Atmo.
From Coquelicot Require Import Complex.
Import ListNotations.
Open Scope R_scope.

Lemma rsqrt_ok x : 0 <= x -> rsqrt x = Ok (sqrt x).
Proof. intros H. unfold rsqrt. destruct (Rlt_dec x 0); [lra|reflexivity]. Qed.
Lemma hpow_nonneg x e : 0 <= hpow x e.
Proof. unfold hpow. destruct (Req_EM_T x 0); [lra|left; apply exp_pos]. Qed.
Lemma hpow_pos x e : 0 < x -> hpow x e = Rpower x e.
Proof. intros H. unfold hpow. destruct (Req_EM_T x 0); [lra|reflexivity]. Qed.
Lemma hpow_0 e : hpow 0 e = 0.
Proof. unfold hpow. destruct (Req_EM_T 0 0); [reflexivity|congruence]. Qed.
Lemma hpow_mult x y e : 0 <= x -> 0 <= y -> hpow x e * hpow y e = hpow (x * y) e.
Proof.
  intros Hx Hy. destruct (Rle_lt_or_eq_dec _ _ Hx) as [Px|<-]; [|rewrite Rmult_0_l, !hpow_0; ring]. destruct (Rle_lt_or_eq_dec _ _ Hy) as [Py|<-]; [|rewrite Rmult_0_r, !hpow_0; ring].
  rewrite !hpow_pos by (try assumption; now apply Rmult_lt_0_compat). now apply Rpower_mult_distr.
Qed.
(** ** focal anisoplanatism *)
Lemma sq_le_53 t : 0 < t <= 1 -> t ^ 2 <= Rpower t (5 / 3).
Proof.
  intros (P & L). replace (t ^ 2) with (Rpower t 2) by (rewrite <- (Rpower_pow 2 t P); f_equal; cbn; lra). unfold Rpower. assert (ln t <= 0) by (destruct L as [L| ->]; [left; rewrite <- ln_1; now apply ln_increasing|rewrite ln_1; lra]).
  destruct (Rle_lt_or_eq_dec (2 * ln t) (5 / 3 * ln t)) as [Q|Q]; [lra|left; now apply exp_increasing|right; now rewrite Q].
Qed.
(** what one layer of weight w at altitude h contributes (rad^2 at D = r0) *)
Definition focal_value (c2 nrm hl : R) (x : R * R) : R := fst x * (1 / 2 * hpow (snd x / hl) (5 / 3) - c2 * (snd x / hl) ^ 2) / nrm.
Lemma focal_term_ok c2 nrm hl x : 0 < hl -> 0 <= snd x -> focal_term c2 nrm hl x = Ok (focal_value c2 nrm hl x).
Proof.
  intros Hl Hx. unfold focal_term, focal_value. destruct (Rlt_dec 0 (snd x)) as [P|P].
  - rewrite rdiv_ok by lra. cbn [bind]. assert (T : 0 < snd x / hl) by (apply Rdiv_lt_0_compat; lra). rewrite rpow_hpow by lra. cbn [bind]. do 2 f_equal. f_equal. lra.
  - assert (E : snd x = 0) by lra. rewrite E. replace (0 / hl) with 0 by (field; lra). rewrite hpow_0. f_equal. unfold Rdiv. ring.
Qed.
Lemma focal_value_nonneg c2 nrm hl x : 0 < hl -> 0 < nrm -> c2 <= 1 / 2 -> 0 <= snd x <= hl -> 0 <= fst x -> 0 <= focal_value c2 nrm hl x.
Proof.
  intros Hl Hn Hc Hx Hw. unfold focal_value. apply Rmult_le_pos; [|left; now apply Rinv_0_lt_compat]. apply Rmult_le_pos; [exact Hw|]. destruct (Rle_lt_or_eq_dec 0 (snd x)) as [P|<-]; [lra| |unfold Rdiv; rewrite Rmult_0_l, hpow_0; lra].
  assert (T : 0 < snd x / hl) by (apply Rdiv_lt_0_compat; lra). assert (T1 : snd x / hl <= 1) by (apply (Rmult_le_reg_r hl); [lra|]; unfold Rdiv; rewrite Rmult_assoc, Rinv_l; lra). rewrite hpow_pos by exact T. assert (Q := sq_le_53 _ (conj T T1)). pose proof (pow2_ge_0 (snd x / hl)). nra.
Qed.
Lemma focal_wfe_val c2 nrm D hl a : 0 < D -> 0 < a_r0 a -> 0 < hl -> 0 < nrm -> c2 <= 1 / 2 -> (forall x, In x (combine (a_w a) (a_h a)) -> 0 <= fst x /\ 0 <= snd x <= hl) ->
  0 <= lsum (map (focal_value c2 nrm hl) (combine (a_w a) (a_h a))) /\
  focal_wfe c2 nrm D hl a = Ok (sqrt (lsum (map (focal_value c2 nrm hl) (combine (a_w a) (a_h a))) * Rpower (D / a_r0 a) (5 / 3)) * (a_wvl a * 10 ^ 9 / 2 / PI)).
Proof.
  intros HD Hr Hl Hn Hc Hx. assert (N : 0 <= lsum (map (focal_value c2 nrm hl) (combine (a_w a) (a_h a)))). { apply lsum_nonneg. intros y Hy. apply in_map_iff in Hy. destruct Hy as (x & <- & Hi). destruct (Hx x Hi). now apply focal_value_nonneg. }
  split; [exact N|]. unfold focal_wfe. rewrite (mapM_map _ (focal_value c2 nrm hl)) by (intros x Hi; destruct (Hx x Hi) as (_ & ? & _); now apply focal_term_ok). cbn [bind]. rewrite rdiv_ok by lra. cbn [bind]. rewrite rpow_pos by (apply Rdiv_lt_0_compat; lra). cbn [bind]. rewrite rsqrt_ok; [reflexivity|]. apply Rmult_le_pos; [exact N|left; apply exp_pos].
Qed.
(** C77: for layers between the ground and the laser, the error of focal anisoplanatism is
    defined and equal to the square root of (D/r0)^(5/3) times the weighted sum of
    (0.5 t^(5/3) - 0.452 t^2)/0.423, t = altitude / laser altitude, never negative under the
    root, in nanometres; layers on the ground do not count. *)
Theorem C77_focal_error : forall D hl a, 0 < D -> 0 < a_r0 a -> 0 < hl -> (forall x, In x (combine (a_w a) (a_h a)) -> 0 <= fst x /\ 0 <= snd x <= hl) ->
  let S := lsum (map (fun x => fst x * (1 / 2 * hpow (snd x / hl) (5 / 3) - 452 / 1000 * (snd x / hl) ^ 2) / (423 / 1000)) (combine (a_w a) (a_h a))) in
  0 <= S /\ focal_anisoplanatism_wfe D hl a = Ok (sqrt (S * Rpower (D / a_r0 a) (5 / 3)) * (a_wvl a * 10 ^ 9 / 2 / PI)) /\
  ((forall x, In x (combine (a_w a) (a_h a)) -> snd x = 0) -> focal_anisoplanatism_wfe D hl a = Ok 0).
Proof.
  intros D hl a HD Hr Hl Hx S. destruct (focal_wfe_val (452 / 1000) (423 / 1000) D hl a HD Hr Hl) as (N & E); [lra|lra|exact Hx|]. split; [exact N|]. split; [exact E|]. intros Z. unfold focal_anisoplanatism_wfe. rewrite E. f_equal. assert (Z0 : lsum (map (focal_value (452 / 1000) (423 / 1000) hl) (combine (a_w a) (a_h a))) = 0).
  { clear E N S Hx. induction (combine (a_w a) (a_h a)) as [|x r IH]; [reflexivity|]. cbn [map]. unfold lsum in *. cbn [fold_right]. rewrite IH by (intros y Hy; apply Z; now right). unfold focal_value. rewrite (Z x (or_introl eq_refl)). unfold Rdiv. rewrite Rmult_0_l, hpow_0. ring. }
  rewrite Z0, Rmult_0_l, sqrt_0. ring.
Qed.
Print Assumptions C77_focal_error.
(** C77: a larger telescope sees a larger error, a larger r0 a smaller one. *)
Theorem C77_focal_monotone : forall D D' hl a v v', 0 < D <= D' -> 0 < a_r0 a -> 0 < hl -> 0 <= a_wvl a -> (forall x, In x (combine (a_w a) (a_h a)) -> 0 <= fst x /\ 0 <= snd x <= hl) ->
  focal_anisoplanatism_wfe D hl a = Ok v -> focal_anisoplanatism_wfe D' hl a = Ok v' -> 0 <= v <= v'.
Proof.
  intros D D' hl a v v' (HD & HL) Hr Hl Hw Hx E E'. destruct (focal_wfe_val (452 / 1000) (423 / 1000) D hl a HD Hr Hl) as (N & V); [lra|lra|exact Hx|]. destruct (focal_wfe_val (452 / 1000) (423 / 1000) D' hl a) as (_ & V'); [lra|lra|lra|lra|lra|exact Hx|]. unfold focal_anisoplanatism_wfe in *. rewrite V in E. rewrite V' in E'. injection E as <-. injection E' as <-.
  assert (K : 0 <= a_wvl a * 10 ^ 9 / 2 / PI) by (pose proof PI_RGT_0; repeat apply Rmult_le_pos; try lra; left; now apply Rinv_0_lt_compat). split; [apply Rmult_le_pos; [apply sqrt_pos|exact K]|]. apply Rmult_le_compat_r; [exact K|]. apply sqrt_le_1_alt. apply Rmult_le_compat_l; [exact N|]. assert (D / a_r0 a <= D' / a_r0 a) by (apply Rmult_le_compat_r; [left; now apply Rinv_0_lt_compat|exact HL]). apply Rle_Rpower_l; [lra|]. split; [apply Rdiv_lt_0_compat; lra|assumption].
Qed.
Print Assumptions C77_focal_monotone.
(** C77, refuted: the two functions documented as the focal anisoplanatism error in nm do
    not agree: the one used by the error budget is strictly smaller as soon as a layer of
    positive weight is above the ground. *)
Theorem C77_two_formulas_refuted : forall D hl a, 0 < D -> 0 < a_r0 a -> 0 < hl -> 0 < a_wvl a -> (forall x, In x (combine (a_w a) (a_h a)) -> 0 <= fst x /\ 0 <= snd x <= hl) -> (exists x, In x (combine (a_w a) (a_h a)) /\ 0 < fst x /\ 0 < snd x) ->
  exists v w, focal_anisoplanatism_wfe D hl a = Ok v /\ focal_anisoplanatism_variance D hl a = Ok w /\ 0 <= w < v.
Proof.
  intros D hl a HD Hr Hl Hw Hx (x0 & Hi0 & W0 & H0). destruct (focal_wfe_val (452 / 1000) (423 / 1000) D hl a HD Hr Hl) as (N & V); [lra|lra|exact Hx|]. destruct (focal_wfe_val (425 / 1000) 1 D hl a HD Hr Hl) as (N' & V'); [lra|lra|exact Hx|]. do 2 eexists. split; [exact V|]. split; [exact V'|].
  assert (K : 0 < a_wvl a * 10 ^ 9 / 2 / PI) by (pose proof PI_RGT_0; repeat apply Rmult_lt_0_compat; try lra; now apply Rinv_0_lt_compat). split; [apply Rmult_le_pos; [apply sqrt_pos|lra]|]. apply Rmult_lt_compat_r; [exact K|]. apply sqrt_lt_1_alt. split; [apply Rmult_le_pos; [exact N'|left; apply exp_pos]|]. apply Rmult_lt_compat_r; [apply exp_pos|]. clear V V' N N' K.
  assert (T : forall x, 0 <= fst x -> 0 <= snd x <= hl -> focal_value (425 / 1000) 1 hl x <= focal_value (452 / 1000) (423 / 1000) hl x /\ (0 < fst x -> 0 < snd x -> focal_value (425 / 1000) 1 hl x < focal_value (452 / 1000) (423 / 1000) hl x)).
  { intros (w, h) Pw Ph. cbn [fst snd] in *. unfold focal_value. cbn [fst snd]. destruct (Rle_lt_or_eq_dec 0 h) as [P|<-]; [lra| |split; [unfold Rdiv; rewrite Rmult_0_l, hpow_0; lra|lra]].
    assert (T : 0 < h / hl) by (apply Rdiv_lt_0_compat; lra). assert (T1 : h / hl <= 1) by (apply (Rmult_le_reg_r hl); [lra|]; unfold Rdiv; rewrite Rmult_assoc, Rinv_l; lra). rewrite hpow_pos by exact T. assert (Q := sq_le_53 _ (conj T T1)). assert (Pp : 0 < Rpower (h / hl) (5 / 3)) by apply exp_pos. set (p := Rpower (h / hl) (5 / 3)) in *. set (q := (h / hl) ^ 2) in *.
    replace (w * (1 / 2 * p - 425 / 1000 * q) / 1) with (w * (1 / 2 * p - 425 / 1000 * q)) by field. replace (w * (1 / 2 * p - 452 / 1000 * q) / (423 / 1000)) with (w * ((1 / 2 * p - 452 / 1000 * q) / (423 / 1000))) by (field). assert (I : 1 / 2 * p - 425 / 1000 * q < (1 / 2 * p - 452 / 1000 * q) / (423 / 1000)) by lra. split; [apply Rmult_le_compat_l; lra|intros Pw' _; now apply Rmult_lt_compat_l]. }
  revert Hi0 Hx. generalize (combine (a_w a) (a_h a)) as l. intros l Hi0 Hx. assert (LE : forall l, (forall x, In x l -> 0 <= fst x /\ 0 <= snd x <= hl) -> lsum (map (focal_value (425 / 1000) 1 hl) l) <= lsum (map (focal_value (452 / 1000) (423 / 1000) hl) l)).
  { clear - T. induction l as [|x r IH]; intros H; [cbn; lra|]. cbn [map]. unfold lsum in *. cbn [fold_right]. destruct (H x (or_introl eq_refl)) as (A & B). destruct (T x A B) as (L & _). assert (I := IH (fun y Hy => H y (or_intror Hy))). lra. }
  induction l as [|x r IH]; [destruct Hi0|]. cbn [map]. unfold lsum in *. cbn [fold_right]. destruct (Hx x (or_introl eq_refl)) as (A & B). destruct (T x A B) as (L & St). destruct Hi0 as [ ->|Hi0].
  - assert (I := LE r (fun y Hy => Hx y (or_intror Hy))). specialize (St W0 H0). lra.
  - assert (I := IH Hi0 (fun y Hy => Hx y (or_intror Hy))). lra.
Qed.
Print Assumptions C77_two_formulas_refuted.
(** ** anisokinetism (Sasiela) *)
Definition sas_poly (cs : list R) (u : R) : R := lsum (map (fun ce => fst ce * hpow u (snd ce)) (combine cs sas_e)).
Definition sas_x : list R := map (fun p => fst p * snd p) (combine sas_c sas_m).
Lemma Rpower_nat_mult u a (k : nat) : Rpower u (a * INR k) = Rpower u a ^ k.
Proof. rewrite <- Rpower_mult, Rpower_pow; [reflexivity|apply exp_pos]. Qed.
Lemma sas_pows u : 0 < u -> let s := Rpower u (2 / 3) in hpow u 2 = s ^ 3 /\ hpow u 4 = s ^ 6 /\ hpow u (14 / 3) = s ^ 7 /\ hpow u 6 = s ^ 9 /\ hpow u (20 / 3) = s ^ 10.
Proof.
  intros H s. rewrite !hpow_pos by exact H. unfold s. rewrite <- !Rpower_nat_mult. repeat split; f_equal; cbn [INR]; lra.
Qed.
Lemma sas_poly_nonneg u : 0 <= u -> 0 <= sas_poly sas_x u /\ 0 <= sas_poly sas_c u.
Proof.
  intros Hu. destruct (Rle_lt_or_eq_dec _ _ Hu) as [P|<-].
  - destruct (sas_pows u P) as (E1 & E2 & E3 & E4 & E5). set (s := Rpower u (2 / 3)) in *. assert (S0 : 0 < s) by apply exp_pos. unfold sas_poly, sas_x, sas_c, sas_m, sas_e, lsum. cbn [combine map fold_right fst snd]. rewrite E1, E2, E3, E4, E5.
    assert (P3 : 0 < s ^ 3) by now apply pow_lt. assert (P6 : 0 <= s ^ 6) by (left; now apply pow_lt). assert (P7 : 0 <= s ^ 7) by (left; now apply pow_lt). assert (P9 : 0 <= s ^ 9) by (left; now apply pow_lt). assert (P10 : 0 <= s ^ 10) by (left; now apply pow_lt).
    assert (Q1 : 0 <= 801 / 100 - 184 / 10 * s ^ 3 + 133 / 10 * s ^ 4). { pose proof (pow2_ge_0 (s ^ 2 - 184 / 266 * s - 1 / 2)). pose proof (pow2_ge_0 (s - 66 / 100)). nra. }
    assert (Q2 : 0 <= 267 / 100 - 368 / 100 * s ^ 3 + 235 / 100 * s ^ 4). { pose proof (pow2_ge_0 (s ^ 2 - 368 / 470 * s - 1 / 2)). pose proof (pow2_ge_0 (s - 1)). nra. }
    assert (M1 := Rmult_le_pos _ _ (Rlt_le _ _ P3) Q1). assert (M2 := Rmult_le_pos _ _ (Rlt_le _ _ P3) Q2). replace (s ^ 3 * (801 / 100 - 184 / 10 * s ^ 3 + 133 / 10 * s ^ 4)) with (801 / 100 * s ^ 3 - 184 / 10 * s ^ 6 + 133 / 10 * s ^ 7) in M1 by ring. replace (s ^ 3 * (267 / 100 - 368 / 100 * s ^ 3 + 235 / 100 * s ^ 4)) with (267 / 100 * s ^ 3 - 368 / 100 * s ^ 6 + 235 / 100 * s ^ 7) in M2 by ring. split; lra.
  - unfold sas_poly, lsum. split; unfold sas_x, sas_c, sas_m, sas_e; cbn [combine map fold_right fst snd]; rewrite !hpow_0; lra.
Qed.
Lemma lsum_map_scal {A} (f : A -> R) c l : lsum (map (fun x => c * f x) l) = c * lsum (map f l).
Proof. unfold lsum. induction l as [|x l IH]; cbn [map fold_right]; [ring|]. rewrite IH. ring. Qed.
Lemma lsum_map_plus {A} (f g : A -> R) l : lsum (map (fun x => f x + g x) l) = lsum (map f l) + lsum (map g l).
Proof. unfold lsum. induction l as [|x l IH]; cbn [map fold_right]; [ring|]. rewrite IH. ring. Qed.
Definition layers_of (a : atmo) : list (R * R) := combine (a_w a) (a_h a).
Lemma sas_term_val a D r53 th e : 0 < D -> 0 <= th -> 0 < e -> length (a_w a) = length (a_h a) -> (forall z, In z (a_h a) -> 0 <= z) ->
  sas_term a D r53 th e = Ok (r53 / Rpower D (1 / 3) * lsum (map (fun x => fst x * hpow (snd x * (th / D)) e) (layers_of a))).
Proof.
  intros HD Ht He HL Hz. unfold sas_term. rewrite mapM_rpow by assumption. cbn [bind]. unfold bmul. rewrite !map_length, HL, Nat.eqb_refl. cbn [bind]. rewrite rpow_pos by exact HD. cbn [bind]. rewrite rdiv_ok by (apply Rgt_not_eq, exp_pos). cbn [bind]. rewrite rdiv_ok by lra. cbn [bind].
  assert (T : 0 <= th / D) by (apply Rmult_le_pos; [exact Ht|left; now apply Rinv_0_lt_compat]). rewrite rpow_hpow by assumption. cbn [bind]. f_equal.
  assert (E : lsum (map (fun p => fst p * snd p) (combine (map (fun w => r53 * w) (a_w a)) (map (fun h => hpow h e) (a_h a)))) * hpow (th / D) e = r53 * lsum (map (fun x => fst x * hpow (snd x * (th / D)) e) (layers_of a))).
  { unfold layers_of. revert Hz HL. generalize (a_h a) as hs. induction (a_w a) as [|w ws IH]; intros [|h hs] Hz HL; cbn in HL; try discriminate; [cbn; ring|]. cbn [map combine]. unfold lsum in *. cbn [fold_right fst snd map]. rewrite Rmult_plus_distr_r, IH by (try (intros z Hi; apply Hz; now right); lia). rewrite <- (hpow_mult h (th / D) e) by (try assumption; apply Hz; now left). ring. }
  unfold Rdiv in *. transitivity (lsum (map (fun p => fst p * snd p) (combine (map (fun w => r53 * w) (a_w a)) (map (fun h => hpow h e) (a_h a)))) * hpow (th * / D) e * / Rpower D (1 * / 3)); [ring|]. rewrite E. ring.
Qed.
Lemma sas_var_val a D r53 th cs : 0 < D -> 0 <= th -> length (a_w a) = length (a_h a) -> (forall z, In z (a_h a) -> 0 <= z) ->
  sas_var a D r53 th cs = Ok (r53 / Rpower D (1 / 3) * lsum (map (fun x => fst x * sas_poly cs (snd x * (th / D))) (layers_of a))).
Proof.
  intros HD Ht HL Hz. unfold sas_var. rewrite (mapM_map _ (fun ce => fst ce * (r53 / Rpower D (1 / 3) * lsum (map (fun x => fst x * hpow (snd x * (th / D)) (snd ce)) (layers_of a))))).
  - cbn [bind]. f_equal. unfold sas_poly. induction (combine cs sas_e) as [|ce l IH]; [cbn [map]; unfold lsum at 1; cbn [fold_right]; rewrite (map_ext _ (fun x => 0 * fst x)) by (intros x; unfold lsum; cbn; ring); rewrite lsum_map_scal; ring|].
    cbn [map]. unfold lsum at 1. cbn [fold_right]. fold (lsum (map (fun ce => fst ce * (r53 / Rpower D (1 / 3) * lsum (map (fun x => fst x * hpow (snd x * (th / D)) (snd ce)) (layers_of a)))) l)). rewrite IH.
    rewrite (map_ext (fun x => fst x * lsum (fst ce * hpow (snd x * (th / D)) (snd ce) :: map (fun ce0 => fst ce0 * hpow (snd x * (th / D)) (snd ce0)) l)) (fun x => fst ce * (fst x * hpow (snd x * (th / D)) (snd ce)) + fst x * lsum (map (fun ce0 => fst ce0 * hpow (snd x * (th / D)) (snd ce0)) l))) by (intros x; unfold lsum; cbn [fold_right]; ring).
    rewrite lsum_map_plus, lsum_map_scal. ring.
  - intros (c, e) Hi. cbn [fst snd]. assert (He : 0 < e). { apply in_combine_r in Hi. unfold sas_e in Hi. repeat destruct Hi as [ <-|Hi]; try lra. destruct Hi. } rewrite sas_term_val by assumption. reflexivity.
Qed.
(** C77: with the formula of Sasiela, the anisokinetism error is defined for every profile
    above the ground, every direction of the source and of the guide star: the polynomial
    under the root is never negative, layer by layer. It vanishes for coincident directions
    and does not depend on which star is the guide star. *)
Theorem C77_anisokinetism : forall jn2 j0 j1 quad gam ls L0 D a src ngs, 0 < D -> 0 < a_r0 a -> length (a_w a) = length (a_h a) -> (forall z, In z (a_h a) -> 0 <= z) -> (forall w, In w (a_w a) -> 0 <= w) ->
  exists S, 0 <= S /\ anisokinetism_wfe jn2 j0 j1 quad gam ls L0 D a src ngs Sasiela = Ok (sqrt S * a_wvl a * 10 ^ 9 / 2 / PI) /\
    S = Rpower (a_r0 a) (-5 / 3) / Rpower D (1 / 3) * lsum (map (fun x => fst x * (sas_poly sas_x (snd x * Rabs (fst src - fst ngs) / D) + sas_poly sas_c (snd x * Rabs (snd src - snd ngs) / D))) (layers_of a)) /\
    (src = ngs -> S = 0) /\
    anisokinetism_wfe jn2 j0 j1 quad gam ls L0 D a ngs src Sasiela = anisokinetism_wfe jn2 j0 j1 quad gam ls L0 D a src ngs Sasiela.
Proof.
  intros jn2 j0 j1 quad gam ls L0 D a src ngs HD Hr HL Hz Hw. eexists.
  assert (K : 0 < Rpower (a_r0 a) (-5 / 3) / Rpower D (1 / 3)) by (apply Rdiv_lt_0_compat; apply exp_pos).
  assert (E : sas_var a D (Rpower (a_r0 a) (-5 / 3)) (Rabs (fst src - fst ngs)) sas_x = Ok (Rpower (a_r0 a) (-5 / 3) / Rpower D (1 / 3) * lsum (map (fun x => fst x * sas_poly sas_x (snd x * Rabs (fst src - fst ngs) / D)) (layers_of a)))). { rewrite sas_var_val by (try assumption; apply Rabs_pos). do 3 f_equal. apply map_ext. intros x. do 2 f_equal. unfold Rdiv. ring. }
  assert (E' : sas_var a D (Rpower (a_r0 a) (-5 / 3)) (Rabs (snd src - snd ngs)) sas_c = Ok (Rpower (a_r0 a) (-5 / 3) / Rpower D (1 / 3) * lsum (map (fun x => fst x * sas_poly sas_c (snd x * Rabs (snd src - snd ngs) / D)) (layers_of a)))). { rewrite sas_var_val by (try assumption; apply Rabs_pos). do 3 f_equal. apply map_ext. intros x. do 2 f_equal. unfold Rdiv. ring. }
  set (S := Rpower (a_r0 a) (-5 / 3) / Rpower D (1 / 3) * lsum (map (fun x => fst x * (sas_poly sas_x (snd x * Rabs (fst src - fst ngs) / D) + sas_poly sas_c (snd x * Rabs (snd src - snd ngs) / D))) (layers_of a))).
  assert (S0 : 0 <= S). { unfold S. apply Rmult_le_pos; [lra|]. apply lsum_nonneg. intros y Hy. apply in_map_iff in Hy. destruct Hy as ((w, h) & <- & Hi). unfold layers_of in Hi. assert (Hi1 := in_combine_l _ _ _ _ Hi). assert (Hi2 := in_combine_r _ _ _ _ Hi). cbn [fst snd]. specialize (Hw w Hi1). specialize (Hz h Hi2).
    assert (U : forall t, 0 <= h * Rabs t / D) by (intros t; apply Rmult_le_pos; [apply Rmult_le_pos; [exact Hz|apply Rabs_pos]|left; now apply Rinv_0_lt_compat]). destruct (sas_poly_nonneg _ (U (fst src - fst ngs))). destruct (sas_poly_nonneg _ (U (snd src - snd ngs))). apply Rmult_le_pos; lra. }
  split; [exact S0|]. split; [|split; [reflexivity|split]].
  - unfold anisokinetism_wfe. rewrite rpow_pos by exact Hr. cbn [bind]. fold sas_x. rewrite E. cbn [bind]. rewrite E'. cbn [bind]. rewrite <- Rmult_plus_distr_l, <- lsum_map_plus. rewrite (map_ext _ (fun x => fst x * (sas_poly sas_x (snd x * Rabs (fst src - fst ngs) / D) + sas_poly sas_c (snd x * Rabs (snd src - snd ngs) / D)))) by (intros x; ring). fold S. rewrite rsqrt_ok by exact S0. reflexivity.
  - intros ->. unfold S. rewrite !Rminus_diag_eq by reflexivity. rewrite Rabs_R0. rewrite (map_ext _ (fun x => 0 * fst x)); [rewrite lsum_map_scal; ring|]. intros x. unfold Rdiv. rewrite Rmult_0_r, Rmult_0_l. unfold sas_poly, lsum, sas_x, sas_c, sas_m, sas_e. cbn [combine map fold_right fst snd]. rewrite !hpow_0. ring.
  - unfold anisokinetism_wfe. rewrite (Rabs_minus_sym (fst ngs)), (Rabs_minus_sym (snd ngs)). reflexivity.
Qed.
Print Assumptions C77_anisokinetism.
(** C77, refuted: a phase error does not depend on the unit of length. Multiplying the
    diameter, r0 and the altitudes by the same factor (directions and wavelength unchanged)
    must leave it unchanged; with the formula of Sasiela the code divides it by the factor
    (D^(-1/3) instead of D^(5/3)). *)
Definition scale_atmo (k : R) (a : atmo) : atmo := mkAtmo (a_wvl a) (k * a_r0 a) (a_w a) (map (fun h => k * h) (a_h a)) (a_v a) (a_d a) (a_L0 a) (a_layers a).
Theorem C77_units_refuted : forall jn2 j0 j1 quad gam ls L0 D a src ngs k, 0 < k -> 0 < D -> 0 < a_r0 a -> length (a_w a) = length (a_h a) -> (forall z, In z (a_h a) -> 0 <= z) -> (forall w, In w (a_w a) -> 0 <= w) ->
  exists v, anisokinetism_wfe jn2 j0 j1 quad gam ls L0 D a src ngs Sasiela = Ok v /\ anisokinetism_wfe jn2 j0 j1 quad gam ls L0 (k * D) (scale_atmo k a) src ngs Sasiela = Ok (v / k).
Proof.
  intros jn2 j0 j1 quad gam ls L0 D a src ngs k Hk HD Hr HL Hz Hw. destruct (C77_anisokinetism jn2 j0 j1 quad gam ls L0 D a src ngs HD Hr HL Hz Hw) as (S & S0 & E & ES & _).
  destruct (C77_anisokinetism jn2 j0 j1 quad gam ls L0 (k * D) (scale_atmo k a) src ngs) as (S' & S0' & E' & ES' & _); [now apply Rmult_lt_0_compat|cbn; now apply Rmult_lt_0_compat|cbn; now rewrite map_length|cbn; intros z Hi; apply in_map_iff in Hi; destruct Hi as (h & <- & Hi); apply Rmult_le_pos; [lra|now apply Hz]|exact Hw|].
  eexists. split; [exact E|]. rewrite E'. f_equal. cbn [a_wvl scale_atmo].
  assert (Q : S' = S / k ^ 2).
  { rewrite ES', ES. cbn [a_r0 scale_atmo]. rewrite <- !Rpower_mult_distr by assumption. unfold layers_of. cbn [a_w a_h scale_atmo].
    assert (M : map (fun x => fst x * (sas_poly sas_x (snd x * Rabs (fst src - fst ngs) / (k * D)) + sas_poly sas_c (snd x * Rabs (snd src - snd ngs) / (k * D)))) (combine (a_w a) (map (fun h => k * h) (a_h a))) = map (fun x => fst x * (sas_poly sas_x (snd x * Rabs (fst src - fst ngs) / D) + sas_poly sas_c (snd x * Rabs (snd src - snd ngs) / D))) (combine (a_w a) (a_h a))).
    { clear - Hk HD. generalize (a_h a). induction (a_w a) as [|w ws IH]; intros [|h hs]; try reflexivity. cbn [map combine]. rewrite IH. f_equal. cbn [fst snd]. f_equal. f_equal; f_equal; field; lra. }
    rewrite M. assert (Kp : Rpower k (-5 / 3) / Rpower k (1 / 3) = / k ^ 2). { unfold Rdiv at 1. rewrite <- Rpower_Ropp, <- Rpower_plus. replace (-5 / 3 + - (1 / 3)) with (- (INR 2)) by (cbn [INR]; lra). rewrite Rpower_Ropp, Rpower_pow by exact Hk. reflexivity. }
    assert (0 < Rpower k (1 / 3)) by apply exp_pos. assert (0 < Rpower D (1 / 3)) by apply exp_pos. match goal with |- _ = ?x / k ^ 2 => replace (x / k ^ 2) with (x * (Rpower k (-5 / 3) / Rpower k (1 / 3))) by (rewrite Kp; reflexivity) end. field. split; lra. }
  rewrite Q. rewrite sqrt_div_alt by (apply pow_lt, Hk). rewrite sqrt_pow2 by lra. pose proof PI_RGT_0. field. split; lra.
Qed.
Print Assumptions C77_units_refuted.
Theorem C77_unknown_method : forall jn2 j0 j1 quad gam ls L0 D a src ngs, anisokinetism_wfe jn2 j0 j1 quad gam ls L0 D a src ngs OtherMethod = Err ValueError.
Proof. reflexivity. Qed.
Print Assumptions C77_unknown_method.

(** ** angular anisoplanatism error *)
Lemma trapz_nonneg n x f : (forall k, (S k < n)%nat -> x k <= x (S k)) -> (forall k, (k < n)%nat -> 0 <= f k) -> 0 <= trapz n x f.
Proof.
  intros Hx Hf. unfold trapz. apply rsum_nonneg. intros k Hk. assert (x k <= x (S k)) by (apply Hx; lia). assert (0 <= f k) by (apply Hf; lia). assert (0 <= f (S k)) by (apply Hf; lia). apply Rmult_le_pos; [apply Rmult_le_pos; lra|lra].
Qed.
Lemma trapz_zero n x : trapz n x (fun _ => 0) = 0.
Proof. unfold trapz. apply rsum_zero. intros k _. unfold Rdiv. ring. Qed.
Lemma trapz_ext n x f g : (forall k, f k = g k) -> trapz n x f = trapz n x g.
Proof. intros H. unfold trapz. apply rsum_ext. intros k _. now rewrite !H. Qed.
(** C77: defined for every telescope and every finite outer scale, non-negative, null when
    the source and the guide star coincide or all layers are on the ground, unchanged when
    they are exchanged. *)
Theorem C77_angular_error : forall gam res D am a thx thy L0, 0 < D -> (0 < res)%nat -> 0 <= a_wvl a -> a_L0 a = LNum (Fin L0) -> L0 <> 0 ->
  exists v, anisoplanatism_wfe gam res D am a thx thy = Ok v /\ 0 <= v /\
    ((thx = 0 /\ thy = 0) \/ (forall h, In h (a_h a) -> h = 0) -> v = 0) /\
    anisoplanatism_wfe gam res D am a (- thx) (- thy) = Ok v.
Proof.
  intros gam res D am a thx thy L0 HD Hr Hw HL Hz.
  assert (L2 : 0 < L0 ^ 2) by (destruct (Rle_lt_or_eq_dec _ _ (pow2_ge_0 L0)) as [|E]; [assumption|symmetry in E; exfalso; revert E; apply pow_nonzero, Hz]).
  unfold anisoplanatism_wfe. rewrite rdiv_ok by lra. cbn [bind]. destruct (Nat.eqb_spec (res * 2) 0) as [|Nn]; [lia|]. rewrite HL. set (n := (res * 2)%nat) in *. set (step := 1 / (D * 2)). assert (Sp : 0 < step) by (apply Rdiv_lt_0_compat; lra).
  assert (W : forall i j, exists w, watm gam n step (LNum (Fin L0)) i j = Ok w).
  { intros i j. unfold watm, inv_L0_sq. rewrite rdiv_ok by lra. cbn [bind]. destruct (_ && _)%bool; [eexists; reflexivity|]. rewrite rpow_pos; [cbn [bind]; eexists; reflexivity|]. assert (0 < 1 / L0 ^ 2) by (apply Rdiv_lt_0_compat; lra). pose proof (pow2_ge_0 (freq_y n step eps10 i j)). pose proof (pow2_ge_0 (freq_x n step eps10 i j)). lra. }
  destruct (grid_res_total n _ (fun i j _ _ => W i j)) as (w & Ew). rewrite Ew. cbn [bind]. destruct (grid_res_spec _ _ _ Ew) as (_ & _ & G).
  assert (W0 : forall i j, (i < n)%nat -> (j < n)%nat -> 0 <= grid_at w i j) by (intros i j Hi Hj; exact (watm_nonneg _ _ _ _ _ _ _ (G i j Hi Hj))).
  assert (KX : forall k, freq_y n step eps10 0 k <= freq_y n step eps10 0 (S k)) by (intros k; rewrite !freq_y_val, S_INR; lra).
  set (psd := fun tx ty i j => lsum (map (fun h => if nz (h * am) && (nz tx || nz ty) then shear n step (h * am) tx ty i j * grid_at w i j else 0) (firstn (length (a_w a)) (a_h a)))).
  assert (P0 : 0 <= trapz n (fun j => freq_y n step eps10 0 j) (fun i => trapz n (fun j => freq_y n step eps10 0 j) (psd thx thy i))).
  { apply trapz_nonneg; [intros; apply KX|]. intros i Hi. apply trapz_nonneg; [intros; apply KX|]. intros j Hj. apply lsum_nonneg. intros y Hy. apply in_map_iff in Hy. destruct Hy as (h & <- & _). destruct (_ && _)%bool; [|lra]. apply Rmult_le_pos; [apply shear_bounds|now apply W0]. }
  fold (psd thx thy). fold (psd (- thx) (- thy)). eexists. split; [rewrite rsqrt_ok by exact P0; reflexivity|]. split; [|split].
  - pose proof PI_RGT_0. repeat apply Rmult_le_pos; try lra; try apply sqrt_pos. left. now apply Rinv_0_lt_compat.
  - intros B. match goal with |- sqrt ?x * _ * _ / _ / _ = _ => assert (Z : x = 0) end.
    { assert (Zi : forall i j, psd thx thy i j = 0). { intros i j. unfold psd. assert (F : forall l, (forall h, In h l -> In h (a_h a)) -> lsum (map (fun h => if nz (h * am) && (nz thx || nz thy) then shear n step (h * am) thx thy i j * grid_at w i j else 0) l) = 0).
        { induction l as [|h l IH]; intros Hl; [reflexivity|]. cbn [map]. unfold lsum in *. cbn [fold_right]. rewrite IH by (intros; apply Hl; now right). assert (Bf : (nz (h * am) && (nz thx || nz thy))%bool = false). { unfold nz. destruct B as [( -> & ->)|B]; [destruct (Req_EM_T 0 0); [apply andb_false_r|congruence]|]. rewrite (B h) by (apply Hl; now left). rewrite Rmult_0_l. destruct (Req_EM_T 0 0); [reflexivity|congruence]. } rewrite Bf. ring. }
        apply F. intros h Hh. rewrite <- (firstn_skipn (length (a_w a)) (a_h a)). apply in_or_app. now left. }
      rewrite (trapz_ext n _ _ (fun _ => 0)); [apply trapz_zero|]. intros i. rewrite (trapz_ext n _ _ (fun _ => 0)); [apply trapz_zero|]. intros j. apply Zi. }
    rewrite Z, sqrt_0. unfold Rdiv. ring.
  - assert (Eq : forall i j, psd (- thx) (- thy) i j = psd thx thy i j). { intros i j. unfold psd. f_equal. apply map_ext. intros h. assert (Zn : forall x, nz (- x) = nz x) by (intros x; unfold nz; destruct (Req_EM_T (- x) 0), (Req_EM_T x 0); try reflexivity; lra). rewrite !Zn. destruct (_ && _)%bool; [|reflexivity]. f_equal. unfold shear. f_equal. f_equal. rewrite <- cos_neg. f_equal. ring. }
    match goal with |- context [rsqrt ?x] => assert (Ex : x = trapz n (fun j => freq_y n step eps10 0 j) (fun i => trapz n (fun j => freq_y n step eps10 0 j) (psd thx thy i))) end. { apply trapz_ext. intros i. apply trapz_ext. intros j. apply Eq. }
    rewrite Ex, rsqrt_ok by exact P0. reflexivity.
Qed.
Print Assumptions C77_angular_error.
(** C77, refuted: this error ignores the strength of the layers and r0: any weights and any
    r0 give the same value. *)
Theorem C77_weights_ignored_refuted : forall gam res D am a r0' w' thx thy, length w' = length (a_w a) ->
  anisoplanatism_wfe gam res D am (mkAtmo (a_wvl a) r0' w' (a_h a) (a_v a) (a_d a) (a_L0 a) (a_layers a)) thx thy = anisoplanatism_wfe gam res D am a thx thy.
Proof. intros gam res D am a r0' w' thx thy H. unfold anisoplanatism_wfe. cbn [a_w a_h a_L0 a_wvl]. rewrite H. reflexivity. Qed.
Print Assumptions C77_weights_ignored_refuted.
(** ** tip-tilt kernel *)
(** C77, refuted: with the tip and tilt modes X(i,j) = x(j), Y(i,j) = x(i) the cross terms of
    the quadratic form are lost (X * transpose(Y) is X^2): the kernel is
    (c00 + c01) X^2 + (c11 + c10) Y^2, which can be negative for a definite covariance. *)
Theorem C77_cross_term_refuted : forall x c fr0 i j, fr0 <> 0 ->
  tt_kernel (fun i j => x j) (fun i j => x i) c fr0 i j = Ok (((fst (fst c) + snd (fst c)) * x j ^ 2 + (snd (snd c) + fst (snd c)) * x i ^ 2) / fr0).
Proof. intros x c fr0 i j H. unfold tt_kernel. rewrite rdiv_ok by exact H. f_equal. f_equal. ring. Qed.
Print Assumptions C77_cross_term_refuted.
Theorem C77_kernel_negative_refuted : exists (x : nat -> R) c i j v, fst (snd c) = snd (fst c) /\ 0 < fst (fst c) /\ 0 < fst (fst c) * snd (snd c) - snd (fst c) * fst (snd c) /\
  tt_kernel (fun i j => x j) (fun i j => x i) c 1 i j = Ok v /\ v < 0.
Proof.
  exists (fun k => INR k), ((1, -3 / 2), (-3 / 2, 4)), 0%nat, 1%nat, (- (1 / 2)). cbn [fst snd]. split; [reflexivity|]. split; [lra|]. split; [lra|]. split; [|lra]. rewrite C77_cross_term_refuted by lra. cbn [fst snd INR]. f_equal. field.
Qed.
Print Assumptions C77_kernel_negative_refuted.
Definition ex_atmo : atmo := mkAtmo (1/2000000) (1/10) [1/2; 1/2] [0; 5000] (Scal 10) (Scal 0) (LNum (Fin 25)) [].
Example C77_nonvacuous : 0 < a_r0 ex_atmo /\ length (a_w ex_atmo) = length (a_h ex_atmo) /\ (forall x, In x (combine (a_w ex_atmo) (a_h ex_atmo)) -> 0 <= fst x /\ 0 <= snd x <= 90000) /\ (exists x, In x (combine (a_w ex_atmo) (a_h ex_atmo)) /\ 0 < fst x /\ 0 < snd x).
Proof.
  cbn. split; [lra|]. split; [reflexivity|]. split; [intros x [ <-|[ <-|[]]]; cbn; lra|]. exists (1/2, 5000). cbn. split; [now right; left|lra].
Qed.
