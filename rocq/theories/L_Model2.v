(** More lemmas on the Fourier model: sums, chunks, noise gain, static loop. *)
From Coq Require Import Reals List Arith ZArith Lia Lra Psatz String.
From Flocq Require Import Core.Raux.
From Verif Require Import Base_Py Base_Sum M_Tools S_Tools L_Tools L_Tools2 M_Freq L_Freq M_Atmo S_Atmo L_Atmo P_Atmo M_Sensor L_Sensor S_Sensor M_Model S_Model L_Fourier2 L_Model.
From Coquelicot Require Import Complex.
Import ListNotations.
Open Scope R_scope.

Lemma Cplus_assoc' (a b c : C) : Cplus (Cplus a b) c = Cplus a (Cplus b c).
Proof. apply pair_eq; cbn; ring. Qed.
Lemma Cplus_0_r' (a : C) : Cplus a (RtoC 0) = a.
Proof. apply pair_eq; cbn; ring. Qed.
Lemma Cplus_0_l' (a : C) : Cplus (RtoC 0) a = a.
Proof. apply pair_eq; cbn; ring. Qed.
Lemma firstn_skipn_min {A} (l : list A) s c : (s <= length l)%nat -> firstn (Nat.min (s + c) (length l) - s) (skipn s l) = firstn c (skipn s l).
Proof.
  intros H. destruct (Nat.le_gt_cases (s + c) (length l)) as [L|L].
  - rewrite Nat.min_l by lia. f_equal. lia.
  - rewrite Nat.min_r by lia. rewrite <- skipn_length. rewrite firstn_all. rewrite firstn_all2; [reflexivity|]. rewrite skipn_length. lia.
Qed.
Lemma chunk_loop_spec f ls c : (1 <= c)%nat -> forall fuel start acc, (length ls <= start + fuel)%nat ->
  chunk_loop fuel c start f ls acc = Cplus acc (clsum (map f (skipn start ls))).
Proof.
  intros Hc. induction fuel as [|n IH]; intros s acc H; cbn [chunk_loop].
  - rewrite skipn_all2 by lia. cbn. rewrite Cplus_0_r'. reflexivity.
  - destruct (Nat.leb_spec (length ls) s) as [L|L].
    + rewrite skipn_all2 by lia. cbn. rewrite Cplus_0_r'. reflexivity.
    + rewrite firstn_skipn_min by lia. rewrite IH by lia. rewrite Cplus_assoc'. f_equal. rewrite <- clsum_app, <- map_app. do 2 f_equal.
      rewrite <- skipn_twice. apply firstn_skipn.
Qed.
Lemma avr_sum_val k T td tf km kn ls : (1 <= k)%nat -> ls <> [] ->
  avr_sum k T td tf km kn ls = Ok (clsum (map (fun l => Cmult (RtoC (l_w l)) (avr T td tf km kn l)) ls)).
Proof.
  intros Hk Hl. unfold avr_sum. destruct ls as [|a ls]; [congruence|]. cbv zeta. 
  destruct (Nat.eqb_spec (Nat.min k (length (a :: ls))) 0) as [E|_]; [cbn [length] in E; lia|].
  rewrite chunk_loop_spec by (cbn [length]; lia). rewrite Cplus_0_l'. reflexivity.
Qed.

Lemma linspace_mono a b n : a <= b -> forall i k, (i <= k)%nat -> (k < n)%nat ->
  nth i (linspace a b n) 0 <= nth k (linspace a b n) 0.
Proof.
  intros Hab i k H1 H2. unfold linspace.
  set (f := fun i0 => _). rewrite !(nth_indep _ 0 (f 0%nat)) by (rewrite map_length, seq_length; lia).
  rewrite !(map_nth f), !seq_nth by lia. cbn [plus]. unfold f. destruct (n =? 1)%nat eqn:E; [lra|]. apply Nat.eqb_neq in E.
  assert (P : 0 <= (b - a) / INR (n - 1)). { apply Rmult_le_pos; [lra|]. left. apply Rinv_0_lt_compat. apply lt_0_INR. lia. }
  apply Rplus_le_compat_l. apply Rmult_le_compat_r; [exact P|]. apply le_INR. exact H1.
Qed.
Fixpoint nondecreasing (l : list R) : Prop :=
  match l with x :: ((w :: _) as l') => x <= w /\ nondecreasing l' | _ => True end.
Lemma nondec_nth l : (forall i, (S i < length l)%nat -> nth i l 0 <= nth (S i) l 0) -> nondecreasing l.
Proof.
  induction l as [|x [|w l] IH]; intros H; cbn; [exact I|exact I|]. split.
  - apply (H 0%nat). cbn. lia.
  - apply IH. intros i Hi. apply (H (S i)). cbn in *. lia.
Qed.
Lemma trapz_nonneg v : forall f, (forall x, In x v -> 0 <= x) -> nondecreasing f -> 0 <= trapz v f.
Proof.
  induction v as [|a [|b v] IH]; intros f Hv Hf; [cbn; lra|cbn; lra|]. destruct f as [|x [|w f]]; [cbn; lra|cbn; lra|].
  change (trapz (a :: b :: v) (x :: w :: f)) with ((w - x) * (a + b) / 2 + trapz (b :: v) (w :: f)). destruct Hf as (H1 & H2).
  assert (A := Hv a (or_introl eq_refl)). assert (B := Hv b (or_intror (or_introl eq_refl))).
  assert (T := IH (w :: f) ltac:(intros; apply Hv; right; assumption) H2). assert (0 <= (w - x) * (a + b)) by (apply Rmult_le_pos; lra). lra.
Qed.
Lemma tfreqs_nondec rate n : / 500 <= rate -> nondecreasing (tfreqs rate n).
Proof.
  intros Hr. assert (L10 : 0 < ln 10). { rewrite <- ln_1. apply ln_increasing; lra. }
  assert (HB : - 3 <= ln (/ 2 * rate) / ln 10).
  { apply (Rmult_le_reg_r (ln 10)); [exact L10|]. unfold Rdiv. rewrite Rmult_assoc, Rinv_l by lra. rewrite Rmult_1_r.
    replace (- 3 * ln 10) with (ln (/ 10 ^ 3)); [destruct (Req_dec (/ 10 ^ 3) (/ 2 * rate)) as [EE|EE]; [rewrite EE; lra|left; apply ln_increasing; lra]|]. rewrite ln_Rinv by lra. rewrite ln_pow by lra. cbn [INR]. ring. }
  apply nondec_nth. unfold tfreqs. intros i Hi. rewrite map_length in Hi.
  set (g := fun x => Rpower 10 x). rewrite !(nth_indep _ 0 (g 0)) by (rewrite map_length; lia). rewrite !map_nth. unfold g.
  apply Rle_Rpower; [lra|]. assert (LL : length (linspace (-3) (ln (/ 2 * rate) / ln 10) n) = n) by (unfold linspace; rewrite map_length, seq_length; reflexivity).
  rewrite LL in Hi. apply linspace_mono; [lra|lia|lia].
Qed.
Lemma noiseGain_nonneg y n : / 500 <= y_rate y -> 0 <= noiseGain y n.
Proof.
  intros Hr. unfold noiseGain. assert (R : 0 < 1 / y_rate y) by (apply Rdiv_lt_0_compat; lra).
  assert (T := trapz_nonneg (map (fun f => Cmod (ntfInt (y_gain y) (y_delay y) (- 2 * PI * f * (1 / y_rate y))) ^ 2) (tfreqs (y_rate y) n)) (tfreqs (y_rate y) n)).
  apply Rmult_le_pos; [|lra]. apply Rmult_le_pos; [|lra]. apply T; [|apply tfreqs_nondec; exact Hr].
  intros x Hx. apply in_map_iff in Hx. destruct Hx as (f & <- & _). apply pow2_ge_0.
Qed.

(** static turbulence: z = 1 *)
Lemma eps_pos : 0 < eps.
Proof. unfold eps. apply Rinv_0_lt_compat. apply pow_lt. lra. Qed.
Lemma eps_small : eps < / 10 ^ 15.
Proof. unfold eps. apply Rinv_lt_contravar; [apply Rmult_lt_0_compat; apply pow_lt; lra|]. lra. Qed.
Lemma princ_0 : princ 0 = 0.
Proof.
  unfold princ. replace (0 / (2 * PI) - / 2) with (- / 2) by (unfold Rdiv; ring).
  assert (E : Zceil (- / 2) = 0%Z). { apply Zceil_imp. cbn. lra. } rewrite E. lra.
Qed.
Lemma zpow_0 p : zpow 0 p = RtoC 1.
Proof. unfold zpow. rewrite princ_0, Rmult_0_r. unfold cis. rewrite cos_0, sin_0. reflexivity. Qed.
Lemma guard_big x : eps <= Cmod x -> guard x = x.
Proof. intros H. unfold guard. destruct (Rlt_dec (Cmod x) eps); [lra|reflexivity]. Qed.
Lemma hInt_0 g : hInt g 0 = RtoC (g / eps).
Proof.
  unfold hInt. rewrite zpow_0. replace (Cminus (RtoC 1) (RtoC 1)) with (RtoC 0) by (apply pair_eq; cbn; ring).
  unfold guard. rewrite Cmod_0. destruct (Rlt_dec 0 eps) as [_|N]; [|exfalso; apply N, eps_pos].
  assert (P := eps_pos). rewrite <- RtoC_div by lra. reflexivity.
Qed.
Lemma atfInt_0 g d : 0 < g -> atfInt g d 0 = RtoC (g / (g + eps)).
Proof.
  intros Hg. assert (P := eps_pos). assert (ES := eps_small). unfold atfInt, rtfInt. rewrite hInt_0, zpow_0.
  assert (Q : 0 < g / eps) by (apply Rdiv_lt_0_compat; assumption).
  replace (Cmult (RtoC (g / eps)) (RtoC 1)) with (RtoC (g / eps)) by (apply pair_eq; cbn; ring).
  replace (Cplus (RtoC 1) (RtoC (g / eps))) with (RtoC (1 + g / eps)) by (apply pair_eq; cbn; ring).
  rewrite guard_big by (rewrite Cmod_R, Rabs_right by lra; lra). rewrite <- RtoC_div by lra. rewrite <- RtoC_mult. f_equal. assert (g + eps <> 0) by lra. assert (1 + g / eps <> 0) by lra. replace (g / eps) with (g * / eps) by reflexivity. field. repeat split; lra.
Qed.
Lemma clsum_RtoC {A} (f : A -> R) l : clsum (map (fun x => RtoC (f x)) l) = RtoC (total (map f l)).
Proof. induction l as [|a l IH]; [reflexivity|]. cbn [map total]. unfold clsum in *. cbn [fold_right]. rewrite IH, <- RtoC_plus. reflexivity. Qed.
Lemma static_h y n i j : (1 <= n)%nat -> 0 < y_gain y -> (forall l, In l (y_layers y) -> l_vx l = 0 /\ l_vy l = 0) ->
  let a := y_gain y / (y_gain y + eps) in
  h1 y n i j = RtoC (weight_sum y * a) /\ h2 y n i j = weight_sum y * a ^ 2.
Proof.
  intros Hn Hg Hv a. assert (Pn : 0 < INR n) by (apply lt_0_INR; lia).
  assert (Z : forall l th, In l (y_layers y) -> zarg y l th i j = 0).
  { intros l th Hl. destruct (Hv l Hl) as (V1 & V2). unfold zarg. rewrite V1, V2. ring. }
  split.
  - unfold h1. rewrite (map_ext_in _ (fun l => RtoC (l_w l * a))).
    + rewrite clsum_RtoC. f_equal. unfold weight_sum. rewrite <- (total_mul_r' a). reflexivity.
    + intros l Hl. rewrite (map_ext_in _ (fun th => RtoC a)); [|intros th _; rewrite Z by exact Hl; apply atfInt_0; exact Hg].
      rewrite clsum_RtoC, total_const, thetas_length, <- RtoC_mult. f_equal. field. lra.
  - unfold h2. rewrite lsum_map. rewrite (total_ext _ (fun l => l_w l * a ^ 2)).
    + unfold weight_sum. rewrite <- (total_mul_r' (a ^ 2)). reflexivity.
    + intros l Hl. rewrite lsum_map. rewrite (total_ext _ (fun th => a ^ 2)); [rewrite total_const, thetas_length; field; lra|].
      intros th _. rewrite Z by exact Hl. rewrite atfInt_0 by exact Hg. rewrite cmod2, cnorm2_RtoC. reflexivity.
Qed.
