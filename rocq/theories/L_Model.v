(** Lemmas on the Fourier model. *)
From Coq Require Import Reals List Arith ZArith Lia Lra Psatz String.
From Flocq Require Import Core.Raux.
From Verif Require Import Base_Py Base_Sum M_Tools S_Tools L_Tools L_Tools2 M_Freq L_Freq M_Atmo S_Atmo L_Atmo P_Atmo M_Sensor L_Sensor M_Model S_Model L_Fourier2.
From Coquelicot Require Import Complex.
Import ListNotations.
Open Scope R_scope.

Lemma cmod2 c : Cmod c ^ 2 = cnorm2 c.
Proof.
  unfold Cmod, cnorm2. assert (0 <= fst c ^ 2 + snd c ^ 2) by nra. rewrite <- Rsqr_pow2. apply Rsqr_sqrt. assumption.
Qed.
Lemma cnorm2_nonneg c : 0 <= cnorm2 c.
Proof. unfold cnorm2. nra. Qed.
Lemma cnorm2_mult a b : cnorm2 (Cmult a b) = cnorm2 a * cnorm2 b.
Proof. unfold cnorm2, Cmult. cbn [fst snd]. ring. Qed.
Lemma cnorm2_conj a : cnorm2 (Cconj a) = cnorm2 a.
Proof. unfold cnorm2, Cconj. cbn [fst snd]. ring. Qed.
Lemma cnorm2_cis t : cnorm2 (cis t) = 1.
Proof. unfold cnorm2, cis. cbn [fst snd]. assert (X := sin2_cos2 t). unfold Rsqr in X. nra. Qed.
Lemma cnorm2_RtoC r : cnorm2 (RtoC r) = r ^ 2.
Proof. unfold cnorm2, RtoC. cbn [fst snd]. ring. Qed.
Lemma cnorm2_zero a : cnorm2 a = 0 -> a = RtoC 0.
Proof. unfold cnorm2. intros H. destruct a as [x w]. cbn in H. unfold RtoC. assert (x = 0) by nra. assert (w = 0) by nra. congruence. Qed.
Lemma pair_eq (a b : C) : fst a = fst b -> snd a = snd b -> a = b.
Proof. destruct a, b. cbn. intros -> ->. reflexivity. Qed.

Lemma clsum_Re l : fst (clsum l) = total (map fst l).
Proof. induction l as [|a l IH]; [reflexivity|]. cbn [clsum fold_right map total]. cbn. rewrite <- IH. reflexivity. Qed.
Lemma clsum_Im l : snd (clsum l) = total (map snd l).
Proof. induction l as [|a l IH]; [reflexivity|]. cbn [clsum fold_right map total]. cbn. rewrite <- IH. reflexivity. Qed.
Lemma clsum_app a b : clsum (a ++ b) = Cplus (clsum a) (clsum b).
Proof. apply pair_eq; cbn; rewrite ?clsum_Re, ?clsum_Im, map_app, total_app; reflexivity. Qed.
Lemma clsum_scal c l : clsum (map (fun x => Cmult c x) l) = Cmult c (clsum l).
Proof.
  induction l as [|a l IH]; [apply pair_eq; cbn; ring|]. cbn [map]. unfold clsum in *. cbn [fold_right].
  rewrite IH. apply pair_eq; cbn; ring.
Qed.

(** Jensen / Cauchy-Schwarz *)
Lemma jensen {A} (a : A -> R) (z : A -> C) l : (forall x, In x l -> 0 <= a x) ->
  cnorm2 (clsum (map (fun x => Cmult (RtoC (a x)) (z x)) l)) <= total (map a l) * total (map (fun x => a x * cnorm2 (z x)) l) /\
  0 <= total (map a l) /\ 0 <= total (map (fun x => a x * cnorm2 (z x)) l).
Proof.
  induction l as [|x l IH]; intros H.
  - cbn. unfold cnorm2. cbn. split; [lra|split; lra].
  - destruct IH as (I1 & I2 & I3); [intros t Ht; apply H; right; exact Ht|]. assert (Hx := H x (or_introl eq_refl)).
    cbn [map total clsum fold_right]. fold (clsum (map (fun x => Cmult (RtoC (a x)) (z x)) l)).
    set (Z := clsum _) in *. set (S := total (map a l)) in *. set (Q := total (map (fun x => a x * cnorm2 (z x)) l)) in *. assert (Nz := cnorm2_nonneg (z x)). clearbody Z S Q.
    split; [|split; [lra|nra]].
    assert (K : 2 * (fst (z x) * fst Z + snd (z x) * snd Z) <= Q + S * cnorm2 (z x)).
    { destruct (Req_dec S 0) as [E|E].
      - rewrite E in I1. assert (ZZ : Z = RtoC 0) by (apply cnorm2_zero; assert (X := cnorm2_nonneg Z); nra). rewrite ZZ, E. unfold RtoC. cbn [fst snd]. lra.
      - assert (SP : 0 < S) by lra. apply Rmult_le_reg_l with S; [exact SP|].
        unfold cnorm2 in *. assert (Y := Rplus_le_le_0_compat _ _ (pow2_ge_0 (S * fst (z x) - fst Z)) (pow2_ge_0 (S * snd (z x) - snd Z))). lra. }
    unfold cnorm2 in *. cbn [Cplus Cmult RtoC fst snd]. 
    assert (a x * (2 * (fst (z x) * fst Z + snd (z x) * snd Z)) <= a x * (Q + S * (fst (z x) ^ 2 + snd (z x) ^ 2))) by (apply Rmult_le_compat_l; assumption).
    nra.
Qed.
Lemma total_const {A} (c : R) (l : list A) : total (map (fun _ => c) l) = INR (length l) * c.
Proof. induction l; cbn [map total length]; [cbn; ring|]. rewrite IHl, S_INR. ring. Qed.
Lemma total_ext {A} (f g : A -> R) l : (forall x, In x l -> f x = g x) -> total (map f l) = total (map g l).
Proof. intros H. f_equal. apply map_ext_in. exact H. Qed.
Lemma total_nonneg l : (forall x, In x l -> 0 <= x) -> 0 <= total l.
Proof. induction l as [|a l IH]; intros H; cbn [total]; [lra|]. assert (X := H a (or_introl eq_refl)). assert (0 <= total l) by (apply IH; intros; apply H; right; assumption). lra. Qed.
Lemma total_map_nonneg {A} (f : A -> R) l : (forall x, In x l -> 0 <= f x) -> 0 <= total (map f l).
Proof. intros H. apply total_nonneg. intros x Hx. apply in_map_iff in Hx. destruct Hx as (t & <- & Ht). apply H. exact Ht. Qed.
Lemma total_mul {A} (c : R) (f : A -> R) l : total (map (fun x => c * f x) l) = c * total (map f l).
Proof. induction l as [|a l IH]; cbn [map total]; [ring|]. rewrite IH. ring. Qed.
Lemma total_mul_r' (c : R) {A} (f : A -> R) l : total (map (fun x => f x * c) l) = total (map f l) * c.
Proof. induction l as [|a l IH]; cbn [map total]; [ring|]. rewrite IH. ring. Qed.
Lemma total_le {A} (f g : A -> R) l : (forall x, In x l -> f x <= g x) -> total (map f l) <= total (map g l).
Proof. induction l as [|a l IH]; intros H; cbn [map total]; [lra|]. assert (X := H a (or_introl eq_refl)). assert (total (map f l) <= total (map g l)) by (apply IH; intros; apply H; right; assumption). lra. Qed.
Lemma total_plus {A} (f g : A -> R) l : total (map (fun x => f x + g x) l) = total (map f l) + total (map g l).
Proof. induction l as [|a l IH]; cbn [map total]; [ring|]. rewrite IH. ring. Qed.

(** spectrum of the corrected area is positive *)
Lemma Wphi_pos y i j : valid_sys y -> exists p, Wphi y i j = Ok p /\ 0 < p.
Proof.
  intros (_ & HS & Hr & _ & _ & (L & HL & EL) & _). unfold Wphi.
  destruct (C17_spectrum_finite_L0 (y_sp y) (y_atm y) L HS EL HL Hr (sqrt (k2AO y i j)) (sqrt (k2AO y i j) + 1)) as (s1 & s2 & s0 & E & _ & _ & P1 & P2 & _).
  - apply sqrt_pos.
  - lra.
  - exists s1. split; [exact E|lra].
Qed.
Lemma lsum_nonneg l : (forall x, In x l -> 0 <= x) -> 0 <= lsum l.
Proof. rewrite lsum_total. apply total_nonneg. Qed.
Lemma mean_nonneg l : l <> [] -> (forall x, In x l -> 0 <= x) -> exists m, mean l = Ok m /\ 0 <= m.
Proof.
  intros Hn H. unfold mean. destruct l as [|a l]; [congruence|]. cbn [length Nat.eqb]. eexists. split; [reflexivity|].
  apply Rmult_le_pos; [apply lsum_nonneg; exact H|]. left. apply Rinv_0_lt_compat. apply lt_0_INR. lia.
Qed.
Lemma Wn_nonneg y : valid_sys y -> exists w, Wn y = Ok w /\ 0 <= w.
Proof.
  intros (Hk & _ & _ & _ & _ & _ & _ & Hn & Hv). unfold Wn. destruct (mean_nonneg _ Hn Hv) as (m & -> & Hm). cbn [bind].
  rewrite rdiv_ok by nra. eexists. split; [reflexivity|]. apply Rmult_le_pos; [exact Hm|]. left. apply Rinv_0_lt_compat. nra.
Qed.
Lemma piston_range y i j : 0 <= pistonAO y i j <= 1.
Proof. unfold pistonAO. destruct (centre y i j); [lra|]. apply pistonFilter_range. Qed.
Lemma mask_01 y i j : maskAO y i j = 0 \/ maskAO y i j = 1.
Proof. unfold maskAO, b2R. destruct (mskIn _ _ _ _); auto. Qed.
Lemma mask_nonneg y i j : 0 <= maskAO y i j.
Proof. destruct (mask_01 y i j) as [ ->| ->]; lra. Qed.

(** the reconstructor off the central pixel *)
Definition reg (y : fsys) (MV : R) (i j : nat) (m : R) : Prop :=
  exists q p wn, rdiv (a_wvl (y_atm y)) (y_gswvl y) = Ok q /\ Wphi y i j = Ok p /\ Wn y = Ok wn /\ rdiv (MV * wn) (p * q ^ 2) = Ok m.
Lemma recon_off y MV i j r : centre y i j = false -> recon y MV i j = Ok r ->
  exists sx sy m, SxAv y i j = Ok sx /\ SyAv y i j = Ok sy /\ reg y MV i j m /\ cnorm2 sx + cnorm2 sy + m <> 0 /\
  r = ((fst (Cconj sx) / (cnorm2 sx + cnorm2 sy + m), snd (Cconj sx) / (cnorm2 sx + cnorm2 sy + m)),
       (fst (Cconj sy) / (cnorm2 sx + cnorm2 sy + m), snd (Cconj sy) / (cnorm2 sx + cnorm2 sy + m))).
Proof.
  intros HC. unfold recon. rewrite HC. intros H.
  apply bindOk in H. destruct H as (sx & E1 & H). apply bindOk in H. destruct H as (sy & E2 & H).
  apply bindOk in H. destruct H as (q & E3 & H). apply bindOk in H. destruct H as (p & E4 & H).
  apply bindOk in H. destruct H as (wn & E5 & H). apply bindOk in H. destruct H as (m & E6 & H). cbv zeta in H.
  rewrite !cmod2 in H. unfold cdivr in H. destruct (Req_EM_T (cnorm2 sx + cnorm2 sy + m) 0) as [|N]; cbn [bind] in H; [discriminate|].
  exists sx, sy, m. split; [exact E1|]. split; [exact E2|]. split; [exists q, p, wn; repeat split; assumption|]. split; [exact N|].
  apply Ok_inj in H. symmetry. exact H.
Qed.
Lemma reg_nonneg y MV i j m : valid_sys y -> 0 <= MV -> reg y MV i j m -> 0 <= m /\ (MV = 0 -> m = 0) /\ (m = 0 -> MV = 0 \/ Wn y = Ok 0).
Proof.
  intros HV HM (q & p & wn & Eq & Ep & Ew & Em). destruct (Wphi_pos y i j HV) as (p' & Ep' & Pp). rewrite Ep in Ep'. apply Ok_inj in Ep'. subst p'.
  destruct (Wn_nonneg y HV) as (w' & Ew' & Pw). rewrite Ew in Ew'. apply Ok_inj in Ew'. subst w'.
  destruct HV as (_ & _ & _ & Hw & Hg & _). rewrite rdiv_ok in Eq by lra. apply Ok_inj in Eq.
  assert (Pq : 0 < q) by (subst q; apply Rdiv_lt_0_compat; assumption). assert (PQ : 0 < p * q ^ 2) by (apply Rmult_lt_0_compat; nra).
  rewrite rdiv_ok in Em by lra. apply Ok_inj in Em. assert (PI' : 0 < / (p * q ^ 2)) by (apply Rinv_0_lt_compat; exact PQ). subst m. split; [|split].
  - apply Rmult_le_pos; [nra|lra].
  - intros ->. unfold Rdiv. ring.
  - intros E. unfold Rdiv in E. apply Rmult_integral in E. destruct E as [E|E]; [|lra].
    apply Rmult_integral in E. destruct E as [E|E]; [left; exact E|right; rewrite Ew, E; reflexivity].
Qed.
Lemma filterF_off y MV i j F : centre y i j = false -> filterF y MV i j = Ok F ->
  exists sx sy m, SxAv y i j = Ok sx /\ SyAv y i j = Ok sy /\ reg y MV i j m /\ cnorm2 sx + cnorm2 sy + m <> 0 /\
  F = RtoC ((cnorm2 sx + cnorm2 sy) / (cnorm2 sx + cnorm2 sy + m)).
Proof.
  intros HC H. unfold filterF in H. apply bindOk in H. destruct H as (r & Er & H).
  destruct (recon_off y MV i j r HC Er) as (sx & sy & m & E1 & E2 & HR & N & ->). rewrite E1, E2 in H. cbn [bind] in H. apply Ok_inj in H.
  exists sx, sy, m. repeat (split; [assumption|]). subst F. unfold cnorm2 in *. apply pair_eq; cbn [Cplus Cmult RtoC Cconj fst snd]; field; intros E; apply N; rewrite <- E; ring.
Qed.
Lemma filterF_centre y MV i j F : centre y i j = true -> filterF y MV i j = Ok F -> F = RtoC 0.
Proof.
  intros HC H. unfold filterF in H. apply bindOk in H. destruct H as (r & Er & H).
  assert (R : r = (RtoC 0, RtoC 0)). { unfold recon in Er. rewrite HC in Er. destruct (bind _ _) as [|[]]; try discriminate; apply Ok_inj in Er; symmetry; exact Er. }
  subst r. apply bindOk in H. destruct H as (sx & _ & H). apply bindOk in H. destruct H as (sy & _ & H). apply Ok_inj in H. subst F. apply pair_eq; cbn; ring.
Qed.

(** transfer functions *)
Lemma cmod_cis t : Cmod (cis t) = 1.
Proof. assert (X := cmod2 (cis t)). rewrite cnorm2_cis in X. assert (Y := Cmod_ge_0 (cis t)). nra. Qed.
Lemma cis_nz t : cis t <> RtoC 0.
Proof. intros E. assert (X := cmod_cis t). rewrite E, Cmod_0 in X. lra. Qed.
Lemma ntf_atf g d t : Cmod (ntfInt g d t) = Cmod (atfInt g d t).
Proof. unfold ntfInt. rewrite Cmod_div by apply cis_nz. rewrite cmod_cis. field. Qed.
Lemma thetas_length n : length (thetas n) = n.
Proof. unfold thetas, linspace. rewrite map_length, seq_length. reflexivity. Qed.
Lemma lsum_map {A} (f : A -> R) l : lsum (map f l) = total (map f l).
Proof. apply lsum_total. Qed.
(** |h1|^2 <= (sum of weights) * h2 *)
Lemma h1_h2 y n i j : (1 <= n)%nat -> (forall l, In l (y_layers y) -> 0 <= l_w l) ->
  cnorm2 (h1 y n i j) <= weight_sum y * h2 y n i j /\ 0 <= h2 y n i j.
Proof.
  intros Hn Hw. assert (Pn : 0 < INR n) by (apply lt_0_INR; lia). assert (Pi : 0 < / INR n) by (apply Rinv_0_lt_compat; exact Pn).
  set (a l th := atfInt (y_gain y) (y_delay y) (zarg y l th i j)).
  set (m := fun l => clsum (map (fun th => Cmult (RtoC (/ INR n)) (a l th)) (thetas n))).
  set (q := fun l => total (map (fun th => / INR n * cnorm2 (a l th)) (thetas n))).
  assert (E1 : h1 y n i j = clsum (map (fun l => Cmult (RtoC (l_w l)) (m l)) (y_layers y))).
  { unfold h1. f_equal. apply map_ext. intros l. unfold m. rewrite <- map_map with (g := fun x => Cmult (RtoC (/ INR n)) x). rewrite clsum_scal.
    apply pair_eq; cbn [Cmult RtoC fst snd]; unfold a, Rdiv; ring. }
  assert (E2 : h2 y n i j = total (map (fun l => l_w l * q l) (y_layers y))).
  { unfold h2. rewrite lsum_map. apply total_ext. intros l _. unfold q. rewrite total_mul, lsum_map. unfold Rdiv. rewrite Rmult_assoc. do 2 f_equal. apply total_ext.
    intros th _. apply cmod2. }
  assert (Q : forall l, cnorm2 (m l) <= q l /\ 0 <= q l).
  { intros l. destruct (jensen (fun _ : R => / INR n) (a l) (thetas n)) as (J & _ & J3); [intros; lra|]. fold (m l) in J. fold (q l) in J, J3.
    split; [|exact J3]. rewrite total_const, thetas_length in J. replace (INR n * / INR n) with 1 in J by (field; lra). lra. }
  assert (Q2 : 0 <= total (map (fun l => l_w l * q l) (y_layers y))).
  { apply total_map_nonneg. intros l Hl. destruct (Q l). apply Rmult_le_pos; [apply Hw; exact Hl|assumption]. }
  rewrite E1, E2. split; [|exact Q2].
  destruct (jensen l_w m (y_layers y) Hw) as (J & J2 & _). eapply Rle_trans; [exact J|]. unfold weight_sum. apply Rmult_le_compat_l; [exact J2|].
  apply total_le. intros l Hl. apply Rmult_le_compat_l; [apply Hw; exact Hl|]. apply Q.
Qed.
Lemma aniso_A_bound y tx ty i j : (forall l, In l (y_layers y) -> 0 <= l_w l) -> weight_sum y <= 1 -> cnorm2 (aniso_A y tx ty i j) <= 1.
Proof.
  intros Hw H1. unfold aniso_A. destruct (if Req_EM_T tx 0 then _ else _); [rewrite cnorm2_RtoC; lra|].
  match goal with |- context [map (fun l => Cmult (RtoC (l_w l)) (@?f l)) _] => destruct (jensen l_w f (y_layers y) Hw) as (J & J2 & J3) end.
  fold (weight_sum y) in J, J2. eapply Rle_trans; [exact J|].
  rewrite (total_ext _ l_w) by (intros l _; rewrite cnorm2_cis; ring). fold (weight_sum y). nra.
Qed.
(** the closed-loop residual factor is non-negative *)
Lemma residual_nonneg (F a A : C) (h : R) : snd F = 0 -> cnorm2 a <= h -> cnorm2 A <= 1 -> 
  0 <= 1 + cnorm2 F * h - 2 * fst (Cmult (Cmult F a) A).
Proof.
  intros HF Ha HA. set (u := fst (Cmult F a)). set (v := snd (Cmult F a)). 
  assert (N : u ^ 2 + v ^ 2 = cnorm2 F * cnorm2 a) by (unfold u, v; rewrite <- cnorm2_mult; reflexivity).
  assert (NF := cnorm2_nonneg F). assert (B : u ^ 2 + v ^ 2 <= cnorm2 F * h) by (rewrite N; apply Rmult_le_compat_l; assumption).
  assert (E : fst (Cmult (Cmult F a) A) = u * fst A - v * snd A) by reflexivity. rewrite E. unfold cnorm2 in HA.
  assert (0 <= (u - fst A) ^ 2 + (v + snd A) ^ 2) by (apply Rplus_le_le_0_compat; apply pow2_ge_0). nra.
Qed.
