(** Properties C25, C26, C50, continued: noise spectrum, pyramid gain, wind angles,
    orders of the aliasing. *)
From Coq Require Import Reals List Arith ZArith Lia Lra Psatz String.
From Flocq Require Import Core.Raux.
From Verif Require Import Base_Py Base_Sum M_Tools M_Freq M_Atmo M_Sensor M_Model.
From Coquelicot Require Import Complex.
Import ListNotations.
Open Scope R_scope.

(** C25: the noise spectrum is flat; integrated over the square of side 2 kcMax it is
    the mean of the noise variances. *)
Theorem C25_noise_spectrum : forall y, y_noise y <> [] -> y_kcMax y <> 0 ->
  exists w, Wn y = Ok w /\ w * ((2 * y_kcMax y) * (2 * y_kcMax y)) * INR (length (y_noise y)) = lsum (y_noise y).
Proof.
  intros y Hn Hk. unfold Wn, mean. destruct (y_noise y) as [|x l] eqn:E; [congruence|]. cbn [length Nat.eqb bind].
  unfold rdiv. destruct (Req_EM_T ((2 * y_kcMax y) ^ 2) 0) as [Z|Z]; [exfalso; nra|]. eexists. split; [reflexivity|].
  set (n := INR (S (length l))). assert (n <> 0) by (unfold n; apply not_0_INR; lia). field. lra.
Qed.
Print Assumptions C25_noise_spectrum.

(** C25: the gain of the pyramid along x is purely imaginary with a modulus at most
    one, odd, +-1 beyond the modulation frequency (without jump there), and grows with
    the frequency. [umod] = modulation/(nL d). *)
Definition pyr_gain (y : fsys) (i j : nat) (g : R) : Prop := Sx y i j = Ok (imag g).
Definition umod (y : fsys) : R := y_mod y / (y_nL y * y_dsub y).
Lemma asin_le x y : -1 <= x -> x <= y -> y <= 1 -> asin x <= asin y.
Proof.
  intros Hx Hxy Hy. destruct (Rle_lt_dec (asin x) (asin y)) as [L|L]; [exact L|]. exfalso.
  pose proof (asin_bound x). pose proof (asin_bound y).
  assert (sin (asin y) < sin (asin x)) by (apply sin_increasing_1; lra). rewrite !sin_asin in * by lra. lra.
Qed.
Lemma pyr_val y i j : upper (y_type y) = "PYRAMID"%string -> 0 < y_dsub y -> 0 < y_nL y -> 0 < y_mod y ->
  0 < umod y /\ exists g, pyr_gain y i j g /\ (umod y < kxAO y i j -> g = 1) /\ (kxAO y i j < - umod y -> g = -1) /\
   (Rabs (kxAO y i j) <= umod y -> g = 2 / PI * asin (kxAO y i j / umod y)).
Proof.
  intros HT Hd Hn Hm. assert (U : 0 < umod y) by (unfold umod; apply Rdiv_lt_0_compat; [exact Hm|nra]). split; [exact U|].
  unfold pyr_gain, Sx. rewrite HT. cbn [String.eqb Ascii.eqb Bool.eqb]. unfold rdiv. destruct (Req_EM_T (2 * y_dsub y) 0); [lra|]. cbn [bind].
  destruct (Req_EM_T (y_nL y / 2) 0); [lra|]. cbn [bind]. cbv zeta.
  replace (1 / (2 * y_dsub y) / (y_nL y / 2) * y_mod y) with (umod y) by (unfold umod; field; lra).
  destruct (Rlt_dec (umod y) (Rabs (kxAO y i j))) as [L|L].
  - eexists. split; [reflexivity|]. unfold rsign. split; [|split].
    + intros P. destruct (Rlt_dec (kxAO y i j) 0); [lra|]. destruct (Rlt_dec 0 (kxAO y i j)); [reflexivity|lra].
    + intros P. destruct (Rlt_dec (kxAO y i j) 0); [reflexivity|lra].
    + intros P. lra.
  - destruct (Req_EM_T (umod y) 0); [lra|]. cbn [bind]. eexists. split; [reflexivity|]. split; [|split].
    + intros P. exfalso. apply L. pose proof (Rle_abs (kxAO y i j)). lra.
    + intros P. exfalso. apply L. pose proof (Rle_abs (- kxAO y i j)). rewrite Rabs_Ropp in *. lra.
    + reflexivity.
Qed.
Lemma two_PI_asin x : -1 <= x <= 1 -> -1 <= 2 / PI * asin x <= 1.
Proof.
  intros H. pose proof (asin_bound x) as B. pose proof PI_RGT_0. assert (0 < 2 / PI) by (apply Rdiv_lt_0_compat; lra).
  assert (E : 2 / PI * (PI / 2) = 1) by (field; lra). split; [replace (-1) with (2 / PI * - (PI / 2)) by lra|rewrite <- E]; apply Rmult_le_compat_l; lra.
Qed.
Lemma rabs_cases x u : Rabs x <= u -> - u <= x <= u.
Proof. intros H. pose proof (Rle_abs x). pose proof (Rle_abs (- x)). rewrite Rabs_Ropp in *. lra. Qed.
Lemma quot_range x u : 0 < u -> - u <= x <= u -> -1 <= x / u <= 1.
Proof. intros U H. split; apply (Rmult_le_reg_r u); try exact U; unfold Rdiv; rewrite Rmult_assoc, Rinv_l by lra; lra. Qed.
Theorem C25_pyramid_gain : forall y i j, upper (y_type y) = "PYRAMID"%string -> 0 < y_dsub y -> 0 < y_nL y -> 0 < y_mod y ->
  exists g, pyr_gain y i j g /\ -1 <= g <= 1 /\ (umod y <= kxAO y i j -> g = 1) /\ (kxAO y i j <= - umod y -> g = -1) /\ (kxAO y i j = 0 -> g = 0) /\
   (forall i' j' g', pyr_gain y i' j' g' -> (kxAO y i j <= kxAO y i' j' -> g <= g') /\ (kxAO y i' j' = - kxAO y i j -> g' = - g)).
Proof.
  assert (G : forall y i j, upper (y_type y) = "PYRAMID"%string -> 0 < y_dsub y -> 0 < y_nL y -> 0 < y_mod y ->
     exists g, pyr_gain y i j g /\ (umod y <= kxAO y i j -> g = 1) /\ (kxAO y i j <= - umod y -> g = -1) /\ (- umod y <= kxAO y i j <= umod y -> g = 2 / PI * asin (kxAO y i j / umod y))).
  { intros y i j HT Hd Hn Hm. destruct (pyr_val y i j HT Hd Hn Hm) as (U & g & Hg & A & B & D). exists g. split; [exact Hg|]. pose proof PI_RGT_0.
    split; [|split].
    - intros [L|E]; [now apply A|]. rewrite D by (rewrite <- E; rewrite Rabs_right; lra). rewrite <- E. replace (umod y / umod y) with 1 by (field; lra). rewrite asin_1. field. lra.
    - intros [L|E]; [now apply B|]. rewrite D by (rewrite E, Rabs_Ropp, Rabs_right; lra). rewrite E. replace (- umod y / umod y) with (- (1)) by (field; lra). rewrite asin_opp, asin_1. field. lra.
    - intros L. apply D. apply Rabs_le. exact L. }
  intros y i j HT Hd Hn Hm. destruct (pyr_val y i j HT Hd Hn Hm) as (U & _). pose proof PI_RGT_0 as HP. assert (P2 : 0 < 2 / PI) by (apply Rdiv_lt_0_compat; lra).
  assert (V : forall i j g, pyr_gain y i j g -> (umod y <= kxAO y i j -> g = 1) /\ (kxAO y i j <= - umod y -> g = -1) /\ (- umod y <= kxAO y i j <= umod y -> g = 2 / PI * asin (kxAO y i j / umod y)) /\ -1 <= g <= 1).
  { intros i0 j0 g Hg. destruct (G y i0 j0 HT Hd Hn Hm) as (g' & Hg' & A & B & D). unfold pyr_gain in *. rewrite Hg in Hg'. apply Ok_inj in Hg'. unfold imag in Hg'. injection Hg' as ->.
    repeat (split; [assumption|]). destruct (Rle_dec (umod y) (kxAO y i0 j0)) as [L|L]; [rewrite A by exact L; lra|]. destruct (Rle_dec (kxAO y i0 j0) (- umod y)) as [L'|L']; [rewrite B by exact L'; lra|].
    rewrite D by lra. apply two_PI_asin, quot_range; lra. }
  destruct (G y i j HT Hd Hn Hm) as (g & Hg & _). destruct (V i j g Hg) as (A & B & D & R). exists g. split; [exact Hg|]. split; [exact R|]. split; [exact A|]. split; [exact B|]. split.
  { intros Z. rewrite D by lra. rewrite Z. replace (0 / umod y) with 0 by (field; lra). rewrite asin_0. ring. }
  intros i' j' g' Hg'. destruct (V i' j' g' Hg') as (A' & B' & D' & R'). split.
  - intros L. destruct (Rle_dec (umod y) (kxAO y i' j')) as [L1|L1]; [rewrite (A' L1); lra|]. destruct (Rle_dec (kxAO y i j) (- umod y)) as [L2|L2]; [rewrite (B L2); lra|].
    rewrite D, D' by lra. apply Rmult_le_compat_l; [lra|].
    destruct (quot_range (kxAO y i j) (umod y) U ltac:(lra)) as [Q1 Q2]. destruct (quot_range (kxAO y i' j') (umod y) U ltac:(lra)) as [Q3 Q4]. apply asin_le; [exact Q1| |exact Q4].
    unfold Rdiv. apply Rmult_le_compat_r; [left; now apply Rinv_0_lt_compat|exact L].
  - intros E. destruct (Rle_dec (umod y) (kxAO y i j)) as [L1|L1]; [rewrite (A L1), B' by lra; ring|]. destruct (Rle_dec (kxAO y i j) (- umod y)) as [L2|L2]; [rewrite (B L2), A' by lra; ring|].
    rewrite D, D' by lra. rewrite E. replace (- kxAO y i j / umod y) with (- (kxAO y i j / umod y)) by (field; lra). rewrite asin_opp. ring.
Qed.
Print Assumptions C25_pyramid_gain.

(** C50: the wind angles of the average are the multiples of 2 pi / nTh, once each. *)
Theorem C50_wind_angles : forall n, (1 <= n)%nat -> length (thetas n) = n /\ forall k, (k < n)%nat -> nth_error (thetas n) k = Some (2 * PI * INR k / INR n).
Proof.
  intros n Hn. unfold thetas, linspace. destruct n as [|[|n]]; [lia| |].
  - split; [reflexivity|]. intros [|k] Hk; [|lia]. cbn. f_equal. field.
  - cbv beta iota. split; [now rewrite map_length, seq_length|]. intros k Hk. rewrite nth_error_map. rewrite nth_error_nth' with (d := 0%nat) by (rewrite seq_length; lia). rewrite seq_nth by lia.
    cbn [option_map Nat.add]. f_equal. cbn [Nat.eqb]. replace (S (S n) - 1)%nat with (S n) by lia. rewrite !S_INR. pose proof (pos_INR n). field. split; lra.
Qed.
Print Assumptions C50_wind_angles.

(** C26: aliasing. Every folding order except the zeroth one (both shifts null)
    contributes piston filter x turbulence spectrum x |reconstructed slope of the folded
    frequency|^2; in particular the orders folded along one axis only do contribute. *)
Definition folded_density (y : fsys) (r : C * C) (s : C) (i j : nat) (m n : Z) (invL2 : R) : R :=
  let km := kxAO y i j - IZR m / y_dsub y in let kn := kyAO y i j - IZR n / y_dsub y in
  let k2 := km ^ 2 + kn ^ 2 in
  pistonFilter (y_j1 y) (y_D y) (sqrt k2) * Rpower (k2 + invL2) (- 11 / 6) *
  Cmod (Cmult (Cmult (Cmult (imag (2 * PI * y_dsub y)) (Cplus (Cmult (fst r) (RtoC km)) (Cmult (snd r) (RtoC kn)))) (RtoC (sinc (y_dsub y * km) * sinc (y_dsub y * kn)))) s) ^ 2.
Theorem C26_aliasing_orders : forall y ch r tf T td i j m n v, alias_term y ch r tf T td i j m n = Ok v ->
  (m = 0%Z /\ n = 0%Z -> v = 0) /\
  (m <> 0%Z \/ n <> 0%Z -> exists s l0, avr_sum ch T td tf (kxAO y i j - IZR m / y_dsub y) (kyAO y i j - IZR n / y_dsub y) (y_layers y) = Ok s /\ inv_L0_2 (y_atm y) = Ok l0 /\
     v = folded_density y r s i j m n l0).
Proof.
  intros y ch r tf T td i j m n v E. unfold alias_term in E. unfold rdiv in E. destruct (Req_EM_T (y_dsub y) 0); [discriminate|]. cbn [bind] in E.
  destruct (inv_L0_2 (y_atm y)) as [l0|]; [|discriminate]. cbn [bind] in E. unfold rpow in E. destruct (Rlt_dec _ 0) in E; [discriminate|]. destruct (Req_EM_T _ 0) in E.
  { destruct (Rlt_dec 0 _) in E; [exfalso; lra|discriminate]. }
  cbn [bind] in E. destruct (avr_sum ch T td tf _ _ (y_layers y)) as [s|]; [|discriminate]. cbn [bind] in E. apply Ok_inj in E. subst v.
  split; [intros [-> ->]; cbn; ring|]. intros N. exists s, l0. split; [reflexivity|]. split; [reflexivity|].
  replace ((m =? 0)%Z && (n =? 0)%Z)%bool with false by (destruct (Z.eqb_spec m 0), (Z.eqb_spec n 0); cbn; try reflexivity; lia). cbn [negb b2R]. rewrite Rmult_1_r. unfold folded_density, hypot. cbv zeta.
  assert (Q : forall a b w x z k s : C, Cmult (Cmult (Cplus (Cmult (Cmult a w) x) (Cmult (Cmult b w) z)) k) s = Cmult (Cmult (Cmult w (Cplus (Cmult a x) (Cmult b z))) k) s) by (intros; ring).
  rewrite Q. reflexivity.
Qed.
Print Assumptions C26_aliasing_orders.

(** Non-vacuity: a pyramid of two sub-apertures a side and modulation 5, and the
    aliasing of the example system of P_Model2 (its layers move). *)
From Verif Require Import P_Model2.
Definition ex_pyr : fsys :=
  mkSys 8 (1 / 4) (/ 10 ^ 10) 1 true 8 (fun _ => 0) (mkSpecial 1 1 1 (fun x => x)) ex_atm ex_layers
    "Pyramid" (1 / 2) 16 5 1 [1] [1 / 2; 1 / 4] (/ 10 ^ 6) (1 / 2) 500 2.
Example C25_pyramid_ex : upper (y_type ex_pyr) = "PYRAMID"%string /\ 0 < y_dsub ex_pyr /\ 0 < y_nL ex_pyr /\ 0 < y_mod ex_pyr /\
  umod ex_pyr = 5 / 8 /\ umod ex_pyr < kxAO ex_pyr 7 4 /\ kxAO ex_pyr 5 4 < umod ex_pyr /\ y_noise ex_pyr <> [] /\ y_kcMax ex_pyr <> 0.
Proof.
  unfold umod, kxAO, freq_x, freq_y. cbn [ex_pyr y_type y_dsub y_nL y_mod y_noise y_kcMax y_res y_step y_off]. change (Z.of_nat 8 / 2)%Z with 4%Z.
  repeat split; try reflexivity; try discriminate; cbn; try lra.
Qed.
Example C26_orders_ex : exists y, exists v, aliasingPSD y 1 5 1 1000 2 5 6 = Ok v.
Proof. exists (ex_sys ex_layers). destruct C26_nonvacuous as (_ & _ & H). destruct (H 5%nat 6%nat) as (_ & _ & A & _); [lia|lia|exact A]. Qed.
