(** C108, C109: parameter values and images of the generated data base (dataGenerator.py). *)
From Coq Require Import Reals List Arith ZArith Lia Lra Bool.
From Flocq Require Import Core.
From Verif Require Import Base_Py Base_Sum Base_DFT M_Image M_Fourier S_Fourier L_Fourier L_Fourier3 L_Image L_Image2 M_Cone M_Gen.
From Coquelicot Require Import Complex.
Import ListNotations.
Open Scope R_scope.

(** ** rounding *)
Lemma pow10 d : 0 < 10 ^ d. Proof. apply pow_lt. lra. Qed.
Lemma np_round_near x d : Rabs (np_round x d - x) <= / 2 / 10 ^ d.
Proof.
  unfold np_round. pose proof (pow10 d) as Hp.
  pose proof (Znearest_half (fun z => negb (Z.even z)) (x * 10 ^ d)) as Hh.
  replace (IZR (ZnearestE (x * 10 ^ d)) / 10 ^ d - x) with (- ((x * 10 ^ d - IZR (ZnearestE (x * 10 ^ d))) * / 10 ^ d)) by (field; lra).
  rewrite Rabs_Ropp, Rabs_mult, (Rabs_right (/ 10 ^ d)) by (left; apply Rinv_0_lt_compat, Hp).
  unfold Rdiv. apply Rmult_le_compat_r; [left; apply Rinv_0_lt_compat, Hp|exact Hh].
Qed.
Lemma np_round_mono x y d : x <= y -> np_round x d <= np_round y d.
Proof.
  intros H. unfold np_round. pose proof (pow10 d) as Hp. unfold Rdiv. apply Rmult_le_compat_r; [left; apply Rinv_0_lt_compat, Hp|].
  apply IZR_le. apply (Zrnd_le ZnearestE). apply Rmult_le_compat_r; [lra|exact H].
Qed.

Definition exact_edge (lo hi : R) (n k : nat) : R := lo + INR k * ((hi - lo) / INR n).
Definition edges (lo hi : R) (n d : nat) : list R := map (fun v => np_round v d) (linspace lo hi (S n)).
Lemma edges_length lo hi n d : length (edges lo hi n d) = S n.
Proof. unfold edges. rewrite map_length. unfold linspace. destruct n; [reflexivity|]. rewrite map_length, seq_length. reflexivity. Qed.
Lemma edges_nth lo hi n d k : (1 <= n)%nat -> (k <= n)%nat -> nth k (edges lo hi n d) 0 = np_round (exact_edge lo hi n k) d.
Proof.
  intros Hn Hk. unfold edges, linspace. destruct n as [|n]; [lia|]. rewrite map_map. cbn [Nat.sub].
  rewrite (nth_indep _ 0 ((fun x => np_round (lo + INR x * ((hi - lo) / INR (S n))) d) 0%nat)) by (rewrite map_length, seq_length; lia).
  rewrite (map_nth (fun x => np_round (lo + INR x * ((hi - lo) / INR (S n))) d)). rewrite seq_nth by lia. reflexivity.
Qed.
Lemma exact_mono lo hi n k : lo <= hi -> (1 <= n)%nat -> exact_edge lo hi n k <= exact_edge lo hi n (S k).
Proof.
  intros H Hn. unfold exact_edge. apply Rplus_le_compat_l. rewrite S_INR.
  assert (0 < INR n) by (apply lt_0_INR; lia). assert (0 <= (hi - lo) / INR n) by (apply Rmult_le_pos; [lra|left; apply Rinv_0_lt_compat; assumption]). nra.
Qed.

Lemma gen_inv lo hi wf n np ns d nm st mp dr v :
  generate_parameters_values lo hi wf n np ns d nm st mp dr = Ok v ->
  (n * n <= ns)%nat /\ length lo = length hi /\ (6 <= length lo)%nat /\ (st = true -> (7 <= length lo)%nat) /\ wf <> 0 /\
  let wvl := 2 * PI * (1 / 10 ^ 9) / wf in
  let f0 := Rpower (wvl / (500 / 10 ^ 9)) (6 / 5) in
  let xb := match mp with MainR0 => (nth 0 lo 0 * f0, nth 0 hi 0 * f0) | _ => (nth 6 lo 0 * (wvl * 10 ^ 9), nth 6 hi 0 * (wvl * 10 ^ 9)) end in
  let x1 := fun m i t => if (t <? n * n)%nat then column (edges (fst xb) (snd xb) n d) (t / n) (d_x dr m i t) else 0 in
  p_xint v = edges (fst xb) (snd xb) n d /\
  p_sint v = edges ((wf * nth 2 lo 0) * (wf * nth 2 lo 0)) ((wf * nth 2 hi 0) * (wf * nth 2 hi 0)) n d /\
  (forall i t, p_sig2 v i t = if (t <? n * n)%nat then column (p_sint v) (t mod n) (d_s dr i t) else 0) /\
  (forall i t, p_idx v i t = if (t <? n * n)%nat then (t / n)%nat else 0%nat) /\
  (forall i t, p_ids v i t = if (t <? n * n)%nat then (t mod n)%nat else 0%nat) /\
  match mp with
  | MainR0 => p_r0 v = R0tab (x1 0%nat) /\
      p_stat v = (match st, nm with true, Some k => StatVec k (fun m i => unif (nth 6 lo 0 * (wvl * 10 ^ 9)) (nth 6 hi 0 * (wvl * 10 ^ 9)) (d_stat dr m i)) | _, _ => StatNone end)
      /\ (st = true -> nm <> None)
  | MainStat => p_r0 v = R0vec (fun i => unif (nth 0 lo 0 * f0) (nth 0 hi 0 * f0) (d_r0 dr i)) /\ (exists k, nm = Some k /\ p_stat v = StatTab k x1) /\ st = true
  | MainOther => False
  end /\
  p_C v = (fun i => unif (nth 1 lo 0) (nth 1 hi 0) (d_C dr i)) /\ p_ax v = (fun i => unif (nth 3 lo 0) (nth 3 hi 0) (d_ax dr i)) /\
  p_be v = (fun i => unif (nth 5 lo 0) (nth 5 hi 0) (d_be dr i)) /\ p_pe v = linspace (nth 4 lo 0) (nth 4 hi 0) np.
Proof.
  unfold generate_parameters_values.
  destruct (Nat.eqb_spec (length lo) 0) as [|L0]; [discriminate|]. destruct (Nat.eqb_spec (length hi) 0) as [|H0]; [discriminate|]. cbn [orb].
  destruct (Nat.eqb_spec (length lo) (length hi)) as [EL|]; [|discriminate]. cbn [negb].
  destruct (negb st && (length lo <? 6)%nat) eqn:E6; [discriminate|]. destruct (st && (length lo <? 7)%nat) eqn:E7; [discriminate|].
  destruct (Req_EM_T wf 0) as [|Hwf]; [discriminate|]. cbv zeta. cbn [fst snd].
  intros H. assert (HL6 : (6 <= length lo)%nat /\ (st = true -> (7 <= length lo)%nat)).
  { destruct st; cbn [negb andb] in *; [apply Nat.ltb_ge in E7; split; [lia|intros _; exact E7]|apply Nat.ltb_ge in E6; split; [exact E6|discriminate]]. }
  destruct mp.
  - cbn [bind] in H. destruct (Nat.ltb_spec ns (n * n)) as [|Hns]; [discriminate|].
    destruct st.
    + destruct nm as [k|]; cbn [bind] in H; [|discriminate]. apply Ok_inj in H. subst v.
      split; [exact Hns|]. split; [exact EL|]. split; [apply HL6|]. split; [apply HL6|]. split; [exact Hwf|]. cbn.
      split; [reflexivity|]. split; [reflexivity|]. split; [reflexivity|]. split; [reflexivity|]. split; [reflexivity|].
      split; [|repeat split; reflexivity]. split; [reflexivity|]. split; [reflexivity|]. discriminate.
    + cbn [bind] in H. apply Ok_inj in H. subst v.
      split; [exact Hns|]. split; [exact EL|]. split; [apply HL6|]. split; [apply HL6|]. split; [exact Hwf|]. cbn.
      split; [reflexivity|]. split; [reflexivity|]. split; [reflexivity|]. split; [reflexivity|]. split; [reflexivity|].
      split; [|repeat split; reflexivity]. split; [reflexivity|]. split; [reflexivity|]. discriminate.
  - destruct st; cbn [negb] in H; [|discriminate]. destruct nm as [k|]; cbn [bind] in H; [|discriminate].
    destruct (Nat.ltb_spec ns (n * n)) as [|Hns]; [discriminate|]. cbn [bind] in H. apply Ok_inj in H. subst v.
    split; [exact Hns|]. split; [exact EL|]. split; [apply HL6|]. split; [apply HL6|]. split; [exact Hwf|]. cbn.
    split; [reflexivity|]. split; [reflexivity|]. split; [reflexivity|]. split; [reflexivity|]. split; [reflexivity|].
    split; [|repeat split; reflexivity]. split; [reflexivity|]. split; [|reflexivity]. exists k. split; reflexivity.
  - cbn [bind] in H. discriminate.
Qed.

(** ** Specification: bounds of a parameter in the units of the values *)
Definition wavelength (wf : R) : R := 2 * PI * (1 / 10 ^ 9) / wf.            (* wf = 2 pi 1e-9 / wavelength *)
Definition r0_scale (wf : R) : R := Rpower (wavelength wf / (500 / 10 ^ 9)) (6 / 5).
Lemma wavelength_pos wf : 0 < wf -> 0 < wavelength wf.
Proof.
  intros H. unfold wavelength. pose proof PI_RGT_0. pose proof (pow10 9). apply Rdiv_lt_0_compat; [|exact H].
  apply Rmult_lt_0_compat; [lra|]. apply Rdiv_lt_0_compat; lra.
Qed.
Definition unit_draws (dr : draws) : Prop :=
  (forall m i t, 0 <= d_x dr m i t <= 1) /\ (forall i t, 0 <= d_s dr i t <= 1) /\ (forall i, 0 <= d_C dr i <= 1) /\ (forall i, 0 <= d_ax dr i <= 1) /\
  (forall i, 0 <= d_be dr i <= 1) /\ (forall i, 0 <= d_r0 dr i <= 1) /\ (forall m i, 0 <= d_stat dr m i <= 1).
Definition between (a x b : R) : Prop := a <= x <= b.

Lemma column_in lo hi n d k u : lo <= hi -> (1 <= n)%nat -> (k < n)%nat -> 0 <= u <= 1 ->
  between (nth k (edges lo hi n d) 0) (column (edges lo hi n d) k u) (nth (S k) (edges lo hi n d) 0).
Proof.
  intros H Hn Hk Hu. unfold column, between. rewrite !edges_nth by lia.
  pose proof (np_round_mono _ _ d (exact_mono lo hi n k H Hn)) as M.
  set (a := np_round _ d) in *. set (b := np_round (exact_edge lo hi n (S k)) d) in *.
  assert (0 <= (b - a) * u) by (apply Rmult_le_pos; lra). assert ((b - a) * u <= (b - a) * 1) by (apply Rmult_le_compat_l; lra). lra.
Qed.
Lemma square_mono a b wf : 0 <= a <= b -> (wf * a) * (wf * a) <= (wf * b) * (wf * b).
Proof.
  intros H. assert (0 <= wf * wf) by (pose proof (Rle_0_sqr wf) as Q; unfold Rsqr in Q; exact Q).
  assert (a * a <= b * b) by nra. replace (wf * a * (wf * a)) with (wf * wf * (a * a)) by ring. replace (wf * b * (wf * b)) with (wf * wf * (b * b)) by ring.
  apply Rmult_le_compat_l; assumption.
Qed.
Lemma unif_in lo hi u : lo <= hi -> 0 <= u <= 1 -> between lo (unif lo hi u) hi.
Proof.
  intros H Hu. unfold unif, between. assert (0 <= (hi - lo) * u) by (apply Rmult_le_pos; lra).
  assert ((hi - lo) * u <= (hi - lo) * 1) by (apply Rmult_le_compat_l; lra). lra.
Qed.

(** C108: every drawn value lies between the edges of the interval whose numbers are recorded for it, the columns enumerate the n x n
    pairs of intervals, and the edges are the equally spaced values between the bounds, rounded. *)
Theorem C108_values : forall lo hi wf n np ns d nm st dr v mp,
  (1 <= n)%nat -> unit_draws dr -> nth 0 lo 0 <= nth 0 hi 0 -> 0 <= nth 2 lo 0 <= nth 2 hi 0 -> nth 6 lo 0 <= nth 6 hi 0 -> 0 < wf ->
  generate_parameters_values lo hi wf n np ns d nm st mp dr = Ok v ->
  (forall i t, (t < n * n)%nat ->
     (p_idx v i t < n)%nat /\ (p_ids v i t < n)%nat /\ t = (p_idx v i t * n + p_ids v i t)%nat /\
     between (nth (p_ids v i t) (p_sint v) 0) (p_sig2 v i t) (nth (S (p_ids v i t)) (p_sint v) 0) /\
     match mp with
     | MainR0 => exists f, p_r0 v = R0tab f /\ between (nth (p_idx v i t) (p_xint v) 0) (f i t) (nth (S (p_idx v i t)) (p_xint v) 0)
     | _ => exists nmod f, p_stat v = StatTab nmod f /\ nm = Some nmod /\
              forall m, between (nth (p_idx v i t) (p_xint v) 0) (f m i t) (nth (S (p_idx v i t)) (p_xint v) 0)
     end) /\
  length (p_xint v) = S n /\ length (p_sint v) = S n /\
  forall k, (k <= n)%nat ->
    Rabs (nth k (p_sint v) 0 - (let f := wf * wf in f * (nth 2 lo 0) ^ 2 + INR k / INR n * (f * (nth 2 hi 0) ^ 2 - f * (nth 2 lo 0) ^ 2))) <= / 2 / 10 ^ d /\
    Rabs (nth k (p_xint v) 0 - (let f := match mp with MainR0 => r0_scale wf | _ => wavelength wf * 10 ^ 9 end in
                                let i := match mp with MainR0 => 0%nat | _ => 6%nat end in
                                f * nth i lo 0 + INR k / INR n * (f * nth i hi 0 - f * nth i lo 0))) <= / 2 / 10 ^ d.
Proof.
  intros lo hi wf n np ns d nm st dr v mp Hn (D1 & D2 & _) B0 B2 B6 Hwf HG.
  destruct (gen_inv _ _ _ _ _ _ _ _ _ _ _ _ HG) as (_ & _ & _ & _ & _ & HX). cbv zeta in HX.
  fold (wavelength wf) in HX. fold (r0_scale wf) in HX.
  destruct HX as (EX & ES & Es2 & Eix & Eis & EM & _).
  pose proof (wavelength_pos wf Hwf) as Hw.
  assert (Hr : 0 < r0_scale wf) by (unfold r0_scale, Rpower; apply exp_pos).
  assert (Hs : (wf * nth 2 lo 0) * (wf * nth 2 lo 0) <= (wf * nth 2 hi 0) * (wf * nth 2 hi 0)) by (apply square_mono; exact B2).
  set (xb := match mp with MainR0 => (nth 0 lo 0 * r0_scale wf, nth 0 hi 0 * r0_scale wf) | _ => (nth 6 lo 0 * (wavelength wf * 10 ^ 9), nth 6 hi 0 * (wavelength wf * 10 ^ 9)) end) in EX.
  assert (Hx : fst xb <= snd xb).
  { unfold xb. destruct mp; cbn [fst snd].
    - apply Rmult_le_compat_r; lra.
    - pose proof (pow10 9). apply Rmult_le_compat_r; [|exact B6]. nra.
    - pose proof (pow10 9). apply Rmult_le_compat_r; [|exact B6]. nra. }
  split; [|split; [rewrite EX; apply edges_length|split; [rewrite ES; apply edges_length|]]].
  - intros i t Ht. assert (Htb : (t <? n * n)%nat = true) by (apply Nat.ltb_lt, Ht).
    rewrite Eix, Eis, Es2, Htb. assert (Hk : (t / n < n)%nat) by (apply Nat.div_lt_upper_bound; lia).
    assert (Hm : (t mod n < n)%nat) by (apply Nat.mod_upper_bound; lia).
    split; [exact Hk|]. split; [exact Hm|]. split; [pose proof (Nat.div_mod t n ltac:(lia)); lia|].
    split; [rewrite ES; apply column_in; [exact Hs|exact Hn|exact Hm|apply D2]|].
    destruct mp.
    + destruct EM as (E & _). eexists. split; [exact E|]. cbv beta. rewrite Htb, EX. apply column_in; [exact Hx|exact Hn|exact Hk|apply D1].
    + destruct EM as (_ & (k & -> & E) & _). exists k. eexists. split; [exact E|]. split; [reflexivity|]. intros m. cbv beta. rewrite Htb, EX.
      apply column_in; [exact Hx|exact Hn|exact Hk|apply D1].
    + contradiction.
  - intros k Hk. assert (HnR : 0 < INR n) by (apply lt_0_INR; lia). split.
    + rewrite ES, edges_nth by assumption. cbv zeta.
      replace (wf * wf * nth 2 lo 0 ^ 2 + INR k / INR n * (wf * wf * nth 2 hi 0 ^ 2 - wf * wf * nth 2 lo 0 ^ 2))
        with (exact_edge ((wf * nth 2 lo 0) * (wf * nth 2 lo 0)) ((wf * nth 2 hi 0) * (wf * nth 2 hi 0)) n k) by (unfold exact_edge; field; lra).
      apply np_round_near.
    + rewrite EX, edges_nth by assumption. cbv zeta.
      match goal with |- Rabs (_ - ?e) <= _ => replace e with (exact_edge (fst xb) (snd xb) n k) by (unfold exact_edge, xb; destruct mp; cbn [fst snd]; field; lra) end.
      apply np_round_near.
Qed.
Print Assumptions C108_values.

(** C108: the secondary parameters: drawn within their bounds, the power-law exponent is a regular ramp, not a draw. *)
Theorem C108_secondary : forall lo hi wf n np ns d nm st dr v mp,
  unit_draws dr -> (forall i, (i < 7)%nat -> nth i lo 0 <= nth i hi 0) -> 0 < wf ->
  generate_parameters_values lo hi wf n np ns d nm st mp dr = Ok v ->
  (forall i, between (nth 1 lo 0) (p_C v i) (nth 1 hi 0) /\ between (nth 3 lo 0) (p_ax v i) (nth 3 hi 0) /\ between (nth 5 lo 0) (p_be v i) (nth 5 hi 0)) /\
  length (p_pe v) = np /\
  (forall i, (i < np)%nat -> between (nth 4 lo 0) (nth i (p_pe v) 0) (nth 4 hi 0) /\
     ((2 <= np)%nat -> nth i (p_pe v) 0 = nth 4 lo 0 + INR i / INR (np - 1) * (nth 4 hi 0 - nth 4 lo 0))) /\
  match p_r0 v with R0vec f => mp = MainStat /\ forall i, between (r0_scale wf * nth 0 lo 0) (f i) (r0_scale wf * nth 0 hi 0) | R0tab _ => mp = MainR0 end /\
  match p_stat v with
  | StatVec k f => mp = MainR0 /\ st = true /\ nm = Some k /\ forall m i, between (wavelength wf * 10 ^ 9 * nth 6 lo 0) (f m i) (wavelength wf * 10 ^ 9 * nth 6 hi 0)
  | StatNone => mp = MainR0 /\ st = false | StatTab _ _ => mp = MainStat /\ st = true end.
Proof.
  intros lo hi wf n np ns d nm st dr v mp (_ & _ & DC & Da & Db & Dr & Ds) B Hwf HG.
  destruct (gen_inv _ _ _ _ _ _ _ _ _ _ _ _ HG) as (_ & _ & _ & _ & _ & HX). cbv zeta in HX.
  fold (wavelength wf) in HX. fold (r0_scale wf) in HX.
  destruct HX as (_ & _ & _ & _ & _ & EM & EC & Ea & Eb & Ep).
  pose proof (wavelength_pos wf Hwf) as Hw.
  assert (Hr : 0 < r0_scale wf) by (unfold r0_scale, Rpower; apply exp_pos).
  split; [|split; [|split]].
  - intros i. rewrite EC, Ea, Eb. repeat split; try (apply unif_in; [apply B; lia|auto]).
  - rewrite Ep. unfold linspace. destruct np as [|[|np]]; [reflexivity|reflexivity|]. rewrite map_length, seq_length. reflexivity.
  - intros i Hi. rewrite Ep. specialize (B 4%nat ltac:(lia)).
    destruct np as [|[|np]]; [lia| |].
    + assert (i = 0%nat) by lia. subst i. cbn. split; [unfold between; lra|lia].
    + set (q := S (S np)) in *.
      assert (E : nth i (linspace (nth 4 lo 0) (nth 4 hi 0) q) 0 = nth 4 lo 0 + INR i / INR (q - 1) * (nth 4 hi 0 - nth 4 lo 0)).
      { unfold linspace, q.
        rewrite (nth_indep _ 0 ((fun k => nth 4 lo 0 + INR k * ((nth 4 hi 0 - nth 4 lo 0) / INR (S (S np) - 1))) 0%nat)) by (rewrite map_length, seq_length; lia).
        rewrite (map_nth (fun k => nth 4 lo 0 + INR k * ((nth 4 hi 0 - nth 4 lo 0) / INR (S (S np) - 1)))). rewrite seq_nth by lia. rewrite Nat.add_0_l. unfold Rdiv. ring. }
      rewrite E. split; [|reflexivity]. unfold between.
      assert (0 < INR (q - 1)) by (apply lt_0_INR; unfold q; lia). assert (INR i <= INR (q - 1)) by (apply le_INR; lia).
      assert (0 <= INR i / INR (q - 1) <= 1).
      { pose proof (pos_INR i). split; [apply Rmult_le_pos; [assumption|left; apply Rinv_0_lt_compat; assumption]|].
        apply Rmult_le_reg_r with (INR (q - 1)); [assumption|]. unfold Rdiv. rewrite Rmult_assoc, Rinv_l by lra. lra. }
      nra.
  - destruct mp.
    + destruct EM as (E & Es & Hn). rewrite E, Es. split; [reflexivity|]. destruct st.
      * destruct nm as [k|]; [|destruct Hn; reflexivity]. split; [reflexivity|]. split; [reflexivity|]. split; [reflexivity|]. intros m i.
        pose proof (pow10 9). assert (0 < wavelength wf * 10 ^ 9) by (apply Rmult_lt_0_compat; assumption). pose proof (B 6%nat ltac:(lia)) as B6.
        pose proof (unif_in (nth 6 lo 0 * (wavelength wf * 10 ^ 9)) (nth 6 hi 0 * (wavelength wf * 10 ^ 9)) (d_stat dr m i) ltac:(apply Rmult_le_compat_r; lra) (Ds m i)) as U.
        unfold between in *. lra.
      * split; reflexivity.
    + destruct EM as (E & (k & -> & Es) & ->). rewrite E, Es. split; [|split; reflexivity]. split; [reflexivity|].
      intros i. pose proof (B 0%nat ltac:(lia)) as B0.
      pose proof (unif_in (nth 0 lo 0 * r0_scale wf) (nth 0 hi 0 * r0_scale wf) (d_r0 dr i) ltac:(apply Rmult_le_compat_r; lra) (Dr i)) as U. unfold between in *. lra.
    + contradiction.
Qed.
Print Assumptions C108_secondary.

(** C108: exactly which requests are accepted (positive factor). *)
Theorem C108_accepted : forall lo hi wf n np ns d nm st mp dr, 0 < wf ->
  (exists v, generate_parameters_values lo hi wf n np ns d nm st mp dr = Ok v) <->
  length lo = length hi /\ ((if st then 7 else 6) <= length lo)%nat /\ (n * n <= ns)%nat /\
  match mp with MainR0 => st = true -> nm <> None | MainStat => st = true /\ nm <> None | MainOther => False end.
Proof.
  intros lo hi wf n np ns d nm st mp dr Hwf. split.
  - intros (v & HG). destruct (gen_inv _ _ _ _ _ _ _ _ _ _ _ _ HG) as (A & B & C & D & _ & HX). cbv zeta in HX.
    destruct HX as (_ & _ & _ & _ & _ & EM & _). split; [exact B|]. split; [destruct st; [apply D; reflexivity|exact C]|]. split; [exact A|].
    destruct mp; [apply EM| |exact EM]. destruct EM as (_ & (k & -> & _) & ->). split; [reflexivity|discriminate].
  - intros (A & B & C & D). unfold generate_parameters_values. rewrite <- A.
    destruct (Nat.eqb_spec (length lo) 0) as [E|E]; [destruct st; lia|]. cbn [orb]. rewrite Nat.eqb_refl. cbn [negb].
    destruct (negb st && (length lo <? 6)%nat) eqn:E6; [destruct st; [discriminate|]; cbn [negb andb] in E6; apply Nat.ltb_lt in E6; lia|].
    destruct (st && (length lo <? 7)%nat) eqn:E7; [destruct st; [|discriminate]; cbn [negb andb] in E7; apply Nat.ltb_lt in E7; lia|].
    destruct (Req_EM_T wf 0) as [|_]; [lra|]. cbv zeta.
    destruct (Nat.ltb_spec ns (n * n)) as [|_]; [lia|].
    destruct mp; [| |contradiction].
    + cbn [bind]. destruct st; [|eexists; reflexivity]. destruct nm as [k|]; [eexists; reflexivity|destruct D; reflexivity].
    + destruct D as [-> Hn]. destruct nm as [k|]; [|congruence]. cbn [negb bind]. eexists. reflexivity.
Qed.
Print Assumptions C108_accepted.

(** Findings: (a) the rounding of the edges (one decimal here, at 500 nm, with the documented bounds and ten intervals) gives a first edge of
    zero, out of the bounds, and two different intervals with the same label; (b) columns beyond n x n keep zeros. *)
Definition ex_lo := [5 / 100; 1 / 1000; 100; 1 / 1000; 1 / 2; 11 / 10; - (1 / 10)].
Definition ex_hi := [4 / 10; 5 / 100; 390; 1 / 10; 2; 3; 1 / 10].
Lemma r0_scale_500 : r0_scale (2 * PI / 500) = 1.
Proof.
  unfold r0_scale, wavelength. pose proof PI_RGT_0. pose proof (pow10 9).
  replace (2 * PI * (1 / 10 ^ 9) / (2 * PI / 500) / (500 / 10 ^ 9)) with 1 by (field; repeat split; lra).
  unfold Rpower. rewrite ln_1, Rmult_0_r. apply exp_0.
Qed.
Lemma znear_unique x z : IZR z - / 2 < x < IZR z + / 2 -> ZnearestE x = z.
Proof. intros H. apply Znearest_imp. apply Rabs_def1; lra. Qed.
Theorem C108_rounding_refuted : forall np nm dr v,
  generate_parameters_values ex_lo ex_hi (2 * PI / 500) 10 np 100 1 nm false MainR0 dr = Ok v ->
  nth 0 (p_xint v) 0 = 0 /\ nth 0 ex_lo 0 = 5 / 100 /\ nth 1 (p_xint v) 0 = nth 2 (p_xint v) 0 /\
  (forall f, p_r0 v = R0tab f -> (forall i, d_x dr 0 i 0%nat = 0) -> forall i, f i 0%nat = 0).
Proof.
  intros np nm dr v HG. destruct (gen_inv _ _ _ _ _ _ _ _ _ _ _ _ HG) as (_ & _ & _ & _ & _ & HX). cbv zeta in HX.
  fold (wavelength (2 * PI / 500)) in HX. fold (r0_scale (2 * PI / 500)) in HX. rewrite r0_scale_500 in HX.
  destruct HX as (EX & _ & _ & _ & _ & (Er & _) & _).
  unfold ex_lo, ex_hi in EX, Er. cbn [nth fst snd] in EX, Er. rewrite EX.
  assert (E0 : nth 0 (edges (5 / 100 * 1) (4 / 10 * 1) 10 1) 0 = 0).
  { rewrite edges_nth by lia. unfold np_round, exact_edge. cbn [INR pow].
    replace ((5 / 100 * 1 + 0 * ((4 / 10 * 1 - 5 / 100 * 1) / (1 + 1 + 1 + 1 + 1 + 1 + 1 + 1 + 1 + 1))) * (10 * 1)) with (/ 2) by field.
    assert (Ez : ZnearestE (/ 2) = 0%Z).
    { unfold Znearest. replace (Zfloor (/ 2)) with 0%Z by (symmetry; apply Zfloor_imp; cbn; lra). rewrite Rcompare_Eq by lra. reflexivity. }
    rewrite Ez. lra. }
  assert (Ek : forall k z, (k <= 10)%nat -> IZR z - / 2 < (5 / 100 + INR k * (35 / 1000)) * 10 < IZR z + / 2 -> nth k (edges (5 / 100 * 1) (4 / 10 * 1) 10 1) 0 = IZR z / 10).
  { intros k z Hk Hz. rewrite edges_nth by lia. unfold np_round, exact_edge.
    replace ((5 / 100 * 1 + INR k * ((4 / 10 * 1 - 5 / 100 * 1) / INR 10)) * 10 ^ 1) with ((5 / 100 + INR k * (35 / 1000)) * 10) by (cbn [INR pow]; field).
    rewrite (znear_unique _ z Hz). cbn [pow]. lra. }
  split; [exact E0|]. split; [reflexivity|]. split.
  - rewrite (Ek 1%nat 1%Z), (Ek 2%nat 1%Z); [reflexivity|lia|cbn [INR]; lra|lia|cbn [INR]; lra].
  - intros f Hf Hd i. rewrite Hf in Er. injection Er as Er. subst f. cbv beta.
    assert (E : (0 <? 100)%nat = true) by reflexivity. change (10 * 10)%nat with 100%nat. rewrite E. unfold column. change (0 / 10)%nat with 0%nat.
    rewrite Hd. rewrite Rmult_0_r, Rplus_0_r. exact E0.
Qed.
Example ex_accept : forall dr, exists v, generate_parameters_values ex_lo ex_hi (2 * PI / 500) 10 7 100 1 None false MainR0 dr = Ok v.
Proof.
  intros dr. apply C108_accepted.
  - pose proof PI_RGT_0. lra.
  - cbn. repeat split; try lia; discriminate.
Qed.
Print Assumptions C108_rounding_refuted.

(** ** C109: the images *)
(** finding: with r0 as main parameter (the default), the value of r0, though written in the name of the file and of its folder, has no
    effect on the image. *)
Theorem C109_r0_refuted : forall s st v r0' j k,
  gen_psf s MainR0 st (mkParams r0' (p_C v) (p_sig2 v) (p_ax v) (p_pe v) (p_be v) (p_stat v) (p_xint v) (p_sint v) (p_idx v) (p_ids v)) j k
  = gen_psf s MainR0 st v j k.
Proof.
  intros s st v r0' j k. unfold gen_psf. cbn [p_C p_sig2 p_ax p_pe p_be p_stat p_r0]. f_equal.
Qed.
Print Assumptions C109_r0_refuted.

(** C109: the spectrum used: correction inside the corrected area, and, only with the static modes as main parameter, the fitting spectrum
    r0^(-5/3) everywhere the latter is given. *)
Theorem C109_spectrum : forall s mp C0 sig2 r053 m i j,
  px (gen_psd s mp C0 sig2 r053 m) i j =
  match mp with MainStat => px (sc_msk s) i j * (C0 + px m i j * sig2) + r053 * px (sc_kolmo s) i j
              | _ => px (sc_msk s) i j * (C0 + px m i j * sig2) end.
Proof. intros. unfold gen_psd. cbn [px]. destruct mp; ring. Qed.
Print Assumptions C109_spectrum.

(** C109: the image is the inverse transform of the telescope OTF times exp(-D/2), D the phase structure function of the spectrum; its total
    is the value of the OTF at zero frequency (one for a normalised OTF). *)
Theorem C109_image : forall psd f otf, (0 < rows psd)%nat -> (0 < cols psd)%nat -> nonneg psd -> 0 <= f ->
  let sf u v := f * structure_function psd (hup (rows psd)) (hup (cols psd)) (Z.of_nat u) (Z.of_nat v) in
  exists im, gen_image psd f otf = Ok im /\ rows im = rows psd /\ cols im = cols psd /\
    im = re_img (fftshift (ifft2 (mkC (rows psd) (cols psd) (fun u v => Cmult (cpx otf u v) (RtoC (exp (- sf u v / 2))))))) /\
    img_sum im = fst (cpx otf 0 0) /\ (forall u v, 0 <= sf u v) /\ sf 0%nat 0%nat = 0.
Proof.
  intros psd f otf Hr Hc Hn Hf sf. unfold gen_image.
  assert (He : cis_empty (to_c psd) = false) by (unfold cis_empty; cbn [crows ccols to_c]; lia). rewrite He. cbv zeta.
  set (B := cmap (fun z => Cmult z (RtoC f)) (fft2 (fftshift (to_c psd)))).
  assert (Hmax : carr_max B = Ok (RtoC (f * img_sum psd))).
  { rewrite (carr_max_at B 0 0); [|exact Hr|exact Hc|].
    - f_equal. unfold B; cbn [cpx cmap]. rewrite cov_val by assumption.
      change (Z.of_nat 0) with 0%Z. rewrite covre_0, covim_0. apply C_eq; cbn; lra.
    - intros i j _ _. unfold B; cbn [cpx cmap].
      destruct (cov_dominates psd i j Hr Hc Hn) as [D|D].
      + destruct (Req_EM_T f 0) as [ ->|Hps].
        * right. apply C_eq; cbn; lra.
        * left. rewrite !cov_val in * by assumption. cbn in *. assert (0 < f) by lra. nra.
      + right. rewrite D. reflexivity. }
  rewrite Hmax. cbn [bind]. eexists. split; [reflexivity|]. split; [reflexivity|]. split; [reflexivity|].
  assert (EQ : forall u v, Cmult (cpx otf u v) (RtoC (exp (- (1 / 2) * fst (Cmult (RtoC 2) (Cminus (RtoC (f * img_sum psd)) (cpx B u v)))))) =
                      Cmult (cpx otf u v) (RtoC (exp (- sf u v / 2)))).
  { intros u v. f_equal. f_equal. f_equal. unfold sf. rewrite sf_covre. unfold B. cbn [cpx cmap]. rewrite cov_val by assumption. cbn. lra. }
  assert (EF : (fun i j => Cmult (cpx otf i j) (RtoC (exp (- (1 / 2) * fst (Cmult (RtoC 2) (Cminus (RtoC (f * img_sum psd)) (cpx B i j)))))))
             = (fun u v => Cmult (cpx otf u v) (RtoC (exp (- sf u v / 2))))).
  { apply FunctionalExtensionality.functional_extensionality. intros u. apply FunctionalExtensionality.functional_extensionality. intros v. apply EQ. }
  rewrite EF. split; [reflexivity|].
  assert (S0 : sf 0%nat 0%nat = 0) by (unfold sf; change (Z.of_nat 0) with 0%Z; rewrite sf_zero; ring).
  split; [|split; [|exact S0]].
  - rewrite sum_ifft by (cbn; assumption). cbn [cpx]. rewrite S0. replace (- 0 / 2) with 0 by field. rewrite exp_0. unfold Cmult, RtoC. cbn. ring.
  - intros u v. unfold sf. apply Rmult_le_pos; [exact Hf|]. apply sf_nonneg, Hn.
Qed.
Print Assumptions C109_image.

(** C109: with physical ingredients every image exists and its total is the value at zero frequency of the OTF used for it: the static
    OTF of its own coefficients (those of PSF j, or of PSF j and column k), or the diffraction-limited one. *)
Theorem C109_total : forall s mp st v j k,
  (0 < rows (sc_msk s))%nat -> (0 < cols (sc_msk s))%nat -> nonneg (sc_msk s) -> nonneg (sc_kolmo s) ->
  (forall a p b, nonneg (sc_moffat s a p b)) ->
  rows (sc_kolmo s) = rows (sc_msk s) -> cols (sc_kolmo s) = cols (sc_msk s) ->
  (forall a p b, rows (sc_moffat s a p b) = rows (sc_msk s) /\ cols (sc_moffat s a p b) = cols (sc_msk s)) ->
  0 <= p_C v j -> 0 <= p_sig2 v j k -> 0 <= sc_pix2freq s ->
  exists im, gen_psf s mp st v j k = Ok im /\ rows im = rows (sc_msk s) /\ cols im = cols (sc_msk s) /\
    img_sum im = fst (cpx (if st then sc_static s (stat_at (p_stat v) j k) else sc_otf s) 0 0).
Proof.
  intros s mp st v j k Hr Hc Hm Hk Hf Kr Kc Mr HC Hs Hp. unfold gen_psf. cbv zeta.
  set (m := sc_moffat s (p_ax v j) (nth j (p_pe v) 0) (p_be v j)).
  assert (Hn : nonneg (gen_psd s mp (p_C v j) (p_sig2 v j k) (r053_at (p_r0 v) j) m)).
  { unfold nonneg in *. intros a b Ha Hb. unfold gen_psd in *. cbn [rows cols px] in *.
    destruct (Mr (p_ax v j) (nth j (p_pe v) 0) (p_be v j)) as [M1 M2].
    assert (A : 0 <= px m a b) by (apply Hf; [rewrite M1; exact Ha|rewrite M2; exact Hb]).
    assert (B : 0 <= px (sc_msk s) a b) by (apply Hm; assumption).
    assert (D : 0 <= px (sc_kolmo s) a b) by (apply Hk; [rewrite Kr; exact Ha|rewrite Kc; exact Hb]).
    assert (E : 0 <= r053_at (p_r0 v) j) by (unfold r053_at; destruct (p_r0 v); [lra|left; apply exp_pos]).
    assert (0 <= px m a b * p_sig2 v j k) by (apply Rmult_le_pos; assumption).
    apply Rplus_le_le_0_compat; [apply Rmult_le_pos; [exact B|lra]|]. destruct mp; [lra|apply Rmult_le_pos; assumption|lra]. }
  destruct (C109_image (gen_psd s mp (p_C v j) (p_sig2 v j k) (r053_at (p_r0 v) j) m) (sc_pix2freq s) (if st then sc_static s (stat_at (p_stat v) j k) else sc_otf s) Hr Hc Hn Hp) as (im & E1 & E2 & E3 & _ & E5 & _).
  exists im. split; [exact E1|]. split; [exact E2|]. split; [exact E3|exact E5].
Qed.
Print Assumptions C109_total.
Definition ex_scene : scene :=
  mkScene (mkImg 4 4 (fun _ _ => 1)) (mkImg 4 4 (fun _ _ => 1)) 1 (mkC 4 4 (fun _ _ => RtoC 1)) (fun _ => mkC 4 4 (fun _ _ => RtoC 1)) (fun _ _ _ => mkImg 4 4 (fun _ _ => 2)).
Example ex_total : forall v j k, 0 <= p_C v j -> 0 <= p_sig2 v j k -> exists im, gen_psf ex_scene MainR0 false v j k = Ok im /\ img_sum im = 1.
Proof.
  intros v j k H1 H2. destruct (C109_total ex_scene MainR0 false v j k) as (im & E & _ & _ & Es); cbn; try lia; try lra; try assumption;
    try (unfold nonneg; cbn; intros; lra); try (intros; split; reflexivity); try (intros; unfold nonneg; cbn; intros; lra).
  exists im. split; [exact E|exact Es].
Qed.

(** C109: noise. Magnitude zero means no noise at all (finding); otherwise the detector noise is shifted so that its smallest value is zero: the
    background of the image is biased and no pixel is below its photon and sky counts. *)
Theorem C109_noise : forall mag zp dit ndit ron psf poi sky g,
  (mag = 0 -> gen_noise mag zp dit ndit ron psf poi sky g = Ok psf) /\
  (mag <> 0 -> forall im, gen_noise mag zp dit ndit ron psf poi sky g = Ok im ->
     let flux := Rpower 10 ((zp - mag) * (4 / 10)) * dit * ndit in
     rows im = rows psf /\ cols im = cols psf /\
     (exists m, (forall i j, (i < rows psf)%nat -> (j < cols psf)%nat -> px im i j = poi i j (flux * px psf i j) + sky i j + (ron * sqrt ndit * g i j - m) /\ m <= ron * sqrt ndit * g i j)) /\
     exists i j, (i < rows psf)%nat /\ (j < cols psf)%nat /\ px im i j = poi i j (flux * px psf i j) + sky i j).
Proof.
  intros mag zp dit ndit ron psf poi sky g. unfold gen_noise. split.
  - intros ->. destruct (Req_EM_T 0 0) as [_|H]; [reflexivity|congruence].
  - intros Hm im. destruct (Req_EM_T mag 0) as [|_]; [contradiction|]. destruct (Rlt_dec ndit 0) as [|_]; [discriminate|]. cbv zeta.
    destruct (existsb _ _); [discriminate|]. replace (- (4 / 10) * (mag - zp)) with ((zp - mag) * (4 / 10)) by ring.
    set (flux := Rpower 10 ((zp - mag) * (4 / 10)) * dit * ndit). set (dec := mkImg _ _ _).
    destruct (img_min dec) as [m|] eqn:Em; cbn [bind]; [|discriminate]. intros H. apply Ok_inj in H. subst im. cbn [rows cols px].
    unfold img_min in Em. destruct (list_min_spec _ _ Em) as [Hmin Hin].
    split; [reflexivity|]. split; [reflexivity|]. split.
    + exists m. intros i j Hi Hj. split; [reflexivity|]. apply (Hmin (px dec i j)). unfold pixels. apply in_flat_map. exists i. split; [apply in_seq; cbn; lia|].
      apply in_map_iff. exists j. split; [reflexivity|apply in_seq; cbn; lia].
    + unfold pixels in Hin. apply in_flat_map in Hin. destruct Hin as (i & Hi & Hin). apply in_map_iff in Hin. destruct Hin as (j & Ej & Hj).
      apply in_seq in Hi. apply in_seq in Hj. cbn in Hi, Hj. exists i, j. split; [lia|]. split; [lia|]. rewrite Ej. ring.
Qed.
Print Assumptions C109_noise.

(** C109: the test set: the same number of files from each of the n_sub folders, never more than asked, and fewer than n_sub less. A fraction is
    first turned into a whole number of files. *)
Theorem C109_test_count : forall n_test n_psf n_sub k, 0 <= n_test -> test_per_folder n_test n_psf n_sub = Ok k ->
  (1 <= n_test -> IZR k * INR n_sub <= n_test < (IZR k + 1) * INR n_sub) /\
  (n_test < 1 -> (0 <= k)%Z /\ IZR k * INR n_sub <= n_test * INR n_psf * INR n_sub /\ IZR k <= INR n_psf /\ n_test * INR n_psf * INR n_sub < (IZR k + 1) * INR n_sub + 1).
Proof.
  intros nt np ns k H0. unfold test_per_folder. destruct (Nat.eqb_spec ns 0) as [|Hs]; [discriminate|]. cbv zeta. intros H. apply Ok_inj in H. subst k.
  assert (Hp : 0 < INR ns) by (apply lt_0_INR; lia). pose proof (pos_INR np) as Hnp.
  assert (T : forall x, 0 <= x -> (0 <= Ztrunc (x / INR ns))%Z /\ IZR (Ztrunc (x / INR ns)) * INR ns <= x < (IZR (Ztrunc (x / INR ns)) + 1) * INR ns).
  { intros x Hx. assert (Hd : 0 <= x / INR ns) by (apply Rmult_le_pos; [exact Hx|left; apply Rinv_0_lt_compat, Hp]).
    rewrite Ztrunc_floor by exact Hd. pose proof (Zfloor_lb (x / INR ns)) as L. pose proof (Zfloor_ub (x / INR ns)) as U.
    split; [apply Zfloor_lub; exact Hd|]. assert (E : x = x / INR ns * INR ns) by (field; lra). split; [rewrite E at 2; nra|rewrite E at 1; nra]. }
  destruct (Rlt_dec nt 1) as [Hlt|Hge].
  - split; [lra|]. intros _. set (y := nt * INR np * INR ns). assert (Hy : 0 <= y) by (unfold y; apply Rmult_le_pos; [apply Rmult_le_pos; assumption|lra]).
    rewrite (Ztrunc_floor y Hy). pose proof (Zfloor_lb y) as L. pose proof (Zfloor_ub y) as U.
    assert (F0 : 0 <= IZR (Zfloor y)) by (apply IZR_le, Zfloor_lub; exact Hy).
    destruct (T _ F0) as (T1 & T2 & T3). set (k := Ztrunc (IZR (Zfloor y) / INR ns)) in *.
    split; [exact T1|]. split; [lra|]. split; [|lra].
    assert (y <= INR np * INR ns) by (unfold y; assert (0 <= INR np * INR ns) by (apply Rmult_le_pos; lra); nra).
    apply Rmult_le_reg_r with (INR ns); [exact Hp|lra].
  - split; [|lra]. intros _. apply T. exact H0.
Qed.
Example ex_test_count : exists k, test_per_folder (1 / 10) 3500 100 = Ok k.
Proof. eexists. reflexivity. Qed.
Print Assumptions C109_test_count.
