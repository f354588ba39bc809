(** C74: cone effect of a single laser guide star. *)
From Coq Require Import Reals List Arith ZArith Bool Lia Lra Psatz Sorting.Sorted.
From Verif Require Import Base_Py Base_Sum M_Tools M_Freq M_Atmo M_Sensor M_Model M_Model2 M_Cone L_Tools L_Atmo L_Model.
From Coquelicot Require Import Complex.
Import ListNotations.
Open Scope R_scope.

(** ** variance *)
Lemma meanf_ext n f g : (forall k, (k < n)%nat -> f k = g k) -> meanf n f = meanf n g.
Proof. intros H. unfold meanf. now rewrite (rsum_ext n f g H). Qed.
Lemma varf_nonneg n f : 0 <= varf n f.
Proof.
  unfold varf, meanf. destruct n as [|n]; [unfold Rdiv; cbn [rsum]; rewrite Rmult_0_l; lra|]. apply Rmult_le_pos; [apply rsum_nonneg; intros; apply pow2_ge_0|]. left. apply Rinv_0_lt_compat. apply lt_0_INR. lia.
Qed.
Lemma stdf_sq n f : stdf n f ^ 2 = varf n f.
Proof. unfold stdf. apply pow2_sqrt, varf_nonneg. Qed.
Lemma stdf_nonneg n f : 0 <= stdf n f.
Proof. apply sqrt_pos. Qed.
Lemma meanf_comb n f g q : meanf n (fun k => f k - q * g k) = meanf n f - q * meanf n g.
Proof. unfold meanf. rewrite rsum_minus, rsum_scal. unfold Rdiv. ring. Qed.
Lemma varf_comb n f g q : varf n (fun k => f k - q * g k) <= 2 * varf n f + 2 * (q ^ 2 * varf n g).
Proof.
  unfold varf. rewrite meanf_comb. set (mf := meanf n f). set (mg := meanf n g).
  assert (L : forall u v, (forall k, (k < n)%nat -> u k <= v k) -> meanf n u <= meanf n v).
  { intros u v H. unfold meanf. destruct n as [|m]; [cbn [rsum]; lra|]. apply Rmult_le_compat_r; [left; apply Rinv_0_lt_compat, lt_0_INR; lia|]. now apply rsum_le. }
  replace (2 * meanf n (fun k => (f k - mf) ^ 2) + 2 * (q ^ 2 * meanf n (fun k => (g k - mg) ^ 2))) with (meanf n (fun k => 2 * (f k - mf) ^ 2 + 2 * q ^ 2 * (g k - mg) ^ 2)).
  - apply L. intros k _. set (a := f k - mf). set (b := g k - mg). replace (f k - q * g k - (mf - q * mg)) with (a - q * b) by (unfold a, b; ring). pose proof (pow2_ge_0 (a + q * b)). nra.
  - unfold meanf. rewrite rsum_plus, !rsum_scal. unfold Rdiv. ring.
Qed.
Lemma varf_const n c : (0 < n)%nat -> varf n (fun _ => c) = 0.
Proof.
  intros H. assert (P : INR n <> 0) by (apply not_0_INR; lia). unfold varf, meanf. rewrite !rsum_const. field. exact P.
Qed.
Lemma rdiv_inv a b v : rdiv a b = Ok v -> b <> 0 /\ v = a / b.
Proof. unfold rdiv. destruct (Req_EM_T b 0); [discriminate|]. intros H. injection H as <-. now split. Qed.
Lemma cone_phase_range D f r p v : cone_phase D f r p = Ok v -> 0 <= v <= 2.
Proof.
  unfold cone_phase. cbv zeta. intros H. destruct (rdiv _ _) as [q|e] eqn:E in H; cbn [bind] in H; [|discriminate]. apply rdiv_inv in E. destruct E as (N & ->). apply rdiv_inv in H. destruct H as (N2 & ->).
  set (a := fun k => sin (2 * PI * f * xpos D k + 2 * PI * INR p / INR nPhase)) in *. set (b := fun k => sin (2 * PI * (f * r) * xpos D k + 2 * PI * INR p / INR nPhase)) in *.
  assert (A := stdf_nonneg nPoints a). assert (B := stdf_nonneg nPoints b). assert (A' : 0 < stdf nPoints a) by (destruct (Rle_lt_or_eq_dec _ _ A); [assumption|congruence]). set (q := stdf nPoints a / stdf nPoints b). set (c := fun k => a k - q * b k). assert (Cn := stdf_nonneg nPoints c).
  assert (V : stdf nPoints c ^ 2 <= (2 * stdf nPoints a) ^ 2).
  { rewrite stdf_sq. eapply Rle_trans; [apply varf_comb|]. rewrite <- !stdf_sq. unfold q. apply Req_le. field. exact N. }
  assert (V' : stdf nPoints c <= 2 * stdf nPoints a) by (apply Rnot_lt_le; intros X; nra).
  split; [apply Rmult_le_pos; [exact Cn|]; left; now apply Rinv_0_lt_compat|]. apply (Rmult_le_reg_r (stdf nPoints a)); [exact A'|]. unfold Rdiv. rewrite Rmult_assoc, Rinv_l by exact N2. rewrite Rmult_1_r. exact V'.
Qed.
Lemma mapM_prop {A B} (f : A -> result B) (P : B -> Prop) l r : mapM f l = Ok r -> (forall x y, In x l -> f x = Ok y -> P y) -> forall y, In y r -> P y.
Proof.
  revert r. induction l as [|a l IH]; intros r H HP y Hy; cbn [mapM] in H; [injection H as <-; destruct Hy|]. destruct (f a) as [b|e] eqn:Ea; cbn [bind] in H; [|discriminate]. destruct (mapM f l) as [r'|e] eqn:Er; cbn [bind] in H; [|discriminate]. injection H as <-.
  destruct Hy as [ <-|Hy]; [apply (HP a); [now left|exact Ea]|]. apply (IH r' eq_refl); [intros x z Hx Hz; apply (HP x); [now right|exact Hz]|exact Hy].
Qed.
Lemma mapM_len {A B} (f : A -> result B) l r : mapM f l = Ok r -> length r = length l.
Proof.
  revert r. induction l as [|a l IH]; intros r H; cbn [mapM] in H; [injection H as <-; reflexivity|]. destruct (f a) as [b|e]; cbn [bind] in H; [|discriminate]. destruct (mapM f l) as [r'|e]; cbn [bind] in H; [|discriminate]. injection H as <-. cbn. f_equal. now apply IH.
Qed.
Lemma lsum_le_const l c : (forall x, In x l -> x <= c) -> lsum l <= INR (length l) * c.
Proof. induction l as [|a l IH]; intros H; cbn [lsum fold_right length]; [cbn; lra|]. rewrite S_INR. assert (a <= c) by (apply H; now left). assert (lsum l <= INR (length l) * c) by (apply IH; intros; apply H; now right). unfold lsum in *. lra. Qed.
Lemma cone_coeff_range D kc f r v : cone_coeff D kc f r = Ok v -> 0 <= v <= 2.
Proof.
  unfold cone_coeff. destruct (Rlt_dec kc (f * r)); [intros H; injection H as <-; lra|]. destruct (Rlt_dec f _); [intros H; injection H as <-; lra|].
  intros H. destruct (mapM (cone_phase D f r) (seq 0 nPhase)) as [l|e] eqn:E; cbn [bind] in H; [|discriminate]. injection H as <-.
  assert (P := mapM_prop _ (fun v => 0 <= v <= 2) _ _ E (fun x y _ Hy => cone_phase_range D f r x y Hy)). assert (L := mapM_len _ _ _ E). rewrite seq_length in L. unfold nPhase in *.
  assert (0 <= lsum l) by (apply lsum_nonneg; intros x Hx; now apply P). assert (U := lsum_le_const l 2 (fun x Hx => proj2 (P x Hx))). rewrite L in U. replace (INR 5) with 5 in * by (cbn; ring). lra.
Qed.
(** ** interpolation *)
Lemma interp_from_range lo hi l : forall x x0 y0, x0 <= x -> lo <= y0 <= hi -> (forall p, In p l -> lo <= snd p <= hi) -> StronglySorted Rlt (x0 :: map fst l) -> lo <= interp_from x x0 y0 l <= hi.
Proof.
  induction l as [|(x1, y1) r IH]; intros x x0 y0 Hx Hy H HS; cbn [interp_from]; [exact Hy|]. assert (H1 := H (x1, y1) (or_introl eq_refl)). cbn [snd] in H1. inversion HS as [|? ? HS' HF]; subst. assert (X01 : x0 < x1) by (inversion HF; assumption). destruct (Rlt_dec x x1) as [L|L].
  - set (t := (x - x0) / (x1 - x0)). assert (T : 0 <= t <= 1) by (split; [apply Rmult_le_pos; [lra|left; apply Rinv_0_lt_compat; lra]|apply (Rmult_le_reg_r (x1 - x0)); [lra|]; unfold t, Rdiv; rewrite Rmult_assoc, Rinv_l by lra; lra]).
    replace (y0 + (x - x0) * ((y1 - y0) / (x1 - x0))) with ((1 - t) * y0 + t * y1) by (unfold t; field; lra). nra.
  - apply IH; [lra|exact H1|intros p Hp; apply H; now right|exact HS'].
Qed.
Lemma combine_map_fst {A B} (l : list A) (m : list B) : length l = length m -> map fst (combine l m) = l.
Proof. revert m. induction l as [|a l IH]; intros [|b m] H; cbn in *; try discriminate; [reflexivity|]. f_equal. apply IH. lia. Qed.
Lemma np_interp_range lo hi x xp fp v : np_interp x xp fp = Ok v -> (forall y, In y fp -> lo <= y <= hi) -> StronglySorted Rlt xp -> lo <= v <= hi.
Proof.
  unfold np_interp. destruct (Nat.eqb_spec (length xp) (length fp)) as [E|]; [|discriminate]. cbn [negb]. intros H Hf HS.
  assert (HM := combine_map_fst xp fp E). destruct (combine xp fp) as [|(x0, y0) r] eqn:EC; [discriminate|].
  assert (HI : forall p, In p ((x0, y0) :: r) -> lo <= snd p <= hi). { intros [a b] Hp. rewrite <- EC in Hp. apply in_combine_r in Hp. now apply Hf. }
  destruct (Rlt_dec x x0) as [L|L]; injection H as <-; [exact (HI (x0, y0) (or_introl eq_refl))|]. apply interp_from_range; [lra|exact (HI (x0, y0) (or_introl eq_refl))|intros p Hp; apply HI; now right|]. cbn [map fst] in HM. rewrite HM. exact HS.
Qed.
Lemma interp_from_zero step l : forall x x0 y0, x0 <= x -> (x - step < x0 -> y0 = 0) -> (forall p, In p l -> x - step < fst p -> snd p = 0) -> StronglySorted Rlt (x0 :: map fst l) ->
  (forall a b r s, x0 :: map fst l = r ++ a :: b :: s -> b - a <= step) -> (l = [] -> y0 = 0) -> (l <> [] -> snd (last l (0, 0)) = 0) -> interp_from x x0 y0 l = 0.
Proof.
  induction l as [|(x1, y1) r IH]; intros x x0 y0 Hx Hy H HS HG HE HL; cbn [interp_from]; [now apply HE|]. inversion HS as [|? ? HS' HF]; subst. assert (X01 : x0 < x1) by (inversion HF; assumption).
  assert (G01 : x1 - x0 <= step) by (apply (HG x0 x1 [] (map fst r)); reflexivity). destruct (Rlt_dec x x1) as [L|L].
  - rewrite Hy by lra. assert (E1 : y1 = 0) by (apply (H (x1, y1) (or_introl eq_refl)); cbn; lra). rewrite E1. unfold Rdiv. ring.
  - apply IH; [lra|intros Hs; apply (H (x1, y1) (or_introl eq_refl)); exact Hs|intros p Hp; apply H; now right|exact HS'| | |].
    + intros a b u s E. apply (HG a b (x0 :: u) s). cbn [map fst]. rewrite <- app_comm_cons, <- E. reflexivity.
    + intros ->. apply (HL ltac:(discriminate)).
    + intros Hr. specialize (HL ltac:(discriminate)). destruct r; [congruence|exact HL].
Qed.

(** ** C74 *)
(** layers given as (altitude, weight); one cut-off frequency *)
Lemma focal_inv D hl kc lays freqs k pa v : focalAnisoplanatismPSD D hl [kc] lays freqs k pa = Ok v ->
  exists l, mapM (fun p => cone_layer D freqs k pa (fst p, snd p, kc, hl)) lays = Ok l /\ v = lsum l.
Proof.
  unfold focalAnisoplanatismPSD, cone_kc. cbn [bind]. intros H. destruct (mapM _ _) as [l|e] eqn:E in H; cbn [bind] in H; [|discriminate]. injection H as <-. exists l. split; [|reflexivity]. rewrite <- E. clear.
  induction lays as [|x r IH]; [reflexivity|]. cbn [length repeat combine mapM fst snd]. now rewrite IH.
Qed.
Lemma lsum_F2_le {A} (f : A -> R) (l : list A) (m : list R) : Forall2 (fun a y => 0 <= y <= f a) l m -> 0 <= lsum m <= lsum (map f l).
Proof. induction 1 as [|a y l m H F IH]; cbn [map]; unfold lsum in *; cbn [fold_right]; lra. Qed.
(** C74: at every frequency the spectrum of the cone effect lies between 0 and four times
    the turbulence spectrum times the sum of the weights. *)
Theorem C74_bounds : forall D hl kc lays freqs k pa v, focalAnisoplanatismPSD D hl [kc] lays freqs k pa = Ok v -> StronglySorted Rlt freqs -> 0 <= pa -> (forall p, In p lays -> 0 <= snd p) ->
  0 <= v <= 4 * pa * lsum (map snd lays).
Proof.
  intros D hl kc lays freqs k pa v H HS Pa Pw. destruct (focal_inv _ _ _ _ _ _ _ _ H) as (l & E & ->). clear H.
  replace (4 * pa * lsum (map snd lays)) with (lsum (map (fun p => 4 * pa * snd p) lays)).
  - apply lsum_F2_le. revert l E. induction lays as [|x r IH]; intros l E; cbn [mapM] in E; [injection E as <-; constructor|].
    destruct (cone_layer _ _ _ _ _) as [y|e] eqn:Ey in E; cbn [bind] in E; [|discriminate]. destruct (mapM _ r) as [l'|e] eqn:El in E; cbn [bind] in E; [|discriminate]. injection E as <-. constructor.
    + clear IH El. unfold cone_layer in Ey. destruct (rdiv _ _) as [q|e]; cbn [bind] in Ey; [|discriminate]. destruct (mapM _ _) as [cs|e] eqn:Ec in Ey; cbn [bind] in Ey; [|discriminate]. destruct (np_interp _ _ _) as [c|e] eqn:Ei in Ey; cbn [bind] in Ey; [|discriminate]. injection Ey as <-.
      assert (R1 : 0 <= c <= 2). { apply (np_interp_range 0 2 _ _ _ _ Ei); [|exact HS]. intros y Hy. apply (mapM_prop _ (fun v => 0 <= v <= 2) _ _ Ec (fun f z _ Hz => cone_coeff_range D kc f q z Hz) y Hy). }
      assert (W := Pw x (or_introl eq_refl)). assert (C2 : 0 <= c ^ 2 <= 4) by (clear -R1; split; nra). assert (M : 0 <= pa * snd x) by (now apply Rmult_le_pos). replace (c * (c * 1) * pa * snd x) with (c ^ 2 * (pa * snd x)) by ring. replace (4 * pa * snd x) with (4 * (pa * snd x)) by ring. split; [apply Rmult_le_pos; [apply C2|exact M]|apply Rmult_le_compat_r; [exact M|apply C2]].
    + apply IH; [intros p Hp; apply Pw; now right|exact El].
  - clear. induction lays as [|x r IH]; unfold lsum in *; cbn [map fold_right]; [ring|]. rewrite IH. ring.
Qed.
Print Assumptions C74_bounds.
(** A layer at the ground brings nothing: the light of the laser and of the star follow the
    same path. *)
Theorem C74_ground : forall D hl kc w lays freqs k pa v, focalAnisoplanatismPSD D hl [kc] ((0, w) :: lays) freqs k pa = Ok v -> StronglySorted Rlt freqs -> focalAnisoplanatismPSD D hl [kc] lays freqs k pa = Ok v.
Proof.
  intros D hl kc w lays freqs k pa v H HS. destruct (focal_inv _ _ _ _ _ _ _ _ H) as (l & E & ->). cbn [mapM fst snd] in E.
  destruct (cone_layer _ _ _ _ _) as [y|e] eqn:Ey in E; cbn [bind] in E; [|discriminate]. destruct (mapM _ lays) as [l'|e] eqn:El in E; cbn [bind] in E; [|discriminate]. injection E as <-.
  assert (Y : y = 0).
  { unfold cone_layer in Ey. destruct (rdiv (hl - 0) hl) as [q|e] eqn:Eq; cbn [bind] in Ey; [|discriminate]. apply rdiv_inv in Eq. destruct Eq as (Nz & ->). replace ((hl - 0) / hl) with 1 in Ey by (field; exact Nz).
    destruct (mapM _ _) as [cs|e] eqn:Ec in Ey; cbn [bind] in Ey; [|discriminate]. destruct (np_interp _ _ _) as [c|e] eqn:Ei in Ey; cbn [bind] in Ey; [|discriminate]. injection Ey as <-.
    assert (R1 : 0 <= c <= 0). { apply (np_interp_range 0 0 _ _ _ _ Ei); [|exact HS]. intros y Hy. apply (mapM_prop _ (fun v => 0 <= v <= 0) _ _ Ec) with (y := y) in Hy; [exact Hy|]. intros f z _ Hz.
      unfold cone_coeff in Hz. destruct (Rlt_dec kc _); [injection Hz as <-; lra|]. destruct (Rlt_dec f _); [injection Hz as <-; lra|]. destruct (mapM (cone_phase D f 1) _) as [cl|e] eqn:Ecl; cbn [bind] in Hz; [|discriminate]. injection Hz as <-.
      assert (Z : forall u, In u cl -> u = 0).
      { apply (mapM_prop _ (fun u => u = 0) _ _ Ecl). intros p u _ Hu. unfold cone_phase in Hu. cbv zeta in Hu. rewrite (Rmult_1_r f) in Hu. destruct (rdiv _ _) as [qq|e] eqn:Eqq in Hu; cbn [bind] in Hu; [|discriminate]. apply rdiv_inv in Eqq. destruct Eqq as (Nq & ->). apply rdiv_inv in Hu. destruct Hu as (_ & ->).
        set (a := fun k => sin (2 * PI * f * xpos D k + 2 * PI * INR p / INR nPhase)) in *. replace (stdf nPoints a / stdf nPoints a) with 1 by (field; exact Nq).
        match goal with |- stdf nPoints ?F / _ = 0 => replace (stdf nPoints F) with 0; [unfold Rdiv; ring|] end. symmetry. change (stdf nPoints (fun k0 => a k0 - 1 * a k0) = 0). unfold stdf. rewrite <- sqrt_0. f_equal. transitivity (varf nPoints (fun _ => 0)); [|apply varf_const; unfold nPoints; lia]. unfold varf. rewrite meanf_comb. replace (meanf nPoints (fun _ => 0)) with 0 by (unfold meanf; rewrite rsum_const; unfold Rdiv; ring). apply meanf_ext. intros j _. ring. }
      assert (SZ : lsum cl = 0). { clear -Z. induction cl as [|u r IH]; [reflexivity|]. unfold lsum in *. cbn [fold_right]. rewrite IH by (intros; apply Z; now right). rewrite (Z u (or_introl eq_refl)). ring. }
      rewrite SZ. unfold Rdiv. rewrite Rmult_0_l. lra. }
    replace c with 0 by lra. ring. }
  rewrite Y. unfold focalAnisoplanatismPSD, cone_kc. cbn [bind].
  assert (M : mapM (fun x => cone_layer D freqs k pa (fst (fst x), snd (fst x), snd x, hl)) (combine lays (repeat kc (length lays))) = Ok l'). { rewrite <- El. clear. induction lays as [|x r IH]; [reflexivity|]. cbn [length repeat combine mapM fst snd]. now rewrite IH. }
  rewrite M. cbn [bind]. change (lsum (0 :: l')) with (0 + lsum l'). now rewrite Rplus_0_l.
Qed.
Print Assumptions C74_ground.
Lemma in_last {A} (x : A) l d : In (last (x :: l) d) (x :: l).
Proof. revert x. induction l as [|y l IH]; intros x; [now left|]. right. apply (IH y). Qed.
(** No contribution at a frequency that exceeds by one step the cut-off seen through the
    cone, for every layer. *)
Theorem C74_beyond_cutoff : forall D hl kc lays freqs k pa v step, focalAnisoplanatismPSD D hl [kc] lays freqs k pa = Ok v -> StronglySorted Rlt freqs ->
  (forall a b r s, freqs = r ++ a :: b :: s -> b - a <= step) -> (forall f, In f freqs -> f <= k) \/ (exists f r, freqs = f :: r /\ f <= k) ->
  (forall p f, In p lays -> In f freqs -> k - step < f \/ f = last freqs 0 -> kc < f * ((hl - fst p) / hl)) -> v = 0.
Proof.
  intros D hl kc lays freqs k pa v step H HS HG HK HC. destruct (focal_inv _ _ _ _ _ _ _ _ H) as (l & E & ->). clear H.
  assert (Z : forall u, In u l -> u = 0).
  { apply (mapM_prop _ (fun u => u = 0) _ _ E). intros p u Hp Hu. unfold cone_layer in Hu. destruct (rdiv _ _) as [q|e] eqn:Eq in Hu; cbn [bind] in Hu; [|discriminate]. apply rdiv_inv in Eq. destruct Eq as (Nz & ->).
    destruct (mapM _ _) as [cs|e] eqn:Ec in Hu; cbn [bind] in Hu; [|discriminate]. destruct (np_interp _ _ _) as [c|e] eqn:Ei in Hu; cbn [bind] in Hu; [|discriminate]. injection Hu as <-.
    assert (CZ : forall f y, In (f, y) (combine freqs cs) -> k - step < f \/ f = last freqs 0 -> y = 0).
    { intros f y Hfy Hf. assert (If := in_combine_l _ _ _ _ Hfy). assert (X := HC p f Hp If Hf).
      assert (G : cone_coeff D kc f ((hl - fst p) / hl) = Ok y). { clear -Ec Hfy. revert cs Ec Hfy. induction freqs as [|g r IH]; intros cs Ec Hfy; [destruct Hfy|]. cbn [mapM] in Ec. destruct (cone_coeff D kc g _) as [yg|e] eqn:Eg; cbn [bind] in Ec; [|discriminate]. destruct (mapM _ r) as [cr|e] eqn:Er; cbn [bind] in Ec; [|discriminate]. injection Ec as <-. cbn [combine] in Hfy. destruct Hfy as [Hfy|Hfy]; [injection Hfy as <- <-; exact Eg|]. now apply (IH cr). }
      unfold cone_coeff in G. destruct (Rlt_dec kc _); [injection G as <-; reflexivity|contradiction]. }
    unfold np_interp in Ei. destruct (Nat.eqb_spec (length freqs) (length cs)) as [EL|]; [|discriminate]. cbn [negb] in Ei. assert (HM := combine_map_fst freqs cs EL). destruct (combine freqs cs) as [|(x0, y0) r] eqn:EC; [discriminate|]. cbn [map fst] in HM.
    assert (K0 : x0 <= k). { destruct HK as [HK|(f & rr & Ef & HK)]; [apply HK; rewrite <- HM; now left|]. rewrite Ef in HM. injection HM as -> _. exact HK. }
    assert (LST : forall d, fst (last ((x0, y0) :: r) d) = last freqs 0). { intros d. rewrite <- HM. clear. revert x0 y0. induction r as [|(a, b) r IH]; intros x0 y0; [reflexivity|]. apply (IH a b). }
    destruct (Rlt_dec k x0); [lra|]. injection Ei as <-. rewrite (interp_from_zero step r k x0 y0 K0).
    - ring.
    - intros Hs. apply (CZ x0 y0); [now left|now left].
    - intros (a, b) Hab Hs. apply (CZ a b); [now right|now left].
    - rewrite HM. exact HS.
    - rewrite HM. exact HG.
    - intros ->. apply (CZ x0 y0); [now left|]. right. apply (LST (0, 0)).
    - intros Hr. destruct r as [|x1 r]; [congruence|]. pose proof (LST (0, 0)) as LL. change (last ((x0, y0) :: x1 :: r) (0, 0)) with (last (x1 :: r) (0, 0)) in LL. pose proof (in_last x1 r (0, 0)) as IL. destruct (last (x1 :: r) (0, 0)) as (a, b). cbn [snd]. cbn [fst] in LL. apply (CZ a b); [now right|now right]. }
  clear -Z. induction l as [|u r IH]; [reflexivity|]. unfold lsum in *. cbn [fold_right]. rewrite IH by (intros; apply Z; now right). rewrite (Z u (or_introl eq_refl)). ring.
Qed.
Print Assumptions C74_beyond_cutoff.
(** The samples of a sinusoid of less than half a period per sample are not all equal. *)
Lemma sine_std_pos u th : 0 < th < PI -> 0 < stdf nPoints (fun k => sin (u + INR k * th)).
Proof.
  intros Ht. set (f := fun k => sin (u + INR k * th)). assert (N0 := stdf_nonneg nPoints f). destruct (Rle_lt_or_eq_dec _ _ N0) as [|Z]; [assumption|exfalso].
  assert (V : varf nPoints f = 0) by (rewrite <- stdf_sq, <- Z; ring).
  assert (PN : INR nPoints <> 0) by (apply not_0_INR; unfold nPoints; lia).
  assert (VS : rsum nPoints (fun k => (f k - meanf nPoints f) ^ 2) = 0). { unfold varf, meanf at 1 in V. apply (Rmult_eq_compat_r (INR nPoints)) in V. unfold Rdiv in V. rewrite Rmult_assoc, Rinv_l, Rmult_1_r, Rmult_0_l in V by exact PN. exact V. }
  assert (E : forall k, (k < nPoints)%nat -> f k = meanf nPoints f).
  { intros k Hk. assert (L : (f k - meanf nPoints f) ^ 2 <= 0) by (rewrite <- VS; apply (rsum_term_le nPoints (fun k => (f k - meanf nPoints f) ^ 2) k); [intros; apply pow2_ge_0|exact Hk]). nra. }
  set (m := meanf nPoints f) in *. assert (E0 := E 0%nat ltac:(unfold nPoints; lia)). assert (E1 := E 1%nat ltac:(unfold nPoints; lia)). assert (E2 := E 2%nat ltac:(unfold nPoints; lia)). unfold f in E0, E1, E2.
  replace (u + INR 0 * th) with (u + th - th) in E0 by (cbn; ring). replace (u + INR 1 * th) with (u + th) in E1 by (cbn; ring). replace (u + INR 2 * th) with (u + th + th) in E2 by (cbn; ring).
  set (w := u + th) in *. rewrite sin_minus in E0. rewrite sin_plus in E2. pose proof (sin_gt_0 th (proj1 Ht) (proj2 Ht)) as S0. assert (C1 : cos th < 1). { rewrite <- cos_0. apply cos_decreasing_1; lra. }
  assert (SW : sin w = 0) by nra. assert (M0 : m = 0) by lra. assert (CW : cos w * sin th = 0) by nra. assert (CW' : cos w = 0) by (apply Rmult_integral in CW; lra). pose proof (sin2_cos2 w) as Q. unfold Rsqr in Q. rewrite SW, CW' in Q. lra.
Qed.
Lemma xpos_phase D g p k : 2 * PI * g * xpos D k + 2 * PI * INR p / INR nPhase = (2 * PI * g * D * (- / 2) + 2 * PI * INR p / INR nPhase) + INR k * (2 * PI * g * D / INR (nPoints - 1)).
Proof. unfold xpos. unfold Rdiv. ring. Qed.
Lemma cone_phase_defined D f r p : 0 < f * D / INR (nPoints - 1) < / 2 -> 0 < f * r * D / INR (nPoints - 1) < / 2 -> exists v, cone_phase D f r p = Ok v.
Proof.
  intros H1 H2. assert (G : forall g, 0 < g * D / INR (nPoints - 1) < / 2 -> stdf nPoints (fun k => sin (2 * PI * g * xpos D k + 2 * PI * INR p / INR nPhase)) <> 0).
  { intros g Hg. apply Rgt_not_eq. unfold stdf, varf. set (u := 2 * PI * g * D * (- / 2) + 2 * PI * INR p / INR nPhase). set (th := 2 * PI * g * D / INR (nPoints - 1)).
    assert (X := sine_std_pos u th). assert (T : 0 < th < PI) by (pose proof PI_RGT_0; unfold th; replace (2 * PI * g * D / INR (nPoints - 1)) with (2 * PI * (g * D / INR (nPoints - 1))) by (unfold Rdiv; ring); split; nra). specialize (X T).
    unfold stdf, varf in X. rewrite (meanf_ext nPoints (fun k => sin (2 * PI * g * xpos D k + 2 * PI * INR p / INR nPhase)) (fun k => sin (u + INR k * th))) by (intros k _; now rewrite xpos_phase).
    rewrite (meanf_ext nPoints _ (fun k => (sin (u + INR k * th) - meanf nPoints (fun k => sin (u + INR k * th))) ^ 2)) by (intros k _; now rewrite xpos_phase). exact X. }
  unfold cone_phase. cbv zeta. rewrite rdiv_ok by (now apply G). cbn [bind]. rewrite rdiv_ok by (now apply G). eexists. reflexivity.
Qed.
Lemma stdf_ext n f g : (forall k, (k < n)%nat -> f k = g k) -> stdf n f = stdf n g.
Proof. intros H. unfold stdf, varf. rewrite (meanf_ext n f g H). f_equal. apply meanf_ext. intros k Hk. now rewrite H. Qed.
Lemma cone_phase_0 D g p : cone_phase D g 0 p = Err NonFinite.
Proof.
  unfold cone_phase. cbv zeta. unfold rdiv at 1. destruct (Req_EM_T _ 0) as [_|N]; [reflexivity|]. exfalso. apply N.
  rewrite (stdf_ext nPoints _ (fun _ => sin (2 * PI * INR p / INR nPhase))) by (intros; f_equal; ring). unfold stdf. rewrite varf_const by (unfold nPoints; lia). apply sqrt_0.
Qed.
(** C74: it is defined when the layers are below the laser and the samples of the aperture
    resolve all the frequencies. *)
Theorem C74_defined : forall D hl kc lays freqs k pa, 0 < D -> freqs <> [] -> (forall f, In f freqs -> 0 < f /\ f * D < INR (nPoints - 1) / 2) -> (forall p, In p lays -> 0 <= fst p < hl) ->
  exists v, focalAnisoplanatismPSD D hl [kc] lays freqs k pa = Ok v.
Proof.
  intros D hl kc lays freqs k pa PD Hne Hf Hl. unfold focalAnisoplanatismPSD, cone_kc. cbn [bind]. assert (NP : 0 < INR (nPoints - 1)) by (apply lt_0_INR; unfold nPoints; lia).
  assert (E : exists l, mapM (fun x => cone_layer D freqs k pa (fst (fst x), snd (fst x), snd x, hl)) (combine lays (repeat kc (length lays))) = Ok l); [|destruct E as (l & ->); eexists; reflexivity].
  assert (T : forall (A B : Type) (g : A -> result B) l, (forall x, In x l -> exists y, g x = Ok y) -> exists r, mapM g l = Ok r).
  { intros A B g l. induction l as [|a l IH]; intros H; [eexists; reflexivity|]. cbn [mapM]. destruct (H a (or_introl eq_refl)) as (y & ->). destruct IH as (r & ->); [intros; apply H; now right|]. eexists. reflexivity. }
  apply T. intros ((h, w), c) Hx. apply in_combine_l in Hx. destruct (Hl (h, w) Hx) as (H0 & H1). cbn [fst snd] in *. unfold cone_layer. rewrite rdiv_ok by lra. cbn [bind].
  set (r := (hl - h) / hl). assert (R1 : 0 < r <= 1). { unfold r. split; [apply Rdiv_lt_0_compat; lra|]. apply (Rmult_le_reg_r hl); [lra|]. unfold Rdiv. rewrite Rmult_assoc, Rinv_l by lra. lra. }
  assert (E : exists cs, mapM (fun f => cone_coeff D c f r) freqs = Ok cs).
  { apply T. intros f Hff. destruct (Hf f Hff) as (F0 & F1). unfold cone_coeff. destruct (Rlt_dec c _); [eexists; reflexivity|]. destruct (Rlt_dec f _); [eexists; reflexivity|].
    assert (Q : exists l, mapM (cone_phase D f r) (seq 0 nPhase) = Ok l); [|destruct Q as (l & ->); eexists; reflexivity]. apply T. intros p _.
    assert (B1 : 0 < f * D) by nra. assert (I : 0 < / INR (nPoints - 1)) by (now apply Rinv_0_lt_compat).
    assert (G : forall y, 0 < y <= f * D -> 0 < y / INR (nPoints - 1) < / 2). { intros y Hy. split; [apply Rdiv_lt_0_compat; lra|]. apply (Rmult_lt_reg_r (INR (nPoints - 1))); [exact NP|]. unfold Rdiv. rewrite Rmult_assoc, Rinv_l by lra. lra. }
    apply cone_phase_defined; apply G; split; try lra; nra. }
  destruct E as (cs & Ec). rewrite Ec. cbn [bind]. assert (L := mapM_len _ _ _ Ec). unfold np_interp. rewrite L, Nat.eqb_refl. cbn [negb]. destruct freqs as [|f0 fr]; [congruence|]. destruct cs as [|c0 cr]; [discriminate|]. cbn [combine]. destruct (Rlt_dec k f0); eexists; reflexivity.
Qed.
Print Assumptions C74_defined.
(** REFUTED: (1) a layer at the altitude of the laser gives no finite result as soon as one
    frequency is at least 1e-5; (2) with several mirrors the cut-off frequencies are
    compared layer by layer with those of the mirrors: the call fails unless there are as
    many mirrors as layers. *)
Theorem C74_layer_at_laser_refuted : forall D hl kc w lays freqs k pa f, hl <> 0 -> 0 <= kc -> In f freqs -> 1 / 100000 <= f -> focalAnisoplanatismPSD D hl [kc] ((hl, w) :: lays) freqs k pa = Err NonFinite.
Proof.
  intros D hl kc w lays freqs k pa f Hz Hk Hf Hm. unfold focalAnisoplanatismPSD, cone_kc. cbn [bind length repeat combine mapM fst snd]. unfold cone_layer at 1. rewrite rdiv_ok by exact Hz. cbn [bind].
  replace ((hl - hl) / hl) with 0 by (field; exact Hz).
  assert (B : forall g, 1 / 100000 <= g -> cone_coeff D kc g 0 = Err NonFinite).
  { intros g Hg. unfold cone_coeff. rewrite Rmult_0_r. destruct (Rlt_dec kc 0); [lra|]. destruct (Rlt_dec g (1 / 100000)) as [L|L]; [lra|]. cbn [seq nPhase mapM]. rewrite cone_phase_0. reflexivity. }
  assert (B0 : forall g, cone_coeff D kc g 0 = Ok 0 \/ cone_coeff D kc g 0 = Err NonFinite).
  { intros g. destruct (Rle_dec (1 / 100000) g) as [L|L]; [right; now apply B|]. left. unfold cone_coeff. rewrite Rmult_0_r. destruct (Rlt_dec kc 0); [lra|]. destruct (Rlt_dec g (1 / 100000)); [reflexivity|lra]. }
  assert (M : mapM (fun f => cone_coeff D kc f 0) freqs = Err NonFinite).
  { induction freqs as [|g r IH]; [destruct Hf|]. cbn [mapM]. destruct Hf as [ ->|Hf]; [now rewrite (B f Hm)|]. destruct (B0 g) as [ ->| ->]; cbn [bind]; [now rewrite IH|reflexivity]. }
  rewrite M. reflexivity.
Qed.
Print Assumptions C74_layer_at_laser_refuted.
Theorem C74_several_mirrors_refuted : forall D hl kcs lays freqs k pa, length kcs <> 1%nat -> length kcs <> length lays ->
  focalAnisoplanatismPSD D hl kcs lays freqs k pa = Err (if (length lays =? 1)%nat then IndexError else ValueError).
Proof.
  intros D hl kcs lays freqs k pa H1 H2. unfold focalAnisoplanatismPSD, cone_kc. destruct (Nat.eqb_spec (length kcs) (length lays)); [contradiction|]. destruct kcs as [|c [|c' r]]; [|now contradict H1|]; destruct (length lays =? 1)%nat; reflexivity.
Qed.
Print Assumptions C74_several_mirrors_refuted.
Example C74_nonvacuous : let freqs := [1/8; 1/4; 1/2; 1] in let lays := [(0, 1/2); (5000, 1/2)] in
  StronglySorted Rlt freqs /\ (forall f, In f freqs -> 0 < f /\ f * 8 < INR (nPoints - 1) / 2) /\ (forall p, In p lays -> 0 <= fst p < 90000) /\ (forall p, In p lays -> 0 <= snd p) /\ exists v, focalAnisoplanatismPSD 8 90000 [1/2] lays freqs (1/4) 1 = Ok v.
Proof.
  intros freqs lays. assert (F : forall f, In f freqs -> 0 < f /\ f * 8 < INR (nPoints - 1) / 2). { assert (L : 100 <= INR (nPoints - 1)) by (replace 100 with (INR 100) by (rewrite INR_IZR_INZ; reflexivity); apply le_INR; unfold nPoints; lia). intros f [ <-|[ <-|[ <-|[ <-|[]]]]]; lra. }
  assert (Ly : forall p, In p lays -> 0 <= fst p < 90000) by (intros p [ <-|[ <-|[]]]; cbn; lra).
  split; [repeat constructor; lra|]. split; [exact F|]. split; [exact Ly|]. split; [intros p [ <-|[ <-|[]]]; cbn; lra|]. apply C74_defined; [lra|discriminate|exact F|exact Ly].
Qed.
