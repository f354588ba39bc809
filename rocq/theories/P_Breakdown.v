(** C28 (extra errors) and C27 (error breakdown). *)
From Coq Require Import Reals List Arith ZArith Bool String Lia Lra FunctionalExtensionality.
From Flocq Require Import Core.Raux.
From Verif Require Import Base_Py Base_Sum M_Tools S_Tools L_Tools L_Tools2 M_Freq L_Freq P_Freq M_Atmo S_Atmo L_Atmo M_Sensor M_Model S_Model L_Model L_Model2 P_Model P_Model2 M_Model2 S_Model2 L_Model3 P_Model3.
Import ListNotations.
Open Scope R_scope.

(** A frequency is selected by the bounds (a bound of 0 or less means none). *)
Definition selected (kmin kmax k : R) : Prop := (0 < kmin -> kmin <= k) /\ (0 < kmax -> k <= kmax).
Lemma piston_nonneg j1 D f : 0 <= pistonFilter j1 D f.
Proof. unfold pistonFilter. cbv zeta. destruct (Rlt_dec _ 0); lra. Qed.
Lemma extra_raw_val j1 D e kmin kmax k : 0 < k ->
  exists v, extra_raw j1 D e kmin kmax k = Ok v /\
  (selected kmin kmax k -> v = Rpower k e * pistonFilter j1 D k) /\ (~ selected kmin kmax k -> v = 0).
Proof.
  intros Hk. unfold extra_raw, rpow. destruct (Rlt_dec k 0); [lra|]. destruct (Req_EM_T k 0); [lra|]. cbn [bind]. cbv zeta.
  unfold selected. eexists. split; [reflexivity|].
  destruct (Rlt_dec 0 kmin), (Rlt_dec 0 kmax); try destruct (Rlt_dec k kmin); try destruct (Rlt_dec kmax k); split; intros H; try reflexivity; try (exfalso; lra); try (exfalso; apply H; split; intros; lra).
Qed.
Lemma extra_raw_nonneg j1 D e kmin kmax k v : 0 < k -> extra_raw j1 D e kmin kmax k = Ok v -> 0 <= v.
Proof.
  intros Hk H. destruct (extra_raw_val j1 D e kmin kmax k Hk) as (v' & E & A & B). rewrite E in H. apply Ok_inj in H. subst v'.
  destruct (Rlt_dec v 0) as [N|N]; [|lra]. exfalso. assert (P := Rpower_pos k e). assert (Q := piston_nonneg j1 D k).
  assert (~ selected kmin kmax k) by (intros S; rewrite (A S) in N; assert (0 <= Rpower k e * pistonFilter j1 D k) by (apply Rmult_le_pos; lra); lra). rewrite (B H) in N. lra.
Qed.

(** C28: the extra error PSD integrates to the requested error (nm^2), is
    non-negative, and vanishes exactly outside of the selected frequencies (or
    where the piston filter does); inside it follows the requested power law. *)
Theorem C28_extra_error :
  forall j1 D e kmin kmax nm rad2nm n fk g, (forall i j, (i < n)%nat -> (j < n)%nat -> 0 < fk i j) ->
  extraErrorPSD j1 D e kmin kmax nm rad2nm n fk = Ok g ->
  gsum n (grid_at g) * rad2nm ^ 2 = nm ^ 2 /\
  exists al, 0 <= al /\ (nm <> 0 -> 0 < al) /\ forall i j, (i < n)%nat -> (j < n)%nat ->
    (selected kmin kmax (fk i j) -> grid_at g i j = al * (Rpower (fk i j) e * pistonFilter j1 D (fk i j))) /\
    (~ selected kmin kmax (fk i j) -> grid_at g i j = 0).
Proof.
  intros j1 D e kmin kmax nm rad2nm n fk g Hk H. unfold extraErrorPSD in H. apply bindOk in H. destruct H as (g0 & Eg & H).
  destruct (Req_EM_T (lsum2 g0) 0) as [|NS]; [discriminate|]. destruct (Req_EM_T rad2nm 0) as [|NR]; [discriminate|]. apply Ok_inj in H. subst g.
  destruct (grid_res_spec _ _ _ Eg) as (L1 & L2 & V). assert (ES := lsum2_gsum n g0 L1 L2).
  assert (PS : 0 < lsum2 g0).
  { assert (0 <= lsum2 g0); [|lra]. rewrite ES. apply gsum_nonneg. intros i j Hi Hj. apply (extra_raw_nonneg j1 D e kmin kmax (fk i j)); [apply Hk; assumption|apply V; assumption]. }
  set (S := lsum2 g0) in *. assert (P2 : 0 < rad2nm ^ 2) by (apply pow2_gt_0; exact NR).
  split.
  - rewrite (gsum_ext n _ (fun i j => nm ^ 2 / S / rad2nm ^ 2 * grid_at g0 i j)).
    + rewrite gsum_scal, <- ES. field. split; assumption.
    + intros i j Hi Hj. rewrite (grid_at_map n g0) by assumption. field. split; assumption.
  - exists (nm ^ 2 / S / rad2nm ^ 2). split; [|split].
    + unfold Rdiv. apply Rmult_le_pos; [apply Rmult_le_pos; [apply pow2_ge_0|left; apply Rinv_0_lt_compat; exact PS]|left; apply Rinv_0_lt_compat; exact P2].
    + intros Hnm. assert (0 < nm ^ 2) by (apply pow2_gt_0; exact Hnm). apply Rdiv_lt_0_compat; [apply Rdiv_lt_0_compat|]; assumption.
    + intros i j Hi Hj. destruct (extra_raw_val j1 D e kmin kmax (fk i j) (Hk i j Hi Hj)) as (v & Ev & A & B). rewrite V in Ev by assumption. apply Ok_inj in Ev.
      rewrite (grid_at_map n g0) by assumption. rewrite Ev. split; intros Q; [rewrite (A Q)|rewrite (B Q)]; field; (split; assumption).
Qed.
Print Assumptions C28_extra_error.
(** C28: it is defined exactly when some selected frequency passes the piston filter. *)
Theorem C28_defined :
  forall j1 D e kmin kmax nm rad2nm n fk, (forall i j, (i < n)%nat -> (j < n)%nat -> 0 < fk i j) -> rad2nm <> 0 ->
  ((exists g, extraErrorPSD j1 D e kmin kmax nm rad2nm n fk = Ok g) <->
   exists i j, (i < n)%nat /\ (j < n)%nat /\ selected kmin kmax (fk i j) /\ 0 < pistonFilter j1 D (fk i j)).
Proof.
  intros j1 D e kmin kmax nm rad2nm n fk Hk HR. unfold extraErrorPSD.
  destruct (grid_res_total n (fun i j => extra_raw j1 D e kmin kmax (fk i j))) as (g0 & Eg).
  { intros i j Hi Hj. destruct (extra_raw_val j1 D e kmin kmax (fk i j) (Hk i j Hi Hj)) as (v & Ev & _). exists v. exact Ev. }
  rewrite Eg. cbn [bind]. destruct (grid_res_spec _ _ _ Eg) as (L1 & L2 & V). rewrite (lsum2_gsum n g0 L1 L2).
  assert (NN : forall i j, (i < n)%nat -> (j < n)%nat -> 0 <= grid_at g0 i j) by (intros i j Hi Hj; apply (extra_raw_nonneg j1 D e kmin kmax (fk i j)); [apply Hk; assumption|apply V; assumption]).
  split.
  - intros (g & H). destruct (Req_EM_T (gsum n (grid_at g0)) 0) as [|NS]; [discriminate|].
    assert (DEC : (exists i j, (i < n)%nat /\ (j < n)%nat /\ 0 < grid_at g0 i j) \/ forall i j, (i < n)%nat -> (j < n)%nat -> grid_at g0 i j = 0).
    { clear -NN. assert (Q : forall m, (m <= n)%nat -> (exists i j, (i < n)%nat /\ (j < n)%nat /\ 0 < grid_at g0 i j) \/ forall i j, (i < m)%nat -> (j < n)%nat -> grid_at g0 i j = 0).
      { induction m as [|m IH]; intros Hm; [right; intros; lia|]. destruct IH as [X|X]; [lia|left; exact X|].
        assert (Q2 : forall q, (q <= n)%nat -> (exists i j, (i < n)%nat /\ (j < n)%nat /\ 0 < grid_at g0 i j) \/ forall j, (j < q)%nat -> grid_at g0 m j = 0).
        { induction q as [|q IHq]; intros Hq; [right; intros; lia|]. destruct IHq as [Y|Y]; [lia|left; exact Y|].
          destruct (Rlt_dec 0 (grid_at g0 m q)) as [P|P]; [left; exists m, q; repeat split; [lia|lia|exact P]|]. right. intros j Hj. destruct (Nat.eq_dec j q) as [->|]; [|apply Y; lia]. assert (Z := NN m q ltac:(lia) ltac:(lia)). lra. }
        destruct (Q2 n (le_n n)) as [Y|Y]; [left; exact Y|]. right. intros i j Hi Hj. destruct (Nat.eq_dec i m) as [->|]; [apply Y; exact Hj|apply X; lia]. }
      apply Q. lia. }
    destruct DEC as [(i & j & Hi & Hj & P)|Z].
    + exists i, j. split; [exact Hi|]. split; [exact Hj|]. destruct (extra_raw_val j1 D e kmin kmax (fk i j) (Hk i j Hi Hj)) as (v & Ev & A & B). rewrite V in Ev by assumption. apply Ok_inj in Ev.
      assert (SEL : selected kmin kmax (fk i j)).
      { destruct (Rlt_dec 0 kmin) as [K1|K1], (Rlt_dec 0 kmax) as [K2|K2]; destruct (Rle_dec kmin (fk i j)) as [M1|M1], (Rle_dec (fk i j) kmax) as [M2|M2];
        try (split; intros; lra); exfalso; rewrite Ev, B in P; try lra; intros (X1 & X2); try (apply M1, X1; lra); try (apply M2, X2; lra). }
      split; [exact SEL|]. rewrite Ev, (A SEL) in P. assert (R := Rpower_pos (fk i j) e). assert (Q := piston_nonneg j1 D (fk i j)). nra.
    + exfalso. apply NS. rewrite (gsum_ext n _ (fun _ _ => 0)) by assumption. apply gsum_zero.
  - intros (i & j & Hi & Hj & SEL & P). destruct (Req_EM_T (gsum n (grid_at g0)) 0) as [ES|NS].
    + exfalso. destruct (extra_raw_val j1 D e kmin kmax (fk i j) (Hk i j Hi Hj)) as (v & Ev & A & _). rewrite V in Ev by assumption. apply Ok_inj in Ev. rewrite (A SEL) in Ev.
      assert (R := Rpower_pos (fk i j) e). assert (PV : 0 < grid_at g0 i j) by (rewrite Ev; apply Rmult_lt_0_compat; assumption).
      assert (T1 : grid_at g0 i j <= rsum n (fun j => grid_at g0 i j)) by (apply (rsum_term_le n (fun j => grid_at g0 i j) j); [intros; apply NN; assumption|exact Hj]).
      assert (T2 : rsum n (fun j => grid_at g0 i j) <= gsum n (grid_at g0)) by (apply (rsum_term_le n (fun i => rsum n (fun j => grid_at g0 i j)) i); [intros; apply rsum_nonneg; intros; apply NN; assumption|exact Hi]). lra.
    + destruct (Req_EM_T rad2nm 0); [contradiction|]. eexists; reflexivity.
Qed.
Print Assumptions C28_defined.

(** C28, low-order stars: with a pair (value on axis, value at the edge of the
    technical field) each star gets the linearly interpolated error, constant
    beyond the edge; its PSD integrates to it. *)
Theorem C28_low_order_interpolated :
  forall j1 D e kmin kmax rad2nm fov a0 a1 zens n fk res, (forall i j, (i < n)%nat -> (j < n)%nat -> 0 < fk i j) -> 0 < fov ->
  extraErrorLoPSD j1 D e kmin kmax rad2nm fov (LoList [a0; a1]) zens n fk = Ok res ->
  exists gs, res = LoMany gs /\ length gs = length zens /\
  forall k, (k < length zens)%nat -> 0 <= nth k zens 0 ->
    let z := nth k zens 0 in
    let amp := if Rlt_dec z (fov / 2) then a0 + (a1 - a0) * (z / (fov / 2)) else a1 in
    gsum n (grid_at (nth k gs [])) * rad2nm ^ 2 = amp ^ 2 /\ Rmin a0 a1 <= amp <= Rmax a0 a1 /\
    forall i j, (i < n)%nat -> (j < n)%nat -> 0 <= grid_at (nth k gs []) i j /\ (~ selected kmin kmax (fk i j) -> grid_at (nth k gs []) i j = 0).
Proof.
  intros j1 D e kmin kmax rad2nm fov a0 a1 zens n fk res Hk Hf H. unfold extraErrorLoPSD in H. apply bindOk in H. destruct H as (g0 & Eg & H).
  destruct (Req_EM_T (lsum2 g0) 0) as [|NS]; [discriminate|]. destruct (Req_EM_T rad2nm 0) as [|NR]; [discriminate|]. apply bindOk in H. destruct H as (gs & Egs & H). apply Ok_inj in H. subst res.
  exists gs. split; [reflexivity|]. apply mapM_inv in Egs. split; [symmetry; exact (Forall2_len _ _ _ Egs)|]. intros k Hkl Hz z amp.
  destruct (grid_res_spec _ _ _ Eg) as (L1 & L2 & V). assert (ES := lsum2_gsum n g0 L1 L2).
  assert (NN : forall i j, (i < n)%nat -> (j < n)%nat -> 0 <= grid_at g0 i j) by (intros i j Hi Hj; apply (extra_raw_nonneg j1 D e kmin kmax (fk i j)); [apply Hk; assumption|apply V; assumption]).
  assert (PS : 0 < lsum2 g0). { assert (0 <= lsum2 g0); [|lra]. rewrite ES. apply gsum_nonneg. exact NN. }
  assert (Q := Forall2_nth' _ _ _ 0 ([] : list (list R)) Egs k Hkl). cbv beta in Q. fold z in Q. apply bindOk in Q. destruct Q as (a & Ea & Q). apply Ok_inj in Q.
  assert (EA : a = amp).
  { unfold lo_amplitude, np_interp in Ea. cbn [length Nat.eqb negb combine] in Ea. fold z in Hz. destruct (Rlt_dec z 0); [lra|]. apply Ok_inj in Ea. cbn [interp_from] in Ea. unfold amp.
    destruct (Rlt_dec z (fov / 2)); [|congruence]. subst a. field. lra. }
  rewrite <- Q. clear Q. set (S := lsum2 g0) in *. assert (P2 : 0 < rad2nm ^ 2) by (apply pow2_gt_0; exact NR).
  split; [|split].
  - rewrite (gsum_ext n _ (fun i j => a ^ 2 / S / rad2nm ^ 2 * grid_at g0 i j)).
    + rewrite gsum_scal, <- ES, EA. field. split; assumption.
    + intros i j Hi Hj. rewrite (grid_at_map n g0) by assumption. field. split; assumption.
  - assert (R1 := Rmin_l a0 a1). assert (R2 := Rmin_r a0 a1). assert (R3 := Rmax_l a0 a1). assert (R4 := Rmax_r a0 a1). fold z in Hz. unfold amp. destruct (Rlt_dec z (fov / 2)) as [P|P]; [|lra].
    assert (T : 0 <= z / (fov / 2) <= 1).
    { split; [apply Rmult_le_pos; [exact Hz|left; apply Rinv_0_lt_compat; lra]|]. apply (Rmult_le_reg_r (fov / 2)); [lra|]. unfold Rdiv at 1. rewrite Rmult_assoc, Rinv_l by lra. lra. }
    set (t := z / (fov / 2)) in *. clearbody t. nra.
  - intros i j Hi Hj. rewrite (grid_at_map n g0) by assumption. split.
    + apply Rmult_le_pos; [apply Rmult_le_pos; [apply Rmult_le_pos; [apply NN; assumption|]|apply pow2_ge_0]|]; left; [apply Rdiv_lt_0_compat; lra|apply Rdiv_lt_0_compat; lra].
    + intros SEL. destruct (extra_raw_val j1 D e kmin kmax (fk i j) (Hk i j Hi Hj)) as (v & Ev & _ & B). rewrite V in Ev by assumption. apply Ok_inj in Ev. rewrite Ev, (B SEL). ring.
Qed.
Print Assumptions C28_low_order_interpolated.
(** C28: a list of another length is refused as soon as there is one star. *)
Theorem C28_low_order_list_length :
  forall j1 D e kmin kmax rad2nm fov l zens n fk, length l <> 2%nat -> zens <> [] ->
  (exists g, grid_res n (fun i j => extra_raw j1 D e kmin kmax (fk i j)) = Ok g /\ lsum2 g <> 0) -> rad2nm <> 0 ->
  extraErrorLoPSD j1 D e kmin kmax rad2nm fov (LoList l) zens n fk = Err ValueError.
Proof.
  intros j1 D e kmin kmax rad2nm fov l zens n fk Hl Hz (g & Eg & NS) NR. unfold extraErrorLoPSD. rewrite Eg. cbn [bind]. destruct (Req_EM_T (lsum2 g) 0); [contradiction|]. destruct (Req_EM_T rad2nm 0); [contradiction|].
  destruct zens as [|z zens]; [congruence|]. cbn [mapM lo_amplitude]. unfold np_interp. cbn [length].
  destruct (Nat.eqb_spec 2 (length l)); [congruence|]. reflexivity.
Qed.
Print Assumptions C28_low_order_list_length.

(** C27: the total wavefront error is the quadratic sum of the terms, each term is
    the non-negative square root of the integral of its PSD; the Marechal Strehl is
    a percentage. *)
Theorem C27_quadratic_sum :
  forall gain addMcao wind tiltOn rad2nm ncpa jit extra wvl s b,
  errorBreakDown gain addMcao wind tiltOn rad2nm ncpa jit extra wvl s = Ok (Some b) -> 0 <= rad2nm ->
  0 <= e_tot b /\
  e_tot b ^ 2 = e_ncpa b ^ 2 + e_fit b ^ 2 + e_al b ^ 2 + e_st b ^ 2 + e_n b ^ 2 + e_diff b ^ 2 + e_chrom b ^ 2 + e_jit b ^ 2 + e_mcao b ^ 2 + e_wind b ^ 2 + e_extra b ^ 2 /\
  e_ncpa b = ncpa /\ e_jit b = jit /\ e_extra b = extra /\
  (forall o x, In (o, x) [(b_fit s, e_fit b); (b_alias s, e_al b); (b_noise s, e_n b); (b_st s, e_st b); (b_diff s, e_diff b); (b_chrom s, e_chrom b)] ->
     exists v, o = Some v /\ 0 <= x /\ x ^ 2 = v * rad2nm ^ 2) /\
  (if addMcao then exists v, b_mcao s = Some v /\ e_mcao b ^ 2 = v * rad2nm ^ 2 /\ 0 <= e_mcao b else e_mcao b = 0) /\
  (if (negb tiltOn && wind)%bool then exists v, b_vib s = Some v /\ e_wind b ^ 2 = v * rad2nm ^ 2 /\ 0 <= e_wind b else e_wind b = 0) /\
  e_sr b = 100 * exp (- (2 * PI * (e_tot b * / 10 ^ 9) / wvl) ^ 2) /\ 0 < e_sr b <= 100.
Proof.
  intros gain addMcao wind tiltOn rad2nm ncpa jit extra wvl s b H HR. unfold errorBreakDown in H. destruct (Req_EM_T gain 0); [discriminate|].
  assert (W : forall o x, wfe_of o rad2nm = Ok x -> exists v, o = Some v /\ x ^ 2 = v * rad2nm ^ 2 /\ 0 <= x).
  { intros o x Hx. unfold wfe_of in Hx. destruct o as [v|]; [|discriminate]. apply bindOk in Hx. destruct Hx as (q & Eq & Hx). apply Ok_inj in Hx. subst x. unfold rsqrt in Eq. destruct (Rlt_dec v 0); [discriminate|]. apply Ok_inj in Eq. subst q.
    exists v. split; [reflexivity|]. split; [rewrite Rpow_mult_distr, pow2_sqrt by lra; reflexivity|]. apply Rmult_le_pos; [apply sqrt_pos|exact HR]. }
  repeat (match goal with K : bind (wfe_of _ _) _ = Ok _ |- _ => let x := fresh "x" in let E := fresh "E" in apply bindOk in K; destruct K as (x & E & K); apply W in E; destruct E as (? & ? & ? & ?) end).
  apply bindOk in H. destruct H as (mc & Emc & H). apply bindOk in H. destruct H as (wi & Ewi & H). apply bindOk in H. destruct H as (t & Et & H). apply bindOk in H. destruct H as (q & Eq & H).
  apply Ok_inj in H. match type of H with Some ?x = Some _ => assert (HB : x = b) by congruence end. clear H. subst b. cbn [e_tot e_ncpa e_fit e_al e_st e_n e_diff e_chrom e_jit e_mcao e_wind e_extra e_sr].
  unfold rsqrt in Et. destruct (Rlt_dec _ 0) as [|NN]; [discriminate|]. apply Ok_inj in Et.
  split; [subst t; apply sqrt_pos|]. split; [subst t; apply pow2_sqrt; apply Rnot_lt_le; exact NN|]. do 3 (split; [reflexivity|]).
  split; [|split; [|split]].
  - intros o y Hin. cbn [In] in Hin. repeat (destruct Hin as [Hin|Hin]; [apply (f_equal fst) in Hin as I1; apply (f_equal snd) in Hin; cbn [fst snd] in I1, Hin; subst o y; eexists; split; [eassumption|split; eassumption]|]). destruct Hin.
  - destruct addMcao; [|apply Ok_inj in Emc; congruence]. apply W in Emc. exact Emc.
  - destruct (_ && _)%bool; [|apply Ok_inj in Ewi; congruence]. apply W in Ewi. exact Ewi.
  - unfold rdiv in Eq. destruct (Req_EM_T wvl 0) as [|NW]; [discriminate|]. apply Ok_inj in Eq. split.
    + f_equal. f_equal. f_equal. subst q. f_equal. field. exact NW.
    + assert (P := exp_pos (- q ^ 2)). assert (exp (- q ^ 2) <= 1). { rewrite <- exp_0. assert (S := pow2_ge_0 q). destruct (Rle_lt_or_eq_dec 0 (q ^ 2) S) as [L|L]; [left; apply exp_increasing; lra|right; f_equal; lra]. } lra.
Qed.
Print Assumptions C27_quadratic_sum.
(** C27: the Strehl decreases when the total error increases. *)
Theorem C27_strehl_decreasing :
  forall g1 m1 w1 t1 r1 n1 j1 x1 s1 b1 g2 m2 w2 t2 r2 n2 j2 x2 s2 b2 wvl,
  errorBreakDown g1 m1 w1 t1 r1 n1 j1 x1 wvl s1 = Ok (Some b1) -> errorBreakDown g2 m2 w2 t2 r2 n2 j2 x2 wvl s2 = Ok (Some b2) -> 0 <= r1 -> 0 <= r2 ->
  (e_tot b1 < e_tot b2 <-> e_sr b2 < e_sr b1).
Proof.
  intros g1 m1 w1 t1 r1 n1 j1 x1 s1 b1 g2 m2 w2 t2 r2 n2 j2 x2 s2 b2 wvl H1 H2 P1 P2.
  assert (NW : wvl <> 0). { intros ->. unfold errorBreakDown in H1. destruct (Req_EM_T g1 0); [discriminate|]. repeat (apply bindOk in H1; destruct H1 as (? & ? & H1)). unfold rdiv in *. destruct (Req_EM_T 0 0); [discriminate|congruence]. }
  apply C27_quadratic_sum in H1; [|exact P1]. apply C27_quadratic_sum in H2; [|exact P2]. destruct H1 as (T1 & _ & _ & _ & _ & _ & _ & _ & S1 & _). destruct H2 as (T2 & _ & _ & _ & _ & _ & _ & _ & S2 & _). rewrite S1, S2.
  set (k := (2 * PI * / 10 ^ 9 / wvl) ^ 2). assert (Pk : 0 < k). { apply pow2_gt_0. assert (PP := PI_RGT_0). assert (0 < / 10 ^ 9) by (apply Rinv_0_lt_compat; apply pow_lt; lra). apply Rmult_integral_contrapositive_currified; [nra|apply Rinv_neq_0_compat; exact NW]. }
  assert (E : forall x, (2 * PI * (x * / 10 ^ 9) / wvl) ^ 2 = k * x ^ 2) by (intros x; unfold k; field; exact NW). rewrite !E. split; intros H.
  - apply Rmult_lt_compat_l; [lra|]. apply exp_increasing. assert (e_tot b1 ^ 2 < e_tot b2 ^ 2) by nra. nra.
  - apply Rmult_lt_reg_l in H; [|lra]. apply exp_lt_inv in H. assert (e_tot b1 ^ 2 < e_tot b2 ^ 2) by nra. nra.
Qed.
Print Assumptions C27_strehl_decreasing.

(** What errorBreakDown finds after powerSpectrumDensity, for source s. *)
Definition stored (c : psdcfg) (p : parts) (o n r s : nat) : sums :=
  mkSums (Some (gsum n (p_fit p))) (Some (gsum r (p_alias p))) (Some (gsum r (p_noise p s))) (Some (gsum r (p_st p s))) (Some (gsum r (p_diff p s))) (Some (gsum r (p_chrom p s)))
    (if many_lasers c then Some (gsum n (fun a b => p_mcao p (correction_errors c p o r) 0%nat a b)) else None)
    (if (negb (k_tiltOn c) && k_wind c)%bool then Some (gsum r (p_vib p)) else None).
(** C27: the PSD of a source integrates to the total error of the breakdown
    (without the terms that are not in the PSD: static aberrations and jitter),
    except (finding) for the cone effect of a single laser guide star, missing in
    the breakdown, and the multi-laser cone error, taken from the first source. *)
Theorem C27_matches_the_psd :
  forall (c : psdcfg) (p : parts) (n r s : nat) gain ncpa jit wvl, k_n c = Z.of_nat n -> k_r c = Z.of_nat r -> (1 <= r)%nat -> (r <= n)%nat ->
  k_wfe c = None -> k_tiltOn c = false -> k_ngsPos c = false -> 0 <= k_extra c -> 0 <= k_dk c * k_rad2nm c ->
  gsum n (p_extra p) * (k_dk c * k_rad2nm c) ^ 2 = k_extra c ^ 2 ->
  exists o, centred_at n r o /\ forall b g,
  errorBreakDown gain (k_addMcao c) (k_wind c) (k_tiltOn c) (k_dk c * k_rad2nm c) ncpa jit (k_extra c) wvl (stored c p o n r s) = Ok (Some b) ->
  (forall i j, (i < n)%nat -> (j < n)%nat -> powerSpectrumDensity c p s i j = Ok (g i j)) ->
  gsum n g + ncpa ^ 2 + jit ^ 2 =
    e_tot b ^ 2 + (when (one_laser c) (gsum n (p_cone p))
                   + when (many_lasers c) (gsum n (fun i j => p_mcao p (correction_errors c p o r) s i j) - gsum n (fun i j => p_mcao p (correction_errors c p o r) 0%nat i j)))
                  * (k_dk c * k_rad2nm c) ^ 2.
Proof.
  intros c p n r s gain ncpa jit wvl Hn Hr Hr1 Hrn Hw Ht Hl He Hu Hx.
  destruct (C26_total_is_the_sum c p n r Hn Hr Hr1 Hrn Hw Ht) as (o & Ho & HT).
  assert (EO : o = area_off n r). { destruct Ho as [Ho|Ho], (area_off_centred n r) as [Q|Q]; lia. }
  exists o. split; [exact Ho|]. intros b g HB Hg. set (u := (k_dk c * k_rad2nm c) ^ 2) in *.
  apply C27_quadratic_sum in HB; [|exact Hu]. destruct HB as (_ & T & E1 & E2 & E3 & HI & HM & HW & _). fold u in HI, HM, HW.
  assert (W : forall A x, In (Some A, x) [(b_fit (stored c p o n r s), e_fit b); (b_alias (stored c p o n r s), e_al b); (b_noise (stored c p o n r s), e_n b); (b_st (stored c p o n r s), e_st b); (b_diff (stored c p o n r s), e_diff b); (b_chrom (stored c p o n r s), e_chrom b)] -> x ^ 2 = A * u).
  { intros A x HA. destruct (HI _ _ HA) as (v & Ev & _ & E). congruence. }
  cbn [stored b_fit b_alias b_noise b_st b_diff b_chrom b_mcao b_vib] in W, HM, HW.
  rewrite T, E1, E2, E3. rewrite (W (gsum n (p_fit p)) (e_fit b)), (W (gsum r (p_alias p)) (e_al b)), (W (gsum r (p_noise p s)) (e_n b)), (W (gsum r (p_st p s)) (e_st b)), (W (gsum r (p_diff p s)) (e_diff b)), (W (gsum r (p_chrom p s)) (e_chrom b)) by (cbn [In]; tauto).
  assert (EM : e_mcao b ^ 2 = when (many_lasers c) (gsum n (fun i j => p_mcao p (correction_errors c p o r) 0%nat i j)) * u).
  { destruct (many_lasers c) eqn:ML; cbn [when].
    - assert (AM : k_addMcao c = true) by (unfold many_lasers in ML; destruct (k_addMcao c); [reflexivity|discriminate]). rewrite AM in HM. destruct HM as (v & Ev & HM & _). apply (f_equal (fun o => match o with Some x => x | None => 0 end)) in Ev. rewrite HM. f_equal. symmetry. exact Ev.
    - destruct (k_addMcao c); [destruct HM as (v & Ev & _); discriminate|]. rewrite HM. ring. }
  assert (EW : e_wind b ^ 2 = when (k_wind c) (gsum r (p_vib p)) * u).
  { rewrite Ht in HW. cbn [negb andb] in HW. destruct (k_wind c); cbn [when]; [|rewrite HW; ring]. destruct HW as (v & Ev & HW & _). apply (f_equal (fun o => match o with Some x => x | None => 0 end)) in Ev. rewrite HW. f_equal. symmetry. exact Ev. }
  rewrite EM, EW. clear EM EW HM HW HI W T E1 E2 E3.
  assert (GE : forall A, gsum n (fun a b => when (inside o r a b) (A (a - o)%nat (b - o)%nat)) = gsum r A).
  { intros A. rewrite <- (gsum_embed c n r Hn Hr Hr1 Hrn A). apply gsum_ext. intros a b0 _ _. rewrite (embed_when c n r Hn Hr Hr1 Hrn), EO. reflexivity. }
  assert (X : exists x, (forall i j, psd_extra c p s i j = Ok (x i j)) /\ gsum n x * u = k_extra c ^ 2).
  { destruct (Rle_lt_or_eq_dec 0 (k_extra c) He) as [P|P].
    - exists (p_extra p). split; [|exact Hx]. intros i j. unfold psd_extra, nLO_. rewrite Hl. cbn [andb Nat.ltb Nat.leb]. destruct (Rlt_dec 0 (k_extra c)); [reflexivity|lra].
    - exists (fun _ _ => 0). split; [|rewrite gsum_zero, <- P; ring]. intros i j. unfold psd_extra, nLO_. rewrite Hl. cbn [andb Nat.ltb Nat.leb]. destruct (Rlt_dec 0 (k_extra c)); [lra|reflexivity]. }
  destruct X as (x & Ex & Sx).
  rewrite (gsum_ext n g (fun i j => all_errors c p o r s i j (x i j) * u)) by (intros i j Hi Hj; assert (Q := Hg i j Hi Hj); rewrite (HT s i j (x i j) (Ex i j)) in Q; apply Ok_inj in Q; symmetry; exact Q).
  rewrite gsum_scal_r. rewrite <- Sx.
  assert (SUM : gsum n (fun i j => all_errors c p o r s i j (x i j)) =
     gsum r (p_noise p s) + gsum r (p_alias p) + gsum r (p_diff p s) + gsum r (p_chrom p s) + gsum r (p_st p s) + when (one_laser c) (gsum n (p_cone p))
     + when (many_lasers c) (gsum n (fun i j => p_mcao p (correction_errors c p o r) s i j)) + gsum n (p_fit p) + when (k_wind c) (gsum r (p_vib p)) + gsum n x).
  { rewrite <- (GE (p_noise p s)), <- (GE (p_alias p)), <- (GE (p_diff p s)), <- (GE (p_chrom p s)), <- (GE (p_st p s)), <- (GE (p_vib p)).
    assert (GW : forall bb f, when bb (gsum n f) = gsum n (fun i j => when bb (f i j))) by (intros [] f; cbn [when]; [reflexivity|symmetry; apply gsum_zero]). rewrite !GW.
    rewrite <- !gsum_plus. apply gsum_ext. intros i j _ _. unfold all_errors, correction_errors. destruct (inside o r i j), (k_wind c); cbn [when andb]; ring. }
  rewrite SUM. unfold when. destruct (one_laser c), (many_lasers c); ring.
Qed.
Print Assumptions C27_matches_the_psd.
(** C27: a missing PSD stops the breakdown (AttributeError): the multi-laser term
    when the option is set without laser or with a single guide star, any term after
    the PSDs were released; an open loop has no breakdown. *)
Theorem C27_missing_terms :
  forall gain addMcao wind tiltOn rad2nm ncpa jit extra wvl s,
  (gain = 0 -> errorBreakDown gain addMcao wind tiltOn rad2nm ncpa jit extra wvl s = Ok None) /\
  (gain <> 0 -> b_fit s = None -> errorBreakDown gain addMcao wind tiltOn rad2nm ncpa jit extra wvl s = Err AttributeError) /\
  (gain <> 0 -> addMcao = true -> b_mcao s = None ->
     (forall o, In o [b_fit s; b_alias s; b_noise s; b_st s; b_diff s; b_chrom s] -> exists v, o = Some v /\ 0 <= v) ->
     errorBreakDown gain addMcao wind tiltOn rad2nm ncpa jit extra wvl s = Err AttributeError).
Proof.
  intros gain addMcao wind tiltOn rad2nm ncpa jit extra wvl s. unfold errorBreakDown. split; [|split].
  - intros ->. destruct (Req_EM_T 0 0); [reflexivity|congruence].
  - intros Hg Hf. destruct (Req_EM_T gain 0); [contradiction|]. rewrite Hf. reflexivity.
  - intros Hg Hm Hmc H. destruct (Req_EM_T gain 0); [contradiction|]. rewrite Hm, Hmc.
    assert (W : forall o, In o [b_fit s; b_alias s; b_noise s; b_st s; b_diff s; b_chrom s] -> exists x, wfe_of o rad2nm = Ok x).
    { intros o Ho. destruct (H o Ho) as (v & -> & Pv). unfold wfe_of, rsqrt. destruct (Rlt_dec v 0); [lra|]. eexists; reflexivity. }
    cbn [In] in W.
    destruct (W (b_fit s)) as (? & ->); [tauto|]. destruct (W (b_alias s)) as (? & ->); [tauto|]. destruct (W (b_noise s)) as (? & ->); [tauto|]. destruct (W (b_st s)) as (? & ->); [tauto|]. destruct (W (b_diff s)) as (? & ->); [tauto|]. destruct (W (b_chrom s)) as (? & ->); [tauto|]. reflexivity.
Qed.
Print Assumptions C27_missing_terms.

(** ** Concrete cases meeting the hypotheses *)
Definition ex_parts : parts :=
  mkParts (fun _ _ _ => 1) (fun _ _ => 2) (fun _ _ _ => 3) (fun _ _ _ => 4) (fun s _ _ => 5 + INR s) (fun _ _ => 7) (fun _ _ _ _ => 0) (fun _ _ => 8) (fun _ _ => 9) (fun _ _ => 1)
    (fun _ _ => 1 / 64) (LoMany [repeat (repeat 1 8) 8]).
Definition ex_cfg (laser : R) (ngs : bool) : psdcfg := mkPC 8 4 2 1 laser false None false true 1 ngs 1 1 1 1.
Example C26_total_ex : forall laser,
  (exists v, powerSpectrumDensity (ex_cfg laser false) ex_parts 0 4 4 = Ok v) /\ (exists v, powerSpectrumDensity (ex_cfg laser true) ex_parts 1 0 0 = Ok v) /\
  parts_nonneg 8 4 2 ex_parts /\
  psd_extra (ex_cfg laser true) ex_parts 1 0 0 = Ok 1 /\ psd_extra (ex_cfg laser true) ex_parts 0 0 0 = Ok (1 / 64).
Proof.
  intros laser. assert (Q : forall ngs, exists o, centred_at 8 4 o /\ forall s a b x, psd_extra (ex_cfg laser ngs) ex_parts s a b = Ok x ->
    powerSpectrumDensity (ex_cfg laser ngs) ex_parts s a b = Ok (all_errors (ex_cfg laser ngs) ex_parts o 4 s a b x * (k_dk (ex_cfg laser ngs) * k_rad2nm (ex_cfg laser ngs)) ^ 2)).
  { intros ngs. apply C26_total_is_the_sum; reflexivity || (cbn; lia). }
  assert (X1 : psd_extra (ex_cfg laser true) ex_parts 1 0 0 = Ok 1).
  { apply (C26_extra_error_of_source (ex_cfg laser true) ex_parts 1 0 0 ltac:(cbn; lia)) with (k := 0%nat) (gs := [repeat (repeat 1 8) 8]); reflexivity || (cbn; lia) || (cbn; lra). }
  assert (X2 : forall ngs a b, psd_extra (ex_cfg laser ngs) ex_parts 0 a b = Ok (1 / 64)).
  { intros ngs a b. apply (C26_extra_error_of_source (ex_cfg laser ngs) ex_parts 0 a b ltac:(cbn; lia)); [|cbn; lra]. cbn. right; right; left. lia. }
  split; [|split; [|split; [|split]]].
  - destruct (Q false) as (o & _ & H). eexists. apply H. apply X2.
  - destruct (Q true) as (o & _ & H). eexists. apply H. exact X1.
  - unfold parts_nonneg, ex_parts. cbn [p_noise p_alias p_diff p_chrom p_st p_cone p_mcao p_fit p_vib p_tilt p_extra p_lo]. 
    split; [intros s i j _ _ _; assert (P := pos_INR s); lra|]. split; [intros; lra|]. split; [intros; lra|]. split; [intros; lra|].
    { intros g a b [ <-|[]] Ha Hb. unfold grid_at. do 8 (destruct a as [|a]; [do 8 (destruct b as [|b]; [cbn; lra|]); lia|]). lia. }
  - exact X1.
  - apply X2.
Qed.
Example C27_ex : exists b, errorBreakDown (1 / 2) false true false 1 3 4 1 (/ 10 ^ 6) (stored (ex_cfg 0 false) ex_parts 2 8 4 0) = Ok (Some b).
Proof.
  assert (W : forall v, 0 <= v -> exists x, wfe_of (Some v) 1 = Ok x). { intros v Hv. unfold wfe_of, rsqrt. destruct (Rlt_dec v 0); [lra|]. eexists; reflexivity. }
  assert (G : forall n f, (forall i j, 0 <= f i j) -> 0 <= gsum n f) by (intros n f H; apply gsum_nonneg; auto).
  unfold errorBreakDown. destruct (Req_EM_T (1 / 2) 0); [lra|]. unfold stored. cbn [k_tiltOn k_wind ex_cfg negb andb b_fit b_alias b_noise b_st b_diff b_chrom b_mcao b_vib].
  destruct (W (gsum 8 (p_fit ex_parts))) as (x1 & ->); [apply G; intros; cbn; lra|]. destruct (W (gsum 4 (p_alias ex_parts))) as (x2 & ->); [apply G; intros; cbn; lra|].
  destruct (W (gsum 4 (p_noise ex_parts 0))) as (x3 & ->); [apply G; intros; cbn; lra|]. destruct (W (gsum 4 (p_st ex_parts 0))) as (x4 & ->); [apply G; intros; cbn; lra|].
  destruct (W (gsum 4 (p_diff ex_parts 0))) as (x5 & ->); [apply G; intros; cbn; lra|]. destruct (W (gsum 4 (p_chrom ex_parts 0))) as (x6 & ->); [apply G; intros; cbn; lra|].
  destruct (W (gsum 4 (p_vib ex_parts))) as (x7 & ->); [apply G; intros; cbn; lra|]. cbn [bind]. unfold rsqrt.
  destruct (Rlt_dec _ 0) as [N|N].
  - exfalso. assert (A1 := pow2_ge_0 x1). assert (A2 := pow2_ge_0 x2). assert (A3 := pow2_ge_0 x3). assert (A4 := pow2_ge_0 x4). assert (A5 := pow2_ge_0 x5). assert (A6 := pow2_ge_0 x6). assert (A7 := pow2_ge_0 x7). lra.
  - cbn [bind]. rewrite rdiv_ok by (apply Rinv_neq_0_compat, pow_nonzero; lra). eexists. reflexivity.
Qed.
Example C28_ex : exists g, extraErrorPSD (fun _ => 0) 8 (-2) (1 / 2) 3 10 1 2 (fun i j => 1 + INR i) = Ok g.
Proof.
  apply C28_defined; [intros i j _ _; assert (P := pos_INR i); lra|lra|]. exists 0%nat, 0%nat. split; [lia|]. split; [lia|]. split.
  - unfold selected. cbn. lra.
  - unfold pistonFilter, sombrero1. cbv zeta. assert (P := PI_RGT_0). cbn [INR]. destruct (Req_EM_T (1 + 0) 0); [lra|]. destruct (Req_EM_T (PI * 8 * (1 + 0)) 0); [lra|].
    unfold Rdiv. rewrite Rmult_0_l. destruct (Rlt_dec _ 0); lra.
Qed.
