(** C86 (wind speed) and C87 (radial averages and update of the atmosphere). *)
From Coq Require Import Reals List Arith ZArith Lia Lra Psatz Permutation Sorting.Sorted.
From Coq Require Import ZifyBool ZifyNat.
From Verif Require Import Base_Py Base_Sum M_Image M_Tools S_Tools M_Freq L_Freq M_Atmo M_Model M_Model2 M_Diag L_Atmo L_Tools L_Tools2 L_Model3 L_Flux P_Tools M_Tools M_Freq P_Diag4.
From Verif Require P_Aniso2.
Import ListNotations.
Open Scope R_scope.

Lemma rdiv_inv' a b c : rdiv a b = Ok c -> b <> 0 /\ c = a / b.
Proof. unfold rdiv. destruct (Req_EM_T b 0); [discriminate|]. intros H. apply Ok_inj in H. subst. split; [assumption|reflexivity]. Qed.
Lemma mapM_ok {A B} (f : A -> result B) (g : A -> B) l : (forall a, In a l -> f a = Ok (g a)) -> mapM f l = Ok (map g l).
Proof. induction l as [|a l IH]; intros H; [reflexivity|]. cbn [mapM map]. rewrite H by (left; reflexivity). cbn [bind]. rewrite IH by (intros; apply H; right; assumption). reflexivity. Qed.
Lemma mapM_rel {A A' B B'} (f : A -> result B) (f' : A' -> result B') (R1 : A -> A' -> Prop) (R2 : B -> B' -> Prop) :
  (forall a a' b, R1 a a' -> f a = Ok b -> exists b', f' a' = Ok b' /\ R2 b b') ->
  forall l l' r, Forall2 R1 l l' -> mapM f l = Ok r -> exists r', mapM f' l' = Ok r' /\ Forall2 R2 r r'.
Proof.
  intros H l l' r F. revert r. induction F as [|a a' l l' Ha F IH]; intros r E; [apply Ok_inj in E; subst; exists []; split; [reflexivity|constructor]|].
  cbn [mapM] in *. apply bindOk in E. destruct E as (b & Eb & E). apply bindOk in E. destruct E as (s & Es & E). apply Ok_inj in E. subst r.
  destruct (H a a' b Ha Eb) as (b' & -> & Hb). destruct (IH s Es) as (s' & -> & Hs). cbn [bind]. eexists. split; [reflexivity|constructor; assumption].
Qed.

Lemma select_in nrad l v : length l = length nrad -> In v nrad -> select nrad v l <> [].
Proof.
  revert l. induction nrad as [|n nrad IH]; intros [|x l] L I; try discriminate; [destruct I|]. unfold select. cbn [combine filter fst]. destruct (Req_EM_T n v) as [E|E]; [cbn; discriminate|].
  destruct I as [I|I]; [contradiction|]. apply IH; [cbn in L; lia|exact I].
Qed.
Lemma select_map nrad (g : R -> R) l v : select nrad v (map g l) = map g (select nrad v l).
Proof. unfold select. revert l. induction nrad as [|n nrad IH]; intros [|x l]; try reflexivity. cbn [map combine filter fst]. destruct (Req_EM_T n v); cbn [map snd]; rewrite IH; reflexivity. Qed.
Lemma select_const nrad (g : R -> R) v : select nrad v (map g nrad) = repeat (g v) (length (select nrad v nrad)).
Proof. unfold select. induction nrad as [|n nrad IH]; [reflexivity|]. cbn [map combine filter fst]. destruct (Req_EM_T n v) as [->|]; cbn [map snd length repeat]; rewrite IH; reflexivity. Qed.
Lemma lsum_repeat c n : lsum (repeat c n) = INR n * c.
Proof. induction n as [|n IH]; [cbn; unfold lsum; cbn; ring|]. cbn [repeat]. rewrite lsum_cons, IH, S_INR. ring. Qed.
Lemma rmeanl_const c n : (0 < n)%nat -> rmeanl (repeat c n) = Ok c.
Proof. intros H. unfold rmeanl. rewrite repeat_length, lsum_repeat. assert (INR n <> 0) by (apply not_0_INR; lia). rewrite rdiv_ok by assumption. f_equal. field. assumption. Qed.
Lemma rmeanl_def l : l <> [] -> exists m, rmeanl l = Ok m.
Proof. intros H. unfold rmeanl. rewrite rdiv_ok; [eauto|]. apply not_0_INR. destruct l; [contradiction|cbn; lia]. Qed.
Lemma lsum_map_scal' k (f : R -> R) l : lsum (map (fun v => k * f v) l) = k * lsum (map f l).
Proof. induction l as [|a l IH]; [unfold lsum; cbn; ring|]. cbn [map]. rewrite !lsum_cons, IH. ring. Qed.

(** C86: under frozen flow at speed V, each mode of radial order n having the crossing time
    D / (coeff pi 0.3 (n+1) V), the wind speed found is V. *)
Theorem C86_frozen_flow : forall D coeff V nrad dtau, 0 < D -> 0 < coeff -> 0 < V -> nrad <> [] -> (forall n, In n nrad -> 0 <= n) -> length dtau = length nrad ->
  exists dv, wind_speed D coeff nrad (map (fun n => D / (coeff * PI * 0.3 * (n + 1) * V)) nrad) dtau = Ok (V, dv).
Proof.
  intros D coeff V nrad dtau HD Hc HV Hne Hn Ld. unfold wind_speed. set (g := fun n => D / (coeff * PI * 0.3 * (n + 1) * V)).
  assert (HPI := PI_RGT_0). assert (Hun : forall v, In v (np_unique nrad) -> 0 <= v /\ In v nrad) by (intros v Hv; apply (proj1 (np_unique_In nrad v)) in Hv; split; [apply Hn; exact Hv|exact Hv]).
  assert (Gp : forall v, 0 <= v -> 0 < g v). { intros v Hv. unfold g. apply Rdiv_lt_0_compat; [exact HD|]. apply Rmult_lt_0_compat; [|exact HV]. apply Rmult_lt_0_compat; [|lra]. apply Rmult_lt_0_compat; [|lra]. apply Rmult_lt_0_compat; assumption. }
  rewrite (mapM_ok _ g). 2:{ intros v Hv. rewrite select_const. apply rmeanl_const. destruct (Hun v Hv) as [_ I]. pose proof (select_in nrad nrad v eq_refl I). destruct (select nrad v nrad); [contradiction|cbn; lia]. }
  cbn [bind].
  assert (exists d, mapM (fun v => rmeanl (select nrad v dtau)) (np_unique nrad) = Ok d /\ length d = length (np_unique nrad)) as (d & Ed & Ldd).
  { assert (Q : forall l, (forall v, In v l -> In v nrad) -> exists d, mapM (fun v => rmeanl (select nrad v dtau)) l = Ok d /\ length d = length l).
    { induction l as [|v l IH]; intros I; [exists []; split; reflexivity|]. destruct (rmeanl_def (select nrad v dtau)) as (m & Em); [apply select_in; [exact Ld|apply I; left; reflexivity]|]. destruct IH as (d & E & L); [intros; apply I; right; assumption|]. exists (m :: d). cbn [mapM]. rewrite Em, E. cbn [bind length]. split; [reflexivity|lia]. }
    apply Q. intros v Hv. apply Hun. exact Hv. }
  rewrite Ed. cbn [bind].
  assert (C1 : combine (np_unique nrad) (map g (np_unique nrad)) = map (fun v => (v, g v)) (np_unique nrad)). { generalize (np_unique nrad). induction l as [|a l IH]; [reflexivity|]. cbn. rewrite IH. reflexivity. }
  rewrite C1. assert (M1 : mapM (fun p : R * R => rdiv (fst p + 1) (snd p)) (map (fun v => (v, g v)) (np_unique nrad)) = Ok (map (fun v => (coeff * PI * 0.3 * V / D) * (v + 1) ^ 2) (np_unique nrad))).
  { assert (Q : forall l, (forall v, In v l -> 0 <= v) -> mapM (fun p : R * R => rdiv (fst p + 1) (snd p)) (map (fun v => (v, g v)) l) = Ok (map (fun v => (coeff * PI * 0.3 * V / D) * (v + 1) ^ 2) l)).
    { induction l as [|v l IH]; intros I; [reflexivity|]. cbn [map mapM fst snd]. pose proof (Gp v (I v (or_introl eq_refl))). rewrite rdiv_ok by lra. cbn [bind]. rewrite IH by (intros; apply I; right; assumption). cbn [bind]. f_equal. f_equal. unfold g. pose proof (I v (or_introl eq_refl)). field. repeat split; lra. }
    apply Q. intros v Hv. apply Hun. exact Hv. }
  rewrite M1. cbn [bind]. rewrite lsum_map_scal'. set (S2 := lsum (map (fun v => (v + 1) ^ 2) (np_unique nrad))).
  assert (S2p : 0 < S2). { assert (Q : forall l, (forall v, In v l -> 0 <= v) -> l <> [] -> 0 < lsum (map (fun v => (v + 1) ^ 2) l)). { induction l as [|v l IH]; intros I N; [contradiction|]. cbn [map]. rewrite lsum_cons. pose proof (I v (or_introl eq_refl)). assert (0 < (v + 1) ^ 2) by (apply pow_lt; lra). destruct l as [|w l]; [unfold lsum; cbn; lra|]. assert (0 < lsum (map (fun v => (v + 1) ^ 2) (w :: l))) by (apply IH; [intros; apply I; right; assumption|discriminate]). lra. }
    apply Q; [intros v Hv; apply Hun; exact Hv|]. destruct nrad as [|n nrad]; [contradiction|]. intros E. assert (In n (np_unique (n :: nrad))) by (apply np_unique_In; left; reflexivity). rewrite E in H. destruct H. }
  assert (CP : 0 < coeff * PI * 0.3 * S2) by (apply Rmult_lt_0_compat; [apply Rmult_lt_0_compat; [apply Rmult_lt_0_compat; assumption|lra]|assumption]).
  rewrite rdiv_ok by lra. cbn [bind].
  assert (exists q2, mapM (fun p : R * (R * R) => rdiv (snd (snd p) * (fst p + 1)) (fst (snd p) ^ 2)) (combine (np_unique nrad) (combine (map g (np_unique nrad)) d)) = Ok q2) as (q2 & E2).
  { assert (Q : forall l d, (forall v, In v l -> 0 <= v) -> exists q2, mapM (fun p : R * (R * R) => rdiv (snd (snd p) * (fst p + 1)) (fst (snd p) ^ 2)) (combine l (combine (map g l) d)) = Ok q2).
    { induction l as [|v l IH]; intros d0 I; [exists []; reflexivity|]. destruct d0 as [|x d0]; [exists []; reflexivity|]. cbn [map combine mapM fst snd]. pose proof (Gp v (I v (or_introl eq_refl))). rewrite rdiv_ok by (apply pow_nonzero; lra). cbn [bind]. destruct (IH d0) as (q & ->); [intros; apply I; right; assumption|]. cbn [bind]. eauto. }
    apply Q. intros v Hv. apply Hun. exact Hv. }
  rewrite E2. cbn [bind]. rewrite rdiv_ok by lra. cbn [bind]. eexists. f_equal. f_equal. unfold g. field. repeat split; lra.
Qed.
Print Assumptions C86_frozen_flow.

(** scaling of the wind speed *)
Lemma wind_speed_scale D coeff nrad tau dtau v dv c k : k <> 0 -> wind_speed D coeff nrad tau dtau = Ok (v, dv) ->
  exists dv', wind_speed (c * D) coeff nrad (map (fun x => x / k) tau) (map (fun x => x / k) dtau) = Ok (c * k * v, dv') /\ dv' = c * k * dv.
Proof.
  intros Hk H. unfold wind_speed in *. apply bindOk in H. destruct H as (tn & Et & H). apply bindOk in H. destruct H as (dn & Ed & H). apply bindOk in H. destruct H as (q1 & E1 & H).
  cbv zeta in H. apply bindOk in H. destruct H as (v0 & Ev & H). apply bindOk in H. destruct H as (q2 & E2 & H). apply bindOk in H. destruct H as (dv0 & Edv & H). apply Ok_inj in H. injection H as -> ->.
  assert (FL : forall l : list R, Forall2 eq l l) by (induction l; constructor; auto).
  assert (RM : forall l m, rmeanl l = Ok m -> rmeanl (map (fun x => x / k) l) = Ok (m / k)).
  { intros l m Hm. unfold rmeanl in *. rewrite map_length. apply rdiv_inv' in Hm. destruct Hm as [N ->]. rewrite rdiv_ok by exact N. f_equal.
    assert (lsum (map (fun x => x / k) l) = lsum l / k). { clear. induction l as [|a l IH]; [unfold lsum; cbn; unfold Rdiv; ring|]. cbn [map]. rewrite !lsum_cons, IH. unfold Rdiv. ring. } rewrite H. field. split; assumption. }
  destruct (mapM_rel (fun v => rmeanl (select nrad v tau)) (fun v => rmeanl (select nrad v (map (fun x => x / k) tau))) eq (fun b b' => b' = b / k)) with (l := np_unique nrad) (l' := np_unique nrad) (r := tn) as (tn' & Et' & Ft); [intros a a' b -> Hb; rewrite select_map; exists (b / k); split; [apply RM; exact Hb|reflexivity]|apply FL|exact Et|].
  destruct (mapM_rel (fun v => rmeanl (select nrad v dtau)) (fun v => rmeanl (select nrad v (map (fun x => x / k) dtau))) eq (fun b b' => b' = b / k)) with (l := np_unique nrad) (l' := np_unique nrad) (r := dn) as (dn' & Ed' & Fd); [intros a a' b -> Hb; rewrite select_map; exists (b / k); split; [apply RM; exact Hb|reflexivity]|apply FL|exact Ed|].
  rewrite Et', Ed'. cbn [bind].
  assert (FE : forall (l l' : list R), Forall2 (fun b b' => b' = b / k) l l' -> l' = map (fun x => x / k) l) by (induction 1; [reflexivity|]; cbn; subst; f_equal; assumption).
  apply FE in Ft. apply FE in Fd. subst tn' dn'.
  assert (K1 : mapM (fun p => rdiv (fst p + 1) (snd p)) (combine (np_unique nrad) (map (fun x => x / k) tn)) = Ok (map (fun x => k * x) q1)).
  { clear - E1 Hk. revert tn q1 E1. induction (np_unique nrad) as [|n l IH]; intros [|t tn] q1 E1; try (apply Ok_inj in E1; subst; reflexivity).
    cbn [combine mapM map fst snd] in *. apply bindOk in E1. destruct E1 as (a & Ea & E1). apply bindOk in E1. destruct E1 as (r & Er & E1). apply Ok_inj in E1. subst q1. apply rdiv_inv' in Ea. destruct Ea as [Nt ->].
    rewrite rdiv_ok by (unfold Rdiv; apply Rmult_integral_contrapositive_currified; [exact Nt|apply Rinv_neq_0_compat; exact Hk]). cbn [bind]. rewrite (IH tn r Er). cbn [bind map]. f_equal. f_equal. field. split; assumption. }
  assert (K2 : mapM (fun p => rdiv (snd (snd p) * (fst p + 1)) (fst (snd p) ^ 2)) (combine (np_unique nrad) (combine (map (fun x => x / k) tn) (map (fun x => x / k) dn))) = Ok (map (fun x => k * x) q2)).
  { clear - E2 Hk. revert tn dn q2 E2. induction (np_unique nrad) as [|n l IH]; intros [|t tn] [|d dn] q2 E2; try (apply Ok_inj in E2; subst; reflexivity).
    cbn [combine mapM map fst snd] in *. apply bindOk in E2. destruct E2 as (a & Ea & E2). apply bindOk in E2. destruct E2 as (r & Er & E2). apply Ok_inj in E2. subst q2. apply rdiv_inv' in Ea. destruct Ea as [Nt ->].
    assert (t <> 0) by (intros ->; apply Nt; ring).
    rewrite rdiv_ok by (apply pow_nonzero; unfold Rdiv; apply Rmult_integral_contrapositive_currified; [assumption|apply Rinv_neq_0_compat; exact Hk]). cbn [bind]. rewrite (IH tn dn r Er). cbn [bind map]. f_equal. f_equal. field. split; assumption. }
  rewrite K1. cbn [bind]. rewrite K2. apply rdiv_inv' in Ev. destruct Ev as [Nv ->]. apply rdiv_inv' in Edv. destruct Edv as [_ ->].
  assert (LS : forall q, lsum (map (fun x => k * x) q) = k * lsum q). { intros q. induction q as [|a q IH]; [unfold lsum; cbn; ring|]. cbn [map]. rewrite !lsum_cons, IH. ring. }
  cbv zeta. cbn [bind]. rewrite LS. rewrite rdiv_ok by exact Nv. cbn [bind]. rewrite LS. rewrite rdiv_ok by exact Nv. cbn [bind]. eexists. split; [apply f_equal; apply f_equal2; [|reflexivity]|]; unfold Rdiv; ring.
Qed.
Lemma regress_scale x y n thres t5 fs k r : 0 < k -> regress x y n thres t5 fs = Ok r ->
  exists r', regress x y n thres t5 (k * fs) = Ok r' /\ r_tau r' = r_tau r / k /\ r_dtau r' = r_dtau r / k.
Proof.
  intros Hk H. unfold regress in *. cbv zeta in *.
  apply bindOk in H. destruct H as (s & Es & H). rewrite Es. cbn [bind]. apply bindOk in H. destruct H as (q1 & E1 & H). rewrite E1. cbn [bind]. apply bindOk in H. destruct H as (q2 & E2 & H). rewrite E2. cbn [bind].
  apply bindOk in H. destruct H as (t1 & E3 & H). rewrite E3. cbn [bind]. apply bindOk in H. destruct H as (tau & E4 & H). apply rdiv_inv' in E4. destruct E4 as [Nf ->]. rewrite rdiv_ok by (apply Rmult_integral_contrapositive_currified; lra). cbn [bind].
  apply bindOk in H. destruct H as (c & E5 & H). rewrite E5. cbn [bind]. apply bindOk in H. destruct H as (de & E6 & H). rewrite E6. cbn [bind]. apply bindOk in H. destruct H as (qn & E7 & H). rewrite E7. cbn [bind]. apply bindOk in H. destruct H as (sq & E8 & H). rewrite E8. cbn [bind].
  apply bindOk in H. destruct H as (sq2 & E9 & H). rewrite E9. cbn [bind]. apply bindOk in H. destruct H as (sr & E10 & H). rewrite E10. cbn [bind].
  apply bindOk in H. destruct H as (e1 & E11 & H). rewrite E11. cbn [bind]. apply bindOk in H. destruct H as (e2 & E12 & H). rewrite E12. cbn [bind].
  apply bindOk in H. destruct H as (dt & E13 & H). apply rdiv_inv' in E13. destruct E13 as [_ ->]. rewrite rdiv_ok by (apply Rmult_integral_contrapositive_currified; lra). cbn [bind]. apply Ok_inj in H. subst r.
  eexists. split; [reflexivity|]. cbn [r_tau r_dtau]. split; field; split; lra.
Qed.

(** C86: the wind speed found from the same coefficients is proportional to the telescope
    diameter and to the loop frequency. *)
Theorem C86_scaling : forall D fs thres coeff noise q nWin N modes nrad v dv c k, 0 < k ->
  get_wind_speed D fs thres coeff noise q nWin N modes nrad = Ok (v, dv) ->
  get_wind_speed (c * D) (k * fs) thres coeff noise q nWin N modes nrad = Ok (c * k * v, c * k * dv).
Proof.
  intros D fs thres coeff noise q nWin N modes nrad v dv c k Hk H. unfold get_wind_speed in *. apply bindOk in H. destruct H as (t5 & E5 & H). rewrite E5. cbn [bind]. apply bindOk in H. destruct H as (td & Et & H).
  assert (FL : Forall2 eq modes modes) by (clear; induction modes; constructor; auto).
  destruct (mapM_rel (fun m => mode_tau N nWin thres noise t5 fs (fst m) (snd m)) (fun m => mode_tau N nWin thres noise t5 (k * fs) (fst m) (snd m)) eq (fun b b' => b' = (fst b / k, snd b / k))) with (l := modes) (l' := modes) (r := td) as (td' & Et' & F); [|exact FL|exact Et|].
  - intros a a' b -> Hb. unfold mode_tau in *. apply bindOk in Hb. destruct Hb as (cv & Ec & Hb). rewrite Ec. cbn [bind]. apply bindOk in Hb. destruct Hb as (ind & Ei & Hb). rewrite Ei. cbn [bind]. cbv zeta in *. apply bindOk in Hb. destruct Hb as (y & Ey & Hb). rewrite Ey. cbn [bind].
    apply bindOk in Hb. destruct Hb as (r & Er & Hb). apply Ok_inj in Hb. subst b. destruct (regress_scale _ _ _ _ _ _ k _ Hk Er) as (r' & -> & T1 & T2). cbn [bind]. eexists. split; [reflexivity|]. cbn [fst snd]. rewrite T1, T2. reflexivity.
  - rewrite Et'. cbn [bind].
    assert (M1 : map fst td' = map (fun x => x / k) (map fst td)) by (clear - F; induction F; [reflexivity|]; cbn; subst; f_equal; assumption).
    assert (M2 : map snd td' = map (fun x => x / k) (map snd td)) by (clear - F; induction F; [reflexivity|]; cbn; subst; f_equal; assumption).
    rewrite M1, M2. destruct (wind_speed_scale D coeff nrad _ _ v dv c k ltac:(lra) H) as (dv' & -> & ->). reflexivity.
Qed.
Print Assumptions C86_scaling.

(** ** C87 *)
Lemma median_between l v : median l = Ok v -> exists a b, In a l /\ In b l /\ a <= v <= b.
Proof.
  intros H. unfold median in H. assert (I : forall a, In a (rsort l) -> In a l) by (intros a Ha; apply (Permutation_in a (Permutation_sym (rsort_perm l))); exact Ha).
  destruct (Nat.eqb_spec (length l) 0); [discriminate|]. destruct (Nat.odd (length l)).
  - destruct (nth_error (rsort l) (length l / 2)) as [w|] eqn:E; [|discriminate]. apply Ok_inj in H. subst w. exists v, v. apply nth_error_In in E. apply I in E. split; [exact E|]. split; [exact E|lra].
  - destruct (nth_error (rsort l) (length l / 2 - 1)) as [u|] eqn:E; [|discriminate]. destruct (nth_error (rsort l) (length l / 2)) as [w|] eqn:E'; [|discriminate]. apply Ok_inj in H. subst v.
    apply nth_error_In in E. apply I in E. apply nth_error_In in E'. apply I in E'. destruct (Rle_dec u w); [exists u, w|exists w, u]; (split; [assumption|split; [assumption|lra]]).
Qed.
Lemma median_def l : l <> [] -> exists v, median l = Ok v.
Proof.
  intros H. assert (Ll : (0 < length l)%nat) by (destruct l; [contradiction|cbn; lia]). assert (Ls : length (rsort l) = length l) by (symmetry; apply Permutation_length, rsort_perm). unfold median. destruct (Nat.eqb_spec (length l) 0); [lia|].
  assert (D : (length l / 2 < length l)%nat) by (apply Nat.div_lt; lia).
  destruct (Nat.odd (length l)).
  - destruct (nth_error (rsort l) (length l / 2)) as [w|] eqn:E; [eauto|]. apply nth_error_None in E. lia.
  - destruct (nth_error (rsort l) (length l / 2 - 1)) as [u|] eqn:E; [|apply nth_error_None in E; lia]. destruct (nth_error (rsort l) (length l / 2)) as [w|] eqn:E'; [eauto|]. apply nth_error_None in E'. lia.
Qed.
Lemma select_In nrad v l x : In x (select nrad v l) <-> exists i, nth_error nrad i = Some v /\ nth_error l i = Some x.
Proof.
  unfold select. revert l. induction nrad as [|n nrad IH]; intros l.
  - cbn. split; [intros []|intros (i & H & _); destruct i; discriminate].
  - destruct l as [|y l]; [cbn; split; [intros []|intros (i & _ & H); destruct i; discriminate]|]. cbn [combine filter fst]. destruct (Req_EM_T n v) as [->|N].
    + cbn [map snd In]. rewrite IH. split.
      * intros [->|(i & A & B)]; [exists 0%nat; split; reflexivity|exists (S i); split; assumption].
      * intros ([|i] & A & B); [left; injection B; auto|right; exists i; split; assumption].
    + rewrite IH. split; [intros (i & A & B); exists (S i); split; assumption|]. intros ([|i] & A & B); [injection A as A; contradiction|exists i; split; assumption].
Qed.

(** C87: the average over radial orders has one value per distinct order, in increasing
    order, each lying between two of the values of the modes of that order. *)
Theorem C87_radial_average : forall nrad var, length var = length nrad -> exists out,
  average_radial_order nrad var = Ok out /\ length out = length (np_unique nrad) /\
  (forall n, In n (np_unique nrad) <-> In n nrad) /\ StronglySorted Rlt (np_unique nrad) /\
  forall k n v, nth_error (np_unique nrad) k = Some n -> nth_error out k = Some v ->
    exists i j a b, nth_error nrad i = Some n /\ nth_error nrad j = Some n /\ nth_error var i = Some a /\ nth_error var j = Some b /\ a <= v <= b.
Proof.
  intros nrad var L. unfold average_radial_order.
  assert (Q : forall l, (forall v, In v l -> In v nrad) -> exists out, mapM (fun v => median (select nrad v var)) l = Ok out /\ length out = length l /\
    forall k n v, nth_error l k = Some n -> nth_error out k = Some v -> exists i j a b, nth_error nrad i = Some n /\ nth_error nrad j = Some n /\ nth_error var i = Some a /\ nth_error var j = Some b /\ a <= v <= b).
  { induction l as [|w l IH]; intros I; [exists []; split; [reflexivity|]; split; [reflexivity|]; intros [|k] n v A B; discriminate|].
    destruct (median_def (select nrad w var)) as (m & Em); [apply select_in; [exact L|apply I; left; reflexivity]|]. destruct IH as (out & E & Lo & V); [intros; apply I; right; assumption|].
    exists (m :: out). cbn [mapM]. rewrite Em, E. cbn [bind length]. split; [reflexivity|]. split; [lia|]. intros [|k] n v A B.
    - cbn in A, B. injection A as ->. injection B as <-. destruct (median_between _ _ Em) as (a & b & Ia & Ib & O). apply select_In in Ia. apply select_In in Ib. destruct Ia as (i & A1 & A2), Ib as (j & B1 & B2). exists i, j, a, b. repeat split; try assumption; apply O.
    - apply (V k n v A B). }
  destruct (Q (np_unique nrad)) as (out & E & Lo & V); [intros v; apply np_unique_In|]. exists out. split; [exact E|]. split; [exact Lo|]. split; [apply np_unique_In|]. split; [apply np_unique_sorted|exact V].
Qed.
Print Assumptions C87_radial_average.

(** C87: coherence time. tau0 v0 = 0.314 r0, and its relative uncertainty is the quadratic sum
    of those of r0 and of the wind speed. *)
Theorem C87_coherence_time : forall r0 dr0 v0 dv0, 0 < r0 -> 0 < v0 -> exists t dt, tau0_of r0 dr0 v0 dv0 = Ok (t, dt) /\ t * v0 = 0.314 * r0 /\ 0 <= dt /\
  (dt / t) ^ 2 = (dr0 / r0) ^ 2 + (dv0 / v0) ^ 2.
Proof.
  intros r0 dr0 v0 dv0 Hr Hv. unfold tau0_of. rewrite !rdiv_ok by (try apply pow_nonzero; lra). cbn [bind]. eexists _, _. split; [reflexivity|]. split; [field; lra|].
  set (a := dr0 / v0). set (b := r0 * dv0 / v0 ^ 2). unfold rhypot.
  assert (S0 := sqrt_pos (a * a + b * b)). split; [lra|].
  assert (SS : sqrt (a * a + b * b) ^ 2 = a * a + b * b) by (apply pow2_sqrt; nra).
  replace ((0.314 * sqrt (a * a + b * b) / (0.314 * r0 / v0)) ^ 2) with (sqrt (a * a + b * b) ^ 2 * (v0 / r0) ^ 2) by (field; lra). rewrite SS. unfold a, b. field. lra.
Qed.
Print Assumptions C87_coherence_time.

Lemma total_scal k l : total (map (fun x => k * x) l) = k * total l.
Proof. induction l as [|x l IH]; cbn [total map]; [ring|]. rewrite IH. ring. Qed.
Lemma moment_scal p k c h : 0 <= k -> (forall a, In a h -> 0 <= a) -> moment p (combine c (map (fun a => k * a) h)) = hpow k p * moment p (combine c h).
Proof.
  intros Hk. unfold moment. revert h. induction c as [|x c IH]; intros [|a h] Hh; cbn [combine map total]; try ring. rewrite IH by (intros; apply Hh; right; assumption). cbn [fst snd].
  rewrite <- (P_Aniso2.hpow_mult k a p Hk (Hh a (or_introl eq_refl))). ring.
Qed.
Lemma hpow_inj a b p : 0 <= a -> 0 <= b -> 0 < p -> hpow a p = hpow b p -> a = b.
Proof. intros Ha Hb Hp H. rewrite <- (hpow_inv a p Ha Hp), <- (hpow_inv b p Hb Hp), H. reflexivity. Qed.
Lemma eq1 p Cn2 h : 0 < p -> length Cn2 = length h -> (1 <= length Cn2)%nat -> (forall c, In c Cn2 -> 0 < c) -> (forall a, In a h -> 0 <= a) ->
  exists c a, eqLayers p Cn2 h 1 = Ok ([c], [a]) /\ c = total Cn2 /\ 0 <= a /\ c * hpow a p = moment p (combine Cn2 h) /\ (exists x, In x h /\ x <= a).
Proof.
  intros Hp HL L1 Hc Hh. destruct (C05_eqLayers p Cn2 h 1 Hp HL (le_n _) L1 Hc Hh) as (c' & h' & segs & E & Lc & Lh & Ls & Cc & _ & _ & T & M & V).
  destruct c' as [|c [|? ?]]; try discriminate. destruct h' as [|a [|? ?]]; try discriminate. destruct segs as [|s [|? ?]]; try discriminate.
  destruct (V 0%nat s c a eq_refl eq_refl eq_refl) as (W & A0 & M0 & X & _). exists c, a. split; [exact E|]. cbn in T. split; [lra|]. split; [exact A0|]. cbn in Cc. rewrite app_nil_r in Cc. subst s. split; [exact M0|].
  destruct X as ([w x] & I & B). exists x. split; [apply in_combine_r in I; exact I|exact B].
Qed.

(** C87: after the update the effective (5/3-averaged) wind speed of the profile is the
    measured one, the shape of the profile is kept, and seeing and r0 agree. *)
Theorem C87_update : forall wvl r0 L0 v0 Cn2 ws, r0 <> 0 -> 0 < v0 -> length Cn2 = length ws -> (2 <= length Cn2)%nat ->
  (forall c, In c Cn2 -> 0 < c) -> (forall w, In w ws -> 0 < w) -> exists u vm,
  update_atm wvl r0 L0 v0 Cn2 ws = Ok u /\ u_r0 u = r0 /\ u_L0 u = L0 /\ u_seeing u * r0 = rad2arc * wvl /\
  0 < vm /\ eqLayers (5 / 3) Cn2 ws 1 = Ok ([total Cn2], [vm]) /\
  u_wSpeed u = map (fun w => v0 / vm * w) ws /\ eqLayers (5 / 3) Cn2 (u_wSpeed u) 1 = Ok ([total Cn2], [v0]).
Proof.
  intros wvl r0 L0 v0 Cn2 ws Nr Hv HL L2 Hc Hw.
  destruct (eq1 (5 / 3) Cn2 ws) as (c & vm & E & Ec & V0 & M & (x & Ix & Bx)); [lra|exact HL|lia|exact Hc|intros a Ha; apply Rlt_le, Hw; exact Ha|].
  assert (Vp : 0 < vm) by (pose proof (Hw x Ix); lra). subst c.
  assert (TP : 0 < total Cn2). { destruct Cn2 as [|c Cn2]; [cbn in L2; lia|]. clear - Hc. assert (0 <= total Cn2). { induction Cn2 as [|d Cn2 IH]; [cbn; lra|]. cbn [total]. assert (0 <= total Cn2) by (apply IH; intros z Hz; apply Hc; destruct Hz as [->|Hz]; [left; reflexivity|right; right; exact Hz]). pose proof (Hc d (or_intror (or_introl eq_refl))). lra. } cbn [total]. pose proof (Hc c (or_introl eq_refl)). lra. }
  unfold update_atm. rewrite rdiv_ok by exact Nr. cbn [bind]. destruct (Nat.ltb_spec 1 (length Cn2)); [|lia]. rewrite E. cbn [bind snd].
  rewrite (mapM_ok _ (fun w => v0 / vm * w)). 2:{ intros w _. rewrite rdiv_ok by lra. f_equal. field. lra. } cbn [bind].
  eexists _, vm. split; [reflexivity|]. cbn [u_r0 u_L0 u_seeing u_wSpeed]. split; [reflexivity|]. split; [reflexivity|]. split; [field; exact Nr|]. split; [exact Vp|]. split; [reflexivity|]. split; [reflexivity|].
  assert (K : 0 < v0 / vm) by (apply Rdiv_lt_0_compat; assumption).
  destruct (eq1 (5 / 3) Cn2 (map (fun w => v0 / vm * w) ws)) as (c' & a' & E' & Ec' & A0 & M' & _); [lra|rewrite map_length; exact HL|lia|exact Hc|intros a Ha; apply in_map_iff in Ha; destruct Ha as (w & <- & Iw); pose proof (Hw w Iw); nra|].
  rewrite E'. subst c'. f_equal. f_equal. f_equal. apply (hpow_inj a' v0 (5 / 3)); [exact A0|lra|lra|].
  rewrite moment_scal in M'; [|lra|intros a Ha; apply Rlt_le, Hw; exact Ha]. rewrite <- M in M'.
  apply (Rmult_eq_reg_l (total Cn2)); [|lra]. rewrite M'. transitivity (total Cn2 * (hpow (v0 / vm) (5 / 3) * hpow vm (5 / 3))); [ring|]. rewrite P_Aniso2.hpow_mult by lra. f_equal. f_equal. field. lra.
Qed.
Print Assumptions C87_update.

(** C87: a single-layer profile simply takes the measured wind speed. *)
Theorem C87_update_one : forall wvl r0 L0 v0 c ws, r0 <> 0 -> exists u, update_atm wvl r0 L0 v0 [c] ws = Ok u /\ u_wSpeed u = [v0].
Proof. intros wvl r0 L0 v0 c ws Nr. unfold update_atm. rewrite rdiv_ok by exact Nr. cbn. eexists. split; reflexivity. Qed.

Example C87_ex : exists u, update_atm 500 0.1 25 12 [0.6; 0.4] [10; 20] = Ok u /\ length (u_wSpeed u) = 2%nat.
Proof.
  destruct (C87_update 500 0.1 25 12 [0.6; 0.4] [10; 20]) as (u & vm & E & _ & _ & _ & _ & _ & W & _); try lra; try reflexivity; try (cbn; lia).
  - intros c [<-|[<-|[]]]; lra.
  - intros c [<-|[<-|[]]]; lra.
  - exists u. split; [exact E|]. rewrite W. reflexivity.
Qed.
Example C86_wind_ex : exists dv, wind_speed 8 1.15 [1; 2; 1] (map (fun n => 8 / (1.15 * PI * 0.3 * (n + 1) * 10)) [1; 2; 1]) [0; 0; 0] = Ok (10, dv).
Proof. apply C86_frozen_flow; try lra; try discriminate; try reflexivity. intros n Hn. cbn in Hn. destruct Hn as [<-|[<-|[<-|[]]]]; lra. Qed.

Print Assumptions C87_update_one.
