(** C73: the optimal projector from layers to mirrors. *)
From Coq Require Import Reals List Arith ZArith Bool Lia Lra Psatz.
From Verif Require Import Base_Py Base_Sum Base_DFT M_Tools M_Freq M_Atmo M_Sensor M_Model S_Model L_Model M_Tomo S_Tomo L_Tomo L_Tomo2 L_Ginv L_Atmo P_Model2 P_Tomo P_Tomo2.
From Coquelicot Require Import Complex.
Import ListNotations.
Open Scope R_scope.

(** C73: with one direction of optimisation (of non-null weight), at every frequency that
    at least one mirror can correct, the mirrors driven by the projector reproduce
    exactly, in that direction, the phase of the layers, whatever their amplitudes. *)
Theorem C73_one_direction_exact : forall solve pinvr t i j o m0, t_opt t = [o] -> o_w o <> 0 -> t_cond t <> 0 -> gen_inverse (pinvr (1 / t_cond t)) ->
  (m0 < nDm t)%nat -> sqrt (k2AO (t_y t) i j) <= d_kc (dm_ t m0) ->
  exists P, oPopt solve pinvr t i j = Ok P /\ forall f, mirrors_in t o i j (projected t P f) = layers_in t o i j f.
Proof.
  intros solve pinvr t i j o m0 Ho Hw Hc HP Hm Hk. unfold oPopt, oMat2. rewrite rdiv_ok by exact Hc. cbn [bind]. replace (length (t_opt t)) with 1%nat by (now rewrite Ho). cbn [Nat.eqb bind]. eexists. split; [reflexivity|]. intros f.
  set (B := oInv t i j). set (X := pinvr (1 / t_cond t) (nDm t) B). set (p := pDm t (o_x o) (o_y o) i j). set (n := nDm t) in *.
  assert (EB : forall a b, B a b = Cmult (Cmult (Cconj (p a)) (p b)) (RtoC (o_w o))) by (intros a b; unfold B, oInv; rewrite Ho; cbn [map clsum fold_right]; fold p; ring).
  assert (EM : forall a l, oMat1 t i j a l = Cmult (Cmult (Cconj (p a)) (pL t (o_x o) (o_y o) i j l)) (RtoC (o_w o))) by (intros a l; unfold oMat1; rewrite Ho; cbn [map clsum fold_right]; fold p; ring).
  assert (P0 : p m0 <> RtoC 0).
  { unfold p, pDm. destruct (Rle_dec (kk t i j) (d_kc (dm_ t m0))) as [_|N]; [|exfalso; apply N; exact Hk]. intros Z. match type of Z with cis ?x = _ => pose proof (c2_cis x) as Y end. rewrite Z in Y. unfold c2 in Y. cbn in Y. lra. }
  set (s := csum n (fun k => Cmult (csum n (fun r => Cmult (p r) (X r k))) (Cconj (p k)))).
  assert (S1 : Cmult (RtoC (o_w o)) s = RtoC 1).
  { pose proof (HP n B m0 m0 Hm Hm) as E. fold X in E. rewrite EB in E.
    assert (E' : csum n (fun k => Cmult (csum n (fun r => Cmult (B m0 r) (X r k))) (B k m0)) = Cmult (Cmult (Cmult (Cconj (p m0)) (p m0)) (Cmult (RtoC (o_w o)) (RtoC (o_w o)))) s).
    { unfold s. rewrite <- csum_scal. apply csum_ext. intros k _. rewrite EB. rewrite (csum_ext n (fun r => Cmult (B m0 r) (X r k)) (fun r => Cmult (Cmult (Cconj (p m0)) (RtoC (o_w o))) (Cmult (p r) (X r k)))) by (intros; rewrite EB; ring). rewrite csum_scal. ring. }
    rewrite E' in E. assert (NZ : Cmult (Cmult (Cconj (p m0)) (p m0)) (RtoC (o_w o)) <> RtoC 0).
    { apply Cmult_neq_0; [apply Cmult_neq_0; [|exact P0]|intros Z; apply RtoC_inj in Z; contradiction]. intros Z. apply P0. rewrite <- (Cconj_invol (p m0)), Z. apply C_eq; cbn; lra. }
    set (q := Cmult (Cmult (Cconj (p m0)) (p m0)) (RtoC (o_w o))) in *. replace (Cmult (Cmult (Cmult (Cconj (p m0)) (p m0)) (Cmult (RtoC (o_w o)) (RtoC (o_w o)))) s) with (Cmult q (Cmult (RtoC (o_w o)) s)) in E by (unfold q; ring).
    transitivity (Cmult (Cinv q) (Cmult q (Cmult (RtoC (o_w o)) s))); [rewrite Cmult_assoc, Cinv_l by exact NZ; ring|]. rewrite E. now rewrite Cinv_l. }
  unfold mirrors_in, layers_in, projected. fold n.
  rewrite (csum_ext n _ (fun m => csum (nLmod t) (fun l => Cmult (Cmult (p m) (mmul n X (oMat1 t i j) m l)) (f l)))) by (intros m _; rewrite <- csum_scal; apply csum_ext; intros l _; unfold p; rewrite pDm_sees; unfold kx, ky; ring).
  rewrite csum_swap. apply csum_ext. intros l _. rewrite csum_scal_r. f_equal. change (cis _) with (pL t (o_x o) (o_y o) i j l).
  transitivity (Cmult (Cmult (RtoC (o_w o)) s) (pL t (o_x o) (o_y o) i j l)); [|rewrite S1; ring].
  unfold s. rewrite (csum_ext n _ (fun m => csum n (fun k => Cmult (Cmult (Cmult (p m) (X m k)) (Cconj (p k))) (Cmult (RtoC (o_w o)) (pL t (o_x o) (o_y o) i j l))))) by (intros m _; unfold mmul; rewrite <- csum_scal; apply csum_ext; intros k _; rewrite EM; ring).
  rewrite csum_swap. rewrite (csum_ext n _ (fun k => Cmult (Cmult (csum n (fun r => Cmult (p r) (X r k))) (Cconj (p k))) (Cmult (RtoC (o_w o)) (pL t (o_x o) (o_y o) i j l)))) by (intros k _; rewrite <- !csum_scal_r; apply csum_ext; intros r _; ring).
  rewrite csum_scal_r. ring.
Qed.
Print Assumptions C73_one_direction_exact.

(** With several directions the projector solves a regularised system. *)
Lemma oMat2_solves solve pinvr t i j X : solves solve -> length (t_opt t) <> 1%nat -> (i < y_res (t_y t))%nat -> (j < y_res (t_y t))%nat -> oMat2 solve pinvr t i j = Ok X ->
  (exists p, In p (all_freq t) /\ forall lam, oLambda t = Ok lam -> solve (nDm t) (nDm t) (madd (oA t (fst p) (snd p)) (fun a b => Cmult lam (mI a b))) (mT (oInv t (fst p) (snd p))) = None) \/
  exists lam, oLambda t = Ok lam /\ forall a b, (a < nDm t)%nat -> (b < nDm t)%nat -> Cplus (csum (nDm t) (fun k => Cmult (oA t i j a k) (X k b))) (Cmult lam (X a b)) = oInv t i j b a.
Proof.
  intros HS Hn Hi Hj H. unfold oMat2 in H. destruct (rdiv 1 (t_cond t)) as [rc|e]; cbn [bind] in H; [|discriminate]. destruct (Nat.eqb_spec (length (t_opt t)) 1); [contradiction|].
  destruct (oLambda t) as [lam|e] eqn:EL; cbn [bind] in H; [|discriminate]. cbv zeta in H. destruct (existsb _ _) eqn:EX in H.
  - left. apply existsb_exists in EX. destruct EX as (b & Hb & Eb). apply in_map_iff in Hb. destruct Hb as (p & E & Ip). exists p. split; [exact Ip|]. intros lam' E'. injection E' as <-. destruct (solve _ _ _ _) in E |- *; [subst b; discriminate|reflexivity].
  - right. exists lam. split; [reflexivity|]. cbn [fst snd] in H. destruct (solve _ _ _ _) as [x|] eqn:ES in H; [|discriminate]. injection H as <-. intros a b Ha Hb. pose proof (HS _ _ _ _ _ ES a b Ha Hb) as E. change (mT (oInv t i j) a b) with (oInv t i j b a) in E. rewrite <- E.
    rewrite (csum_ext _ (fun k => Cmult (madd _ _ a k) _) (fun k => Cplus (Cmult (oA t i j a k) (x k b)) (Cmult lam (Cmult (mI a k) (x k b))))) by (intros; unfold madd; ring). rewrite csum_plus, csum_scal, (csum_mI_l (nDm t) (fun k => x k b)) by exact Ha. reflexivity.
Qed.
(** a solver that finds the solution at every frequency *)
Definition regular (solve : nat -> nat -> mat -> mat -> option mat) (t : tomo) : Prop :=
  forall lam p, oLambda t = Ok lam -> In p (all_freq t) -> solve (nDm t) (nDm t) (madd (oA t (fst p) (snd p)) (fun a b => Cmult lam (mI a b))) (mT (oInv t (fst p) (snd p))) <> None.
Lemma oMat2_ok solve pinvr t i j lam : solves solve -> regular solve t -> t_cond t <> 0 -> length (t_opt t) <> 1%nat -> (i < y_res (t_y t))%nat -> (j < y_res (t_y t))%nat -> oLambda t = Ok lam ->
  exists X, oMat2 solve pinvr t i j = Ok X /\ forall a b, (a < nDm t)%nat -> (b < nDm t)%nat -> Cplus (csum (nDm t) (fun k => Cmult (oA t i j a k) (X k b))) (Cmult lam (X a b)) = oInv t i j b a.
Proof.
  intros HS HR Hc Hn Hi Hj EL. assert (E : exists X, oMat2 solve pinvr t i j = Ok X).
  { unfold oMat2. rewrite rdiv_ok by exact Hc. cbn [bind]. destruct (Nat.eqb_spec (length (t_opt t)) 1); [contradiction|]. rewrite EL. cbn [bind]. cbv zeta. destruct (existsb _ _); [eexists; reflexivity|]. cbn [fst snd].
    pose proof (HR lam (i, j) EL (in_all_freq t i j Hi Hj)) as N. cbn [fst snd] in N. destruct (solve _ _ _ _) as [x|]; [eexists; reflexivity|congruence]. }
  destruct E as (X & EX). exists X. split; [exact EX|]. destruct (oMat2_solves solve pinvr t i j X HS Hn Hi Hj EX) as [(p & Ip & Np)|(lam' & E' & D)].
  - exfalso. apply (HR lam p EL Ip). now apply Np.
  - rewrite EL in E'. injection E' as <-. exact D.
Qed.
(** C73, several directions: a mirror is not commanded above its cut-off frequency
    (provided the regularisation is not null). *)
Theorem C73_cutoff : forall solve pinvr t i j lam m, solves solve -> regular solve t -> t_cond t <> 0 -> length (t_opt t) <> 1%nat -> (i < y_res (t_y t))%nat -> (j < y_res (t_y t))%nat ->
  oLambda t = Ok lam -> lam <> RtoC 0 -> (m < nDm t)%nat -> d_kc (dm_ t m) < sqrt (k2AO (t_y t) i j) ->
  exists P, oPopt solve pinvr t i j = Ok P /\ forall f, projected t P f m = RtoC 0.
Proof.
  intros solve pinvr t i j lam m HS HR Hc Hn Hi Hj EL HL Hm Hk. destruct (oMat2_ok solve pinvr t i j lam HS HR Hc Hn Hi Hj EL) as (X & EX & D). unfold oPopt. rewrite EX. cbn [bind]. eexists. split; [reflexivity|]. intros f.
  assert (Z : forall bx by', pDm t bx by' i j m = RtoC 0). { intros bx by'. unfold pDm. destruct (Rle_dec _ _) as [L|]; [|reflexivity]. exfalso. unfold kk in L. lra. }
  assert (CL : forall l, (forall x : C, In x l -> x = RtoC 0) -> clsum l = RtoC 0). { induction l as [|x r IH]; intros H; [reflexivity|]. unfold clsum. cbn [fold_right]. fold (clsum r). rewrite IH by (intros; apply H; now right). rewrite (H x (or_introl eq_refl)). ring. }
  assert (Z1 : forall b, oInv t i j b m = RtoC 0). { intros b. unfold oInv. apply CL. intros x Hx. apply in_map_iff in Hx. destruct Hx as (o & <- & _). rewrite (Z (o_x o) (o_y o)). ring. }
  assert (Z2 : forall k, oA t i j m k = RtoC 0). { intros k. unfold oA, mmul, mT. apply csum_zero. intros r _. rewrite Z1. ring. }
  assert (ZX : forall b, (b < nDm t)%nat -> X m b = RtoC 0).
  { intros b Hb. specialize (D m b Hm Hb). rewrite Z1, csum_zero in D by (intros; rewrite Z2; ring). assert (E : Cmult lam (X m b) = RtoC 0) by (rewrite <- D; ring). 
    transitivity (Cmult (Cinv lam) (Cmult lam (X m b))); [rewrite Cmult_assoc, Cinv_l by exact HL; ring|]. rewrite E. ring. }
  unfold projected. apply csum_zero. intros l _. unfold mmul. rewrite csum_zero; [ring|]. intros k Hkk. rewrite ZX by exact Hkk. ring.
Qed.
Print Assumptions C73_cutoff.
(** C73, several directions, Gram matrix of the mirrors real (one mirror, or directions
    symmetric about the axis) and regularisation lambda >= 0 real: the commands for any
    amplitudes of the layers minimise  |B x - c|^2 + lambda |x|^2  where B is the Gram
    matrix of the mirrors and c the correlation of the mirrors with the layers over the
    weighted directions. *)
Theorem C73_regularised_least_squares : forall solve pinvr t i j lam, solves solve -> regular solve t -> t_cond t <> 0 -> length (t_opt t) <> 1%nat -> (i < y_res (t_y t))%nat -> (j < y_res (t_y t))%nat ->
  oLambda t = Ok (RtoC lam) -> 0 <= lam -> (forall a b, (a < nDm t)%nat -> (b < nDm t)%nat -> snd (oInv t i j a b) = 0) ->
  exists P, oPopt solve pinvr t i j = Ok P /\ forall f,
  let c m := csum (nLmod t) (fun l => Cmult (oMat1 t i j m l) (f l)) in
  let crit x := rsum (nDm t) (fun a => cnorm2 (Cminus (csum (nDm t) (fun m => Cmult (oInv t i j a m) (x m))) (c a))) + lam * rsum (nDm t) (fun m => cnorm2 (x m)) in
  forall x, crit (projected t P f) <= crit x.
Proof.
  intros solve pinvr t i j lam HS HR Hc Hn Hi Hj EL HL HB. destruct (oMat2_ok solve pinvr t i j (RtoC lam) HS HR Hc Hn Hi Hj EL) as (X & EX & D). exists (mmul (nDm t) X (oMat1 t i j)). split; [unfold oPopt; rewrite EX; reflexivity|]. intros f c crit x.
  set (n := nDm t) in *. set (B := oInv t i j) in *.
  assert (RB : forall a b, (a < n)%nat -> (b < n)%nat -> Cconj (B a b) = B a b) by (intros a b Ha Hb; apply C_eq; cbn; [reflexivity|rewrite HB by assumption; lra]).
  assert (CR : forall y, crit y = err_var n n (fun _ => 1) (mT B) (mdiag (fun _ => lam)) c y).
  { intros y. unfold crit, err_var. rewrite qf_diag. rewrite !rsum_scal, Rmult_1_l. f_equal. apply rsum_ext. intros a _. change cnorm2 with c2. f_equal. f_equal. apply csum_ext. intros m _. unfold mT. ring. }
  rewrite !CR. apply err_var_min; [apply psd_diag; intros; exact HL|intros; lra|]. intros b Hb.
  set (q0 := projected t (mmul n X (oMat1 t i j)) f).
  assert (Q0 : forall a, q0 a = csum n (fun k => Cmult (X a k) (c k))).
  { intros a. unfold q0, projected, c, mmul. rewrite (csum_ext (nLmod t) _ (fun l => csum n (fun k => Cmult (X a k) (Cmult (oMat1 t i j k l) (f l))))) by (intros l _; rewrite <- csum_scal_r; apply csum_ext; intros; ring). rewrite csum_swap. apply csum_ext. intros k _. now rewrite csum_scal. }
  transitivity (Cplus (csum n (fun a => Cmult (oA t i j b a) (q0 a))) (Cmult (RtoC lam) (q0 b))).
  - rewrite (csum_ext n _ (fun a => Cplus (Cmult (oA t i j b a) (q0 a)) (Cmult (Cmult (RtoC lam) (mI b a)) (q0 a)))).
    + rewrite csum_plus. f_equal. rewrite (csum_ext n _ (fun a => Cmult (mI b a) (Cmult (RtoC lam) (q0 a)))) by (intros; ring). now rewrite (csum_mI_l n (fun a => Cmult (RtoC lam) (q0 a))).
    + intros a Ha. rewrite Cmult_plus_distr_l. f_equal.
      * rewrite Cmult_comm. f_equal. unfold oA, mmul, mT. fold B. apply csum_ext. intros l Hl. rewrite RB by assumption. ring.
      * unfold mdiag, mI. rewrite (Nat.eqb_sym a b). destruct (b =? a)%nat; ring.
  - rewrite (csum_ext n _ (fun a => csum n (fun k => Cmult (Cmult (oA t i j b a) (X a k)) (c k)))) by (intros a _; rewrite Q0, <- csum_scal; apply csum_ext; intros; ring).
    rewrite csum_swap, Q0, <- csum_scal, <- csum_plus. apply csum_ext. intros k Hk. rewrite csum_scal_r, Cmult_assoc, <- Cmult_plus_distr_r. rewrite D by assumption. fold B. unfold mT. rewrite RB by assumption. ring.
Qed.
Print Assumptions C73_regularised_least_squares.

(** One mirror at the altitude of the only layer: the Gram matrix is the sum of the weights. *)
Lemma clsum_RtoC (l : list odir) f : clsum (map (fun o => RtoC (f o)) l) = RtoC (lsum (map f l)).
Proof. induction l as [|o l IH]; [reflexivity|]. unfold clsum, lsum in *. cbn [map fold_right]. rewrite IH. apply C_eq; cbn; lra. Qed.
Lemma cis_conj x : Cmult (Cconj (cis x)) (cis x) = RtoC 1.
Proof. rewrite Cmult_comm, c2_conj, c2_cis. reflexivity. Qed.
Definition gram1 (t : tomo) (i j : nat) : R := if Rle_dec (kk t i j) (d_kc (dm_ t 0)) then lsum (map o_w (t_opt t)) else 0.
Lemma oInv_one t i j : oInv t i j 0%nat 0%nat = RtoC (gram1 t i j).
Proof.
  unfold oInv, gram1, pDm. destruct (Rle_dec _ _).
  - rewrite <- clsum_RtoC. f_equal. apply map_ext. intros o. rewrite cis_conj. ring.
  - rewrite (map_ext _ (fun o => RtoC 0)) by (intros; ring). rewrite (clsum_RtoC (t_opt t) (fun _ => 0)). f_equal. induction (t_opt t); cbn; [reflexivity|]. unfold lsum in *. lra.
Qed.
Lemma oMat1_one t i j : snd (mod_ t 0) = d_h (dm_ t 0) -> oMat1 t i j 0%nat 0%nat = RtoC (gram1 t i j).
Proof.
  intros H. rewrite <- oInv_one. unfold oMat1, oInv, pDm, pL. rewrite H. f_equal. apply map_ext. intros o. destruct (Rle_dec _ _); [reflexivity|]. apply C_eq; cbn; ring.
Qed.
Lemma oA_one t i j : nDm t = 1%nat -> oA t i j 0%nat 0%nat = RtoC (gram1 t i j ^ 2).
Proof. intros H. unfold oA, mmul, mT. rewrite H. cbn [csum]. rewrite oInv_one. apply C_eq; cbn; ring. Qed.
Lemma csum_RtoC n f : csum n (fun k => RtoC (f k)) = RtoC (rsum n f).
Proof. induction n as [|n IH]; [reflexivity|]. cbn [csum rsum]. rewrite IH. apply C_eq; cbn; lra. Qed.
Lemma oLambda_one t : nDm t = 1%nat -> (0 < y_res (t_y t))%nat -> 0 < t_cond t -> lsum (map o_w (t_opt t)) <> 0 ->
  exists lam, oLambda t = Ok (RtoC lam) /\ 0 <= lam <= lsum (map o_w (t_opt t)) ^ 2 / t_cond t /\
  ((exists i j, (i < y_res (t_y t))%nat /\ (j < y_res (t_y t))%nat /\ sqrt (k2AO (t_y t) i j) <= d_kc (dm_ t 0)) -> 0 < lam).
Proof.
  intros H Hn Hc Hs. unfold oLambda. set (n := y_res (t_y t)) in *. rewrite H. cbn [csum]. set (s := lsum (map o_w (t_opt t))) in *.
  rewrite (csum_ext n _ (fun i => RtoC (rsum n (fun j => gram1 t i j ^ 2)))) by (intros i _; rewrite <- csum_RtoC; apply csum_ext; intros j _; rewrite oA_one by exact H; ring).
  rewrite csum_RtoC. set (S := rsum n _). assert (NP : 0 < INR (n * n * 1)) by (apply lt_0_INR; nia). unfold cdivr. destruct (Req_EM_T _ 0) as [Z|_]; [lra|]. cbn [bind]. rewrite rdiv_ok by lra. cbn [bind].
  exists (S / INR (n * n * 1) * (1 / t_cond t)). split; [f_equal; apply C_eq; cbn; unfold Rdiv; ring|].
  assert (G : forall i j, 0 <= gram1 t i j ^ 2 <= s ^ 2) by (intros i j; unfold gram1; fold s; destruct (Rle_dec _ _); nra).
  assert (S0 : 0 <= S) by (apply rsum_nonneg; intros; apply rsum_nonneg; intros; apply G).
  assert (S2 : S <= INR (n * n * 1) * s ^ 2).
  { replace (INR (n * n * 1) * s ^ 2) with (rsum n (fun _ => rsum n (fun _ => s ^ 2))) by (rewrite !rsum_const, Nat.mul_1_r, mult_INR; ring). apply rsum_le. intros. apply rsum_le. intros. apply G. }
  assert (I0 : 0 < / INR (n * n * 1)) by (now apply Rinv_0_lt_compat). assert (C0 : 0 < / t_cond t) by (now apply Rinv_0_lt_compat).
  split; [split|].
  - unfold Rdiv. rewrite Rmult_1_l. repeat apply Rmult_le_pos; lra.
  - unfold Rdiv. rewrite Rmult_1_l. apply Rmult_le_compat_r; [lra|]. apply (Rmult_le_reg_r (INR (n * n * 1))); [exact NP|]. rewrite Rmult_assoc, Rinv_l by lra. lra.
  - intros (i & j & Hi & Hj & Hk). unfold Rdiv. rewrite Rmult_1_l. repeat apply Rmult_lt_0_compat; try assumption.
    apply Rlt_le_trans with (gram1 t i j ^ 2).
    + unfold gram1. fold s. destruct (Rle_dec _ _) as [_|N]; [|contradict N; exact Hk]. nra.
    + eapply Rle_trans; [apply (rsum_term_le n (fun j => gram1 t i j ^ 2) j); [intros; apply G|exact Hj]|]. apply (rsum_term_le n (fun i => rsum n (fun j => gram1 t i j ^ 2)) i); [intros; apply rsum_nonneg; intros; apply G|exact Hi].
Qed.
(** REFUTED: with several directions, a mirror at the altitude of the only layer does not
    reproduce it: the commands are those of the layer times a factor smaller than one (but
    at least cond/(cond+1)). With one direction the factor is exactly one. *)
Theorem C73_attenuation_refuted : forall solve pinvr t i j, solves solve -> regular solve t -> 0 < t_cond t -> (2 <= length (t_opt t))%nat -> (i < y_res (t_y t))%nat -> (j < y_res (t_y t))%nat ->
  nDm t = 1%nat -> nLmod t = 1%nat -> snd (mod_ t 0) = d_h (dm_ t 0) -> lsum (map o_w (t_opt t)) <> 0 -> sqrt (k2AO (t_y t) i j) <= d_kc (dm_ t 0) ->
  exists P g, oPopt solve pinvr t i j = Ok P /\ t_cond t / (t_cond t + 1) <= g < 1 /\ forall f, projected t P f 0 = Cmult (RtoC g) (f 0%nat).
Proof.
  intros solve pinvr t i j HS HR Hc Hn Hi Hj HD HL Hh Hs Hk. set (s := lsum (map o_w (t_opt t))) in *.
  destruct (oLambda_one t HD ltac:(lia) Hc Hs) as (lam & EL & (L0 & L1) & LP). specialize (LP ltac:(now exists i, j)). fold s in L1.
  destruct (oMat2_ok solve pinvr t i j (RtoC lam) HS HR ltac:(lra) ltac:(lia) Hi Hj EL) as (X & EX & D). exists (mmul (nDm t) X (oMat1 t i j)).
  specialize (D 0%nat 0%nat). rewrite HD in D. specialize (D ltac:(lia) ltac:(lia)). cbn [csum] in D. rewrite oA_one, oInv_one in D by exact HD.
  assert (G : gram1 t i j = s) by (unfold gram1; fold s; destruct (Rle_dec _ _) as [_|N]; [reflexivity|contradict N; exact Hk]). rewrite G in D.
  assert (SP : 0 < s ^ 2) by nra. assert (Den : s ^ 2 + lam <> 0) by lra.
  assert (XE : X 0%nat 0%nat = RtoC (s / (s ^ 2 + lam))).
  { apply (f_equal (Cmult (RtoC (/ (s ^ 2 + lam))))) in D. destruct (X 0%nat 0%nat) as [x y]. apply (f_equal (fun z => (fst z, snd z))) in D. cbn in D. injection D as D1 D2.
    apply C_eq; cbn [fst snd RtoC].
    - transitivity (/ (s * (s * 1) + lam) * (s * (s * 1) + lam) * x); [rewrite Rinv_l by (cbn in Den; exact Den); ring|]. transitivity (/ (s * (s * 1) + lam) * s - 0 * 0); [rewrite <- D1; ring|]. cbn. unfold Rdiv. ring.
    - transitivity (/ (s * (s * 1) + lam) * (s * (s * 1) + lam) * y); [rewrite Rinv_l by (cbn in Den; exact Den); ring|]. transitivity (/ (s * (s * 1) + lam) * 0 + 0 * s); [rewrite <- D2; ring|]. ring. }
  exists (s ^ 2 / (s ^ 2 + lam)). split; [unfold oPopt; rewrite EX; reflexivity|]. split.
  - split.
    + assert (K : lam * t_cond t <= s ^ 2). { apply (Rmult_le_compat_r (t_cond t)) in L1; [|lra]. unfold Rdiv in L1. rewrite Rmult_assoc, Rinv_l in L1 by lra. lra. }
      apply (Rmult_le_reg_r (t_cond t + 1)); [lra|]. unfold Rdiv. rewrite Rmult_assoc, Rinv_l, Rmult_1_r by lra.
      apply (Rmult_le_reg_r (s ^ 2 + lam)); [lra|]. replace (s ^ 2 * / (s ^ 2 + lam) * (t_cond t + 1) * (s ^ 2 + lam)) with (s ^ 2 * (t_cond t + 1)) by (field; exact Den). nra.
    + apply (Rmult_lt_reg_r (s ^ 2 + lam)); [lra|]. unfold Rdiv. rewrite Rmult_assoc, Rinv_l by exact Den. lra.
  - intros f. unfold projected, mmul. rewrite HL, HD. cbn [csum]. rewrite XE, oMat1_one, G by exact Hh. unfold Rdiv. cbn [pow]. destruct (f 0%nat) as [u v]. apply C_eq; cbn; ring.
Qed.
Print Assumptions C73_attenuation_refuted.
(** a solver refuses only systems without solution *)
Lemma gsolve_some n m A B Y : (forall a b, (a < n)%nat -> (b < m)%nat -> mmul n A Y a b = B a b) -> gsolve n m A B <> None.
Proof.
  intros H. unfold gsolve. match goal with |- (if ?b then _ else _) <> None => assert (F : b = true) end; [|rewrite F; discriminate].
  apply forallb_forall. intros a Ha. apply in_seq in Ha. apply forallb_forall. intros b Hb. apply in_seq in Hb.
  replace (mmul n A (mmul n (ginv n A) B) a b) with (B a b); [apply Ceqb_refl|]. rewrite <- mmul_assoc. rewrite <- (H a b) by lia.
  rewrite (mmul_ext n (mmul n A (ginv n A)) (mmul n A (ginv n A)) B (mmul n A Y) a b); [|reflexivity|intros k Hk; symmetry; apply H; lia].
  rewrite <- mmul_assoc. apply mmul_ext; [|reflexivity]. intros k Hk. symmetry. apply (ginv_gen_inverse n A a k); lia.
Qed.
(** One mirror on the only layer, two directions; the same with a single direction. *)
Definition ex_one (os : list odir) : tomo :=
  mkTomo (ex_sys ex_layers) [mkTL 1 1000 10 90] [(1, 1000)] [mkGS (1/10000) 0 (1/2) 1; mkGS (-1/10000) (1/20000) (1/2) 1] [1/2; 1/3] [mkDM 1000 (1/2)] os 100 [(0, 0)] 500 2.
Definition ex_dirs : list odir := [mkOD 0 0 (1/2); mkOD 20 90 (1/2)].
Lemma ex_centre_k : sqrt (k2AO (ex_sys ex_layers) 4 4) <= 1 / 2.
Proof.
  assert (E : k2AO (ex_sys ex_layers) 4 4 = 2 * (/ 10 ^ 10) ^ 2). { unfold k2AO, kxAO, kyAO, freq_x, freq_y. cbn [ex_sys y_res y_step y_off]. change (Z.of_nat 4 - Z.of_nat 8 / 2)%Z with 0%Z. ring. }
  rewrite E. replace (1 / 2) with (sqrt ((1 / 2) ^ 2)) by (apply sqrt_pow2; lra). apply sqrt_le_1_alt. lra.
Qed.
Example C73_nonvacuous : solves gsolve /\ (forall r, gen_inverse ((fun _ : R => ginv) r)) /\ regular gsolve (ex_one ex_dirs) /\ 0 < t_cond (ex_one ex_dirs) /\ (2 <= length ex_dirs)%nat /\ snd (mod_ (ex_one ex_dirs) 0) = d_h (dm_ (ex_one ex_dirs) 0) /\
  lsum (map o_w ex_dirs) <> 0 /\ sqrt (k2AO (t_y (ex_one ex_dirs)) 4 4) <= d_kc (dm_ (ex_one ex_dirs) 0) /\ (exists lam, oLambda (ex_one ex_dirs) = Ok (RtoC lam) /\ 0 < lam) /\
  (forall a b, (a < 1)%nat -> (b < 1)%nat -> snd (oInv (ex_one ex_dirs) 4 4 a b) = 0) /\ d_kc (dm_ (ex_one ex_dirs) 0) < sqrt (k2AO (t_y (ex_one ex_dirs)) 4 7).
Proof.
  assert (L : exists lam, oLambda (ex_one ex_dirs) = Ok (RtoC lam) /\ 0 < lam).
  { destruct (oLambda_one (ex_one ex_dirs) eq_refl ltac:(cbn; lia) ltac:(cbn; lra) ltac:(cbn; lra)) as (lam & E & _ & P). exists lam. split; [exact E|]. apply P. exists 4%nat, 4%nat. split; [cbn; lia|]. split; [cbn; lia|]. exact ex_centre_k. }
  split; [exact gsolve_solves|]. split; [intros; exact ginv_gen_inverse|]. split.
  - intros lam [i j] EL _. cbn [fst snd]. destruct L as (l0 & E0 & P0). rewrite E0 in EL. injection EL as <-. set (t := ex_one ex_dirs). change (nDm t) with 1%nat. set (g := gram1 t i j). assert (Den : g ^ 2 + l0 <> 0) by nra.
    apply (gsolve_some 1 1 _ _ (fun _ _ => RtoC (g / (g ^ 2 + l0)))). intros [|a] [|b] Ha Hb; try lia. unfold mmul, madd, mI, mT. cbn [csum Nat.eqb]. rewrite oA_one, oInv_one by reflexivity. fold g. apply C_eq; cbn; field; cbn in Den; rewrite Rmult_1_r in Den; exact Den.
  - split; [cbn; lra|]. split; [cbn; lia|]. split; [reflexivity|]. split; [cbn; lra|]. split; [exact ex_centre_k|]. split; [exact L|]. split.
    + intros [|a] [|b] Ha Hb; try lia. rewrite oInv_one. reflexivity.
    + cbn [dm_ ex_one t_dm nth d_kc t_y]. assert (E : (1 / 2) ^ 2 < k2AO (ex_sys ex_layers) 4 7). { unfold k2AO, kxAO, kyAO, freq_x, freq_y. cbn [ex_sys y_res y_step y_off]. change (Z.of_nat 4 - Z.of_nat 8 / 2)%Z with 0%Z. change (Z.of_nat 7 - Z.of_nat 8 / 2)%Z with 3%Z. lra. }
      replace (1 / 2) with (sqrt ((1 / 2) ^ 2)) by (apply sqrt_pow2; lra). apply sqrt_lt_1_alt. lra.
Qed.
(** REFUTED: the matrix of the regularised system is built with the plain transpose of
    the Gram matrix instead of its conjugate transpose: with two mirrors and two
    directions that are not symmetric about the axis its diagonal is not real, so that it
    is not the matrix of a least-squares problem (compare
    C73_regularised_least_squares). *)
Definition ex_asym : tomo :=
  mkTomo (ex_sys ex_layers) [mkTL 1 1000 10 90] [(1, 1000)] [mkGS (1/10000) 0 (1/2) 1; mkGS (-1/10000) (1/20000) (1/2) 1] [1/2; 1/3] [mkDM 0 1; mkDM 1000 1]
    [mkOD 0 0 1; mkOD (arc / (4 * 1000 * kxAO (ex_sys ex_layers) 5 5)) 0 1] 100 [(0, 0)] 500 2.
Theorem C73_not_hermitian_refuted : exists t i j, (i < y_res (t_y t))%nat /\ (j < y_res (t_y t))%nat /\ sqrt (k2AO (t_y t) i j) <= 1 /\ ~ (forall a b, (a < nDm t)%nat -> (b < nDm t)%nat -> oA t i j a b = Cconj (oA t i j b a)).
Proof.
  exists ex_asym, 5%nat, 5%nat. split; [cbn; lia|]. split; [cbn; lia|].
  assert (EK : kxAO (ex_sys ex_layers) 5 5 = 1 / 4 + / 10 ^ 10) by (unfold kxAO, freq_x; cbn [ex_sys y_res y_step y_off]; change (Z.of_nat 5 - Z.of_nat 8 / 2)%Z with 1%Z; ring).
  assert (EY : kyAO (ex_sys ex_layers) 5 5 = 1 / 4 + / 10 ^ 10) by (unfold kyAO, freq_y; cbn [ex_sys y_res y_step y_off]; change (Z.of_nat 5 - Z.of_nat 8 / 2)%Z with 1%Z; ring).
  assert (HK : sqrt (k2AO (ex_sys ex_layers) 5 5) <= 1) by (rewrite <- sqrt_1; apply sqrt_le_1_alt; unfold k2AO; rewrite EK, EY; lra).
  split; [exact HK|]. intros H. specialize (H 0%nat 0%nat ltac:(cbn; lia) ltac:(cbn; lia)). apply (f_equal snd) in H.
  unfold oA, mmul, mT in H. change (nDm ex_asym) with 2%nat in H. cbn [csum] in H.
  set (K := kxAO (ex_sys ex_layers) 5 5) in *. assert (KP : K <> 0) by (rewrite EK; lra).
  assert (P0 : forall bx by', pDm ex_asym bx by' 5 5 0 = RtoC 1).
  { intros bx by'. unfold pDm. destruct (Rle_dec _ _) as [_|N]; [|contradict N; exact HK]. cbn [ex_asym dm_ t_dm nth d_h]. unfold cis. replace (2 * PI * 0 * (bx * kx ex_asym 5 5 + by' * ky ex_asym 5 5)) with 0 by ring. rewrite cos_0, sin_0. reflexivity. }
  assert (P1 : forall o, pDm ex_asym (o_x o) (o_y o) 5 5 1 = cis (2 * PI * 1000 * (o_x o * K + o_y o * K))).
  { intros o. unfold pDm. destruct (Rle_dec _ _) as [_|N]; [|contradict N; exact HK]. unfold kx, ky. cbn [ex_asym dm_ t_dm nth d_h t_y]. fold K. rewrite EY, <- EK. reflexivity. }
  assert (A1 : cis (2 * PI * 1000 * (o_x (mkOD 0 0 1) * K + o_y (mkOD 0 0 1) * K)) = RtoC 1).
  { unfold o_x, o_y. cbn [o_zen o_az]. unfold cis, Rdiv. rewrite !Rmult_0_l. rewrite Rplus_0_r, Rmult_0_r, cos_0, sin_0. reflexivity. }
  assert (A2 : cis (2 * PI * 1000 * (o_x (mkOD (arc / (4 * 1000 * K)) 0 1) * K + o_y (mkOD (arc / (4 * 1000 * K)) 0 1) * K)) = (0, 1)).
  { unfold o_x, o_y. cbn [o_zen o_az]. assert (Harc : arc <> 0) by (unfold arc; lra). replace (0 * PI / 180) with 0 by (unfold Rdiv; ring). rewrite cos_0, sin_0.
    replace (2 * PI * 1000 * (arc / (4 * 1000 * K) / arc * 1 * K + arc / (4 * 1000 * K) / arc * 0 * K)) with (PI / 2) by (field; split; assumption). unfold cis. rewrite cos_PI2, sin_PI2. reflexivity. }
  assert (OI : forall a b, oInv ex_asym 5 5 a b = Cplus (Cmult (Cconj (pDm ex_asym (o_x (mkOD 0 0 1)) (o_y (mkOD 0 0 1)) 5 5 a)) (pDm ex_asym (o_x (mkOD 0 0 1)) (o_y (mkOD 0 0 1)) 5 5 b))
     (Cmult (Cconj (pDm ex_asym (o_x (mkOD (arc / (4 * 1000 * K)) 0 1)) (o_y (mkOD (arc / (4 * 1000 * K)) 0 1)) 5 5 a)) (pDm ex_asym (o_x (mkOD (arc / (4 * 1000 * K)) 0 1)) (o_y (mkOD (arc / (4 * 1000 * K)) 0 1)) 5 5 b))).
  { intros a b. unfold oInv. cbn [ex_asym t_opt map clsum fold_right]. fold K. cbn [o_w]. ring. }
  rewrite !OI, !P0, !P1, A1, A2 in H. cbn in H. lra.
Qed.
Print Assumptions C73_not_hermitian_refuted.
