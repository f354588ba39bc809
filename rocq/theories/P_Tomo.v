(** C53: the tomographic reconstructor is the linear estimator of least error. *)
From Coq Require Import Reals List Arith ZArith Bool Lia Lra Psatz.
From Verif Require Import Base_Py Base_Sum Base_DFT M_Tools M_Freq M_Atmo M_Sensor M_Model S_Model L_Model M_Tomo S_Tomo L_Tomo L_Tomo2 L_Ginv L_Atmo P_Model2.
From Coquelicot Require Import Complex.
Import ListNotations.
Open Scope R_scope.

Lemma kernel_ok t i j w : Wphi (t_y t) i j = Ok w -> kernel t i j = Ok (w * pistonAO (t_y t) i j).
Proof.
  intros H. assert (P : 0 <= k2AO (t_y t) i j) by (unfold k2AO; nra). revert H. unfold kernel, Wphi, spectrum. rewrite pow2_sqrt by exact P. fold (inv_L0_2 (y_atm (t_y t))).
  destruct (rpow (a_r0 (y_atm (t_y t))) (-5 / 3)) as [p|e]; cbn [bind]; [|discriminate]. destruct (inv_L0_2 _) as [l0|e]; cbn [bind]; [|discriminate].
  destruct (rpow (k2AO (t_y t) i j + l0) (-11 / 6)) as [s|e]; cbn [bind]; [|discriminate]. intros H. injection H as <-. reflexivity.
Qed.
Lemma kernel_nonneg t i j : valid_tomo t -> exists w, Wphi (t_y t) i j = Ok w /\ 0 < w /\ 0 <= w * pistonAO (t_y t) i j.
Proof.
  intros (HV & _). destruct (Wphi_pos (t_y t) i j HV) as (w & E & P). exists w. split; [exact E|]. split; [exact P|]. destruct (piston_range (t_y t) i j). nra.
Qed.
Lemma tMP_sees t i j a l : (a < nGs t)%nat -> tMP t i j a l = sees (gs_ t a) (kx t i j) (ky t i j) (snd (mod_ t l)).
Proof.
  intros Ha. unfold tMP, mmul, tM. rewrite (csum_single (nGs t) a); [rewrite Nat.eqb_refl|exact Ha|].
  - unfold tP, sees, imag, kk, kx, ky, k2AO. reflexivity.
  - intros k _ Hne. destruct (Nat.eqb_spec a k); [congruence|]. ring.
Qed.
Lemma tCb_ok t : valid_tomo t -> exists N, tCb t = Ok N /\ (forall a b, N a b = RtoC (noise_cov t a b)) /\ psd (nGs t) N.
Proof.
  intros (_ & _ & _ & Hv & Hne & Hl & _). unfold tCb, noise_cov. destruct (Nat.eqb_spec (length (t_noise t)) (nGs t)) as [E|E].
  - eexists. split; [reflexivity|]. split; [intros a b; unfold mdiag; now destruct (a =? b)%nat|].
    apply psd_diag. intros a Ha. apply Hv. apply nth_In. lia.
  - destruct Hl as [Hl|Hl]; [contradiction|]. destruct (t_noise t) as [|v [|v' r]] eqn:En; try discriminate. eexists. split; [reflexivity|]. split; [reflexivity|]. apply psd_const. apply Hv. left. reflexivity.
Qed.
Lemma mod_w t l : valid_tomo t -> nLmod t = nL t -> (l < nLmod t)%nat -> tl_w (lay_ t l) = fst (mod_ t l).
Proof.
  intros (_ & _ & _ & _ & _ & _ & HW) E Hl. specialize (HW E). unfold lay_, mod_. change (fst (nth l (t_mod t) (0, 0))) with (fst (nth l (t_mod t) (0, 0))).
  transitivity (nth l (map tl_w (t_lay t)) (tl_w (mkTL 0 0 0 0))); [now rewrite map_nth|]. rewrite <- HW. cbn [tl_w]. change 0 with (fst (0, 0)) at 1. now rewrite map_nth.
Qed.
Definition cvar (t : tomo) (w : R) (i j l : nat) : R := fst (mod_ t l) * (w * pistonAO (t_y t) i j).
Lemma cvar_nonneg t w i j l : valid_tomo t -> 0 <= w * pistonAO (t_y t) i j -> (l < nLmod t)%nat -> 0 <= cvar t w i j l.
Proof. intros (_ & _ & HM & _) Hk Hl. unfold cvar. apply Rmult_le_pos; [|exact Hk]. apply HM. apply nth_In. exact Hl. Qed.
Lemma tCmod_ok t i j w : valid_tomo t -> Wphi (t_y t) i j = Ok w -> exists c, tCmod t i j = Ok c /\
  forall a b, (a < nLmod t)%nat -> (b < nLmod t)%nat -> c a b = mdiag (cvar t w i j) a b.
Proof.
  intros HV E. unfold tCmod, tCphi. rewrite (kernel_ok t i j w E). cbn [bind]. destruct (Nat.eqb_spec (nLmod t) (nL t)) as [EL|EL]; (eexists; split; [reflexivity|]); intros a b Ha Hb; unfold mscal, mdiag, cvar; destruct (a =? b)%nat; try (apply C_eq; cbn; ring).
  rewrite (mod_w t a HV EL Ha). apply C_eq; cbn; ring.
Qed.
(** the two matrices of the reconstructor *)
Lemma tInv_ok t i j w : valid_tomo t -> Wphi (t_y t) i j = Ok w -> exists A R' N, tInv t i j = Ok A /\ tRhs t i j = Ok R' /\ tCb t = Ok N /\
  (forall a b, N a b = RtoC (noise_cov t a b)) /\ psd (nGs t) N /\
  (forall a b, (a < nGs t)%nat -> (b < nGs t)%nat -> A a b = Cplus (csum (nLmod t) (fun l => Cmult (Cmult (tMP t i j a l) (RtoC (cvar t w i j l))) (Cconj (tMP t i j b l)))) (N a b)) /\
  (forall l b, (l < nLmod t)%nat -> R' l b = Cmult (RtoC (cvar t w i j l)) (Cconj (tMP t i j b l))).
Proof.
  intros HV E. destruct (tCmod_ok t i j w HV E) as (c & Ec & Dc). destruct (tCb_ok t HV) as (N & EN & DN & PN).
  unfold tInv, tRhs. rewrite Ec, EN. cbn [bind]. do 3 eexists. split; [reflexivity|]. split; [reflexivity|]. split; [reflexivity|]. split; [exact DN|]. split; [exact PN|]. split.
  - intros a b Ha Hb. unfold madd. f_equal. unfold mmul at 1. apply csum_ext. intros l Hl. unfold mH. f_equal.
    rewrite (mmul_ext (nLmod t) (tMP t i j) (tMP t i j) c (mdiag (cvar t w i j)) a l); [apply mmul_diag; exact Hl|reflexivity|]. intros k Hk. now apply Dc.
  - intros l b Hl. rewrite (mmul_ext (nLmod t) c (mdiag (cvar t w i j)) (mH (tMP t i j)) (mH (tMP t i j)) l b); [rewrite mmul_diag_l by exact Hl; reflexivity| |reflexivity]. intros k Hk. now apply Dc.
Qed.
(** the reconstructor solves the normal equation *)
Lemma in_all_freq t i j : (i < y_res (t_y t))%nat -> (j < y_res (t_y t))%nat -> In (i, j) (all_freq t).
Proof. intros. unfold all_freq. apply in_prod; apply in_seq; lia. Qed.
Lemma mapM_in {A B} (f : A -> result B) l r : mapM f l = Ok r -> forall x, In x l -> exists y, f x = Ok y /\ In y r.
Proof.
  revert r. induction l as [|a l IH]; intros r H x Hx; [destruct Hx|]. cbn [mapM] in H. destruct (f a) as [y|e] eqn:Ea; cbn [bind] in H; [|discriminate]. destruct (mapM f l) as [r'|e] eqn:Er; cbn [bind] in H; [|discriminate]. injection H as <-.
  destruct Hx as [ <-|Hx]; [exists y; split; [exact Ea|now left]|]. destruct (IH r' eq_refl x Hx) as (z & Ez & Hz). exists z. split; [exact Ez|now right].
Qed.
Lemma mapM_total {A B} (f : A -> result B) l : (forall x, In x l -> exists y, f x = Ok y) -> exists r, mapM f l = Ok r.
Proof.
  induction l as [|a l IH]; intros H; [eexists; reflexivity|]. cbn [mapM]. destruct (H a (or_introl eq_refl)) as (y & ->). destruct IH as (r & ->); [intros; apply H; now right|]. eexists. reflexivity.
Qed.
Lemma tWtomo_normal solve pinv t i j w : solves solve -> gen_inverse pinv -> valid_tomo t -> (i < y_res (t_y t))%nat -> (j < y_res (t_y t))%nat -> Wphi (t_y t) i j = Ok w ->
  exists W A N, tWtomo solve pinv t i j = Ok W /\ (forall a b, N a b = RtoC (noise_cov t a b)) /\ psd (nGs t) N /\
  (forall a b, (a < nGs t)%nat -> (b < nGs t)%nat -> A a b = Cplus (csum (nLmod t) (fun l => Cmult (Cmult (tMP t i j a l) (RtoC (cvar t w i j l))) (Cconj (tMP t i j b l)))) (N a b)) /\
  (forall l b, (l < nLmod t)%nat -> (b < nGs t)%nat -> csum (nGs t) (fun k => Cmult (W l k) (A k b)) = Cmult (RtoC (cvar t w i j l)) (Cconj (tMP t i j b l))).
Proof.
  intros HS HP HV Hi Hj E. destruct (tInv_ok t i j w HV E) as (A & R' & N & EA & ER & EN & DN & PN & DA & DR).
  unfold tWtomo. match goal with |- context [mapM ?f (all_freq t)] => set (F := f) end.
  destruct (mapM_total F (all_freq t)) as (bad & Eb).
  { intros [i' j'] _. unfold F. cbn [fst snd]. destruct (kernel_nonneg t i' j' HV) as (w' & E' & _). destruct (tInv_ok t i' j' w' HV E') as (A' & R2 & _ & -> & -> & _). cbn [bind]. eexists. reflexivity. }
  rewrite Eb, EA, ER. cbn [bind]. destruct (kernel_nonneg t i j HV) as (w' & E' & _ & Kp). rewrite E in E'. injection E' as <-.
  destruct (existsb (fun b => b) bad) eqn:X.
  - exists (mmul (nGs t) R' (pinv (nGs t) A)), A, N. split; [reflexivity|]. split; [exact DN|]. split; [exact PN|]. split; [exact DA|]. intros l b Hl Hb.
    rewrite <- (normal_pinv (nLmod t) (nGs t) (cvar t w i j) (tMP t i j) N A (pinv (nGs t) A) PN (fun l Hl => cvar_nonneg t w i j l HV Kp Hl) DA (HP (nGs t) A) l b Hl Hb).
    apply csum_ext. intros k _. f_equal. unfold mmul. apply csum_ext. intros r _. now rewrite DR.
  - destruct (mapM_in F (all_freq t) bad Eb (i, j) (in_all_freq t i j Hi Hj)) as (y & Ey & Iy). unfold F in Ey. cbn [fst snd] in Ey. rewrite EA, ER in Ey. cbn [bind] in Ey.
    assert (Y : y = false). { destruct y; [|reflexivity]. assert (existsb (fun b => b) bad = true) by (apply existsb_exists; exists true; split; [exact Iy|reflexivity]). congruence. }
    destruct (solve (nGs t) (nLmod t) (mT A) (mT R')) as [x|] eqn:Sx; [|subst y; discriminate].
    exists (mT x), A, N. split; [reflexivity|]. split; [exact DN|]. split; [exact PN|]. split; [exact DA|]. intros l b Hl Hb. rewrite <- DR by exact Hl.
    change (R' l b) with (mT R' b l). rewrite <- (HS _ _ _ _ _ Sx b l Hb Hl). apply csum_ext. intros k _. unfold mT. ring.
Qed.
Lemma est_error_var nl ng c G G' N N' p q : (forall a b, N' a b = RtoC (N a b)) -> (forall g l, (g < ng)%nat -> (l < nl)%nat -> G g l = G' g l) ->
  est_error nl ng c G N p q = err_var nl ng c G' N' p q.
Proof.
  intros DN DG. unfold est_error, err_var. f_equal.
  - apply rsum_ext. intros l Hl. f_equal. change cnorm2 with c2. f_equal. f_equal. apply csum_ext. intros g Hg. now rewrite DG.
  - unfold qf. change (Re ?x) with (fst x). rewrite csum_Re. apply rsum_ext. intros a _. rewrite csum_Re. apply rsum_ext. intros b _. rewrite DN. cbn. ring.
Qed.

(** C53: whatever the directions and sizes of the sensors, the layers, their weights and
    the noise, the reconstructor exists at every frequency and its estimate of any
    combination of the modelled layers (one layer, or the phase in any direction) has the
    least mean square error of all linear estimates from the measurements. *)
Theorem C53_minimum_error : forall solve pinv t i j, solves solve -> gen_inverse pinv -> valid_tomo t -> (i < y_res (t_y t))%nat -> (j < y_res (t_y t))%nat ->
  exists w W, Wphi (t_y t) i j = Ok w /\ tWtomo solve pinv t i j = Ok W /\
  let c l := fst (mod_ t l) * (w * pistonAO (t_y t) i j) in
  let G g l := sees (gs_ t g) (kxAO (t_y t) i j) (kyAO (t_y t) i j) (snd (mod_ t l)) in
  forall p q, est_error (nLmod t) (nGs t) c G (noise_cov t) p (fun g => csum (nLmod t) (fun l => Cmult (p l) (W l g))) <= est_error (nLmod t) (nGs t) c G (noise_cov t) p q.
Proof.
  intros solve pinv t i j HS HP HV Hi Hj. destruct (kernel_nonneg t i j HV) as (w & E & _ & Kp).
  destruct (tWtomo_normal solve pinv t i j w HS HP HV Hi Hj E) as (W & A & N & EW & DN & PN & DA & DW).
  exists w, W. split; [exact E|]. split; [exact EW|]. intros c G p q.
  assert (GE : forall g l, (g < nGs t)%nat -> (l < nLmod t)%nat -> G g l = tMP t i j g l) by (intros g l Hg _; symmetry; apply tMP_sees; exact Hg).
  rewrite !(est_error_var (nLmod t) (nGs t) c G (tMP t i j) (noise_cov t) N p _ DN GE).
  apply (err_var_min (nLmod t) (nGs t) c (tMP t i j) N p _ PN (fun l Hl => cvar_nonneg t w i j l HV Kp Hl)).
  intros b Hb. change c with (cvar t w i j).
  rewrite (csum_ext (nGs t) _ (fun a => csum (nLmod t) (fun l => Cmult (p l) (Cmult (W l a) (A a b))))).
  - rewrite csum_swap. apply csum_ext. intros l Hl. rewrite csum_scal, DW by assumption. ring.
  - intros a Ha. rewrite <- DA by assumption. rewrite <- csum_scal_r. apply csum_ext. intros l _. ring.
Qed.
Print Assumptions C53_minimum_error.
(** In particular tomography never does worse than no correction. *)
Corollary C53_never_worse : forall solve pinv t i j, solves solve -> gen_inverse pinv -> valid_tomo t -> (i < y_res (t_y t))%nat -> (j < y_res (t_y t))%nat ->
  exists w W, Wphi (t_y t) i j = Ok w /\ tWtomo solve pinv t i j = Ok W /\
  let c l := fst (mod_ t l) * (w * pistonAO (t_y t) i j) in
  let G g l := sees (gs_ t g) (kxAO (t_y t) i j) (kyAO (t_y t) i j) (snd (mod_ t l)) in
  forall p, est_error (nLmod t) (nGs t) c G (noise_cov t) p (fun g => csum (nLmod t) (fun l => Cmult (p l) (W l g))) <= prior_var (nLmod t) c p.
Proof.
  intros solve pinv t i j HS HP HV Hi Hj. destruct (C53_minimum_error solve pinv t i j HS HP HV Hi Hj) as (w & W & E & EW & M). exists w, W. split; [exact E|]. split; [exact EW|]. intros c G p.
  eapply Rle_trans; [apply (M p (fun _ => RtoC 0))|]. apply Req_le. unfold est_error, prior_var.
  rewrite (rsum_zero (nGs t)) by (intros a _; apply rsum_zero; intros b _; cbn; ring). rewrite Rplus_0_r. apply rsum_ext. intros l _. f_equal.
  rewrite csum_zero by (intros; ring). unfold cnorm2. destruct (p l) as [x y]. cbn. ring.
Qed.
Print Assumptions C53_never_worse.

(** REFUTED: a single noise variance given for several guide stars is not taken as the
    variance of each sensor: it fills the whole covariance matrix, as if the sensors had
    the same noise sample. With two or more values of another length, the call fails. *)
Theorem C53_single_noise_correlated_refuted :
  (forall t v, t_noise t = [v] -> (2 <= nGs t)%nat -> exists N, tCb t = Ok N /\ forall a b, N a b = RtoC v) /\
  (forall t, t_noise t <> [] -> length (t_noise t) <> nGs t -> length (t_noise t) <> 1%nat -> tCb t = Err ValueError).
Proof.
  split.
  - intros t v E H. unfold tCb. rewrite E. cbn [length]. destruct (Nat.eqb_spec 1 (nGs t)); [lia|]. eexists. split; [reflexivity|]. reflexivity.
  - intros t Hn H1 H2. unfold tCb. destruct (Nat.eqb_spec (length (t_noise t)) (nGs t)); [contradiction|]. destruct (t_noise t) as [|v [|v' r]]; [congruence|now contradict H2|reflexivity].
Qed.
Print Assumptions C53_single_noise_correlated_refuted.

(** Two guide stars, two layers, two mirrors. *)
Definition ex_tomo (noise : list R) : tomo :=
  mkTomo (ex_sys ex_layers) [mkTL (1/4) 0 5 0; mkTL (3/4) 1000 10 90] [(1/4, 0); (3/4, 1000)]
    [mkGS (1/10000) 0 (1/2) 1; mkGS (-1/10000) (1/20000) (1/2) 1] noise [mkDM 0 1; mkDM 1000 1]
    [mkOD 0 0 (1/2); mkOD 20 90 (1/2)] 100 [(0, 0); (1/20000, 0)] 500 2.
Lemma ex_tomo_valid noise : noise = [1/2] \/ (exists a b, 0 <= a /\ 0 <= b /\ noise = [a; b]) -> valid_tomo (ex_tomo noise).
Proof.
  intros H. unfold valid_tomo. cbn [t_y t_lay t_mod t_noise ex_tomo nGs nLmod nL t_gs]. split; [apply ex_valid, ex_w; left; reflexivity|]. split; [intros l [ <-|[ <-|[]]]; cbn; lra|]. split; [intros l [ <-|[ <-|[]]]; cbn; lra|].
  split; [destruct H as [ ->|(a & b & Ha & Hb & ->)]; [intros v [ <-|[]]; lra|intros v [ <-|[ <-|[]]]; lra]|].
  split; [destruct H as [ ->|(a & b & _ & _ & ->)]; discriminate|]. split; [destruct H as [ ->|(a & b & _ & _ & ->)]; [right|left]; reflexivity|]. reflexivity.
Qed.
Definition ex_t : tomo := ex_tomo [1/2; 1/3].
Example C53_nonvacuous : solves gsolve /\ gen_inverse ginv /\ valid_tomo ex_t /\ 0 < fst (mod_ ex_t 1) /\ pistonAO (t_y ex_t) 4 5 = 1 /\ (5 < y_res (t_y ex_t))%nat.
Proof. split; [exact gsolve_solves|]. split; [exact ginv_gen_inverse|]. split; [apply ex_tomo_valid; right; exists (1/2), (1/3); repeat split; lra|]. split; [cbn; lra|]. split; [apply ex_piston; discriminate|cbn; lia]. Qed.
