(** Complex matrices: products, quadratic forms. *)
From Coq Require Import Reals List Arith ZArith Bool Lia Lra Psatz.
From Verif Require Import Base_Py Base_Sum Base_DFT M_Tools M_Freq M_Atmo M_Sensor M_Model M_Tomo.
From Coquelicot Require Import Complex.
Import ListNotations.
Open Scope R_scope.

Lemma mmul_assoc n m A B D a b : mmul m (mmul n A B) D a b = mmul n A (mmul m B D) a b.
Proof.
  unfold mmul. rewrite (csum_ext m _ (fun k => csum n (fun q => Cmult (Cmult (A a q) (B q k)) (D k b)))) by (intros; now rewrite <- csum_scal_r).
  rewrite csum_swap. apply csum_ext. intros q _. rewrite <- csum_scal. apply csum_ext. intros k _. ring.
Qed.
Lemma mmul_add_l n A B D a b : mmul n (madd A B) D a b = Cplus (mmul n A D a b) (mmul n B D a b).
Proof. unfold mmul, madd. rewrite <- csum_plus. apply csum_ext. intros; ring. Qed.
Lemma mmul_add_r n A B D a b : mmul n A (madd B D) a b = Cplus (mmul n A B a b) (mmul n A D a b).
Proof. unfold mmul, madd. rewrite <- csum_plus. apply csum_ext. intros; ring. Qed.
Lemma csum_opp n f : csum n (fun i => Copp (f i)) = Copp (csum n f).
Proof. induction n as [|n IH]; cbn [csum]; [apply C_eq; cbn; lra|]. rewrite IH. ring. Qed.
Lemma csum_minus n f g : csum n (fun i => Cminus (f i) (g i)) = Cminus (csum n f) (csum n g).
Proof. unfold Cminus. rewrite csum_plus, csum_opp. reflexivity. Qed.
Lemma mmul_diag n A f a b : (b < n)%nat -> mmul n A (mdiag f) a b = Cmult (A a b) (RtoC (f b)).
Proof.
  intros H. unfold mmul, mdiag. rewrite (csum_single n b); [now rewrite Nat.eqb_refl|exact H|]. intros i Hi Hne. destruct (Nat.eqb_spec i b); [contradiction|]. ring.
Qed.
Lemma mmul_diag_l n A f a b : (a < n)%nat -> mmul n (mdiag f) A a b = Cmult (RtoC (f a)) (A a b).
Proof.
  intros H. unfold mmul, mdiag. rewrite (csum_single n a); [now rewrite Nat.eqb_refl|exact H|]. intros i Hi Hne. destruct (Nat.eqb_spec a i); [congruence|]. ring.
Qed.
Lemma mmul_ext n A A' B B' a b : (forall k, (k < n)%nat -> A a k = A' a k) -> (forall k, (k < n)%nat -> B k b = B' k b) -> mmul n A B a b = mmul n A' B' a b.
Proof. intros H1 H2. unfold mmul. apply csum_ext. intros k Hk. now rewrite H1, H2. Qed.
Lemma mmul_scal_l n r A B a b : mmul n (mscal r A) B a b = Cmult (RtoC r) (mmul n A B a b).
Proof. unfold mmul, mscal. rewrite <- csum_scal. apply csum_ext. intros; ring. Qed.
Lemma mH_mmul n A B a b : mH (mmul n A B) a b = mmul n (mH B) (mH A) a b.
Proof. unfold mH, mmul. rewrite csum_conj. apply csum_ext. intros k _. rewrite Cconj_mult. ring. Qed.
Lemma mT_mmul n A B a b : mT (mmul n A B) a b = mmul n (mT B) (mT A) a b.
Proof. unfold mT, mmul. apply csum_ext. intros. ring. Qed.

(** |z|^2 *)
Definition c2 (z : C) : R := fst z ^ 2 + snd z ^ 2.
Lemma c2_pos z : 0 <= c2 z.
Proof. unfold c2. nra. Qed.
Lemma c2_0 z : c2 z = 0 -> z = RtoC 0.
Proof. unfold c2. intros H. apply C_eq; cbn; nra. Qed.
Lemma c2_conj z : Cmult z (Cconj z) = RtoC (c2 z).
Proof. unfold c2. apply C_eq; cbn; ring. Qed.
Lemma c2_Cmod z : Cmod z ^ 2 = c2 z.
Proof. unfold Cmod, c2. apply pow2_sqrt. nra. Qed.
Lemma c2_cis x : c2 (cis x) = 1.
Proof. unfold c2, cis. cbn [fst snd]. pose proof (sin2_cos2 x) as H. unfold Rsqr in H. lra. Qed.
Lemma c2_mult a b : c2 (Cmult a b) = c2 a * c2 b.
Proof. unfold c2. cbn. ring. Qed.
(** quadratic form v N v^H *)
Definition qf (n : nat) (N : mat) (v : nat -> C) : R := Re (csum n (fun a => csum n (fun b => Cmult (Cmult (v a) (N a b)) (Cconj (v b))))).
(** Hermitian, positive *)
Definition herm (n : nat) (N : mat) : Prop := forall a b, (a < n)%nat -> (b < n)%nat -> N a b = Cconj (N b a).
Definition psd (n : nat) (N : mat) : Prop := herm n N /\ forall v, 0 <= qf n N v.
Lemma qf_diag n f v : qf n (mdiag f) v = rsum n (fun a => f a * c2 (v a)).
Proof.
  unfold qf. change (Re ?z) with (fst z). rewrite csum_Re. apply rsum_ext. intros a Ha.
  rewrite (csum_single n a); [|exact Ha|intros b Hb Hne; unfold mdiag; destruct (Nat.eqb_spec a b); [congruence|ring]].
  unfold mdiag. rewrite Nat.eqb_refl. unfold c2. cbn. ring.
Qed.
Lemma psd_diag n f : (forall a, (a < n)%nat -> 0 <= f a) -> psd n (mdiag f).
Proof.
  intros H. split.
  - intros a b _ _. unfold mdiag. rewrite (Nat.eqb_sym b a). destruct (Nat.eqb_spec a b) as [ ->|]; apply C_eq; cbn; lra.
  - intros v. rewrite qf_diag. apply rsum_nonneg. intros a Ha. apply Rmult_le_pos; [now apply H|apply c2_pos].
Qed.
Lemma qf_const n r v : qf n (fun _ _ => RtoC r) v = r * c2 (csum n v).
Proof.
  unfold qf. transitivity (Re (Cmult (RtoC r) (RtoC (c2 (csum n v))))); [|unfold Re; cbn; ring]. f_equal.
  rewrite <- c2_conj, csum_conj. rewrite <- csum_scal_r, <- csum_scal. apply csum_ext. intros a _. rewrite <- !csum_scal. apply csum_ext. intros; ring.
Qed.
Lemma psd_const n r : 0 <= r -> psd n (fun _ _ => RtoC r).
Proof. intros H. split; [intros a b _ _; apply C_eq; cbn; lra|]. intros v. rewrite qf_const. apply Rmult_le_pos; [exact H|apply c2_pos]. Qed.
(** the entry (0,0) of v N v^H as computed *)
Lemma qf_mmul n N P : Re (mmul n P (mmul n N (mH P)) 0%nat 0%nat) = qf n N (P 0%nat).
Proof.
  unfold qf, mmul, mH. f_equal. apply csum_ext. intros a _. rewrite <- csum_scal. apply csum_ext. intros b _. ring.
Qed.
(** expansion of the form around u *)
Lemma qf_plus n N u v : herm n N -> qf n N (fun a => Cplus (u a) (v a)) = qf n N u + qf n N v + 2 * Re (csum n (fun b => Cmult (csum n (fun a => Cmult (u a) (N a b))) (Cconj (v b)))).
Proof.
  intros H. unfold qf.
  assert (E1 : csum n (fun a => csum n (fun b => Cmult (Cmult (Cplus (u a) (v a)) (N a b)) (Cconj (Cplus (u b) (v b))))) =
    Cplus (Cplus (csum n (fun a => csum n (fun b => Cmult (Cmult (u a) (N a b)) (Cconj (u b))))) (csum n (fun a => csum n (fun b => Cmult (Cmult (v a) (N a b)) (Cconj (v b))))))
          (Cplus (csum n (fun a => csum n (fun b => Cmult (Cmult (u a) (N a b)) (Cconj (v b))))) (csum n (fun a => csum n (fun b => Cmult (Cmult (v a) (N a b)) (Cconj (u b))))))).
  { rewrite <- !csum_plus. apply csum_ext. intros a _. rewrite <- !csum_plus. apply csum_ext. intros b _. rewrite Cconj_plus. ring. }
  set (X := csum n (fun b => Cmult (csum n (fun a => Cmult (u a) (N a b))) (Cconj (v b)))).
  assert (E2 : csum n (fun a => csum n (fun b => Cmult (Cmult (u a) (N a b)) (Cconj (v b)))) = X).
  { unfold X. rewrite csum_swap. apply csum_ext. intros b _. rewrite csum_scal_r. reflexivity. }
  assert (E3 : csum n (fun a => csum n (fun b => Cmult (Cmult (v a) (N a b)) (Cconj (u b)))) = Cconj X).
  { rewrite <- E2. rewrite csum_conj. rewrite csum_swap. apply csum_ext. intros a Ha. rewrite csum_conj. apply csum_ext. intros b Hb. rewrite (H b a Hb Ha), !Cconj_mult, Cconj_invol. ring. }
  rewrite E1, E2, E3. unfold Re. cbn. lra.
Qed.

(** ** Minimum of a quadratic criterion *)
(** variance of the estimate q of the functional p: errors on the layers (variances c)
    through the measurement matrix G, plus noise of covariance N *)
Definition err_var (nl ng : nat) (c : nat -> R) (G N : mat) (p q : nat -> C) : R :=
  rsum nl (fun l => c l * c2 (Cminus (csum ng (fun g => Cmult (q g) (G g l))) (p l))) + qf ng N q.
Lemma err_var_min nl ng c G N p q0 : psd ng N -> (forall l, (l < nl)%nat -> 0 <= c l) ->
  (forall b, (b < ng)%nat -> csum ng (fun a => Cmult (q0 a) (Cplus (csum nl (fun l => Cmult (Cmult (G a l) (RtoC (c l))) (Cconj (G b l)))) (N a b))) = csum nl (fun l => Cmult (Cmult (p l) (RtoC (c l))) (Cconj (G b l)))) ->
  forall q, err_var nl ng c G N p q0 <= err_var nl ng c G N p q.
Proof.
  intros [HN PN] Pc E q. set (d := fun a => Cminus (q a) (q0 a)).
  assert (Q : forall a, q a = Cplus (q0 a) (d a)) by (intros a; unfold d; ring).
  set (r0 := fun l => Cminus (csum ng (fun g => Cmult (q0 g) (G g l))) (p l)). set (dl := fun l => csum ng (fun g => Cmult (d g) (G g l))).
  unfold err_var.
  assert (QF : qf ng N q = qf ng N q0 + qf ng N d + 2 * Re (csum ng (fun b => Cmult (csum ng (fun a => Cmult (q0 a) (N a b))) (Cconj (d b))))).
  { rewrite <- qf_plus by exact HN. unfold qf. f_equal. apply csum_ext. intros a _. apply csum_ext. intros b _. now rewrite !Q. }
  assert (LF : rsum nl (fun l => c l * c2 (Cminus (csum ng (fun g => Cmult (q g) (G g l))) (p l))) =
    rsum nl (fun l => c l * c2 (r0 l)) + rsum nl (fun l => c l * c2 (dl l)) + 2 * Re (csum nl (fun l => Cmult (Cmult (r0 l) (RtoC (c l))) (Cconj (dl l))))).
  { change (Re ?z) with (fst z). rewrite csum_Re, <- rsum_scal, <- !rsum_plus. apply rsum_ext. intros l _.
    assert (A : csum ng (fun g => Cmult (q g) (G g l)) = Cplus (csum ng (fun g => Cmult (q0 g) (G g l))) (dl l)) by (unfold dl; rewrite <- csum_plus; apply csum_ext; intros g _; rewrite Q; ring).
    rewrite A. replace (Cminus (Cplus (csum ng (fun g => Cmult (q0 g) (G g l))) (dl l)) (p l)) with (Cplus (r0 l) (dl l)) by (unfold r0; ring). generalize (r0 l) (dl l). intros [x1 x2] [y1 y2]. unfold c2. cbn. ring. }
  assert (CR : Cplus (csum nl (fun l => Cmult (Cmult (r0 l) (RtoC (c l))) (Cconj (dl l)))) (csum ng (fun b => Cmult (csum ng (fun a => Cmult (q0 a) (N a b))) (Cconj (d b)))) = RtoC 0).
  { assert (X1 : csum nl (fun l => Cmult (Cmult (r0 l) (RtoC (c l))) (Cconj (dl l))) = csum ng (fun b => Cmult (csum nl (fun l => Cmult (Cmult (r0 l) (RtoC (c l))) (Cconj (G b l)))) (Cconj (d b)))).
    { rewrite (csum_ext ng _ (fun b => csum nl (fun l => Cmult (Cmult (Cmult (r0 l) (RtoC (c l))) (Cconj (G b l))) (Cconj (d b))))) by (intros; now rewrite csum_scal_r). rewrite csum_swap. apply csum_ext. intros l _. unfold dl. rewrite csum_conj, <- csum_scal. apply csum_ext. intros b _. rewrite Cconj_mult. ring. }
    rewrite X1, <- csum_plus. apply csum_zero. intros b Hb. rewrite <- Cmult_plus_distr_r.
    assert (X2 : Cplus (csum nl (fun l => Cmult (Cmult (r0 l) (RtoC (c l))) (Cconj (G b l)))) (csum ng (fun a => Cmult (q0 a) (N a b))) =
      Cminus (csum ng (fun a => Cmult (q0 a) (Cplus (csum nl (fun l => Cmult (Cmult (G a l) (RtoC (c l))) (Cconj (G b l)))) (N a b)))) (csum nl (fun l => Cmult (Cmult (p l) (RtoC (c l))) (Cconj (G b l))))).
    { rewrite (csum_ext ng (fun a => Cmult (q0 a) (Cplus _ _)) (fun a => Cplus (csum nl (fun l => Cmult (q0 a) (Cmult (Cmult (G a l) (RtoC (c l))) (Cconj (G b l))))) (Cmult (q0 a) (N a b)))) by (intros; rewrite csum_scal; ring).
      rewrite csum_plus, csum_swap. unfold r0.
      rewrite (csum_ext nl (fun l => Cmult (Cmult (Cminus _ _) _) _) (fun l => Cminus (csum ng (fun a => Cmult (q0 a) (Cmult (Cmult (G a l) (RtoC (c l))) (Cconj (G b l))))) (Cmult (Cmult (p l) (RtoC (c l))) (Cconj (G b l))))).
      - rewrite csum_minus. ring.
      - intros l _. rewrite (csum_ext ng (fun a => Cmult (q0 a) (Cmult _ _)) (fun a => Cmult (Cmult (q0 a) (G a l)) (Cmult (RtoC (c l)) (Cconj (G b l))))) by (intros; ring). rewrite csum_scal_r. ring. }
    rewrite X2, E by exact Hb. ring. }
  assert (CR' : Re (csum nl (fun l => Cmult (Cmult (r0 l) (RtoC (c l))) (Cconj (dl l)))) + Re (csum ng (fun b => Cmult (csum ng (fun a => Cmult (q0 a) (N a b))) (Cconj (d b)))) = 0).
  { apply (f_equal fst) in CR. cbn in CR. exact CR. }
  change (rsum nl (fun l => c l * c2 (Cminus (csum ng (fun g => Cmult (q0 g) (G g l))) (p l)))) with (rsum nl (fun l => c l * c2 (r0 l))). rewrite QF, LF. pose proof (PN d) as D1. assert (D2 : 0 <= rsum nl (fun l => c l * c2 (dl l))) by (apply rsum_nonneg; intros l Hl; apply Rmult_le_pos; [now apply Pc|apply c2_pos]). revert D1 D2 CR'. clear. generalize (qf ng N q0) (qf ng N d) (rsum nl (fun l => c l * c2 (r0 l))) (rsum nl (fun l => c l * c2 (dl l))). intros a b e f.
  match goal with |- context [Re ?x + Re ?y] => generalize (Re x) (Re y) end. intros. lra.
Qed.
