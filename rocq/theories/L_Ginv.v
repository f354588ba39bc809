(** The hypotheses on numpy.linalg can be met: a generalised inverse of every square
    complex matrix, by elimination, and a solver of linear systems. *)
From Coq Require Import Reals List Arith ZArith Bool Lia Lra.
From Verif Require Import Base_Py Base_Sum Base_DFT M_Tools M_Freq M_Atmo M_Sensor M_Model S_Model M_Tomo S_Tomo L_Tomo.
From Coquelicot Require Import Complex.
Import ListNotations.
Open Scope R_scope.

Definition Ceqb (x y : C) : bool := if Req_EM_T (fst x) (fst y) then if Req_EM_T (snd x) (snd y) then true else false else false.
Lemma Ceqb_true x y : Ceqb x y = true -> x = y.
Proof. unfold Ceqb. destruct (Req_EM_T _ _) as [E1|]; [|discriminate]. destruct (Req_EM_T _ _) as [E2|]; [|discriminate]. intros _. now apply C_eq. Qed.
Lemma Ceqb_refl x : Ceqb x x = true.
Proof. unfold Ceqb. destruct (Req_EM_T _ _); [|congruence]. destruct (Req_EM_T _ _); congruence. Qed.
Definition pivot (n : nat) (A : mat) (p : nat) : option nat := find (fun q => negb (Ceqb (A p q) (RtoC 0))) (seq 0 n).
(** A - A e_q e_p^T A / A_pq *)
Definition reduce (A : mat) (p q : nat) : mat := fun a b => Cminus (A a b) (Cdiv (Cmult (A a q) (A p b)) (A p q)).
Definition elt (p q : nat) : mat := fun a b => if ((a =? p) && (b =? q))%nat then RtoC 1 else RtoC 0.
(** (I - e_q v^T / alpha) P (I - u e_p^T / alpha) + e_q e_p^T / alpha *)
Definition lift (n : nat) (A P : mat) (p q : nat) : mat := fun a b =>
  Cplus (csum n (fun k => csum n (fun r => Cmult (Cmult (Cminus (mI a k) (Cmult (mI a q) (Cdiv (A p k) (A p q)))) (P k r)) (Cminus (mI r b) (Cmult (Cdiv (A r q) (A p q)) (mI p b))))))
        (Cdiv (Cmult (mI a q) (mI p b)) (A p q)).
Fixpoint ginv_ (n fuel p : nat) (A : mat) : mat :=
  match fuel with
  | O => fun _ _ => RtoC 0
  | S f => match pivot n A p with None => ginv_ n f (S p) A | Some q => lift n A (ginv_ n f (S p) (reduce A p q)) p q end
  end.
Definition ginv (n : nat) (A : mat) : mat := ginv_ n n 0 A.
Lemma csum_mI_l n (f : nat -> C) a : (a < n)%nat -> csum n (fun k => Cmult (mI a k) (f k)) = f a.
Proof. intros H. rewrite (csum_single n a); [unfold mI; rewrite Nat.eqb_refl; ring|exact H|]. intros k _ Hne. unfold mI. destruct (Nat.eqb_spec a k); [congruence|]. ring. Qed.
Lemma csum_mI_r n (f : nat -> C) b : (b < n)%nat -> csum n (fun k => Cmult (f k) (mI k b)) = f b.
Proof. intros H. rewrite (csum_single n b); [unfold mI; rewrite Nat.eqb_refl; ring|exact H|]. intros k _ Hne. unfold mI. destruct (Nat.eqb_spec k b); [congruence|]. ring. Qed.
Lemma pivot_some n A p q : pivot n A p = Some q -> (q < n)%nat /\ A p q <> RtoC 0.
Proof. intros H. apply find_some in H. destruct H as (H & E). apply in_seq in H. split; [lia|]. intros Z. rewrite Z, Ceqb_refl in E. discriminate. Qed.
Lemma pivot_none n A p : pivot n A p = None -> forall q, (q < n)%nat -> A p q = RtoC 0.
Proof. intros H q Hq. apply (find_none _ _ H q) in Hq || (assert (X := find_none _ _ H q ltac:(apply in_seq; lia)); cbn in X; apply negb_false_iff in X; now apply Ceqb_true). Qed.
(** A L = A' and R A = A', hence A (L P R + e_q e_p^T / alpha) A = A' P A' + u v^T / alpha *)
Lemma lift_ok n A P p q : (p < n)%nat -> (q < n)%nat -> A p q <> RtoC 0 ->
  (forall a b, (a < n)%nat -> (b < n)%nat -> mmul n (mmul n (reduce A p q) P) (reduce A p q) a b = reduce A p q a b) ->
  forall a b, (a < n)%nat -> (b < n)%nat -> mmul n (mmul n A (lift n A P p q)) A a b = A a b.
Proof.
  intros Hp Hq Hz HP a b Ha Hb.
  set (Lm := (fun a k => Cminus (mI a k) (Cmult (mI a q) (Cdiv (A p k) (A p q)))) : mat). set (Rm := (fun r b => Cminus (mI r b) (Cmult (Cdiv (A r q) (A p q)) (mI p b))) : mat).
  set (E := (fun a b => Cdiv (Cmult (mI a q) (mI p b)) (A p q)) : mat).
  assert (EL : forall x k, (k < n)%nat -> mmul n A Lm x k = reduce A p q x k).
  { intros x k Hk. unfold mmul, Lm. rewrite (csum_ext n _ (fun y => Cminus (Cmult (A x y) (mI y k)) (Cmult (Cmult (A x y) (mI y q)) (Cdiv (A p k) (A p q))))) by (intros; ring).
    rewrite csum_minus, csum_scal_r, !csum_mI_r by assumption. unfold reduce, Cdiv. ring. }
  assert (ER : forall r y, (r < n)%nat -> mmul n Rm A r y = reduce A p q r y).
  { intros r y Hr. unfold mmul, Rm. rewrite (csum_ext n _ (fun k => Cminus (Cmult (mI r k) (A k y)) (Cmult (Cdiv (A r q) (A p q)) (Cmult (mI p k) (A k y))))) by (intros; ring).
    rewrite csum_minus, csum_scal, !(csum_mI_l n (fun k => A k y)) by assumption. unfold reduce, Cdiv. ring. }
  assert (LE : forall x y, lift n A P p q x y = madd (mmul n (mmul n Lm P) Rm) E x y).
  { intros x y. unfold lift, madd. f_equal. unfold mmul. rewrite csum_swap. apply csum_ext. intros r _. rewrite <- csum_scal_r. apply csum_ext. intros k _. reflexivity. }
  transitivity (Cplus (mmul n (mmul n A (mmul n (mmul n Lm P) Rm)) A a b) (mmul n (mmul n A E) A a b)).
  { rewrite <- mmul_add_l. apply mmul_ext; [|reflexivity]. intros k _. unfold madd at 1. rewrite <- mmul_add_r. apply mmul_ext; [reflexivity|]. intros r _. apply LE. }
  assert (T1 : mmul n (mmul n A (mmul n (mmul n Lm P) Rm)) A a b = reduce A p q a b).
  { rewrite <- (HP a b Ha Hb). rewrite mmul_assoc. 
    rewrite (mmul_ext n A A (mmul n (mmul n (mmul n Lm P) Rm) A) (mmul n Lm (mmul n P (reduce A p q))) a b); [|reflexivity|].
    - rewrite <- mmul_assoc, mmul_assoc. rewrite <- (mmul_assoc n n A Lm).
      rewrite (mmul_ext n (mmul n A Lm) (reduce A p q) (mmul n P (reduce A p q)) (mmul n P (reduce A p q)) a b); [|intros k Hk; apply EL; exact Hk|reflexivity].
      rewrite mmul_assoc. reflexivity.
    - intros k _. rewrite mmul_assoc. rewrite (mmul_ext n (mmul n Lm P) (mmul n Lm P) (mmul n Rm A) (reduce A p q) k b); [|reflexivity|intros r Hr; apply ER; exact Hr]. rewrite mmul_assoc. reflexivity. }
  assert (T2 : mmul n (mmul n A E) A a b = Cdiv (Cmult (A a q) (A p b)) (A p q)).
  { unfold mmul at 1. rewrite (csum_ext n _ (fun k => Cmult (Cdiv (A a q) (A p q)) (Cmult (mI p k) (A k b)))).
    - rewrite csum_scal, (csum_mI_l n (fun k => A k b)) by exact Hp. unfold Cdiv. ring.
    - intros k _. unfold mmul, E. rewrite (csum_ext n _ (fun r => Cmult (Cmult (A a r) (mI r q)) (Cdiv (mI p k) (A p q)))) by (intros; unfold Cdiv; ring). rewrite csum_scal_r, csum_mI_r by exact Hq. unfold Cdiv. ring. }
  rewrite T1, T2. unfold reduce. ring.
Qed.
Lemma ginv_ok n : forall fuel p A, (p + fuel = n)%nat -> (forall a b, (a < p)%nat -> (b < n)%nat -> A a b = RtoC 0) ->
  forall a b, (a < n)%nat -> (b < n)%nat -> mmul n (mmul n A (ginv_ n fuel p A)) A a b = A a b.
Proof.
  induction fuel as [|f IH]; intros p A Hp Z a b Ha Hb; cbn [ginv_].
  - rewrite (Z a b) by lia. unfold mmul. apply csum_zero. intros k _. rewrite csum_zero by (intros; ring). ring.
  - destruct (pivot n A p) as [q|] eqn:Pq.
    + apply pivot_some in Pq. destruct Pq as (Hq & Hz). apply lift_ok; try assumption; [lia|]. intros a' b' Ha' Hb'. apply IH; try assumption; [lia|].
      intros x y Hx Hy. unfold reduce. destruct (Nat.eq_dec x p) as [ ->|Hne].
      * unfold Cdiv. rewrite <- Cmult_assoc, (Cmult_comm (A p y)), Cmult_assoc, Cinv_r by exact Hz. ring.
      * rewrite (Z x y), (Z x q) by lia. unfold Cdiv. ring.
    + assert (Zp := pivot_none n A p Pq). apply IH; try assumption; [lia|]. intros x y Hx Hy. destruct (Nat.eq_dec x p) as [ ->|Hne]; [now apply Zp|apply Z; lia].
Qed.
Theorem ginv_gen_inverse : gen_inverse ginv.
Proof. intros n A a b Ha Hb. apply (ginv_ok n n 0 A); try assumption; [reflexivity|]. intros; lia. Qed.
(** a solver: refuses when the candidate is not a solution *)
Definition gsolve (n m : nat) (A B : mat) : option mat :=
  let X := mmul n (ginv n A) B in
  if forallb (fun a => forallb (fun b => Ceqb (mmul n A X a b) (B a b)) (seq 0 m)) (seq 0 n) then Some X else None.
Theorem gsolve_solves : solves gsolve.
Proof.
  intros n m A B X H a b Ha Hb. unfold gsolve in H. destruct (forallb _ _) eqn:F in H; [|discriminate]. injection H as <-.
  rewrite forallb_forall in F. specialize (F a ltac:(apply in_seq; lia)). rewrite forallb_forall in F. specialize (F b ltac:(apply in_seq; lia)). apply Ceqb_true in F. exact F.
Qed.
