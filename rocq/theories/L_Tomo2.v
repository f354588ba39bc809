(** Lemmas on the tomographic reconstructor. *)
From Coq Require Import Reals List Arith ZArith Bool Lia Lra Psatz.
From Verif Require Import Base_Py Base_Sum Base_DFT M_Tools M_Freq M_Atmo M_Sensor M_Model S_Model L_Model M_Tomo S_Tomo L_Tomo.
From Coquelicot Require Import Complex.
Import ListNotations.
Open Scope R_scope.

(** a generalised inverse solves the normal equation *)
Lemma normal_pinv nl ng (c : nat -> R) G N A P : psd ng N -> (forall l, (l < nl)%nat -> 0 <= c l) ->
  (forall a b, (a < ng)%nat -> (b < ng)%nat -> A a b = Cplus (csum nl (fun l => Cmult (Cmult (G a l) (RtoC (c l))) (Cconj (G b l)))) (N a b)) ->
  (forall a b, (a < ng)%nat -> (b < ng)%nat -> mmul ng (mmul ng A P) A a b = A a b) ->
  forall l b, (l < nl)%nat -> (b < ng)%nat ->
  csum ng (fun k => Cmult (csum ng (fun r => Cmult (Cmult (RtoC (c l)) (Cconj (G r l))) (P r k))) (A k b)) = Cmult (RtoC (c l)) (Cconj (G b l)).
Proof.
  intros [HN PN] Pc HA HP l b Hl Hb.
  (* z: column b of  P A - I *)
  set (z := fun k => Cminus (mmul ng P A k b) (if (k =? b)%nat then RtoC 1 else RtoC 0)).
  assert (I : forall f : nat -> C, csum ng (fun k => Cmult (f k) (if (k =? b)%nat then RtoC 1 else RtoC 0)) = f b).
  { intros f. rewrite (csum_single ng b); [rewrite Nat.eqb_refl; ring|exact Hb|]. intros k _ Hne. destruct (Nat.eqb_spec k b); [contradiction|]. ring. }
  assert (AZ : forall a, (a < ng)%nat -> csum ng (fun k => Cmult (A a k) (z k)) = RtoC 0).
  { intros a Ha. unfold z. rewrite (csum_ext ng _ (fun k => Cminus (Cmult (A a k) (mmul ng P A k b)) (Cmult (A a k) (if (k =? b)%nat then RtoC 1 else RtoC 0)))) by (intros; ring).
    rewrite csum_minus, I. change (csum ng (fun k => Cmult (A a k) (mmul ng P A k b))) with (mmul ng A (mmul ng P A) a b). rewrite <- mmul_assoc, HP by assumption. ring. }
  set (v := fun k => Cconj (z k)).
  set (gz := fun l => csum ng (fun r => Cmult (Cconj (G r l)) (z r))).
  assert (QZ : rsum nl (fun l => c l * c2 (gz l)) + qf ng N v = 0).
  { assert (E : Re (csum ng (fun a => Cmult (v a) (csum ng (fun k => Cmult (A a k) (z k))))) = 0).
    { rewrite csum_zero; [reflexivity|]. intros a Ha. rewrite AZ by exact Ha. ring. }
    rewrite <- E. clear E.
    assert (E1 : csum ng (fun a => Cmult (v a) (csum ng (fun k => Cmult (A a k) (z k)))) =
      Cplus (csum nl (fun l => Cmult (RtoC (c l)) (RtoC (c2 (gz l))))) (csum ng (fun a => csum ng (fun b => Cmult (Cmult (v a) (N a b)) (Cconj (v b)))))).
    { rewrite (csum_ext ng _ (fun a => Cplus (csum nl (fun l => Cmult (Cmult (v a) (G a l)) (Cmult (RtoC (c l)) (gz l)))) (csum ng (fun b => Cmult (Cmult (v a) (N a b)) (Cconj (v b)))))).
      - rewrite csum_plus. f_equal. rewrite csum_swap. apply csum_ext. intros q _. rewrite csum_scal_r. rewrite <- c2_conj.
        replace (csum ng (fun a => Cmult (v a) (G a q))) with (Cconj (gz q)); [ring|]. unfold gz. rewrite csum_conj. apply csum_ext. intros a _. rewrite Cconj_mult, Cconj_invol. unfold v. ring.
      - intros a Ha. rewrite <- csum_scal.
        rewrite (csum_ext ng _ (fun k => Cplus (csum nl (fun q => Cmult (Cmult (Cmult (v a) (G a q)) (RtoC (c q))) (Cmult (Cconj (G k q)) (z k)))) (Cmult (Cmult (v a) (N a k)) (Cconj (v k))))).
        + rewrite csum_plus. f_equal. rewrite csum_swap. apply csum_ext. intros q _. rewrite csum_scal. unfold gz. ring.
        + intros k Hk. rewrite HA by assumption. unfold v at 4. rewrite Cconj_invol. rewrite Cmult_plus_distr_r, Cmult_plus_distr_l. f_equal; [|ring].
          rewrite <- csum_scal_r, <- csum_scal. apply csum_ext. intros q _. ring. }
    rewrite E1. unfold qf. change (Re ?x) with (fst x). cbn [Cplus fst]. f_equal. rewrite csum_Re. apply rsum_ext. intros q _. cbn. ring. }
  assert (GZ : c l * c2 (gz l) = 0).
  { assert (D2 : 0 <= rsum nl (fun l => c l * c2 (gz l))) by (apply rsum_nonneg; intros q Hq; apply Rmult_le_pos; [now apply Pc|apply c2_pos]).
    assert (D1 := PN v). assert (D0 : rsum nl (fun l => c l * c2 (gz l)) = 0) by lra.
    assert (D3 : 0 <= c l * c2 (gz l)) by (apply Rmult_le_pos; [now apply Pc|apply c2_pos]).
    assert (D4 : c l * c2 (gz l) <= rsum nl (fun l => c l * c2 (gz l))).
    { apply (rsum_term_le nl (fun l => c l * c2 (gz l)) l); [|exact Hl]. intros q Hq. apply Rmult_le_pos; [now apply Pc|apply c2_pos]. }
    lra. }
  assert (CG : Cmult (RtoC (c l)) (gz l) = RtoC 0).
  { apply Rmult_integral in GZ. destruct GZ as [ ->|GZ]; [ring|]. rewrite (c2_0 _ GZ). ring. }
  assert (F : csum ng (fun k => Cmult (csum ng (fun r => Cmult (Cmult (RtoC (c l)) (Cconj (G r l))) (P r k))) (A k b)) = Cplus (Cmult (RtoC (c l)) (Cconj (G b l))) (Cmult (RtoC (c l)) (gz l))).
  { unfold gz. rewrite <- csum_scal. unfold z.
    rewrite (csum_ext ng (fun i => Cmult (RtoC (c l)) _) (fun r => Cminus (Cmult (Cmult (RtoC (c l)) (Cconj (G r l))) (mmul ng P A r b)) (Cmult (Cmult (RtoC (c l)) (Cconj (G r l))) (if (r =? b)%nat then RtoC 1 else RtoC 0)))) by (intros; ring).
    rewrite csum_minus, (I (fun r => Cmult (RtoC (c l)) (Cconj (G r l)))).
    change (csum ng (fun k => Cmult (csum ng (fun r => Cmult (Cmult (RtoC (c l)) (Cconj (G r l))) (P r k))) (A k b))) with (mmul ng (mmul ng (fun l r => Cmult (RtoC (c l)) (Cconj (G r l))) P) A l b).
    rewrite mmul_assoc. unfold mmul at 1. ring. }
  rewrite F, CG. ring.
Qed.
