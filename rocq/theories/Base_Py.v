(** Python / NumPy base semantics used by the whole model:
    exceptions as values, integer division, int() truncation, slices, lists. *)
From Coq Require Export List Arith ZArith Lia Bool.
From Coq Require Import ZifyBool ZifyNat.
Export ListNotations.

(** Python exceptions raised by the modelled code (only the class is kept;
    where the message matters the model carries it explicitly). *)
Inductive exn : Set :=
| ValueError | IndexError | TypeError | AttributeError | KeyError
| NameError | UnboundLocalError | ZeroDivisionError | FileNotFoundError
| RuntimeErr
| NonFinite.   (* not a Python exception: NumPy returns inf/nan (with a warning) *)

(** Result of a Python call: normal return or exception. *)
Inductive result (A : Type) : Type :=
| Ok (a : A)
| Err (e : exn).
Arguments Ok {A} a.
Arguments Err {A} e.

Definition bind {A B : Type} (r : result A) (f : A -> result B) : result B :=
  match r with Ok a => f a | Err e => Err e end.
Notation "'do' x <- r ; k" := (bind r (fun x => k))
  (at level 200, x name, r at level 100, k at level 200, right associativity).

Lemma Ok_inj {A} (a b : A) : Ok a = Ok b -> a = b.
Proof. intros H; congruence. Qed.

Definition is_ok {A : Type} (r : result A) : bool :=
  match r with Ok _ => true | Err _ => false end.

(** Python slice bound normalisation for [a[start:stop]] on an axis of length
    [n] (CPython [PySlice_AdjustIndices], positive step): a negative bound is
    counted from the end, then clipped to [0,n]. *)
Definition slice_bound (n i : Z) : Z :=
  if (i <? 0)%Z then Z.max 0 (n + i) else Z.min i n.

(** Number of elements selected by [start:stop] (step 1). *)
Definition slice_len (n start stop : Z) : Z :=
  Z.max 0 (slice_bound n stop - slice_bound n start).

(** Python list slice [l[start:stop]] with non-negative or negative bounds. *)
Definition pyslice {A : Type} (l : list A) (start stop : Z) : list A :=
  let n := Z.of_nat (length l) in
  firstn (Z.to_nat (slice_len n start stop))
         (skipn (Z.to_nat (slice_bound n start)) l).

(** Python indexing [l[i]]: negative from the end, IndexError outside. *)
Definition pyindex {A : Type} (l : list A) (i : Z) : result A :=
  let n := Z.of_nat (length l) in
  let j := if (i <? 0)%Z then (n + i)%Z else i in
  if ((j <? 0) || (n <=? j))%Z then Err IndexError
  else match nth_error l (Z.to_nat j) with
       | Some a => Ok a
       | None => Err IndexError
       end.

(** Python [int(a/b)] for b>0 is truncation toward zero: [Z.quot]. *)
Definition int_div (a b : Z) : Z := Z.quot a b.

Lemma slice_bound_nonneg n i : (0 <= n -> 0 <= slice_bound n i <= n)%Z.
Proof. unfold slice_bound; destruct (i <? 0)%Z eqn:E; lia. Qed.

Lemma slice_bound_in n i : (0 <= i <= n)%Z -> slice_bound n i = i.
Proof. unfold slice_bound; destruct (i <? 0)%Z eqn:E; lia. Qed.

Lemma slice_len_in n a b :
  (0 <= a -> a <= b -> b <= n -> slice_len n a b = b - a)%Z.
Proof.
  intros Ha Hab Hb; unfold slice_len.
  rewrite !slice_bound_in by lia. lia.
Qed.

Lemma pyslice_length {A} (l : list A) a b :
  (0 <= a <= b)%Z -> (b <= Z.of_nat (length l))%Z ->
  length (pyslice l a b) = Z.to_nat (b - a).
Proof.
  intros Hab Hb. unfold pyslice.
  rewrite slice_len_in, slice_bound_in by lia.
  rewrite firstn_length, skipn_length. lia.
Qed.
