(** Specification vocabulary for C95 (Strehl ratio, telescope OTF): cyclic
    convolution and correlation of a periodic map, zero padding. *)
From Coq Require Import Reals Arith ZArith Bool.
From Verif Require Import Base_Sum M_Image.
Open Scope R_scope.

(** Sum over the whole n x m period of e(a,b) e(s-a, t-b). *)
Definition self_convolution (n m : nat) (e : nat -> nat -> R) (s t : nat) : R :=
  rsum n (fun a => rsum m (fun b => e a b * e ((s + (n - a)) mod n)%nat ((t + (m - b)) mod m)%nat)).

(** Sum over the whole n x m period of e(a,b) e(a+s, b+t). *)
Definition autocorrelation (n m : nat) (e : nat -> nat -> R) (s t : nat) : R :=
  rsum n (fun a => rsum m (fun b => e a b * e ((a + s) mod n)%nat ((b + t) mod m)%nat)).

(** e is the image a surrounded by pr (pc) rows (columns) of zeros on each side. *)
Definition zero_padded (a : img) (pr pc : nat) (e : nat -> nat -> R) : Prop :=
  (forall i j, (i < rows a)%nat -> (j < cols a)%nat -> e (pr + i)%nat (pc + j)%nat = px a i j) /\
  (forall i j, (i < pr \/ pr + rows a <= i \/ j < pc \/ pc + cols a <= j)%nat -> e i j = 0).

(** The pupil is its own mirror image through the centre of its array. *)
Definition centrally_symmetric (a : img) : Prop :=
  forall i j, (i < rows a)%nat -> (j < cols a)%nat -> px a (rows a - 1 - i) (cols a - 1 - j) = px a i j.
