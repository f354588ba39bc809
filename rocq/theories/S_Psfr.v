(** Specification vocabulary for the PSF reconstruction (psfR.py, psfrUtils.py). *)
From Coq Require Import Reals List Arith ZArith.
From Verif Require Import Base_Sum.
Open Scope R_scope.

(** a map on the n x n pupil grid, null outside of it *)
Definition zext (n : nat) (f : nat -> nat -> R) (a b : Z) : R :=
  if ((0 <=? a) && (a <? Z.of_nat n) && (0 <=? b) && (b <? Z.of_nat n))%Z%bool then f (Z.to_nat a) (Z.to_nat b) else 0.
(** sum over the pairs of pupil pixels separated by (s, t) of the weight times [w] *)
Definition pair_sum (n : nat) (P : nat -> nat -> R) (s t : Z) (w : Z -> Z -> R) : R :=
  rsum n (fun a => rsum n (fun b => zext n P (Z.of_nat a + s) (Z.of_nat b + t) * P a b * w (Z.of_nat a) (Z.of_nat b))).
(** number of such pairs (telescope OTF up to a factor) *)
Definition overlap (n : nat) (P : nat -> nat -> R) (s t : Z) : R := pair_sum n P s t (fun _ _ => 1).
(** variance of the phase difference between the two pixels for coefficients of covariance
    C on the modes Z_l: sum over l, l' of C_ll' (Z_l(x+s) - Z_l(x)) (Z_l'(x+s) - Z_l'(x)) *)
Definition diff_variance (n nm : nat) (modes : nat -> nat -> nat -> R) (C : nat -> nat -> R) (s t a b : Z) : R :=
  let d l := zext n (modes l) (a + s) (b + t) - zext n (modes l) a b in
  rsum nm (fun l => rsum nm (fun l' => C l l' * d l * d l')).
(** structure function of the phase in the pupil: mean over the pairs *)
Definition pupil_sf (n nm : nat) (P : nat -> nat -> R) (modes : nat -> nat -> nat -> R) (C : nat -> nat -> R) (s t : Z) : R :=
  pair_sum n P s t (diff_variance n nm modes C s t) / overlap n P s t.
