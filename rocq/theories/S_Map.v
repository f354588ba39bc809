(** Specification vocabulary for C96-C97. *)
From Coq Require Import Reals Arith ZArith.
From Verif Require Import Base_Sum.
Open Scope R_scope.

(** Mean of F(x1,x2,y1,y2) over all the pairs of grid points (x1,y1), (x2,y2) of an
    n x n grid separated by x2 - x1 = p and y2 - y1 = q. *)
Definition lag_mean (n p q : nat) (F : nat -> nat -> nat -> nat -> R) : R :=
  rsum (n - p) (fun x => rsum (n - q) (fun y => F x (x + p)%nat y (y + q)%nat)) / (INR (n - p) * INR (n - q)).

(** Distance of an index to the centre of an axis of 2n-1 points. *)
Definition lag (n i : nat) : nat := ((n - 1 - i) + (i - (n - 1)))%nat.

(** Half the variance of phi(p1) - phi(p2) - phi(q1) + phi(q2), where phi is a random field of
    covariance C, p1 = r1 and p2 = r2 are two points of the pupil, and q1, q2 the points where
    the cone of a guide star at distance theta crosses the layer at height z: q = (1-g) r + z theta. *)
Definition cone_sf (C : R -> R -> R) (g zx zy x1 x2 y1 y2 : R) : R :=
  let qx r := (1 - g) * r + zx in let qy r := (1 - g) * r + zy in
  2 * C 0 0 - C (x1 - x2) (y1 - y2) - C (qx x1 - qx x2) (qy y1 - qy y2)
  - C (x1 - qx x1) (y1 - qy y1) - C (x2 - qx x2) (y2 - qy y2)
  + C (x1 - qx x2) (y1 - qy y2) + C (x2 - qx x1) (y2 - qy y1).
