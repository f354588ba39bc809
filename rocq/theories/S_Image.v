(** Specification vocabulary for images (independent of the algorithms of
    M_Image: only the array type is shared). *)
From Coq Require Import Reals Arith Bool.
From Verif Require Import Base_Sum M_Image.
Open Scope R_scope.

(** Pixel (i,j) lies in the (2n+1)x(2n+1) square centred on (y0,x0). *)
Definition in_square (y0 x0 n i j : nat) : bool :=
  ((y0 <=? i + n) && (i <=? y0 + n) && (x0 <=? j + n) && (j <=? x0 + n))%nat%bool.
Definition energy_in_square (a : img) (y0 x0 n : nat) : R :=
  rsum (rows a) (fun i => rsum (cols a) (fun j =>
    if in_square y0 x0 n i j then px a i j else 0)).


(** the peak: first maximum in row-major order *)
Definition is_peak (a : img) (y0 x0 : nat) : Prop :=
  (y0 < rows a)%nat /\ (x0 < cols a)%nat /\
  (forall i j, (i < rows a)%nat -> (j < cols a)%nat -> px a i j <= px a y0 x0) /\
  (forall i j, (i < rows a)%nat -> (j < cols a)%nat ->
     (i < y0 \/ (i = y0 /\ j < x0))%nat -> px a i j < px a y0 x0).

