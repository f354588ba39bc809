(** Specification vocabulary for the Fourier properties (independent of the
    code: closed-form sums only). *)
From Coq Require Import Reals Arith ZArith.
From Verif Require Import Base_Sum M_Image.
Open Scope R_scope.

(** Phase of the plane wave of frequency bin (a - a0, b - b0) at lag (s,t), on
    an nx x ny periodic grid: 2 pi ((a-a0) s / nx + (b-b0) t / ny). *)
Definition wave (nx ny : nat) (a0 b0 : nat) (a b : nat) (s t : Z) : R :=
  2 * PI * (IZR (Z.of_nat a - Z.of_nat a0) * IZR s / INR nx
          + IZR (Z.of_nat b - Z.of_nat b0) * IZR t / INR ny).

(** Structure function, at lag (s,t), of a random field whose PSD is [psd] with
    the zero frequency stored in bin (a0,b0):
    D(s,t) = 2 sum_{a,b} psd(a,b) (1 - cos(wave)). *)
Definition structure_function (psd : img) (a0 b0 : nat) (s t : Z) : R :=
  2 * rsum (rows psd) (fun a => rsum (cols psd) (fun b =>
        px psd a b * (1 - cos (wave (rows psd) (cols psd) a0 b0 a b s t)))).

Definition nonneg (a : img) : Prop :=
  forall i j, (i < rows a)%nat -> (j < cols a)%nat -> 0 <= px a i j.

(** Cyclic negation of an index. *)
Definition neg_ix (n i : nat) : nat := ((n - i) mod n)%nat.
