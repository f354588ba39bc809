(** IEEE-754 binary64 arithmetic (Flocq) for the places where the outcome of
    the code depends on floating-point rounding. *)
From Coq Require Import ZArith Reals.
From Flocq Require Import Core BinarySingleNaN.
Open Scope Z_scope.

Definition prec_pos : FLX.Prec_gt_0 53 := eq_refl.
Definition prec_emax : Prec_lt_emax 53 1024 := eq_refl.
Definition b64 := binary_float 53 1024.
(** conversion of a Python int (|z| < 2^53: exact) *)
Definition f_of_Z (z : Z) : b64 := @binary_normalize 53 1024 prec_pos prec_emax mode_NE z 0 false.
(** float division, round to nearest even *)
Definition fdiv (x y : b64) : b64 := @Bdiv 53 1024 prec_pos prec_emax mode_NE x y.
(** Python int(x) of a finite float: truncation *)
Definition fint (x : b64) : Z := @Btrunc 53 1024 x.

(** FourierUtils.py:678-687 [cropSupport(im, n/m)] as called at lines 482, 490,
    602 and 610 with the factor im.shape[0]/m: the side of the returned image,
    int(nx / (nx/m)), in binary64. *)
Definition crop_side (n m : Z) : Z := fint (fdiv (f_of_Z n) (fdiv (f_of_Z n) (f_of_Z m))).
