(** Specification for C127: opposite pixels. *)
From Coq Require Import Reals List Arith ZArith.
From Verif Require Import Base_Py M_Tools M_Freq M_Atmo M_Sensor M_Model.
Open Scope R_scope.
(** the same system with the frequency arrays shifted by the opposite offset (the arrays are (i - n//2) step + offset) *)
Definition flip_offset (y : fsys) : fsys :=
  mkSys (y_res y) (y_step y) (- y_off y) (y_kcMax y) (y_circle y) (y_D y) (y_j1 y) (y_sp y) (y_atm y) (y_layers y)
        (y_type y) (y_dsub y) (y_nL y) (y_mod y) (y_bin y) (y_clock y) (y_noise y) (y_gswvl y) (y_gain y) (y_rate y) (y_delay y).
(** pixels symmetric about the centre of the corrected area *)
Definition opposite (n i i' : nat) : Prop := (i + i' = 2 * (n / 2))%nat.
(** the delay is a whole number of frames, or no layer moves by half a period per frame *)
Definition no_branch (y : fsys) (nTh i j : nat) : Prop :=
  (exists m : Z, y_delay y = IZR m) \/ forall l th, In l (y_layers y) -> In th (thetas nTh) -> cis (zarg y l th i j) <> (-1, 0).
