(** Specification for C128: the same system under other turbulence and noise strengths. *)
From Coq Require Import Reals List Arith ZArith.
From Verif Require Import Base_Py M_Tools M_Freq M_Atmo M_Sensor M_Model.
Open Scope R_scope.
(** the system with Fried parameter r and every noise variance multiplied by k *)
Definition with_strength (r k : R) (y : fsys) : fsys :=
  let a := y_atm y in
  mkSys (y_res y) (y_step y) (y_off y) (y_kcMax y) (y_circle y) (y_D y) (y_j1 y) (y_sp y)
        (mkAtmo (a_wvl a) r (a_w a) (a_h a) (a_v a) (a_d a) (a_L0 a) (a_layers a)) (y_layers y)
        (y_type y) (y_dsub y) (y_nL y) (y_mod y) (y_bin y) (y_clock y) (map (fun v => k * v) (y_noise y)) (y_gswvl y) (y_gain y) (y_rate y) (y_delay y).
(** [b] is [a] multiplied by [c], errors included *)
Definition scaled (c : R) (a b : result R) : Prop := b = match a with Ok v => Ok (c * v) | Err e => Err e end.
(** strength of the turbulence relative to the original: (r/r0)^(-5/3) *)
Definition strength (y : fsys) (r : R) : R := Rpower (r / a_r0 (y_atm y)) (- 5 / 3).
