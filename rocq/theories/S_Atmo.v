(** Specification vocabulary for atmospheres. *)
From Coq Require Import Reals List.
From Verif Require Import Base_Py M_Tools M_Atmo.
Import ListNotations.
Open Scope R_scope.
(** A history of wavelength changes. *)
Fixpoint set_wvls (a : atmo) (ws : list R) : result atmo :=
  match ws with [] => Ok a | w :: r => do b <- set_wvl a w; set_wvls b r end.
(** Inputs of the constructor: positive r0, weights and wavelength, one height
    per weight, scalar or per-layer wind, common outer scale. *)
Definition valid_profile (wvl r0 : R) (w h : list R) (v d : sol R) : Prop :=
  0 < wvl /\ 0 < r0 /\ w <> [] /\ (forall x, In x w -> 0 < x) /\ length h = length w /\
  (match v with Lst l => length l = length w | Scal _ => True end) /\
  (match d with Lst l => length l = length w | Scal _ => True end).
(** Special-function values are positive. *)
Definition special_pos (sp : special) : Prop := 0 < g65 sp /\ 0 < g116 sp /\ 0 < g56 sp.
