(** Specification vocabulary for wavefront sensors. *)
From Coq Require Import Reals List String.
From Verif Require Import Base_Py M_Tools M_Atmo M_Sensor.
Import ListNotations.
Open Scope R_scope.
Definition xle (x y : xR) : Prop := match x, y with _, Inf => True | Inf, Fin _ => False | Fin a, Fin b => a <= b end.
Definition xpos (x : xR) : Prop := match x with Fin a => 0 < a | Inf => True end.
(** A detector with usable settings: positive pixel, non-negative noise and
    excess factor, a positive (possibly infinite) photon number, a spot size. *)
Definition valid_det (d : det) : Prop :=
  0 < d_ps d /\ 0 <= d_ron d /\ 0 <= d_excess d /\ (exists p, d_nph d = NNum p /\ xpos p) /\
  exists x r rest, d_spot d = (x :: r) :: rest.
Definition known_algorithm (a : string) : Prop := (a = "cog" \/ a = "tcog" \/ a = "wcog" \/ a = "qc")%string.
Definition shack_hartmann (s : sensor) : Prop := upper (s_type s) = "SHACK-HARTMANN"%string.
Definition pyramid (s : sensor) : Prop := upper (s_type s) = "PYRAMID"%string.
Definition finite_flux (d : det) : Prop := exists p, d_nph d = NNum (Fin p).
Definition valid_sensor (s : sensor) : Prop :=
  length (s_det s) = length (s_opt s) /\ (forall d, In d (s_det s) -> valid_det d) /\ (forall o, In o (s_opt s) -> 0 < o_dsub o) /\
  ((shack_hartmann s /\ known_algorithm (s_algo s) /\ s_settings s <> []) \/ (pyramid s /\ forall d, In d (s_det s) -> finite_flux d)).
(** [d2] is the same detector as [d1] with at least its read-out noise and
    excess factor and at most its photon number. *)
Definition noisier (d1 d2 : det) : Prop :=
  d_ps d1 = d_ps d2 /\ d_fov d1 = d_fov d2 /\ d_spot d1 = d_spot d2 /\ d_ron d1 <= d_ron d2 /\ d_excess d1 <= d_excess d2 /\
  exists p1 p2, d_nph d1 = NNum p1 /\ d_nph d2 = NNum p2 /\ xle p2 p1.
Definition noisier_sensor (s1 s2 : sensor) : Prop :=
  s_type s1 = s_type s2 /\ s_algo s1 = s_algo s2 /\ s_settings s1 = s_settings s2 /\ s_opt s1 = s_opt s2 /\
  Forall2 noisier (s_det s1) (s_det s2).
