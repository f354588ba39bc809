(** Specification vocabulary for turbulence profiles: x^p for x >= 0, with
    0^p = 0 (p > 0), total weight and p-moment of a list of (weight, altitude). *)
From Coq Require Import Reals List Arith.
From Verif Require Import M_Tools.
Import ListNotations.
Open Scope R_scope.
Definition hpow (x p : R) : R := if Req_EM_T x 0 then 0 else Rpower x p.
Fixpoint total (l : list R) : R := match l with [] => 0 | x :: r => x + total r end.
Definition weight (s : list (R * R)) : R := total (map fst s).
Definition moment (p : R) (s : list (R * R)) : R := total (map (fun x => fst x * hpow (snd x) p) s).

(** Layout of the parameter vector of a PSF model: number of atmospheric
    parameters (one Cn2 value per layer, or r0 alone, or none), then phase
    parameters, then three jitter parameters if any, then flux/x/y per source
    and wavelength, then one background per frame. *)
Definition n_atm (m : psf_inst) : nat :=
  if (0 <? i_atm m)%nat then if ((1 <? i_nL m) && (1 <? i_nRec m))%nat%bool then i_nL m else 1%nat else 0%nat.
Definition n_dphi (m : psf_inst) : nat := (n_atm m + i_dphi m)%nat.
Definition n_tt (m : psf_inst) : nat := if i_jit m then (n_dphi m + 3)%nat else n_dphi m.
Definition n_full (m : psf_inst) : nat := (n_tt m + i_star m * i_wvl m * 3 + i_frame m)%nat.

(** what the first part of the vector is *)
Definition atm_head (c : option (list R)) (r : option R) : list R :=
  match c with Some l => l | None => match r with Some v => [v] | None => [] end end.
Definition opt_list (o : option (list R)) : list R := match o with Some l => l | None => [] end.

