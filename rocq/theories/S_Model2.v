(** Specification vocabulary for the assembled PSD, the extra errors, the error
    breakdown and the memory estimate. *)
From Coq Require Import Reals List Arith ZArith Bool String.
From Flocq Require Import Core.Raux.
From Verif Require Import Base_Py Base_Sum M_Tools M_Freq M_Atmo S_Atmo M_Sensor M_Model S_Model M_Model2.
Import ListNotations.
Open Scope R_scope.

(** The corrected area of side r in a grid of side n starts at pixel o: it is
    centred up to half a pixel. *)
Definition centred_at (n r o : nat) : Prop := (2 * o = n - r \/ 2 * o = n - r + 1)%nat.
Definition inside (o r a b : nat) : bool := ((o <=? a) && (a <? o + r) && (o <=? b) && (b <? o + r))%nat.
Definition when (b : bool) (x : R) : R := if b then x else 0.
(** One laser guide star; several laser guide stars with the option. *)
Definition one_laser (c : psdcfg) : bool := ((k_nGs c =? 1)%nat && negb (Req_bool (k_h c) 0)).
Definition many_lasers (c : psdcfg) : bool := (k_addMcao c && negb (k_nGs c =? 1)%nat && negb (Req_bool (k_h c) 0)).
(** The errors of the correction at pixel (a,b) of source s *)
Definition correction_errors (c : psdcfg) (p : parts) (o r s a b : nat) : R :=
  when (inside o r a b)
    (p_noise p s (a - o)%nat (b - o)%nat + p_alias p (a - o)%nat (b - o)%nat + p_diff p s (a - o)%nat (b - o)%nat
     + p_chrom p s (a - o)%nat (b - o)%nat + p_st p s (a - o)%nat (b - o)%nat)
  + when (one_laser c) (p_cone p a b).
(** all errors, [x] being the extra error *)
Definition all_errors (c : psdcfg) (p : parts) (o r s a b : nat) (x : R) : R :=
  correction_errors c p o r s a b + when (many_lasers c) (p_mcao p (correction_errors c p o r) s a b)
  + p_fit p a b + when (k_wind c && inside o r a b) (p_vib p (a - o)%nat (b - o)%nat) + x.
(** Every contribution is non-negative. *)
Definition parts_nonneg (n r nsrc : nat) (p : parts) : Prop :=
  (forall s i j, (s < nsrc)%nat -> (i < r)%nat -> (j < r)%nat -> 0 <= p_noise p s i j /\ 0 <= p_diff p s i j /\ 0 <= p_chrom p s i j /\ 0 <= p_st p s i j) /\
  (forall i j, (i < r)%nat -> (j < r)%nat -> 0 <= p_alias p i j /\ 0 <= p_vib p i j) /\
  (forall a b, (a < n)%nat -> (b < n)%nat -> 0 <= p_cone p a b /\ 0 <= p_fit p a b /\ 0 <= p_tilt p a b /\ 0 <= p_extra p a b) /\
  (forall f s a b, (s < nsrc)%nat -> (a < n)%nat -> (b < n)%nat -> 0 <= p_mcao p f s a b) /\
  (match p_lo p with
   | LoOne g => forall a b, (a < n)%nat -> (b < n)%nat -> 0 <= grid_at g a b
   | LoMany gs => forall g a b, In g gs -> (a < n)%nat -> (b < n)%nat -> 0 <= grid_at g a b end).
(** The contributions of a single-guide-star system: those of the functions of
    fourierModel for the source directions [dir], and of the turbulence outside. *)
Record scao_parts (y : fsys) (MV : R) (ch nTh nF nT n : nat) (dir : nat -> R * R) (p : parts) : Prop := {
  sp_noise : forall s i j, (i < y_res y)%nat -> (j < y_res y)%nat -> noisePSD y MV nTh nF i j = Ok (p_noise p s i j);
  sp_alias : forall i j, (i < y_res y)%nat -> (j < y_res y)%nat -> aliasingPSD y MV ch nTh nF nT i j = Ok (p_alias p i j);
  sp_diff : forall s i j, (i < y_res y)%nat -> (j < y_res y)%nat -> exists ze th az ak, differentialRefractionPSD y ze th az ak i j = Ok (p_diff p s i j);
  sp_chrom : forall s i j, (i < y_res y)%nat -> (j < y_res y)%nat -> exists n1 n2, chromatismPSD y n1 n2 i j = Ok (p_chrom p s i j);
  sp_st : forall s i j, (i < y_res y)%nat -> (j < y_res y)%nat -> spatioTemporalPSD y MV nTh nF (fst (dir s)) (snd (dir s)) i j = Ok (p_st p s i j);
  sp_fit : forall a b, (a < n)%nat -> (b < n)%nat -> fittingPSD y (freq_x n (y_step y) (y_off y) a b) (freq_y n (y_step y) (y_off y) a b) = Ok (p_fit p a b) }.
