(** Specification of the segmented pupil: where a segment lies in the pupil array and what it
    contributes, independently of slices and loops. *)
From Coq Require Import Reals List Arith ZArith.
From Flocq Require Import Core.Raux.
From Verif Require Import Base_Py Base_Sum M_Image M_Fourier M_Pupil.
From Coquelicot Require Import Complex.
Import ListNotations.
Open Scope R_scope.

(** first row/column, in an array whose centre is at [c] pixels, of a segment of [np] pixels
    centred [d] metres away from the centre *)
Definition corner (c ratio : R) (np : nat) (d : R) : Z := Zceil (c - INR np / 2 + ratio * d).
Definition top (c ratio : R) (s : segm) : Z := corner c ratio (s_np s) (s_posY s + s_ey s).
Definition left (c ratio : R) (s : segm) : Z := corner c ratio (s_np s) (s_posX s + s_ex s).

(** value, at row i and column j of the pupil, of an array f laid over the segment s *)
Definition inside (c ratio : R) (s : segm) (i j : nat) : bool :=
  ((top c ratio s <=? Z.of_nat i) && (Z.of_nat i <? top c ratio s + Z.of_nat (s_np s)) &&
   (left c ratio s <=? Z.of_nat j) && (Z.of_nat j <? left c ratio s + Z.of_nat (s_np s)))%Z%bool.
Definition over (c ratio : R) (s : segm) (f : nat -> nat -> C) (i j : nat) : C :=
  if inside c ratio s i j
  then f (Z.to_nat (Z.of_nat i - top c ratio s)) (Z.to_nat (Z.of_nat j - left c ratio s)) else RtoC 0.

(** the segment is entirely within an array of n pixels, and its arrays have its size *)
Definition fits (n : nat) (c ratio : R) (s : segm) : Prop :=
  crows (s_mat s) = s_np s /\ ccols (s_mat s) = s_np s /\
  (0 <= top c ratio s)%Z /\ (top c ratio s + Z.of_nat (s_np s) <= Z.of_nat n)%Z /\
  (0 <= left c ratio s)%Z /\ (left c ratio s + Z.of_nat (s_np s) <= Z.of_nat n)%Z.

(** sum of complex numbers of a list *)
Fixpoint ctotal (l : list C) : C := match l with [] => RtoC 0 | z :: r => Cplus z (ctotal r) end.

(** transmission of the central obstruction and of the spiders at a pixel *)
Definition transmission (p : pup) (i j : nat) : R :=
  (if Req_EM_T (p_cobs p) 0 then 1 else cobs_mask (p_n p) (p_cobs p) i j) *
  match p_spi p with None => 1 | Some s => Rabs (px s i j) end.

(** a coherent pupil object: square array of p_n pixels, spider matrix of that size, every
    segment inside *)
Definition coherent (p : pup) : Prop :=
  crows (p_mat p) = p_n p /\ ccols (p_mat p) = p_n p /\
  (forall s, p_spi p = Some s -> rows s = p_n p /\ cols s = p_n p) /\
  forall s, In s (p_segs p) -> fits (p_n p) (p_c p) (p_ratio p) s.

(** same array of complex pixels *)
Definition ceq (a b : carr) : Prop :=
  crows a = crows b /\ ccols a = ccols b /\ forall i j, (i < crows a)%nat -> (j < ccols a)%nat -> cpx a i j = cpx b i j.
