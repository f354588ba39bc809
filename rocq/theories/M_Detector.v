(** Model of detector.py:11-62: the detector object, as far as lists and scalars decide what it stores. *)
From Coq Require Import Reals List Arith ZArith Bool.
From Verif Require Import Base_Py M_Map.
Import ListNotations.
Open Scope R_scope.

(** a scalar or a Python list *)
Inductive num := Sc (x : R) | Ls (l : list R).
(** lines 27-34 fovInArcsec *)
Definition fov_arcsec (ps fov : num) : result num :=
  match fov, ps with
  | Ls f, Ls p => do l <- mapR (fun i => do s <- pyindex p (Z.of_nat i); Ok (s * nth i f 0 / 1000)) (seq 0 (length f)); Ok (Ls l)
  | Ls f, Sc p => Ok (Ls (map (fun x => p * x / 1000) f))
  | Sc f, Ls p => Ok (Ls (map (fun x => x * f / 1000) p))
  | Sc f, Sc p => Ok (Sc (p * f / 1000))
  end.
Record det := mkDet { d_ps : num; d_fov : num; d_arc : num; d_trans : list R; d_disp : list (list R); d_nwvl : nat }.
(** lines 16-54 the constructor: dispersion[0] of an empty list is an IndexError *)
Definition new_detector (ps fov : num) (trans : list R) (disp : list (list R)) : result det :=
  do arc <- fov_arcsec ps fov;
  do d0 <- pyindex disp 0;
  if negb (length d0 =? length trans)%nat then Err ValueError
  else Ok (mkDet ps fov arc trans disp (length trans)).
(** lines 56-62 __repr__: '%.2f' % list is a TypeError *)
Definition det_repr (d : det) : result unit :=
  match d_ps d, d_fov d, d_arc d with Sc _, Sc _, Sc _ => Ok tt | _, _, _ => Err TypeError end.
