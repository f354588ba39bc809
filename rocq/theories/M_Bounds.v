(** Model of the fit bounds of the PSF models: p3/psfao21/psfao21.py and
    p3/psfr/psfR.py. Values are exact reals extended with infinities. *)
From Coq Require Import Reals List Arith ZArith.
From Verif Require Import Base_Py M_Tools M_Model2.
Import ListNotations.
Open Scope R_scope.

(** psfao21.py:94-125 define_bounds; [wmax] = max(self.wvl) *)
Definition psfao_bounds (nL nRec nSrc nwvl : nat) (npix : Z) (wmax : R) (nModes : nat) : list ext * list ext :=
  (repeat (Val (/ 1000)) (Nat.min nL nRec) ++ [Val 0; Val 0; Val (/ 1000); Val (/ 100); Val (- PI); Val (101 / 100)]
   ++ [Val 0; Val 0; NegInf] ++ repeat (Val 0) (nSrc * nwvl) ++ repeat (Val (IZR (- npix / 2))) (2 * nSrc * nwvl)
   ++ repeat NegInf nwvl ++ repeat (Val (- wmax / 2 * 10 ^ 9)) nModes,
   repeat PosInf (Nat.min nL nRec) ++ [PosInf; PosInf; PosInf; Val 100; Val PI; Val 5]
   ++ [PosInf; PosInf; PosInf] ++ repeat PosInf (nSrc * nwvl) ++ repeat (Val (IZR (npix / 2))) (2 * nSrc * nwvl)
   ++ repeat PosInf nwvl ++ repeat (Val (wmax / 2 * 10 ^ 9)) nModes).
(** psfR.py:124-149 define_bounds; [eps] = sqrt(float epsilon) *)
Definition psfr_bounds (nL nSrc : nat) (npix : Z) (wvlRef : R) (nModes : nat) : list ext * list ext :=
  (repeat (Val (sqrt (/ 2 ^ 52))) nL ++ [Val 0; Val 0] ++ repeat (Val 0) nSrc ++ repeat (Val (IZR (- npix / 2))) (2 * nSrc)
   ++ [NegInf] ++ repeat (Val (- wvlRef / 2 * 10 ^ 9)) nModes,
   repeat PosInf nL ++ [PosInf; PosInf] ++ repeat PosInf nSrc ++ repeat (Val (IZR (npix / 2))) (2 * nSrc)
   ++ [PosInf] ++ repeat (Val (wvlRef / 2 * 10 ^ 9)) nModes).
(** psfao21.py:127-149 update_bounds. [np.maximum]/[np.minimum] on the first seven
    parameters (broadcasting of lists of other lengths is refused: ValueError). *)
Definition ext_max (a b : ext) : ext := match a, b with
  | NegInf, x | x, NegInf => x | PosInf, _ | _, PosInf => PosInf | Val x, Val y => Val (Rmax x y) end.
Definition ext_min (a b : ext) : ext := match a, b with
  | PosInf, x | x, PosInf => x | NegInf, _ | _, NegInf => NegInf | Val x, Val y => Val (Rmin x y) end.
Definition update_bounds (b : list ext * list ext) (x err : list R) (sig wmax : R) (nModes : nat) : result (list ext * list ext) :=
  let x7 := firstn 7 x in let e7 := firstn 7 err in
  if negb ((length x7 =? length e7) && (length x7 =? length (firstn 7 (fst b))) && (length x7 =? length (firstn 7 (snd b))))%nat then Err ValueError
  else Ok (map (fun p => ext_max (Val (fst (fst p) - sig / 3 * snd (fst p))) (snd p)) (combine (combine x7 e7) (firstn 7 (fst b)))
           ++ [NegInf; NegInf; NegInf; Val 0; NegInf; NegInf; NegInf] ++ repeat (Val (- wmax * 10 ^ 9 / 2)) nModes,
           map (fun p => ext_min (Val (fst (fst p) + sig / 3 * snd (fst p))) (snd p)) (combine (combine x7 e7) (firstn 7 (snd b)))
           ++ repeat PosInf 7 ++ repeat (Val (wmax * 10 ^ 9 / 2)) nModes).
