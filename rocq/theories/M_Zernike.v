(** Model of p3/aoSystem/zernike.py: Noll indices, radial polynomials, modes,
    constructor, variance of the coefficients, tilt covariance.
    Simplification: float values are exact reals (the square roots of the index
    formulas are exact, the special functions of scipy are abstract). *)
From Coq Require Import Reals List Arith ZArith Bool.
From Flocq Require Import Core.Raux.
From Verif Require Import Base_Py M_Tools.
Import ListNotations.
Open Scope R_scope.

(** lines 101-107: orders of one Noll index; np.sqrt of a negative number is nan and
    int(nan) a ValueError. [int] truncates, [//] and [%] are floor division. *)
Definition findNM1 (j : Z) : result (Z * Z) :=
  if (2 * j - 1 <? 0)%Z then Err ValueError
  else let n := (Ztrunc (sqrt (IZR (2 * j - 1)) + / 2) - 1)%Z in
       Ok (n, if negb (n mod 2 =? 0)%Z then (2 * ((2 * (j + 1) - n * (n + 1)) / 4) - 1)%Z
              else (2 * ((2 * j + 1 - n * (n + 1)) / 4))%Z).
(** lines 76-109: the loop runs over range(len(self.jIndex)) but indexes the
    argument; an empty argument means self.jIndex *)
Definition findNM (self_j arg : list Z) : result (list (Z * Z)) :=
  let j := match arg with [] => self_j | _ => arg end in
  mapM (fun k => do x <- pyindex j (Z.of_nat k); findNM1 x) (seq 0 (length self_j)).
(** lines 111-117 nModeFromRadialOrder *)
Definition nModeFromRadialOrder (n : Z) : R := IZR ((n + 1) * (n + 2)) / 2.
(** lines 188-194 nmOrder (CoefficientsVariance); p, floor(.)/2 are floats *)
Definition nmOrder (j : Z) : result (Z * Z) :=
  if (8 * (j - 1) + 1 <? 0)%Z then Err NonFinite
  else let n := Zfloor ((-1 + sqrt (IZR (8 * (j - 1) + 1))) / 2) in
       let p := IZR j - IZR (n * (n + 1)) / 2 in
       let k := (n mod 2)%Z in
       Ok (n, Ztrunc (IZR (Zfloor ((p + IZR k) / 2)) * 2 - IZR k)).

(** lines 128-138 R_fun at one radius: sum for s in range(s2+1) of
    (-1)**s (n-s)! / (s! max(0,s1-s)! max(0,s2-s)!) r**(n-2s). Orders are
    non-negative integers; nat subtraction is max(0, .) and, for s <= s2, exact. *)
Definition rterm (r : R) (n m s : nat) : R :=
  let s1 := ((n + m) / 2)%nat in let s2 := ((n - m) / 2)%nat in
  (-1) ^ s * (INR (fact (n - s)) / INR (fact s * fact (s1 - s) * fact (s2 - s))) * r ^ (n - 2 * s).
Definition R_fun (r : R) (n m : nat) : R :=
  fold_left (fun acc s => acc + rterm r n m s) (seq 0 (S ((n - m) / 2))) 0.
(** lines 151-178: value of mode j of orders (n, m) at polar coordinates (r, o) *)
Definition mode_value (j : Z) (n m : nat) (r o : R) : R :=
  if (m =? 0)%nat then sqrt (INR n + 1) * R_fun r n m
  else if (j mod 2 =? 0)%Z then sqrt (INR n + 1) * R_fun r n m * sqrt 2 * cos (INR m * o)
  else sqrt (INR n + 1) * R_fun r n m * sqrt 2 * sin (INR m * o).
(** line 69 nollNorm = sqrt((2-(m==0))*(n+1)) *)
Definition nollNorm (n m : nat) : R := sqrt ((2 - (if (m =? 0)%nat then 1 else 0)) * (INR n + 1)).

(** lines 54-59: sample i of x1D = 2*linspace(-(u-1)/2, (u-1)/2, u)/u (the step of
    linspace is 1); pixel (a, b) has x = x1D[b], y = x1D[a] (meshgrid). *)
Definition x1D (u i : nat) : R := 2 * (INR i - (INR u - 1) / 2) / INR u.
(** numpy arctan2 *)
Definition atan2 (y x : R) : R :=
  if Rlt_dec 0 x then atan (y / x)
  else if Rlt_dec x 0 then (if Rle_dec 0 y then atan (y / x) + PI else atan (y / x) - PI)
  else if Rlt_dec 0 y then PI / 2 else if Rlt_dec y 0 then - (PI / 2) else 0.
Definition pix_radius (u a b : nat) : R := sqrt (x1D u b ^ 2 + x1D u a ^ 2).
Definition pix_angle (u a b : nat) : R := atan2 (x1D u a) (x1D u b).

(** The arguments of the constructor as far as their type decides what happens:
    [radius]/[angle] empty list (default), a non-empty list, or an array (of a
    given number of elements). *)
Inductive coords := CDefault | CList (n : nat) | CArray (n : nat).
(** The object: Noll indices, orders, resolution, modes as (shape, value) *)
Record modes := mkModes { d0 : nat; d1 : nat; d2 : nat; mv : nat -> nat -> nat -> R }.
Record zern := mkZern { z_j : list Z; z_nm : list (nat * nat); z_res : nat; z_modes : modes }.
(** lines 180-181: modes * np.diag(1/nollNorm): shapes (nf, u, u) and (nf, nf) are
    broadcast on the trailing axes *)
Definition unit_scale (nm : list (nat * nat)) (x : modes) : result modes :=
  let nf := length nm in
  let dg := fun a b => if (a =? b)%nat then 1 / nollNorm (fst (nth a nm (0, 0)%nat)) (snd (nth a nm (0, 0)%nat)) else 0 in
  if (nf =? 1)%nat then Ok (mkModes (d0 x) (d1 x) (d2 x) (fun i a b => mv x i a b * dg 0%nat 0%nat))
  else if (d1 x =? nf)%nat then Ok (mkModes (d0 x) (d1 x) (d2 x) (fun i a b => mv x i a b * dg a b))
  else if (d1 x =? 1)%nat then Ok (mkModes (d0 x) nf nf (fun i a b => mv x i 0%nat 0%nat * dg a b))
  else Err ValueError.
(** lines 31-73 and 120-183; [pupil] is a boolean array or [] (None). The orders are
    converted with Z.to_nat (findNM gives non-negative ones, see P_Zernike). A
    non-list jIndex prints a message and leaves an object without attributes
    (AttributeError at the first use). Lists of coordinates: comparison of a list
    with a float is a TypeError, indexing a list by an array too; arrays with
    more than one element have no truth value (ValueError), with one element the
    value is used and len() is 1. *)
Definition make_zernike (jIndex : option (list Z)) (u : nat) (pupil : option (nat -> nat -> bool)) (unitNorm : bool) (radius : coords) (cobs : R) : result zern :=
  match jIndex with
  | None => Err AttributeError
  | Some j =>
    match radius with
    | CList _ => Err TypeError
    | CArray n => if (n =? 1)%nat then Err TypeError else Err ValueError
    | CDefault =>
      let pup := match pupil with
                 | Some p => p
                 | None => fun a b => (if Rle_dec cobs (pix_radius u a b) then true else false) && (if Rle_dec (pix_radius u a b) 1 then true else false)
                 end in
      do nm <- findNM j [];
      let nm := map (fun p => (Z.to_nat (fst p), Z.to_nat (snd p))) nm in
      let ms := mkModes (length j) u u (fun i a b =>
         if pup a b then mode_value (nth i j 0%Z) (fst (nth i nm (0, 0)%nat)) (snd (nth i nm (0, 0)%nat)) (pix_radius u a b) (pix_angle u a b) else 0) in
      do ms <- (if unitNorm then unit_scale nm ms else Ok ms);
      Ok (mkZern j nm u ms)
    end
  end.
