(** Specification vocabulary for the PSF metrics (C93-C95), independent of the
    model: rings around a centre, sums and means over them. *)
From Coq Require Import Reals List Arith ZArith Bool Permutation Sorting.Sorted.
From Flocq Require Import Core.
From Verif Require Import Base_Sum M_Image.
Import ListNotations.
Open Scope R_scope.

(** Distance, in bins, of the pixel at row i and column j from the point of
    abscissa cx and ordinate cy (pixels): one pixel is ps, one bin is bs. *)
Definition dist_bins (cx cy ps bs : R) (i j : nat) : R :=
  sqrt (Rsqr (INR j - cx) + Rsqr (INR i - cy)) * ps / bs.

(** The ring of a pixel: its distance rounded to the nearest whole number of
    bins (ties to even). *)
Definition ring_no (cx cy ps bs : R) (i j : nat) : Z :=
  ZnearestE (dist_bins cx cy ps bs i j).

(** The centre used: the given (x,y), or the middle of the array. *)
Definition image_center (r c : nat) (center : option (R * R)) : R * R :=
  match center with Some p => p | None => ((INR c - 1) / 2, (INR r - 1) / 2) end.

(** Sum of f over the pixels of an r x c array that satisfy P. *)
Definition sum_where (r c : nat) (P : nat -> nat -> bool) (f : nat -> nat -> R) : R :=
  rsum r (fun i => rsum c (fun j => if P i j then f i j else 0)).

(** Number of pixels that satisfy P. *)
Definition count_where (r c : nat) (P : nat -> nat -> bool) : R :=
  sum_where r c P (fun _ _ => 1).

(** Mean of f over the pixels that satisfy P. *)
Definition mean_where (r c : nat) (P : nat -> nat -> bool) (f : nat -> nat -> R) : R :=
  sum_where r c P f / count_where r c P.

(** The ring z contains at least one (selected) pixel of the image. *)
Definition ring_present (r c : nat) (sel : nat -> nat -> bool)
    (ring : nat -> nat -> Z) (z : Z) : Prop :=
  exists i j, (i < r)%nat /\ (j < c)%nat /\ sel i j = true /\ ring i j = z.

(** zs lists, in increasing order, every ring that is present except the
    outermost one. *)
Definition rings_but_last (r c : nat) (sel : nat -> nat -> bool)
    (ring : nat -> nat -> Z) (zs : list Z) : Prop :=
  StronglySorted Z.lt zs /\
  forall z, In z zs <->
    ring_present r c sel ring z /\ exists z', (z < z')%Z /\ ring_present r c sel ring z'.

(** A sorting routine: returns the positions of the elements in an order that
    makes them non-decreasing (ties in any order). *)
Definition sorts (argsort : list R -> list nat) : Prop :=
  forall l, Permutation (argsort l) (seq 0 (length l)) /\
            StronglySorted Rle (map (fun k => nth k l 0) (argsort l)).

(** Position-angle selection. *)
Definition in_wedge (pa_of : R -> R -> R) (cx cy : R) (w : option (R * R)) (i j : nat) : bool :=
  match w with
  | None => true
  | Some (lo, hi) =>
      if Rle_dec lo (pa_of (INR j - cx) (INR i - cy)) then
        if Rle_dec (pa_of (INR j - cx) (INR i - cy)) hi then true else false
      else false
  end.

(** The pixels of ring z, and those of rings 0..z, in the wedge. *)
Definition sel_ring (pa_of : R -> R -> R) cx cy ps bs (w : option (R * R)) (z : Z) (i j : nat) : bool :=
  in_wedge pa_of cx cy w i j && (ring_no cx cy ps bs i j =? z)%Z.
Definition sel_disc (pa_of : R -> R -> R) cx cy ps bs (w : option (R * R)) (z : Z) (i j : nat) : bool :=
  in_wedge pa_of cx cy w i j && (ring_no cx cy ps bs i j <=? z)%Z.

(** Four-quadrant arc tangent of y/x, and the position angle (degrees) of the
    offset (x,y) as astronomers count it: 0 along +y, 90 along -x.
    (Signed zeros are not distinguished.) *)
Definition arctan2 (y x : R) : R :=
  if Rlt_dec 0 x then atan (y / x)
  else if Rlt_dec x 0 then (if Rle_dec 0 y then atan (y / x) + PI else atan (y / x) - PI)
  else if Rlt_dec 0 y then PI / 2
  else if Rlt_dec y 0 then - (PI / 2) else 0.
Definition position_angle (x y : R) : R := arctan2 (- x) y * 180 / PI.

(** Population standard deviation of f over the pixels that satisfy P. *)
Definition std_where (r c : nat) (P : nat -> nat -> bool) (f : nat -> nat -> R) : R :=
  let m := mean_where r c P f in
  sqrt (mean_where r c P (fun i j => Rsqr (f i j - m))).

(** Samples p_0, p_1, ... joined by straight segments: the value at abscissa
    x >= 0 (in samples). *)
Definition polyline (p : list R) (x : R) : R :=
  let k := Z.to_nat (Zfloor x) in
  nth k p 0 + (x - INR k) * (nth (S k) p 0 - nth k p 0).

(** x1 and x2 are the outermost crossings of the level h by the polyline. *)
Definition outer_crossings (p : list R) (h x1 x2 : R) : Prop :=
  let n := INR (length p) - 1 in
  0 <= x1 <= x2 /\ x2 <= n /\ polyline p x1 = h /\ polyline p x2 = h /\
  (forall x, 0 <= x < x1 -> polyline p x < h) /\
  (forall x, x2 < x <= n -> polyline p x < h).
