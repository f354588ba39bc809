(** Model of the image-processing functions of p3/aoSystem/FourierUtils.py.
    Simplification: pixel values (float32/float64) are exact reals. *)
From Coq Require Import Reals List Arith ZArith.
From Verif Require Import Base_Py Base_Sum.
Import ListNotations.
Open Scope R_scope.

(** A 2-D NumPy array: shape and pixel accessor. Pixels are only meaningful
    for row < rows and col < cols. *)
Record img := mkImg { rows : nat; cols : nat; px : nat -> nat -> R }.

(** Equality of arrays: same shape, same pixels. *)
Definition img_eq (a b : img) : Prop :=
  rows a = rows b /\ cols a = cols b /\
  forall i j, (i < rows a)%nat -> (j < cols a)%nat -> px a i j = px b i j.

(** [a.sum()] *)
Definition img_sum (a : img) : R :=
  rsum (rows a) (fun i => rsum (cols a) (fun j => px a i j)).

(** Row-major list of the pixels ([a.flat]). *)
Definition pixels (a : img) : list R :=
  flat_map (fun i => map (fun j => px a i j) (seq 0 (cols a))) (seq 0 (rows a)).

(** [a.min()], [a.max()]: ValueError on an empty array. *)
Definition list_min (l : list R) : result R :=
  match l with [] => Err ValueError | x :: r => Ok (fold_left Rmin r x) end.
Definition list_max (l : list R) : result R :=
  match l with [] => Err ValueError | x :: r => Ok (fold_left Rmax r x) end.
Definition img_min (a : img) : result R := list_min (pixels a).
Definition img_max (a : img) : result R := list_max (pixels a).

(** element-wise map *)
Definition img_map (f : R -> R) (a : img) : img :=
  mkImg (rows a) (cols a) (fun i j => f (px a i j)).

(** NumPy basic slice [a[r0:r1, c0:c1]], Python semantics of the bounds. *)
Definition slice2 (a : img) (r0 r1 c0 c1 : Z) : img :=
  let nr := Z.of_nat (rows a) in let nc := Z.of_nat (cols a) in
  let sr := Z.to_nat (slice_bound nr r0) in
  let sc := Z.to_nat (slice_bound nc c0) in
  mkImg (Z.to_nat (slice_len nr r0 r1)) (Z.to_nat (slice_len nc c0 c1))
        (fun i j => px a (sr + i) (sc + j)).

(** Number of elements of [start:stop:step] on an axis of length n
    (0 <= start, 0 < step): ceil((min(stop,n)-start)/step), at least 0. *)
Definition stride_len (n start stop step : nat) : nat :=
  ((Nat.min stop n - start) + (step - 1)) / step.

(** NumPy strided slice [a[i:ri:k, j:ci:k]] (non-negative bounds). *)
Definition stride2 (a : img) (i ri j ci k : nat) : img :=
  mkImg (stride_len (rows a) i ri k) (stride_len (cols a) j ci k)
        (fun u v => px a (i + u * k) (j + v * k)).

(** In-place [out += s]: shapes must agree (ValueError otherwise).
    Simplification: broadcasting of length-1 axes is refused too; the theorem
    [binning_ok] shows it never arises. *)
Definition img_iadd (out s : img) : result img :=
  if (Nat.eqb (rows out) (rows s) && Nat.eqb (cols out) (cols s))%bool
  then Ok (mkImg (rows out) (cols out) (fun i j => px out i j + px s i j))
  else Err ValueError.

(** FourierUtils.py:623-640 [binning(image,k)], k a non-negative integer.
    [int(S/k)] is floor division on non-negative integers. *)
Definition binning (a : img) (k : nat) : result img :=
  if Nat.eqb k 0 then Err ZeroDivisionError else
  let S0 := (rows a / k)%nat in
  let S1 := (cols a / k)%nat in
  let out0 := mkImg S0 S1 (fun _ _ => 0) in
  fold_left (fun acc i =>
    fold_left (fun acc j =>
      do out <- acc; img_iadd out (stride2 a i (k * S0) j (k * S1) k))
      (seq 0 k) acc)
    (seq 0 k) (Ok out0).

(** FourierUtils.py:678-693 [cropSupport(im,n)] for a scalar or per-axis factor
    n = (p0/q0, p1/q1), p,q > 0.
    Simplification: the float factor is an exact rational (float rounding of
    the factor is treated separately in M_CropFloat.v). *)
Definition cropSupport2 (a : img) (p0 q0 p1 q1 : Z) : img :=
  let nx := Z.of_nat (rows a) in let ny := Z.of_nat (cols a) in
  let nx2 := Z.quot (nx * q0) p0 in
  let ny2 := Z.quot (ny * q1) p1 in
  let xi := Z.quot (nx - nx2) 2 in
  let yi := Z.quot (ny - ny2) 2 in
  slice2 a xi (xi + nx2) yi (yi + ny2).
Definition cropSupport (a : img) (p q : Z) : img := cropSupport2 a p q p q.

(** [np.pad(a,((r,r),(c,c)))] with zeros; negative widths are a ValueError. *)
Definition pad2 (a : img) (r c : Z) : result img :=
  if ((r <? 0) || (c <? 0))%Z then Err ValueError else
  let r := Z.to_nat r in let c := Z.to_nat c in
  Ok (mkImg (rows a + 2 * r) (cols a + 2 * c)
     (fun i j => if ((r <=? i) && (i <? r + rows a) && (c <=? j) && (j <? c + cols a))%nat%bool
                 then px a (i - r) (j - c) else 0)).

(** FourierUtils.py:695-713 [enlargeSupport(cube,n)], 2-D case, factor n=p/q
    (q>0, exact rational as above): pad = int((n-1)*nx/2). *)
Definition enlargeSupport (a : img) (p q : Z) : result img :=
  pad2 a (Z.quot ((p - q) * Z.of_nat (rows a)) (2 * q))
         (Z.quot ((p - q) * Z.of_nat (cols a)) (2 * q)).

(** FourierUtils.py:701-713, 3-D case: only the shape logic (which two axes
    are padded). Result: output shape. *)
Definition enlargeSupport3_shape (s : nat * nat * nat) (p q : Z) : result (Z * Z * Z) :=
  let '(nx, ny, nz) := s in
  let pad n := Z.quot ((p - q) * Z.of_nat n) (2 * q) in
  let grow n := (Z.of_nat n + 2 * pad n)%Z in
  if Nat.eqb nx ny then
    if ((pad nx <? 0) || (pad ny <? 0))%Z then Err ValueError
    else Ok (grow nx, grow ny, Z.of_nat nz)
  else if Nat.eqb ny nz then
    if ((pad ny <? 0) || (pad nz <? 0))%Z then Err ValueError
    else Ok (Z.of_nat nx, grow ny, grow nz)
  else Err ValueError.

(** Insertion sort on reals, for [np.median]. *)
Fixpoint rinsert (x : R) (l : list R) : list R :=
  match l with
  | [] => [x]
  | y :: r => if Rle_dec x y then x :: l else y :: rinsert x r
  end.
Definition rsort (l : list R) : list R := fold_right rinsert [] l.

(** [np.median] (of a non-empty list; NaN for an empty one). *)
Definition median (l : list R) : result R :=
  let s := rsort l in
  let n := length l in
  if Nat.eqb n 0 then Err NonFinite
  else if Nat.odd n then
    match nth_error s (n / 2) with Some v => Ok v | None => Err IndexError end
  else match nth_error s (n / 2 - 1), nth_error s (n / 2) with
       | Some u, Some v => Ok ((u + v) / 2)
       | _, _ => Err IndexError
       end.

(** [np.linspace(-1,1,n)[i]] : -1 for n=1. *)
Definition lin11 (n i : nat) : R :=
  if Nat.eqb n 1 then -1 else -1 + 2 * INR i / INR (n - 1).

(** FourierUtils.py:1348-1369 [getFlux(psf)] with nargout=1.
    meshgrid(x,y) has shape (ny,nx); psf*msk needs nx=ny (ValueError when the
    shapes do not broadcast; the length-1 broadcast cases are refused here
    too, a simplification). hypot > 1 is X^2+Y^2 > 1. *)
Definition getFlux (a : img) : result R :=
  if negb (Nat.eqb (rows a) (cols a)) then Err ValueError else
  let n := rows a in
  let noise := mkImg n n (fun i j =>
      if Rlt_dec 1 (lin11 n j * lin11 n j + lin11 n i * lin11 n i)
      then px a i j else 0) in
  do bg <- median (pixels noise);
  Ok (img_sum (img_map (fun v => v - bg) a)).

(** The normalisation parameter: a scalar or the pair [min,max]. *)
Inductive nparam := PScalar (v : R) | PMinMax (lo hi : R).

(** Division of an array by a scalar: NumPy yields inf/nan for 0. *)
Definition img_div (a : img) (c : R) : result img :=
  if Req_EM_T c 0 then Err NonFinite else Ok (img_map (fun v => v / c) a).

(** FourierUtils.py:794-837 [normalizeImage(im,normType)] with param=None. *)
Definition normalizeImage (a : img) (t : R) : result (img * nparam) :=
  if Req_EM_T t 0 then Ok (a, PScalar 1)
  else if Req_EM_T t 1 then
    let s := img_sum a in do r <- img_div a s; Ok (r, PScalar s)
  else if Req_EM_T t 2 then
    do lo <- img_min a;
    do hi <- img_max a;
    let scale := hi - lo in
    if Req_EM_T scale 0 then Ok (img_map (fun _ => 0) a, PMinMax lo hi)
    else Ok (img_map (fun v => (v - lo) / scale) a, PMinMax lo hi)
  else if Req_EM_T t 3 then
    do f <- getFlux a;
    do r <- img_div a (Rabs f); Ok (r, PScalar (Rabs f))
  else if Req_EM_T t 4 then
    let s := img_sum (img_map (fun v => Rmax v 0) a) in
    do r <- img_div a s; Ok (r, PScalar s)
  else do r <- img_div a t; Ok (r, PScalar t).

(** FourierUtils.py:839-850 [normalizeImage(im,normType,param)]: undo.
    Using a scalar where a pair is expected is a TypeError and conversely
    (list * array raises for normType 1,3,4,...: TypeError/ValueError). *)
Definition unnormalizeImage (a : img) (t : R) (p : nparam) : result img :=
  if Req_EM_T t 0 then Ok a
  else if Req_EM_T t 2 then
    match p with
    | PMinMax lo hi => Ok (img_map (fun v => v * (hi - lo) + lo) a)
    | PScalar _ => Err TypeError
    end
  else match p with
       | PScalar v => Ok (img_map (fun x => x * v) a)
       | PMinMax _ _ => Err ValueError
       end.

(** [argmax] of an array in row-major order: first position of the maximum. *)
Fixpoint argmax_list (l : list R) : option (nat * R) :=
  match l with
  | [] => None
  | x :: r => match argmax_list r with
              | None => Some (0%nat, x)
              | Some (k, m) => if Rle_dec m x then Some (0%nat, x) else Some (S k, m)
              end
  end.

(** FourierUtils.py:1031-1042 [getEnsquaredEnergy(psf)]: the n-th value, before
    division by the total; slices may have a negative start. *)
Definition ee_raw (a : img) (y0 x0 n : nat) : R :=
  img_sum (slice2 a (Z.of_nat y0 - Z.of_nat n) (Z.of_nat y0 + Z.of_nat n + 1)
                    (Z.of_nat x0 - Z.of_nat n) (Z.of_nat x0 + Z.of_nat n + 1)).
Definition ee_count (a : img) (y0 x0 : nat) : nat :=
  Nat.min (rows a - y0) (cols a - x0).
(** The curve: list of nEE+1 values. *)
Definition getEnsquaredEnergy (a : img) : result (list R) :=
  match argmax_list (pixels a) with
  | None => Err ValueError          (* argmax of an empty array *)
  | Some (k, _) =>
    let y0 := (k / cols a)%nat in
    let x0 := (k mod cols a)%nat in
    let S := img_sum a in
    if Req_EM_T S 0 then Err NonFinite
    else Ok (map (fun n => ee_raw a y0 x0 n / S) (seq 0 (ee_count a y0 x0 + 1)))
  end.

(** FourierUtils.py:1371-1383 [getMSE] with nbox=0; other norms print and
    return []. *)
Inductive normL := L2 | L1.
Definition getMSE (t e : img) (n : normL) : result R :=
  if negb (Nat.eqb (rows t) (rows e) && Nat.eqb (cols t) (cols e)) then Err ValueError
  else
  let S := img_sum t in
  if Req_EM_T S 0 then Err NonFinite else
  let d := mkImg (rows t) (cols t) (fun i j => px e i j - px t i j) in
  match n with
  | L2 => Ok (100 * sqrt (img_sum (img_map (fun v => v * v) d)) / S)
  | L1 => Ok (100 * img_sum (img_map Rabs d) / S)
  end.
