(** Model of layer compression, parameter sorting and polar grids
    (p3/aoSystem/FourierUtils.py). Float values are exact reals. *)
From Coq Require Import Reals List Arith ZArith.
From Flocq Require Import Core.Raux.
From Verif Require Import Base_Py.
Import ListNotations.
Open Scope R_scope.

Definition lsum (l : list R) : R := fold_right Rplus 0 l.

(** NumPy [x ** y] on floats (y <> 0): NaN for a negative base and infinity for
    a zero base with a negative exponent are reported as NonFinite.
    Simplification: a negative base with an integer exponent (finite in NumPy)
    is also reported as NonFinite; no modelled call does that. *)
Definition rpow (x y : R) : result R :=
  if Rlt_dec x 0 then Err NonFinite
  else if Req_EM_T x 0 then (if Rlt_dec 0 y then Ok 0 else Err NonFinite)
  else Ok (Rpower x y).

Fixpoint mapM {A B} (f : A -> result B) (l : list A) : result (list B) :=
  match l with
  | [] => Ok []
  | a :: r => do b <- f a; do s <- mapM f r; Ok (b :: s)
  end.

(** ** eqLayers, FourierUtils.py:1704-1737 *)

(** line 1721-1723: for iii in range(nEqLayers-1): if posSlab[iii] >=
    posSlab[iii+1]: posSlab[iii+1] = posSlab[iii]+1 *)
Fixpoint fix_up (p : Z) (l : list Z) : list Z :=
  match l with
  | [] => []
  | q :: r => let q' := if (q <=? p)%Z then (p + 1)%Z else q in q' :: fix_up q' r
  end.
(** lines 1718-1727: nSlab = floor(nCn2/nEq); posSlab = round(i*nSlab), fixed up,
    then nAltitudes appended. Simplification: the float quotient nCn2/nEq is
    exact (true for sizes below 2^26). *)
Definition pos_slab (nCn2 nAlt nEq : nat) : list Z :=
  let nSlab := (Z.of_nat nCn2 / Z.of_nat nEq)%Z in
  let p := map (fun i => (Z.of_nat i * nSlab)%Z) (seq 0 nEq) in
  match p with [] => [Z.of_nat nAlt] | a :: r => a :: fix_up a r ++ [Z.of_nat nAlt] end.

(** element-wise product with NumPy broadcasting of 1-D arrays *)
Definition bmul (a b : list R) : result (list R) :=
  if (length a =? length b)%nat then Ok (map (fun p => fst p * snd p) (combine a b))
  else match a, b with
       | [x], _ => Ok (map (fun y => x * y) b)
       | _, [y] => Ok (map (fun x => x * y) a)
       | _, _ => Err ValueError
       end.
(** lines 1732-1735, one slab [s:e]. sum([]) is the Python int 0, which has no
    astype (AttributeError); a zero weight divides by zero (NonFinite). *)
Definition slab_eq (power : R) (Cn2 alt : list R) (s e : Z) : result (R * R) :=
  let c := pyslice Cn2 s e in
  match c with
  | [] => Err AttributeError
  | _ =>
    let w := lsum c in
    do hp <- mapM (fun h => rpow h power) (pyslice alt s e);
    do m <- bmul hp c;
    if Req_EM_T w 0 then Err NonFinite
    else do a <- rpow (lsum m / w) (1 / power); Ok (w, a)
  end.
Fixpoint slabs (power : R) (Cn2 alt : list R) (s : Z) (l : list Z) : result (list (R * R)) :=
  match l with
  | [] => Ok []
  | e :: r => do x <- slab_eq power Cn2 alt s e; do xs <- slabs power Cn2 alt e r; Ok (x :: xs)
  end.
(** lines 1704-1737 (nEqLayers a non-negative int). *)
Definition eqLayers (power : R) (Cn2 alt : list R) (nEq : nat) : result (list R * list R) :=
  if (length Cn2 <? nEq)%nat then Err ValueError
  else match nEq with
  | O => Ok ([], [])
  | _ => match pos_slab (length Cn2) (length alt) nEq with
         | [] => Ok ([], [])
         | s :: r => do x <- slabs power Cn2 alt s r; Ok (map fst x, map snd x)
         end
  end.

(** ** sort_params_from_labels, FourierUtils.py:306-386 *)

(** The attributes of the PSF model that the function reads. *)
Record psf_inst := mkInst {
  i_atm : nat;            (* n_param_atm *)
  i_nL : nat;             (* ao.atm.nL *)
  i_nRec : nat;           (* ao.dms.nRecLayers *)
  i_dphi : nat;           (* n_param_dphi *)
  i_jit : bool;           (* "jitterX" in param_labels *)
  i_spot : list R;        (* ao.cam.spotFWHM[0] *)
  i_star : nat;           (* ao.src.nSrc *)
  i_wvl : nat;            (* nwvl *)
  i_frame : nat;          (* len(ao.src.wvl) *)
  i_trans : list R;       (* ao.cam.transmittance *)
  i_dispx : list R; i_dispy : list R (* ao.cam.dispersion[0], [1] *) }.
Record sorted := mkSorted {
  s_Cn2 : option (list R); s_r0 : option R; s_dphi : option (list R); s_jit : option (list R);
  s_F : list (list R); s_dx : list (list R); s_dy : list (list R); s_bkg : list R; s_stat : option (list R) }.

(** np.reshape of a 1-D array to (r, c) *)
Fixpoint chunks (r c : nat) (l : list R) : list (list R) :=
  match r with O => [] | S r' => firstn c l :: chunks r' c (skipn c l) end.
Definition reshape (r c : nat) (l : list R) : result (list (list R)) :=
  if (length l =? r * c)%nat then Ok (chunks r c l) else Err ValueError.

(** lines 316-332: number of atmospheric parameters, Cn2 and r0. *)
Definition sort_atm (m : psf_inst) (x : list R) : result (nat * option (list R) * option R) :=
  if (0 <? i_atm m)%nat then
    if ((1 <? i_nL m) && (1 <? i_nRec m))%nat%bool then
      let c := firstn (i_nL m) x in
      do r <- rpow (lsum c) (- 3 / 5); Ok (i_nL m, Some c, Some r)
    else do r <- pyindex x 0; Ok (1%nat, None, Some r)
  else Ok (0%nat, None, None).
(** x[a:b] with 0 <= a *)
Definition seg (x : list R) (a b : nat) : list R := firstn (b - a) (skipn a x).

(** lines 352-375 *)
Definition sort_stellar (m : psf_inst) (x : list R) (n_tt : nat)
  : result (list (list R) * list (list R) * list (list R) * list R) :=
  let n_src := (i_star m * i_wvl m)%nat in
  let n_stellar := (n_tt + n_src * 3 + i_frame m)%nat in
  if (n_tt <? length x)%nat then
    let st := seg x n_tt n_stellar in
    if (i_wvl m =? 1)%nat then
      let n := i_star m in
      Ok (map (fun f => map (Rmult f) (i_trans m)) (seg st 0 n),
          map (fun d => map (Rplus d) (i_dispx m)) (seg st n (2 * n)),
          map (fun d => map (Rplus d) (i_dispy m)) (seg st (2 * n) (3 * n)),
          skipn (3 * n_src) st)
    else
      do F <- reshape (i_star m) (i_wvl m) (seg st 0 n_src);
      do dx <- reshape (i_star m) (i_wvl m) (seg st n_src (2 * n_src));
      do dy <- reshape (i_star m) (i_wvl m) (seg st (2 * n_src) (3 * n_src));
      Ok (F, dx, dy, skipn (3 * n_src) st)
  else
    let ones := repeat 1 (i_wvl m) in
    do t <- bmul (i_trans m) ones; do ex <- bmul (i_dispx m) ones; do ey <- bmul (i_dispy m) ones;
    Ok (repeat t (i_star m), repeat ex (i_star m), repeat ey (i_star m), repeat 0 (i_wvl m)).

(** lines 306-386 *)
Definition sort_params (m : psf_inst) (x : list R) : result sorted :=
  do a <- sort_atm m x;
  let '(nL, Cn2, r0) := a in
  let n_dphi := (nL + i_dphi m)%nat in
  let dphi := if (0 <? n_dphi)%nat then Some (seg x nL n_dphi) else None in
  let jit := if i_jit m then Some (if (n_dphi <? length x)%nat then seg x n_dphi (n_dphi + 3) else i_spot m) else None in
  let n_tt := if i_jit m then (n_dphi + 3)%nat else n_dphi in
  do s <- sort_stellar m x n_tt;
  let '(F, dx, dy, bkg) := s in
  let n_stellar := (n_tt + i_star m * i_wvl m * 3 + i_frame m)%nat in
  Ok (mkSorted Cn2 r0 dphi jit F dx dy bkg
        (if (n_stellar <? length x)%nat then Some (skipn n_stellar x) else None)).

(** ** precompute_polar_grid, FourierUtils.py:1291-1346 *)

(** lines 1317-1332: number of azimuth points of the ring of radius r;
    [cap] is the loop-carried value of n_theta. *)
Definition ring_points (step : R) (cap : option Z) (r : R) : Z :=
  let a := Z.max 3 (Zceil (2 * PI * r / step)) in
  match cap with Some c => Z.min a c | None => a end.
(** np.arange(0, maxradius, step): ceil(maxradius/step) samples i*step *)
Definition arange_len (maxradius step : R) : nat := Z.to_nat (Zceil (maxradius / step)).
(** number of points of each ring; the assignment [n_theta = ...] at line 1331
    overwrites the argument. [np.linspace] raises ValueError for a negative count. *)
Fixpoint polar_loop (step : R) (cap : option Z) (i n : nat) : result (list Z) :=
  match n with
  | O => Ok []
  | S n' =>
      let r := INR i * step in
      if Req_EM_T r 0 then do s <- polar_loop step cap (S i) n'; Ok (1%Z :: s)
      else let k := ring_points step cap r in
           if (k <? 0)%Z then Err ValueError
           else do s <- polar_loop step (Some k) (S i) n'; Ok (k :: s)
  end.
Definition polar_counts (step maxradius : R) (cap : option Z) : result (list Z) :=
  polar_loop step cap 0 (arange_len maxradius step).
(** coordinates of point t of a ring of k points (lines 1334-1340) *)
Definition polar_point (cx cy pixelscale r : R) (k t : nat) : R * R :=
  let th := INR t * (2 * PI / INR k) in
  (cx + r / pixelscale * cos th, cy + r / pixelscale * sin th).
