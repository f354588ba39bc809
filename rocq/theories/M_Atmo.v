(** Model of p3/aoSystem/atmosphere.py (float values are exact reals). *)
From Coq Require Import Reals List Arith ZArith.
From Verif Require Import Base_Py M_Tools.
Import ListNotations.
Open Scope R_scope.

(** A Python argument that may be a scalar or a list. *)
Inductive sol (A : Type) : Type := Scal (a : A) | Lst (l : list A).
Arguments Scal {A} a. Arguments Lst {A} l.

(** A float that may be math.inf. *)
Inductive xR : Type := Fin (r : R) | Inf.

(** The L0 attribute: a number, or (argument given as a one-element Python list,
    line 107) that list itself. *)
Inductive L0attr : Type := LNum (x : xR) | LList (x : xR).

(** atmosphere.py:18-25 class layer *)
Record layer := mkLayer { ly_r0 : R; ly_w : R; ly_h : R; ly_L0 : xR; ly_v : R; ly_d : R }.
(** atmosphere.py:27, the attributes of an atmosphere object. wSpeed and wDir keep
    the shape of the argument (np.array of a scalar is 0-d). *)
Record atmo := mkAtmo {
  a_wvl : R; a_r0 : R; a_w : list R; a_h : list R; a_v : sol R; a_d : sol R; a_L0 : L0attr; a_layers : list layer }.

(** gamma(6/5), gamma(11/6), gamma(5/6) and x -> kv(5/6, x) of scipy.special,
    left abstract. *)
Record special := mkSpecial { g65 : R; g116 : R; g56 : R; kv56 : R -> R }.

(** Python/NumPy division *)
Definition rdiv (x y : R) : result R := if Req_EM_T y 0 then Err NonFinite else Ok (x / y).

(** lines 106-118: the value of L0 of each layer and the L0 attribute. *)
Definition parse_L0 (w : list R) (L0 : sol xR) : result (L0attr * list xR) :=
  match L0 with
  | Scal x => Ok (LNum x, repeat x (length w))
  | Lst [x] => Ok (LList x, repeat x (length w))
  | Lst [] => Err UnboundLocalError  (* neither branch: self.L0 is never set; reported here *)
  | Lst l =>
      let l' := firstn (length w) l in
      do ps <- mapM (fun x => match x with Fin r => rpow r (5/3) | Inf => Err NonFinite end) l';
      do m <- bmul w ps;
      do s <- rpow (lsum m) (3/5);
      do q <- rdiv s (lsum w);
      Ok (LNum (Fin q), l')
  end.
(** lines 119-122 scalar wind -> one value per layer (local variable only) *)
Definition spread (n : nat) (v : sol R) : list R := match v with Scal a => repeat a n | Lst l => l end.
(** lines 126-130, one layer *)
Definition make_layer (r0 : R) (w h v d : list R) (L : list xR) (l : nat) : result layer :=
  do wl <- pyindex w (Z.of_nat l);
  do p <- rpow r0 (- 5 / 3);
  do r <- rpow (wl * p) (- 3 / 5);
  do hl <- pyindex h (Z.of_nat l); do Ll <- pyindex L (Z.of_nat l);
  do vl <- pyindex v (Z.of_nat l); do dl <- pyindex d (Z.of_nat l);
  Ok (mkLayer r wl hl Ll vl dl).
(** lines 86-134 __init__ (precision argument valid). Not modelled: the branch of
    an empty weight list, where [layer] is a single object instead of an array. *)
Definition atmosphere (wvl r0 : R) (w h : list R) (v d : sol R) (L0 : sol xR) : result atmo :=
  do p <- parse_L0 w L0;
  let n := length w in
  do ls <- mapM (make_layer r0 w h (spread n v) (spread n d) (snd p)) (seq 0 n);
  Ok (mkAtmo wvl r0 w h v d (fst p) ls).

(** lines 43-45 the wavelength setter *)
Definition set_wvl (a : atmo) (val : R) : result atmo :=
  do q <- rdiv val (a_wvl a);
  do f <- rpow q (12 / 10);
  Ok (mkAtmo val (a_r0 a * f) (a_w a) (a_h a) (a_v a) (a_d a) (a_L0 a) (a_layers a)).
(** lines 48-51 *)
Definition seeing (a : atmo) : result R := rdiv (3600 * 180 / PI * (976 / 1000) * a_wvl a) (a_r0 a).

(** lines 71-84 mean height, mean wind, coherence time (ms) *)
Definition mean53 (w x : list R) : result R :=
  do ps <- mapM (fun h => rpow h (5/3)) x; do m <- bmul w ps; rpow (lsum m) (3/5).
Definition meanHeight (a : atmo) : result R := mean53 (a_w a) (a_h a).
Definition meanWind (a : atmo) : result R := mean53 (a_w a) (match a_v a with Scal s => [s] | Lst l => l end).
Definition tau0 (a : atmo) : result R := do m <- meanWind a; rdiv (314 / 1000 * 1000 * a_r0 a) m.
(** lines 53-70 isoplanatic angle (arcsec). [Inf] when all layers are at the
    ground; the numerical root search of the finite outer scale (np.isinf(self.L0) false)
    is not modelled: theorems on theta0 assume an infinite outer scale. *)
Definition theta0_kolmogorov (sp : special) (a : atmo) : result xR :=
  if forallb (fun h => if Req_EM_T h 0 then true else false) (a_h a) then Ok Inf
  else
    do g <- rpow (24 * g65 sp / 5) (- 5 / 6);
    do r <- rpow (a_r0 a) (5/3);
    do ps <- mapM (fun h => rpow h (5/3)) (a_h a); do m <- bmul (a_w a) ps;
    do q <- rdiv (g * r) (lsum m);
    do t <- rpow q (3/5);
    Ok (Fin (t * 3600 * 180 / PI)).

(** lines 136-147 slab(k): single-layer atmosphere from the stored layer *)
Definition slab (a : atmo) (k : nat) : result atmo :=
  do l <- pyindex (a_layers a) (Z.of_nat k);
  atmosphere (a_wvl a) (ly_r0 l) [1] [ly_h l] (Lst [ly_v l]) (Lst [ly_d l]) (Scal (ly_L0 l)).

(** constants of lines 192-212 *)
Definition c1 (sp : special) : R := Rpower (24 * g65 sp / 5) (5/6).
Definition c2 (sp : special) : R := g116 sp / (Rpower 2 (5/6) * Rpower PI (8/3)).
Definition c3 (sp : special) : R := g116 sp * g56 sp / (2 * Rpower PI (8/3)).
(** (atm.L0/atm.r0)**(5/3); infinite outer scale: infinite; list / float raises *)
Definition L0r0ratio (a : atmo) : result R :=
  match a_L0 a with LList _ => Err TypeError | LNum Inf => Err NonFinite | LNum (Fin L) => do q <- rdiv L (a_r0 a); rpow q (5/3) end.
(** lines 187-195 variance *)
Definition variance (sp : special) (a : atmo) : result R :=
  do x <- L0r0ratio a; Ok (c1 sp * c3 sp * x).
(** lines 197-219 covariance at one separation *)
Definition covariance (sp : special) (a : atmo) (rho : R) : result R :=
  do x <- L0r0ratio a;
  if Req_EM_T rho 0 then Ok (c1 sp * c3 sp * x)
  else match a_L0 a with
       | LList _ => Err TypeError
       | LNum Inf => Err NonFinite
       | LNum (Fin L) => do u <- rdiv (2 * PI * rho) L;
                  do p <- rpow u (5/6);
                  Ok (c1 sp * c2 sp * x * p * kv56 sp u)
       end.
(** lines 221-237 structureFunction at one separation *)
Definition structureFunction (sp : special) (a : atmo) (rho : R) : result R :=
  match a_L0 a with
  | LList _ => Err TypeError  (* in atm.variance() *)
  | LNum Inf => if Req_EM_T rho 0 then Ok 0
           else do q <- rdiv rho (a_r0 a); do p <- rpow q (5/3); Ok (2 * c1 sp * p)
  | LNum (Fin _) => do v <- variance sp a; do c <- covariance sp a rho; Ok (2 * (v - c))
  end.
(** lines 240-246 spectrum at one spatial frequency *)
Definition spectrum (sp : special) (a : atmo) (k : R) : result R :=
  let cte := c1 sp * (g116 sp ^ 2 / (2 * Rpower PI (11/3))) in
  do p <- rpow (a_r0 a) (- 5 / 3);
  do i <- match a_L0 a with LList _ => Err TypeError | LNum Inf => Ok 0 | LNum (Fin L) => rdiv 1 (L ^ 2) end;
  do s <- rpow (k ^ 2 + i) (- 11 / 6);
  Ok (p * cte * s).

(** [for l in range(n): acc += f(l)] *)
Fixpoint sumM (f : nat -> result R) (n : nat) : result R :=
  match n with O => Ok 0 | S k => do s <- sumM f k; do x <- f k; Ok (s + x) end.
(** lines 248-283: the slab of layer l with its r0 recomputed *)
Definition slab_r0 (a : atmo) (l : nat) : result atmo :=
  do s <- slab a l;
  do w <- pyindex (a_w a) (Z.of_nat l);
  do f <- rpow w (- 3 / 5);
  Ok (mkAtmo (a_wvl s) (a_r0 a * f) (a_w s) (a_h s) (a_v s) (a_d s) (a_L0 s) (a_layers s)).
Definition slab_height (s : atmo) : R := match a_h s with [h] => h | _ => 0 end.
Definition angularCovariance (sp : special) (a : atmo) (theta : R) : result R :=
  sumM (fun l => do s <- slab_r0 a l; covariance sp s (slab_height s * tan theta)) (length (a_w a)).
Definition angularStructureFunction (sp : special) (a : atmo) (theta : R) : result R :=
  sumM (fun l => do s <- slab_r0 a l; do v <- variance sp s; do c <- covariance sp s (slab_height s * tan theta);
                 Ok (2 * (v - c))) (length (a_w a)).
(** lines 285-294 temporalCovariance at one delay: atm.wSpeed[k] is an IndexError
    for a 0-d array (scalar wind argument). *)
Definition temporalCovariance (sp : special) (a : atmo) (tau : R) : result R :=
  sumM (fun k => do v <- match a_v a with Scal _ => Err IndexError | Lst l => pyindex l (Z.of_nat k) end;
                 covariance sp a (v * tau)) (length (a_w a)).
