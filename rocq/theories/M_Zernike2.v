(** Model of p3/aoSystem/zernike.py, second part: the Pochhammer series of
    CoefficientsVariance, CoefficientsVariance itself, tiltsAngularCovariance and
    anisokinetism.
    Simplifications: exact reals; scipy.special.gamma is a parameter [gam];
    scipy's Bessel functions jn(2,.), j0, j1 are parameters; integrate.quad over
    [0, inf) is a parameter [quad], a function of the integrand. *)
From Coq Require Import Reals List Arith ZArith Bool.
From Flocq Require Import Core.Raux.
From Verif Require Import Base_Py M_Tools M_Zernike.
Import ListNotations.
Open Scope R_scope.

Definition rprod (l : list R) : R := fold_right Rmult 1 l.
(** lines 196-201 newGamma *)
Definition newGamma (gam : R -> R) (a b : list R) : R := rprod (map gam a) / rprod (map gam b).
(** lines 225-236: the while loop, started with k=0, ck=1, som=1, step=inf ([None]).
    [fuel] bounds the number of tests; with fuel > nmax + 1 it is never exhausted.
    Returns the sum, the last step and the number of terms added. *)
Definition fk (l : list R) (k : nat) : R := rprod (map (fun x => x + INR k) l).
Fixpoint poch_loop (fuel : nat) (nmax : nat) (tol : R) (a b : list R) (z : R) (k : nat) (ck : R) (step : option R) (som : R) : R * option R * nat :=
  match fuel with
  | O => (som, step, k)
  | S f =>
    if (k <=? nmax)%nat && (match step with None => true | Some s => if Rlt_dec tol s then true else false end)
    then let ck1 := fk a k * z * ck / fk b k in
         poch_loop f nmax tol a b z (S k) ck1 (Some (Rabs (Rabs ck - Rabs ck1))) (som + ck1)
    else (som, step, k)
  end.
(** lines 203-244 pochammerSeries for a real scalar z. Outside of the convergence
    conditions or for wrong lengths a message is printed and 0 returned. *)
Definition pochammerSeries (p q : nat) (a b : list R) (z tol : R) (nmax : nat) : R :=
  let s := lsum a - lsum b in
  if ((p =? q + 1)%nat && (if Rlt_dec (Rabs z) 1 then true else false)) || ((if Req_EM_T (Rabs z) 1 then true else false) && (if Rlt_dec s 0 then true else false)) || (p <? q + 1)%nat
  then if (p =? length a)%nat && (q =? length b)%nat
       then if Req_EM_T z 0 then 1 else fst (fst (poch_loop (nmax + 2) nmax tol a b z 0 1 None 1))
       else 0
  else 0.
(** lines 248-265 UnParamEx4q2; a**x is Rpower (a > 0 there) *)
Definition UnParamEx4q2 (gam : R -> R) (mu alpha beta p a : R) : R :=
  let a1 := [(alpha + beta + 1) / 2; (2 + mu + alpha + beta) / 2; (mu + alpha + beta) / 2] in
  let b1 := [1 + alpha + beta; 1 + alpha; 1 + beta] in
  let a2 := [(1 - mu) / 2 + p; 1 + p; p] in
  let b2 := [1 + (alpha + beta - mu) / 2 + p; 1 + (alpha - beta - mu) / 2 + p; 1 + (beta - alpha - mu) / 2 + p] in
  let k := 1 / (2 * sqrt PI * gam p) in
  let f1 := newGamma gam (a1 ++ [p - (mu + alpha + beta) / 2]) b1 * Rpower a (mu + alpha + beta) *
            pochammerSeries 3 5 a1 ([1 - p + (mu + alpha + beta) / 2] ++ b1 ++ [1]) (a ^ 2) (/ 10 ^ 6) 1000 in
  let f2 := newGamma gam ([(mu + alpha + beta) / 2 - p] ++ a2) b2 * Rpower a (2 * p) *
            pochammerSeries 3 5 a2 ([1 - (mu + alpha + beta) / 2 + p] ++ b2 ++ [1]) (a ^ 2) (/ 10 ^ 6) 1000 in
  k * (f1 + f2).
(** (-1)**x for the float x = (ni+nj-mi-mj)/2: 1 or -1 at integers, nan (numpy) at
    half-integers; [e] is twice the exponent *)
Definition sgn_half (e : Z) : result R :=
  if (e mod 2 =? 0)%Z then Ok (if Z.even (e / 2) then 1 else -1) else Err NonFinite.
(** lines 267-285 zernCovCoef; [Err NonFinite] is the infinite variance of piston
    for an infinite outer scale *)
Definition zernCovCoef (gam : R -> R) (dr0 dL0 : R) (i j ni mi nj mj : Z) : result R :=
  if (mi =? mj)%Z && (((Z.abs (i - j)) mod 2 =? 0)%Z || ((mi =? 0)%Z && (mj =? 0)%Z)) then
    if Req_EM_T dL0 0 then
      if (i =? 1)%Z && (j =? 1)%Z then Err NonFinite
      else do sg <- sgn_half (ni + nj - mi - mj);
           Ok (gam (11 / 6) ^ 2 * gam (14 / 3) / (Rpower 2 (8 / 3) * PI) * Rpower (24 * gam (6 / 5) / 5) (5 / 6) *
               Rpower dr0 (5 / 3) * sqrt (IZR ((ni + 1) * (nj + 1))) * sg *
               newGamma gam [-5 / 6 + IZR (ni + nj) / 2] [23 / 6 + IZR (ni + nj) / 2; 17 / 6 + IZR (ni - nj) / 2; 17 / 6 + IZR (nj - ni) / 2])
    else do sg <- sgn_half (ni + nj - mi - mj);
         Ok (4 * gam (11 / 6) ^ 2 / Rpower PI (14 / 3) * Rpower (24 * gam (6 / 5) / 5) (5 / 6) *
             Rpower (dr0 / dL0) (5 / 3) / dL0 ^ 2 * sqrt (IZR ((ni + 1) * (nj + 1))) * sg *
             UnParamEx4q2 gam 0 (IZR ni + 1) (IZR nj + 1) (11 / 6) (PI * dL0))
  else Ok 0.

(** lines 294-298: elements where the radial order changes with the next one, then
    the last element *)
Fixpoint run_ends (l : list (Z * (Z * Z))) : list (Z * (Z * Z)) :=
  match l with
  | [] => []
  | [x] => [x]
  | x :: (y :: _) as t => if (fst (snd y) - fst (snd x) =? 0)%Z then run_ends t else x :: run_ends t
  end.
(** zern_var[index] = v for every index with nv0 == n *)
Definition assign (n : Z) (v : result R) (nv0 : list Z) (acc : list (result R)) : list (result R) :=
  map (fun p => if (fst p =? n)%Z then v else snd p) (combine nv0 acc).
(** lines 287-310: the entries of the array (an entry [Err NonFinite] is inf);
    an empty list of modes has no last element *)
Definition CoefficientsVariance (gam : R -> R) (x : R * R) (jv : list Z) : result (list (result R)) :=
  do nm <- mapM nmOrder jv;
  match jv with
  | [] => Err IndexError
  | _ =>
    let nv0 := map fst nm in
    Ok (fold_left (fun acc e => let '(j, (n, m)) := e in assign n (zernCovCoef gam (fst x) (snd x) j j n m n m) nv0 acc)
                  (run_ends (combine jv nm)) (map (fun _ => Ok 0) jv))
  end.

(** lines 312-353 tiltsAngularCovariance *)
Record tlayer := mkTL { tl_h : R; tl_w : R; tl_v : R; tl_d : R }.
(** lines 319-321: complex separation srcVx + i srcVy, where each of srcVx, srcVy is
    the angular shift plus the complex number lag*v*exp(i*dir): real and imaginary
    parts *)
Definition tsep (lag ax ay : R) (l : tlayer) : R * R :=
  let wr := lag * tl_v l * cos (tl_d l) in let wi := lag * tl_v l * sin (tl_d l) in
  (ax * tl_h l + wr - wi, wi + (ay * tl_h l + wr)).
Section Tilts.
Variables (jn2 j0 j1 : R -> R) (quad : (R -> R) -> R) (gam : R -> R).
Definition pyneg1 (i : nat) : R := (-1) ^ i.
Definition sumLayers (psdCst L0 lag ax ay : R) (ls : list tlayer) (f : R) (j i : nat) : R :=
  let g := PI * (pyneg1 i + pyneg1 j - 2) / 4 in
  let h := PI * (pyneg1 i - pyneg1 j) / 4 in
  fold_left (fun acc l =>
    let s := tsep lag ax ay l in
    let rho := sqrt (fst s ^ 2 + snd s ^ 2) in
    let arg := atan2 (snd s) (fst s) in
    let red := 2 * PI * f * rho in
    acc + tl_w l * psdCst * Rpower (f ^ 2 + 1 / L0 ^ 2) (-11 / 6) * (- PI * (jn2 red * cos (2 * arg + g) - j0 red * cos h))) ls 0.
Inductive tiltKind := TZ | TG | TZG | TOther.
(** lines 337-344; an unknown name prints a message and leaves tiltsFilter unbound *)
Definition tiltsFilter (t : tiltKind) (D : R) : result (R -> R) :=
  match t with
  | TZ => Ok (fun f => (2 * jn2 (PI * f * D) / (PI * f * (D / 2))) ^ 2)
  | TG => Ok (fun f => (j1 (PI * f * D)) ^ 2)
  | TZG => Ok (fun f => 2 * jn2 (PI * f * D) * j1 (PI * f * D) / (PI * f * (D / 2)))
  | TOther => Err NameError
  end.
Definition tcov : Type := (R * R) * (R * R).
Definition tiltsAngularCovariance (D r0 L0 : R) (ls : list tlayer) (src gs : R * R) (t : tiltKind) (lag : R) : result tcov :=
  let psdCst := Rpower (24 * gam (6 / 5) / 5) (5 / 6) * (gam (11 / 6) ^ 2 / (2 * Rpower PI (11 / 3))) * Rpower r0 (-5 / 3) in
  let ax := fst src - fst gs in let ay := snd src - snd gs in
  do tf <- tiltsFilter t D;
  let e := fun a b => quad (fun f => f * sumLayers psdCst L0 lag ax ay ls f a b * tf f) in
  Ok ((e 2%nat 2%nat, e 2%nat 3%nat), (e 3%nat 2%nat, e 3%nat 3%nat)).
(** lines 355-361: the argument tilt is ignored *)
Definition anisokinetism (D r0 L0 : R) (ls : list tlayer) (src gs : R * R) (t : tiltKind) : result tcov :=
  do c1 <- tiltsAngularCovariance D r0 L0 ls src src TZ 0;
  do c2 <- tiltsAngularCovariance D r0 L0 ls gs gs TZ 0;
  do c3 <- tiltsAngularCovariance D r0 L0 ls src gs TZ 0;
  let k := Rpower D (5 / 3) in
  let f := fun a b c d => (a + b - c - d) * k in
  Ok ((f (fst (fst c1)) (fst (fst c2)) (fst (fst c3)) (fst (fst c3)), f (snd (fst c1)) (snd (fst c2)) (snd (fst c3)) (fst (snd c3))),
      (f (fst (snd c1)) (fst (snd c2)) (fst (snd c3)) (snd (fst c3)), f (snd (snd c1)) (snd (snd c2)) (snd (snd c3)) (snd (snd c3)))).
End Tilts.
