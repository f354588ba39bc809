(** Model of the cone effect (single laser guide star), wind shake and modal filters of
    p3/aoSystem/fourierModel.py. Float values are exact reals; the Bessel functions j0, j1
    of SciPy are parameters. *)
From Coq Require Import Reals List Arith ZArith Bool.
From Flocq Require Import Core.Raux.
From Verif Require Import Base_Py Base_Sum M_Tools M_Freq M_Atmo M_Sensor M_Model M_Model2.
From Coquelicot Require Import Complex.
Import ListNotations.
Open Scope R_scope.

(** numpy.mean and numpy.std of n samples (n > 0) *)
Definition meanf (n : nat) (f : nat -> R) : R := rsum n f / INR n.
Definition varf (n : nat) (f : nat -> R) : R := meanf n (fun k => (f k - meanf n f) ^ 2).
Definition stdf (n : nat) (f : nat -> R) : R := sqrt (varf n f).

(** ** focalAnisoplanatismPSD, fourierModel.py:1310-1379 *)
(** line 1322 nPoints = 1001, line 1323 nPhase = 5, line 1324 x = D*np.linspace(-0.5, 0.5, nPoints) *)
Definition nPoints : nat := 1001.
Definition nPhase : nat := 5.
Definition xpos (D : R) (k : nat) : R := D * (- / 2 + INR k / INR (nPoints - 1)).
(** lines 1344-1356: coefficient of one frequency and one layer, for one phase *)
Definition cone_phase (D f ratio : R) (p : nat) : result R :=
  let ph := 2 * PI * INR p / INR nPhase in
  let sref k := sin (2 * PI * f * xpos D k + ph) in
  let stmp k := sin (2 * PI * (f * ratio) * xpos D k + ph) in
  do q <- rdiv (stdf nPoints sref) (stdf nPoints stmp);
  rdiv (stdf nPoints (fun k => sref k - q * stmp k)) (stdf nPoints sref).
(** line 1356 np.mean over the phases; lines 1359-1362: masked where freq*ratio > kc or
    freq < 1e-5 (a masked NaN is overwritten) *)
Definition cone_coeff (D kc f ratio : R) : result R :=
  if Rlt_dec kc (f * ratio) then Ok 0
  else if Rlt_dec f (1 / 100000) then Ok 0
  else do l <- mapM (cone_phase D f ratio) (seq 0 nPhase); Ok (lsum l / INR nPhase).
(** line 1359: (nF, nCn2) > kc_ of length nDm, then the mask indexes an (nF, nCn2) array *)
Definition cone_kc (kc : list R) (nLay : nat) : result (list R) :=
  match kc with
  | [c] => Ok (repeat c nLay)
  | _ => if (length kc =? nLay)%nat then Ok kc
         else if (nLay =? 1)%nat then Err IndexError else Err ValueError
  end.
(** lines 1325-1333, 1364-1377: one pixel of frequency k. Simplification: a coefficient
    that is not finite at some frequency of the list makes the result NonFinite, even for
    the pixels whose interpolation does not use it. *)
Definition cone_layer (D : R) (freqs : list R) (k psd_atmo : R) (x : R * R * R * R) : result R :=
  let '(h, w, kc, hl) := x in
  do r <- rdiv (hl - h) hl;
  do cs <- mapM (fun f => cone_coeff D kc f r) freqs;
  do c <- np_interp k freqs cs;
  Ok (c ^ 2 * psd_atmo * w).
Definition focalAnisoplanatismPSD (D hl : R) (kcs : list R) (lays : list (R * R)) (freqs : list R) (k psd_atmo : R) : result R :=
  do kc <- cone_kc kcs (length lays);
  do l <- mapM (fun x => cone_layer D freqs k psd_atmo (fst (fst x), snd (fst x), snd x, hl)) (combine lays kc);
  Ok (lsum l).

(** ** besselj__n, fourierModel.py:43-51. [-1**(-n)] is -(1**(-n)). *)
Fixpoint bessel_nat (j0 j1 : R -> R) (n : nat) (z : R) : result (R * R) :=   (* (J_n, J_(n-1)) for n >= 1 *)
  match n with
  | O => Ok (j0 z, 0)
  | S O => Ok (j1 z, j0 z)
  | S m => do p <- bessel_nat j0 j1 m z; do q <- rdiv (2 * INR m * fst p) z; Ok (q - snd p, fst p)
  end.
Definition besselj (j0 j1 : R -> R) (n : Z) (z : R) : result R :=
  do p <- bessel_nat j0 j1 (Z.abs_nat n) z;
  Ok (if Z.ltb n 0 then - (1) * fst p else fst p).
(** ** TiltFilter, lines 1576-1604 and FocusFilter, lines 1606-1632; k = sqrt(k2_) *)
Definition tilt_x (D k : R) : R := 5 / 10 * D * 2 * PI * k.
Definition tiltFilter (j0 j1 : R -> R) (D k : R) : result R :=
  let x := tilt_x D k in
  let small := Rlt_dec x (1 / 1000000) in
  let xs := if small then 1 else x in
  do a <- rdiv (2 * j1 xs) xs;
  do b2 <- besselj j0 j1 2 xs; do b <- rdiv (4 * b2) xs;
  let a := if small then 1 else a in
  let b := if small then 0 else b in
  Ok (1 - a ^ 2 - b ^ 2).
Definition focusFilter (j0 j1 : R -> R) (D k : R) : result R :=
  let x := tilt_x D k in
  let small := Rlt_dec x (1 / 1000000) in
  let xs := if small then 1 else x in
  do b3 <- besselj j0 j1 3 xs; do b <- rdiv (2 * b3) xs;
  let b := if small then 0 else b in
  Ok (1 - 3 * b ^ 2).

(** ** windShakePSD, lines 1127-1174. [n] = resAO, [fk i j] the frequency and [pist i j] the
    piston filter of the corrected area, [fx], [ft], [fy]: the three rows of the file. *)
(** np.interp(..., left=0, right=0) *)
Definition interp0 (x : R) (xp fp : list R) : result R :=
  do v <- np_interp x xp fp;
  Ok (match xp with [] => v | x0 :: _ => if Rlt_dec x x0 then 0 else if Rlt_dec (last xp x0) x then 0 else v end).
(** np.linspace(a, b, m) *)
Definition linspace (a b : R) (m : nat) : list R :=
  match m with O => [] | S O => [a] | _ => map (fun k => a + INR k * ((b - a) / INR (m - 1))) (seq 0 m) end.
(** lines 1154-1157 rejection transfer function; z = exp(-2i pi f/rate), whose power of a
    real exponent d is exp(-2i pi f d/rate) for f <= rate/2 *)
Definition rtf (gain delay rate f : R) : result C :=
  do th <- rdiv (2 * PI) rate;
  let z1 := cis (th * f) in                       (* z^-1 *)
  let den := Cminus (RtoC 1) z1 in
  if Req_EM_T (Cmod den) 0 then Err NonFinite else
  let h := Cdiv (RtoC gain) den in
  let d := Cplus (RtoC 1) (Cmult h (cis (th * f * delay))) in
  if Req_EM_T (Cmod d) 0 then Err NonFinite else Ok (Cdiv (RtoC 1) d).
Definition csq (c : C) : C := Cmult c c.
(** lines 1147-1151, 1167 *)
Definition vib_power (gain delay rate : R) (fx ft fy : list R) : result R :=
  let fs := linspace (1 / 10) (5 / 10 * rate) (Z.to_nat (Ztrunc (5 * rate))) in
  do l <- mapM (fun f => do a <- interp0 f fx ft; do b <- interp0 f fx fy; do r <- rtf gain delay rate f;
                         Ok (Cmult (csq r) (RtoC (a + b)))) fs;
  do f1 <- pyindex fs 1; do f0 <- pyindex fs 0;
  Ok (Cmod (Cmult (clsum l) (RtoC (f1 - f0)))).
(** lines 1133-1138, 1168-1174 *)
Definition windShakePSD (j0 j1 : R -> R) (D gain delay rate rad2nm : R) (n : nat) (fk pist mask : nat -> nat -> R) (fx ft fy : list R) : result (list (list R)) :=
  do w <- grid_res n (fun i j => do t <- tiltFilter j0 j1 D (fk i j); Ok ((1 - t) * pist i j));
  do inv <- rdiv 1 (lsum2 w);
  do p <- vib_power gain delay rate fx ft fy;
  do q <- rdiv 1 (rad2nm ^ 2);
  Ok (map (fun i => map (fun j => mask i j * Rabs (p * q * (grid_at w i j * inv))) (seq 0 n)) (seq 0 n)).
