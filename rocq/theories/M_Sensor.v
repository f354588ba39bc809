(** Model of p3/aoSystem/sensor.py, detector.py (constructor check), optics.py and
    processing.py (float values are exact reals, infinite photon numbers explicit). *)
From Coq Require Import Reals List Arith ZArith String Ascii Bool.
From Flocq Require Import Core.Raux.
From Verif Require Import Base_Py M_Tools M_Atmo.
Import ListNotations.
Open Scope R_scope.

(** Python str.upper on ASCII strings *)
Definition upper_ascii (c : ascii) : ascii :=
  let n := nat_of_ascii c in if ((97 <=? n) && (n <=? 122))%nat then ascii_of_nat (n - 32) else c.
Fixpoint upper (s : string) : string :=
  match s with EmptyString => EmptyString | String c r => String (upper_ascii c) (upper r) end.

(** An element of the photon list: a number, or (completion at sensor.py:47) a
    nested list of numbers. *)
Inductive nphval : Type := NNum (x : xR) | NList (l : list xR).
(** The nph argument of the constructor (sensor.py:39-42): a Python float, an
    int, None, or a list object. *)
Inductive nph_arg : Type := AFloat (x : xR) | AInt (z : Z) | ANone | AList (l : list nphval).

(** detector.py / optics.py: the attributes used by NoiseVariance *)
Record det := mkDet { d_ps : R; d_fov : R; d_spot : list (list R); d_nph : nphval; d_ron : R; d_excess : R; d_clock : R }.
Record opt := mkOpt { o_nL : Z; o_dsub : R }.
Record sensor := mkSensor { s_type : string; s_algo : string; s_settings : list R; s_opt : list opt; s_det : list det }.
Definition nWfs (s : sensor) : nat := length (s_opt s).

(** The remaining constructor arguments. nWvl = len(transmittance),
    nDisp = len(dispersion[0]). *)
Record sargs := mkSargs { sa_ps : R; sa_fov : R; sa_spot : list (list R); sa_nWvl : nat; sa_nDisp : nat; sa_ron : R; sa_excess : R;
  sa_type : string; sa_nL : list Z; sa_dsub : list R; sa_clock : list R; sa_algo : string; sa_settings : list R }.

(** sensor.py:39-47 on the list object: the list used, after completion.
    Line 47 appends ONE element, the list [0]*missing, to that very object. *)
Definition complete (n : nat) (l : list nphval) : list nphval :=
  if (length l <? n)%nat then l ++ [NList (repeat (Fin 0) (n - length l))] else l.
(** sensor.py:20-58 __init__. The second component is the content of the list
    object passed as nph (or of the default-argument object) after the call. *)
Definition sensor_init (a : sargs) (n : nph_arg) : result sensor * option (list nphval) :=
  let k := length (sa_nL a) in
  let before := match n with AList l => Some l | _ => None end in
  match mapM (fun i => do nl <- pyindex (sa_nL a) (Z.of_nat i); do d <- pyindex (sa_dsub a) (Z.of_nat i); Ok (mkOpt nl d)) (seq 0 k) with
  | Err e => (Err e, before)
  | Ok os =>
      match n with
      | AInt _ => (Err TypeError, before)          (* len(int) *)
      | _ =>
          let l := match n with AFloat x => [NNum x] | AList l => l | _ => [NNum Inf] end in
          let clock := match sa_clock a with [c] => repeat c k | c => c end in
          let l' := complete k l in
          (do ds <- mapM (fun i =>
                do p <- pyindex l' (Z.of_nat i);
                do c <- pyindex clock (Z.of_nat i);
                if (sa_nDisp a =? sa_nWvl a)%nat then Ok (mkDet (sa_ps a) (sa_fov a) (sa_spot a) p (sa_ron a) (sa_excess a) c)
                else Err ValueError) (seq 0 k);
           Ok (mkSensor (sa_type a) (sa_algo a) (sa_settings a) os ds),
           match n with AList _ => Some l' | _ => None end)
      end
  end.

(** nnp.any(nph < 0), and the first element of the flattened array *)
Definition xneg (x : xR) : bool := match x with Fin r => if Rlt_dec r 0 then true else false | Inf => false end.
Definition nph_any_neg (p : nphval) : bool := match p with NNum x => xneg x | NList l => existsb xneg l end.
Definition nph_first (p : nphval) : result xR :=
  match p with NNum x => Ok x | NList (x :: _) => Ok x | NList [] => Err IndexError end.

Definition rad2arcsec : R := 3600 * 180 / PI.
(** hypot *)
Definition hypot (x y : R) : R := sqrt (x ^ 2 + y ^ 2).
(** max of a non-empty Python sequence *)
Definition pymax (l : list R) : result R := match l with [] => Err ValueError | x :: r => Ok (fold_left Rmax r x) end.

(** sensor.py:128-164: the two variances as functions of 1/nph (0 for an
    infinite number of photons): var_ron = A * ron^2 * (1/nph)^2 and
    var_shot = B * (1/nph), with the factors below. *)
Definition factors (alg : string) (nPix nD nT nW : R) : result (R * R) :=
  if (alg =? "cog")%string then
    Ok (PI ^ 2 / 3 * (nPix ^ 2 / nD) ^ 2, PI ^ 2 / (2 * ln 2) * (nT / nD) ^ 2)
  else if (alg =? "tcog")%string then
    Ok (PI ^ 2 / 3 * (IZR (Zceil (nT ^ 2 * PI / 4)) / nD) ^ 2, PI ^ 2 / (2 * ln 2) * (nT / nD) ^ 2)
  else if (alg =? "wcog")%string then
    Ok (PI ^ 3 / (32 * ln 2 ^ 2) * (nT ^ 2 + nW ^ 2) ^ 4 / (nD ^ 2 * nW ^ 4),
        PI ^ 2 / (2 * ln 2) * (nT / nD) ^ 2 * (nT ^ 2 + nW ^ 2) ^ 4 / ((2 * nT ^ 2 + nW ^ 2) ^ 2 * nW ^ 4))
  else if (alg =? "qc")%string then
    let k := if Rlt_dec nD nT then sqrt (2 * PI) * (nT / (2 * sqrt (2 * ln 2)) / nD) else 1 in
    Ok (k * 4 * PI ^ 2, k * PI ^ 2)
  else Err ValueError.
(** lines 100-127: geometry of the spot *)
Definition spot_geometry (s : sensor) (d : det) (o : opt) (r0 wvl : R) : result (R * R * R) :=
  let ps := d_ps d / 1000 in
  if Req_EM_T ps 0 then Err ZeroDivisionError
  else
    let nD := Rmax 1 (rad2arcsec * wvl / o_dsub o / ps) in
    let seeing_total := 98 / 100 * rad2arcsec * wvl / r0 in
    let spot_fwhm := seeing_total / sqrt 2 in
    do row <- pyindex (d_spot d) 0;
    do m <- pymax (pyslice row 0 2);
    let nT := Rmax 1 (hypot (m / 1000) spot_fwhm / ps) in
    do w <- pyindex (s_settings s) 0;
    Ok (nD, nT, if Rlt_dec w nT then nT else w).
(** combination of the two variances for the flux of one sensor; zero photons
    divide by zero (inf or nan). *)
Definition combine_var (A B ron excess : R) (n : xR) : result R :=
  match n with
  | Inf => Ok 0
  | Fin p => if Req_EM_T p 0 then Err NonFinite else Ok (A * (ron ^ 2 / p ^ 2) + excess * (B / p))
  end.
(** lines 80-172: variance of sensor k *)
Definition noise_one (s : sensor) (d : det) (o : opt) (r0 wvl : R) : result R :=
  if Rlt_dec (d_ron d) 0 then Err ValueError
  else if nph_any_neg (d_nph d) then Err ValueError
  else if Rle_dec (o_dsub o) 0 then Err ValueError
  else if (upper (s_type s) =? "SHACK-HARTMANN")%string then
    do g <- spot_geometry s d o r0 wvl;
    do ab <- factors (s_algo s) (d_fov d) (fst (fst g)) (snd (fst g)) (snd g);
    do n <- nph_first (d_nph d);
    combine_var (fst ab) (snd ab) (d_ron d) (d_excess d) n
  else if (upper (s_type s) =? "PYRAMID")%string then
    do n <- nph_first (d_nph d);
    match n with
    | Inf => Err NonFinite                           (* nph/nph**2 = inf/inf = nan *)
    | Fin p => if Req_EM_T p 0 then Err NonFinite
               else Ok (4 * d_ron d ^ 2 / p ^ 2 + d_excess d * (p / p ^ 2))
    end
  else Err ValueError.
(** lines 72-174 NoiseVariance *)
Definition NoiseVariance (s : sensor) (r0 wvl : R) : result (list R) :=
  if Rle_dec r0 0 then Err ValueError
  else if Rle_dec wvl 0 then Err ValueError
  else mapM (fun od => noise_one s (snd od) (fst od) r0 wvl) (combine (s_opt s) (s_det s)).
(** lines 176-207 computeNoiseVarianceAtWavelength *)
Definition noise_at_wavelength (s : sensor) (wvl_science wvl_wfs r0_at_500nm : R) : result (list R) :=
  do f <- rpow (wvl_wfs / (500 * / 10 ^ 9)) (6/5);
  do v <- NoiseVariance s (r0_at_500nm * f) wvl_wfs;
  do q <- rdiv wvl_wfs wvl_science;
  Ok (map (fun x => x * q ^ 2) v).
