(** Model of p3/aoSystem/anisoplanatismModel.py (except the focal part of the structure
    function, which is a parameter) and of frequencyDomain.py:221-266. Float values are
    exact reals. Simplification: an atmosphere object has at least as many altitudes as
    weights (guaranteed by its constructor), so no layer index is out of range. *)
From Coq Require Import Reals List Arith ZArith Bool.
From Verif Require Import Base_Py Base_Sum Base_DFT M_Image M_Fourier M_Tools M_Freq M_Atmo M_Sensor M_Source M_Model M_Model2 M_Zernike2.
From Coquelicot Require Import Complex.
Import ListNotations.
Open Scope R_scope.

(** scipy.special.gamma is a parameter; lines 32 and 221 *)
Definition kolm_cte (gam : R -> R) : R := Rpower (24 * gam (6 / 5) / 5) (5 / 6) * (gam (11 / 6) ^ 2 / (2 * Rpower PI (11 / 3))).
(** 1/atm.L0**2 *)
Definition inv_L0_sq (L : L0attr) : result R :=
  match L with LNum (Fin x) => rdiv 1 (x ^ 2) | LNum Inf => Ok 0 | LList _ => Err TypeError end.
Definition eps10 : R := / 10 ^ 10.
(** lines 27-34 and 216-223: Watm, null at the centre *)
Definition watm (gam : R -> R) (n : nat) (step : R) (L : L0attr) (i j : nat) : result R :=
  do q <- inv_L0_sq L;
  if ((i =? n / 2) && (j =? n / 2))%nat then Ok 0 else
  do p <- rpow (q + (freq_y n step eps10 i j ^ 2 + freq_x n step eps10 i j ^ 2)) (-11 / 6);
  Ok (kolm_cte gam * p).
(** lines 44 and 231: 2*(1 - np.cos(2*np.pi*zl*(kx*thx + ky*thy))) *)
Definition shear (n : nat) (step zl thx thy : R) (i j : nat) : R :=
  2 * (1 - cos (2 * PI * zl * (freq_y n step eps10 i j * thx + freq_x n step eps10 i j * thy))).
(** np.any of a pair, [zl and (thx or thy)] *)
Definition nz (x : R) : bool := if Req_EM_T x 0 then false else true.

(** ** angular_function, lines 181-238, method "Fourier" *)
(** lines 232-233: Bphi = fft2(fftshift(psd)) * PSDstep**2; fftshift(real(2*(Bphi.max() - Bphi))) *)
Definition sf_of_psd (psd : img) (step : R) : result img :=
  do b <- psd2cov psd step;
  do m <- carr_max b;
  Ok (re_img (fftshift (cmap (fun z => Cmult (RtoC 2) (Cminus m z)) b))).
Definition angular_plane (gam : R -> R) (n : nat) (step : R) (L : L0attr) (msk : nat -> nat -> R) (zl thx thy : R) : result img :=
  if nz zl && (nz thx || nz thy) then
    do g <- grid_res n (fun i j => do w <- watm gam n step L i j; Ok (shear n step zl thx thy i j * w * msk i j));
    sf_of_psd (mkImg n n (grid_at g)) step
  else Ok (mkImg n n (fun _ _ => 0)).
(** the whole function: one plane per source and per layer. [dth]: the differences of
    direction; line 223 needs a centre, so an empty grid is an IndexError. *)
Definition angular_function (gam : R -> R) (n : nat) (D samp airmass : R) (a : atmo) (msk : nat -> nat -> R) (dth : list (R * R)) : result (list (list img)) :=
  do step <- rdiv 1 (D * samp);
  if (n =? 0)%nat then Err IndexError else
  mapM (fun th => mapM (fun h => angular_plane gam n step (a_L0 a) msk (h * airmass) (fst th) (snd th)) (firstn (length (a_w a)) (a_h a))) dth.

(** ** anisoplanatism_wfe, lines 14-48; one source *)
Definition trapz (n : nat) (x f : nat -> R) : R := rsum (n - 1) (fun k => (x (S k) - x k) * (f k + f (S k)) / 2).
Definition anisoplanatism_wfe (gam : R -> R) (res : nat) (D airmass : R) (a : atmo) (thx thy : R) : result R :=
  do step <- rdiv 1 (D * 2);
  let n := (res * 2)%nat in
  if (n =? 0)%nat then Err IndexError else
  do w <- grid_res n (watm gam n step (a_L0 a));
  let psd i j := lsum (map (fun h => if nz (h * airmass) && (nz thx || nz thy) then shear n step (h * airmass) thx thy i j * grid_at w i j else 0) (firstn (length (a_w a)) (a_h a))) in
  let kx j := freq_y n step eps10 0 j in
  do s <- rsqrt (trapz n kx (fun i => trapz n kx (psd i)));
  Ok (s * a_wvl a * 10 ^ 9 / 2 / PI).

(** ** focal_anisoplanatism_wfe, lines 50-71 (coefficients 0.452 and 1/0.423) and
    focal_anisoplanatism_variance, lines 118-136 (0.425 and 1) *)
Definition focal_term (c2 nrm hl : R) (x : R * R) : result R :=
  if Rlt_dec 0 (snd x) then
    do t <- rdiv (snd x) hl; do p <- rpow t (5 / 3);
    Ok (fst x * (5 / 10 * p - c2 * t ^ 2) / nrm)
  else Ok 0.
Definition focal_wfe (c2 nrm : R) (D hl : R) (a : atmo) : result R :=
  do l <- mapM (focal_term c2 nrm hl) (combine (a_w a) (a_h a));
  do d <- rdiv D (a_r0 a); do p <- rpow d (5 / 3);
  do s <- rsqrt (lsum l * p);
  Ok (s * (a_wvl a * 10 ^ 9 / 2 / PI)).
Definition focal_anisoplanatism_wfe (D hl : R) (a : atmo) : result R := focal_wfe (452 / 1000) (423 / 1000) D hl a.
Definition focal_anisoplanatism_variance (D hl : R) (a : atmo) : result R := focal_wfe (425 / 1000) 1 D hl a.

(** ** anisokinetism_wfe, lines 73-116; one source *)
Inductive akMethod := Sasiela | CovMethod | OtherMethod.
Definition sas_c : list R := [267 / 100; -368 / 100; 235 / 100; 304 / 1000; 306 / 1000].
Definition sas_e : list R := [2; 4; 14 / 3; 6; 20 / 3].
Definition sas_m : list R := [3; 5; 17 / 3; 7; 23 / 3].
(** np.sum(cn2*z_l**e)/D**(1/3)*(th/D)**e *)
Definition sas_term (a : atmo) (D r53 th e : R) : result R :=
  do zs <- mapM (fun z => rpow z e) (a_h a);
  do m <- bmul (map (fun w => r53 * w) (a_w a)) zs;
  do d <- rpow D (1 / 3); do q <- rdiv (lsum m) d;
  do t <- rdiv th D; do p <- rpow t e;
  Ok (q * p).
Definition sas_var (a : atmo) (D r53 th : R) (cs : list R) : result R :=
  do l <- mapM (fun ce => do t <- sas_term a D r53 th (snd ce); Ok (fst ce * t)) (combine cs sas_e);
  Ok (lsum l).
Definition anisokinetism_wfe (jn2 j0 j1 : R -> R) (quad : (R -> R) -> R) (gam : R -> R) (ls : list tlayer) (L0 : R) (D : R) (a : atmo) (src ngs : R * R) (m : akMethod) : result R :=
  match m with
  | Sasiela =>
      do r53 <- rpow (a_r0 a) (-5 / 3);
      do vx <- sas_var a D r53 (Rabs (fst src - fst ngs)) (map (fun p => fst p * snd p) (combine sas_c sas_m));
      do vy <- sas_var a D r53 (Rabs (snd src - snd ngs)) sas_c;
      do s <- rsqrt (vx + vy);
      Ok (s * a_wvl a * 10 ^ 9 / 2 / PI)
  | CovMethod =>
      do c <- anisokinetism jn2 j0 j1 quad gam D (a_r0 a) L0 ls src ngs TZ;
      do s <- rsqrt (fst (fst c) + snd (snd c));
      Ok (s * a_wvl a * 10 ^ 9 / 2 / PI)
  | OtherMethod => Err ValueError
  end.

(** ** anisokinetism_function, lines 323-367: one source, one layer above the ground;
    X, Y: the tip and tilt modes on the grid (lines 334-340, halved), [c] the covariance,
    [fr0] = r0_l**(-5/3) *)
Definition tt_kernel (X Y : nat -> nat -> R) (c : tcov) (fr0 : R) (i j : nat) : result R :=
  rdiv (fst (fst c) * X i j ^ 2 + snd (snd c) * Y i j ^ 2 + snd (fst c) * (X i j * Y j i) + fst (snd c) * (Y i j * X j i)) fr0.

(** ** anisoplanatism_structure_function, lines 139-179. The laser guide star is changed
    during the call: the state (zenith, azimuth) is threaded. [ang], [foc], [tt]: the three
    functions, of the laser direction (or natural star for [ang] without laser and [tt]). *)
Record lgsobj := mkLgs { lg_h : list R; lg_zen : list R; lg_az : list R }.
(** [lgs.height == 0] as a condition: ambiguous for two values or more *)
Definition height_is_zero (h : list R) : result bool :=
  match h with [] => Ok false | [x] => Ok (negb (nz x)) | _ => Err ValueError end.
Definition aniso_sf {F : Type} (padd : F -> F -> result F) (zero : F) (ang_ngs tt_ngs : result F) (ang foc : lgsobj -> result F) (l : option lgsobj) : result (F * F * F) * option lgsobj :=
  match l with
  | None => (do d <- ang_ngs; Ok (d, zero, zero), None)
  | Some g =>
      match height_is_zero (lg_h g) with
      | Err e => (Err e, Some g)
      | Ok true => (do d <- ang_ngs; Ok (d, zero, zero), Some g)
      | Ok false =>
          let g0 := mkLgs (lg_h g) [0] [0] in
          match foc g0 with
          | Err e => (Err e, Some g0)
          | Ok f => let g1 := mkLgs (lg_h g0) (lg_zen g) (lg_az g) in
                    (do d <- ang g1; do s <- padd f d; do t <- tt_ngs; Ok (s, d, t), Some g1)
          end
      end
  end.

(** ** frequencyDomain.py:221-266 anisoplanatismPhaseStructureFunction. [call] is the result
    of anisoplanatism_structure_function; [wsum] multiplies by Cn2[newaxis,:,newaxis,newaxis]
    and sums over the layers; [padd] adds two arrays. In SCAO the whole triple
    (array, 0, 0) is multiplied (lines 238-249): NumPy (1.24 and later) refuses to build an
    array from it (ValueError). Result: isAniso and dphi_ani. *)
Inductive anisoMode := AM_SCAO | AM_SLAO | AM_Other.
Definition same_dir (p q : R * R) : bool := andb (if Req_EM_T (fst p) (fst q) then true else false) (if Req_EM_T (snd p) (snd q) then true else false).
(** np.all(np.equal(src.direction, ngs.direction)): (2, nSrc) against (2, nNgs) *)
Definition same_dirs (src ngs : list (R * R)) : result bool :=
  if (length src =? length ngs)%nat then Ok (forallb (fun x => same_dir (fst x) (snd x)) (combine src ngs))
  else match src with
       | [p] => Ok (forallb (same_dir p) ngs)
       | _ => match ngs with
              | [q] => Ok (forallb (fun p => same_dir p q) src)
              | _ => Err ValueError
              end
       end.
Definition aniso_phase_sf {F G : Type} (compute : bool) (mode : anisoMode) (src ngs : list (R * R)) (padd : F -> F -> result F) (wsum : F -> result G) (call : result (F * F * F)) : result (bool * option G) :=
  if negb compute then Ok (false, None) else
  match mode with
  | AM_SCAO => bind (same_dirs src ngs) (fun e : bool => if e then Ok (false, None) else bind call (fun _ => Err ValueError))
  | AM_SLAO => bind call (fun t => bind (padd (fst (fst t)) (snd t)) (fun s => bind (wsum s) (fun g => Ok (true, Some g))))
  | AM_Other => Ok (false, None)
  end.
