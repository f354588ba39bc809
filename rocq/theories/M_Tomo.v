(** Model of the tomographic branch of p3/aoSystem/fourierModel.py: reconstructor,
    optimal projector, noise and spatio-temporal PSD. The nK x nK stacks of matrices are
    given frequency by frequency; matrices are functions of two indices with explicit
    sizes. Simplifications: exact complex numbers (the code casts to complex64);
    np.linalg.solve and np.linalg.pinv are parameters. *)
From Coq Require Import Reals List Arith ZArith Bool.
From Flocq Require Import Core.Raux.
From Verif Require Import Base_Py Base_Sum M_Tools M_Freq M_Atmo M_Sensor M_Model.
From Coquelicot Require Import Complex.
Import ListNotations.
Open Scope R_scope.

Definition mat := nat -> nat -> C.
(** np.matmul (inner size n), conjugate transpose, transpose, + , np.diag *)
Definition mmul (n : nat) (A B : mat) : mat := fun a b => csum n (fun k => Cmult (A a k) (B k b)).
Definition mT (A : mat) : mat := fun a b => A b a.
Definition mH (A : mat) : mat := fun a b => Cconj (A b a).
Definition madd (A B : mat) : mat := fun a b => Cplus (A a b) (B a b).
Definition msub (A B : mat) : mat := fun a b => Cminus (A a b) (B a b).
Definition mscal (r : R) (A : mat) : mat := fun a b => Cmult (RtoC r) (A a b).
Definition mdiag (f : nat -> R) : mat := fun a b => if (a =? b)%nat then RtoC (f a) else RtoC 0.

(** A guide star: direction, sub-aperture size and clock ratio of its sensor. A mirror:
    altitude and cut-off frequency kc_. A turbulent layer: weight, stretched altitude,
    wind speed and direction (degrees). A direction of optimisation: zenith (arcsec),
    azimuth (degrees), weight. *)
Record gstar := mkGS { g_x : R; g_y : R; g_d : R; g_clock : R }.
Record mirror := mkDM { d_h : R; d_kc : R }.
Record tlay := mkTL { tl_w : R; tl_h : R; tl_v : R; tl_dir : R }.
Record odir := mkOD { o_zen : R; o_az : R; o_w : R }.
(** [t_y]: frequency grid, piston filter, mask and atmosphere; [t_mod]: weights and
    stretched altitudes of the modelled atmosphere; [t_noise] = noiseVar; [t_cond] =
    dms.opt_cond; [t_src]: directions of the sources *)
Record tomo := mkTomo {
  t_y : fsys; t_lay : list tlay; t_mod : list (R * R); t_gs : list gstar; t_noise : list R;
  t_dm : list mirror; t_opt : list odir; t_cond : R; t_src : list (R * R); t_rate : R; t_delay : R }.
Definition nGs (t : tomo) : nat := length (t_gs t).
Definition nL (t : tomo) : nat := length (t_lay t).
Definition nLmod (t : tomo) : nat := length (t_mod t).
Definition nDm (t : tomo) : nat := length (t_dm t).
Definition gs_ (t : tomo) (g : nat) : gstar := nth g (t_gs t) (mkGS 0 0 0 0).
Definition dm_ (t : tomo) (j : nat) : mirror := nth j (t_dm t) (mkDM 0 0).
Definition lay_ (t : tomo) (l : nat) : tlay := nth l (t_lay t) (mkTL 0 0 0 0).
Definition mod_ (t : tomo) (l : nat) : R * R := nth l (t_mod t) (0, 0).
Definition kx (t : tomo) (i j : nat) : R := kxAO (t_y t) i j.
Definition ky (t : tomo) (i j : nat) : R := kyAO (t_y t) i j.
Definition kk (t : tomo) (i j : nat) : R := sqrt (k2AO (t_y t) i j).

(** ** tomographicReconstructor, fourierModel.py:475-561 *)
(** lines 494-509: WFS operator, propagator, their product *)
Definition tM (t : tomo) (i j : nat) : mat := fun a b =>
  if (a =? b)%nat then Cmult (imag (2 * PI * kk t i j)) (RtoC (sinc (g_d (gs_ t a) * kx t i j) * sinc (g_d (gs_ t a) * ky t i j))) else RtoC 0.
Definition tP (t : tomo) (i j : nat) : mat := fun g l => cis (2 * PI * snd (mod_ t l) * (kx t i j * g_x (gs_ t g) + ky t i j * g_y (gs_ t g))).
Definition tMP (t : tomo) (i j : nat) : mat := mmul (nGs t) (tM t i j) (tP t i j).
(** lines 511-514: np.ones((nK,nK,nGs,nGs)) * np.diag(noise_var): a diagonal of another
    length is refused, but a single variance is a 1 x 1 matrix, repeated on all entries *)
Definition tCb (t : tomo) : result mat :=
  if (length (t_noise t) =? nGs t)%nat then Ok (mdiag (fun g => nth g (t_noise t) 0))
  else match t_noise t with [v] => Ok (fun _ _ => RtoC v) | _ => Err ValueError end.
(** lines 520-524 *)
Definition kernel (t : tomo) (i j : nat) : result R :=
  let y := t_y t in
  let cte := c1 (y_sp y) * (g116 (y_sp y) ^ 2 / (2 * Rpower PI (11/3))) in
  do p <- rpow (a_r0 (y_atm y)) (- 5 / 3);
  do l0 <- inv_L0_2 (y_atm y);
  do s <- rpow (k2AO y i j + l0) (- 11 / 6);
  Ok (p * cte * s * pistonAO y i j).
(** lines 525-537: kernel.repeat(nL**2).reshape(nK,nK,nL,nL) * np.diag(weights) *)
Definition tCphi (t : tomo) (i j : nat) : result mat := do k <- kernel t i j; Ok (mscal k (mdiag (fun l => tl_w (lay_ t l)))).
Definition tCmod (t : tomo) (i j : nat) : result mat :=
  if (nLmod t =? nL t)%nat then tCphi t i j
  else do k <- kernel t i j; Ok (mscal k (mdiag (fun l => fst (mod_ t l)))).
(** lines 540-542 *)
Definition tRhs (t : tomo) (i j : nat) : result mat := do c <- tCmod t i j; Ok (mmul (nLmod t) c (mH (tMP t i j))).
Definition tInv (t : tomo) (i j : nat) : result mat :=
  do c <- tCmod t i j; do b <- tCb t;
  Ok (madd (mmul (nLmod t) (mmul (nLmod t) (tMP t i j) c) (mH (tMP t i j))) b).
(** lines 545-561. [solve n m A B]: the solution of A X = B at one frequency, or None
    (LinAlgError); NumPy raises for the whole stack if one matrix is singular. [pinv]. *)
Definition all_freq (t : tomo) : list (nat * nat) := list_prod (seq 0 (y_res (t_y t))) (seq 0 (y_res (t_y t))).
Definition tWtomo (solve : nat -> nat -> mat -> mat -> option mat) (pinv : nat -> mat -> mat) (t : tomo) (i j : nat) : result mat :=
  do bad <- mapM (fun p => do a <- tInv t (fst p) (snd p); do r <- tRhs t (fst p) (snd p);
                           Ok (match solve (nGs t) (nLmod t) (mT a) (mT r) with Some _ => false | None => true end)) (all_freq t);
  do a <- tInv t i j; do r <- tRhs t i j;
  if existsb (fun b => b) bad then Ok (mmul (nGs t) r (pinv (nGs t) a))
  else match solve (nGs t) (nLmod t) (mT a) (mT r) with Some x => Ok (mT x) | None => Err ValueError end.

(** ** optimalProjector, lines 563-648 *)
Definition arc : R := 206264.8.
Definition o_x (o : odir) : R := o_zen o / arc * cos (o_az o * PI / 180).
Definition o_y (o : odir) : R := o_zen o / arc * sin (o_az o * PI / 180).
(** lines 600-611 *)
Definition pDm (t : tomo) (thx thy : R) (i j : nat) : nat -> C := fun m =>
  if Rle_dec (kk t i j) (d_kc (dm_ t m)) then cis (2 * PI * d_h (dm_ t m) * (thx * kx t i j + thy * ky t i j)) else RtoC 0.
Definition pL (t : tomo) (thx thy : R) (i j : nat) : nat -> C := fun l => cis (2 * PI * snd (mod_ t l) * (thx * kx t i j + thy * ky t i j)).
Definition oMat1 (t : tomo) (i j : nat) : mat := fun m l =>
  clsum (map (fun o => Cmult (Cmult (Cconj (pDm t (o_x o) (o_y o) i j m)) (pL t (o_x o) (o_y o) i j l)) (RtoC (o_w o))) (t_opt t)).
Definition oInv (t : tomo) (i j : nat) : mat := fun m m' =>
  clsum (map (fun o => Cmult (Cmult (Cconj (pDm t (o_x o) (o_y o) i j m)) (pDm t (o_x o) (o_y o) i j m')) (RtoC (o_w o))) (t_opt t)).
(** lines 626-632: A = to_inv^T to_inv, plus the mean of all the diagonals over opt_cond *)
Definition oA (t : tomo) (i j : nat) : mat := mmul (nDm t) (mT (oInv t i j)) (oInv t i j).
Definition oLambda (t : tomo) : result C :=
  let n := y_res (t_y t) in
  let s := csum n (fun i => csum n (fun j => csum (nDm t) (fun m => oA t i j m m))) in
  do m <- cdivr s (INR (n * n * nDm t)); do c <- rdiv 1 (t_cond t); Ok (Cmult m (RtoC c)).
Definition mI : mat := fun a b => if (a =? b)%nat then RtoC 1 else RtoC 0.
(** lines 617-648. [pinvr rcond]. *)
Definition oMat2 (solve : nat -> nat -> mat -> mat -> option mat) (pinvr : R -> nat -> mat -> mat) (t : tomo) (i j : nat) : result mat :=
  do rc <- rdiv 1 (t_cond t);
  if (length (t_opt t) =? 1)%nat then Ok (pinvr rc (nDm t) (oInv t i j))
  else do lam <- oLambda t;
       let sys p := madd (oA t (fst p) (snd p)) (fun a b => Cmult lam (mI a b)) in
       let bad := map (fun p => match solve (nDm t) (nDm t) (sys p) (mT (oInv t (fst p) (snd p))) with Some _ => false | None => true end) (all_freq t) in
       if existsb (fun b => b) bad then Ok (pinvr rc (nDm t) (oInv t i j))
       else match solve (nDm t) (nDm t) (sys (i, j)) (mT (oInv t i j)) with Some x => Ok x | None => Err ValueError end.
Definition oPopt solve pinvr (t : tomo) (i j : nat) : result mat := do m2 <- oMat2 solve pinvr t i j; Ok (mmul (nDm t) m2 (oMat1 t i j)).

(** ** spatialReconstructor, lines 369-421. The reconstructor W = Popt Wtomo is a
    parameter of the PSDs: mirrors x guide stars. *)
Definition tW solve pinv pinvr (t : tomo) (i j : nat) : result mat := do w <- tWtomo solve pinv t i j; do p <- oPopt solve pinvr t i j; Ok (mmul (nLmod t) p w).
(** lines 392-399 *)
Definition PbetaDM (t : tomo) (s i j : nat) : mat := fun _ m => let b := nth s (t_src t) (0, 0) in pDm t (fst b) (snd b) i j m.
(** lines 402-417 *)
Definition wdx (l : tlay) : R := cos (tl_dir l * PI / 180).
Definition wdy (l : tlay) : R := sin (tl_dir l * PI / 180).
Definition MPalphaL (t : tomo) (i j : nat) : result mat :=
  do st <- rdiv 1 (t_rate t);
  Ok (fun g h => let l := lay_ t h in let s := gs_ t g in
    let ft := wdx l * kx t i j + wdy l * ky t i j in
    Cmult (Cmult (imag (2 * PI * kk t i j)) (RtoC (sinc (st * g_clock s * tl_v l * ft) * sinc (g_d s * kx t i j) * sinc (g_d s * ky t i j))))
          (cis (2 * PI * tl_h l * (g_x s * kx t i j + g_y s * ky t i j)))).

(** ** noisePSD, lines 1059-1090, two guide stars or more. [None]: a 2-D array of zeros,
    that the caller cannot store (see [store_noise]). *)
Definition noise_gain (t : tomo) : R := Rmin 0.8 (0.4 + 0.1333 * t_delay t) ^ 2.
Definition tomoNoisePSD (W : mat) (t : tomo) (s i j : nat) : result (option R) :=
  do m <- mean (t_noise t);
  do v0 <- pyindex (t_noise t) 0;
  if Rlt_dec 0 v0 then
    do cb <- tCb t;
    let PW := mmul (nDm t) (PbetaDM t s i j) W in
    let tmp := mmul (nGs t) PW (mmul (nGs t) cb (mH PW)) in
    Ok (Some (maskAO (t_y t) i j * Re (tmp 0%nat 0%nat) * pistonAO (t_y t) i j * noise_gain t))
  else Ok None.
(** line 796: psd[id1:id2,id1:id2,:] = psdNoise: an array of shape (res, res) can be
    assigned to one of shape (res, res, nSrc) only if its last axis has nSrc (or 1)
    elements *)
Definition store_noise (t : tomo) (W : nat -> nat -> mat) : result unit :=
  do p <- tomoNoisePSD (W 0%nat 0%nat) t 0 0 0;
  match p with
  | Some _ => Ok tt
  | None => if ((y_res (t_y t) =? length (t_src t)) || (y_res (t_y t) =? 1))%nat then Ok tt else Err ValueError
  end.

(** ** spatioTemporalPSD, lines 1176-1230, two guide stars or more. [hasR]: the attribute
    Rx exists (line 1192 reads it); [hasWphi] is always set. *)
Definition PbetaL (t : tomo) (s i j : nat) : result mat :=
  do dT <- rdiv (t_delay t) (t_rate t);
  let b := nth s (t_src t) (0, 0) in
  Ok (fun _ h => let l := lay_ t h in
    cis (2 * PI * (tl_h l * (fst b * kx t i j + snd b * ky t i j) - dT * tl_v l * (wdx l * kx t i j + wdy l * ky t i j)))).
Definition tomoSTPSD (hasR : bool) (W : mat) (t : tomo) (s i j : nat) : result R :=
  if negb hasR then Err AttributeError else
  do pl <- PbetaL t s i j; do ma <- MPalphaL t i j; do c <- tCphi t i j;
  let Walpha := mmul (nGs t) W ma in
  let proj := msub pl (mmul (nDm t) (PbetaDM t s i j) Walpha) in
  let tmp := mmul (nL t) proj (mmul (nL t) c (mH proj)) in
  Ok (maskAO (t_y t) i j * Re (tmp 0%nat 0%nat) * pistonAO (t_y t) i j).
