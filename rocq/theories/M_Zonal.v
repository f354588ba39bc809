(** Model of p3/psfr/psfrUtils.py, zonal part: pointWiseLocation, mkotf_indpts, mkotf, zonalCovarianceToOtf, compute_psd_from_slopes, getOLslopes.
    Floats are exact reals. [dtype=np.object] (lines 85-86) is taken as [object] (it is an AttributeError from NumPy 1.24 on). *)
From Coq Require Import Reals List Arith ZArith Bool.
From Flocq Require Import Core.
From Verif Require Import Base_Py Base_Sum Base_DFT M_Image M_Fourier M_Tools M_Atmo M_Psf M_Psfr.
From Coquelicot Require Import Complex.
Import ListNotations.
Open Scope R_scope.

(** psfrUtils.py:191-200 [pointWiseLocation(D,dp,idxValid)]: xloc = arange(-D/2,D/2+dp,dp) has [npts] values; meshgrid gives actuLocX[i,j] = xloc[i] and
    actuLocY[i,j] = xloc[j]; a Boolean index keeps the valid ones in row-major order. Without a mask the arrays stay two-dimensional: here they are
    flattened, and [zonal_index] below accounts for the missing dimension. *)
Definition npts (D dp : R) : nat := Z.to_nat (Zceil (D / dp + 1)).
Definition xloc (D dp : R) (k : nat) : R := - D / 2 + INR k * dp.
Definition valid_flat (m : nat) (mask : nat -> nat -> bool) : list nat := filter (fun k => mask (k / m)%nat (k mod m)%nat) (seq 0 (m * m)).
Definition pointWiseLocation (D dp : R) (mask : option (nat -> nat -> bool)) : list (R * R) :=
  let m := npts D dp in
  map (fun k => (xloc D dp (k / m), xloc D dp (k mod m))) (valid_flat m (match mask with Some f => f | None => fun _ _ => true end)).

(** psfrUtils.py:69-83 [mkotf_indpts], the positions in the 3x bigger array (1-based) *)
Definition lmin (x : R) (l : list R) : R := fold_left Rmin l x.
Definition n1_of (nPh : Z) : Z := (Z.quot (2 * nPh - (2 * nPh) mod 2) 2 + 1 + nPh mod 2)%Z.
Definition embed (nPh : Z) (dp : R) (loc : list (R * R)) : result (list (Z * Z)) :=
  match loc with
  | [] => Err ValueError
  | p :: r =>
      let mx := lmin (fst p / dp) (map (fun q => fst q / dp) r) in
      let my := lmin (snd p / dp) (map (fun q => snd q / dp) r) in
      let off := IZR (n1_of nPh - 1) in
      Ok (map (fun q => (ZnearestE (fst q / dp - (mx - off) + 1), ZnearestE (snd q / dp - (my - off) + 1))) loc)
  end.
(** lines 79-82 and 95-96: flat index, refused by unravel_index outside the nc x nc array *)
Definition flat (nc : Z) (p : Z * Z) : Z := (fst p + (snd p - 1) * nc - 1)%Z.
Definition flats (nc : Z) (l : list (Z * Z)) : result (list Z) :=
  if forallb (fun p => (0 <=? flat nc p)%Z && (flat nc p <? nc * nc)%Z)%bool l then Ok (map (flat nc) l) else Err ValueError.
(** mask[idx].nonzero() for the mask with ones at [on]: the positions k of [idx] *)
Definition hits (on idx : list Z) : list nat :=
  filter (fun k => existsb (Z.eqb (nth k idx 0%Z)) on) (seq 0 (length idx)).
(** lines 88-104: the two lists of indices for the shift (u_x, u_y), in pitches *)
Definition indpts (nPh : Z) (loc2 : list (Z * Z)) (ux uy : Z) : result (list nat * list nat) :=
  let nc := (3 * nPh)%Z in
  do emb <- flats nc loc2;
  do sh <- flats nc (map (fun p => (fst p + ux, snd p + uy)%Z) loc2);
  Ok (hits emb sh, hits sh emb).

(** psfrUtils.py:44-67 [mkotf], one value, real amplitudes; [idx] sends a position of the list to the index used in the matrix (the identity for
    one-dimensional lists; indpts[0], the row only, for two-dimensional ones). Lists of different lengths are refused (Simplification: including the
    broadcast of a single element). *)
Definition mkotf_val (idx : nat -> nat) (C : img) (ampl : list R) (dp : R) (ij : list nat * list nat) : result R :=
  let i1 := map idx (fst ij) in let i2 := map idx (snd ij) in
  do kernel <-
    match i1 with
    | [] => Ok 0
    | _ =>
      if negb (length i1 =? length i2)%nat then Err ValueError
      else if negb (forallb (fun k => (k <? rows C)%nat && (k <? cols C)%nat && (k <? length ampl)%nat) (i1 ++ i2))%bool then Err IndexError
      else Ok (lsum (map (fun p => exp (px C (snd p) (snd p)) * exp (px C (fst p) (fst p)) * exp (- 2 * px C (fst p) (snd p))
                                   * (nth (snd p) ampl 0 * nth (fst p) ampl 0)) (combine i1 i2)))
    end;
  rdiv (kernel * dp ^ 2) (lsum (map (fun a => Rabs a ^ 2) ampl) * dp ^ 2).

(** psfrUtils.py:202-220 [zonalCovarianceToOtf]. D/dp > 0. Shifts: arange(-nPh,nPh,1)*dp, rounded in pitches at line 92. otf[r,c] has the shift of
    line 91 with iu = c, ju = r. *)
Definition mapM_seq {A} (f : nat -> result A) (n : nat) : result (list A) := mapM f (seq 0 n).
Definition zonal_grid (Cphi : img) (D dp : R) (mask : option (nat -> nat -> bool)) : result img :=
  let m := npts D dp in
  let loc := pointWiseLocation D dp mask in
  let nPh := ZnearestE (D / dp + 1) in
  let nU := Z.to_nat (2 * nPh) in
  do loc2 <- embed nPh dp loc;
  let ampl := repeat 1 (match mask with Some _ => length loc | None => rows Cphi end) in
  let idx := match mask with Some _ => fun k => k | None => fun k => (k / m)%nat end in
  let C := img_map (fun x => - (1 / 2) * x) Cphi in
  do vals <- mapM_seq (fun r => mapM_seq (fun c =>
      do ij <- indpts nPh loc2 (Z.of_nat c - nPh) (Z.of_nat r - nPh); mkotf_val idx C ampl dp ij) nU) nU;
  Ok (mkImg nU nU (fun r c => nth c (nth r vals []) 0)).
Definition zonalCovarianceToOtf (interp : img -> nat -> img) (Cphi : img) (npsf : nat) (D dp : R) (mask : option (nat -> nat -> bool)) : result img :=
  do g <- zonal_grid Cphi D dp mask;
  let o := interpolateTo interp g npsf in
  do omax <- img_max o;
  if Req_EM_T omax 0 then Err NonFinite else Ok (img_map (fun x => x / omax) o).

(** psfrUtils.py:24-40 [compute_psd_from_slopes]: [modes] (n_px^2 rows, one column per actuator), [res] one list of commands per frame. No frame: mean of
    nothing (nan). The cube (n,n,n_frames) is enlarged along its two first axes. *)
Definition frame_phase (wvl : R) (modes : img) (n : nat) (f : list R) : img :=
  mkImg n n (fun i j => 2 * PI / wvl * rsum (cols modes) (fun l => px modes (i * n + j) l * nth l f 0)).
Definition power2 (n m : nat) (a : nat -> nat -> R) (k l : nat) : R := Cmod (dft2 n m (fun i j => RtoC (a i j)) k l) ^ 2.
Definition compute_psd_from_slopes (wvl : R) (modes : img) (res : list (list R)) : result img :=
  let n := Nat.sqrt (rows modes) in
  if Req_EM_T wvl 0 then Err ZeroDivisionError
  else if negb (forallb (fun f => length f =? cols modes)%nat res) then Err ValueError
  else if negb (rows modes =? n * n)%nat then Err ValueError
  else do ph <- mapM (fun f => enlargeSupport (frame_phase wvl modes n f) 2 1) res;
  match ph with
  | [] => Err NonFinite
  | p :: _ =>
      let N := rows p in
      Ok (mkImg N N (fun i j => lsum (map (fun q => power2 N N (px q) (shift_ix N i) (shift_ix N j)) ph) / INR (length ph)))
  end.

(** psfrUtils.py:42-43 [getOLslopes(s,u,MI,dt)] for scalar MI and one-dimensional u: np.roll(u,(-2,2)) without axis is, for a tuple of shifts, an
    error; see numpy.roll: axis None flattens and broadcasts the shifts, rolling by each in turn, so (-2,2) is a roll by 0 and (-1,2) a roll by 1. *)
Definition roll {A} (l : list A) (k : Z) (d : A) : list A :=
  let n := length l in
  map (fun i => nth (Z.to_nat ((Z.of_nat i - k) mod Z.of_nat n)) l d) (seq 0 n).
Definition roll2 {A} (l : list A) (k1 k2 : Z) (d : A) : list A := roll (roll l k1 d) k2 d.
Definition getOLslopes (s u : list R) (MI dt : R) : result (list R) :=
  if negb (length s =? length u)%nat then Err ValueError
  else Ok (map (fun x => fst x + MI * (dt * fst (snd x) + (1 - dt) * snd (snd x))) (combine s (combine (roll2 u (-2) 2 0) (roll2 u (-1) 2 0)))).
