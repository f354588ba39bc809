(** Model of the PSF metrics of p3/aoSystem/FourierUtils.py:1044-1700:
    radial profile, encircled energy, full width at half maximum, Strehl.
    Simplification: pixel values and radii are exact reals (no NaN, so
    [nan_to_num] is the identity). *)
From Coq Require Import Reals List Arith ZArith Bool.
From Flocq Require Import Core.
From Verif Require Import Base_Py Base_Sum M_Image M_Tools.
Import ListNotations.
Open Scope R_scope.

(** * radial_profile *)

(** FourierUtils.py:1140-1144: the radius of pixel (row i, column j) for the
    centre (cx,cy), in units of the bin size. *)
Definition rp_radius (cx cy ps bs : R) (i j : nat) : R :=
  sqrt ((INR j - cx) * (INR j - cx) + (INR i - cy) * (INR i - cy)) * ps / bs.

(** Row-major list of f(i,j) ([a.flat] of an array of the given shape). *)
Definition flat2 {A} (r c : nat) (f : nat -> nat -> A) : list A :=
  flat_map (fun i => map (fun j => f i j) (seq 0 c)) (seq 0 r).

(** FourierUtils.py:1115-1118: default centre of an image of r rows and c
    columns, as (x,y). *)
Definition rp_center (r c : nat) (center : option (R * R)) : R * R :=
  match center with
  | Some p => p
  | None => ((INR c - 1) / 2, (INR r - 1) / 2)
  end.

(** FourierUtils.py:1147-1158: the (radius, value) samples in flat order: the
    whole image, or only the pixels whose position angle is in [pa_range].
    [pa_of x y] stands for rad2deg(arctan2(-x,y)). *)
Definition rp_samples (pa_of : R -> R -> R) (a : img) (cx cy ps bs : R)
    (pa_range : option (R * R)) : list (R * R) :=
  let all := flat2 (rows a) (cols a) (fun i j => (i, j)) in
  let sel := match pa_range with
             | None => all
             | Some (lo, hi) =>
               filter (fun p => let pa := pa_of (INR (snd p) - cx) (INR (fst p) - cy) in
                                if Rle_dec lo pa then if Rle_dec pa hi then true else false
                                else false) all
             end in
  map (fun p => (rp_radius cx cy ps bs (fst p) (snd p), px a (fst p) (snd p))) sel.

(** FourierUtils.py:1148-1150: [ind=argsort(r); r.flat[ind], image.flat[ind]].
    [argsort] is NumPy's (the default quicksort: not stable), a parameter. *)
Definition rp_sorted (argsort : list R -> list nat) (s : list (R * R)) : list (R * R) :=
  map (fun k => nth k s (0, 0)) (argsort (map fst s)).

(** FourierUtils.py:1161: [np.round(sr).astype(int)]: round half to even. *)
Definition rp_bin (r : R) : Z := ZnearestE r.

(** FourierUtils.py:1162-1163: positions k with ri[k+1] <> ri[k]. *)
Definition rp_rind (ri : list Z) : list nat :=
  filter (fun k => negb (Z.eqb (nth (S k) ri 0%Z) (nth k ri 0%Z)))
         (seq 0 (length ri - 1)).

(** FourierUtils.py:1165: [cumsum], element k. *)
Definition rp_csim (sim : list R) (k : nat) : R := lsum (firstn (S k) sim).

(** FourierUtils.py:1164-1169: (csim[b]-csim[a])/(b-a) over consecutive
    elements a,b of rind. *)
Fixpoint rp_steps (sim : list R) (l : list nat) : list R :=
  match l with
  | a :: ((b :: _) as t) =>
      (rp_csim sim b - rp_csim sim a) / (INR b - INR a) :: rp_steps sim t
  | _ => []
  end.

(** FourierUtils.py:1172-1178. An image with a single ring has an empty
    [rind]: IndexError. *)
Definition rp_profile (sim : list R) (rind : list nat) : result (list R) :=
  match rind with
  | [] => Err IndexError
  | k0 :: _ =>
      Ok ((if Nat.eqb k0 0 then rp_csim sim 0 else rp_csim sim k0 / INR (k0 + 1))
          :: rp_steps sim rind)
  end.

(** What [radial_profile] returns: radii, profile, and the encircled energy
    (computed when ee=True; nargout=1 returns the profile alone). *)
Record rprof := mkRprof { rp_rr : list R; rp_prof : list R; rp_ee : list R }.

Inductive rnorm := NormNone | NormPeak | NormTotal.

(** FourierUtils.py:1103-1111: the normalisation is done IN PLACE: the result
    is also the caller's array after the call. *)
Definition rp_normalize (n : rnorm) (a : img) : result img :=
  match n with
  | NormNone => Ok a
  | NormPeak => do m <- img_max a; img_div a m
  | NormTotal => img_div a (img_sum a)
  end.

(** FourierUtils.py:1053-1218 [radial_profile] with supersamp=None,
    stddev=False. Returns the caller's image after the call and the result.
    Simplifications: [arange(r0, r0+n)] has exactly n elements (true in exact
    arithmetic); ee/max(ee) for a zero maximum is NonFinite; a zero bin size
    is NonFinite. The crop by [maxradius] applies to the radii and the profile
    but not to the encircled energy (lines 1181-1184 against 1216-1218). *)
Definition radial_profile (argsort : list R -> list nat) (pa_of : R -> R -> R)
    (a : img) (ps : R) (center : option (R * R)) (binsize maxradius : option R)
    (norm : rnorm) (pa_range : option (R * R)) : result (img * rprof) :=
  do im <- rp_normalize norm a;
  let bs := match binsize with Some b => b | None => ps end in
  let '(cx, cy) := rp_center (rows im) (cols im) center in
  if Req_EM_T bs 0 then Err NonFinite else
  let s := rp_sorted argsort (rp_samples pa_of im cx cy ps bs pa_range) in
  let sim := map snd s in
  let rind := rp_rind (map (fun p => rp_bin (fst p)) s) in
  do prof <- rp_profile sim rind;
  do rmin <- list_min (flat2 (rows im) (cols im) (rp_radius cx cy ps bs));
  let rr := map (fun m => (rmin + INR m) * bs) (seq 0 (length prof)) in
  let keep := match maxradius with
              | None => combine rr prof
              | Some rm => filter (fun p => if Rlt_dec (fst p) rm then true else false)
                                  (combine rr prof)
              end in
  let e := map (rp_csim sim) rind in
  do mx <- list_max e;
  if Req_EM_T mx 0 then Err NonFinite else
  Ok (im, mkRprof (map fst keep) (map snd keep) (map (fun v => v / mx) e)).

(** FourierUtils.py:1044-1050 [getEncircledEnergy(psf,pixelscale,center)]:
    (ee, rr). *)
Definition getEncircledEnergy (argsort : list R -> list nat) (pa_of : R -> R -> R)
    (a : img) (ps : R) (center : option (R * R)) : result (list R * list R) :=
  do o <- radial_profile argsort pa_of a ps center None None NormNone None;
  Ok (rp_ee (snd o), rp_rr (snd o)).

(** FourierUtils.py:1187-1198: the [stddev=True] branch, one value per radius
    of the (uncropped) profile. The first bin compares the radius in BINS with
    a radius in physical units (r < radius+binsize/2), the others compare
    r*binsize. [nanstd] of an empty selection is NonFinite. *)
Definition lmean (l : list R) : R := lsum l / INR (length l).
Definition nanstd (l : list R) : result R :=
  if Nat.eqb (length l) 0 then Err NonFinite
  else Ok (sqrt (lmean (map (fun v => (v - lmean l) * (v - lmean l)) l))).
Definition rp_std_bin (s : list (R * R)) (bs : R) (i : nat) (radius : R) : result R :=
  nanstd (map snd (filter (fun p =>
    if Nat.eqb i 0 then
      if Rlt_dec (fst p) (radius + bs / 2) then true else false
    else
      if Rle_dec (radius - bs / 2) (fst p * bs) then
        if Rlt_dec (fst p * bs) (radius + bs / 2) then true else false
      else false) s)).

(** FourierUtils.py:1053-1198 [radial_profile(..., stddev=True)], no wedge,
    no normalisation: the radii and the standard deviations. *)
Definition radial_stddev (argsort : list R -> list nat) (a : img) (ps : R)
    (center : option (R * R)) (binsize : option R) : result (list R * list R) :=
  let bs := match binsize with Some b => b | None => ps end in
  let '(cx, cy) := rp_center (rows a) (cols a) center in
  if Req_EM_T bs 0 then Err NonFinite else
  let s0 := rp_samples (fun _ _ => 0) a cx cy ps bs None in
  let s := rp_sorted argsort s0 in
  do prof <- rp_profile (map snd s) (rp_rind (map (fun p => rp_bin (fst p)) s));
  do rmin <- list_min (flat2 (rows a) (cols a) (rp_radius cx cy ps bs));
  let rr := map (fun m => (rmin + INR m) * bs) (seq 0 (length prof)) in
  do sd <- mapM (fun m => rp_std_bin s0 bs m ((rmin + INR m) * bs)) (seq 0 (length prof));
  Ok (rr, sd).
