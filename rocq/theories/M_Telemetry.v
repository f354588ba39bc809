(** Model of p3/telemetry/telemetryKeck.py:172-470, p3/telemetry/telemetryKASP.py:168-320 and p3/aoSystem/deformableMirror.py:93-160: the data
    read from a telemetry file before any estimation. A time series is its number of samples, of channels, and its values. *)
From Coq Require Import Reals List Arith ZArith Bool String Lra.
From Flocq Require Import Core.Raux.
From Verif Require Import Base_Py Base_Sum M_Image M_Atmo M_Source.
Import ListNotations.
Local Open Scope R_scope.

(** a[t][k]: sample t of the channel k *)
Record series := mkSeries { s_n : nat; s_m : nat; s_at : nat -> nat -> R }.
(** np.mean(a, axis=0); an empty series gives nan, which is not modelled (the number of samples is positive in the theorems) *)
Definition cmean (a : series) (k : nat) : R := rsum (s_n a) (fun t => s_at a t k) / INR (s_n a).
(** a -= np.mean(a, axis=0): telemetryKeck.py:392,394,408; telemetryKASP.py:251,260,278 *)
Definition demean (a : series) : series := mkSeries (s_n a) (s_m a) (fun t k => s_at a t k - cmean a k).
Definition sscale (c : R) (a : series) : series := mkSeries (s_n a) (s_m a) (fun t k => c * s_at a t k).
(** np.std(a, axis=0)**2 *)
Definition cvar (a : series) (k : nat) : R := rsum (s_n a) (fun t => (s_at a t k - cmean a k) * (s_at a t k - cmean a k)) / INR (s_n a).
Definition cstd (a : series) (k : nat) : R := sqrt (cvar a k).

(** telemetryKeck.py:407-408: the residual wavefront in metres *)
Definition keck_residual (volt2meter : R) (a : series) : series := demean (sscale volt2meter a).
(** lines 412-415: the residual error in nm over the channels whose standard deviation is not null *)
Definition keck_wfe (a : series) : R :=
  let u := filter (fun v => if Req_EM_T v 0 then false else true) (map (cstd a) (seq 0 (s_m a))) in
  sqrt (fold_right Rplus 0 (map (fun v => v * v / INR (List.length u)) u)) * 1000000000.
(** lines 417-425 u[:, idG] = values for one sample: the values in order at the true positions; ValueError when the counts differ *)
Fixpoint fill (valid : list bool) (v : list R) : result (list R) :=
  match valid with
  | [] => match v with [] => Ok [] | _ => Err ValueError end
  | false :: r => do s <- fill r v; Ok (0 :: s)
  | true :: r => match v with [] => Err ValueError | x :: v' => do s <- fill r v'; Ok (x :: s) end
  end.
(** line 418: when the map of actuators is all false the data are left as they are *)
Definition fill_actuators (valid : list bool) (v : list R) : result (list R) := if existsb (fun b => b) valid then fill valid v else Ok v.
(** lines 427-434 a[::d] for d > 1 *)
Definition decimate (d : nat) (a : series) : series :=
  if (1 <? d)%nat then mkSeries ((s_n a + d - 1) / d)%nat (s_m a) (fun t k => s_at a (t * d)%nat k) else a.
(** lines 440-444: 1 / (100e-9 * np.mean(np.diff(timestamps))): a single time stamp gives nan, equal first and last ones infinity *)
Definition diffs (ts : list R) : list R := map (fun p => snd p - fst p) (combine ts (tl ts)).
Definition loop_freq (ts : list R) : result R :=
  match diffs ts with
  | [] => Err NonFinite
  | d => do q <- rdiv (fold_right Rplus 0 d) (INR (List.length d)); rdiv 1 (1 / 10000000 * q)
  end.
(** lines 446-453: the controller: gain, numerator, denominator *)
Definition servo (l : list R) : result (R * list R * list R) := do g <- pyindex l 0; Ok (g, pyslice l 0 4, pyslice l 4 (Z.of_nat (List.length l))).
(** lines 373-394: tip-tilt in metres; [laser]: 'b' in trsData *)
Definition tilt2meter (laser : bool) (D : R) : R := if laser then 32 / 10 * (1268 / 100000000) else PI / 3600 / 180 * D.
Definition keck_tiptilt (laser : bool) (D : R) (slopes com : series) : series * series :=
  (demean (sscale ((if laser then 18 / 100 else 1) * tilt2meter laser D) slopes), demean (sscale (tilt2meter laser D) com)).

(** * Image: lines 205-217 (default cam_fov = 150): cropping around the maximum (y0, x0) of the filtered image; int() truncates *)
Definition crop_bounds (c0 : nat) (fov : Z) : Z * Z := (Ztrunc (INR c0 - IZR fov / 2), Ztrunc (INR c0 + IZR fov / 2)).
(** number of rows and columns of the cropped image; fov = 0 is "no cropping" *)
Definition crop_shape (ny nx y0 x0 : nat) (fov : Z) : Z * Z :=
  if (fov =? 0)%Z || negb (fov <? Z.min (Z.of_nat ny) (Z.of_nat nx))%Z then (Z.of_nat ny, Z.of_nat nx)
  else let '(a, b) := crop_bounds y0 fov in let '(c, d) := crop_bounds x0 fov in
       (slice_len (Z.of_nat ny) a b, slice_len (Z.of_nat nx) c d).
(** lines 229-233; saturation None: infinite *)
Definition is_saturated (mx coadds : R) (sat : option R) : bool := match sat with None => false | Some s => if Rlt_dec (s * coadds) mx then true else false end.
(** lines 298-300 [AcqTime2hhmmss] *)
Definition decimal_hours (h m s : R) : R := h + m / 60 + s / 3600.
(** lines 294-296 and 312-314: the median conditions *)
Definition median_weights : list R := [517 / 1000; 119 / 1000; 63 / 1000; 61 / 1000; 105 / 1000; 81 / 1000; 54 / 1000].
(** line 322: the weights of a measured profile *)
Definition profile_weights (cn2 : list R) : result (list R) := do s <- Ok (fold_right Rplus 0 cn2); if Req_EM_T s 0 then Err NonFinite else Ok (map (fun c => c / s) cn2).

(** * Influence functions, deformableMirror.py:93-160. nActu1D is stored as an array of floats (line 43). *)
Inductive pynum := PyInt (z : Z) | PyFloat (x : R).
Definition nActu1D (d : dm) : list pynum := map (fun z => PyFloat (IZR z)) (dm_nAct d).
(** np.linspace(a, b, num): the number of points must be an integer *)
Definition linspace_num (n : pynum) : result nat := match n with PyInt z => if (z <? 0)%Z then Err ValueError else Ok (Z.to_nat z) | PyFloat _ => Err TypeError end.
(** lines 97-128; [modes] as given at the construction. r has 1001 samples and is multiplied by the list of pitches (line 120). Only the
    success or failure of the first lines is modelled: the rest is never reached (theorem). *)
Definition setInfluenceFunction (d : dm) (modes : string) (ndm : Z) : result nat :=
  do nIF <- pyindex (nActu1D d) ndm;
  do _ <- pyindex (dm_coupling d) ndm;
  do _ <- (if ((modes =? "gaussian") || (modes =? "xinetics"))%string then Ok tt else Err UnboundLocalError);
  do _ <- (if ((List.length (dm_pitch d) =? 1) || (List.length (dm_pitch d) =? 1001))%nat then Ok tt else Err ValueError);
  linspace_num nIF.
(** deformableMirror.py:88-90: with a resolution the constructor computes them *)
Definition dm_init_res (nAct : list Z) (pitch h coupling : list R) (optdir : list R * list R) (optw : list R) (modes : string) (resolution : option nat) : result dm :=
  do d <- dm_init nAct pitch h coupling optdir optw;
  match resolution with None => Ok d | Some _ => do _ <- setInfluenceFunction d modes 0; Ok d end.
(** telemetryKeck.py:25-64 and 258-265: the constructor; [instr]: restoringInstrumentData, [rest]: what follows the influence functions *)
Definition telemetryKeck {A} (path_trs : option string) (instr : result A) (nAct : list Z) (pitch h coupling : list R) (modes : string) (rest : A -> result A) : result A :=
  do i <- instr;
  match path_trs with
  | None => Ok i
  | Some _ => do d <- dm_init nAct pitch h coupling ([0], [0]) [1]; do _ <- setInfluenceFunction d modes 0; rest i
  end.

(** * Simulated telemetry, telemetryKASP.py *)
(** lines 249-251 and 270-279: reconstruction with the matrix R (s_m slopes x ncom), mean removed, error in nm; [nCom] is read in the file *)
Definition kasp_residual (R0 : nat -> nat -> R) (ncols : nat) (slopes : series) : series :=
  let sl := demean slopes in
  demean (mkSeries (s_n sl) ncols (fun t k => rsum (s_m sl) (fun j => s_at sl t j * R0 j k))).
Definition kasp_wfe (nCom : nat) (res : series) : R := 1000000000 * sqrt (rsum (s_m res) (fun k => cstd res k * cstd res k) / INR nCom).
(** lines 189-194: Cn2 profile and seeing *)
Definition kasp_cn2 (w : list R) (r0 : R) : list R := map (fun x => x * Rpower r0 (- (5 / 3))) w.
Definition kasp_seeing (wvl r0 : R) : R := 3600 * 180 / PI * (976 / 1000) * wvl / r0.
