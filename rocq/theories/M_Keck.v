(** Model of p3/telemetry/keckUtils.py: what is read from the header of a Keck image.
    The header is a function from keys to values already converted by float()/int()/upper(); a missing key is a KeyError.
    Floats are exact reals; plotting is not modelled. *)
From Coq Require Import Reals List Arith ZArith Bool String Ascii.
From Verif Require Import Base_Py M_Tools M_Cone.
Import ListNotations.
Open Scope R_scope.

Record header := mkHeader { h_num : string -> option R; h_int : string -> option Z; h_str : string -> option string }.
Definition key {A} (f : string -> option A) (k : string) : result A := match f k with Some a => Ok a | None => Err KeyError end.

(** str.upper() on ASCII letters *)
Definition up_ascii (c : ascii) : ascii :=
  let n := nat_of_ascii c in if ((97 <=? n)%nat && (n <=? 122)%nat)%bool then ascii_of_nat (n - 32) else c.
Fixpoint upper (s : string) : string := match s with EmptyString => EmptyString | String c r => String (up_ascii c) (upper r) end.

(** keckUtils.py:273-288 [getStagePositionWFS(hdr)]: (defocus, laser?) *)
Definition getStagePositionWFS (h : header) : result (R * bool) :=
  do obwf <- key (h_num h) "OBWF";
  do ls <- key (h_str h) "LSPROP";
  if String.eqb (upper ls) "YES" then do f <- key (h_num h) "AOFCLGFO"; Ok (Rabs (obwf - f * 1000), true)
  else do f <- key (h_num h) "AOFCNGFO"; Ok (Rabs (obwf - f * 1000), false).

(** keckUtils.py:23-38: the eight tests of the program of the wavefront computer; t0 stays unbound otherwise. *)
Definition t0_of (w : Z) : option R :=
  match w with
  | 0%Z => Some (8000 / 10 ^ 6) | 1%Z => Some (2600 / 10 ^ 6) | 2%Z => Some (850 / 10 ^ 6) | 3%Z => Some (700 / 10 ^ 6)
  | 4%Z => Some (28000 / 10 ^ 6) | 5%Z => Some (9500 / 10 ^ 6) | 6%Z => Some (2000 / 10 ^ 6) | 7%Z => Some (1350 / 10 ^ 6)
  | _ => None
  end.
(** keckUtils.py:15-52 [estimateLoopDelay(hdr)]: delays of the high-order and of the tip-tilt loop *)
Definition estimateLoopDelay (h : header) : result (R * R) :=
  do w <- key (h_int h) "WSSMPRG";
  do p <- getStagePositionWFS h;
  match t0_of w with
  | None => Err UnboundLocalError
  | Some t0 =>
      let delay := t0 + 40 / 10 ^ 6 in
      if snd p then Ok (delay, 1 / 10 ^ 3) else Ok (delay, t0 + 1 / 10 ^ 6 + 2 / 10 ^ 6 + 200 / 10 ^ 6)
  end.

(** keckUtils.py:54-69 [getScale(hdr)] in mas; [None] for another instrument *)
Definition getScale (h : header) : result (option R) :=
  do inst <- key (h_str h) "CURRINST";
  if String.eqb inst "NIRC2" then
    do cam <- key (h_str h) "CAMNAME";
    (if String.eqb (upper cam) "NARROW" then Ok (Some (9942 / 1000))
     else if String.eqb (upper cam) "MEDIUM" then Ok (Some (19829 / 1000))
     else if String.eqb (upper cam) "WIDE" then Ok (Some (39686 / 1000)) else Err KeyError)
  else if String.eqb inst "OSIRIS" then Ok (Some (995 / 100)) else Ok None.

(** keckUtils.py:85-95 [getInstAngle(hdr)] and 71-74 [getPA(hdr)] *)
Definition getInstAngle (h : header) : result R :=
  do inst <- key (h_str h) "CURRINST";
  if String.eqb inst "NIRC2" then key (h_num h) "INSTANGL"
  else if String.eqb inst "OSIRIS" then do a <- key (h_num h) "INSTANGL"; Ok (a - 425 / 10) else Ok 0.
Definition getPA (h : header) : result R :=
  do r <- key (h_num h) "ROTPOSN"; do a <- getInstAngle h; Ok (r - a).

(** keckUtils.py:79-83 [getTelescopeAirmass(hdr)]: (zenith angle in degrees, airmass) *)
Definition getTelescopeAirmass (h : header) : result (R * R) :=
  do el <- key (h_num h) "EL";
  let z := 90 - el in
  if Req_EM_T (cos (z * PI / 180)) 0 then Err NonFinite else Ok (z, 1 / cos (z * PI / 180)).

(** keckUtils.py:201-214 [getExposureConfig(hdr)]: the read-out noise; x**0.5 of a negative number is not real *)
Definition readout_noise (sampmode : Z) (numreads : R) : result R :=
  if (sampmode =? 2)%Z then Ok 60
  else if Req_EM_T numreads 0 then Err NonFinite else if Rlt_dec numreads 0 then Err NonFinite else Ok (15 * sqrt (16 / numreads)).

(** keckUtils.py:262-271 [getSaturationLevel(instName)]; [None] is infinity *)
Definition getSaturationLevel (inst : string) : option R :=
  if String.eqb inst "NIRC2" then Some 12000 else if String.eqb inst "OSIRIS" then Some 20000 else None.

(** keckUtils.py:170-199 [getNCPAstr(hdr)] for a date yyyy-mm-dd *)
Definition ncpa_name (date : string) : string :=
  let mm := String.substring 5 2 date in
  let yy := String.substring 0 4 date in
  ("NCPA_Keck_" ++
   (if String.eqb mm "03" then String.substring 8 2 date ++ "March" ++ yy ++ "_PD1"
    else (if String.eqb mm "02" then "Feb" else if String.eqb mm "08" then "Aug" else if String.eqb mm "09" then "Sept" else EmptyString) ++ "_" ++ yy)
   ++ ".fits")%string.

(** keckUtils.py:153-165 [getFilterProfile], the correction of the table (wavelength in microns, transmission in percent): after each step that does
    not increase (differences of the ORIGINAL wavelengths), the next wavelength gets 1e-7 more; then only transmissions above one percent are kept. *)
Fixpoint fix_from (prev : R) (l : list R) : list R :=
  match l with [] => [] | x :: r => (if Rle_dec (x - prev) 0 then x + 1 / 10 ^ 7 else x) :: fix_from x r end.
Definition fix_wavelengths (l : list R) : list R := match l with [] => [] | x :: r => x :: fix_from x r end.
Definition filter_profile (t : list (R * R)) : list (R * R) :=
  let w := fix_wavelengths (map fst t) in
  map (fun p => (fst p * (1 / 10 ^ 6), snd p / 100)) (filter (fun p => if Rlt_dec 1 (snd p) then true else false) (combine w (map snd t))).

(** np.polyfit(x, y, 1) with at least two different abscissae: the least-squares line (slope, intercept). Otherwise NumPy returns a minimum-norm
    solution with a warning: not modelled (NonFinite). *)
Definition lsum2 (f : R * R -> R) (l : list (R * R)) : R := lsum (map f l).
Definition polyfit1 (l : list (R * R)) : result (R * R) :=
  let n := INR (List.length l) in
  let sx := lsum2 fst l in let sy := lsum2 snd l in
  let sxx := lsum2 (fun p => fst p * fst p) l in let sxy := lsum2 (fun p => fst p * snd p) l in
  let det := n * sxx - sx * sx in
  if Req_EM_T det 0 then Err NonFinite
  else let a := (n * sxy - sx * sy) / det in Ok (a, (sy - a * sx) / n).
Definition polyval1 (p : R * R) (x : R) : R := fst p * x + snd p.

(** keckUtils.py:216-260 [samplingFilterProfile]: from the profile (wavelengths in metres, transmission), the number of bins, the threshold, the narrowest
    band and the central wavelength of the header: (wavelengths, bandwidth, transmissions, the two lists of dispersion). *)
Definition samplingFilterProfile (prof : list (R * R)) (nWvl : nat) (thr bwMin cen : R) : result (list R * R * list R * (list R * list R)) :=
  match map snd prof with
  | [] => Err ValueError
  | x :: r =>
      let top := fold_left Rmax r x in
      let sel := filter (fun p => if Rlt_dec (thr * top) (snd p) then true else false) prof in
      do p <- polyfit1 sel;
      match map fst sel with
      | [] => Err ValueError
      | w :: ws =>
          let lo := fold_left Rmin ws w in let hi := fold_left Rmax ws w in
          let n := if Rle_dec (hi - lo) bwMin then 1%nat else nWvl in
          let wc := if (1 <? n)%nat then linspace lo hi n else [cen] in
          let bw := if (1 <? n)%nat then hi - lo else 0 in
          Ok (wc, bw, map (polyval1 p) wc, (repeat 0 n, repeat 0 n))
      end
  end.
