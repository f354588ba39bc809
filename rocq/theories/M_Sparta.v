(** Model of the readers of p3/telemetry/sphereUtils.py: SPARTA parameters of an observation, photon flux and frame rate during
    the exposure, detector, pointing and temperatures. FITS files, headers and tables are given by their content; dates are
    numbers of seconds; nan is None. Columns without nan (pandas skips them). *)
From Coq Require Import Reals List Arith ZArith Bool String Ascii.
From Verif Require Import Base_Py M_Image M_Freq M_Atmo.
Import ListNotations.
Open Scope R_scope.

(** sphereUtils.py:649-656 [find_closest]: three searches of the nearest date (the first one when several) *)
Definition nearest (ts : list R) (t : R) : result nat := argmin (map (fun u => Rabs (u - t)) ts).
Definition find_closest (ts : list R) (date texp : R) : result (nat * nat) :=
  do k <- nearest ts date;
  do tc <- pyindex ts (Z.of_nat k);
  do a <- nearest ts (tc - texp / 2);
  do b <- nearest ts (tc + texp / 2);
  Ok (a, b).
(** [df_flux[id_min:id_max+1].median()] *)
Definition window {A} (l : list A) (ab : nat * nat) : list A := pyslice l (Z.of_nat (fst ab)) (Z.of_nat (snd ab) + 1).
Definition series_median (l : list R) : option R := match median l with Ok v => Some v | Err _ => None end.
(** the columns of a sparta_visible_WFS table *)
Record table := mkTable { t_date : list R; t_flux : option (list R); t_rate : option (list R) }.
(** what is found for the night: nothing asked or no folder; a folder without table; a table *)
Inductive night := NoFolder | NoTable | ATable (t : table).
(** lines 658-680: photons per sub-aperture and frame, frame rate; id_min and id_max exist only when the flux column does *)
Definition read_night (nt : night) (date texp n_subap : R) : result (option R * option R) :=
  match nt with
  | NoFolder | NoTable => Ok (None, None)
  | ATable t =>
      do f <- match t_flux t with
              | None => Ok (None, None)
              | Some fl => do ab <- find_closest (t_date t) date texp;
                           do v <- match series_median (window fl ab) with None => Ok None | Some m => do q <- rdiv m n_subap; Ok (Some q) end;
                           Ok (v, Some ab)
              end;
      match t_rate t with
      | None => Ok (fst f, None)
      | Some rt => match snd f with None => Err UnboundLocalError | Some ab => Ok (fst f, series_median (window rt ab)) end
      end
  end.
(** lines 618-681: the SPARTA file is an array [4, nPSF+1, 3]; which = 'last' keeps its last row, anything else the whole planes.
    Without the file the four first values of the result do not exist. *)
Inductive stat := Row (r : list R) | Plane (p : list (list R)).
Definition sparta_plane (sp : list (list (list R))) (which : string) (k : Z) : result stat :=
  do p <- pyindex sp k;
  if (which =? "last")%string then (do r <- pyindex p (Z.of_nat (List.length (nth 0 sp [])) - 1); Ok (Row r)) else Ok (Plane p).
Definition read_sparta_data (file : option (list (list (list R)))) (which : string) (nt : night) (date texp n_subap : R)
  : result (stat * stat * stat * stat * option R * option R) :=
  match file with
  | Some sp =>
      do r0 <- sparta_plane sp which 0; do v <- sparta_plane sp which 1; do sr <- sparta_plane sp which 2; do se <- sparta_plane sp which 3;
      do nr <- read_night nt date texp n_subap;
      Ok (r0, v, sr, se, fst nr, snd nr)
  | None => match nt with NoFolder => Err UnboundLocalError | _ => Err FileNotFoundError end
  end.

(** lines 723-740 [get_detector_config] (pixel scale in mas, gain, read-out noise) *)
Definition get_detector_config (pixscal : option R) (gain ron : R) : R * R * R :=
  (match pixscal with Some p => p | None => 1225 / 100 end, gain, if Req_EM_T ron 0 then 4 else ron).
(** lines 765-773 [get_telescope_pointing] *)
Definition get_telescope_pointing (az alt am_end am_start : R) : R * R * R := (az, alt, 5 / 10 * (am_end + am_start)).
(** lines 791-802 [get_temperature]: the floating point values of the header keys containing TEMP *)
Inductive hval := HFloat (v : R) | HOther.
Fixpoint contains (s t : string) : bool :=
  match t with EmptyString => String.prefix s t | String _ r => String.prefix s t || contains s r end.
Definition get_temperature (hdr : list (string * hval)) : list R * list string :=
  let cols := filter (fun kv => contains "TEMP" (fst kv)) hdr in
  let fl := flat_map (fun kv => match snd kv with HFloat v => [(v, fst kv)] | HOther => [] end) cols in
  (map fst fl, map snd fl).
(** lines 186-190 of [instantiate_psfao_model]: the seeing written in the configuration file *)
Definition seeing_written (s : R) : R := if Rlt_dec s 0 then 7 / 10 else s.
(** lines 755-763 [get_date]: 'YYYY-MM-DDThh:mm:ss' *)
Definition get_date (d : string) : string * string := (substring 0 10 d, substring 11 (String.length d - 11) d).
