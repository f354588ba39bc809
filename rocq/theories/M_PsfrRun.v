(** Model of p3/psfr/psfrRun.py: PSF reconstruction over a data base (choice of the files, table of results, merged table) and
    over simulated data. File systems are given by their listings; the numerical content of a reconstruction is given by the
    values that the table reads from it. *)
From Coq Require Import Reals List Arith ZArith Bool String Ascii NArith.
From Verif Require Import Base_Py M_Sphere M_Sparta.
Import ListNotations.
Local Open Scope string_scope.

(** Python's order of strings: lexicographic on character codes *)
Fixpoint sle (s t : string) : bool :=
  match s, t with
  | EmptyString, _ => true
  | String _ _, EmptyString => false
  | String a s', String b t' => if Ascii.eqb a b then sle s' t' else (N_of_ascii a <? N_of_ascii b)%N
  end.
(** list.sort() *)
Fixpoint sinsert (x : string) (l : list string) : list string :=
  match l with [] => [x] | y :: r => if sle x y then x :: l else y :: sinsert x r end.
Definition ssort (l : list string) : list string := fold_right sinsert [] l.

(** psfrRun.py:53-57: the telemetry files of the folder *)
Definition sav_files (ls : list string) : list string := ssort (filter (contains ".sav") ls).
(** lines 59-66: the images of that date *)
Definition fits_files (year : string) (ls : list string) : list string :=
  ssort (filter (contains year) (filter (contains ".fits") ls)).
(** line 68: file.split('_')[-1].split('.')[0] (a split is never empty) *)
Definition id_fits (f : string) : string := hd "" (split_on "." (last (split_on "_" f) "")).
(** line 69: file.split('_')[0] *)
Definition id_sav (f : string) : string := hd "" (split_on "_" f).
(** list.index *)
Fixpoint index_of (x : string) (l : list string) : result nat :=
  match l with [] => Err ValueError | y :: r => if String.eqb y x then Ok 0%nat else (do k <- index_of x r; Ok (S k)) end.
Definition smem (x : string) (l : list string) : bool := existsb (String.eqb x) l.
(** lines 70-71: intersection of the two sets, sorted *)
Definition id_match (fits sav : list string) : list string :=
  let i1 := map id_fits fits in let i2 := map id_sav sav in
  ssort (nodup string_dec (filter (fun x => smem x i2) i1)).
Fixpoint sequence {A} (l : list (result A)) : result (list A) :=
  match l with [] => Ok [] | x :: r => do a <- x; do s <- sequence r; Ok (a :: s) end.
(** lines 78-81: for each identifier, the telemetry file and the image given to run_keck_psfr *)
Definition database_runs (year : string) (dir_sav dir_fits : list string) : result (list (string * string * string)) :=
  let sav := sav_files dir_sav in let fits := fits_files year dir_fits in
  sequence (map (fun i =>
     do a <- index_of i (map id_sav sav); do s <- pyindex sav (Z.of_nat a);
     do b <- index_of i (map id_fits fits); do f <- pyindex fits (Z.of_nat b);
     Ok (i, s, f)) (id_match fits sav)).

(** * The table of results *)
Inductive cell := Str (s : string) | Num (x : R) | Flag (b : bool).
(** what the table reads in a reconstruction [psfr] and in a fit [res] *)
Record run := mkRun {
  r_path_img : string; r_aomode : string; r_airmass : R; r_wvl : R; r_bandwidth : R; r_pupang : R; r_pupmask : string;
  r_resolution : R; r_psinmas : R; r_fov : R; r_saturated : bool; r_dimm : R; r_mass : R; r_cn2 : list R;
  r_holoop : string -> option R; r_ttloop : string -> option R; r_nph_ho : R; r_nph_tt : R; r_jitter : list R;
  r_r0_tel : R; r_L0_tel : R; r_tau0_tel : R; r_v0_tel : R; r_theta0 : R -> R (* function of the wavelength *);
  r_noise_ho : list R; r_noise_tt : list R; r_wfe : string -> option R;
  s_sr_sky : R; s_fwhmx_sky : R; s_fwhmy_sky : R; s_x : list R; s_fwhmx_fit : R; s_fwhmy_fit : R; s_mse : R }.
Definition getk (d : string -> option R) (k : string) : result R := match d k with Some v => Ok v | None => Err KeyError end.
(** str.upper on ASCII letters *)
Definition up (c : ascii) : ascii := if andb (97 <=? nat_of_ascii c)%nat (nat_of_ascii c <=? 122)%nat then ascii_of_nat (nat_of_ascii c - 32) else c.
Fixpoint upper (s : string) : string := match s with EmptyString => EmptyString | String c r => String (up c) (upper r) end.
(** lines 143-162 [define_database_colnames] *)
Definition colnames : list string :=
  ["DATE"; "ID"; "AOMODE"; "AIRMASS"; "WVL [µm]"; "BANDWIDTH [µm]";
   "PUP ANG [DEG]"; "PUP MASK"; "PUP RES [PX]"; "CAM PS [MAS]"; "CAM FOV [PX]";
   "CAM SR"; "CAM FWHMX [MAS]"; "CAM FWHMY [MAS]"; "CAM FIT BKG"; "CAM SATURATION";
   "SEEING DIMM [AS]"; "SEEING MASS"; "CN2 0KM"; "CN2 0.5KM"; "CN2 1KM"; "CN2 2KM"; "CN2 4KM";
   "CN2 8KM"; "CN2 16KM"; "HO GAIN"; "HO LAT [ms]"; "HO RATE [Hz]"; "HO NPH";
   "HO WFE [NM]"; "TT GAIN"; "TT LAT [ms]"; "TT RATE [Hz]"; "TT NPH"; "TT WFE [NM]";
   "JITTERX [MAS]"; "JITTERY [MAS]"; "JITTERXY [MAS]";
   "TEL R0 [CM]"; "TEL L0 [M]"; "TEL TAU0 [MS]"; "TEL V [M/S]"; "TEL THETA0 [AS]";
   "HO NOISE [RAD]"; "TT NOISE [RAD]"; "WFE NCPA [NM]"; "WFE FITTING [NM]";
   "WFE ALIASING [NM]"; "WFE HO NOISE [NM]"; "WFE TT NOISE [NM]";
   "WFE SERVO-LAG [NM]"; "WFE JITTER [NM]"; "WFE ANGULAR ANISO [NM]";
   "WFE FOCAL ANISO [NM]"; "WFE TT ANISO [NM]"; "WFE TOTAL [NM]";
   "PSF PIXEL [NM]"; "PSFR SR PEAK"; "PSFR SR OTF";
   "PSFR FWHMX"; "PSFR FWHMY"; "PSFR MSE"].
Local Open Scope list_scope.
Local Open Scope R_scope.
(** lines 164-237 [unpack_results]: the row of one reconstruction, and the wavelength left in the atmosphere object (line 206).
    r_theta0 w: the isoplanatic angle of the atmosphere at the wavelength w. *)
Definition unpack_results (r : run) : result (list cell * R) :=
  let base := last (split_on "/" (r_path_img r)) "" in
  let DATE := hd "" (split_on "_" base) in
  do p1 <- pyindex (split_on "_" base) 1;
  let ID := upper (hd "" (split_on "." p1)) in
  do bkg <- pyindex (s_x r) (-1);
  do cn2 <- match r_cn2 r with [a; b; c; d; e; f; g] => Ok [a; b; c; d; e; f; g] | _ => Err ValueError end;
  do HOGAIN <- getk (r_holoop r) "gain"; do HOLAT <- getk (r_holoop r) "delay"; do HORATE <- getk (r_holoop r) "rate";
  do HOWFE <- getk (r_holoop r) "wfe";
  do TTGAIN <- getk (r_ttloop r) "gain"; do TTLAT <- getk (r_ttloop r) "delay"; do TTRATE <- getk (r_ttloop r) "rate";
  do TTWFE <- getk (r_holoop r) "wfe";
  do jit <- match r_jitter r with [a; b; c] => Ok [a; b; c] | _ => Err ValueError end;
  do HONOISE <- pyindex (r_noise_ho r) 0; do TTNOISE <- pyindex (r_noise_tt r) 0;
  do NCPA <- getk (r_wfe r) "NCPA"; do FIT <- getk (r_wfe r) "FITTING"; do ALIAS <- getk (r_wfe r) "ALIASING";
  do HON <- getk (r_wfe r) "HO NOISE"; do TTN <- getk (r_wfe r) "TT NOISE"; do LAG <- getk (r_wfe r) "SERVO-LAG";
  do TT <- getk (r_wfe r) "TIP-TILT"; do ANISO <- getk (r_wfe r) "ANGULAR ANISOPLANATISM";
  do FOC <- getk (r_wfe r) "ANISOKINETISM"; do TTANISO <- getk (r_wfe r) "FOCAL ANISOPLANATISM";
  do TOT <- getk (r_wfe r) "TOTAL WFE"; do PIX <- getk (r_wfe r) "PIXEL TF";
  do SRP <- getk (r_wfe r) "PSFR SR PEAK"; do SRO <- getk (r_wfe r) "PSFR SR OTF";
  let N x := Num x in
  Ok ([Str DATE; Str ID; Str (upper (r_aomode r)); N (r_airmass r); N (r_wvl r * 1000000); N (r_bandwidth r * 1000000);
       N (r_pupang r); Str (r_pupmask r); N (r_resolution r); N (r_psinmas r); N (r_fov r);
       N (s_sr_sky r / 100); N (s_fwhmx_sky r); N (s_fwhmy_sky r); N bkg; Flag (r_saturated r); N (r_dimm r); N (r_mass r)]
      ++ map Num cn2 ++
      [N HOGAIN; N HOLAT; N HORATE; N (r_nph_ho r); N HOWFE; N TTGAIN; N TTLAT; N TTRATE; N (r_nph_ho r); N TTWFE]
      ++ map Num jit ++
      [N (r_r0_tel r * 100); N (r_L0_tel r); N (r_tau0_tel r * 1000); N (r_v0_tel r); N (r_theta0 r (500 / 1000000000));
       N HONOISE; N TTNOISE; N NCPA; N FIT; N ALIAS; N HON; N TTN; N LAG; N TT; N ANISO; N FOC; N TTANISO; N TOT; N PIX;
       N (SRP / 100); N (SRO / 100); N (s_fwhmx_fit r); N (s_fwhmy_fit r); N (s_mse r)], 500 / 1000000000).
(** pd.DataFrame(data, columns=names): column of a row; ValueError when the numbers differ *)
Definition frame_row (names : list string) (row : list cell) : result (list (string * cell)) :=
  if Nat.eqb (List.length row) (List.length names) then Ok (combine names row) else Err ValueError.
Fixpoint column (f : list (string * cell)) (c : string) : option cell :=
  match f with [] => None | (k, v) :: r => if String.eqb k c then Some v else column r c end.

(** * Merged table, lines 328-354 [merge_dataframe]. A file is its rows; a row is its DATE and the rest. The sort of pandas is
    not stable: any function returning a sorted permutation is accepted ([sorter]). No file: no column DATE. *)
Definition csv_files (ls : list string) : list string :=
  filter (fun f => negb (contains "merged" f)) (filter (contains ".csv") ls).
Section merge.
Variable row : Type.
Definition frow : Type := (Z * row)%type.
Definition merge_dataframe (sorter : list frow -> list frow) (ls : list string) (content : string -> list frow) (tocsv : bool)
  : result (list frow * option (string * list frow)) :=
  match csv_files ls with
  | [] => Err KeyError
  | f0 :: _ =>
      let m := sorter (flat_map content (csv_files ls)) in
      Ok (m, if tocsv then Some (hd "" (split_on "_" f0) ++ "_psfr_merged.csv", m)%string else None)
  end.
End merge.

(** * Simulated data, lines 239-297 [psfr_kasp_simulations] *)
(** lines 246-254: the files whose name contains every pattern (patterns that are not a list are ignored) *)
Definition kasp_files (patterns : option (list string)) (ls : list string) : list string :=
  ssort (match patterns with None => ls | Some ps => fold_left (fun l p => filter (contains p) l) ps ls end).
(** the atmosphere fields of the telemetry that the run reads and writes *)
Record katm := mkKatm { k_r0 : R; k_L0 : R; k_r0_tel : R; k_L0_tel : R; k_tau0_tel : R; k_v0_tel : R; k_seeing : R; k_wvl : R }.
(** systemDiagnosis.py:60-79: the fitted parameters (r0, L0, tau0, v0) also replace r0 and L0 of the telemetry *)
Definition diagnose (est : R * R * R * R) (a : katm) : katm :=
  let '(r0, L0, tau0, v0) := est in
  mkKatm r0 L0 r0 L0 tau0 v0 (3600 * 180 / PI * k_wvl a / r0) (k_wvl a).
(** lines 257-280 [run_psfr_from_kasp]: the state used by the reconstruction and the state left for the table *)
Definition run_kasp (true_r0 : bool) (est : R * R * R * R) (a : katm) : katm * katm :=
  let d := diagnose est a in
  let u := if true_r0 then mkKatm (k_r0 a) (k_L0 a) (k_r0 a) (k_L0 a) (k_tau0_tel d) (k_v0_tel d)
                             (3600 * 180 / PI * (978 / 1000) * k_wvl a / k_r0 a) (k_wvl a) else d in
  (u, mkKatm (k_r0 u) (k_L0 u) (k_r0_tel d) (k_L0_tel d) (k_tau0_tel u) (k_v0_tel u) (k_seeing u) (k_wvl u)).
(** lines 282-297: the columns *)
Definition kasp_columns : list string :=
  ["SR CAMERA"; "SR PSFR OTF"; "SR PSFR PEAK"; "R0"; "L0"; "TAU0"; "V0"; "TRUE R0"; "TRUE L0"; "TRUE TAU0"; "TRUE V0"]%string.
Definition kasp_row (cam_sr psfr_sr peak_sr tau0_ao wind_ao : R) (a : katm) : list R :=
  [cam_sr; psfr_sr / 100; peak_sr / 100; k_r0_tel a; k_L0_tel a; k_tau0_tel a; k_v0_tel a; k_r0 a; k_L0 a; tau0_ao * 1000; wind_ao].
(** lines 41-93 [psfr_on_database]: the table written, one row per run; [keck s f]: what run_keck_psfr returns. The file is only
    written at the end. *)
Definition psfr_on_database (keck : string -> string -> result run) (year : string) (dir_sav dir_fits : list string)
  : result (string * list (list (string * cell))) :=
  do runs <- database_runs year dir_sav dir_fits;
  do rows <- sequence (map (fun t => do r <- keck (snd (fst t)) (snd t); do u <- unpack_results r; Ok (fst u)) runs);
  do fr <- sequence (map (frame_row colnames) rows);
  Ok ("keck_psfr_" ++ year ++ ".csv", fr)%string.
