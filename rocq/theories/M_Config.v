(** Model of p3/aoSystem/aoSystem.py (class aoSystem: reading and checking the
    parameter file, lines 28-1068) and of resolve_config_path in
    p3/aoSystem/__init__.py. The parser (ConfigParser/yaml) is not modelled: the
    model starts from the dictionary self.my_data_map it produces.
    Float values are exact reals. A NumPy computation that yields inf or nan
    without raising is reported as [Err NonFinite]. *)
From Coq Require Import Reals List Arith ZArith String Ascii Bool.
From Flocq Require Import Core.Raux Core.Generic_fmt Core.Round_NE.
From Verif Require Import Base_Py M_Tools M_Atmo M_Sensor M_Source.
Import ListNotations.
Open Scope R_scope.
Open Scope string_scope.

(** ** Values of the parameter file (Python objects produced by eval / yaml) *)
Inductive pval : Type :=
| PNone | PBool (b : bool) | PInt (z : Z) | PNum (r : R) | PInf | PNaN
| PStr (s : string) | PList (l : list pval).
Definition section := list (string * pval).
Definition cfg := list (string * section).

Fixpoint lookup {A} (l : list (string * A)) (k : string) : option A :=
  match l with [] => None | (k', v) :: r => if String.eqb k' k then Some v else lookup r k end.
(** dictionary assignment: the existing entry is replaced, a new one is added *)
Fixpoint has {A} (l : list (string * A)) (k : string) : bool :=
  match l with [] => false | (k', _) :: r => (String.eqb k' k || has r k)%bool end.
Fixpoint replace {A} (l : list (string * A)) (k : string) (v : A) : list (string * A) :=
  match l with [] => [] | (k', v') :: r => if String.eqb k' k then (k', v) :: r else (k', v') :: replace r k v end.
Definition assign {A} (l : list (string * A)) (k : string) (v : A) : list (string * A) :=
  if has l k then replace l k v else (k, v) :: l.

(** aoSystem.py:42-43 check_section_key; 45-49 check_config_key (False when the
    section itself is missing: the section is read as empty) *)
Definition has_sec (c : cfg) (s : string) : bool := has c s.
Definition sec (c : cfg) (s : string) : section := match lookup c s with Some x => x | None => [] end.
(** [if check_config_key(s,k): x = get_config_value(s,k) else: x = d] *)
Definition opt (s : section) (k : string) (d : pval) : pval := match lookup s k with Some v => v | None => d end.
(** [... else: raiseMissingRequiredOpt] (30-32: ValueError) *)
Definition req (s : section) (k : string) : result pval := match lookup s k with Some v => Ok v | None => Err ValueError end.
(** [get_config_value] without a check: KeyError *)
Definition get_raw (s : section) (k : string) : result pval := match lookup s k with Some v => Ok v | None => Err KeyError end.
(** 34-36 raiseMissingRequiredSec *)
Definition req_sec (c : cfg) (s : string) : result section := if has_sec c s then Ok (sec c s) else Err ValueError.

(** ** Numeric readings. Simplification: a value of a type on which the numeric
    use fails is reported (TypeError) where it is read; Python raises TypeError at
    the first numeric use. A string where a list is expected is treated likewise. *)
Definition as_num (v : pval) : result R :=
  match v with
  | PBool b => Ok (if b then 1 else 0) | PInt z => Ok (IZR z) | PNum r => Ok r
  | PInf | PNaN => Err NonFinite
  | PNone | PStr _ | PList _ => Err TypeError
  end.
Definition as_xnum (v : pval) : result xR := match v with PInf => Ok Inf | _ => do r <- as_num v; Ok (Fin r) end.
Definition as_list (v : pval) : result (list pval) := match v with PList l => Ok l | _ => Err TypeError end.
Definition as_nums (v : pval) : result (list R) := do l <- as_list v; mapM as_num l.
(** scalar or list *)
Definition as_sol (v : pval) : result (sol R) :=
  match v with PList l => do x <- mapM as_num l; Ok (Lst x) | _ => do r <- as_num v; Ok (Scal r) end.
Definition as_xsol (v : pval) : result (sol xR) :=
  match v with PList l => do x <- mapM as_xnum l; Ok (Lst x) | _ => do r <- as_xnum v; Ok (Scal r) end.
(** np.atleast_1d *)
Definition atleast_1d (v : pval) : result (list R) := do s <- as_sol v; Ok (vec s).
Definition as_int (v : pval) : result Z := match v with PInt z => Ok z | _ => Err TypeError end.
Definition as_ints (v : pval) : result (list Z) := do l <- as_list v; mapM as_int l.
(** len(x) *)
Definition len_sol {A} (s : sol A) : result nat := match s with Lst l => Ok (length l) | Scal _ => Err TypeError end.
Definition len_val (v : pval) : result nat := do l <- as_list v; Ok (length l).
(** a numeric attribute for which None is meaningful *)
Definition as_onum (v : pval) : result (option R) := match v with PNone => Ok None | _ => do r <- as_num v; Ok (Some r) end.
Definition pymin (l : list R) : result R := match l with [] => Err ValueError | x :: r => Ok (fold_left Rmin r x) end.
(** Python float division *)
Definition pydiv (x y : R) : result R := if Req_EM_T y 0 then Err ZeroDivisionError else Ok (x / y).

(** ** Paths: p3/aoSystem/__init__.py:77-119 *)
(** the file system and the installation, as seen by the constructor *)
Record env := mkEnv {
  e_isfile : string -> bool;            (* os.path.isfile *)
  e_p3 : string;                        (* the p3 package directory *)
  e_tiptop : option string;             (* PATH_TIPTOP or detect_tiptop_path() *)
  e_root : string;                      (* path_root ('' for None) *)
  e_float : string -> option pval;      (* float(str): PNum, PInf or PNaN; None = ValueError *)
  e_off0 : string -> list R;            (* first map, flattened, of a cube of static maps *)
  e_npos : string -> nat }.             (* number of rows of the positions file *)
(** os.path.join(a, b) on POSIX *)
Fixpoint ends_slash (a : string) : bool :=
  match a with EmptyString => false | String c EmptyString => Ascii.eqb c "/" | String _ r => ends_slash r end.
Definition starts_slash (a : string) : bool := match a with String c _ => Ascii.eqb c "/" | _ => false end.
Definition join (a b : string) : string :=
  if starts_slash b then b
  else if (String.eqb a "" || ends_slash a)%bool then a ++ b else a ++ "/" ++ b.
(** str.lstrip('/') *)
Fixpoint lstrip (a : string) : string :=
  match a with String c r => if Ascii.eqb c "/" then lstrip r else a | EmptyString => EmptyString end.
(** __init__.py:77-119 resolve_config_path; path_root and path_tiptop are
    "falsy" when empty (or None) *)
Definition resolve_config_path (isfile : string -> bool) (path root p3 : string) (tiptop : option string) : string :=
  if String.eqb path "" then ""
  else
    let cand := join root path in
    if (negb (String.eqb root "") && isfile cand)%bool then cand
    else
      let clean := lstrip path in
      if prefix "aoSystem" clean then join p3 clean
      else if (match tiptop with Some t => negb (String.eqb t "") | None => false end && prefix "tiptop" clean)%bool
           then join (match tiptop with Some t => t | None => "" end) clean
      else if isfile path then path
      else if (starts_slash path && negb (String.eqb clean path))%bool
           then (let c2 := join p3 clean in if isfile c2 then c2 else path)
      else path.
(** aoSystem.py:107-115 resolve_path, and the check of lines 200-206 (repeated
    213, 226, 234, 243, 252, 328): a path that resolves to a non-empty name that
    is not a file is refused. A false value (None, 0, '') resolves to ''. *)
Definition resolve_value (e : env) (v : pval) : result string :=
  match v with
  | PStr s => Ok (resolve_config_path (e_isfile e) s (e_root e) (e_p3 e) (e_tiptop e))
  | PNone | PBool false | PInt 0 | PList [] => Ok ""
  | _ => Err TypeError
  end.
Definition path_key (e : env) (s : section) (k : string) (d : pval) : result pval :=
  match lookup s k with
  | None => Ok d
  | Some v => do p <- resolve_value e v;
      if (negb (String.eqb p "") && negb (e_isfile e p))%bool then Err ValueError else Ok (PStr p)
  end.

(** ** Telescope section: aoSystem.py:150-166 (precision) and 170-334 *)
(** str.lower on ASCII *)
Definition lower_ascii (c : ascii) : ascii :=
  let n := nat_of_ascii c in if ((65 <=? n) && (n <=? 90))%nat then ascii_of_nat (n + 32) else c.
Fixpoint lower (s : string) : string :=
  match s with EmptyString => EmptyString | String c r => String (lower_ascii c) (lower r) end.
(** attributes the constructor only stores are kept as they are read *)
Record tel := mkTel { t_D : R; t_zen : R; t_prec : string; t_attr : list (string * pval) }.
(** 157-158 str(value).lower(); str() of a non-string is neither 'single' nor 'double' *)
Definition precision_of (c : cfg) : string :=
  match lookup (sec c "COMPUTATION") "precision" with
  | Some (PStr s) => lower s | Some _ => "?" | None => "double" end.
(** telescope.py:50-52 airmass *)
Definition airmass_of (zen : R) : result R := rdiv 1 (cos (zen * PI / 180)).
(** telescope.py:85-89 check_path: the file exists and its name contains one
    character followed by "fits" (the pattern ".fits" of re.search) *)
Fixpoint has_fits (s : string) : bool :=
  match s with EmptyString => false | String _ r => (prefix "fits" r || has_fits r)%bool end.
Definition check_path (e : env) (v : pval) : bool :=
  match v with PStr p => (e_isfile e p && has_fits p)%bool | _ => false end.
(** telescope.py:164-180 field-dependent static aberrations: line 171 compares an
    integer with the first MAP (an array): the truth value of the comparison is
    ambiguous (ValueError) unless that map has exactly one pixel. *)
Definition check_static_off (e : env) (off pos : pval) : result unit :=
  if check_path e off then
    if check_path e pos then
      match off, pos with
      | PStr fo, PStr fp =>
          match e_off0 e fo with
          | [] => Ok tt
          | [x] => if Req_EM_T (INR (e_npos e fp)) x then Ok tt else Err ValueError
          | _ => Err ValueError
          end
      | _, _ => Ok tt
      end
    else Err ValueError
  else Ok tt.
(** the telescope keys that are only stored, with their defaults (189-197,
    208-211, 221-224, 260-300) *)
Definition tel_plain : list (string * pval) :=
  [("ObscurationRatio", PNum 0); ("Resolution", PInt 256); ("PupilAngle", PNum 0); ("zCoefStaticOn", PList []);
   ("extraErrorNm", PInt 0); ("extraErrorExp", PInt (-2)); ("extraErrorMin", PInt 0); ("extraErrorMax", PInt 0);
   ("extraErrorLoMin", PInt 0); ("extraErrorLoMax", PInt 0); ("TechnicalFoV", PInt 0)].
Definition plain (s : section) (l : list (string * pval)) : list (string * pval) :=
  map (fun kd => (fst kd, opt s (fst kd) (snd kd))) l.
Definition tel_stage (e : env) (prec : string) (s : section) : result tel :=
  do d <- req s "TelescopeDiameter"; do D <- as_num d;                       (* 175-178 *)
  do zen <- as_num (opt s "ZenithAngle" (PNum 0));                           (* 180-185 *)
  if Rle_dec 90 zen then Err ValueError
  else
    do am <- airmass_of zen;                                                (* 187 *)
    do pu <- path_key e s "PathPupil" (PStr "");                            (* 200-206 *)
    do on <- path_key e s "PathStaticOn" PNone;
    do off <- path_key e s "PathStaticOff" PNone;
    do pos <- path_key e s "PathStaticPos" PNone;
    do apo <- path_key e s "PathApodizer" (PStr "");
    do mo <- path_key e s "PathStatModes" (PStr "");
    let xnm := opt s "extraErrorNm" (PInt 0) in
    let xex := opt s "extraErrorExp" (PInt (-2)) in
    if negb (String.eqb prec "single" || String.eqb prec "double")%bool then Err ValueError  (* telescope.py:91-98 *)
    else
      do _ <- check_static_off e off pos;
      do wp <- path_key e s "windPsdFile" (PInt 0);                         (* 328-334 *)
      Ok (mkTel D zen prec
            (plain s tel_plain ++
             [("extraErrorLoNm", opt s "extraErrorLoNm" xnm); ("extraErrorLoExp", opt s "extraErrorLoExp" xex); (* 281-290 *)
              ("PathPupil", pu); ("PathStaticOn", on); ("PathStaticOff", off); ("PathStaticPos", pos);
              ("PathApodizer", apo); ("PathStatModes", mo); ("windPsdFile", wp)])).

(** ** Atmosphere section: 336-393 *)
Definition sol_sum (s : sol R) : R := match s with Scal a => a | Lst l => lsum l end.
Definition atm_stage (am : R) (s : section) : result atmo :=
  do wvl <- as_num (opt s "Wavelength" (PNum (500 / 10 ^ 9)));
  do r0 <- match lookup s "Seeing" with
           | Some v => do x <- as_num v; do q <- pydiv (976 / 1000 * wvl) x; Ok (q * 3600 * 180 / PI)
           | None => do v <- req s "r0_value"; as_num v
           end;
  do L0 <- as_xsol (opt s "L0" (PInt 25));
  do w <- as_sol (opt s "Cn2Weights" (PList [PNum 1]));
  if Rlt_dec (1 / 1000) (Rabs (sol_sum w - 1)) then Err ValueError         (* 361-362 *)
  else
    do h <- as_sol (opt s "Cn2Heights" (PList [PNum 0]));
    do v <- as_sol (opt s "WindSpeed" (PList [PNum 10]));
    do d <- match lookup s "WindDirection" with
            | Some x => as_sol x
            | None => match v with Lst l => Ok (Lst (map (fun _ => 0) l)) | Scal _ => Err TypeError end  (* list() of a 0-d array *)
            end;
    (* 382-384: chained comparison, the lengths are read from left to right *)
    do nw <- len_sol w; do nh <- len_sol h;
    if negb (nw =? nh)%nat then Err ValueError
    else
      do nv <- len_sol v;
      if negb (nh =? nv)%nat then Err ValueError
      else
        do nd <- len_sol d;
        if negb (nv =? nd)%nat then Err ValueError
        else
          do f <- rpow am (- 3 / 5);
          atmosphere wvl (r0 * f) (vec w) (map (fun x => x * am) (vec h)) v d L0.

(** ** Guide stars: 395-436 and configLO 846-864 *)
Record stars := mkStars { g_ngs : option source; g_lgs : option source }.
Definition ho_stage (am : R) (haslo : bool) (s : section) : result stars :=
  do wv <- req s "Wavelength"; do wvl <- atleast_1d wv;
  do zen <- as_nums (opt s "Zenith" (PList [PNum 0]));
  do az <- as_nums (opt s "Azimuth" (PList [PNum 0]));
  if negb (length zen =? length az)%nat then Err ValueError
  else
    do h <- as_sol (opt s "Height" (PNum 0));
    let natural := match h with Scal x => if Req_EM_T x 0 then true else false | Lst _ => false end in
    if (natural && negb haslo)%bool then
      do g <- source_init (Lst wvl) (Lst zen) (Lst az) (HScal 0); Ok (mkStars (Some g) None)
    else match h with
         | Scal x => do g <- source_init (Lst wvl) (Lst zen) (Lst az) (HScal (x * am)); Ok (mkStars None (Some g))
         | Lst _ => Err TypeError                      (* list * np.float64 *)
         end.
(** configLO: Zenith and Azimuth are read without a check (KeyError) *)
Definition lo_stage (c : cfg) (g : stars) : result stars :=
  if negb (has_sec c "sources_LO") then Ok g
  else
    let s := sec c "sources_LO" in
    do wv <- req s "Wavelength"; do wvl <- atleast_1d wv;
    do z <- get_raw s "Zenith"; do a <- get_raw s "Azimuth";
    do zen <- as_nums z; do az <- as_nums a;
    if negb (length zen =? length az)%nat then Err ValueError
    else do n <- source_init (Lst wvl) (Lst zen) (Lst az) (HScal 0); Ok (mkStars (Some n) (g_lgs g)).

(** ** Science sources: 439-475 *)
(** np.arctan2(y, x) *)
Definition arctan2 (y x : R) : R :=
  if Rlt_dec 0 x then atan (y / x)
  else if Rlt_dec x 0 then (if Rle_dec 0 y then atan (y / x) + PI else atan (y / x) - PI)
  else if Rlt_dec 0 y then PI / 2 else if Rlt_dec y 0 then - PI / 2 else 0.
Definition any_nonzero (l : list R) : bool := existsb (fun x => if Req_EM_T x 0 then false else true) l.
(** a Python list (concatenated by +) or a NumPy array (added by +) *)
Inductive lista : Type := LL (l : list R) | LA (l : list R).
Definition lista_l (x : lista) : list R := match x with LL l => l | LA l => l end.
Definition badd (a b : list R) : result (list R) :=
  if (length a =? length b)%nat then Ok (map (fun p => fst p + snd p) (combine a b))
  else match a, b with
       | [x], _ => Ok (map (fun y => x + y) b) | _, [y] => Ok (map (fun x => x + y) a) | _, _ => Err ValueError end.
Definition py_plus (a : lista) (b : list R) : result (list R) := match a with LL l => Ok (l ++ b)%list | LA l => badd l b end.
(** the arguments of the constructor other than the file *)
Record args := mkArgs { ar_atngs : bool; ar_expand : bool; ar_coo : option (list R * list R) }.
Definition science_stage (ar : args) (c : cfg) : result (list R * source) :=
  do s <- req_sec c "sources_science";
  do wv <- req s "Wavelength"; do wvl <- atleast_1d wv;
  do z0 <- as_nums (opt s "Zenith" (PList [PNum 0]));
  do a0 <- as_nums (opt s "Azimuth" (PList [PNum 0]));
  do za <- match ar_coo ar with
           | Some (x, y) => if (any_nonzero x || any_nonzero y)%bool
                            then if (length x =? length y)%nat
                                 then Ok (LA (map (fun p => hypot (fst p) (snd p)) (combine x y)),
                                          LA (map (fun p => arctan2 (fst p) (snd p)) (combine x y)))
                                 else Err ValueError
                            else Ok (LL z0, LL a0)
           | None => Ok (LL z0, LL a0)
           end;
  if negb (length (lista_l (fst za)) =? length (lista_l (snd za)))%nat then Err ValueError
  else
    do zz <- (if (ar_atngs ar && has (sec c "sources_LO") "Wavelength")%bool then
                do z <- get_raw (sec c "sources_LO") "Zenith"; do zl <- as_nums z;
                do a <- get_raw (sec c "sources_LO") "Azimuth"; do al <- as_nums a;
                do z1 <- py_plus (fst za) zl; do a1 <- py_plus (snd za) al; Ok (z1, a1)
              else Ok (lista_l (fst za), lista_l (snd za)));
    do g <- source_init (Lst wvl) (Lst (fst zz)) (Lst (snd zz)) (HScal 0);
    Ok (wvl, g).

(** ** Wavefront sensors: 477-607 (high order) and configLOsensor 867-975 *)
Definition as_nph (v : pval) : result nph_arg :=
  match v with
  | PNum r => Ok (AFloat (Fin r)) | PInf => Ok (AFloat Inf) | PInt z => Ok (AInt z)
  | PBool b => Ok (AInt (if b then 1 else 0)) | PNone => Ok ANone
  | PList l => do x <- mapM (fun v => match v with PList m => do y <- mapM as_xnum m; Ok (NList y) | _ => do y <- as_xnum v; Ok (NNum y) end) l;
               Ok (AList x)
  | _ => Err TypeError
  end.
Definition pv_x (x : xR) : pval := match x with Fin r => PNum r | Inf => PInf end.
Definition pv_nph (l : list nphval) : pval :=
  PList (map (fun p => match p with NNum x => pv_x x | NList m => PList (map pv_x m) end) l).
Definition as_spot (v : pval) : result (list (list R)) := do l <- as_list v; mapM as_nums l.
Definition as_str (v : pval) : result string := match v with PStr s => Ok s | _ => Err TypeError end.
(** len(dispersion[0]) *)
Definition disp_len (v : pval) : result nat :=
  do l <- as_list v; match l with [] => Err IndexError | x :: _ => len_val x end.
Record wfs := mkWfs { w_sensor : sensor; w_attr : list (string * pval) }.
(** keys only stored *)
Definition wfs_plain : list (string * pval) :=
  [("Binning", PInt 1); ("Gain", PInt 1); ("SkyBackground", PNum 0); ("Dark", PNum 0); ("SpectralBandwidth", PNum 0)].
Definition ho_plain : list (string * pval) := [("Modulation", PNone); ("addMcaoWFsensConeError", PBool false)].
(** the list object of NumberPhotons is the one of the configuration: the
    completion made by the sensor constructor (sensor.py:47) is visible in it *)
Definition put_nph (s : section) (after : option (list nphval)) : section :=
  match lookup s "NumberPhotons", after with
  | Some (PList l), Some l' => if (length l <? length l')%nat then assign s "NumberPhotons" (PList (l ++ match pv_nph l' with PList m => skipn (length l) m | _ => [] end)%list) else s
  | _, _ => s
  end.
Definition dsub_default (D : R) (nL : list Z) : result (list R) := mapM (fun n => rdiv D (IZR n)) nL.
Definition ho_sensor (D : R) (s : section) : result wfs * section :=
  let r :=
    do ps <- req s "PixelScale"; do psn <- as_num ps;
    do fv <- req s "FieldOfView"; do fvn <- as_num fv;
    do spot <- as_spot (opt s "SpotFWHM" (PList [PList [PNum 0; PNum 0]]));
    do nph <- as_nph (opt s "NumberPhotons" (PList [PInf]));
    do ron <- as_num (opt s "SigmaRON" (PNum 0));
    do exc <- as_num (opt s "ExcessNoiseFactor" (PNum 1));
    do ntr <- len_val (opt s "Transmittance" (PList [PNum 1]));
    do ndi <- disp_len (opt s "Dispersion" (PList [PList [PNum 0]; PList [PNum 0]]));
    do ty <- as_str (opt s "WfsType" (PStr "Shack-Hartmann"));
    do nL <- as_ints (opt s "NumberLenslets" (PList [PInt 20]));
    do dsub <- match lookup s "SizeLenslets" with Some v => as_nums v | None => dsub_default D nL end;
    do alg <- as_str (opt s "Algorithm" (PStr "wcog"));
    do wr <- as_num (opt s "WindowRadiusWCoG" (PNum 5));
    do thr <- as_num (opt s "ThresholdWCoG" (PNum 0));
    do nv <- as_num (opt s "NewValueThrPix" (PNum 0));
    Ok (mkSargs psn fvn spot ntr ndi ron exc ty nL dsub [1] alg [wr; thr; nv], nph)
  in match r with
     | Err e => (Err e, s)
     | Ok (a, nph) =>
         let i := sensor_init a nph in
         (do x <- fst i;
          Ok (mkWfs x (plain s (wfs_plain ++ ho_plain) ++ [("NoiseVariance", opt s "NoiseVariance" (PList [PNone]))])),
          put_nph s (snd i))
     end.
(** 949-956: 'optimize' stands for the default; line 958 looks for a key named
    'ThresholdWCoG = 0.0' *)
Definition lo_sensor (D : R) (s : section) : result wfs * section :=
  let r :=
    do ps <- req s "PixelScale"; do psn <- as_num ps;
    do fv <- req s "FieldOfView"; do fvn <- as_num fv;
    do spot <- as_spot (opt s "SpotFWHM" (PList [PList [PNum 0; PNum 0]]));
    do nph <- as_nph (opt s "NumberPhotons" PInf);
    do ron <- as_num (opt s "SigmaRON" (PNum 0));
    do exc <- as_num (opt s "ExcessNoiseFactor" (PNum 1));
    do ntr <- len_val (opt s "Transmittance" (PList [PNum 1]));
    do ndi <- disp_len (opt s "Dispersion" (PList [PList [PNum 0]; PList [PNum 0]]));
    do nL <- as_ints (opt s "NumberLenslets" (PList [PInt 1]));
    do alg <- as_str (opt s "Algorithm" (PStr "wcog"));
    do wr <- match lookup s "WindowRadiusWCoG" with
             | Some (PStr t) => if String.eqb t "optimize" then Ok 1 else Err TypeError
             | Some v => as_num v | None => Ok 1 end;
    do thr <- as_num (opt s "ThresholdWCoG = 0.0" (PNum 0));
    do nv <- as_num (opt s "NewValueThrPix" (PNum 0));
    do dsub <- dsub_default D nL;
    Ok (mkSargs psn fvn spot ntr ndi ron exc "Shack-Hartmann" nL dsub [1] alg [wr; thr; nv], nph)
  in match r with
     | Err e => (Err e, s)
     | Ok (a, nph) =>
         let i := sensor_init a nph in
         (do x <- fst i;
          Ok (mkWfs x (plain s wfs_plain ++ [("NoiseVariance", opt s "NoiseVariance" (PList [PNone]))])),
          put_nph s (snd i))
     end.

(** ** Real-time computer: 615-656 *)
Definition rtc_stage (s : section) : result (rtc * pval) :=
  do g <- as_num (opt s "LoopGain_HO" (PNum (1 / 2)));
  do f <- as_num (opt s "SensorFrameRate_HO" (PNum 500));
  do d <- as_num (opt s "LoopDelaySteps_HO" (PInt 2));
  do gl <- match opt s "LoopGain_LO" PNone with
           | PStr t => if String.eqb t "optimize" then Ok None else Err TypeError
           | v => as_onum v end;
  do fl <- as_onum (opt s "SensorFrameRate_LO" PNone);
  do dl <- as_onum (opt s "LoopDelaySteps_LO" PNone);
  Ok (rtc_init g f d gl fl dl, opt s "ResidualError" PNone).

(** ** Deformable mirrors: 659-742 *)
Record dmsys := mkDms { dd_dm : dm; dd_nrec : R; dd_attr : list (string * pval) }.
Definition dm_plain : list (string * pval) :=
  [("InfModel", PStr "gaussian"); ("OptimizationConditioning", PNum 100); ("AoArea", PStr "circle")].
Definition bdivl (a b : list R) : result (list R) :=
  if (length a =? length b)%nat then mapM (fun p => rdiv (fst p) (snd p)) (combine a b)
  else match a, b with
       | [x], _ => mapM (fun y => rdiv x y) b | _, [y] => mapM (fun x => rdiv x y) a | _, _ => Err ValueError end.
(** 679-684: number of actuators over the meta-pupil; round() is to nearest even *)
Definition nact_default (tfov D : R) (h pitch : list R) : result (list Z) :=
  do q <- bdivl (map (fun x => tfov * (PI / (3600 * 180)) * x + D) h) pitch;
  Ok (map ZnearestE q).
Definition dm_stage (tfov D : R) (s : section) : result dmsys :=
  do p <- req s "DmPitchs"; do pitch <- as_nums p;
  do h <- match lookup s "DmHeights" with
          | Some v => as_nums v
          | None => if (1 <? length pitch)%nat then Err ValueError else Ok [0] end;
  do na <- match lookup s "NumberActuators" with Some v => as_ints v | None => nact_default tfov D h pitch end;
  do ic <- as_nums (opt s "InfCoupling" (PList [PNum (2 / 10)]));
  do ow <- as_nums (opt s "OptimizationWeight" (PList [PNum 0]));
  do oa <- as_nums (opt s "OptimizationAzimuth" (PList [PNum 0]));
  do oz <- as_nums (opt s "OptimizationZenith" (PList [PNum 0]));
  if (negb (length oz =? length oa)%nat || negb (length oz =? length ow)%nat)%bool then Err ValueError
  else
    do nrec <- as_num (opt s "NumberReconstructedLayers" (PInt 10));
    do d <- dm_init na pitch h ic (oz, oa) ow;
    Ok (mkDms d nrec (plain s dm_plain)).

(** ** Science detector: 744-824, _compute_science_field_of_view 64-81,
    get_science_field_of_view 83-105 *)
Definition rad2mas : R := 180 * 3600 * 1000 / PI.
Definition auto_fov (am : R) (satm : section) (a : atmo) (wvl : list R) (ps : sol R) (pitch : list R) : result Z :=
  do wmin <- pymin wvl; do pmin <- pymin pitch; do px <- pymin (vec ps);
  do corr <- pydiv (rad2mas * wmin) (pmin * px);
  do see <- match lookup satm "Seeing" with
            | Some v => do x <- as_num v; do f <- rpow am (3 / 5); Ok (x * f)
            | None => do q <- rdiv (976 / 1000 * a_wvl a) (a_r0 a); Ok (q * 3600 * 180 / PI) end;
  do floor_pix <- pydiv (2 * see * 1000) px;
  Ok (Z.max (Zceil (Rmax corr (floor_pix / 2)) * 2) 2).
(** float(value): TypeError and ValueError both become the ValueError of lines 89-95 *)
Definition to_float (e : env) (v : pval) : result pval :=
  match v with
  | PBool b => Ok (PNum (if b then 1 else 0)) | PInt z => Ok (PNum (IZR z)) | PNum _ | PInf | PNaN => Ok v
  | PStr s => match e_float e s with Some x => Ok x | None => Err ValueError end
  | PNone | PList _ => Err ValueError
  end.
(** np.isclose(x, -1.0) with the default tolerances *)
Definition isclose_m1 (x : R) : bool := if Rle_dec (Rabs (x + 1)) (1 / 10 ^ 8 + 1 / 10 ^ 5) then true else false.
Definition get_fov (e : env) (am : R) (satm : section) (a : atmo) (wvl : list R) (ps : sol R) (pitch : list R) (s : section) : result Z :=
  do raw <- req s "FieldOfView";
  do f <- to_float e raw;
  match f with
  | PNum x => if isclose_m1 x then auto_fov am satm a wvl ps pitch
              else if Rlt_dec 0 x then Ok (Zceil x) else Err ValueError
  | PInf => Err RuntimeErr                    (* int(inf): OverflowError *)
  | _ => Err ValueError                       (* nan > 0 is False *)
  end.
(** 759-760 *)
Definition expand_fov (expand : bool) (wvl : list R) (fov : Z) : result Z :=
  if (expand && (1 <? length wvl)%nat)%bool then
    do mx <- pymax wvl; do mn <- pymin wvl;
    match rdiv mx mn with Ok q => Ok (fov * Zceil q)%Z | Err _ => Err RuntimeErr end   (* int(inf) or int(nan) *)
  else Ok fov.
Record camera := mkCam { k_fov : Z; k_ps : sol R; k_ntr : nat; k_attr : list (string * pval) }.
Definition cam_plain : list (string * pval) :=
  [("Name", PStr "SCIENCE CAM"); ("Binning", PInt 1); ("SpotFWHM", PList [PList [PNum 0; PNum 0; PNum 0]]); ("SpectralBandwidth", PNum 0);
   ("NumberPhotons", PInf); ("Saturation", PInf); ("SigmaRON", PNum 0); ("Gain", PInt 1); ("SkyBackground", PNum 0); ("Dark", PNum 0); ("ExcessNoiseFactor", PNum 1)].
(** the new section is self.my_data_map['sensor_science'] after line 761 *)
Definition cam_stage (e : env) (expand : bool) (am : R) (satm : section) (a : atmo) (wvl : list R) (pitch : list R) (c : cfg) : result (camera * section) :=
  do s <- req_sec c "sensor_science";
  do ps <- req s "PixelScale"; do psn <- as_sol ps;
  do f0 <- get_fov e am satm a wvl psn pitch s;
  do f <- expand_fov expand wvl f0;
  let s' := assign s "FieldOfView" (PInt f) in
  do ntr <- len_val (opt s "Transmittance" (PList [PNum 1]));
  do ndi <- disp_len (opt s "Dispersion" (PList [PList [PNum 0]; PList [PNum 0]]));
  if negb (ndi =? ntr)%nat then Err ValueError                   (* detector.py:41 *)
  else Ok (mkCam f psn ntr (plain s cam_plain), s').

(** ** AO mode: 826-839 *)
Inductive mode : Set := SCAO | SLAO | GLAO | LTAO | MCAO.
Definition ao_mode (lgs : option source) (nDMs : nat) (nrec : R) : mode :=
  match lgs with
  | None => SCAO
  | Some g => if (1 <? so_nSrc g)%nat then
                if (1 <? nDMs)%nat then MCAO else if Rlt_dec 1 nrec then LTAO else GLAO
              else SLAO
  end.

(** ** Theoretical error breakdown: 997-1068 and
    anisoplanatismModel.py:114-134 focal_anisoplanatism_variance *)
Record budget := mkBudget { b_fit : R; b_alias : R; b_servo : R; b_noise : R; b_ttservo : R; b_ttnoise : R; b_cone : R; b_total : R; b_strehl : R }.
(** np.sqrt: nan for a negative argument *)
Definition npsqrt (x : R) : result R := if Rlt_dec x 0 then Err NonFinite else Ok (sqrt x).
Definition rad2nm (a : atmo) (x : R) : result R := do s <- npsqrt x; Ok (s * a_wvl a * 10 ^ 9 / 2 / PI).
Definition npmean (l : list R) : result R := match l with [] => Err NonFinite | _ => Ok (lsum l / INR (length l)) end.
Definition pow53 (x : R) : result R := rpow x (5 / 3).
(** 1014-1024 sum over the radial orders nMin .. nMax-1 *)
Definition servo_sum (nmin : nat) (nmax : Z) : result R :=
  do l <- mapM (fun n => rpow (INR n + 1) (- 2 / 3)) (seq nmin (Z.to_nat nmax - nmin)); Ok (lsum l).
(** 1027-1030: comparison of the stored noise with [None]. For the high-order
    sensor the stored object is np.array(...) (567): a comparison with an array of
    two values or more has no truth value. *)
Definition noise_given (arr : bool) (v : pval) : result (option (list R)) :=
  match v with
  | PList [PNone] | PNone => if arr then Ok None else match v with PNone => Err TypeError | _ => Ok None end
  | PList [] => Ok (Some [])
  | PList [x] => do r <- as_num x; Ok (Some [r])
  | PList l => if arr then Err ValueError else do r <- mapM as_num l; Ok (Some r)
  | _ => do r <- as_num v; Ok (Some [r])
  end.
Definition noise_of (arr : bool) (w : wfs) (r0 wvl : R) : result (list R) :=
  do g <- noise_given arr (match lookup (w_attr w) "NoiseVariance" with Some v => v | None => PNone end);
  match g with None => NoiseVariance (w_sensor w) r0 wvl | Some l => Ok l end.
Definition dsub0 (w : wfs) : result R := do o <- pyindex (s_opt (w_sensor w)) 0; Ok (o_dsub o).
Definition cone_wfe (D : R) (a : atmo) (z : R) : result R :=
  do ts <- mapM (fun p => if Rlt_dec 0 (snd p) then
                            do g <- rdiv (snd p) z; do g53 <- pow53 g; Ok (fst p * (5 / 10 * g53 - 425 / 1000 * g ^ 2))
                          else Ok 0) (combine (a_w a) (a_h a));
  do q <- rdiv D (a_r0 a); do d <- pow53 q;
  do s <- npsqrt (lsum ts * d);
  Ok (s * (a_wvl a * 10 ^ 9 / 2 / PI)).
Definition budget_of (t : tel) (a : atmo) (d : dmsys) (w : wfs) (tts : option wfs) (r : rtc) (lgs : option source) (src : source) : result budget :=
  do q <- rdiv (t_D t) (a_r0 a); do Dr <- pow53 q;
  do p0 <- pyindex (dm_pitch (dd_dm d)) 0; do q1 <- rdiv p0 (a_r0 a); do da <- pow53 q1;
  do ds <- dsub0 w; do q2 <- rdiv ds (a_r0 a); do dw <- pow53 q2;
  do fit <- rad2nm a (23 / 100 * da);
  do ali <- rad2nm a (7 / 100 * dw);
  do nc <- pyindex (nControlledRadialOrder (dd_dm d)) 0;
  let nmax := Ztrunc (sqrt (PI * (5 / 10) ^ 2) * IZR (nc + 1)) in
  let two := match ttloop r, tts with Some l, Some x => Some (l, x) | _, _ => None end in
  do ss <- servo_sum (match two with Some _ => 3 | None => 1 end)%nat nmax;
  do mw <- meanWind a;
  do bw <- lp_bw (holoop r);
  do q3 <- rdiv mw (t_D t); do q4 <- rdiv q3 bw;
  do srv <- rad2nm a (4 / 100 * q4 * Dr * ss);
  do nv <- noise_of true w (a_r0 a) (a_wvl a); do mnv <- npmean nv;
  do noi <- rad2nm a mnv;
  do tt <- match two with
           | None => Ok (0, 0)
           | Some (l, x) =>
               do bt <- lp_bw l; do q5 <- rdiv q3 bt; do p2 <- rpow 2 (- 2 / 3);
               do s <- rad2nm a (4 / 100 * q5 * Dr * p2);
               do dt <- dsub0 x;
               do nvt <- noise_of false x dt (a_wvl a); do mt <- npmean nvt; do n <- rad2nm a mt; Ok (s, n)
           end;
  do cone <- match lgs with
             | Some g => do h <- pyindex (so_h g) 0; if Rlt_dec 0 h then cone_wfe (t_D t) a h else Ok 0
             | None => Ok 0 end;
  let tot := sqrt (fit ^ 2 + ali ^ 2 + srv ^ 2 + noi ^ 2 + fst tt ^ 2 + snd tt ^ 2 + cone ^ 2) in
  do w0 <- pyindex (so_wvl src) 0; do iw <- rdiv (2 * PI / 10 ^ 9) w0;
  Ok (mkBudget fit ali srv noi (fst tt) (snd tt) cone tot (exp (- tot ^ 2 * iw ^ 2))).

(** ** configLO_SC: 439-843 on an already configured telescope, atmosphere and
    guide stars. Result: the attributes set, and self.my_data_map afterwards. *)
Record core := mkCore { c_tel : tel; c_am : R; c_atm : atmo; c_stars : stars }.
Record science := mkSci { s_src : source; s_wfs : wfs; s_tts : option wfs; s_rtc : rtc; s_res : pval; s_dms : dmsys; s_cam : camera; s_mode : mode; s_wfe : option budget }.
(** non-finite entries of the breakdown do not raise: the breakdown is then not
    available in the model ([None]) *)
Definition soft {A} (r : result A) : result (option A) :=
  match r with Ok x => Ok (Some x) | Err NonFinite => Ok None | Err e => Err e end.
Definition tech_fov (t : tel) : result R := as_num (opt (t_attr t) "TechnicalFoV" (PInt 0)).
Definition configLO_SC (e : env) (ar : args) (k : core) (c : cfg) : result science * cfg :=
  match science_stage ar c with
  | Err x => (Err x, c)
  | Ok (wvl, src) =>
      match req_sec c "sensor_HO" with
      | Err x => (Err x, c)
      | Ok sho =>
          let w := ho_sensor (t_D (c_tel k)) sho in
          let c1 := assign c "sensor_HO" (snd w) in
          match fst w with
          | Err x => (Err x, c1)
          | Ok hw =>
              let l := if has_sec c1 "sensor_LO"
                       then let q := lo_sensor (t_D (c_tel k)) (sec c1 "sensor_LO") in
                            (do x <- fst q; Ok (Some x), assign c1 "sensor_LO" (snd q))
                       else (Ok None, c1) in
              let c2 := snd l in
              match (do tts <- fst l;
                     do rt <- rtc_stage (sec c2 "RTC");
                     do sd <- req_sec c2 "DM";
                     do tf <- tech_fov (c_tel k);
                     do dms <- dm_stage tf (t_D (c_tel k)) sd;
                     do cam <- cam_stage e (ar_expand ar) (c_am k) (sec c2 "atmosphere") (c_atm k) wvl (dm_pitch (dd_dm dms)) c2;
                     Ok (tts, rt, dms, cam)) with
              | Err x => (Err x, c2)
              | Ok (tts, rt, dms, cam) =>
                  let c3 := assign c2 "sensor_science" (snd cam) in
                  let m := ao_mode (g_lgs (c_stars k)) (length (dm_pitch (dd_dm dms))) (dd_nrec dms) in
                  (do b <- (if Rlt_dec 0 (lp_gain (holoop (fst rt)))
                            then soft (budget_of (c_tel k) (c_atm k) dms hw tts (fst rt) (g_lgs (c_stars k)) src)
                            else Ok None);
                   Ok (mkSci src hw tts (fst rt) (snd rt) dms (fst cam) m b), c3)
              end
          end
      end
  end.
(** Simplification: when line 761 has run but the detector constructor or its
    arguments then fail, the model leaves the map as it was before 761. *)

(** ** The constructor: 118-437 *)
Definition core_of (e : env) (c : cfg) : result core :=
  do st <- req_sec c "telescope";
  do t <- tel_stage e (precision_of c) st;
  do am <- airmass_of (t_zen t);
  do sa <- req_sec c "atmosphere";
  do a <- atm_stage am sa;
  do sh <- req_sec c "sources_HO";
  do g <- ho_stage am (has_sec c "sources_LO") sh;
  do g' <- lo_stage c g;
  Ok (mkCore t am a g').
Record system := mkSystem { y_core : core; y_sci : science }.
Definition aoSystem (e : env) (ar : args) (c : cfg) : result system * cfg :=
  match core_of e c with
  | Err x => (Err x, c)
  | Ok k => let r := configLO_SC e ar k c in (do s <- fst r; Ok (mkSystem k s), snd r)
  end.
