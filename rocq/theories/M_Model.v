(** Model of the spatial reconstructor, the controller and the single-guide-star
    PSD contributions of p3/aoSystem/fourierModel.py. Arrays are given pixel by
    pixel; float and complex values are exact. *)
From Coq Require Import Reals List Arith ZArith String.
From Flocq Require Import Core.Raux.
From Verif Require Import Base_Py Base_Sum M_Tools M_Freq M_Atmo M_Sensor.
From Coquelicot Require Import Complex.
Import ListNotations.
Open Scope R_scope.

(** exp(i t), numpy.sinc, 1j*x *)
Definition cis (t : R) : C := (cos t, sin t).
Definition sinc (x : R) : R := if Req_EM_T x 0 then 1 else sin (PI * x) / (PI * x).
Definition imag (x : R) : C := (0, x).
(** numpy.sign *)
Definition rsign (x : R) : R := if Rlt_dec x 0 then -1 else if Rlt_dec 0 x then 1 else 0.
Definition cdivr (c : C) (r : R) : result C := if Req_EM_T r 0 then Err NonFinite else Ok (fst c / r, snd c / r).
(** sum of a list of complex numbers *)
Definition clsum (l : list C) : C := fold_right Cplus (RtoC 0) l.

(** One turbulent layer as the model uses it: weight, altitude, wind vector. *)
Record lay := mkLay { l_w : R; l_h : R; l_vx : R; l_vy : R }.

(** The attributes of a fourierModel used by these functions. [y_off] is the
    constant 1e-10 of freq_array, [y_atm] the atmosphere at the reference
    wavelength, [y_Wn] = mean(noiseVar)/(2*kcMax)^2, [y_layers] the layers with
    stretched altitudes Hs = heights*strechFactor. *)
Record fsys := mkSys {
  y_res : nat; y_step : R; y_off : R; y_kcMax : R; y_circle : bool; y_D : R; y_j1 : R -> R;
  y_sp : special; y_atm : atmo; y_layers : list lay;
  y_type : string; y_dsub : R; y_nL : R; y_mod : R; y_bin : R; y_clock : list R; y_noise : list R;
  y_gswvl : R; y_gain : R; y_rate : R; y_delay : R }.

(** frequencyDomain.py:46-50 frequency arrays of the corrected area *)
Definition kxAO (y : fsys) (i j : nat) : R := freq_x (y_res y) (y_step y) (y_off y) i j.
Definition kyAO (y : fsys) (i j : nat) : R := freq_y (y_res y) (y_step y) (y_off y) i j.
Definition k2AO (y : fsys) (i j : nat) : R := kxAO y i j ^ 2 + kyAO y i j ^ 2.
(** [i, j] is the central pixel resAO//2, resAO//2 *)
Definition centre (y : fsys) (i j : nat) : bool := ((i =? y_res y / 2) && (j =? y_res y / 2))%nat%bool.
(** frequencyDomain.py:51-53 *)
Definition pistonAO (y : fsys) (i j : nat) : R :=
  if centre y i j then 0 else pistonFilter (y_j1 y) (y_D y) (sqrt (k2AO y i j)).
Definition b2R (b : bool) : R := if b then 1 else 0.
(** frequencyDomain.py:55-68 *)
Definition maskAO (y : fsys) (i j : nat) : R := b2R (mskIn (y_circle y) (y_kcMax y) (kxAO y i j) (kyAO y i j)).
(** fourierModel.py:283 Wphi *)
Definition Wphi (y : fsys) (i j : nat) : result R := spectrum (y_sp y) (y_atm y) (sqrt (k2AO y i j)).
(** fourierModel.py:282 Wn (np.mean of the noise variances) *)
Definition mean (l : list R) : result R := if (length l =? 0)%nat then Err NonFinite else Ok (lsum l / INR (length l)).
Definition Wn (y : fsys) : result R := do m <- mean (y_noise y); rdiv m ((2 * y_kcMax y) ^ 2).

(** ** reconstructionFilter, fourierModel.py:424-473 *)
(** lines 433-452, the x filter before averaging *)
Definition Sx (y : fsys) (i j : nat) : result C :=
  if (upper (y_type y) =? "SHACK-HARTMANN")%string then Ok (imag (2 * PI * kxAO y i j * y_dsub y))
  else if (upper (y_type y) =? "PYRAMID")%string then
    do a <- rdiv 1 (2 * y_dsub y); do b <- rdiv a (y_nL y / 2);
    let umod := b * y_mod y in
    if Rlt_dec umod (Rabs (kxAO y i j)) then Ok (imag (rsign (kxAO y i j)))
    else do q <- rdiv (kxAO y i j) umod; Ok (imag (2 / PI * asin q))
  else Err ValueError.
(** Sy: 2i pi ky d, or the transpose of Sx *)
Definition Sy (y : fsys) (i j : nat) : result C :=
  if (upper (y_type y) =? "SHACK-HARTMANN")%string then Ok (imag (2 * PI * kyAO y i j * y_dsub y)) else Sx y j i.
(** lines 436-437 and 449-450 *)
Definition Av (y : fsys) (i j : nat) : C :=
  if (upper (y_type y) =? "SHACK-HARTMANN")%string
  then Cmult (RtoC (sinc (y_dsub y * kxAO y i j) * sinc (y_dsub y * kyAO y i j)))
             (cis (PI * y_dsub y * (kxAO y i j + kyAO y i j)))
  else RtoC (sinc (y_bin y * y_dsub y * kxAO y i j) * sinc (y_bin y * y_dsub y * kxAO y j i)).
Definition SxAv (y : fsys) (i j : nat) : result C := do s <- Sx y i j; Ok (Cmult s (Av y i j)).
Definition SyAv (y : fsys) (i j : nat) : result C := do s <- Sy y i j; Ok (Cmult s (Av y i j)).
(** lines 462-471: the reconstructor; at the central pixel whatever was computed
    (even nan) is overwritten by 0. *)
Definition recon (y : fsys) (MV : R) (i j : nat) : result (C * C) :=
  let r := (do sx <- SxAv y i j; do sy <- SyAv y i j;
            do q <- rdiv (a_wvl (y_atm y)) (y_gswvl y);
            do p <- Wphi y i j;
            do wn <- Wn y;
            do m <- rdiv (MV * wn) (p * q ^ 2);
            let g := Cmod sx ^ 2 + Cmod sy ^ 2 + m in
            do rx <- cdivr (Cconj sx) g; do ry <- cdivr (Cconj sy) g;
            Ok (rx, ry)) in
  if centre y i j then match r with Err NonFinite | Ok _ => Ok (RtoC 0, RtoC 0) | Err e => Err e end else r.
(** line 1099 etc.: F = Rx*SxAv + Ry*SyAv *)
Definition filterF (y : fsys) (MV : R) (i j : nat) : result C :=
  do r <- recon y MV i j; do sx <- SxAv y i j; do sy <- SyAv y i j;
  Ok (Cplus (Cmult (fst r) sx) (Cmult (snd r) sy)).

(** ** controller, fourierModel.py:652-745 *)
(** argument of the unit number cis t in (-pi, pi] *)
Definition princ (t : R) : R := t - 2 * PI * IZR (Zceil (t / (2 * PI) - / 2)).
(** z ** p for z = cis t (principal branch of the complex power) *)
Definition zpow (t p : R) : C := cis (p * princ t).
(** np.finfo(float).eps and np.where(abs(x) < eps, eps, x) *)
Definition eps : R := / 2 ^ 52.
Definition guard (x : C) : C := if Rlt_dec (Cmod x) eps then RtoC eps else x.
(** lines 708-720: transfer function of the loop for z = cis t *)
Definition hInt (g t : R) : C := Cdiv (RtoC g) (guard (Cminus (RtoC 1) (zpow t (-1)))).
Definition rtfInt (g delay t : R) : C :=
  Cdiv (RtoC 1) (guard (Cplus (RtoC 1) (Cmult (hInt g t) (zpow t (- delay))))).
Definition atfInt (g delay t : R) : C :=
  Cmult (Cmult (hInt g t) (zpow t (- delay))) (rtfInt g delay t).
Definition ntfInt (g delay t : R) : C := Cdiv (atfInt g delay t) (cis t).
(** line 664: thetaWind *)
Definition thetas (nTh : nat) : list R := linspace 0 (2 * PI - 2 * PI / INR nTh) nTh.
(** lines 705-706: argument of z for a layer and a wind angle *)
Definition zarg (y : fsys) (l : lay) (th : R) (i j : nat) : R :=
  - 2 * PI * (- l_vx l * kxAO y i j * cos th - l_vy l * kyAO y i j * cos th) * (1 / y_rate y).
(** lines 733-739: averages over the wind angles and the layers *)
Definition h1 (y : fsys) (nTh : nat) (i j : nat) : C :=
  clsum (map (fun l => Cmult (RtoC (l_w l / INR nTh))
    (clsum (map (fun th => atfInt (y_gain y) (y_delay y) (zarg y l th i j)) (thetas nTh)))) (y_layers y)).
Definition h2 (y : fsys) (nTh : nat) (i j : nat) : R :=
  lsum (map (fun l => l_w l / INR nTh *
    lsum (map (fun th => Cmod (atfInt (y_gain y) (y_delay y) (zarg y l th i j)) ^ 2) (thetas nTh))) (y_layers y)).
Definition hn (y : fsys) (nTh : nat) (i j : nat) : R :=
  lsum (map (fun l => l_w l / INR nTh *
    lsum (map (fun th => Cmod (ntfInt (y_gain y) (y_delay y) (zarg y l th i j)) ^ 2) (thetas nTh))) (y_layers y)).
(** lines 680-700: temporal frequencies and noise gain *)
Definition tfreqs (rate : R) (nF : nat) : list R :=
  map (fun x => Rpower 10 x) (linspace (-3) (ln (/ 2 * rate) / ln 10) nF).
Fixpoint trapz (v f : list R) : R :=
  match v, f with
  | a :: ((b :: _) as v'), x :: ((w :: _) as f') => (w - x) * (a + b) / 2 + trapz v' f'
  | _, _ => 0
  end.
Definition noiseGain (y : fsys) (nF : nat) : R :=
  trapz (map (fun f => Cmod (ntfInt (y_gain y) (y_delay y) (- 2 * PI * f * (1 / y_rate y))) ^ 2) (tfreqs (y_rate y) nF))
        (tfreqs (y_rate y) nF) * 2 * (1 / y_rate y).
(** lines 658-675: what controller() leaves: nothing for a null gain (the
    attributes h1, h2, noiseGain do not exist), otherwise the three averages. *)
Definition controller (y : fsys) (nTh nF : nat) : result (option ((nat -> nat -> C) * (nat -> nat -> R) * R)) :=
  if Req_EM_T (y_gain y) 0 then Ok None
  else if Req_EM_T (y_rate y) 0 then Err ZeroDivisionError
  else if Rlt_dec (y_rate y) 0 then Err ValueError
  else Ok (Some (h1 y nTh, h2 y nTh, noiseGain y nF)).

(** ** PSD contributions, one guide star *)
(** line 1191: Watm *)
Definition Watm (y : fsys) (i j : nat) : result R := do p <- Wphi y i j; Ok (p * pistonAO y i j).
(** noisePSD, fourierModel.py:1059-1073 *)
Definition noisePSD (y : fsys) (MV : R) (nTh nF : nat) (i j : nat) : result R :=
  do m <- mean (y_noise y);
  do v0 <- pyindex (y_noise y) 0;
  if Rlt_dec 0 v0 then
    do r <- recon y MV i j;
    do c <- controller y nTh nF;
    match c with
    | None => Err AttributeError
    | Some (_, _, ng) =>
      do q <- rdiv (Cmod (Cplus (Cmult (fst r) (fst r)) (Cmult (snd r) (snd r)))) ((2 * y_kcMax y) ^ 2);
      Ok (maskAO y i j * q * pistonAO y i j * ng * m)
    end
  else Ok 0.
(** reconstructionPSD, fourierModel.py:1092-1105 *)
Definition reconstructionPSD (y : fsys) (MV : R) (i j : nat) : result R :=
  do f <- filterF y MV i j; do p <- Wphi y i j;
  Ok (Cmod (Cminus (RtoC 1) f) ^ 2 * maskAO y i j * p * pistonAO y i j).
(** servoLagPSD, fourierModel.py:1107-1125 *)
Definition servoLagPSD (y : fsys) (MV : R) (nTh nF : nat) (i j : nat) : result R :=
  do f <- filterF y MV i j; do w <- Watm y i j;
  do c <- controller y nTh nF;
  let psd := match c with
             | None => Cmod (Cminus (RtoC 1) f) ^ 2 * w
             | Some (a, b, _) => (1 + Cmod f ^ 2 * b i j - 2 * fst (Cmult f (a i j))) * w
             end in
  Ok (maskAO y i j * Rabs psd).
(** spatioTemporalPSD, fourierModel.py:1176-1213, single guide star; [tx, ty] =
    src.direction[:, s] - gs.direction[:, 0]. Note kx*th[1] + ky*th[0]. *)
Definition aniso_A (y : fsys) (tx ty : R) (i j : nat) : C :=
  if (if Req_EM_T tx 0 then if Req_EM_T ty 0 then true else false else false) then RtoC 1
  else clsum (map (fun l => Cmult (RtoC (l_w l)) (cis (2 * PI * l_h l * (kxAO y i j * ty + kyAO y i j * tx)))) (y_layers y)).
Definition spatioTemporalPSD (y : fsys) (MV : R) (nTh nF : nat) (tx ty : R) (i j : nat) : result R :=
  do w <- Watm y i j; do f <- filterF y MV i j;
  do c <- controller y nTh nF;
  match c with
  | None => Ok (Cmod (Cminus (RtoC 1) f) ^ 2 * w)
  | Some (a, b, _) =>
      Ok (maskAO y i j * (1 + Cmod f ^ 2 * b i j - 2 * fst (Cmult (Cmult f (a i j)) (aniso_A y tx ty i j))) * w)
  end.
(** anisoplanatismPSD, fourierModel.py:1232-1252 *)
Definition anisoplanatismPSD (y : fsys) (tx ty : R) (i j : nat) : result R :=
  do w <- Watm y i j;
  if (if Req_EM_T tx 0 then if Req_EM_T ty 0 then true else false else false) then Ok 0
  else Ok (maskAO y i j *
    lsum (map (fun l => 2 * l_w l * (1 - cos (2 * PI * l_h l * (kxAO y i j * ty + kyAO y i j * tx)))) (y_layers y)) * w).
(** differentialRefractionPSD, fourierModel.py:1254-1277; [arg_k] = arctan2(ky,kx)
    at the pixel, given by the caller; [theta] the refraction angle. *)
Definition differentialRefractionPSD (y : fsys) (zenith theta azimuth : R) (arg_k : nat -> nat -> R) (i j : nat) : result R :=
  do w <- Watm y i j;
  if Req_EM_T zenith 0 then Ok 0
  else Ok (maskAO y i j *
    lsum (map (fun l => 2 * l_w l * (1 - cos (2 * PI * l_h l * sqrt (k2AO y i j) * tan theta * cos (arg_k i j - azimuth)))) (y_layers y)) * w).
(** chromatismPSD, fourierModel.py:1279-1300 *)
Definition chromatismPSD (y : fsys) (n_gs n_ref : R) (i j : nat) : result R :=
  do w <- Watm y i j; do q <- rdiv (n_gs - n_ref) n_gs; Ok (q ^ 2 * w).
(** fittingPSD, fourierModel.py:929-937, at frequency (kx,ky) of the full grid *)
Definition fittingPSD (y : fsys) (kx ky : R) : result R :=
  if mskOut (y_circle y) (y_kcMax y) kx ky then spectrum (y_sp y) (y_atm y) (sqrt (kx ^ 2 + ky ^ 2)) else Ok 0.

(** ** aliasingPSD, fourierModel.py:939-1057 *)
(** one layer, one shifted frequency (km, kn): lines 1028-1034 *)
Definition avr (T td : R) (tf : C) (km kn : R) (l : lay) : C :=
  Cmult (Cmult (RtoC (sinc (km * l_vx l * T) * sinc (kn * l_vy l * T))) (cis (2 * PI * (km * l_vx l + kn * l_vy l) * td))) tf.
(** lines 1010-1041: loop over chunks of layers [start : min(start+chunk, nL)];
    [fuel] bounds the number of iterations of range(0, nL, chunk). *)
Fixpoint chunk_loop (fuel chunk start : nat) (f : lay -> C) (ls : list lay) (acc : C) : C :=
  match fuel with
  | O => acc
  | S n => if (length ls <=? start)%nat then acc
           else let e := Nat.min (start + chunk) (length ls) in
                chunk_loop n chunk (start + chunk) f ls
                  (Cplus acc (clsum (map f (firstn (e - start) (skipn start ls)))))
  end.
Definition avr_sum (chunk_max : nat) (T td : R) (tf : C) (km kn : R) (ls : list lay) : result C :=
  let chunk := Nat.min chunk_max (length ls) in
  if (chunk =? 0)%nat then Err ValueError      (* range() arg 3 must not be zero *)
  else Ok (chunk_loop (length ls) chunk 0 (fun l => Cmult (RtoC (l_w l)) (avr T td tf km kn l)) ls (RtoC 0)).
(** infinite outer scale: 1/L0**2 = 0 *)
Definition inv_L0_2 (a : atmo) : result R :=
  match a_L0 a with LList _ => Err TypeError | LNum Inf => Ok 0 | LNum (Fin L) => rdiv 1 (L ^ 2) end.
(** one term of the double sum over the shifts (m, n) *)
Definition alias_term (y : fsys) (chunk_max : nat) (r : C * C) (tf : C) (T td : R) (i j : nat) (m n : Z) : result R :=
  let d := y_dsub y in
  do km <- (do q <- rdiv (IZR m) d; Ok (kxAO y i j - q));
  do kn <- (do q <- rdiv (IZR n) d; Ok (kyAO y i j - q));
  let PR := pistonFilter (y_j1 y) (y_D y) (hypot km kn) in
  do l0 <- inv_L0_2 (y_atm y);
  do W <- rpow (km ^ 2 + kn ^ 2 + l0) (- 11 / 6);
  let w := imag (2 * PI * d) in
  let Q := Cmult (Cplus (Cmult (Cmult (fst r) w) (RtoC km)) (Cmult (Cmult (snd r) w) (RtoC kn))) (RtoC (sinc (d * km) * sinc (d * kn))) in
  do s <- avr_sum chunk_max T td tf km kn (y_layers y);
  Ok (PR * W * Cmod (Cmult Q s) ^ 2 * b2R (negb ((m =? 0) && (n =? 0))%Z)).
(** np.arange(-nTimes, nTimes) *)
Definition shifts (nT : nat) : list Z := map (fun k => (Z.of_nat k - Z.of_nat nT)%Z) (seq 0 (2 * nT)).
(** lines 949-1057; [tf] is 1 (an int without ravel: AttributeError) for a null
    gain, h1 otherwise. *)
Definition aliasingPSD (y : fsys) (MV : R) (chunk_max nTh nF nT : nat) (i j : nat) : result R :=
  do cs <- mapM (fun c => rdiv c (y_rate y)) (y_clock y);
  do T <- mean cs;
  let td := T * y_delay y in
  do r <- recon y MV i j;
  do c <- controller y nTh nF;
  match c with
  | None => Err AttributeError
  | Some (a, _, _) =>
    do ts <- mapM (fun mn => alias_term y chunk_max r (a i j) T td i j (fst mn) (snd mn))
               (flat_map (fun m => map (fun n => (m, n)) (shifts nT)) (shifts nT));
    do p <- rpow (a_r0 (y_atm y)) (- 5 / 3);
    Ok (maskAO y i j * lsum ts * p * (229 / 10000))
  end.
