(** Model of the telemetry analysis p3/telemetry/systemDiagnosis.py: temporal transfer
    functions, noise variance, wind speed and atmosphere update. Floats are exact reals,
    complex numbers pairs of reals; nan/inf is [Err NonFinite]. *)
From Coq Require Import Reals List Arith ZArith.
From Flocq Require Import Core.Raux.
From Verif Require Import Base_Py Base_Sum Base_DFT M_Image M_Tools M_Freq M_Atmo M_Model M_Model2.
From Coquelicot Require Import Complex.
Import ListNotations.
Open Scope R_scope.

(** ** temporal_transfer_function, lines 87-133 *)

(** np.exp(1j*t) *)
Definition cis (t : R) : C := (cos t, sin t).
(** element-wise complex quotient; a zero denominator gives inf/nan *)
Definition cdiv (a b : C) : result C := if Ceq_dec b (RtoC 0) then Err NonFinite else Ok (Cdiv a b).

(** lines 88-89: np.exp(-2*complex(0,1)*freq*delay/fSamp) *)
Definition delay_tf (f fs delay : R) : result C := do q <- rdiv (- (2 * f * delay)) fs; Ok (cis q).
(** lines 90-91: np.sinc(freq/fSamp/np.pi)*np.exp(-1*complex(0,1)*freq/fSamp) *)
Definition wfs_tf (f fs : R) : result C :=
  do x <- rdiv f fs; Ok (Cmult (RtoC (sinc (x / PI))) (cis (- x))).
(** lines 92-96; the lists [num] and [den] are indexed up to 3 and 2 *)
Definition servo_tf (f fs : R) (num den : list R) : result C :=
  do q <- rdiv (- (2 * PI * f)) fs;
  let z := cis q in
  match num, den with
  | n0 :: n1 :: n2 :: n3 :: _, d0 :: d1 :: d2 :: _ =>
      let z2 := Cmult z z in let z3 := Cmult z (Cmult z z) in
      cdiv (Cplus (Cplus (Cplus (RtoC n0) (Cmult (RtoC n1) z)) (Cmult (RtoC n2) z2)) (Cmult (RtoC n3) z3))
           (Cplus (Cplus (Cplus (RtoC 1) (Cmult (RtoC d0) z)) (Cmult (RtoC d1) z2)) (Cmult (RtoC d2) z3))
  | _, _ => Err IndexError
  end.

(** the transfer functions of one loop at one frequency *)
Record tfs := { t_wfs : C; t_lag : C; t_servo : C; t_ol : C; t_ctf : C; t_rtf : C; t_ntf : C }.
(** lines 100-113 (high order) and 119-132 (tip-tilt): same statements for both loops *)
Definition loop_tf (fs lat : R) (num den : list R) (f : R) : result tfs :=
  do w <- wfs_tf f fs;
  do l <- delay_tf f fs (lat * fs);
  do s <- servo_tf f fs num den;
  let ol := Cmult (Cmult w s) l in
  do c <- cdiv ol (Cplus (RtoC 1) ol);
  let r := Cminus (RtoC 1) c in
  do n <- cdiv s (Cplus (RtoC 1) ol);
  Ok {| t_wfs := w; t_lag := l; t_servo := s; t_ol := ol; t_ctf := c; t_rtf := r; t_ntf := n |}.

(** lines 99, 118: np.linspace(freq/nExp, nExp/2, num=nExp//2)*freq/nExp; the first division
    is a Python one (ZeroDivisionError) *)
Definition tf_freq (fs : R) (nExp : nat) : result (list R) :=
  if (nExp =? 0)%nat then Err ZeroDivisionError
  else Ok (map (fun x => x * fs / INR nExp) (linspace (fs / INR nExp) (INR nExp / 2) (nExp / 2))).

(** np.trapz(y, x) for lists of the same length *)
Fixpoint trapz (y x : list R) : R :=
  match y, x with
  | y0 :: ((y1 :: _) as ys), x0 :: ((x1 :: _) as xs) => (x1 - x0) * (y0 + y1) / 2 + trapz ys xs
  | _, _ => 0
  end.

Definition cabs2 (c : C) : R := fst c * fst c + snd c * snd c.

(** one loop: frequencies, transfer functions and noise propagation (lines 99-114, 118-133).
    Simplification: the indices of [num] and [den] and the finiteness are examined per
    frequency; with no frequency nothing is examined. *)
Definition loop_model (fs lat : R) (num den : list R) (nExp : nat) : result (list R * list tfs * R) :=
  do fr <- tf_freq fs nExp;
  do t <- mapM (loop_tf fs lat num den) fr;
  do pn <- rdiv (trapz (map (fun x => cabs2 (t_ntf x)) t) fr * 2) fs;
  Ok (fr, t, pn).

(** ** get_noise_variance, lines 161-223 *)

Inductive noise_method := Nonoise | RtfMethod | Interpolation | Autocorrelation | OtherMethod.

(** np.roll(u, s, axis=0) *)
Definition roll0 (u : img) (s : Z) : img :=
  mkImg (rows u) (cols u) (fun t i => px u (Z.to_nat ((Z.of_nat t - s) mod Z.of_nat (rows u))) i).

(** line 171: u -= np.mean(u, axis=0), in place *)
Definition center0 (u : img) : img :=
  mkImg (rows u) (cols u) (fun t i => px u t i - rsum (rows u) (fun k => px u k i) / INR (rows u)).

(** lines 167-209. [rtflen] is the number of frequencies of the transfer function;
    [interp] stands for lines 197-201 applied to row i of u (fft autocorrelation and a
    polynomial fit, not modelled). The second component is u after the call (it is
    modified in place). 'rtf' always fails: line 181 slices with a float. *)
Definition slopes_to_noise (m : noise_method) (nshift : Z) (rtflen : nat) (interp : (nat -> R) -> result R) (u : img) : result img * img :=
  if (rows u =? 0)%nat then (Err NonFinite, u)
  else
  let v := center0 u in
  let nF := rows u in let nU := cols u in
  (match m with
   | RtfMethod => if ((rtflen =? nU) || (rtflen =? 1) || (nU =? 1))%nat then Err TypeError else Err ValueError
   | Interpolation =>
       if (nF <? nU)%nat then Err IndexError
       else do d <- mapM (fun i => interp (fun t => px v i t)) (seq 0 nU);
            Ok (mkImg nU nU (fun i j => if (i =? j)%nat then nth i d 0 else 0))
   | Autocorrelation =>
       let dn := roll0 v (- nshift) in let dp := roll0 v nshift in
       Ok (mkImg nU nU (fun i j =>
         / 2 * rsum nF (fun t => px v t i * ((px v t j - px dn t j) + (px v t j - px dp t j))) / INR nF))
   | _ => Ok (mkImg nU nU (fun _ _ => 0))
   end, v).

(** lines 211-223, for the commands of the high-order loop and the tip-tilt slopes; 'nonoise'
    leaves the telemetry untouched. *)
Definition noise_variance (m : noise_method) (nshift : Z) (rtflen : nat) (interp : (nat -> R) -> result R) (u : img) : result img * img :=
  match m with
  | Nonoise => (Ok (mkImg (cols u) (cols u) (fun _ _ => 0)), u)
  | _ => slopes_to_noise m nshift rtflen interp u
  end.

Definition rmeanl (l : list R) : result R := rdiv (lsum l) (INR (length l)).
Definition nonzero (x : R) : bool := if Req_EM_T x 0 then false else true.
(** lines 45-56: the noise variance attributes; [wvl_tt] is the tip-tilt wavelength in LGS
    mode and the high-order one otherwise. *)
Definition diag (c : img) : list R := map (fun i => px c i i) (seq 0 (Nat.min (rows c) (cols c))).
Definition any_img (c : img) : bool :=
  existsb (fun i => existsb (fun j => nonzero (px c i j)) (seq 0 (cols c))) (seq 0 (rows c)).
Definition noise_attr (wvl wvl_tt : R) (nSubap : nat) (Cao Ctt : img) : result (list R * list R) :=
  if any_img Cao then
    do w <- rdiv (2 * PI) wvl;
    do m <- rmeanl (filter nonzero (diag Cao));
    do wt <- rdiv (2 * PI) wvl_tt;
    do mt <- rmeanl (diag Ctt);
    Ok (repeat (w ^ 2 * m) nSubap, [wt ^ 2 * mt])
  else Ok ([0], [0]).

(** ** get_wind_speed, lines 376-469 *)

(** lines 379-404: the table of Student's quantiles *)
Definition stud_q : list R := [0.75; 0.8; 0.85; 0.9; 0.95; 0.975; 0.99; 0.995; 0.997; 0.998].
Definition stud_area : list (list R) :=
 [ [1; 1.376; 1.963; 3.078; 6.31; 12.71; 31.82; 63.66; 106.1; 159.2];
   [0.816; 1.061; 1.386; 1.886; 2.92; 4.303; 6.965; 9.925; 12.85; 15.76];
   [0.765; 0.978; 1.25; 1.638; 2.353; 3.182; 4.541; 5.841; 6.994; 8.053];
   [0.741; 0.941; 1.19; 1.533; 2.132; 2.776; 3.747; 4.604; 5.321; 5.951];
   [0.727; 0.92; 1.156; 1.476; 2.015; 2.571; 3.365; 4.032; 4.57; 5.03];
   [0.718; 0.906; 1.134; 1.44; 1.943; 2.447; 3.143; 3.707; 4.152; 4.524];
   [0.727; 0.92; 1.156; 1.476; 2.015; 2.571; 3.365; 4.032; 4.57; 5.03];
   [0.706; 0.889; 1.108; 1.397; 1.86; 2.306; 2.896; 3.355; 3.705; 3.991];
   [0.703; 0.883; 1.1; 1.383; 1.833; 2.262; 2.821; 3.25; 3.573; 3.835];
   [0.7; 0.879; 1.093; 1.372; 1.812; 2.228; 2.764; 3.169; 3.472; 3.716] ].
(** q.searchsorted(x): number of entries below x *)
Definition searchsorted (q : list R) (x : R) : nat := length (filter (fun y => if Rlt_dec y x then true else false) q).
Definition student (quantile : R) (nWin : Z) : result R :=
  let idq := searchsorted stud_q quantile in
  let n := if (10 <? nWin)%Z then Z.min 7 nWin else nWin in
  do row <- pyindex stud_area (n - 1);
  pyindex row (Z.of_nat idq).

(** lines 407-411: autocorrelation of one mode through zero-padded FFTs; lags 0..N-1 *)
Definition autocorr (N : nat) (z : nat -> R) (k : nat) : R :=
  let pad := fun t => RtoC (if (t <? N)%nat then z t else 0) in
  let ps := fun q => RtoC (cabs2 (dft1 (2 * N) pad q)) in
  fst (idft1 (2 * N) ps k) / INR N.

(** lines 414-420: denoised and normalised *)
Definition norm_cov (N : nat) (z : nat -> R) (noise vn : R) : result (list R) :=
  do c0 <- (if (N =? 0)%nat then Err IndexError else Ok (autocorr N z 0 - noise * vn));
  mapM (fun k => rdiv (autocorr N z k - noise * vn) c0) (seq 0 N).

(** line 429: np.argwhere(cov[i] < thres)[0][0] *)
Fixpoint first_below (thres : R) (c : list R) (k : nat) : result nat :=
  match c with
  | [] => Err IndexError
  | x :: r => if Rlt_dec x thres then Ok k else first_below thres r (S k)
  end.
(** line 431: np.linspace(indlim-nWin//2, indlim+nWin//2, num=nWin).astype(int) (truncation) *)
Definition window (indlim nWin : nat) : list Z :=
  map Ztrunc (linspace (INR indlim - INR (nWin / 2)) (INR indlim + INR (nWin / 2)) nWin).

(** lines 433-448: linear regression over the window, crossing time and its uncertainty.
    [nWin] is a Python int: 1/(nWin*(nWin-2)) is a Python division. *)
Record regr := { r_slope : R; r_off : R; r_tau : R; r_de : R; r_dtau : R }.
Definition rhypot (a b : R) : R := sqrt (a * a + b * b).
Definition regress (x y : list R) (nWin : nat) (thres t5 fs : R) : result regr :=
  let n := INR nWin in
  let Sx := lsum x in let Sxx := lsum (map (fun v => v ^ 2) x) in
  let Sy := lsum y in let Syy := lsum (map (fun v => v ^ 2) y) in
  let Sxy := lsum (map (fun p => fst p * snd p) (combine x y)) in
  do slope <- rdiv (n * Sxy - Sx * Sy) (n * Sxx - Sx ^ 2);
  do q1 <- rdiv Sy n; do q2 <- rdiv (slope * Sx) n;
  let offset := q1 - q2 in
  do t1 <- rdiv (thres - offset) slope; do tau <- rdiv t1 fs;
  do c <- (if Req_EM_T (n * (n - 2)) 0 then Err ZeroDivisionError else Ok (1 / (n * (n - 2))));
  do de <- rsqrt (c * (n * Syy - Sy ^ 2 - slope ^ 2 * (n * Sxx - Sx ^ 2)));
  do qn <- rdiv n (n * Sxx - Sx ^ 2); do sq <- rsqrt qn;
  let db := t5 * de * sq in
  do sq2 <- rdiv Sxx n; do sr <- rsqrt sq2;
  let da := db * sr in
  do e1 <- rdiv da slope; do e2 <- rdiv (db * (thres - offset)) (slope ^ 2);
  do dtau <- rdiv (rhypot e1 e2) fs;
  Ok {| r_slope := slope; r_off := offset; r_tau := tau; r_de := de; r_dtau := dtau |}.

(** lines 427-448 for one mode *)
Definition mode_tau (N nWin : nat) (thres noise t5 fs : R) (z : nat -> R) (vn : R) : result (R * R) :=
  do c <- norm_cov N z noise vn;
  do ind <- first_below thres c 0;
  let x := window ind nWin in
  do y <- mapM (fun i => pyindex c i) x;
  do r <- regress (map IZR x) y nWin thres t5 fs;
  Ok (r_tau r, r_dtau r).

(** varIn[n == value] *)
Definition select (n : list R) (v : R) (l : list R) : list R :=
  map snd (filter (fun p => if Req_EM_T (fst p) v then true else false) (combine n l)).

(** lines 451-469: averages per radial order and wind speed *)
Definition wind_speed (D coeff : R) (nrad tau dtau : list R) : result (R * R) :=
  let nu := np_unique nrad in
  do taun <- mapM (fun v => rmeanl (select nrad v tau)) nu;
  do dtaun <- mapM (fun v => rmeanl (select nrad v dtau)) nu;
  do q1 <- mapM (fun p => rdiv (fst p + 1) (snd p)) (combine nu taun);
  let sum2 := lsum (map (fun v => (v + 1) ^ 2) nu) in
  do v0 <- rdiv (D * lsum q1) (coeff * PI * 0.3 * sum2);
  do q2 <- mapM (fun p => rdiv (snd (snd p) * (fst p + 1)) (fst (snd p) ^ 2)) (combine nu (combine taun dtaun));
  do dv0 <- rdiv (D * lsum q2) (coeff * PI * 0.3 * sum2);
  Ok (v0, dv0).

(** lines 376-469. [modes] are the rows of coefficients with the noise variance of each. *)
Definition get_wind_speed (D fs thres coeff noise quantile : R) (nWin N : nat) (modes : list ((nat -> R) * R)) (nrad : list R) : result (R * R) :=
  do t5 <- student quantile (Z.of_nat nWin);
  do td <- mapM (fun m => mode_tau N nWin thres noise t5 fs (fst m) (snd m)) modes;
  wind_speed D coeff nrad (map fst td) (map snd td).

(** ** average_radial_order, lines 471-480 *)
Definition average_radial_order (nrad var : list R) : result (list R) :=
  mapM (fun v => median (select nrad v var)) (np_unique nrad).

(** ** get_atmosphere_statistics, lines 359-374 (the least-squares fit r0, L0 and its
    uncertainties are arguments), and the update of the atmosphere, lines 76-84 *)
Definition tau0_of (r0 dr0 v0 dv0 : R) : result (R * R) :=
  do t <- rdiv (0.314 * r0) v0;
  do a <- rdiv dr0 v0; do b <- rdiv (r0 * dv0) (v0 ^ 2);
  Ok (t, 0.314 * rhypot a b).
Definition rad2arc : R := 3600 * 180 * 1000 / PI / 1000.
Record atm_upd := { u_r0 : R; u_L0 : R; u_seeing : R; u_wSpeed : list R }.
(** lines 76-84; line 81 calls eqLayers with its default power 5/3 *)
Definition update_atm (wvl r0 L0 v0 : R) (Cn2 wSpeed : list R) : result atm_upd :=
  do see <- rdiv (rad2arc * wvl) r0;
  do ws <- (if (1 <? length Cn2)%nat then
              do e <- eqLayers (5 / 3) Cn2 wSpeed 1;
              match snd e with
              | [vm] => mapM (fun w => rdiv (v0 * w) vm) wSpeed
              | _ => Err ValueError
              end
            else Ok [v0]);
  Ok {| u_r0 := r0; u_L0 := L0; u_seeing := see; u_wSpeed := ws |}.
