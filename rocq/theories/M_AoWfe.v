(** Model of the theoretical wavefront error breakdown of an AO system: aoSystem.py:997-1068 [errorBreakdown], with the loop
    bandwidths of rtc.py:15-33 and the controlled radial order of deformableMirror.py:17-22. Float values are exact reals;
    divisions by zero and roots of negative numbers are reported as NonFinite. *)
From Coq Require Import Reals List Arith ZArith.
From Flocq Require Import Core.Raux.
From Verif Require Import Base_Py M_Tools M_Atmo M_Sensor M_Model2 M_Aniso.
Import ListNotations.
Open Scope R_scope.

(** rtc.py:23-33, one loop *)
Record loop := mkLoop { lp_gain : R; lp_rate : R; lp_delay : R }.
Definition bandwidth (l : loop) : result R :=
  do q <- rdiv (lp_gain l) (1 + 2 * lp_delay l); do s <- rsqrt q; Ok (lp_rate l / 2 / PI * s).
(** what the breakdown reads: telescope diameter, atmosphere, pitches of the mirrors, number of valid actuators of the first
    one, high-order sensor and its noise variance if given, loops, tip-tilt sensor, altitudes of the laser star, science
    wavelengths. [y_lo = None]: the rtc has no attribute ttloop. *)
Record aosys := mkAosys { y_D : R; y_atm : atmo; y_pitch : list R; y_nact : nat; y_wfs : sensor; y_noise : option (list R);
  y_ho : loop; y_lo : option loop; y_tts : option (sensor * option (list R)); y_lgs : option (list R); y_wvl : list R }.
(** the dictionary of line 1003 *)
Record wfe := mkWfe { w_fit : R; w_alias : R; w_lag : R; w_noise : R; w_ttlag : R; w_ttnoise : R; w_focal : R; w_total : R; w_strehl : R }.

(** line 1002 *)
Definition rad2nm (wvl x : R) : result R := do s <- rsqrt x; Ok (s * wvl * 10 ^ 9 / 2 / PI).
(** deformableMirror.py:21-22 nControlledRadialOrder plus one: int(sqrt(2 nValidActuator)) *)
Definition radial1 (nact : nat) : nat := Nat.sqrt (2 * nact).
(** lines 1016-1017 nMax *)
Definition n_max (nact : nat) : Z := Ztrunc (sqrt (PI * (5 / 10) ^ 2) * INR (radial1 nact)).
(** lines 1018-1021: the tip-tilt loop and its sensor both exist *)
Definition tt_loop (s : aosys) : option (loop * (sensor * option (list R))) :=
  match y_lo s, y_tts s with Some l, Some t => Some (l, t) | _, _ => None end.
Definition n_min (s : aosys) : nat := match tt_loop s with Some _ => 3 | None => 1 end.
(** lines 1023, 1026: the sum over range(nMin, nMax) *)
Definition order_sum (lo : nat) (hi : Z) : R := lsum (map (fun n => Rpower (INR (n + 1)) (- 2 / 3)) (seq lo (Z.to_nat hi - lo))).
(** np.mean of the noise variances *)
Definition np_mean (l : list R) : result R := rdiv (lsum l) (INR (List.length l)).
Definition noise_of (given : option (list R)) (computed : result (list R)) : result (list R) := match given with Some l => Ok l | None => computed end.
(** lines 1024-1026 and 1037-1039 *)
Definition lag (s : aosys) (Dr053 : R) (l : loop) (f : R) : result R :=
  do v <- meanWind (y_atm s); do q <- rdiv v (y_D s); do b <- bandwidth l; do q2 <- rdiv q b;
  rad2nm (a_wvl (y_atm s)) (4 / 100 * q2 * Dr053 * f).
(** lines 997-1068. The calibrated noise of the tip-tilt sensor is computed for a Fried parameter of one sub-aperture
    (line 1046). *)
Definition errorBreakdown (s : aosys) : result wfe :=
  let a := y_atm s in let w := a_wvl a in
  let p53 x := do q <- rdiv x (a_r0 a); rpow q (5 / 3) in
  do d53 <- p53 (y_D s);
  do pit <- pyindex (y_pitch s) 0; do a53 <- p53 pit;
  do o0 <- pyindex (s_opt (y_wfs s)) 0; do s53 <- p53 (o_dsub o0);
  do fit <- rad2nm w (23 / 100 * a53);
  do ali <- rad2nm w (7 / 100 * s53);
  do holag <- lag s d53 (y_ho s) (order_sum (n_min s) (n_max (y_nact s)));
  do vn <- noise_of (y_noise s) (NoiseVariance (y_wfs s) (a_r0 a) w); do mn <- np_mean vn; do hon <- rad2nm w mn;
  do tt <- match tt_loop s with
           | None => Ok (0, 0)
           | Some (l, (t, nv)) =>
               do tl <- lag s d53 l (Rpower 2 (- 2 / 3));
               do vt <- match nv with Some x => Ok x | None => do o <- pyindex (s_opt t) 0; NoiseVariance t (o_dsub o) w end;
               do mt <- np_mean vt; do tn <- rad2nm w mt; Ok (tl, tn)
           end;
  do foc <- match y_lgs s with
            | None => Ok 0
            | Some hs => do h <- pyindex hs 0; if Rlt_dec 0 h then focal_anisoplanatism_variance (y_D s) h a else Ok 0
            end;
  let tot := sqrt (fit ^ 2 + ali ^ 2 + holag ^ 2 + hon ^ 2 + fst tt ^ 2 + snd tt ^ 2 + foc ^ 2) in
  do sw <- pyindex (y_wvl s) 0; do k <- rdiv (2 * PI / 10 ^ 9) sw;
  Ok (mkWfe fit ali holag hon (fst tt) (snd tt) foc tot (exp (- (tot ^ 2 * k ^ 2)))).
