(** Model of p3/aoSystem/airRefraction.py (refractivity of humid air: Ciddor 1996
    below 1.3 um, Mathar 2006 above). Floats are exact reals; the numbers of the
    source are copied digit by digit as decimal fractions. *)
From Coq Require Import Reals List Arith ZArith Bool.
From Verif Require Import Base_Py M_Tools.
Import ListNotations.
Open Scope R_scope.

Record band := mkBand { b_lo : R; b_hi : R; b_nuref : R; b_coeffs : list (list R) }.
(** lines 38-57: band K *)
Definition table_K : band := mkBand (13 / 10) (5 / 2) (10000 / (9 / 4)) [
    [200192 / 1000000000; 588625 / 10000000; -301513 / 100000; -103945 / 10000000000000; 573256 / 1000000000000000000; 267085 / 100000000000000; 609186 / 100000000000000000000000; 497859 / 10000000000; 779176 / 1000000000000; -206567 / 1000000000000000000000];
    [113474 / 1000000000000000; -385766 / 10000000000000; 406167 / 1000000000; 136858 / 100000000000000000; 186367 / 10000000000000000000000; 135941 / 100000000000000000000; 519024 / 100000000000000000000000000000; -661752 / 100000000000000; 396499 / 1000000000000000000; 106141 / 100000000000000000000000000];
    [-424595 / 100000000000000000000; 888019 / 10000000000000000; -514544 / 1000000000000; -171039 / 100000000000000000000; -228150 / 10000000000000000000000000; 135295 / 1000000000000000000000000; -419477 / 1000000000000000000000000000000000; 832034 / 100000000000000000; 395114 / 10000000000000000000000; -149982 / 100000000000000000000000000000];
    [100957 / 10000000000000000000000; -567650 / 10000000000000000000; 343161 / 1000000000000000; 112908 / 100000000000000000000000; 150947 / 10000000000000000000000000000; 818218 / 100000000000000000000000000000; 434120 / 1000000000000000000000000000000000000; -551793 / 100000000000000000000; 233587 / 100000000000000000000000000; 984046 / 1000000000000000000000000000000000];
    [-293315 / 100000000000000000000000000; 166615 / 10000000000000000000000; -101189 / 1000000000000000000; -329925 / 1000000000000000000000000000; -441214 / 100000000000000000000000000000000; -222957 / 100000000000000000000000000000000; -122445 / 1000000000000000000000000000000000000000; 161899 / 100000000000000000000000; -636441 / 1000000000000000000000000000000; -288266 / 1000000000000000000000000000000000000];
    [307228 / 1000000000000000000000000000000; -174845 / 100000000000000000000000000; 106749 / 10000000000000000000000; 344747 / 10000000000000000000000000000000; 461209 / 1000000000000000000000000000000000000; 249964 / 1000000000000000000000000000000000000; 134816 / 10000000000000000000000000000000000000000000; -169901 / 1000000000000000000000000000; 716868 / 10000000000000000000000000000000000; 299105 / 10000000000000000000000000000000000000000]].

(** lines 61-80: band L *)
Definition table_L : band := mkBand (14 / 5) (21 / 5) (10000 / (17 / 5)) [
    [200049 / 1000000000; 588431 / 10000000; -313579 / 100000; -108142 / 10000000000000; 586812 / 1000000000000000000; 266900 / 100000000000000; 608860 / 100000000000000000000000; 517962 / 10000000000; 778638 / 1000000000000; -217243 / 1000000000000000000000];
    [145221 / 1000000000000000; -825182 / 10000000000000; 694124 / 1000000000; 230102 / 100000000000000000; 312198 / 10000000000000000000000; 168162 / 100000000000000000000; -112149 / 1000000000000000000000000000; 461560 / 10000000000000000000000000000; 446396 / 1000000000000000000; 104747 / 100000000000000000000000000];
    [250951 / 1000000000000000000; 137982 / 1000000000000000; -500604 / 1000000000000; -154652 / 100000000000000000000; -197792 / 10000000000000000000000000; 353075 / 100000000000000000000000; 184282 / 1000000000000000000000000000000; 776507 / 100000000000000000; 784600 / 1000000000000000000000; -523689 / 100000000000000000000000000000];
    [-745834 / 1000000000000000000000; 352420 / 10000000000000000000; -116668 / 100000000000000; -323014 / 100000000000000000000000; -461945 / 10000000000000000000000000000; -963455 / 100000000000000000000000000; -524471 / 1000000000000000000000000000000000; 172569 / 10000000000000000000; -195151 / 100000000000000000000000; 817386 / 100000000000000000000000000000000];
    [-161432 / 100000000000000000000000; -730651 / 1000000000000000000000; 209644 / 100000000000000000; 630616 / 100000000000000000000000000; 788398 / 10000000000000000000000000000000; -223079 / 10000000000000000000000000000; -121299 / 100000000000000000000000000000000000; -320582 / 10000000000000000000000; -542083 / 100000000000000000000000000; 309913 / 10000000000000000000000000000000000];
    [352780 / 100000000000000000000000000; -167911 / 1000000000000000000000000; 591037 / 100000000000000000000; 173880 / 10000000000000000000000000000; 245580 / 1000000000000000000000000000000000; 453166 / 10000000000000000000000000000000; 246512 / 100000000000000000000000000000000000000; -899435 / 10000000000000000000000000; 103530 / 10000000000000000000000000000; -363491 / 10000000000000000000000000000000000000]].

(** lines 83-102: band M *)
Definition table_M : band := mkBand (87 / 20) (53 / 10) (10000 / (24 / 5)) [
    [200020 / 1000000000; 590035 / 10000000; -409830 / 100000; -140463 / 10000000000000; 543605 / 1000000000000000000; 266898 / 100000000000000; 610706 / 100000000000000000000000; 674488 / 10000000000; 778627 / 1000000000000; -211676 / 1000000000000000000000];
    [275346 / 1000000000000000; -375764 / 1000000000000; 250037 / 100000000; 839350 / 100000000000000000; 112802 / 1000000000000000000000; 273629 / 100000000000000000000; 116620 / 1000000000000000000000000000; -406775 / 10000000000000; 593296 / 1000000000000000000; 487921 / 100000000000000000000000000];
    [325702 / 1000000000000000000; 134585 / 1000000000000000; 275187 / 1000000000000; -190929 / 100000000000000000000; -229979 / 10000000000000000000000000; 463466 / 100000000000000000000000; 244736 / 1000000000000000000000000000000; 289063 / 100000000000000000; 145042 / 100000000000000000000; -682545 / 100000000000000000000000000000];
    [-693603 / 100000000000000000000; 124316 / 100000000000000000; -653398 / 100000000000000; -121399 / 10000000000000000000000; -191450 / 1000000000000000000000000000; -916894 / 10000000000000000000000000; -497682 / 100000000000000000000000000000000; 819898 / 10000000000000000000; 489815 / 100000000000000000000000; 942802 / 10000000000000000000000000000000];
    [285610 / 100000000000000000000000; 508510 / 10000000000000000000; -310589 / 1000000000000000; -898863 / 1000000000000000000000000; -120352 / 10000000000000000000000000000; 136685 / 1000000000000000000000000000; 742024 / 100000000000000000000000000000000000; 468386 / 100000000000000000000; 327941 / 10000000000000000000000000; -946422 / 1000000000000000000000000000000000];
    [338758 / 1000000000000000000000000; -189245 / 1000000000000000000000; 127747 / 100000000000000000; 364662 / 100000000000000000000000000; 500955 / 10000000000000000000000000000000; 413687 / 100000000000000000000000000000; 224625 / 1000000000000000000000000000000000000; -191182 / 10000000000000000000000; 128020 / 1000000000000000000000000000; -153682 / 100000000000000000000000000000000000]].

(** lines 105-124: band N *)
Definition table_N : band := mkBand (15 / 2) (141 / 10) (10000 / (101 / 10)) [
    [199885 / 1000000000; 593900 / 10000000; -650355 / 100000; -221938 / 10000000000000; 393524 / 1000000000000000000; 266809 / 100000000000000; 610508 / 100000000000000000000000; 106776 / 1000000000; 778368 / 1000000000000; -206365 / 1000000000000000000000];
    [344739 / 1000000000000000; -172226 / 100000000000; 103830 / 10000000; 347377 / 10000000000000000; 464083 / 1000000000000000000000; 3695247 / 1000000000000000000000; 227694 / 10000000000000000000000000000; -168516 / 1000000000000; 216404 / 1000000000000000000; 300234 / 10000000000000000000000000];
    [-273714 / 1000000000000000000; 237654 / 100000000000000; -139464 / 10000000000; -465991 / 10000000000000000000; -621764 / 1000000000000000000000000; 159070 / 100000000000000000000000; 786323 / 10000000000000000000000000000000; 226201 / 1000000000000000; 581805 / 1000000000000000000000; -426519 / 10000000000000000000000000000];
    [393383 / 1000000000000000000000; -381812 / 100000000000000000; 220077 / 10000000000000; 735848 / 10000000000000000000000; 981126 / 1000000000000000000000000000; -303451 / 100000000000000000000000000; -174448 / 1000000000000000000000000000000000; -356457 / 1000000000000000000; -189618 / 100000000000000000000000; 684306 / 10000000000000000000000000000000];
    [-569488 / 100000000000000000000000; 305050 / 100000000000000000000; -272412 / 10000000000000000; -897119 / 10000000000000000000000000; -121384 / 100000000000000000000000000000; -661489 / 10000000000000000000000000000; -359791 / 100000000000000000000000000000000000; 437980 / 1000000000000000000000; -198869 / 10000000000000000000000000; -467320 / 100000000000000000000000000000000000];
    [164556 / 10000000000000000000000000; -157464 / 10000000000000000000000; 126364 / 1000000000000000000; 380817 / 1000000000000000000000000000; 515111 / 100000000000000000000000000000000; 178226 / 1000000000000000000000000000000; 978307 / 100000000000000000000000000000000000000; -194545 / 100000000000000000000000; 589381 / 10000000000000000000000000000; 126117 / 1000000000000000000000000000000000000]].

(** lines 127-146: band Q *)
Definition table_Q : band := mkBand (16) (28) (10000 / (20)) [
    [199436 / 1000000000; 621723 / 10000000; -232409 / 10000; -772707 / 10000000000000; -326604 / 1000000000000000000; 266827 / 100000000000000; 613675 / 100000000000000000000000; 375974 / 1000000000; 778436 / 1000000000000; -272614 / 1000000000000000000000];
    [299123 / 100000000000000; -177074 / 10000000000; 108557 / 1000000; 347237 / 1000000000000000; 463606 / 100000000000000000000; 120788 / 100000000000000000000; 585494 / 10000000000000000000000000000; -171849 / 100000000000; 461840 / 1000000000000000000; 304662 / 1000000000000000000000000];
    [-214862 / 10000000000000000; 152213 / 1000000000000; -102439 / 100000000; -272675 / 100000000000000000; -364272 / 10000000000000000000000; 522646 / 100000000000000000000000; 286055 / 1000000000000000000000000000000; 146704 / 10000000000000; 306229 / 100000000000000000000; -239590 / 100000000000000000000000000];
    [143338 / 1000000000000000000; -954584 / 1000000000000000; 634072 / 100000000000; 170858 / 10000000000000000000; 228756 / 1000000000000000000000000; 783027 / 10000000000000000000000000; 425193 / 100000000000000000000000000000000; -917231 / 10000000000000000; -623183 / 10000000000000000000000; 149285 / 10000000000000000000000000000];
    [122398 / 100000000000000000000; 921476 / 10000000000000000000; -675587 / 1000000000000000; -150004 / 100000000000000000000000; -200547 / 10000000000000000000000000000; 753235 / 1000000000000000000000000000; 413455 / 10000000000000000000000000000000000; -955922 / 1000000000000000000; -161119 / 1000000000000000000000000; 136086 / 1000000000000000000000000000000];
    [-114628 / 10000000000000000000000; -996706 / 100000000000000000; 762517 / 10000000000000; 156889 / 1000000000000000000000; 209502 / 100000000000000000000000000; -228819 / 1000000000000000000000000000000; -812941 / 100000000000000000000000000000000000000; 880502 / 100000000000000000000; 800756 / 100000000000000000000000000; -130999 / 100000000000000000000000000000000]].

(** self.tables.items(): insertion order *)
Definition tables : list band := [table_K; table_L; table_M; table_N; table_Q].
(** lines 20-22 *)
Definition T_ref : R := 27315 / 100 + 35 / 2.
Definition p_ref : R := 75000.
Definition H_ref : R := 10.
(** line 163 *)
Definition kelvin (Tc : R) : R := Tc + 27315 / 100.

(** lines 184-201: dry air and water vapour refractivities at standard conditions *)
Definition n_as (w : R) : R :=
  let sigma := 1 / w in
  (5792105 / (2380185 / 10000 - sigma ^ 2) + 167917 / (57362 / 1000 - sigma ^ 2)) * (1 / 10 ^ 8).
Definition n_ws (w : R) : R :=
  let sigma := 1 / w in
  1022 / 1000 * (295235 / 1000 + 26422 / 10000 * sigma ^ 2 + - 32380 / 1000000 * sigma ^ 4 + 4028 / 1000000 * sigma ^ 6) * (1 / 10 ^ 8).
(** lines 205-217: partial pressure of the vapour *)
Definition svp (Tc : R) : R :=
  let T := kelvin Tc in exp (12378847 / 10 ^ 12 * T ^ 2 + - 19121316 / 10 ^ 9 * T + 3393711047 / 10 ^ 8 + - 63431645 / 10 ^ 4 / T).
Definition f_enh (Tc P : R) : R := 100062 / 100000 + 314 / 10 ^ 10 * P + 56 / 10 ^ 8 * Tc ^ 2.
Definition P_w (Tc P H : R) : R := H / 100 * f_enh Tc P * svp Tc.
(** lines 170-225: visible model; a null divisor is a numpy inf/nan ([NonFinite]) for
    array divisors and a ZeroDivisionError for the python float T_kelvin *)
Definition ciddor (w Tc P H : R) : result R :=
  if Req_EM_T w 0 then Err NonFinite
  else if Req_EM_T (2380185 / 10000 - (1 / w) ^ 2) 0 then Err NonFinite
  else if Req_EM_T (57362 / 1000 - (1 / w) ^ 2) 0 then Err NonFinite
  else if Req_EM_T (kelvin Tc) 0 then Err ZeroDivisionError
  else let Pw := P_w Tc P H in let Pa := P - Pw in
       Ok (Pa / 101325 * (28815 / 100 / kelvin Tc) * n_as w + Pw / 1333 * (29315 / 100 / kelvin Tc) * n_ws w).
(** lines 233-240 *)
Definition state_vector (Tc P H : R) : list R :=
  let dT := 1 / kelvin Tc - 1 / T_ref in let dP := P - p_ref in let dH := H - H_ref in
  [1; dT; dT ^ 2; dH; dH ^ 2; dP; dP ^ 2; dT * dH; dT * dP; dH * dP].
Definition dot (a b : list R) : R := lsum (map (fun p => fst p * snd p) (combine a b)).
Definition Rleb (a b : R) : bool := if Rle_dec a b then true else false.
(** lines 243-247: first band whose range contains w, 'K' otherwise *)
Fixpoint select_band (l : list band) (w : R) : band :=
  match l with
  | [] => table_K
  | b :: t => if Rleb (b_lo b) w && Rleb w (b_hi b) then b else select_band t w
  end.
(** lines 249-257: polynomial in the wavenumber *)
Definition band_value (b : band) (nu Tc P H : R) : R :=
  let s := state_vector Tc P H in
  let d := nu - b_nuref b in
  fold_left (fun acc i => acc + dot (nth i (b_coeffs b) []) s * d ^ i) (seq 0 6) 0.
Definition mathar (w Tc P H : R) : result R :=
  if Req_EM_T (kelvin Tc) 0 then Err ZeroDivisionError
  else Ok (band_value (select_band tables w) (10000 / w) Tc P H).
Definition Rltb (a b : R) : bool := if Rlt_dec a b then true else false.
(** lines 168-257: one wavelength, in um. A nan/inf entry is [Err NonFinite]. *)
Definition refr1 (Tc P H w : R) : result R := if Rltb w (13 / 10) then ciddor w Tc P H else mathar w Tc P H.
(** lines 146-260: the array of values; exceptions other than a non finite entry stop
    the loop; an array of one element gives a scalar, an empty one an IndexError *)
Inductive refr_out := RScalar (v : result R) | RArray (l : list (result R)).
Fixpoint refr_loop (Tc P H : R) (l : list R) : result (list (result R)) :=
  match l with
  | [] => Ok []
  | w :: t => match refr1 Tc P H w with
              | Err NonFinite => do r <- refr_loop Tc P H t; Ok (Err NonFinite :: r)
              | Err e => Err e
              | Ok v => do r <- refr_loop Tc P H t; Ok (Ok v :: r)
              end
  end.
Definition get_refractive_index (wvl_m : list R) (Tc P H : R) : result refr_out :=
  do r <- refr_loop Tc P H (map (fun w => w * 10 ^ 6) wvl_m);
  match r with
  | [] => Err IndexError
  | [v] => Ok (RScalar v)
  | _ => Ok (RArray r)
  end.
