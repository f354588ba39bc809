(** Model of p3/telemetry/massdimm.py: seeing-monitor tables (DIMM, MASS, MASSPROF), their use, and the
    combination of the two seeings. Reading and writing files is an argument; floats are exact reals. *)
From Coq Require Import Reals List Arith ZArith Bool.
From Verif Require Import Base_Py M_Tools M_Freq.
Import ListNotations.
Open Scope R_scope.

(** one line of a table: date and time (Hawaii standard time, integers) and the measured value(s) *)
Record stamp := mkStamp { st_year : Z; st_month : Z; st_day : Z; st_hour : Z; st_minute : Z; st_second : Z }.

(** massdimm.py:53-57 (and 125-129, 197-201): "Convert from HST to UT" *)
Definition to_ut (s : stamp) : stamp :=
  let h := (st_hour s + 10)%Z in
  if (24 <=? h)%Z then mkStamp (st_year s) (st_month s) (st_day s + 1) (h - 24) (st_minute s) (st_second s)
  else mkStamp (st_year s) (st_month s) (st_day s) h (st_minute s) (st_second s).
(** massdimm.py:62: timeInHours = hour + minute/60 + second/3600 *)
Definition in_hours (s : stamp) : R := IZR (st_hour s) + IZR (st_minute s) / 60 + IZR (st_second s) / 3600.

(** A loaded table: the converted stamps with their values. The three classes have the same code and differ by the type of the value. *)
Section Table.
  Variable V : Type.
  Definition table := list (stamp * V).
  Definition load (rows : table) : table := map (fun r => (to_ut (fst r), snd r)) rows.

  (** massdimm.py:64-87 [indexTime(hhmmss)], one requested time. [None] is the sentinel -1. *)
  Definition index_one (verbose : bool) (t : table) (item : R) : result (option V * R) :=
    let diffs := map (fun r => Rabs (in_hours (fst r) - item)) t in
    do k <- argmin diffs;
    match nth_error t k, nth_error diffs k with
    | Some r, Some d =>
        if andb (if Rlt_dec 1 d then true else false) verbose then Ok (None, d) else Ok (Some (snd r), d)
    | _, _ => Err IndexError
    end.
  Definition indexTime (verbose : bool) (t : table) (items : list R) : result (list (option V * R)) :=
    mapM (index_one verbose t) items.
End Table.
Arguments load {V}. Arguments index_one {V}. Arguments indexTime {V}.

(** massdimm.py:60: r0 in cm *)
Definition dimm_r0 (seeing : R) : result R :=
  if Req_EM_T seeing 0 then Err NonFinite else Ok ((98 / 100) * (500 / 10 ^ 7) * 206265 / seeing).

(** massdimm.py:418-427 [CombineMASSandDIMM(seeing, seeingAlt, Cn2Alt, wvl)] *)
Definition combineMASSandDIMM (seeing alt : R) (cn2alt : list R) (wvl : R) : result (list R) :=
  do a <- rpow seeing (5 / 3);
  do b <- rpow alt (5 / 3);
  do s0 <- rpow (a - b) (3 / 5);
  do c <- rpow s0 (5 / 3);
  let mu0 := Rpower ((976 / 1000) * (3600 * 180 / PI)) (5 / 3) * (423 / 1000) * 4 * PI * PI / Rpower wvl (1 / 3) in
  Ok (c / mu0 :: cn2alt).

(** massdimm.py:277-368 [append_mass_dimm]: one row per exposure (its date and its time in hours); [dimm], [mass], [prof] give the files of a
    date. [date_long_previous] is never assigned, so that the three files are read again for each row. The tables are not verbose. *)
Section Append.
  Variable D : Type.
  Variable dimm mass : D -> option (table R).
  Variable prof : D -> option (table (list R)).
  Definition need {A} (o : option A) : result A := match o with Some a => Ok a | None => Err FileNotFoundError end.
  Definition append_row (r : D * R) : result (option R * R * (option R * R) * (option (list R) * R)) :=
    do a <- need (dimm (fst r)); do b <- need (mass (fst r)); do c <- need (prof (fst r));
    do va <- index_one false (load a) (snd r);
    do vb <- index_one false (load b) (snd r);
    do vc <- index_one false (load c) (snd r);
    Ok (va, vb, vc).
  Definition append_mass_dimm (stats : list (D * R)) := mapM append_row stats.
End Append.
