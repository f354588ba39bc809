(** Model of p3/aoSystem/source.py, deformableMirror.py (constructor, index maps)
    and rtc.py. Float values are exact reals. *)
From Coq Require Import Reals List Arith ZArith String Bool.
From Flocq Require Import Core.Raux.
From Verif Require Import Base_Py M_Tools M_Atmo.
Import ListNotations.
Open Scope R_scope.

(** ** source.py *)
(** The height argument: scalar, Python list, or NumPy array. *)
Inductive harg : Type := HScal (x : R) | HList (l : list R) | HArr (l : list R).
Record source := mkSource { so_wvl : list R; so_zen : list R; so_az : list R; so_h : list R; so_nSrc : nat; so_nWvl : nat }.
(** lines 41-48 np.isscalar -> np.array([x]) *)
Definition vec (x : sol R) : list R := match x with Scal a => [a] | Lst l => l end.
Definition test1 (l : list R) : bool := (length l =? 1)%nat.
(** NumPy product of a 1-D array/list with np.ones(n): broadcasting *)
Definition times_ones (l : list R) (n : nat) : result (list R) :=
  if (length l =? n)%nat then Ok l
  else match l with
       | [x] => Ok (repeat x n)
       | _ => if (n =? 1)%nat then Ok l else Err ValueError
       end.
(** lines 79-82: [if self.height != 0]: for an array of two or more elements the
    truth value is ambiguous (ValueError); a list is always different from 0. *)
Definition heights_of (h : harg) (n : nat) : result (list R) :=
  match h with
  | HScal x => if Req_EM_T x 0 then Ok (repeat 0 n) else times_ones [x] n
  | HArr [] => Ok (repeat 0 n)
  | HArr [x] => if Req_EM_T x 0 then Ok (repeat 0 n) else times_ones [x] n
  | HArr _ => Err ValueError
  | HList l => times_ones l n
  end.
(** lines 36-93 __init__ *)
Definition source_init (wvl zenith azimuth : sol R) (height : harg) : result source :=
  let w := vec wvl in let z := vec zenith in let a := vec azimuth in
  let r :=
    if test1 z && test1 a && test1 w then (1%nat, z, a)
    else if test1 z && negb (test1 a) && test1 w then (length a, repeat (nth 0 z 0) (length a), a)
    else if negb (test1 z) && test1 a && test1 w then (length z, z, repeat (nth 0 a 0) (length z))
    else (length z, z, a) in
  let n := fst (fst r) in
  let wn := if (test1 w && (1 <? n)%nat)%bool then (repeat (nth 0 w 0) n, 1%nat) else (w, length w) in
  do h <- heights_of height n;
  Ok (mkSource (fst wn) (snd (fst r)) (snd r) h n (snd wn)).
(** assignment of a 1-D array into a row of length n *)
Definition assign_row (n : nat) (x : list R) : result (list R) :=
  if (length x =? n)%nat then Ok x else match x with [v] => Ok (repeat v n) | _ => Err ValueError end.
Definition arcsec2rad : R := PI / 180 / 3600.
Definition deg2rad : R := PI / 180.
(** lines 18-27 direction *)
Definition direction (s : source) : result (list R * list R) :=
  let t := map (fun z => tan (z * arcsec2rad)) (so_zen s) in
  do x <- bmul t (map (fun a => cos (a * deg2rad)) (so_az s));
  do y <- bmul t (map (fun a => sin (a * deg2rad)) (so_az s));
  do dx <- assign_row (so_nSrc s) x;
  do dy <- assign_row (so_nSrc s) y;
  Ok (dx, dy).

(** ** deformableMirror.py *)
Record dm := mkDM { dm_nAct : list Z; dm_pitch : list R; dm_h : list R; dm_coupling : list R; dm_optdir : list R * list R; dm_optw : list R; dm_valid : list (nat * nat) }.
(** lines 52-59 *)
Definition fix_coupling (n : nat) (c : list R) : result (list R) :=
  if (length c <? n)%nat then match c with [] => Err IndexError | x :: _ => Ok (repeat x n) end
  else Ok (firstn n c).
(** lines 24-86 __init__ with the default actuator map (validActuator=None) and
    without influence functions (resolution=None). The valid actuator map of
    each mirror is recorded by its shape (all true). nActu1D is a list of
    integers (np.ones with a negative size raises ValueError). *)
Definition dm_init (nAct : list Z) (pitch h coupling : list R) (optdir : list R * list R) (optw : list R) : result dm :=
  let n := length pitch in
  if negb (length nAct =? n)%nat || negb (length h =? n)%nat then Err ValueError
  else
    do c <- fix_coupling n coupling;
    if negb (length (fst optdir) =? length optw)%nat then Err ValueError
    else
      do v <- mapM (fun k => if (k <? 0)%Z then Err ValueError else Ok (Z.to_nat k, Z.to_nat k)) nAct;
      Ok (mkDM nAct pitch h c optdir optw v).
(** lines 13-17 *)
Definition nValidActuator (d : dm) : list nat := map (fun s => fst s * snd s)%nat (dm_valid d).
Definition nControlledRadialOrder (d : dm) : list Z := map (fun n => Ztrunc (sqrt (INR (2 * n))) - 1)%Z (nValidActuator d).
(** lines 162-181 __repr__: nActu1D is stored as a float array and each element
    is formatted with ':d', which raises ValueError for a float. *)
Definition dm_repr (d : dm) : result unit :=
  match dm_pitch d with [] => Ok tt | _ => Err ValueError end.

(** lines 185-200 on one index (arrays are element-wise). Integer arithmetic; the
    float quotient of line 198 is truncated toward zero. Simplification: that
    quotient is exact (true for fewer than 2^26 rows and columns). *)
Definition clip_ind (r c i : Z) : Z := if (i <? 0)%Z then (-1)%Z else if (r * c <=? i)%Z then (-1)%Z else i.
Definition sub2ind (r c row col : Z) : Z := clip_ind r c (row * c + col).
Definition ind2sub (r c ind : Z) : Z * Z :=
  let i := clip_ind r c ind in
  let col := (i mod c)%Z in
  (Z.quot (i - col) r, col).

(** ** rtc.py *)
Record loop := mkLoop { lp_gain : R; lp_rate : R; lp_delay : R; lp_bw : result R }.
(** line 24 / 32 the bandwidth; np.sqrt of a negative number is nan *)
Definition bandwidth (gain rate delay : R) : result R :=
  do q <- rdiv gain (1 + 2 * delay);
  if Rlt_dec q 0 then Err NonFinite else Ok (rate / 2 / PI * sqrt q).
Record rtc := mkRtc { holoop : loop; ttloop : option loop }.
(** lines 15-33 __init__ *)
Definition rtc_init (g f d : R) (gLO fLO dLO : option R) : rtc :=
  mkRtc (mkLoop g f d (bandwidth g f d))
    (match gLO, fLO, dLO with Some g', Some f', Some d' => Some (mkLoop g' f' d' (bandwidth g' f' d')) | _, _, _ => None end).
(** lines 35-58: the delays in ms printed for the high-order and low-order loop:
    line 51 uses self.holoop['rate'] for both. *)
Definition shown_delay_ms (r : rtc) : R * option R :=
  (1000 * lp_delay (holoop r) / lp_rate (holoop r),
   option_map (fun l => 1000 * lp_delay l / lp_rate (holoop r)) (ttloop r)).
