(** Model of the evaluation of a network: deepLoopPerformance.py:383-421 [read_txt_files], 423-440 [get_parameters_metrics],
    446 (the map from labels to model parameters), 503-512 (averages over the PSFs), 583-611 [measure_accuracy_metrics],
    recover_list.py:24-49 [recover_main_parameters_values_from_subfolders] and dataBaseVerification.py:17-109
    [verifyDataBase], verifications 1 and 2. Float values are exact reals.
    Text: a line of a file or a name is its list of tokens (words between tabs, blanks or underscores, none of them empty);
    a token is a number (float() accepts it) or a word. *)
From Coq Require Import Reals List Arith ZArith Bool String.
From Verif Require Import Base_Py M_Image M_Tools M_Atmo M_Freq M_Metric.
Import ListNotations.
Open Scope R_scope.

Inductive tok := TN (r : R) | TW (s : string).
Definition is_float (t : tok) : bool := match t with TN _ => true | TW _ => false end.
Definition tofloat (t : tok) : result R := match t with TN r => Ok r | TW _ => Err ValueError end.

(** ** read_txt_files *)
(** lines 394-400: numbers of the first line; labels of the second one. int((len-1)/2+1) truncates toward zero. *)
Definition n_param (first : list tok) : nat := List.length (filter is_float first).
Definition labels_of (lab : list tok) : list tok := pyslice lab 1 (Z.quot (Z.of_nat (List.length lab) - 1 + 2) 2).
(** assignment of a row of values to a column of n entries: the lengths agree, or one value is repeated *)
Definition fill (n : nat) (v : list R) : result (list R) :=
  if (List.length v =? n)%nat then Ok v else match v with [x] => Ok (repeat x n) | _ => Err ValueError end.
(** lines 414-417: one line *)
Definition read_line (np : nat) (l : list tok) : result (list R * list R) :=
  do v <- mapM tofloat l;
  do g <- fill np (firstn np v); do e <- fill np (skipn np v); Ok (g, e).
(** lines 391-421: number of parameters, then one pair (truth, estimate) per line read. A file shorter than three lines
    has nData = -1 when it has fewer than three (np.zeros refuses it). *)
Definition read_txt (file : list (list tok)) : result (nat * list (list R * list R) * list tok) :=
  let first := nth 0 file [] in let lab := nth 1 file [] in
  let np := n_param first in
  let nData := (Z.of_nat (List.length (skipn 2 file)) - 1)%Z in
  if (nData <? 0)%Z then Err ValueError else
  do rows <- mapM (read_line np) (firstn (Z.to_nat nData) (skipn 2 file));
  Ok (np, rows, labels_of lab).

(** ** get_parameters_metrics *)
Definition sub2 (a b : list R) : list R := map (fun p => fst p - snd p) (combine a b).
Definition sub_metrics (v : list R) : result (R * R * R) := do m <- median v; do s <- nanstd v; Ok (lmean v, m, s).
(** np.corrcoef(x, y)[0,1] = cov / (std std), clipped to [-1, 1] *)
Definition cov2 (x y : list R) : R := lsum (map (fun p => (fst p - lmean x) * (snd p - lmean y)) (combine x y)).
Definition pearson (x y : list R) : result R :=
  do q <- rdiv (cov2 x y) (sqrt (cov2 x x) * sqrt (cov2 y y)); Ok (Rmin 1 (Rmax (-1) q)).
Record metrics := mkMet { m_amean : R; m_amed : R; m_astd : R; m_rmean : R; m_rmed : R; m_rstd : R; m_corr : R }.
Definition get_parameters_metrics (truth est : list R) : result metrics :=
  if negb (List.length truth =? List.length est)%nat then Err ValueError else
  let d := sub2 est truth in
  do a <- sub_metrics d;
  do rel <- mapM (fun p => rdiv (10 ^ 2 * fst p) (snd p)) (combine d truth);
  do r <- sub_metrics rel;
  do c <- pearson truth est;
  Ok (mkMet (fst (fst a)) (snd (fst a)) (snd a) (fst (fst r)) (snd (fst r)) (snd r) c).

(** ** line 446: labels to parameters of the model, and line 569 back *)
Definition p2x (x : list R) : result (list R) :=
  do s <- pyindex x 5;
  Ok (firstn 5 x ++ [0; s; 0; 0; 0; 1; 0; 0; 0] ++ pyslice x 6 (Z.of_nat (List.length x) - 1)).
Definition x2p (y : list R) : result (list R) := do s <- pyindex y 6; Ok (firstn 5 y ++ [s] ++ skipn 14 y).

(** ** lines 503-512: pixel of the mean absolute and quadratic differences of the PSFs, mse of one PSF *)
Definition diff_mean (nPSF : nat) (ps : list (R * R)) : R := lsum (map (fun p => Rabs (fst p - snd p) / INR nPSF) ps).
Definition diff_std (nPSF : nat) (ps : list (R * R)) : R := sqrt (lsum (map (fun p => (fst p - snd p) ^ 2 / INR nPSF) ps)).
Definition mse (ml true : list R) : result R := rdiv (10 ^ 2 * sqrt (lsum (map (fun p => (fst p - snd p) ^ 2) (combine ml true)))) (lsum true).

(** ** measure_accuracy_metrics, lines 596-611: one row per parameter (label, mean and spread over the tests of the columns 4
    and 5 of the metrics); every test has the number of parameters of the first one. [tests]: the metrics of each test. *)
Record accuracy := mkAcc { ac_bias : R; ac_biasp : R; ac_std : R; ac_stdp : R }.
Definition met0 : metrics := mkMet 0 0 0 0 0 0 0.
Definition measure_accuracy (tests : list (list metrics)) : result (list accuracy) :=
  match tests with
  | [] => Err ValueError
  | t0 :: _ =>
      if negb (forallb (fun t => (List.length t =? List.length t0)%nat) tests) then Err ValueError else
      mapM (fun k => let b := map (fun t => m_rmed (nth k t met0)) tests in let s := map (fun t => m_rstd (nth k t met0)) tests in
                     do bs <- nanstd b; do ss <- nanstd s; Ok (mkAcc (lmean b) bs (lmean s) ss)) (seq 0 (List.length t0))
  end.

(** ** recover_list.py *)
Definition recover_values (folders : list (list tok)) : result (list R * list R) :=
  do v <- mapM (fun f => do a <- pyindex f 1; do r <- tofloat a; do b <- pyindex f 3; do s <- tofloat b; Ok (r, s)) folders;
  Ok (np_unique (map fst v), np_unique (map snd v)).

(** ** verifyDataBase *)
(** lines 31-42: the bounds of the intervals, from the values read in the names of the folders *)
Definition list_lo (l : list R) : R := nth 0 l 0.
Definition list_hi (l : list R) : R := last l 0.
Definition bounds (nInter : nat) (u : list R) : result (list R) :=
  do a <- pyindex u 0; do b <- pyindex u 1; Ok (linspace (list_lo u) (list_hi u + Rabs (a - b)) (nInter + 1)).
(** lines 60-67: number of static modes: k is the first one that has no token m<k> *)
Definition has (s : list tok) (w : string) : bool := existsb (fun t => match t with TW x => String.eqb x w | TN _ => false end) s.
Fixpoint count_modes (mode : nat -> string) (s : list tok) (fuel k : nat) : nat :=
  match fuel with O => k | S f => if has s (mode k) then count_modes mode s f (S k) else k end.
Definition n_static (mode : nat -> string) (s : list tok) : nat := count_modes mode s (List.length s) 1 - 1.
(** lines 86-88: the parameters written in the name of a file: every second token after r0 *)
Fixpoint after (w : string) (s : list tok) : result (list tok) :=
  match s with [] => Err IndexError | t :: r => match t with TW x => if String.eqb x w then Ok r else after w r | TN _ => after w r end end.
Fixpoint every2 (n : nat) (s : list tok) : list tok :=
  match n with O => [] | S m => match s with [] => [] | [t] => [t] | t :: _ :: r => t :: every2 m r end end.
Definition file_params (np : nat) (s : list tok) : result (list R) :=
  do r <- after "r0" s; do v <- mapM tofloat (every2 np r); fill np v.
(** lines 91-105: one parameter against its intervals. [vals]: per folder (column) the values of its files; row j, sorted
    over the folders, is cut in blocks of nInter columns, the last column of each block being left out (slice). [rnd]:
    np.round to the number of decimals of the smallest value. *)
Definition row_sorted (vals : list (list R)) (j : nat) : list R := rsort (map (fun c => nth j c 0) vals).
Definition block (nInter k : nat) (row : list R) : list R := firstn (nInter - 1) (skipn (k * nInter) row).
Definition bad_block (rnd : R -> R) (nInter : nat) (bs : list R) (rows : list (list R)) (k : nat) : bool :=
  let vs := flat_map (block nInter k) rows in
  match vs with
  | [] => true                                        (* max of an empty array: also a ValueError *)
  | _ => existsb (fun v => if Rlt_dec (nth (k + 1) bs 0) v then true else false) vs || existsb (fun v => if Rlt_dec v (rnd (nth k bs 0)) then true else false) vs
  end.
Definition min_of (rows : list (list R)) : R := list_lo (rsort (List.concat rows)).
(** lines 17-109 and the fit of verification 3 ([fit_ok], run when there is no noise). [folders]: name and files. *)
Definition param_at (params : list (list (list R))) (p : nat) : list (list R) := map (map (fun v => nth p v 0)) params.
Definition verify (mode : nat -> string) (rnd : R -> R -> R) (fit_ok : bool) (nPSD : nat) (folders : list (list tok * list (list tok))) : result unit :=
  do nm <- mapM (fun f => do a <- pyindex (fst f) 1; do r <- tofloat a; do b <- pyindex (fst f) 3; do s <- tofloat b; Ok (r, s)) folders;
  let r0u := np_unique (map fst nm) in let Au := np_unique (map snd nm) in
  let nInter := List.length r0u in
  do r0_int <- bounds nInter r0u; do A_int <- bounds nInter Au;
  let counts := map (fun f => List.length (snd f)) folders in
  let nSub := nth 0 counts 0%nat in
  if negb (forallb (fun c => (c =? nSub)%nat) counts) then Err ValueError else
  do s0 <- pyindex (snd (last folders ([], []))) 0;
  let nStatic := n_static mode s0 in
  let np := (nPSD + nStatic)%nat in
  do params <- mapM (fun f => mapM (file_params np) (snd f)) folders;
  let rows p := map (row_sorted (param_at params p)) (seq 0 nSub) in
  if (np <=? 2)%nat then Err IndexError else
  if existsb (fun k => bad_block (rnd (min_of (rows 0%nat))) nInter r0_int (rows 0%nat) k || bad_block (rnd (min_of (rows 2%nat))) nInter A_int (rows 2%nat) k) (seq 0 nInter) then Err ValueError else
  if (np <=? 5)%nat then Err IndexError else
  if existsb (fun p => negb (List.length (np_unique (List.concat (param_at params p))) =? nSub)%nat) ([1; 3; 4; 5]%nat ++ seq nPSD nStatic) then Err ValueError else
  if fit_ok then Ok tt else Err ValueError.
