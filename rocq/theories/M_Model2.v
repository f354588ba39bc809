(** Model of the assembly of the total PSD, the extra errors, the cone effect of
    multi-guide-star systems, the error breakdown, the memory estimate and the
    fit bounds of p3/aoSystem/fourierModel.py. Float values are exact reals. *)
From Coq Require Import Reals List Arith ZArith Bool String.
From Flocq Require Import Core.Raux.
From Verif Require Import Base_Py Base_Sum M_Tools M_Freq M_Atmo M_Sensor M_Model.
From Coquelicot Require Import Complex.
Import ListNotations.
Open Scope R_scope.

(** numpy.interp(x, xp, fp) with increasing xp: constant outside, linear inside *)
Fixpoint interp_from (x x0 y0 : R) (l : list (R * R)) : R :=
  match l with
  | [] => y0
  | (x1, y1) :: r => if Rlt_dec x x1 then y0 + (x - x0) * ((y1 - y0) / (x1 - x0)) else interp_from x x1 y1 r
  end.
Definition np_interp (x : R) (xp fp : list R) : result R :=
  if negb (length xp =? length fp)%nat then Err ValueError
  else match combine xp fp with
       | [] => Err ValueError
       | (x0, y0) :: r => if Rlt_dec x x0 then Ok y0 else Ok (interp_from x x0 y0 r)
       end.

(** ** extra error, fourierModel.py:1494-1524 and 1526-1574 *)
(** A square grid of side n; [fk i j] is sqrt(k2_). *)
Definition gsum (n : nat) (f : nat -> nat -> R) : R := rsum n (fun i => rsum n (fun j => f i j)).
(** lines 1501-1511: k**exp * pistonFilter, frequency bounds (0 = no bound) *)
Definition extra_raw (j1 : R -> R) (D e kmin kmax : R) (k : R) : result R :=
  do p <- rpow k e;
  let v := p * pistonFilter j1 D k in
  let v := if Rlt_dec 0 kmin then (if Rlt_dec k kmin then 0 else v) else v in
  Ok (if Rlt_dec 0 kmax then (if Rlt_dec kmax k then 0 else v) else v).
(** values of a grid, row by row *)
Definition grid_res (n : nat) (f : nat -> nat -> result R) : result (list (list R)) :=
  mapM (fun i => mapM (fun j => f i j) (seq 0 n)) (seq 0 n).
Definition grid_at (g : list (list R)) (i j : nat) : R := nth j (nth i g []) 0.
Definition lsum2 (g : list (list R)) : R := lsum (map lsum g).
(** lines 1513-1522: * nm**2/sum / rad2nm**2, with rad2nm = dk*wvl*1e9/2/pi *)
Definition extraErrorPSD (j1 : R -> R) (D e kmin kmax nm rad2nm : R) (n : nat) (fk : nat -> nat -> R) : result (list (list R)) :=
  do g <- grid_res n (fun i j => extra_raw j1 D e kmin kmax (fk i j));
  if Req_EM_T (lsum2 g) 0 then Err NonFinite
  else if Req_EM_T rad2nm 0 then Err NonFinite
  else Ok (map (map (fun v => v * nm ^ 2 / lsum2 g * 1 / rad2nm ^ 2)) g).
(** extraErrorLoNm: a number, or a list (value on axis, value at the edge) *)
Inductive lo_arg := LoNum (x : R) | LoList (l : list R).
(** lines 1541-1569: amplitude (nm) for the guide star at distance [zen] *)
Definition lo_amplitude (lo : lo_arg) (fov zen : R) : result R :=
  match lo with LoNum x => Ok x | LoList l => np_interp zen [0; fov / 2] l end.
(** result: a single map (number) or one map per low-order star *)
Inductive lo_psd := LoOne (g : list (list R)) | LoMany (gs : list (list (list R))).
Definition extraErrorLoPSD (j1 : R -> R) (D e kmin kmax rad2nm fov : R) (lo : lo_arg) (zens : list R) (n : nat) (fk : nat -> nat -> R) : result lo_psd :=
  do g <- grid_res n (fun i j => extra_raw j1 D e kmin kmax (fk i j));
  if Req_EM_T (lsum2 g) 0 then Err NonFinite
  else if Req_EM_T rad2nm 0 then Err NonFinite
  else match lo with
       | LoNum x => Ok (LoOne (map (map (fun v => v * (1 / lsum2 g) * x ^ 2 * (1 / rad2nm ^ 2))) g))
       | LoList _ => do gs <- mapM (fun z => do a <- lo_amplitude lo fov z;
                                            Ok (map (map (fun v => v * (1 / lsum2 g) * a ^ 2 * (1 / rad2nm ^ 2))) g)) zens;
                     Ok (LoMany gs)
       end.

(** ** powerSpectrumDensity, fourierModel.py:767-927 *)
(** What the contribution functions return, as functions of the pixel (and of the
    source [s]). [p_noise] is the same for all the sources with one guide star;
    [p_cone] is focalAnisoplanatismPSD, [p_mcao] is mcaoWFsensConePSD applied to the
    PSD accumulated so far; [p_tilt] is TiltFilter. *)
Record parts := mkParts {
  p_noise : nat -> nat -> nat -> R; p_alias : nat -> nat -> R; p_diff : nat -> nat -> nat -> R;
  p_chrom : nat -> nat -> nat -> R; p_st : nat -> nat -> nat -> R;
  p_cone : nat -> nat -> R; p_mcao : (nat -> nat -> nat -> R) -> nat -> nat -> nat -> R;
  p_fit : nat -> nat -> R; p_vib : nat -> nat -> R; p_tilt : nat -> nat -> R;
  p_extra : nat -> nat -> R; p_lo : lo_psd }.
(** The settings: grid sides, number of sources, guide stars and their height,
    options; [k_nLO] = len(azimuthGsLO), [k_loSum] = sum(extraErrorLoNm). *)
Record psdcfg := mkPC {
  k_n : Z; k_r : Z; k_src : nat; k_nGs : nat; k_h : R; k_addMcao : bool; k_wfe : option R;
  k_tiltOn : bool; k_wind : bool; k_extra : R; k_ngsPos : bool; k_nLO : nat; k_loSum : R; k_dk : R; k_rad2nm : R }.
(** [psd[id1:id2,id1:id2,s] += A]: zero outside of the area *)
Definition inArea (c : psdcfg) (a : nat) : bool := ((id1 (k_n c) (k_r c) <=? Z.of_nat a) && (Z.of_nat a <? id2 (k_n c) (k_r c)))%Z.
Definition embed (c : psdcfg) (A : nat -> nat -> R) (a b : nat) : R :=
  if inArea c a && inArea c b then A (a - Z.to_nat (id1 (k_n c) (k_r c)))%nat (b - Z.to_nat (id1 (k_n c) (k_r c)))%nat else 0.
Definition nOtf_ (c : psdcfg) : nat := Z.to_nat (k_n c).
Definition isSLAO (c : psdcfg) : bool := ((k_nGs c =? 1)%nat && (if Req_EM_T (k_h c) 0 then false else true))%bool.
Definition isMcaoCone (c : psdcfg) : bool := (k_addMcao c && negb (k_nGs c =? 1)%nat && (if Req_EM_T (k_h c) 0 then false else true))%bool.
(** lines 789-836 *)
Definition psd_area (c : psdcfg) (p : parts) (s a b : nat) : R :=
  embed c (p_noise p s) a b + embed c (p_alias p) a b + embed c (p_diff p s) a b + embed c (p_chrom p s) a b + embed c (p_st p s) a b.
(** lines 838-862 *)
Definition psd_cone (c : psdcfg) (p : parts) (s a b : nat) : R := psd_area c p s a b + (if isSLAO c then p_cone p a b else 0).
Definition psd_mcao (c : psdcfg) (p : parts) (s a b : nat) : R :=
  psd_cone c p s a b + (if isMcaoCone c then p_mcao p (psd_cone c p) s a b else 0).
(** lines 864-867: psd.sum() is over the pixels and the sources *)
Definition psd_all_sum (c : psdcfg) (f : nat -> nat -> nat -> R) : R := rsum (k_src c) (fun s => gsum (nOtf_ c) (f s)).
Definition psd_norm (c : psdcfg) (f : nat -> nat -> nat -> R) : result (nat -> nat -> nat -> R) :=
  match k_wfe c with
  | None => Ok f
  | Some wfe =>
      let g := fun s a b => f s a b * (k_dk c * k_rad2nm c) ^ 2 in
      if Req_EM_T (psd_all_sum c g) 0 then Err NonFinite
      else Ok (fun s a b => g s a b * (wfe ^ 2 / psd_all_sum c g))
  end.
(** lines 869-889: fitting, vibrations, tilt filter *)
Definition psd_filtered (c : psdcfg) (p : parts) (f : nat -> nat -> nat -> R) (s a b : nat) : R :=
  let v := f s a b + p_fit p a b + (if negb (k_tiltOn c) && k_wind c then embed c (p_vib p) a b else 0) in
  if k_tiltOn c then v * p_tilt p a b else v.
(** lines 891-912: extra error of source s *)
Definition nLO_ (c : psdcfg) : nat := if k_ngsPos c && (if Rle_dec 0 (k_loSum c) then true else false) then k_nLO c else 0%nat.
Definition psd_extra (c : psdcfg) (p : parts) (s a b : nat) : result R :=
  if ((0 <? nLO_ c)%nat && (if Rle_dec 0 (k_loSum c) then true else false) && (k_src c - s <=? nLO_ c)%nat)%bool
  then match p_lo p with
       | LoOne g => Ok (grid_at g a b)
       | LoMany gs => do g <- pyindex gs (Z.of_nat s - Z.of_nat (k_src c) + Z.of_nat (nLO_ c))%Z; Ok (grid_at g a b)
       end
  else Ok (if Rlt_dec 0 (k_extra c) then p_extra p a b else 0).
(** closed loop, one pixel of one source; an area that does not fit is refused *)
Definition powerSpectrumDensity (c : psdcfg) (p : parts) (s a b : nat) : result R :=
  if negb (embed_ok (k_n c) (k_r c)) then Err ValueError
  else do f <- psd_norm c (psd_mcao c p);
       do x <- psd_extra c p s a b;
       Ok ((psd_filtered c p f s a b + x) * (k_dk c * k_rad2nm c) ^ 2).
(** open loop, lines 775-780: one plane whatever the number of sources *)
Definition openLoopPSD (c : psdcfg) (sp : special) (at_ : atmo) (j1 : R -> R) (D : R) (fk : nat -> nat -> R) (a b : nat) : result R :=
  do w <- spectrum sp at_ (fk a b); Ok (w * pistonFilter j1 D (fk a b) * (k_dk c * k_rad2nm c) ^ 2).
(** the planes of the spectrum, by source: [psd[:, :, np.newaxis]] has a single one *)
Definition openLoop (c : psdcfg) (sp : special) (at_ : atmo) (j1 : R -> R) (D : R) (fk : nat -> nat -> R) : list (nat -> nat -> result R) :=
  [openLoopPSD c sp at_ j1 D fk].

(** ** mcaoWFsensConePSD, fourierModel.py:1381-1492, one pixel of one source *)
(** Geometry: largest guide star distance [gz], telescope D, guide star height
    [hg], source distance [sz] (arcsec). *)
Definition rad2arc : R := 3600 * 180 / PI.
Definition deltaE (gz D hg sz : R) : R :=
  let lfov := 2 * gz in
  let eFoV := (lfov * (1 / rad2arc) - D * (1 / hg)) * rad2arc in
  if Rlt_dec 0 eFoV then Rmin sz gz - eFoV / 2 else Rmin sz gz - eFoV.
Definition deltaL (gz sz : R) : R := Rmax (sz - (2 * gz) / 2) 0.
(** lines 1477-1482: high-pass weight of one layer at frequency k; z = exp(i k/(fs/2) pi) *)
Definition lp2 (D eqD fCut fs k : R) : R :=
  let z := cis (k / (fs / 2) * PI) in
  let zp := exp (2 * PI * fCut / fs) in
  let lp := Cdiv (Cmult z (Cminus (RtoC 1) (RtoC zp))) (Cminus z (RtoC zp)) in
  Rmax ((1 - Cmod lp ^ 2) * (eqD / D) ^ 2) 0.
(** lines 1450-1485: sum over the valid layers *)
Definition cone_layer (gz D hg sz kcMax fs k w h : R) : R :=
  let dE := deltaE gz D hg sz in
  if Rlt_dec 0 h then
    if Rlt_dec 0 dE then
      let fCut := rad2arc / (dE * h) in
      let eqD := Rmin (D - deltaL gz sz * h * (1 / rad2arc)) D in
      if Rlt_dec fCut kcMax then (if Rlt_dec 0 eqD then w * lp2 D eqD fCut fs k else 0) else 0
    else 0
  else 0.
Definition mcaoCone (gz D hg sz kcMax fs k : R) (layers : list (R * R)) (atm res pf : R) : R :=
  lsum (map (fun wh => cone_layer gz D hg sz kcMax fs k (fst wh) (snd wh) * (Rmax (atm - res) 0 * pf)) layers).

(** ** errorBreakDown, fourierModel.py:1635-1736 *)
(** np.sqrt: nan for a negative number *)
Definition rsqrt (x : R) : result R := if Rlt_dec x 0 then Err NonFinite else Ok (sqrt x).
(** Sums of the stored PSDs over the pixels (for the source considered; None: the
    attribute was never set or was released). *)
Record sums := mkSums {
  b_fit : option R; b_alias : option R; b_noise : option R; b_st : option R; b_diff : option R; b_chrom : option R;
  b_mcao : option R; b_vib : option R }.
Definition wfe_of (o : option R) (rad2nm : R) : result R :=
  match o with None => Err AttributeError | Some v => do q <- rsqrt v; Ok (q * rad2nm) end.
Record breakdown := mkBD {
  e_ncpa : R; e_fit : R; e_al : R; e_n : R; e_st : R; e_diff : R; e_chrom : R; e_jit : R; e_mcao : R; e_wind : R; e_extra : R; e_tot : R; e_sr : R }.
(** lines 1640-1688; [ncpa] and [jit] are wfeNCPA and wfeJitter, [rad2nm] includes
    the frequency step (line 1642); None when the gain is null (line 1640). *)
Definition errorBreakDown (gain : R) (addMcao wind tiltOn : bool) (rad2nm ncpa jit extra wvlRef : R) (s : sums) : result (option breakdown) :=
  if Req_EM_T gain 0 then Ok None
  else
    do f <- wfe_of (b_fit s) rad2nm; do al <- wfe_of (b_alias s) rad2nm; do n <- wfe_of (b_noise s) rad2nm;
    do st <- wfe_of (b_st s) rad2nm; do df <- wfe_of (b_diff s) rad2nm; do ch <- wfe_of (b_chrom s) rad2nm;
    do mc <- (if addMcao then wfe_of (b_mcao s) rad2nm else Ok 0);
    do wi <- (if negb tiltOn && wind then wfe_of (b_vib s) rad2nm else Ok 0);
    do t <- rsqrt (ncpa ^ 2 + f ^ 2 + al ^ 2 + st ^ 2 + n ^ 2 + df ^ 2 + ch ^ 2 + jit ^ 2 + mc ^ 2 + wi ^ 2 + extra ^ 2);
    do q <- rdiv (t * 2 * PI * / 10 ^ 9) wvlRef;
    Ok (Some (mkBD ncpa f al n st df ch jit mc wi extra t (100 * exp (- q ^ 2)))).

(** ** estimate_memory_usage, fourierModel.py:1815-2040 (bytes) *)
Record dims := mkDims { z_otf : Z; z_ao : Z; z_times : Z; z_gs : Z; z_src : Z; z_atm : Z; z_dm : Z; z_single : bool; z_gainpos : bool; z_reduce : bool; z_break : bool }.
Definition dsize (d : dims) : Z := if z_single d then 4 else 8.
Open Scope Z_scope.
(** lines 1868-1902, in order of insertion *)
Definition mem_final (d : dims) : list (string * Z) :=
  let o2 := z_otf d * z_otf d in let r2 := z_ao d * z_ao d in let b := dsize d in
  [("PSD"%string, o2 * z_src d * b); ("SF"%string, o2 * z_src d * b)] ++
  (if z_gainpos d then
     [("Rx_Ry"%string, 2 * r2 * b * 2); ("SxAv_SyAv"%string, 2 * r2 * b * 2); ("Wphi"%string, r2 * b); ("h1_h2_hn"%string, 3 * r2 * b)] ++
     (if (1 <? z_gs d) && negb (z_reduce d) then
        [("Walpha"%string, r2 * z_gs d * z_atm d * b * 2); ("PbetaDM"%string, r2 * z_src d * z_dm d * b * 2);
         ("Cb"%string, r2 * z_gs d * z_gs d * b * 2); ("Cphi"%string, r2 * z_atm d * z_atm d * b * 2)]
      else [])
   else []) ++
  (if z_break d || negb (z_reduce d) then
     [("psdFit"%string, o2 * b); ("psdAlias"%string, r2 * b); ("psdNoise"%string, r2 * (if 1 <? z_gs d then z_src d else 1) * b);
      ("psdSpatioTemporal"%string, r2 * z_src d * b); ("psdDiffRef"%string, r2 * z_src d * b); ("psdChromatism"%string, r2 * z_src d * b)]
   else []) ++
  [("freq_arrays"%string, 5 * o2 * b); ("freq_arrays_AO"%string, 5 * r2 * b); ("otfDL_otfNCPA"%string, 2 * o2 * b * 2)].
(** lines 1906-1940 *)
Definition mem_peak (include_peak : bool) (d : dims) : list (string * Z) :=
  let o2 := z_otf d * z_otf d in let r2 := z_ao d * z_ao d in let b := dsize d in
  let sh := (2 * z_times d) ^ 2 in
  if include_peak && z_gainpos d then
    (if 1 <? z_gs d then
       [("tomo_Cphi"%string, r2 * z_atm d * z_atm d * b * 2); ("tomo_to_inv"%string, r2 * z_gs d * z_gs d * b * 2); ("tomo_Wtomo"%string, r2 * z_atm d * z_gs d * b * 2);
        ("opt_mat1"%string, r2 * z_dm d * z_atm d * b * 2); ("opt_A"%string, r2 * z_dm d * z_dm d * b * 2)]
     else []) ++
    [("alias_avr_chunk"%string, Z.min 5 (z_atm d) * sh * z_ao d * z_ao d * b * 2); ("alias_avr_sum"%string, sh * z_ao d * z_ao d * b * 2);
     ("alias_intermediates"%string, 5 * sh * z_ao d * z_ao d * b * 2)] ++
    (if 1 <? z_gs d then [("ST_proj"%string, r2 * z_atm d * b * 2)] else []) ++
    [("fft_buffer"%string, o2 * b * 2)]
  else [].
Definition zsum (l : list (string * Z)) : Z := fold_right Z.add 0 (map snd l).
(** lines 1943-1945 *)
Definition total_final (d : dims) : Z := zsum (mem_final d).
Definition total_peak (d : dims) (include_peak : bool) : Z := total_final d + zsum (mem_peak include_peak d).
Close Scope Z_scope.
(** lines 1962-1996: (final_MB, peak_MB) of the public view *)
Definition MB (z : Z) : R := IZR z / 1048576.
Definition observable (gpu include_peak : bool) (d : dims) : R * R :=
  if gpu then
    let full := 28 / 1000 + 45 / 10000 * Rmax (IZR (z_gs d - 1)) 0 + 7 / 10000 * Rmax (IZR (z_atm d - 1)) 0 in
    let fin := Rmax (15 / 1000) (55 / 100 * full) in
    (fin, if include_peak then full else fin)
  else (MB (total_final d), if include_peak then MB (total_peak d include_peak) else MB (total_final d)).

(** ** define_bounds, fourierModel.py:335-356 *)
(** Extended reals of numpy.inf *)
Inductive ext := NegInf | Val (r : R) | PosInf.
Definition define_bounds (nPix : Z) (nSrc : nat) : list ext * list ext :=
  (repeat NegInf 3 ++ repeat (Val 0) nSrc ++ repeat (Val (IZR (- nPix / 2))) (2 * nSrc) ++ [NegInf],
   repeat PosInf 3 ++ repeat PosInf nSrc ++ repeat (Val (IZR (nPix / 2))) (2 * nSrc) ++ [PosInf]).
