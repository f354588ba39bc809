(** Model of p3/telemetry/systemDiagnosis.py, second part: lines 135-159 [get_number_photons], 226-256 [select_actuators],
    258-318 [reconstruct_zernike] and 343-347 (variances of the noise of the Zernike coefficients). Floats are exact reals;
    a matrix is an [img] (rows, columns). *)
From Coq Require Import Reals List Arith ZArith Bool.
From Flocq Require Import Core.Raux.
From Verif Require Import Base_Py Base_Sum M_Image M_Tools M_Atmo M_Freq M_Metric M_Diag.
Import ListNotations.
Open Scope R_scope.

(** ** get_number_photons *)
(** lines 143-149: [maps]: one list of pixels per exposure; [gain]; [nSl]: number of nonzero entries of the line 100 of the
    reconstructor. -nSl//2 is the floor of -nSl/2. Returns the mean of the brightest pixels, and the median over these
    ranks of the deviation over the exposures. *)
Definition top_pixels (gain : R) (nSl : nat) (m : list R) : result (list R) :=
  do v <- mapM (fun x => rdiv x gain) m;
  let s := rsort v in
  Ok (pyslice s (Z.div (- Z.of_nat nSl) 2) (Z.of_nat (length s))).
(** every map has the same number of pixels (they are the lines of one array) *)
Definition column (k : nat) (tops : list (list R)) : list R := map (fun t => nth k t 0) tops.
Definition photons (maps : list (list R)) (gain : R) (nSl : nat) : result (R * R) :=
  if existsb (existsb nonzero) maps then
    do tops <- mapM (top_pixels gain nSl) maps;
    do n <- rmeanl (concat tops);
    do sd <- mapM (fun k => nanstd (column k tops)) (seq 0 (length (nth 0 tops [])));
    do r <- median sd;
    Ok (n, r)
  else Ok (0, 0).
(** line 145: R[100, :, 0]; lines 152-157: tip-tilt sensor, a laser guide star system has its own one *)
Record photon_out := mkPh { ph_n : R; ph_ron : R; ph_ntt : R; ph_rontt : R }.
Definition get_number_photons (lgs : bool) (maps : list (list R)) (gain : R) (Rline : option (list R)) (tt : list R) (gain_tt : R) : result photon_out :=
  do h <- (if existsb (existsb nonzero) maps then match Rline with None => Err IndexError | Some l => photons maps gain (length (filter nonzero l)) end else Ok (0, 0));
  if lgs then
    do v <- mapM (fun x => rdiv x gain_tt) tt; do n <- rmeanl v; do r <- nanstd v; Ok (mkPh (fst h) (snd h) n r)
  else Ok (mkPh (fst h) (snd h) (fst h) (snd h)).

(** ** select_actuators *)
(** position of the maximum of an influence function (first one in reading order), in pixels from the centre (n/2, n/2) *)
Definition act_radius (iF : img) (nPix : nat) (scale : R) (k : nat) : result R :=
  match argmax_list (map (fun q => px iF q k) (seq 0 (rows iF))) with
  | None => Err ValueError
  | Some (m, _) => Ok (scale * sqrt ((INR (m / nPix) - INR nPix / 2) ^ 2 + (INR (m mod nPix) - INR nPix / 2) ^ 2))
  end.
Definition take_cols (iF : img) (ix : list nat) : result img :=
  if existsb (fun k => (cols iF <=? k)%nat) ix then Err IndexError else Ok (mkImg (rows iF) (length ix) (fun q k => px iF q (nth k ix 0%nat))).
Definition falsy (o : option R) : bool := match o with None => true | Some x => if Req_EM_T x 0 then true else false end.
(** the selection returned: a mask of n true values (that must have the length of what it selects), or indices *)
Inductive actsel := AllOf (n : nat) | Ix (l : list nat).
Definition act_ix (s : actsel) : list nat := match s with AllOf n => seq 0 n | Ix l => l end.
Definition act_ok (s : actsel) (n : nat) : bool := match s with AllOf m => (m =? n)%nat | Ix l => negb (existsb (fun k => (n <=? k)%nat) l) end.
(** [valid]: the map of valid actuators, flattened. A null resolution divides by zero. *)
Definition select_actuators (iF : img) (valid : list bool) (pitch : R) (nActu : nat) (Din Dout : option R) : result (img * actsel) :=
  if (falsy Din && falsy Dout)%bool then
    let ix := map fst (filter snd (combine (seq 0 (length valid)) valid)) in
    if (cols iF =? length ix)%nat then Ok (iF, AllOf (cols iF)) else do f <- take_cols iF ix; Ok (f, Ix ix)
  else
    let nPix := Nat.sqrt (rows iF) in
    if (nPix =? 0)%nat then Err ZeroDivisionError else
    if negb (nPix * nPix =? rows iF)%nat then Err ValueError else
    let scale := pitch * (INR nActu - 1) / INR nPix in
    do rad <- mapM (act_radius iF nPix scale) (seq 0 (cols iF));
    match Dout, Din with
    | Some o, Some i =>
        let ix := map fst (filter (fun p => ((if Rle_dec (snd p) (o / 2) then true else false) && (if Rle_dec (i / 2) (snd p) then true else false))%bool) (combine (seq 0 (cols iF)) rad)) in
        do f <- take_cols iF ix; Ok (f, Ix ix)
    | _, _ => Err TypeError
    end.

(** ** reconstruct_zernike *)
(** line 278: default number of modes, line 282: central obstruction *)
Definition n_zer (o : option nat) (nvalid : nat) : nat := match o with Some n => n | None => Z.to_nat (Ztrunc (75 / 100 * INR nvalid)) end.
(** np.roll(u, (s, 0)): a tuple of shifts without axis: the array is flattened, then shifted by s + 0 *)
Definition flat_roll (u : img) (s : Z) : img :=
  let n := (rows u * cols u)%nat in
  mkImg (rows u) (cols u) (fun t a => let q := Z.to_nat ((Z.of_nat (t * cols u + a) - s) mod Z.of_nat n) in px u (q / cols u) (q mod cols u)).
(** lines 300-304: [dt] = latency times frequency, in frames *)
Definition com_delta (dt : R) (res : img) : img :=
  let up := Zceil dt in let lo := Zfloor dt in
  mkImg (rows res) (cols res) (fun t a => (1 - IZR up + dt) * px (flat_roll res (- up)) t a + (1 - dt + IZR lo) * px (flat_roll res (- lo)) t a).
(** the two arrays have the same shape (broadcasting of a single frame or actuator is not modelled: refused); line 305 *)
Definition u_ol (dt : R) (com res : img) : result img :=
  if negb ((rows com =? rows res) && (cols com =? cols res))%nat then Err ValueError else
  if (cols com =? 0)%nat then Err NonFinite else
  let u t a := px com t a + px (com_delta dt res) t a in
  Ok (mkImg (rows com) (cols com) (fun t a => u t a - rsum (cols com) (u t) / INR (cols com))).
(** lines 308-310. [u2z]: modes x selected actuators *)
Definition zer_coeffs (u2z u : img) (sel : actsel) : result img :=
  if negb (act_ok sel (cols u)) then Err IndexError else
  let act := act_ix sel in
  if negb (cols u2z =? length act)%nat then Err ValueError else
  if (rows u =? 0)%nat then Err NonFinite else
  let c z t := rsum (length act) (fun k => px u2z z k * px u t (nth k act 0%nat)) in
  Ok (mkImg (rows u2z) (rows u) (fun z t => c z t - rsum (rows u) (c z) / INR (rows u))).
Definition cov_rows (c : img) (nExp : R) : result img :=
  if Req_EM_T nExp 0 then Err NonFinite else Ok (mkImg (rows c) (rows c) (fun i j => rsum (cols c) (fun t => px c i t * px c j t) / nExp)).
(** lines 312-316 *)
Definition cov_tt (lgs : bool) (Cho tt : img) (nExp_tt : R) : result img :=
  if lgs then (if Req_EM_T nExp_tt 0 then Err NonFinite else Ok (mkImg (cols tt) (cols tt) (fun i j => rsum (rows tt) (fun t => px tt t i * px tt t j) / nExp_tt)))
  else Ok (mkImg (Nat.min 1 (rows Cho)) (Nat.min 1 (cols Cho)) (px Cho)).
(** the whole: [u2z_of] stands for lines 284-296 (modes of Zernike, pseudo-inverse): a function of the influence functions
    and of the number of modes *)
Definition reconstruct_zernike (u2z_of : img -> nat -> R -> result img) (iF : img) (valid : list bool) (pitch : R) (nActu : nat) (Din Dout : option R) (nZer : option nat)
    (dt nExp : R) (com res : img) (lgs : bool) (tt : img) (nExp_tt : R) : result (img * img) :=
  do s <- select_actuators iF valid pitch nActu Din Dout;
  let nz := n_zer nZer (length (filter (fun b => b) valid)) in
  do cobs <- (if (negb (falsy Dout) && negb (falsy Din))%bool then match Din, Dout with Some i, Some o => rdiv i o | _, _ => Ok 0 end else Ok 0);
  do m <- u2z_of (fst s) nz cobs;
  do u <- u_ol dt com res;
  do c <- zer_coeffs m u (snd s);
  do ho <- cov_rows c nExp;
  do t <- cov_tt lgs ho tt nExp_tt;
  Ok (ho, t).
(** lines 343-347: variance of the noise of each coefficient *)
Definition var_noise_zer (u2z Cnn : img) (sel : actsel) (z : nat) : R :=
  let act := act_ix sel in
  rsum (length act) (fun a => rsum (length act) (fun b => px u2z z a * px Cnn (nth a act 0%nat) (nth b act 0%nat) * px u2z z b)).
