(** Model of telescope.py:20-203: the telescope object. Float values are exact reals.
    The file reader (fits.getdata, NaN pixels are [None]), scipy's rotate and
    FourierUtils.interpolateSupport(kind='linear') are arguments. check_path, the
    precision and the off-axis maps are in M_Config. *)
From Coq Require Import Reals List Arith ZArith Bool.
From Verif Require Import Base_Py Base_Sum M_Image M_Zernike.
Import ListNotations.
Open Scope R_scope.

(** An array read from a file: NaN entries are [None]. *)
Record data := mkData { dr : nat; dc : nat; dv : nat -> nat -> option R }.

(** lines 36-45: radius and area *)
Definition tel_R (D : R) : R := D / 2.
Definition tel_area (D obs : R) : R := PI * tel_R D ^ 2 * (1 - obs ^ 2).

(** lines 112-118: sample i of np.linspace(-D/2, D/2, n) *)
Definition grid1 (D : R) (n i : nat) : R :=
  if (n =? 1)%nat then - D / 2 else - D / 2 + INR i * ((D / 2 - - D / 2) / INR (n - 1)).
Definition hypot (x y : R) : R := sqrt (x ^ 2 + y ^ 2).
Definition b2r (b : bool) : R := if b then 1 else 0.
Definition rle (x y : R) : bool := if Rle_dec x y then true else false.
Definition rgt (x y : R) : bool := if Rlt_dec y x then true else false.
(** lines 111-120: the annular model (X varies along the columns: meshgrid) *)
Definition annular (D obs angle : R) (n : nat) : img :=
  mkImg n n (fun i j =>
    let th := angle * PI / 180 in
    let X := grid1 D n j in let Y := grid1 D n i in
    let Xr := X * cos th + Y * sin th in
    let Yr := Y * cos th - X * sin th in
    let r := hypot Xr Yr in
    b2r (rle r (tel_R D) && rgt r (tel_R D * obs))).

Section Tel.
  Variable rotate : img -> R -> img.
  Variable interp : img -> nat -> result img.

  (** lines 98-105 load_and_process_data(path) *)
  Definition load_data (angle : R) (res : nat) (d : data) : result img :=
    let a := mkImg (dr d) (dc d) (fun i j => match dv d i j with Some x => x | None => 0 end) in
    let a := if Req_EM_T angle 0 then a else rotate a angle in
    if (rows a =? res)%nat then Ok a else interp a res.

  (** lines 131-160: the map built from Zernike coefficients. [zern_base[i] *= pupil]
      needs a pupil of the shape (res, res) (or one that broadcasts to it: a single row
      or column, which is not kept here); a mode without variance gives NaN. The QR
      decomposition of lines 141-146 is computed and not used. *)
  Definition mean2 (n : nat) (f : nat -> nat -> R) : R :=
    rsum n (fun i => rsum n (fun j => f i j)) / INR (n * n).
  Definition norm_mode (n : nat) (f : nat -> nat -> R) : result (nat -> nat -> R) :=
    if (n =? 0)%nat then Err NonFinite else
    let m := mean2 n f in
    let g := fun i j => f i j - m in
    let s := sqrt (mean2 n (fun i j => g i j ^ 2)) in
    if Req_EM_T s 0 then Err NonFinite else Ok (fun i j => g i j / s).
  Fixpoint add_modes (n : nat) (l : list (R * (nat -> nat -> R))) (acc : nat -> nat -> R) : result (nat -> nat -> R) :=
    match l with
    | [] => Ok acc
    | (c, f) :: r => do g <- norm_mode n f; add_modes n r (fun i j => acc i j + c * g i j)
    end.
  (** np.linspace(2, n+1, n).astype(int) *)
  Definition zern_idx (n : nat) : list Z := map (fun i => (2 + Z.of_nat i)%Z) (seq 0 n).
  Definition zernike_map (pupil : img) (res : nat) (coefs : list R) (opd : option img) : result (option img) :=
    match coefs with
    | [] => Ok opd
    | _ =>
      do z <- make_zernike (Some (zern_idx (length coefs))) res None false CDefault 0;
      if negb ((rows pupil =? res)%nat && (cols pupil =? res)%nat) then Err ValueError else
      let base i := fun a b => mv (z_modes z) i a b * px pupil a b in
      let acc := match opd with None => mkImg res res (fun _ _ => 0) | Some o => o end in
      if negb ((rows acc =? res)%nat && (cols acc =? res)%nat) then Err ValueError else
      do f <- add_modes res (combine coefs (map base (seq 0 (length coefs)))) (px acc);
      Ok (Some (mkImg res res f))
    end.

  (** lines 182-203: a cube of modes; [cube] has shape (s1, s2, s3) and values *)
  Record cube := mkCube { s1 : nat; s2 : nat; s3 : nat; cv : nat -> nat -> nat -> R }.
  (** np.transpose(c, (1, 2, 0)) *)
  Definition transpose120 (c : cube) : cube := mkCube (s2 c) (s3 c) (s1 c) (fun i j k => cv c k i j).
  Fixpoint map_ok {A B} (f : A -> result B) (l : list A) : result (list B) :=
    match l with [] => Ok [] | x :: r => do y <- f x; do t <- map_ok f r; Ok (y :: t) end.
  Definition stat_modes (angle : R) (res : nat) (c : cube) : result (list img) :=
    let t := if (s1 c =? s2 c)%nat then c else transpose120 c in
    map_ok (fun k =>
      do m <- interp (mkImg (s1 t) (s2 t) (fun i j => cv t i j k)) res;
      Ok (if Req_EM_T angle 0 then m else rotate m angle)) (seq 0 (s3 t)).

  (** the object: attribute resolution is set from the pupil (lines 31-33) *)
  Record tele := mkTele { t_pupil : img; t_resolution : nat; t_apo : option img; t_opd : option img; t_modes : option (list img) }.
  (** lines 55-203 with the files already checked; [None] = no valid file *)
  Definition telescope (D : R) (res : nat) (obs angle : R) (fp fa fo : option data) (coefs : list R) (fm : option cube) : result tele :=
    let opt f := match f with None => Ok None | Some d => do a <- load_data angle res d; Ok (Some a) end in
    do p <- opt fp;
    let pupil := match p with Some a => a | None => annular D obs angle res end in
    do apo <- opt fa;
    do opd <- opt fo;
    do opd <- zernike_map pupil res coefs opd;
    do ms <- match fm with None => Ok None | Some c => do l <- stat_modes angle res c; Ok (Some l) end;
    Ok (mkTele pupil (rows pupil) apo opd ms).
End Tel.
