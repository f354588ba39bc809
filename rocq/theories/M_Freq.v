(** Model of the wavelength vector, the frequency grids and the frequency
    domain (p3/aoSystem/FourierUtils.py and frequencyDomain.py).
    Simplification: float arrays are lists of exact reals. *)
From Coq Require Import Reals List Arith ZArith.
From Flocq Require Import Core.Raux.
From Verif Require Import Base_Py.
Import ListNotations.
Open Scope R_scope.

(** [np.unique(l)]: sorted, duplicates removed (insertion into the sorted list). *)
Fixpoint insert_unique (x : R) (l : list R) : list R :=
  match l with
  | [] => [x]
  | y :: r => if Rlt_dec x y then x :: l
              else if Req_EM_T x y then l else y :: insert_unique x r
  end.
Definition np_unique (l : list R) : list R := fold_right insert_unique [] l.

(** [np.linspace(a, b, num)] (endpoint included; num = 1 gives [a]). *)
Definition linspace (a b : R) (num : nat) : list R :=
  map (fun i => if (num =? 1)%nat then a else a + INR i * ((b - a) / INR (num - 1))) (seq 0 num).

(** NumPy slice assignment [l[start:stop] = v] on a 1-D array: same length, or
    length one (broadcast), otherwise ValueError. *)
Definition assign_slice (l : list R) (start stop : Z) (v : list R) : result (list R) :=
  let n := Z.of_nat (length l) in
  let s := Z.to_nat (slice_bound n start) in
  let len := Z.to_nat (slice_len n start stop) in
  if (length v =? len)%nat then Ok (firstn s l ++ v ++ skipn (s + len) l)
  else match v with
       | [x] => Ok (firstn s l ++ repeat x len ++ skipn (s + len) l)
       | _ => Err ValueError
       end.

(** FourierUtils.py:642-676 create_wavelength_vector: [src_wvl] = ao.src.wvl,
    [n_bin] = ao.cam.nWvl, [bw] = ao.cam.bandwidth. The loop over j assigns
    wvl[j*n_bin:(j+1)*n_bin]. *)
Fixpoint fill_bands (start_of : nat -> Z) (n_bin : nat) (bw : R) (js : list nat) (cen : list R) (w : list R)
  : result (list R) :=
  match js, cen with
  | j :: js', c :: cen' =>
      do w' <- assign_slice w (start_of j) (Z.of_nat ((j + 1) * n_bin)) (linspace (c - bw / 2) (c + bw / 2) n_bin);
      fill_bands start_of n_bin bw js' cen' w'
  | _, _ => Ok w
  end.
Definition create_wavelength_vector (src_wvl : list R) (n_bin : nat) (bw : R) : result (list R * nat) :=
  let cen := np_unique src_wvl in
  let nwvl := (n_bin * length cen)%nat in
  do w <- fill_bands (fun j => Z.of_nat (j * n_bin)) n_bin bw (seq 0 (length cen)) cen (repeat 0 nwvl);
  Ok (w, nwvl).

(** frequencyDomain.py:107-115: same vector, but the slice starts at j instead
    of j*nBin: [self.wvl_[j:(j+1)*self.nBin] = linspace(...)]. *)
Definition freq_wavelengths (src_wvl : list R) (nBin : nat) (bw : R) : result (list R) :=
  let cen := np_unique src_wvl in
  fill_bands (fun j => Z.of_nat j) nBin bw (seq 0 (length cen)) cen (repeat 0 (nBin * length cen)).

(** [nnp.argmin(l)]: index of the first minimum (ValueError on empty). *)
Fixpoint argmin_aux (best : R) (bi i : nat) (l : list R) : nat :=
  match l with
  | [] => bi
  | x :: r => if Rlt_dec x best then argmin_aux x i (S i) r else argmin_aux best bi (S i) r
  end.
Definition argmin (l : list R) : result nat :=
  match l with [] => Err ValueError | x :: r => Ok (argmin_aux x 0 1 r) end.

(** rad2mas of aoSystem/__init__.py. *)
Definition rad2mas : R := 3600 * 180 * 1000 / PI.

(** frequencyDomain.py:133-150: sampling (pixels per lambda/D) before oversampling. With
    nyquistSampling the pixel scale is lambda/2D and the sampling is 2. *)
Definition pix_scale (nyquist : bool) (ps D w : R) : R :=
  if nyquist then rad2mas * w / D / 2 else ps.
Definition samp0 (nyquist : bool) (ps D w : R) : R :=
  if nyquist then 2 else w * rad2mas / (ps * D).
(** frequencyDomain.py:150-151: k_ = ceil(2/samp).astype(int), samp = k_*samp. *)
Definition oversampling (s : R) : Z := Zceil (2 / s).

(** Attributes of frequencyDomain fixed by lines 107-170 of __init__. *)
Record fdomain := mkFD {
  fd_wvl : list R; fd_wvlRef : R; fd_psInMas : list R; fd_k : list Z; fd_samp : list R;
  fd_PSDstep : R; fd_kRef : Z; fd_nOtf : Z }.

(** frequencyDomain.py:107-170. Simplification: wvl_.shape[0] > 1 tests select
    index 0 for a one-element vector, which is what argmin returns. *)
Definition make_fdomain (src_wvl : list R) (nBin : nat) (bw : R) (nyquist psdExpansion : bool)
                        (ps D : R) (nPix : Z) : result fdomain :=
  do w <- freq_wavelengths src_wvl nBin bw;
  do iW <- argmin w;
  do wRef <- pyindex w (Z.of_nat iW);
  let psl := map (pix_scale nyquist ps D) w in
  let s := map (samp0 nyquist ps D) w in
  let k := map oversampling s in
  let steps := map (fun x => pix_scale nyquist ps D x / (x * rad2mas * IZR (oversampling (samp0 nyquist ps D x)))) w in
  do iP <- argmin steps;
  do step <- pyindex steps (Z.of_nat iP);
  do kRef <- pyindex k (Z.of_nat (if psdExpansion then iP else iW));
  Ok (mkFD w wRef psl k (map (fun x => IZR (oversampling (samp0 nyquist ps D x)) * samp0 nyquist ps D x) w)
           step kRef (nPix * kRef)%Z).

(** FourierUtils.py:60-66 freq_array: value at (i, j) of the two arrays. *)
Definition freq_x (nX : nat) (L offset : R) (i j : nat) : R := IZR (Z.of_nat i - Z.of_nat nX / 2) * L + offset.
Definition freq_y (nX : nat) (L offset : R) (i j : nat) : R := IZR (Z.of_nat j - Z.of_nat nX / 2) * L + offset.
(** FourierUtils.py:282-288 shift_array (real [fact], as in
    instantiateAngularFrequencies, line 125-131). *)
Definition shift_x (nX nY : nat) (fact : R) (i j : nat) : R := (INR i - INR nX / 2) * fact / INR nX.
Definition shift_y (nX nY : nat) (fact : R) (i j : nat) : R := (INR j - INR nY / 2) * fact / INR nY.

(** frequencyDomain.py:26-44, pitch setter: cut-off frequencies, their maximum
    and the side of the AO-corrected area. [kcExt = None] or containing a zero
    means: use the DM pitches. *)
Definition cutoffs (kcExt : option (list R)) (pitch : list R) : list R :=
  match kcExt with
  | Some l => if forallb (fun x => if Req_EM_T x 0 then false else true) l then l else map (fun p => 1 / (2 * p)) pitch
  | None => map (fun p => 1 / (2 * p)) pitch
  end.
Definition rlist_max (l : list R) : result R :=
  match l with [] => Err ValueError | x :: r => Ok (fold_left Rmax r x) end.
(** int(np.max(2*kc/PSDstep)) *)
Definition resAO (kc : list R) (step : R) : result Z :=
  do m <- rlist_max (map (fun x => 2 * x / step) kc); Ok (Ztrunc m).

(** frequencyDomain.py:54-70: masks of the corrected area; AoArea = 'circle' or
    anything else (square). *)
Definition mskIn (circle : bool) (kcMax kx ky : R) : bool :=
  if circle then (if Rlt_dec (kx ^ 2 + ky ^ 2) (kcMax ^ 2) then true else false)
  else (if Rlt_dec (Rabs kx) kcMax then true else false) && (if Rlt_dec (Rabs ky) kcMax then true else false).
Definition mskOut (circle : bool) (kcMax kx ky : R) : bool :=
  if circle then (if Rge_dec (kx ^ 2 + ky ^ 2) (kcMax ^ 2) then true else false)
  else (if Rge_dec (Rabs kx) kcMax then true else false) || (if Rge_dec (Rabs ky) kcMax then true else false).

(** fourierModel.py:787-788 (and 1136, 1397): the corrected area occupies
    [id1:id2] of the full grid: id1 = ceil(nOtf/2 - resAO/2), id2 = ceil(nOtf/2 + resAO/2). *)
Definition id1 (nOtf r : Z) : Z := Zceil (IZR nOtf / 2 - IZR r / 2).
Definition id2 (nOtf r : Z) : Z := Zceil (IZR nOtf / 2 + IZR r / 2).

(** frequencyDomain.py:79-82 nTimes. *)
Definition nTimes (nOtf r : Z) : Z := Z.min 4 (Z.max 2 (Zceil (IZR nOtf / IZR r / 2))).

(** frequencyDomain.py:72-77 kcInMas and fourierModel.py:244-257: the field of
    view check of initComputations; [atm_wvl] is the wavelength of the
    atmosphere object at that time. *)
Definition fov_check (kc : list R) (atm_wvl : R) (psInMas : list R) (nOtf : Z) : result unit :=
  do m <- rlist_max (flat_map (fun k => map (fun p => 2 * (k * atm_wvl * rad2mas) / p) psInMas) kc);
  if Rlt_dec (IZR nOtf) m then Err ValueError else Ok tt.

(** FourierUtils.py:290-303 sombrero(1, x) and 210-224 pistonFilter (2-D
    frequency array); [j1] is scipy.special.j1, left abstract. *)
Definition sombrero1 (j1 : R -> R) (x : R) : R := if Req_EM_T x 0 then / 2 else j1 x / x.
Definition pistonFilter (j1 : R -> R) (D f : R) : R :=
  let f' := if Req_EM_T f 0 then / 10 ^ 10 else f in
  let r := sombrero1 j1 (PI * D * f') in
  let p := 1 - 4 * r ^ 2 in
  if Rlt_dec p 0 then 0 else p.

(** fourierModel.py:772: frequency step used to integrate the PSDs,
    dk = 2*kcMax/resAO (NumPy division by zero: NonFinite). *)
Definition dk_step (kcMax : R) (r : Z) : result R :=
  if (r =? 0)%Z then Err NonFinite else Ok (2 * kcMax / IZR r).
(** fourierModel.py:792 etc.: [psd[id1:id2,id1:id2,:] = A] with A of side r, on an
    axis of length n: refused unless the slice has r elements (r = 1 broadcasts). *)
Definition embed_ok (n r : Z) : bool :=
  ((slice_len n (id1 n r) (id2 n r) =? r) || (r =? 1))%Z%bool.
