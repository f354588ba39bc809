(** Model of p3/deepLoop/dataGenerator.py: the random data base of PSFs.
    Random draws are arguments of the model; files are a function from (folder, name) to
    contents; floats are exact reals. Printing and the FITS format are not modelled. *)
From Coq Require Import Reals List Arith ZArith Bool String.
From Flocq Require Import Core.
From Verif Require Import Base_Py Base_Sum Base_DFT M_Image M_Fourier M_Cone.
From Coquelicot Require Import Complex.
Import ListNotations.
Open Scope R_scope.

(** * split_test_data, dataGenerator.py:229-281 *)

(** A folder test_data and its sub-folders sub_folder_0, sub_folder_1, ...: [None] is
    test_data itself, [Some k] is sub_folder_k. *)
Definition files (A : Type) := option nat -> string -> option A.
Definition loc_eqb (a b : option nat) : bool :=
  match a, b with None, None => true | Some i, Some j => Nat.eqb i j | _, _ => false end.
Definition fs_set {A} (fs : files A) (l : option nat) (n : string) (v : option A) : files A :=
  fun l' n' => if loc_eqb l' l && String.eqb n' n then v else fs l' n'.
(** os.rename (POSIX: an existing target is replaced) of one name between two folders. *)
Definition rename {A} (fs : files A) (src dst : option nat) (n : string) : result (files A) :=
  match fs src n with
  | None => Err FileNotFoundError
  | Some c => Ok (fs_set (fs_set fs src n None) dst n (Some c))
  end.

(** line 246: ".fits" in name *)
Definition is_fits (n : string) : bool :=
  match String.index 0 ".fits" n with Some _ => true | None => false end.

(** np.argmin of a list of naturals: first minimum *)
Fixpoint argmin_nat (l : list nat) : nat :=
  match l with
  | [] => 0%nat
  | x :: r => match r with
              | [] => 0%nat
              | _ => let k := argmin_nat r in if (nth k r 0%nat <? x)%nat then S k else 0%nat
              end
  end.
Definition absdiff (a b : nat) : nat := ((a - b) + (b - a))%nat.
(** lines 251-257: the divisor of n_files among 1 .. 2*n_sub_folder-1 whose index is the closest
    to that of n_sub_folder (the first one when two are as close). *)
Definition nearest_divisor (n_files n_sub : nat) : nat :=
  let n_values := seq 1 (2 * n_sub - 1) in
  let idx := (n_sub - 1)%nat in
  let id_0 := filter (fun i => Nat.eqb (n_files mod (nth i n_values 0%nat)) 0) (seq 0 (List.length n_values)) in
  let good := map (fun i => nth i n_values 0%nat) id_0 in
  nth (argmin_nat (map (fun i => absdiff i idx) id_0)) good 0%nat.
(** lines 251-262. A number of sub-folders of zero passes the test of line 251 (np.mod by zero gives 0) and
    fails at line 265. Negative numbers are not modelled. *)
Definition split_number (n_files n_sub : nat) : result nat :=
  if (n_sub =? 0)%nat then Err ZeroDivisionError else
  let m := if (n_files mod n_sub =? 0)%nat then n_sub else nearest_divisor n_files n_sub in
  if (m =? 1)%nat then Err ValueError else Ok m.

(** lines 276-280: moving the files of one sub-folder *)
Fixpoint move_all {A} (fs : files A) (k : nat) (names : list string) : result (files A) :=
  match names with
  | [] => Ok fs
  | n :: r => do fs1 <- rename fs None (Some k) n; move_all fs1 k r
  end.
(** the k-th row of arr_of_index.reshape(m, q) applied to list_file *)
Definition row_names (list_file : list string) (perm : list nat) (q k : nat) : list string :=
  map (fun i => nth i list_file EmptyString) (firstn q (skipn (k * q) perm)).
Fixpoint move_rows {A} (fs : files A) (list_file : list string) (perm : list nat) (q : nat) (ks : list nat) : result (files A) :=
  match ks with
  | [] => Ok fs
  | k :: r => do fs1 <- move_all fs k (row_names list_file perm q k); move_rows fs1 list_file perm q r
  end.
(** dataGenerator.py:229-281 [split_test_data(path_folder, n_sub_folder)]. [has_folder], [has_test]: the two
    os.path.isdir tests; [listing]: os.listdir(path_test); [perm n]: random.sample(range(n), n). Creating a
    missing sub-folder cannot fail here. *)
Definition split_test_data {A} (has_folder has_test : bool) (fs : files A) (listing : list string) (n_sub : nat)
    (perm : nat -> list nat) : result (files A) :=
  if negb has_folder then Err ValueError else
  if negb has_test then Err ValueError else
  let list_file := filter is_fits listing in
  let n_files := List.length list_file in
  do m <- split_number n_files n_sub;
  move_rows fs list_file (perm n_files) (n_files / m) (seq 0 m).

(** * generate_parameters_values, dataGenerator.py:283-386 *)

(** np.round(x, nround): half to even *)
Definition np_round (x : R) (d : nat) : R := IZR (ZnearestE (x * 10 ^ d)) / 10 ^ d.

Inductive main_par := MainR0 | MainStat | MainOther.
(** r0 is an array (n_psf_folder, n_sub_folder) when it is the main parameter, otherwise one value per PSF;
    the static coefficients are absent, (nmodes, n_psf) or (nmodes, n_psf, n_sub). *)
Inductive r0_val := R0tab (f : nat -> nat -> R) | R0vec (f : nat -> R).
Inductive stat_val := StatNone | StatVec (nm : nat) (f : nat -> nat -> R) | StatTab (nm : nat) (f : nat -> nat -> nat -> R).
Record params := mkParams {
  p_r0 : r0_val; p_C : nat -> R; p_sig2 : nat -> nat -> R; p_ax : nat -> R; p_pe : list R; p_be : nat -> R;
  p_stat : stat_val;
  p_xint : list R; p_sint : list R;             (* interval edges *)
  p_idx : nat -> nat -> nat; p_ids : nat -> nat -> nat  (* interval numbers, per PSF and column *) }.

(** The uniform draws in [0,1): for the columns of the main parameter (mode, PSF, column), for sig2 (PSF, column)
    and for the secondary parameters. *)
Record draws := mkDraws { d_x : nat -> nat -> nat -> R; d_s : nat -> nat -> R; d_C : nat -> R; d_ax : nat -> R; d_be : nat -> R;
                          d_r0 : nat -> R; d_stat : nat -> nat -> R }.
Definition unif (lo hi u : R) : R := lo + (hi - lo) * u.

(** lines 334-360: the column t holds the interval t/n of the first parameter and t mod n of the second; the columns
    from n^2 on keep their zeros. *)
Definition column (edges : list R) (k : nat) (u : R) : R := nth k edges 0 + (nth (S k) edges 0 - nth k edges 0) * u.

(** [bounds] is the pair of lists (low, high) with the parameters in the order r0, C, sig2 (nm), ax, p, beta, static. *)
Definition generate_parameters_values (lo hi : list R) (wvl_fact : R) (n_inter n_psf n_sub nround : nat) (nmodes : option nat)
    (add_static : bool) (mp : main_par) (d : draws) : result params :=
  if (List.length lo =? 0)%nat || (List.length hi =? 0)%nat then Err ValueError else
  if negb (List.length lo =? List.length hi)%nat then Err ValueError else
  if negb add_static && (List.length lo <? 6)%nat then Err ValueError else
  if add_static && (List.length lo <? 7)%nat then Err ValueError else
  if Req_EM_T wvl_fact 0 then Err ZeroDivisionError else (* a negative factor (complex power) is not modelled *)
  let b i := (nth i lo 0, nth i hi 0) in
  let wvl := 2 * PI * (1 / 10 ^ 9) / wvl_fact in
  let f0 := Rpower (wvl / (500 / 10 ^ 9)) (6 / 5) in
  let r0b := (fst (b 0%nat) * f0, snd (b 0%nat) * f0) in
  let stb := (fst (b 6%nat) * (wvl * 10 ^ 9), snd (b 6%nat) * (wvl * 10 ^ 9)) in
  do xb <- match mp with
           | MainR0 => Ok r0b
           | MainStat => if negb add_static then Err UnboundLocalError
                         else match nmodes with None => Err TypeError | Some _ => Ok stb end
           | MainOther => Err ValueError
           end;
  let s2 v := (wvl_fact * v) * (wvl_fact * v) in
  let x_int := map (fun v => np_round v nround) (linspace (fst xb) (snd xb) (S n_inter)) in
  let sig2_int := map (fun v => np_round v nround) (linspace (s2 (fst (b 2%nat))) (s2 (snd (b 2%nat))) (S n_inter)) in
  if (n_sub <? n_inter * n_inter)%nat then Err IndexError else
  let inside t := (t <? n_inter * n_inter)%nat in
  let kx t := (t / n_inter)%nat in
  let ks t := (t mod n_inter)%nat in
  let x1 := fun m i t => if inside t then column x_int (kx t) (d_x d m i t) else 0 in
  let sig2 := fun i t => if inside t then column sig2_int (ks t) (d_s d i t) else 0 in
  do st <- match mp, add_static, nmodes with
           | MainR0, true, None => Err TypeError
           | MainR0, true, Some nm => Ok (StatVec nm (fun m i => unif (fst stb) (snd stb) (d_stat d m i)))
           | MainR0, false, _ => Ok StatNone
           | _, _, Some nm => Ok (StatTab nm x1)
           | _, _, None => Err TypeError
           end;
  Ok (mkParams
        (match mp with MainR0 => R0tab (x1 0%nat) | _ => R0vec (fun i => unif (fst r0b) (snd r0b) (d_r0 d i)) end)
        (fun i => unif (fst (b 1%nat)) (snd (b 1%nat)) (d_C d i))
        sig2
        (fun i => unif (fst (b 3%nat)) (snd (b 3%nat)) (d_ax d i))
        (linspace (fst (b 4%nat)) (snd (b 4%nat)) n_psf)
        (fun i => unif (fst (b 5%nat)) (snd (b 5%nat)) (d_be d i))
        st x_int sig2_int
        (fun _ t => if inside t then kx t else 0%nat) (fun _ t => if inside t then ks t else 0%nat)).

(** * The images, dataGenerator.py:107-160 *)

(** what the loop reads of the psfao21 object: the corrected area, the fitting spectrum, the frequency scale, the
    diffraction-limited OTF and the static OTF of a vector of coefficients (both already fftshifted), and the
    spectrum of the correction returned by the third-party Psfao class for (ax, p, beta) after the subtraction of line 117. *)
Record scene := mkScene { sc_msk : img; sc_kolmo : img; sc_pix2freq : R; sc_otf : carr; sc_static : list R -> carr;
                          sc_moffat : R -> R -> R -> img }.

(** lines 131-134: psd = mskIn_*(C + psd_in*sig2), plus the fitting spectrum if the main parameter is "stat". *)
Definition gen_psd (s : scene) (mp : main_par) (C0 sig2 r053 : R) (psd_in : img) : img :=
  mkImg (rows (sc_msk s)) (cols (sc_msk s)) (fun i j =>
    px (sc_msk s) i j * (C0 + px psd_in i j * sig2)
    + match mp with MainStat => r053 * px (sc_kolmo s) i j | _ => 0 end).
(** lines 137-146 *)
Definition gen_image (psd : img) (pix2freq : R) (otf : carr) : result img :=
  if cis_empty (to_c psd) then Err ValueError else
  let B := cmap (fun z => Cmult z (RtoC pix2freq)) (fft2 (fftshift (to_c psd))) in
  do m <- carr_max B;
  Ok (re_img (fftshift (ifft2 (mkC (crows B) (ccols B) (fun i j =>
        Cmult (cpx otf i j) (RtoC (exp (- (1 / 2) * fst (Cmult (RtoC 2) (Cminus m (cpx B i j))))))))))).

Definition stat_at (v : stat_val) (j k : nat) : list R :=
  match v with
  | StatNone => []
  | StatVec nm f => map (fun m => f m j) (seq 0 nm)
  | StatTab nm f => map (fun m => f m j k) (seq 0 nm)
  end.
(** lines 105, 120: r053[j]; for the main parameter r0 the value is a row of an array, never used *)
Definition r053_at (v : r0_val) (j : nat) : R :=
  match v with R0vec f => Rpower (f j) (- (5 / 3)) | R0tab _ => 0 end.
(** the noise-free image of PSF j in column k, before lines 148-157 *)
Definition gen_psf (s : scene) (mp : main_par) (add_static : bool) (v : params) (j k : nat) : result img :=
  let psd_in := sc_moffat s (p_ax v j) (nth j (p_pe v) 0) (p_be v j) in
  let otf := if add_static then sc_static s (stat_at (p_stat v) j k) else sc_otf s in
  gen_image (gen_psd s mp (p_C v j) (p_sig2 v j k) (r053_at (p_r0 v) j) psd_in) (sc_pix2freq s) otf.

(** lines 148-154: noise, with the magnitude [mag] (0: none). [poi i j lam], [sky i j], [g i j]: the draws; the detector noise is
    shifted to a minimum of zero. *)
Definition gen_noise (mag zp dit ndit ron : R) (psf : img) (poi : nat -> nat -> R -> R) (sky g : nat -> nat -> R) : result img :=
  if Req_EM_T mag 0 then Ok psf else
  if Rlt_dec ndit 0 then Err NonFinite else
  let flux := Rpower 10 (- (4 / 10) * (mag - zp)) * dit * ndit in
  if existsb (fun v => if Rlt_dec (flux * v) 0 then true else false) (pixels psf) then Err ValueError else
  let dec := mkImg (rows psf) (cols psf) (fun i j => ron * sqrt ndit * g i j) in
  do m <- img_min dec;
  Ok (mkImg (rows psf) (cols psf) (fun i j => poi i j (flux * px psf i j) + sky i j + (px dec i j - m))).

(** * Selection of the test data, dataGenerator.py:205-222: number of files taken from each sub-folder *)
Definition test_per_folder (n_test : R) (n_psf n_sub : nat) : result Z :=
  if (n_sub =? 0)%nat then Err ZeroDivisionError else
  let n := if Rlt_dec n_test 1 then IZR (Ztrunc (n_test * INR n_psf * INR n_sub)) else n_test in
  Ok (Ztrunc (n / INR n_sub)).
