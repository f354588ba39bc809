(** Model of p3/psfr/psfR.py and p3/psfr/psfrUtils.py (PSF reconstruction from telemetry).
    Float values are exact reals. numpy.linalg.svd and interpolateSupport to another size
    are parameters; an array whose shape is already the requested one is returned as is
    (FourierUtils.py:741-742). *)
From Coq Require Import Reals List Arith ZArith Bool.
From Verif Require Import Base_Py Base_Sum Base_DFT M_Image M_Fourier M_Tools M_Atmo M_Zernike2 M_Model M_Model2 M_Psf.
From Coquelicot Require Import Complex.
Import ListNotations.
Open Scope R_scope.

(** ** psfrUtils.modes2Otf, lines 108-179 *)
Inductive basisArg := Vii | Uij | OtherBasis.
(** line 742 of FourierUtils: unchanged when the shape is right *)
Definition interpolateTo (interp : img -> nat -> img) (a : img) (n : nat) : img :=
  if ((rows a =? n) && (cols a =? n))%nat then a else interp a n.
(** real part of fft2(a)*conj(fft2(b)), a and b real *)
Definition re_cross (n m : nat) (a b : nat -> nat -> R) (k l : nat) : R :=
  fst (Cmult (dft2 n m (fun i j => RtoC (a i j)) k l) (Cconj (dft2 n m (fun i j => RtoC (b i j)) k l))).
(** np.real(fft.ifft2(x)) of a real array *)
Definition re_ifft (n m : nat) (x : nat -> nat -> R) (u v : nat) : R := fst (idft2 n m (fun k l => RtoC (x k l)) u v).
(** line 128: G = fftshift(real(ifft2(abs(fft_pup)**2))) *)
Definition otf_G (P : img) : img :=
  mkImg (rows P) (cols P) (fun i j => re_ifft (rows P) (cols P) (re_cross (rows P) (cols P) (px P) (px P)) (shift_ix (rows P) i) (shift_ix (cols P) j)).
(** lines 131-133: 1/G where G/G.max() > 1e-7, 0 elsewhere *)
Definition den_of (G : img) (gmax : R) (i j : nat) : R := if Rlt_dec (/ 10 ^ 7) (px G i j / gmax) then / px G i j else 0.
(** line 139: column k of np.dot(modes, V) as an image (line 140), enlarged (line 141).
    One pixel (r, c) of the image is the row r*n_pup + c of the matrix. *)
Definition mode_img (modes V : img) (npup k : nat) : img :=
  mkImg npup npup (fun i j => rsum (cols modes) (fun l => px modes (i * npup + j) l * px V l k)).
(** line 141 for one mode: enlarged and multiplied by the enlarged pupil; other shapes than
    the pupil's are refused (Simplification: including the 1-pixel broadcast). *)
Definition masked_mode (m pup_pad : img) (p q : Z) : result img :=
  do e <- enlargeSupport m p q;
  if ((rows e =? rows pup_pad) && (cols e =? cols pup_pad))%nat then Ok (mkImg (rows e) (cols e) (fun i j => px e i j * px pup_pad i j))
  else Err ValueError.
(** lines 147-150: ss[k] * (real(fft2(Mk**2)*conj_pup) - abs(fft2(Mk))**2) *)
Definition vii_term (P : img) (s : R) (M : img) (k l : nat) : R :=
  s * (re_cross (rows P) (cols P) (fun i j => px M i j ^ 2) (px P) k l - re_cross (rows P) (cols P) (px M) (px M) k l).
(** lines 135-153 *)
Definition vii_dphi (svd : img -> list R * img) (Cmm modes P G : img) (gmax : R) (p q : Z) : result img :=
  let npup := Nat.sqrt (rows modes) in
  let ss := fst (svd Cmm) in let V := snd (svd Cmm) in
  if negb ((cols modes =? rows V) && (cols V =? length ss) && (rows modes =? npup * npup))%nat then Err ValueError else
  do Ms <- mapM (fun k => masked_mode (mode_img modes V npup k) P p q) (seq 0 (length ss));
  let buf k l := lsum (map (fun sm => vii_term P (fst sm) (snd sm) k l) (combine ss Ms)) in
  Ok (mkImg (rows P) (cols P) (fun i j => den_of G gmax i j * re_ifft (rows P) (cols P) (fun k l => 2 * buf k l) (shift_ix (rows P) i) (shift_ix (cols P) j))).
(** lines 159-174, one pass of the double loop; [d] is the running dphi *)
Definition uij_step (Cmm modes P G : img) (gmax : R) (p q : Z) (d : img) (i j : nat) : result img :=
  let npup := Nat.sqrt (rows modes) in
  if negb (rows modes =? npup * npup)%nat then Err ValueError else
  do Mi <- masked_mode (mkImg npup npup (fun a b => px modes (a * npup + b) i)) P p q;
  do Mj <- masked_mode (mkImg npup npup (fun a b => px modes (a * npup + b) j)) P p q;
  if negb ((i <? rows Cmm) && (j <? cols Cmm))%nat then Err IndexError else
  let n := rows P in let m := cols P in
  let ij u v := re_ifft n m (fun k l => re_cross n m (fun a b => px Mi a b * px Mj a b) (px P) k l - re_cross n m (px Mi) (px Mj) k l) u v in
  let d1 u v := px d u v + 2 * px Cmm i j * ij u v in
  Ok (mkImg n m (fun u v => 2 * d1 (shift_ix n u) (shift_ix m v) * den_of G gmax u v)).
Fixpoint foldM {A B} (f : A -> B -> result A) (a : A) (l : list B) : result A :=
  match l with [] => Ok a | b :: r => do a' <- f a b; foldM f a' r end.
(** lines 159-174: for i in 1..nm-1, for j in 1..i-1 *)
Definition uij_dphi (Cmm modes P G : img) (gmax : R) (p q : Z) : result img :=
  foldM (fun d i => foldM (fun d j => uij_step Cmm modes P G gmax p q d i j) d (seq 1 (i - 1)))
        (mkImg (rows P) (cols P) (fun _ _ => 0)) (seq 1 (cols modes - 1)).
(** lines 122-189. A nul pupil gives only nan (NonFinite). Without covariance, or for
    another basis, [dphi] is never assigned: UnboundLocalError at line 184. *)
Definition modes2Otf (svd : img -> list R * img) (interp : img -> nat -> img) (Cmm modes pupil : img) (n_otf : nat) (p q : Z) (b : basisArg) : result (img * img) :=
  do P <- enlargeSupport pupil p q;
  let G := otf_G P in
  do gmax <- img_max G;
  if Req_EM_T gmax 0 then Err NonFinite else
  let any := existsb (fun x => if Req_EM_T x 0 then false else true) (pixels Cmm) in
  do dphi <- match b with
             | Vii => if any then vii_dphi svd Cmm modes P G gmax p q else Err UnboundLocalError
             | Uij => if any then uij_dphi Cmm modes P G gmax p q else Err UnboundLocalError
             | OtherBasis => Err UnboundLocalError
             end;
  let otf := mkImg (rows P) (cols P) (fun i j => if Rlt_dec (/ 10 ^ 5) (px G i j) then px G i j * exp (- / 2 * px dphi i j) else 0) in
  let o := interpolateTo interp otf n_otf in
  do omax <- img_max o;
  if Req_EM_T omax 0 then Err NonFinite else
  Ok (img_map (fun x => x / omax) o, interpolateTo interp dphi n_otf).

(** ** psfR.residual_phase_structure_function, lines 185-211. [com]: commands, one list per
    frame; [gain]: loop gain; result: Cao (line 198) *)
Definition lsub (a b : list R) : list R := map (fun x => fst x - snd x) (combine a b).
(** np.diff(com, axis=0) *)
Fixpoint diffs (l : list (list R)) : list (list R) :=
  match l with a :: ((b :: _) as r) => lsub b a :: diffs r | _ => [] end.
(** np.dot(du.T, du)/du.shape[0]; no frame: 0/0 (nan) *)
Definition emp_cov (du : list (list R)) (i j : nat) : result R :=
  rdiv (lsum (map (fun f => nth i f 0 * nth j f 0) du)) (INR (length du)).
(** dm-based increments, line 196 *)
Definition dm_increments (com : list (list R)) (gain : R) : result (list (list R)) :=
  mapM (mapM (fun x => rdiv x gain)) (diffs com).
Definition cao_dm (com : list (list R)) (gain : R) (i j : nat) : result R :=
  do du <- dm_increments com gain; emp_cov du i j.

(** ** psfR.jitter_phase_structure_function, lines 213-246 *)
(** lines 218-221 with no argument: covariance of the slopes minus the noise. *)
Definition slopes_cov (s : list (R * R)) (nExp : R) (cn : tcov) : result tcov :=
  do a <- rdiv (lsum (map (fun x => fst x * fst x) s)) nExp;
  do b <- rdiv (lsum (map (fun x => fst x * snd x) s)) nExp;
  do c <- rdiv (lsum (map (fun x => snd x * fst x) s)) nExp;
  do d <- rdiv (lsum (map (fun x => snd x * snd x) s)) nExp;
  Ok ((a - fst (fst cn), b - snd (fst cn)), (c - fst (snd cn), d - snd (snd cn))).
(** lines 223-245; [n] the size of U_, [pang] the pupil angle in degrees *)
Definition jitter_sf (n : nat) (samp wvl pang : R) (C : tcov) (i j : nat) : result R :=
  do k <- rdiv (2 * PI) wvl;
  let ang := pang * PI / 180 in
  let unit := samp / 2 in
  let U := Uax n i in let V := Uax n j in
  let Ur := if Req_EM_T ang 0 then unit * U else unit * (U * cos ang + V * sin ang) in
  let Vr := if Req_EM_T ang 0 then unit * V else unit * (- U * sin ang + V * cos ang) in
  Ok (k ^ 2 * fst (fst C) * Ur ^ 2 + k ^ 2 * snd (snd C) * Vr ^ 2 + 2 * (k ^ 2 * fst (snd C)) * Ur * Vr).

(** ** psfR.pixel_optical_transfer_function, lines 246-256; [ps] in mas *)
Definition pixel_otf (n : nat) (D samp wvl ps : R) (i j : nat) : result R :=
  do a <- rdiv D wvl;
  let umax := a * samp / 2 in
  let psr := ps * PI * / 1000 / 3600 / 180 in
  Ok (sinc (Uax n i * umax * psr) * sinc (Uax n j * umax * psr)).

(** ** psfR.fitting_phase_structure_function, lines 151-158 *)
Definition fitting_sf (psd : img) (D samp r0 : R) : result img :=
  do r <- rpow r0 (- 5 / 3);
  do ps <- rdiv 1 (D * samp);
  do c <- psd2cov (img_map (fun x => r * x) psd) ps;
  do s <- cov2sf c;
  Ok (re_img (fftshift s)).
(** ** psfR.aliasing_phase_structure_function, lines 160-183. [psd]: aliasingPSD() for the
    current atmosphere; the enlargement factor nOtf/resAO is exact. *)
Definition aliasing_sf (interp : img -> nat -> img) (psd : img) (nOtf resAO : nat) (r0atm D samp r0 : R) : result img :=
  do ra <- rpow r0atm (- 5 / 3);
  do p1 <- img_div psd ra;
  if (resAO =? 0)%nat then Err ZeroDivisionError else
  do p2 <- enlargeSupport p1 (Z.of_nat nOtf) (Z.of_nat resAO);
  do ps <- rdiv 1 (D * samp);
  do c <- psd2cov p2 ps;
  do s <- cov2sf c;
  do r <- rpow r0 (- 5 / 3);
  let d := img_map (fun x => r * x) (re_img (fftshift s)) in
  Ok (if (rows d =? nOtf)%nat then d else interpolateTo interp d nOtf).

(** ** psfR.phase_structure_function, lines 258-273. [ani]: dphi_ani, one list of layers per
    source, when freq.isAniso; [nlay] = dani_ang.shape[1]. Result: one plane per source.
    Planes are n x n. *)
Definition psfr_sf (n nSrc : nat) (ao tt fit alias : nat -> nat -> R) (r0 : R) (x : list R) (ani : option (nat * list (list (nat -> nat -> R)))) (Cn2 : option (list R)) : result (list img) :=
  do gho <- pyindex x 0;
  do gtt <- pyindex x 1;
  do r <- rpow r0 (- 5 / 3);
  let sf i j := gho * ao i j + gtt * tt i j + r * (fit i j + alias i j) in
  match ani, Cn2 with
  | Some (nlay, planes), Some c =>
      if (length c =? nlay)%nat then
        Ok (map (fun ls => mkImg n n (fun i j => sf i j + lsum (map (fun lw => fst lw i j * snd lw) (combine ls c)))) planes)
      else Ok (repeat (mkImg n n sf) nSrc)
  | _, _ => Ok (repeat (mkImg n n sf) nSrc)
  end.

(** ** psfR.get_error_breakdown, lines 284-395 *)
(** line 294: sr2fwe; log of 0 is -inf, the square root of a negative number nan *)
Definition sr2fwe (wvl x : R) : result R :=
  if Rle_dec x 0 then Err NonFinite else
  do s <- rsqrt (- ln x);
  Ok (s * wvl * 10 ^ 9 / 2 / PI).
(** np.sum(otf_dl * f)/S *)
Definition sr_of (n : nat) (dl f : nat -> nat -> R) : result R := rdiv (gsum n (fun i j => dl i j * f i j)) (gsum n dl).
Definition wfe_of_sf (wvl : R) (n : nat) (dl sf : nat -> nat -> R) : result R :=
  do s <- sr_of n dl (fun i j => exp (- / 2 * sf i j)); sr2fwe wvl s.
(** np.std of a list *)
Definition rmean (l : list R) : result R := rdiv (lsum l) (INR (length l)).
Definition rstd (l : list R) : result R :=
  do m <- rmean l; do v <- rmean (map (fun x => (x - m) ^ 2) l); rsqrt v.
Record psfr_in := mkPin {
  b_n : nat; b_wvl : R; b_dl : nat -> nat -> R;       (* size of the OTF, reference wavelength, otfDL *)
  b_ncpa : list R;                                    (* opdMap_on inside the pupil *)
  b_atm_r0 : R; b_atm_wvl : R; b_r0 : option R;       (* ao.atm.r0, ao.atm.wvl, argument r0 *)
  b_fit : nat -> nat -> R; b_alias : nat -> nat -> R; (* dphi_fit, dphi_alias for r0 = 1 *)
  b_pn_ho : R; b_cn_diag : list R;                    (* holoop.tf.pn, Cn_ao[msk, msk] *)
  b_samp : R; b_ang : R; b_pn_tt : R; b_cn_tt : tcov; (* jitter *)
  b_tr_cao : R; b_tr_cn : R; b_ncom : R;              (* traces of Cao and Cn_ao, dm.nCom *)
  b_jit : option (nat -> nat -> R);                   (* dphi_tt when compute_dphi_jitter *)
  b_pix : nat -> nat -> R;                            (* otfPixel *)
  b_ani : option (nat -> nat -> R)                    (* sum over the layers of dphi_ani[0]*Cn2, if isAniso *) }.
Record psfr_wfe := mkPw { w_ncpa : R; w_fit : R; w_alias : R; w_hon : R; w_ttn : R; w_servo : R; w_tt : R; w_pix : R; w_ani : R; w_tot : R; w_totpix : R; w_sr : R; w_srpix : R }.
(** line 308: r0 at the imaging wavelength by default; [not r0] is also true of 0 *)
Definition psfr_r0 (b : psfr_in) : result R :=
  match b_r0 b with
  | Some r => if Req_EM_T r 0 then (do t <- rdiv (b_wvl b) (b_atm_wvl b); do p <- rpow t (12 / 10); Ok (b_atm_r0 b * p)) else Ok r
  | None => do t <- rdiv (b_wvl b) (b_atm_wvl b); do p <- rpow t (12 / 10); Ok (b_atm_r0 b * p)
  end.
(** line 321: dphi of the tip-tilt noise *)
Definition tt_noise_sf (b : psfr_in) (i j : nat) : result R :=
  let c := b_cn_tt b in let f := b_pn_tt b in
  jitter_sf (b_n b) (b_samp b) (b_wvl b) (b_ang b) ((f * fst (fst c), f * snd (fst c)), (f * fst (snd c), f * snd (snd c))) i j.
(** lines 300-348: the terms *)
Definition psfr_fit_terms (b : psfr_in) : result (R * R) :=
  do r0 <- psfr_r0 b; do r <- rpow r0 (- 5 / 3);
  do f <- wfe_of_sf (b_wvl b) (b_n b) (b_dl b) (fun i j => r * b_fit b i j);
  do a <- wfe_of_sf (b_wvl b) (b_n b) (b_dl b) (fun i j => r * b_alias b i j);
  Ok (f, a).
Definition psfr_noise_terms (b : psfr_in) : result (R * R) :=
  do m <- rmean (b_cn_diag b);
  do h <- rsqrt (b_pn_ho b * m);
  do g <- grid_res (b_n b) (tt_noise_sf b);
  do t <- wfe_of_sf (b_wvl b) (b_n b) (b_dl b) (grid_at g);
  Ok (10 ^ 9 * h, t).
Definition psfr_servo (b : psfr_in) : result R :=
  do t <- rdiv (b_tr_cao b - (1 + b_pn_ho b) * b_tr_cn b) (b_ncom b);
  do s <- rsqrt t; Ok (10 ^ 9 * s).
Definition psfr_tt (b : psfr_in) (ttn : R) : result R :=
  match b_jit b with
  | Some d => do w <- wfe_of_sf (b_wvl b) (b_n b) (b_dl b) d; rsqrt (w ^ 2 - ttn ^ 2)
  | None => Ok 0
  end.
Definition psfr_pix (b : psfr_in) : result R :=
  do s <- sr_of (b_n b) (b_dl b) (b_pix b); sr2fwe (b_wvl b) s.
Definition psfr_ani (b : psfr_in) : result R :=
  match b_ani b with Some d => wfe_of_sf (b_wvl b) (b_n b) (b_dl b) d | None => Ok 0 end.
(** lines 378-390 *)
Definition marechal (wvl w : R) : R := 100 * exp (- (w * 2 * PI * / 10 ^ 9 / wvl) ^ 2).
Definition psfr_breakdown (b : psfr_in) : result psfr_wfe :=
  do ncpa <- (if existsb (fun x => if Req_EM_T x 0 then false else true) (b_ncpa b) then rstd (b_ncpa b) else Ok 0);
  do fa <- psfr_fit_terms b;
  do nt <- psfr_noise_terms b;
  do sv <- psfr_servo b;
  do tt <- psfr_tt b (snd nt);
  do pix <- psfr_pix b;
  do an <- psfr_ani b;
  let tot := sqrt (ncpa ^ 2 + fst fa ^ 2 + fst nt ^ 2 + snd nt ^ 2 + sv ^ 2 + tt ^ 2 + an ^ 2) in
  let totp := sqrt (tot ^ 2 + pix ^ 2) in
  Ok (mkPw ncpa (fst fa) (snd fa) (fst nt) (snd nt) sv tt pix an tot totp (marechal (b_wvl b) tot) (marechal (b_wvl b) totp)).
(** lines 398-402: parameter vector given to the model after the breakdown *)
Definition psfr_params (nL : nat) (r0 : R) (weights : list R) : result (list R) :=
  if (nL =? 1)%nat then Ok [r0; 1; 1] else do r <- rpow r0 (- 5 / 3); Ok (map (fun w => w * r) weights ++ [1; 1]).
(** the attributes that matter for sort_params_from_labels, psfR.py:48-52 (no jitter label) *)
Definition psfr_inst (nL nRec nSrc nwvl nframe : nat) (trans dispx dispy : list R) : psf_inst :=
  mkInst (Nat.min nL nRec) nL nRec 2 false [] nSrc nwvl nframe trans dispx dispy.

(** ** psfrUtils.py:191-195 *)
Definition sr2wfe (s wvl : R) : result R :=
  if Rle_dec s 0 then Err NonFinite else do r <- rsqrt (- ln s); Ok (10 ^ 9 * r * wvl / 2 / PI).
Definition wfe2sr (w wvl : R) : result R := do x <- rdiv (2 * PI * w * / 10 ^ 9) wvl; Ok (exp (- x ^ 2)).
