(** Model of the petals, rotation and resizing of a pupil: pupil.py:320-342 [computeModes(area='petal')], 394-447
    [applyPhasePetal], 146-158 [rotatePupil], 527-537 [resize], 139-144 [reset]. Float values are exact reals; scipy's
    rotate (reshape=False) is an argument. *)
From Coq Require Import Reals List Arith ZArith Bool.
From Verif Require Import Base_Py Base_Sum Base_DFT M_Image M_Fourier M_Zernike M_Tools M_Pupil M_Interp.
From Coquelicot Require Import Complex.
Import ListNotations.
Open Scope R_scope.

(** Attributes of the pupil object used here. [q_petals]: None without spiders; Some None when the spiders were built
    without petals (getPetal=False); else the masks of the petals (spiders.py:143-147). *)
Record pst := mkPst {
  q_n : nat; q_ratio : R; q_c : R; q_cobs : R; q_spi : option img; q_petals : option (option (list img));
  q_mat : carr; q_pupil : img; q_phase : img; q_refl : img; q_ang : R }.

(** pupil.py:331-340, one petal: the mask S[k]*pupil, obscured, crossed by the spiders, equal to one *)
Definition petal_mask (p : pst) (s : img) : result (nat -> nat -> bool) :=
  if negb ((rows s =? rows (q_pupil p)) && (cols s =? cols (q_pupil p)))%nat then Err ValueError else
  do m <- masks (q_n p) (q_cobs p) (q_spi p) (to_c (mkImg (rows s) (cols s) (fun i j => Rabs (px s i j) * px (q_pupil p) i j)));
  Ok (fun i j => if Ceq_dec (cpx m i j) (RtoC 1) then true else false).
(** the Zernike modes of each petal; the matrix of the pupil is square *)
Definition petal_modes (p : pst) (petals : list img) (l : list Z) : result (list (nat -> nat -> nat -> R)) :=
  if negb (crows (q_mat p) =? ccols (q_mat p))%nat then Err ValueError else
  mapM (fun s => do m <- petal_mask p s;
                 do z <- make_zernike (Some l) (crows (q_mat p)) (Some m) false CDefault 0;
                 Ok (mv (z_modes z))) petals.
(** Python index of an array of n rows *)
Definition wrap (n : nat) (i : Z) : result nat :=
  let j := (if i <? 0 then i + Z.of_nat n else i)%Z in
  if ((j <? 0) || (Z.of_nat n <=? j))%Z then Err IndexError else Ok (Z.to_nat j).
(** lines 440-443: one petal's contribution *)
Definition petal_term (modes : list (nat -> nat -> nat -> R)) (nJ : nat) (k : nat) (c : list R) (a b : nat) : R :=
  rsum nJ (fun j => nth j c 0 * nth k modes (fun _ _ _ => 0) j a b).
Definition petal_phase (modes : list (nat -> nat -> nat -> R)) (nJ : nat) (ic : list (nat * list R)) (a b : nat) : R :=
  lsum (map (fun x => petal_term modes nJ (fst x) (snd x) a b) ic).
(** lines 394-447. [coefs]: rows of the array of coefficients, of width w. Ok None: a message is printed and nothing changes. *)
Definition apply_phase_petal (p : pst) (ind : list Z) (l : list Z) (w : nat) (coefs : list (list R)) : result (option pst) :=
  match q_petals p with
  | None => Ok None
  | Some pe =>
    match ind, l with
    | [], _ => Ok None
    | _, [] => Ok None
    | _, _ =>
      match pe with
      | None => Err AttributeError
      | Some petals =>
        let nP := Z.of_nat (List.length petals) in
        let good := map (fun i => (i <? nP)%Z) ind in
        do ic <- (if existsb negb good then
                    if negb (List.length coefs =? List.length ind)%nat then Err IndexError
                    else Ok (map snd (filter fst (combine good ind)), map snd (filter fst (combine good coefs)))
                  else Ok (ind, coefs));
        if (negb (List.length (snd ic) =? List.length (fst ic)) || negb (w =? List.length l))%nat then Ok None else
        do modes <- petal_modes p petals l;
        do ks <- mapM (wrap (List.length petals)) (fst ic);
        if negb ((crows (q_mat p) =? q_n p) && (rows (q_phase p) =? q_n p) && (cols (q_phase p) =? q_n p))%nat then Err ValueError else
        let ph := fun a b => px (q_phase p) a b + petal_phase modes (List.length l) (combine ks (snd ic)) a b in
        Ok (Some (mkPst (q_n p) (q_ratio p) (q_c p) (q_cobs p) (q_spi p) (q_petals p)
                    (mkC (q_n p) (q_n p) (fun a b => Cmult (RtoC (Cmod (cpx (q_mat p) a b))) (cisp (ph a b))))
                    (q_pupil p) (q_phase p) (q_refl p) (q_ang p)))
      end
    end
  end.

(** lines 146-158; [rot angle a]: scipy.ndimage.rotate, same shape *)
Definition clip0 (v : R) : R := if Rlt_dec v 0 then 0 else v.
Definition clip_phase (v : R) : R := if Rlt_dec (Rabs v) (/ 1000) then 0 else v.
Definition amp (m : carr) : img := mkImg (crows m) (ccols m) (fun i j => Cmod (cpx m i j)).
Definition rotate_pupil (rot : R -> img -> img) (p : pst) (ang : R) : pst :=
  if Req_EM_T ang 0 then mkPst (q_n p) (q_ratio p) (q_c p) (q_cobs p) (q_spi p) (q_petals p) (q_mat p) (q_pupil p) (q_phase p) (q_refl p) ang
  else
    let md := img_map clip0 (rot ang (amp (q_mat p))) in
    let ph := img_map clip_phase (rot ang (q_phase p)) in
    mkPst (q_n p) (q_ratio p) (q_c p) (q_cobs p) (q_spi p) (q_petals p)
      (mkC (rows md) (cols md) (fun i j => Cmult (RtoC (px md i j)) (cisp (px ph i j))))
      (img_map (fun v => if Req_EM_T v 0 then 0 else 1) md) ph md ang.

(** lines 527-537; pupils of zero pixels are not considered *)
Definition resize (spl : (nat -> R) -> (nat -> R) -> img -> R -> R -> R) (p : pst) (n : Z) (flagReplace : bool) (k : ikind) : result pst :=
  if (n =? Z.of_nat (q_n p))%Z then Ok p else
  do m <- interp_cplx spl k (q_mat p) n n;
  if flagReplace then
    Ok (mkPst (crows m) (q_ratio p * IZR n / INR (q_n p)) (INR (crows m) / 2) (q_cobs p) (q_spi p) (q_petals p) m (q_pupil p) (q_phase p) (q_refl p) (q_ang p))
  else Ok (mkPst (q_n p) (q_ratio p) (q_c p) (q_cobs p) (q_spi p) (q_petals p) m (q_pupil p) (q_phase p) (q_refl p) (q_ang p)).

(** lines 139-144; 0*angle is zero *)
Definition reset_q (p : pst) : result pst :=
  do m <- masks (q_n p) (q_cobs p) (q_spi p) (to_c (q_pupil p));
  Ok (mkPst (q_n p) (q_ratio p) (q_c p) (q_cobs p) (q_spi p) (q_petals p) m (q_pupil p)
        (mkImg (crows m) (ccols m) (fun _ _ => 0)) (amp m) (q_ang p)).
