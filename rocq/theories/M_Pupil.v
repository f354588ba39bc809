(** Model of the segmented pupil: p3/aoSystem/segment.py and p3/aoSystem/pupil.py.
    Floats are exact reals, complex pixels pairs of reals. The point-in-polygon test of
    matplotlib (FourierUtils.inpolygon) is an argument. Objects are records; a method that
    modifies the pupil returns the new state and the exception raised, if any, since the
    modifications made before an exception remain. Segment indices are non-negative. *)
From Coq Require Import Reals List Arith ZArith.
From Flocq Require Import Core.Raux Core.Generic_fmt Core.Round_NE.
From Verif Require Import Base_Py Base_Sum M_Image M_Fourier M_Tools M_Freq.
From Coquelicot Require Import Complex.
Import ListNotations.
Open Scope R_scope.

(** np.exp(1j*t) *)
Definition cisp (t : R) : C := (cos t, sin t).
(** element of np.linspace *)
Definition lspace (a b : R) (n i : nat) : R := if (n =? 1)%nat then a else a + INR i * ((b - a) / INR (n - 1)).

(** ** segment.py *)

(** inpolygon(x2D, y2D, xv, yv) at one point: vertices, then the point *)
Definition polytest := list R -> list R -> R -> R -> bool.

(** segment.py:75-98 [makeSegment]: shape and matrix, with nSides the number of sides (0 = a
    circle: np.inf). The circle case reads [self.sizeError], which no method of segment
    defines (it exists only after pupil.shrinkSegment). Polygon: vertices of line 89-92,
    meshgrid of 80-81 (x varies along columns). *)
Definition verts (f : R -> R) (nSides : nat) (ang siz : R) : list R :=
  map (fun t => siz * f (t + ang * PI / 180)) (linspace 0 (2 * PI) (nSides + 1)).
Definition seg_shape (poly : polytest) (nSides : nat) (ang shrink : R) (nP : nat) (i j : nat) : R :=
  let siz := (INR nP + 1) * shrink in
  if poly (verts cos nSides ang siz) (verts sin nSides ang siz) (lspace (- INR nP) (INR nP) nP j) (lspace (- INR nP) (INR nP) nP i)
  then 1 else 0.
Definition make_segment (poly : polytest) (nSides : nat) (ang shrink refl ph : R) (nP : nat) : result (carr * (nat -> nat -> R)) :=
  if (nSides =? 0)%nat then Err AttributeError
  else let s := seg_shape poly nSides ang shrink nP in
       Ok (mkC nP nP (fun i j => Cmult (RtoC (s i j * refl)) (cisp ph)), s).

(** attributes of a segment object used by the pupil (segment.py:43-63) *)
Record segm := mkSeg {
  s_mat : carr; s_shape : nat -> nat -> R;
  s_posX : R; s_posY : R; s_ex : R; s_ey : R; s_refl : R; s_ph : R; s_np : nat }.

(** segment.py:100-121 [applyPhase], cube of modes: refused (empty matrix) if there are fewer
    modes than coefficients *)
Definition seg_phase (modes : list (nat -> nat -> R)) (coefs : list R) (i j : nat) : R :=
  fold_right Rplus 0 (map (fun p => fst p i j * snd p) (combine modes coefs)).
Definition apply_phase (s : segm) (modes : list (nat -> nat -> R)) (coefs : list R) : option carr :=
  if (length modes <? length coefs)%nat then None
  else Some (mkC (s_np s) (s_np s) (fun i j => Cmult (RtoC (s_shape s i j * s_refl s)) (cisp (seg_phase modes coefs i j)))).
(** segment.py:124-129 [applyReflexivity]: the matrix is returned, not stored *)
Definition apply_reflexivity (s : segm) (r : R) : carr :=
  mkC (s_np s) (s_np s) (fun i j => Cmult (RtoC (s_shape s i j * r)) (cisp (s_ph s))).

(** ** NumPy slices of complex arrays *)

(** a[r0:r1, c0:c1] *)
Definition cslice (a : carr) (r0 r1 c0 c1 : Z) : carr :=
  let nr := Z.of_nat (crows a) in let nc := Z.of_nat (ccols a) in
  mkC (Z.to_nat (slice_len nr r0 r1)) (Z.to_nat (slice_len nc c0 c1))
      (fun i j => cpx a (Z.to_nat (slice_bound nr r0) + i) (Z.to_nat (slice_bound nc c0) + j)).
(** pixel (i,j) of [a] is in the slice *)
Definition in_sl (n s e : Z) (i : nat) : bool :=
  ((slice_bound n s <=? Z.of_nat i) && (Z.of_nat i <? slice_bound n s + slice_len n s e))%Z%bool.
(** a[r0:r1, c0:c1] += b : b has the shape of the slice, or length one (broadcast) *)
Definition cadd_slice (a : carr) (r0 r1 c0 c1 : Z) (b : carr) : result carr :=
  let nr := Z.of_nat (crows a) in let nc := Z.of_nat (ccols a) in
  let p := Z.to_nat (slice_len nr r0 r1) in let q := Z.to_nat (slice_len nc c0 c1) in
  if (((crows b =? p) || (crows b =? 1)) && ((ccols b =? q) || (ccols b =? 1)))%nat%bool then
    Ok (mkC (crows a) (ccols a) (fun i j =>
      if in_sl nr r0 r1 i && in_sl nc c0 c1 j then
        Cplus (cpx a i j) (cpx b (if (crows b =? 1)%nat then 0 else i - Z.to_nat (slice_bound nr r0))
                                 (if (ccols b =? 1)%nat then 0 else j - Z.to_nat (slice_bound nc c0)))
      else cpx a i j))
  else Err ValueError.

(** ** pupil.py *)

Record pup := mkPup {
  p_n : nat;             (* nPixels *)
  p_ratio : R;           (* pixelRatio *)
  p_c : R;               (* centerX = centerY *)
  p_cobs : R;
  p_spi : option img;    (* matrix of the spiders *)
  p_mat : carr;
  p_pupil : img;         (* reference amplitude *)
  p_segs : list segm }.
Definition set_mat (p : pup) (m : carr) : pup := mkPup (p_n p) (p_ratio p) (p_c p) (p_cobs p) (p_spi p) m (p_pupil p) (p_segs p).
Definition set_segs (p : pup) (s : list segm) : pup := mkPup (p_n p) (p_ratio p) (p_c p) (p_cobs p) (p_spi p) (p_mat p) (p_pupil p) s.
Fixpoint upd_at {A} (l : list A) (k : nat) (x : A) : list A :=
  match l, k with [], _ => [] | _ :: r, O => x :: r | y :: r, S k => y :: upd_at r k x end.

(** pupil.py:176-191 [getPosSeg]: row range from the Y position, column range from X *)
Record pos := mkPos { r0 : Z; r1 : Z; c0 : Z; c1 : Z }.
Definition pos_seg (ratio c : R) (s : segm) : pos :=
  let sx := INR (crows (s_mat s)) in let sy := INR (ccols (s_mat s)) in
  let oy := ratio * (s_posX s + s_ex s) in let ox := ratio * (s_posY s + s_ey s) in
  mkPos (Zceil (c + - (sy / 2) + ox)) (Zceil (c + sy / 2 + ox)) (Zceil (c + - (sx / 2) + oy)) (Zceil (c + sx / 2 + oy)).
Definition add_at (ratio c : R) (m : carr) (s : segm) (b : carr) : result carr :=
  let q := pos_seg ratio c s in cadd_slice m (r0 q) (r1 q) (c0 q) (c1 q) b.

(** pupil.py:111-115 [makePupil]; an exception leaves the object under construction unusable *)
Fixpoint assemble (ratio c : R) (m : carr) (l : list segm) : result carr :=
  match l with
  | [] => Ok m
  | s :: l => do m' <- add_at ratio c m s (s_mat s); assemble ratio c m' l
  end.
Definition make_pupil (n : nat) (ratio c : R) (l : list segm) : result carr :=
  assemble ratio c (mkC n n (fun _ _ => RtoC 0)) l.

Definition cscale (m : carr) (w : nat -> nat -> R) : carr :=
  mkC (crows m) (ccols m) (fun i j => (fst (cpx m i j) * w i j, snd (cpx m i j) * w i j)).
(** pupil.py:117-122 [makeSpiders]; arrays of different shapes are refused (a spider matrix
    with one row or column is not considered) *)
Definition make_spiders (spi : option img) (m : carr) : result carr :=
  match spi with
  | None => Ok m
  | Some s => if ((rows s =? crows m) && (cols s =? ccols m))%nat%bool then Ok (cscale m (fun i j => Rabs (px s i j))) else Err ValueError
  end.
(** pupil.py:124-132 [makeCentObs] (np.linspace(-1,1,n), meshgrid, hypot) *)
Definition cobs_mask (n : nat) (cobs : R) (i j : nat) : R :=
  let x := lspace (-1) 1 n j in let y := lspace (-1) 1 n i in
  if Rle_dec cobs (sqrt (x * x + y * y)) then 1 else 0.
Definition make_cobs (n : nat) (cobs : R) (m : carr) : result carr :=
  if Req_EM_T cobs 0 then Ok m
  else if ((crows m =? n) && (ccols m =? n))%nat%bool then Ok (cscale m (cobs_mask n cobs)) else Err ValueError.
Definition masks (n : nat) (cobs : R) (spi : option img) (m : carr) : result carr :=
  do m' <- make_cobs n cobs m; make_spiders spi m'.

(** reference segment given by the user: number of sides, radius, pixels, matrix *)
Record segref := mkRef { g_sides : nat; g_radius : R; g_np : nat; g_mat : carr }.
(** segment.py:33 [pixelRatio] *)
Definition ref_ratio (g : segref) : result R :=
  if Req_EM_T (2 * g_radius g) 0 then Err ZeroDivisionError else Ok (INR (g_np g) / (2 * g_radius g)).
(** pupil.py:164-174 [makeSegList]: new segments of default orientation, sharing the matrix of
    the reference *)
Definition make_seg_list (poly : polytest) (g : segref) (coords : list (R * R)) : result (list segm) :=
  mapM (fun xy => do ms <- make_segment poly (g_sides g) 0 1 1 0 (g_np g);
                  Ok (mkSeg (g_mat g) (snd ms) (fst xy) (snd xy) 0 0 1 0 (g_np g))) coords.

(** pupil.py:230-247 [findBestSegmentforFillGap] *)
Definition truthy (c : C) : bool := if Req_EM_T (fst c) 0 then false else true.
Definition surrounded (t : carr) : result bool :=
  let md := Z.to_nat (ZnearestE (INR (ccols t) / 2)) in
  let a := (crows t - 1)%nat in let b := (ccols t - 1)%nat in
  if ((crows t =? 0) || (ccols t =? 0))%nat%bool then Err IndexError
  else Ok (truthy (cpx t 0 0) && truthy (cpx t 0 b) && truthy (cpx t a 0) && truthy (cpx t a b)
           && truthy (cpx t 0 md) && truthy (cpx t md 0) && truthy (cpx t a md) && truthy (cpx t md b))%bool.
Fixpoint find_best (ratio c : R) (m : carr) (l : list segm) (k : nat) : result nat :=
  match l with
  | [] => Ok 0%nat
  | s :: l =>
      let q := pos_seg ratio c s in
      do f <- surrounded (cslice m (r0 q) (r1 q) (c0 q) (c1 q));
      if f then Ok k else find_best ratio c m l (S k)
  end.
(** pupil.py:193-228 [fillGap]: new matrix of the reference segment. np.argwhere of a complex
    array: non-zero pixels. *)
Definition cnz (z : C) : bool := if Ceq_dec z (RtoC 0) then false else true.
Definition first_row (m : carr) : option nat :=
  find (fun i => existsb (fun j => cnz (cpx m i j)) (seq 0 (ccols m))) (seq 0 (crows m)).
Definition gap_of (t : C) : C :=
  if Ceq_dec t (RtoC 0) then RtoC 1
  else if cge t (RtoC 0) then RtoC 0 else t.
Definition nz_cols (m : carr) (i : nat) : list nat := filter (fun j => cnz (cpx m i j)) (seq 0 (ccols m)).
Definition fill_gap (g : carr) (tmp : carr) : result carr :=
  match first_row g with
  | None => Err ValueError
  | Some inf =>
      let sup := Z.to_nat (ZnearestE (INR (crows g) / 2)) in
      if negb ((crows tmp =? crows g) && (ccols tmp =? ccols g))%nat%bool then Err ValueError else
      let g1 := mkC (crows g) (ccols g) (fun i j =>
        if ((inf <=? i) && (i <? sup))%nat%bool then Cplus (cpx g i j) (gap_of (cpx tmp i j)) else cpx g i j) in
      match nz_cols g1 inf with
      | [] => Err ValueError
      | y :: ys =>
          let hi := last ys y in
          Ok (mkC (crows g) (ccols g) (fun i j =>
            if ((i <? inf) && (y <=? j) && (j <? hi))%nat%bool then Cplus (cpx g1 i j) (gap_of (cpx tmp i j)) else cpx g1 i j))
      end
  end.

(** pupil.py:45-108 [__init__] (segCoord given as a list). Result: the reference segment, which
    is modified in place when the gaps are filled, and the pupil. *)
Definition rmax_l (l : list R) : result R := match l with [] => Err ValueError | x :: r => Ok (fold_left Rmax r x) end.
Definition rmin_l (l : list R) : result R := match l with [] => Err ValueError | x :: r => Ok (fold_left Rmin r x) end.
Definition coords_list (c : list (R * R)) : list R := flat_map (fun xy => [fst xy; snd xy]) c.
Definition new_pupil (poly : polytest) (g : segref) (coords : list (R * R)) (cobs : R) (spi : option (nat -> img)) (fill : bool)
  : result (segref * pup) :=
  do ratio <- ref_ratio g;
  do segs <- make_seg_list poly g coords;
  do mx <- rmax_l (coords_list coords); do mn <- rmin_l (coords_list coords);
  let maxOffset := fold_left Rmax (map (fun s => Rmax (s_ex s) (s_ey s)) segs) 0 in
  let smc := mx - mn + 2 * maxOffset in
  let n := (Z.to_nat (Zceil (smc * ratio)) + g_np g)%nat in
  let c := INR n / 2 in
  let spm := match spi with None => None | Some f => Some (f n) end in
  do m <- make_pupil n ratio c segs;
  do gs <- (if fill then
              do k <- find_best ratio c m segs 0;
              match nth_error segs k with
              | None => Err IndexError
              | Some s =>
                  let q := pos_seg ratio c s in
                  do gm <- fill_gap (g_mat g) (cslice m (r0 q) (r1 q) (c0 q) (c1 q));
                  let g' := mkRef (g_sides g) (g_radius g) (g_np g) gm in
                  do segs' <- make_seg_list poly g' coords;
                  do m' <- make_pupil n ratio c segs';
                  Ok (g', segs', m')
              end
            else Ok (g, segs, m));
  let '(g', segs', m') := gs in
  do mm <- masks n cobs spm m';
  Ok (g', mkPup n ratio c cobs spm mm
            (mkImg (crows mm) (ccols mm) (fun i j => if cnz (cpx mm i j) then 1 else 0)) segs').

(** pupil.py:134-139 [reset]; an exception leaves the unmasked matrix *)
Definition reset (p : pup) : pup * option exn :=
  let m := to_c (p_pupil p) in
  match masks (p_n p) (p_cobs p) (p_spi p) m with
  | Ok m' => (set_mat p m', None)
  | Err e => (set_mat p m, Some e)
  end.

(** pupil.py:250-259 [removeSegment]. A mask whose shape differs from that of the slice is an
    IndexError. *)
Definition is_one (z : C) : bool := if Req_EM_T (Cmod z) 1 then true else false.
Definition seg_any (m : carr) : bool := existsb (fun i => existsb (fun j => is_one (cpx m i j)) (seq 0 (ccols m))) (seq 0 (crows m)).
Definition remove_one (ratio c : R) (m : carr) (s : segm) : result carr :=
  let q := pos_seg ratio c s in
  let nr := Z.of_nat (crows m) in let nc := Z.of_nat (ccols m) in
  if seg_any (s_mat s) then
    if ((crows (s_mat s) =? Z.to_nat (slice_len nr (r0 q) (r1 q))) && (ccols (s_mat s) =? Z.to_nat (slice_len nc (c0 q) (c1 q))))%nat%bool then
      Ok (mkC (crows m) (ccols m) (fun i j =>
        if (in_sl nr (r0 q) (r1 q) i && in_sl nc (c0 q) (c1 q) j
            && is_one (cpx (s_mat s) (i - Z.to_nat (slice_bound nr (r0 q))) (j - Z.to_nat (slice_bound nc (c0 q)))))%bool
        then RtoC 0 else cpx m i j))
    else Err IndexError
  else Ok m.
Fixpoint remove (p : pup) (ind : list nat) : pup * option exn :=
  match ind with
  | [] => (p, None)
  | k :: ind =>
      match nth_error (p_segs p) k with
      | None => (p, Some IndexError)
      | Some s => match remove_one (p_ratio p) (p_c p) (p_mat p) s with
                  | Err e => (p, Some e)
                  | Ok m => remove (set_mat p m) ind
                  end
      end
  end.

(** the two last lines of every segment operation: masks applied again *)
Definition finish (p : pup) : pup * option exn :=
  match make_cobs (p_n p) (p_cobs p) (p_mat p) with
  | Err e => (p, Some e)
  | Ok m => match make_spiders (p_spi p) m with
            | Err e => (set_mat p m, Some e)
            | Ok m' => (set_mat p m', None)
            end
  end.
Definition andthen (r : pup * option exn) (f : pup -> pup * option exn) : pup * option exn :=
  match snd r with Some e => r | None => f (fst r) end.
Fixpoint loop {A} (f : pup -> A -> pup * option exn) (p : pup) (l : list A) : pup * option exn :=
  match l with [] => (p, None) | a :: l => andthen (f p a) (fun p' => loop f p' l) end.

(** pupil.py:261-295 [shiftSegment]; x and y are indexed by position *)
Definition shift_one (x y : list R) (p : pup) (ki : nat * nat) : pup * option exn :=
  let (k, i) := ki in
  match nth_error x k, nth_error y k with
  | Some dx, Some dy =>
      match nth_error (p_segs p) i with
      | None => (p, Some IndexError)
      | Some s =>
          let q := pos_seg (p_ratio p) (p_c p) s in
          let nP := IZR (Z.of_nat (p_n p)) in
          if Req_EM_T (p_ratio p) 0 then (p, Some NonFinite) else
          let dxMax := (nP - IZR (Z.max (r0 q) (r1 q))) / p_ratio p in
          let dxMin := (- nP + IZR (Z.min (r0 q) (r1 q))) / p_ratio p in
          let dyMax := (nP - IZR (Z.max (c0 q) (c1 q))) / p_ratio p in
          let dyMin := (- nP + IZR (Z.min (c0 q) (c1 q))) / p_ratio p in
          if Rlt_dec dxMax dx then remove p [i] else if Rlt_dec dx dxMin then remove p [i]
          else if Rlt_dec dyMax dy then remove p [i] else if Rlt_dec dy dyMin then remove p [i]
          else
            let s' := mkSeg (s_mat s) (s_shape s) (s_posX s) (s_posY s) (s_ex s + dx) (s_ey s + dy) (s_refl s) (s_ph s) (s_np s) in
            let p' := set_segs p (upd_at (p_segs p) i s') in
            match add_at (p_ratio p) (p_c p) (p_mat p) s' (s_mat s') with
            | Err e => (p', Some e)
            | Ok m => (set_mat p' m, None)
            end
      end
  | _, _ => (p, Some IndexError)
  end.
Definition shift_segment (p : pup) (ind : list nat) (x y : list R) : pup * option exn :=
  andthen (remove p ind) (fun p => andthen (loop (shift_one x y) p (combine (seq 0 (length ind)) ind)) finish).

(** pupil.py:298-327 [rotateSegment], [shrinkSegment]: makeSegment returns two values, unpacked
    in three (ValueError) at the first segment; the angle or size error is stored in an
    attribute that nothing else in the model reads. *)
Definition rotate_segment (p : pup) (ind : list nat) (ang : list R) : pup * option exn :=
  andthen (remove p ind) (fun p =>
    match ind with
    | [] => finish p
    | i :: _ => match nth_error (p_segs p) i, ang with
                | None, _ => (p, Some IndexError)
                | Some _, [] => (p, Some IndexError)
                | Some _, _ :: _ => (p, Some ValueError)
                end
    end).

(** pupil.py:356-407 [applyPhaseErrorSegment]; [coefs] is the list over modes of the lists over
    segments, [modes] the Zernike modes computed for the segment (one per Noll index). Empty or
    inconsistent inputs print a message and change nothing. *)
Definition phase_one (modes : list (nat -> nat -> R)) (coefs : list (list R)) (p : pup) (ki : nat * nat) : pup * option exn :=
  let (k, i) := ki in
  match nth_error (p_segs p) i with
  | None => (p, Some IndexError)
  | Some s =>
      match apply_phase s modes (map (fun c => nth k c 0) coefs) with
      | None => (p, Some AttributeError)
      | Some m =>
          let s' := mkSeg m (s_shape s) (s_posX s) (s_posY s) (s_ex s) (s_ey s) (s_refl s) (s_ph s) (s_np s) in
          let p' := set_segs p (upd_at (p_segs p) i s') in
          match add_at (p_ratio p) (p_c p) (p_mat p) s' m with
          | Err e => (p', Some e)
          | Ok m' => (set_mat p' m', None)
          end
      end
  end.
Definition apply_phase_segment (p : pup) (ind : list nat) (nJ : nat) (modes : list (nat -> nat -> R)) (coefs : list (list R)) : pup * option exn :=
  if ((length ind =? 0) || (nJ =? 0) || negb (length coefs =? nJ) || negb (forallb (fun c => length c =? length ind) coefs))%nat%bool then (p, None)
  else andthen (remove p ind) (fun p => andthen (loop (phase_one modes coefs) p (combine (seq 0 (length ind)) ind)) finish).

(** pupil.py:460-497 [applyReflexivitySegment]: indices beyond the number of segments are
    dropped with their coefficient (same number of both assumed there: a boolean mask of another
    length is an IndexError) *)
Definition refl_one (p : pup) (ir : nat * R) : pup * option exn :=
  let (i, r) := ir in
  match nth_error (p_segs p) i with
  | None => (p, Some IndexError)
  | Some s => match add_at (p_ratio p) (p_c p) (p_mat p) s (apply_reflexivity s r) with
              | Err e => (p, Some e)
              | Ok m => (set_mat p m, None)
              end
  end.
Definition apply_reflexivity_segment (p : pup) (ind : list nat) (coef : list R) : pup * option exn :=
  let nS := length (p_segs p) in
  let out := existsb (fun k => nS <=? k)%nat ind in
  if (out && negb (length coef =? length ind)%nat)%bool then (p, Some IndexError)
  else
  let ic := if out then filter (fun ir : nat * R => (fst ir <? nS)%nat) (combine ind coef) else combine ind coef in
  let ind' := if out then map fst ic else ind in
  let coef' := if out then map snd ic else coef in
  if ((length ind' =? 0) || negb (length coef' =? length ind'))%nat%bool then (p, None)
  else andthen (remove p ind') (fun p => andthen (loop refl_one p (combine ind' coef')) finish).

(** pupil.py:500-517 [removeZeroBorder]: smallest and largest index, over both axes, of the
    non-zero pixels *)
Definition nz_indices (m : carr) : list nat :=
  flat_map (fun i => flat_map (fun j => if cnz (cpx m i j) then [i; j] else []) (seq 0 (ccols m))) (seq 0 (crows m)).
Definition recentre (p : pup) (m : carr) : pup :=
  let n := crows m in let c := INR n / 2 in
  let d := (p_c p - c) / p_ratio p in
  mkPup n (p_ratio p) c (p_cobs p) (p_spi p) m (p_pupil p)
    (map (fun s => mkSeg (s_mat s) (s_shape s) (s_posX s - d) (s_posY s - d) (s_ex s) (s_ey s) (s_refl s) (s_ph s) (s_np s)) (p_segs p)).
Definition remove_zero_border (p : pup) (flagReplace : bool) : pup * option exn :=
  match nz_indices (p_mat p) with
  | [] => (p, Some ValueError)
  | x :: r =>
      let z1 := Z.of_nat (fold_left Nat.min r x) in let z2 := Z.of_nat (fold_left Nat.max r x) in
      let m := cslice (p_mat p) z1 z2 z1 z2 in
      if flagReplace then (recentre p m, None) else (set_mat p m, None)
  end.
(** pupil.py:519-535 [zeroPad]: np.pad(matrix,(nPadX,nPadY)) pads nPadX before and nPadY after on
    both axes; np.round is to nearest, ties to even *)
Definition cpad (m : carr) (a b : nat) : carr :=
  mkC (a + crows m + b) (a + ccols m + b) (fun i j =>
    if ((a <=? i) && (i <? a + crows m) && (a <=? j) && (j <? a + ccols m))%nat%bool then cpx m (i - a) (j - a) else RtoC 0).
Definition zero_pad (p : pup) (ratio : R) (flagReplace : bool) : pup :=
  if Rlt_dec 1 ratio then
    let a := Z.to_nat (ZnearestE (INR (crows (p_mat p)) * (ratio - 1) / 2)) in
    let b := Z.to_nat (ZnearestE (INR (ccols (p_mat p)) * (ratio - 1) / 2)) in
    let m := cpad (p_mat p) a b in
    if flagReplace then recentre p m else set_mat p m
  else p.
