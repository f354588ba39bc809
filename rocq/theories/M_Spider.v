(** Model of spiders.py:59-147: the mask of the telescope spiders. Floats are exact reals; the
    point-in-polygon test of matplotlib (FourierUtils.inpolygon) and scipy's label are arguments. *)
From Coq Require Import Reals List Arith ZArith Bool.
From Verif Require Import Base_Py M_Image M_Pupil M_Tel.
Import ListNotations.
Open Scope R_scope.

(** the argument spidersInitCoor: a list of pairs, or a number (np.array(x) has no len) *)
Inductive coor := CoorList (l : list (R * R)) | CoorNum (x : R).
(** the object; [sp_matrix] is None when the attribute does not exist *)
Record spider := mkSp { sp_n : nat; sp_angles : list R; sp_width : R; sp_coor : list (R * R);
  sp_D : R; sp_cobs : R; sp_msk : bool; sp_sym : bool; sp_pix : nat; sp_matrix : option img }.

Section Spider.
  Variable poly : polytest.

  (** lines 116-131: the four corners of one spider *)
  Definition sp_theta (phi : R) : list R := [- phi; phi; - phi + PI; phi + PI].
  Definition sp_verts (f : R -> R) (sym : bool) (c phi a : R) : list R :=
    map (fun t => if sym then c + 2 * f (t + a) else c + 2 * (f (t + a) - f a)) (sp_theta phi).
  (** lines 101-137 [makeSpiders(nPixels)] without the petals; D/nPixels and the widths: the
      division by nPixels = 0 is a ZeroDivisionError, by pixelRatio = 0 (D = 0) too.
      np.zeros((nSpiders,4)) and the loop run over nSpiders. *)
  Definition one_spider (n : nat) (sym : bool) (phi a : R) (c : R * R) (i j : nat) : R :=
    if poly (sp_verts cos sym (fst c) phi a) (sp_verts sin sym (snd c) phi a) (lspace (-1) 1 n j) (lspace (-1) 1 n i) then 0 else 1.
  Definition make_spider (s : spider) (n : nat) : result spider :=
    let upd m := mkSp (sp_n s) (sp_angles s) (sp_width s) (sp_coor s) (sp_D s) (sp_cobs s) (sp_msk s) (sp_sym s) n (Some m) in
    if (n =? 0)%nat then Err ZeroDivisionError else
    let ratio := sp_D s / INR n in
    if Req_EM_T ratio 0 then Err ZeroDivisionError else
    if Rlt_dec (sp_width s / ratio) 1 then Ok (upd (mkImg n n (fun _ _ => 1)))
    else
      let sc (c : R * R) := (fst c * 2 / INR n / ratio, snd c * 2 / INR n / ratio) in
      let phi := atan (sp_width s / ratio / (2 * INR n)) in
      if ((length (sp_coor s) <? sp_n s) || (length (sp_angles s) <? sp_n s))%nat%bool then Err IndexError else
      let m i j := fold_left (fun acc k => acc * one_spider n (sp_sym s) phi (nth k (sp_angles s) 0) (sc (nth k (sp_coor s) (0, 0))) i j) (seq 0 (sp_n s)) 1 in
      let m2 i j := if sp_msk s then
          let r := hypot (lspace (-1) 1 n j) (lspace (-1) 1 n i) * sp_D s / 2 in
          m i j * b2r (rle r (sp_D s / 2)) * b2r (rle (sp_cobs s * sp_D s / 2) r)
        else m i j in
      Ok (upd (mkImg n n m2)).
  (** lines 69-95 the constructor *)
  Definition new_spider (angles : list R) (width : R) (coor0 : coor) (D cobs : R) (msk sym : bool) (n : nat) : result spider :=
    match coor0 with
    | CoorNum _ => Err TypeError
    | CoorList l =>
      let angles := map (fun a => a * PI / 180) angles in
      let ns := match l with [] => length angles | _ => 0%nat end in
      let l := match l with [] => map (fun _ => (0, 0)) angles | _ => l end in
      let s := mkSp ns angles width l D cobs msk sym n None in
      if negb (length l =? length angles)%nat then Ok s
      else if (n =? 0)%nat then Ok s
      else make_spider (mkSp (length angles) angles width l D cobs msk sym n None) n
    end.
  (** lines 34-45 keckSpiderMask(): 600 is passed as the coordinates *)
  Definition keckSpiderMask : result spider :=
    new_spider [0; 60; 120] (254 / 10000) (CoorNum 600) 10 (2375 / 10000) true true 0.
End Spider.
(** lines 139-144: petals from the labels [a] (0 = background) of the mask *)
Definition petal (a : nat -> nat -> nat) (k i j : nat) : R :=
  INR (a i j) * (if (a i j =? k + 1)%nat then 1 else 0) / INR (k + 1).
