(** C88/C91, continued: geometry of the central obstruction; padding of arrays that are not square. *)
From Coq Require Import Reals List Arith ZArith Lia Lra Bool.
From Flocq Require Import Core.
From Verif Require Import Base_Py Base_Sum M_Image M_Fourier M_Pupil S_Pupil L_Pupil P_Pupil.
From Coquelicot Require Import Complex.
Import ListNotations.
Open Scope R_scope.

(** distance of the centre of pixel (i,j) to the centre of an n x n array, the middle of a side being at distance 1 *)
Definition pupil_radius (n i j : nat) : R :=
  let h := (INR n - 1) / 2 in sqrt (((INR j - h) / h) * ((INR j - h) / h) + ((INR i - h) / h) * ((INR i - h) / h)).

(** C88: a pupil built with a central obstruction is dark where the distance to the centre is
    smaller than the obstruction, and not attenuated by it elsewhere. *)
Theorem C88_obstruction : forall poly g coords h cobs, (0 < g_sides g)%nat -> 0 < g_radius g ->
  crows (g_mat g) = g_np g -> ccols (g_mat g) = g_np g -> centred_field h coords -> cobs <> 0 -> exists p q,
  new_pupil poly g coords cobs None false = Ok (g, p) /\ new_pupil poly g coords 0 None false = Ok (g, q) /\ p_n p = p_n q /\
  ((2 <= p_n p)%nat -> forall i j,
  (pupil_radius (p_n p) i j < cobs -> cpx (p_mat p) i j = RtoC 0) /\
  (cobs <= pupil_radius (p_n p) i j -> cpx (p_mat p) i j = cpx (p_mat q) i j)).
Proof.
  intros poly g coords h cobs HS HR Gr Gc HF Hc.
  destruct (C88_assembly poly g coords h cobs None HS HR Gr Gc HF ltac:(intros; discriminate)) as (p & Ep & _ & Rp & Np & Cp & Cob & F & Vp).
  destruct (C88_assembly poly g coords h 0 None HS HR Gr Gc HF ltac:(intros; discriminate)) as (q & Eq & _ & Rq & Nq & Cq & Coq & Fq & Vq).
  exists p, q. split; [exact Ep|]. split; [exact Eq|].
  assert (NN : p_n p = p_n q) by (rewrite Rp in Np; rewrite Rq in Nq; lia). split; [exact NN|]. intros Hn i j.
  assert (SP : p_spi p = None /\ p_spi q = None).
  { clear - Ep Eq. unfold new_pupil in *.
    destruct (ref_ratio g) as [rt|]; [|discriminate]. cbn [bind] in *. destruct (make_seg_list poly g coords) as [sl|]; [|discriminate]. cbn [bind] in *.
    destruct (rmax_l (coords_list coords)) as [a|]; [|discriminate]. destruct (rmin_l (coords_list coords)) as [b|]; [|discriminate]. cbn [bind] in *.
    match type of Ep with bind ?X _ = _ => destruct X as [m|]; [|discriminate] end. cbn [bind] in *.
    match type of Ep with bind ?X _ = _ => destruct X as [m1|]; [|discriminate] end. match type of Eq with bind ?X _ = _ => destruct X as [m2|]; [|discriminate] end. cbn [bind] in *.
    apply Ok_inj in Ep. apply Ok_inj in Eq. injection Ep as <-. injection Eq as <-. split; reflexivity. }
  destruct SP as [Sp Sq].
  assert (Rad : forall a b, sqrt (lspace (-1) 1 (p_n p) b * lspace (-1) 1 (p_n p) b + lspace (-1) 1 (p_n p) a * lspace (-1) 1 (p_n p) a) = pupil_radius (p_n p) a b).
  { intros a b. unfold pupil_radius. cbv zeta. assert (L : forall k, lspace (-1) 1 (p_n p) k = (INR k - (INR (p_n p) - 1) / 2) / ((INR (p_n p) - 1) / 2)).
    { intros k. unfold lspace. destruct (Nat.eqb_spec (p_n p) 1); [lia|]. rewrite minus_INR by lia. cbn [INR]. assert (INR (p_n p) >= 2) by (apply Rle_ge; apply (le_INR 2); exact Hn). field. lra. }
    rewrite !L. reflexivity. }
  rewrite (Vp i j), (Vq i j). unfold transmission. rewrite Cob, Coq, Sp, Sq. destruct (Req_EM_T cobs 0); [contradiction|]. destruct (Req_EM_T 0 0) as [_|Q]; [|contradiction Q; reflexivity].
  unfold cobs_mask. cbv zeta. rewrite Rad. split; intros H.
  - destruct (Rle_dec cobs (pupil_radius (p_n p) i j)); [lra|]. rewrite Rmult_0_l. ring.
  - destruct (Rle_dec cobs (pupil_radius (p_n p) i j)); [|contradiction]. rewrite Rmult_1_l. f_equal. f_equal.
    rewrite Rp, Rq in *. rewrite Cp, Cq, NN. clear - F Fq. revert Fq. generalize (p_segs q). generalize dependent coords. generalize (p_segs p). intros l.
    induction l as [|s l IH]; intros co F l' F'; inversion F as [|x y l1 l2 P1 P2]; subst; inversion F' as [|x' y' l1' l2' P1' P2']; subst; [reflexivity|]. cbn [map]. f_equal; [|eapply IH; eassumption].
    destruct P1 as (A1 & A2 & A3 & A4 & A5 & _). destruct P1' as (B1 & B2 & B3 & B4 & B5 & _). apply over_pos; congruence.
Qed.
Print Assumptions C88_obstruction.

Lemma near_nonneg x : 0 <= x -> (0 <= ZnearestE x)%Z.
Proof. intros Hx. pose proof (Znearest_half (fun z => negb (Z.even z)) x) as Q. apply Raux.Rabs_le_inv in Q. apply Z.lt_succ_r. apply lt_IZR. unfold Z.succ. rewrite plus_IZR. lra. Qed.

(** C91 (finding): for an array that is not square the zero padding is not centred: on both axes it adds
    half of the rows' share before and half of the columns' share after. *)
Theorem C91_zero_pad_any_refuted : forall p ratio b, 1 < ratio -> exists d e : nat,
  let q := zero_pad p ratio b in let r := crows (p_mat p) in let c := ccols (p_mat p) in
  Rabs (INR d - INR r * (ratio - 1) / 2) <= /2 /\ Rabs (INR e - INR c * (ratio - 1) / 2) <= /2 /\
  crows (p_mat q) = (d + r + e)%nat /\ ccols (p_mat q) = (d + c + e)%nat /\
  (forall i j, (i < r)%nat -> (j < c)%nat -> cpx (p_mat q) (d + i) (d + j) = cpx (p_mat p) i j) /\
  (forall i j, ~ (d <= i < d + r)%nat \/ ~ (d <= j < d + c)%nat -> cpx (p_mat q) i j = RtoC 0).
Proof.
  intros p ratio b H. set (x := INR (crows (p_mat p)) * (ratio - 1) / 2). set (y := INR (ccols (p_mat p)) * (ratio - 1) / 2).
  exists (Z.to_nat (ZnearestE x)), (Z.to_nat (ZnearestE y)). cbv zeta.
  assert (Hx : 0 <= x) by (unfold x; pose proof (pos_INR (crows (p_mat p))); apply Rmult_le_pos; [apply Rmult_le_pos; lra|lra]).
  assert (Hy : 0 <= y) by (unfold y; pose proof (pos_INR (ccols (p_mat p))); apply Rmult_le_pos; [apply Rmult_le_pos; lra|lra]).
  apply near_nonneg in Hx. apply near_nonneg in Hy.
  assert (E : p_mat (zero_pad p ratio b) = cpad (p_mat p) (Z.to_nat (ZnearestE x)) (Z.to_nat (ZnearestE y))).
  { unfold zero_pad. destruct (Rlt_dec 1 ratio); [|lra]. cbv zeta. fold x. fold y. destruct b; reflexivity. }
  rewrite E. cbn [cpad crows ccols cpx]. split; [|split; [|split; [lia|split; [lia|split]]]].
  - rewrite INR_IZR_INZ, Z2Nat.id by exact Hx. rewrite Rabs_minus_sym. apply Znearest_half.
  - rewrite INR_IZR_INZ, Z2Nat.id by exact Hy. rewrite Rabs_minus_sym. apply Znearest_half.
  - intros i j Hi Hj. replace (_ && _)%bool with true by lia. f_equal; lia.
  - intros i j Hij. replace (_ && _)%bool with false by lia. reflexivity.
Qed.
Print Assumptions C91_zero_pad_any_refuted.
