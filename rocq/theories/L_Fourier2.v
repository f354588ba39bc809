(** Lemmas: correlation theorem, pupil OTF, hermitian completion, fftsym. *)
From Coq Require Import Reals List Arith ZArith Lia Lra Psatz.
From Coq Require Import ZifyBool ZifyNat.
From Verif Require Import Base_Py Base_Sum Base_DFT M_Image S_Image L_Image L_Image2 M_Fourier S_Fourier L_Fourier.
From Coquelicot Require Import Complex.
Import ListNotations.
Open Scope R_scope.

Lemma W_nat_mod n u k : (0 < n)%nat -> W n (- (Z.of_nat (u mod n) * k)) = W n (- (Z.of_nat u * k)).
Proof.
  intros Hn. apply W_mod; [exact Hn|]. rewrite Nat2Z.inj_mod.
  rewrite <- !Z.mul_opp_r, Z.mul_mod_idemp_l by lia. reflexivity.
Qed.

Lemma idft2_per nx ny x u v :
  (0 < nx)%nat -> (0 < ny)%nat -> idft2 nx ny x u v = idft2 nx ny x (u mod nx) (v mod ny).
Proof.
  intros Hx Hy. unfold idft2. f_equal. apply csum_ext; intros i _. apply csum_ext; intros j _.
  rewrite !W_nat_mod by assumption. reflexivity.
Qed.

(** ** correlation theorem *)
Definition ccorr (nx ny : nat) (x y : nat -> nat -> C) (u v : nat) : C :=
  csum nx (fun c => csum ny (fun d => Cmult (x ((u + c) mod nx)%nat ((v + d) mod ny)%nat) (Cconj (y c d)))).

Lemma conj_dft2 nx ny y k l :
  Cconj (dft2 nx ny y k l) = csum nx (fun c => csum ny (fun d =>
    Cmult (Cconj (y c d)) (Cmult (W nx (- (Z.of_nat k * Z.of_nat c))) (W ny (- (Z.of_nat l * Z.of_nat d)))))).
Proof.
  unfold dft2. rewrite csum_conj. apply csum_ext; intros c _. rewrite csum_conj.
  apply csum_ext; intros d _. rewrite !Cconj_mult, !W_conj. reflexivity.
Qed.

Lemma csum4_swap n m n' m' (f : nat -> nat -> nat -> nat -> C) :
  csum n (fun k => csum m (fun l => csum n' (fun c => csum m' (fun d => f k l c d)))) =
  csum n' (fun c => csum m' (fun d => csum n (fun k => csum m (fun l => f k l c d)))).
Proof.
  rewrite (csum_ext n _ (fun k => csum n' (fun c => csum m (fun l => csum m' (fun d => f k l c d)))))
    by (intros; apply csum_swap).
  rewrite csum_swap. apply csum_ext; intros c _.
  rewrite (csum_ext n _ (fun k => csum m' (fun d => csum m (fun l => f k l c d))))
    by (intros; apply csum_swap).
  apply csum_swap.
Qed.

Lemma csum2_scal n m c (f : nat -> nat -> C) :
  Cmult c (csum n (fun i => csum m (fun j => f i j))) = csum n (fun i => csum m (fun j => Cmult c (f i j))).
Proof. rewrite <- csum_scal. apply csum_ext; intros i _. rewrite csum_scal. reflexivity. Qed.

Lemma correl_thm nx ny x y u v :
  (0 < nx)%nat -> (0 < ny)%nat ->
  idft2 nx ny (fun k l => Cmult (dft2 nx ny x k l) (Cconj (dft2 nx ny y k l))) u v = ccorr nx ny x y u v.
Proof.
  intros Hx Hy. unfold ccorr.
  transitivity (csum nx (fun c => csum ny (fun d =>
     Cmult (idft2 nx ny (dft2 nx ny x) (u + c) (v + d)) (Cconj (y c d))))).
  - unfold idft2 at 1.
    rewrite (csum_ext nx _ (fun k => csum ny (fun l => csum nx (fun c => csum ny (fun d =>
       Cmult (Cmult (dft2 nx ny x k l) (Cmult (W nx (- (Z.of_nat (u + c) * Z.of_nat k)))
                                              (W ny (- (Z.of_nat (v + d) * Z.of_nat l)))))
             (Cconj (y c d))))))).
    2:{ intros k _. apply csum_ext; intros l _. rewrite conj_dft2.
        match goal with |- Cmult (Cmult ?X ?S) ?T = _ =>
          transitivity (Cmult (Cmult X T) S); [ring|] end.
        rewrite csum2_scal. apply csum_ext; intros c _. apply csum_ext; intros d _.
        replace (- (Z.of_nat (u + c) * Z.of_nat k))%Z
          with (- (Z.of_nat u * Z.of_nat k) + - (Z.of_nat k * Z.of_nat c))%Z by lia.
        replace (- (Z.of_nat (v + d) * Z.of_nat l))%Z
          with (- (Z.of_nat v * Z.of_nat l) + - (Z.of_nat l * Z.of_nat d))%Z by lia.
        rewrite !W_add. ring. }
    rewrite csum4_swap, csum2_scal. apply csum_ext; intros c _. apply csum_ext; intros d _.
    unfold idft2. rewrite <- Cmult_assoc. f_equal.
    rewrite <- csum_scal_r. apply csum_ext; intros k _. rewrite <- csum_scal_r. reflexivity.
  - apply csum_ext; intros c _. apply csum_ext; intros d _.
    rewrite idft2_per by assumption.
    rewrite idft2_dft2 by (apply Nat.mod_upper_bound; lia). reflexivity.
Qed.

Lemma fftCorrel_val x y :
  (0 < crows x)%nat -> (0 < ccols x)%nat -> crows x = crows y -> ccols x = ccols y ->
  exists c, fftCorrel x y = Ok c /\ crows c = crows x /\ ccols c = ccols x /\
    forall u v, cpx c u v = Cdiv (ccorr (crows x) (ccols x) (cpx x) (cpx y) u v)
                                 (RtoC (INR (crows x) * INR (ccols x))).
Proof.
  intros Hx Hy E1 E2. unfold fftCorrel. rewrite <- E1, <- E2, !Nat.eqb_refl. cbn [andb negb].
  assert (He : cis_empty x = false) by (unfold cis_empty; lia). rewrite He.
  eexists. split; [reflexivity|]. split; [reflexivity|]. split; [reflexivity|].
  intros u v. unfold cmap, ifft2, fft2; cbn [cpx crows ccols]. f_equal.
  rewrite <- E1, <- E2. apply correl_thm; assumption.
Qed.

(** ** sums of moduli *)
Lemma csum_Cmod n f : Cmod (csum n f) <= rsum n (fun i => Cmod (f i)).
Proof.
  induction n as [|n IH]; cbn [csum rsum]; [rewrite Cmod_0; lra|].
  eapply Rle_trans; [apply Cmod_triangle|]. lra.
Qed.
Lemma csum2_Cmod n m f :
  Cmod (csum n (fun i => csum m (fun j => f i j))) <= rsum n (fun i => rsum m (fun j => Cmod (f i j))).
Proof.
  eapply Rle_trans; [apply csum_Cmod|]. apply rsum_le; intros i _. apply csum_Cmod.
Qed.
Lemma Cmod_conj z : Cmod (Cconj z) = Cmod z.
Proof. unfold Cmod, Cconj; cbn. f_equal. ring. Qed.
Lemma Re_le_Cmod z : Rabs (fst z) <= Cmod z.
Proof.
  unfold Cmod. rewrite <- sqrt_Rsqr_abs. apply sqrt_le_1_alt. unfold Rsqr. nra.
Qed.

(** real autocorrelation of the moduli *)
Definition rcorr (nx ny : nat) (e : nat -> nat -> R) (u v : nat) : R :=
  rsum nx (fun c => rsum ny (fun d => e ((u + c) mod nx)%nat ((v + d) mod ny)%nat * e c d)).

Lemma rsum2_shift nx ny (f : nat -> nat -> R) u v :
  (0 < nx)%nat -> (0 < ny)%nat ->
  rsum nx (fun c => rsum ny (fun d => f ((u + c) mod nx)%nat ((v + d) mod ny)%nat))
  = rsum nx (fun c => rsum ny (fun d => f c d)).
Proof.
  intros Hx Hy.
  rewrite (rsum_ext nx _ (fun c => rsum ny (fun d => f ((c + u) mod nx)%nat d))).
  - apply (rsum_shift_mod nx u (fun c => rsum ny (fun d => f c d)) Hx).
  - intros c _. rewrite (Nat.add_comm u c).
    rewrite (rsum_ext ny _ (fun d => f ((c + u) mod nx)%nat ((d + v) mod ny)%nat))
      by (intros; rewrite (Nat.add_comm v); reflexivity).
    apply (rsum_shift_mod ny v (fun d => f ((c + u) mod nx)%nat d) Hy).
Qed.

Lemma rcorr_le nx ny e u v :
  (0 < nx)%nat -> (0 < ny)%nat -> rcorr nx ny e u v <= rsum nx (fun c => rsum ny (fun d => e c d * e c d)).
Proof.
  intros Hx Hy. unfold rcorr.
  assert (H : rsum nx (fun c => rsum ny (fun d =>
      2 * (e ((u + c) mod nx)%nat ((v + d) mod ny)%nat * e c d)))
    <= rsum nx (fun c => rsum ny (fun d =>
      e ((u + c) mod nx)%nat ((v + d) mod ny)%nat * e ((u + c) mod nx)%nat ((v + d) mod ny)%nat + e c d * e c d))).
  { apply rsum_le; intros c _. apply rsum_le; intros d _.
    generalize (e ((u + c) mod nx)%nat ((v + d) mod ny)%nat), (e c d). intros a b.
    assert (0 <= (a - b) * (a - b)) by apply Rle_0_sqr. lra. }
  rewrite (rsum_ext nx (fun c => rsum ny (fun d => 2 * _))
     (fun c => 2 * rsum ny (fun d => e ((u + c) mod nx)%nat ((v + d) mod ny)%nat * e c d))) in H
     by (intros; apply rsum_scal).
  rewrite rsum_scal in H.
  rewrite (rsum_ext nx (fun c => rsum ny (fun d => _ + e c d * e c d))
     (fun c => rsum ny (fun d => e ((u + c) mod nx)%nat ((v + d) mod ny)%nat * e ((u + c) mod nx)%nat ((v + d) mod ny)%nat)
               + rsum ny (fun d => e c d * e c d))) in H by (intros; apply rsum_plus).
  rewrite rsum_plus in H.
  rewrite (rsum2_shift nx ny (fun a b => e a b * e a b) u v Hx Hy) in H. lra.
Qed.

Lemma rcorr_0 nx ny e : rcorr nx ny e 0 0 = rsum nx (fun c => rsum ny (fun d => e c d * e c d)).
Proof.
  unfold rcorr. apply rsum_ext; intros c Hc. apply rsum_ext; intros d Hd.
  rewrite !Nat.add_0_l, !Nat.mod_small by assumption. reflexivity.
Qed.
Lemma rcorr_nonneg nx ny e u v : (forall i j, 0 <= e i j) -> 0 <= rcorr nx ny e u v.
Proof.
  intros H. unfold rcorr. apply rsum_nonneg; intros c _. apply rsum_nonneg; intros d _.
  apply Rmult_le_pos; apply H.
Qed.

Lemma ccorr_Cmod nx ny x u v :
  Cmod (ccorr nx ny x x u v) <= rcorr nx ny (fun i j => Cmod (x i j)) u v.
Proof.
  unfold ccorr, rcorr. eapply Rle_trans; [apply csum2_Cmod|].
  apply rsum_le; intros c _. apply rsum_le; intros d _.
  rewrite Cmod_mult, Cmod_conj. lra.
Qed.
Lemma ccorr_real nx ny e u v :
  ccorr nx ny (fun i j => RtoC (e i j)) (fun i j => RtoC (e i j)) u v = RtoC (rcorr nx ny e u v).
Proof.
  unfold ccorr, rcorr. rewrite <- csum_RtoC. apply csum_ext; intros c _.
  rewrite <- csum_RtoC. apply csum_ext; intros d _. rewrite Cconj_RtoC, RtoC_mult. reflexivity.
Qed.

(** ** pupil OTF *)
Lemma all_zero_spec a :
  all_zero a = true <-> forall i j, (i < rows a)%nat -> (j < cols a)%nat -> px a i j = 0.
Proof.
  unfold all_zero. rewrite forallb_forall. split.
  - intros H i j Hi Hj. specialize (H (px a i j)).
    destruct (Req_EM_T (px a i j) 0) as [E|E]; [exact E|].
    assert (F : In (px a i j) (pixels a)).
    { unfold pixels. apply in_flat_map. exists i. split; [apply in_seq; lia|].
      apply in_map_iff. exists j. split; [reflexivity|apply in_seq; lia]. }
    specialize (H F). discriminate.
  - intros H z Hz. unfold pixels in Hz. apply in_flat_map in Hz. destruct Hz as (i & Hi & Hz).
    apply in_map_iff in Hz. destruct Hz as (j & <- & Hj). apply in_seq in Hi. apply in_seq in Hj.
    rewrite (H i j) by lia. destruct (Req_EM_T 0 0); [reflexivity|lra].
Qed.

(** padding as a function of the pixel accessor *)
Definition padf {A} (z : A) (r c pr pc : nat) (f : nat -> nat -> A) (i j : nat) : A :=
  if ((pr <=? i) && (i <? pr + r) && (pc <=? j) && (j <? pc + c))%nat%bool
  then f (i - pr)%nat (j - pc)%nat else z.

Lemma enlarge_ok_fun (a : img) p q : (0 < q)%Z -> (q <= p)%Z ->
  exists pr pc, forall f,
   exists o, enlargeSupport (mkImg (rows a) (cols a) f) p q = Ok o /\
    rows o = (rows a + 2 * pr)%nat /\ cols o = (cols a + 2 * pc)%nat /\
    px o = padf 0 (rows a) (cols a) pr pc f.
Proof.
  intros Hq Hp.
  exists (Z.to_nat (Z.quot ((p - q) * Z.of_nat (rows a)) (2 * q))),
         (Z.to_nat (Z.quot ((p - q) * Z.of_nat (cols a)) (2 * q))).
  intros f. unfold enlargeSupport; cbn [rows cols].
  assert (H1 : (0 <= Z.quot ((p - q) * Z.of_nat (rows a)) (2 * q))%Z) by (apply Z.quot_pos; [apply Z.mul_nonneg_nonneg|]; lia).
  assert (H2 : (0 <= Z.quot ((p - q) * Z.of_nat (cols a)) (2 * q))%Z) by (apply Z.quot_pos; [apply Z.mul_nonneg_nonneg|]; lia).
  set (u := Z.quot _ _) in *. set (v := Z.quot ((p - q) * Z.of_nat (cols a)) _) in *. clearbody u v.
  unfold pad2. destruct (Z.ltb_spec u 0); [lia|]. destruct (Z.ltb_spec v 0); [lia|].
  cbn [orb]. eexists. split; [reflexivity|]. cbn [rows cols px].
  split; [reflexivity|]. split; reflexivity.
Qed.

Lemma Cmod_phase t phi : Cmod (Cmult (RtoC t) (cos phi, sin phi)) = Rabs t.
Proof.
  rewrite Cmod_mult, Cmod_R.
  replace (Cmod (cos phi, sin phi)) with 1; [lra|].
  unfold Cmod; cbn. rewrite <- sqrt_1 at 1. f_equal.
  generalize (sin2_cos2 phi). unfold Rsqr. lra.
Qed.

Definition energy (pup : img) : R :=
  rsum (rows pup) (fun i => rsum (cols pup) (fun j => px pup i j * px pup i j)).

Lemma padf_energy r c pr pc (f : nat -> nat -> R) :
  rsum (r + 2 * pr) (fun i => rsum (c + 2 * pc) (fun j =>
     padf 0 r c pr pc f i j * padf 0 r c pr pc f i j)) =
  rsum r (fun i => rsum c (fun j => f i j * f i j)).
Proof.
  rewrite (rsum_window (r + 2 * pr) pr r).
  - apply rsum_ext; intros i Hi. rewrite (rsum_window (c + 2 * pc) pc c).
    + apply rsum_ext; intros j Hj. unfold padf.
      replace ((pr <=? pr + i) && (pr + i <? pr + r) && (pc <=? pc + j) && (pc + j <? pc + c))%nat%bool with true by lia.
      replace (pr + i - pr)%nat with i by lia. replace (pc + j - pc)%nat with j by lia. reflexivity.
    + lia.
    + intros j Hj Ho. unfold padf.
      replace ((pr <=? pr + i) && (pr + i <? pr + r) && (pc <=? j) && (j <? pc + c))%nat%bool with false by lia. lra.
  - lia.
  - intros i Hi Ho. apply rsum_zero; intros j Hj. unfold padf.
    replace ((pr <=? i) && (i <? pr + r) && (pc <=? j) && (j <? pc + c))%nat%bool with false by lia. lra.
Qed.

(** The OTF with phase and the OTF without phase, both described through the
    cyclic autocorrelation of the padded pupil. *)
Lemma pupil2otf_val pup phase p q :
  (0 < q)%Z -> (q <= p)%Z -> (0 < rows pup)%nat -> (0 < cols pup)%nat ->
  rows phase = rows pup -> cols phase = cols pup ->
  exists R' C' (e : nat -> nat -> R) o o0, (rows pup <= R')%nat /\ (cols pup <= C')%nat /\
    (forall i j, 0 <= e i j) /\
    rsum R' (fun i => rsum C' (fun j => e i j * e i j)) = energy pup /\
    pupil2otf pup (img_map (fun v => 0 * v) phase) p q = Ok o0 /\
    pupil2otf pup phase p q = Ok o /\
    crows o0 = R' /\ ccols o0 = C' /\ crows o = R' /\ ccols o = C' /\
    (forall i j, cpx o0 i j = RtoC (rcorr R' C' e (shift_ix R' i) (shift_ix C' j) / (INR R' * INR C'))) /\
    (forall i j, Cmod (cpx o i j) <= rcorr R' C' e (shift_ix R' i) (shift_ix C' j) / (INR R' * INR C')) /\
    fst (cpx o (R' / 2)%nat (C' / 2)%nat) = energy pup / (INR R' * INR C').
Proof.
  intros Hq Hp Hr Hc E1 E2.
  destruct (enlarge_ok_fun pup p q Hq Hp) as (pr & pc & Hen).
  set (R' := (rows pup + 2 * pr)%nat). set (C' := (cols pup + 2 * pc)%nat).
  set (e := padf 0 (rows pup) (cols pup) pr pc (fun i j => Rabs (px pup i j))).
  assert (HR : (0 < R')%nat) by lia. assert (HC : (0 < C')%nat) by lia.
  assert (HN : 0 < INR R' * INR C').
  { apply Rmult_lt_0_compat; apply lt_0_INR; assumption. }
  assert (He : forall i j, 0 <= e i j).
  { intros i j. unfold e, padf. destruct (_ && _)%bool; [apply Rabs_pos|lra]. }
  assert (Hen0 : rsum R' (fun i => rsum C' (fun j => e i j * e i j)) = energy pup).
  { unfold e, R', C'. rewrite padf_energy. unfold energy. apply rsum_ext; intros i _.
    apply rsum_ext; intros j _. rewrite <- Rabs_mult. apply Rabs_pos_eq. nra. }
  (* the zero-phase branch, for any all-zero phase *)
  assert (Z0 : forall ph, rows ph = rows pup -> cols ph = cols pup -> all_zero ph = true ->
    exists o0, pupil2otf pup ph p q = Ok o0 /\ crows o0 = R' /\ ccols o0 = C' /\
     forall i j, cpx o0 i j = RtoC (rcorr R' C' e (shift_ix R' i) (shift_ix C' j) / (INR R' * INR C'))).
  { intros ph F1 F2 Hz. unfold pupil2otf. rewrite F1, F2, !Nat.eqb_refl. cbn [andb negb]. rewrite Hz.
    destruct (Hen (fun i j => Rabs (px pup i j))) as (E & HE & Hro & Hco & Hpx).
    unfold img_map at 1. rewrite HE. cbn [bind].
    destruct (fftCorrel_val (to_c E) (to_c E)) as (c & Hcor & Hcr & Hcc & Hcv);
      cbn [to_c crows ccols]; try lia; try reflexivity.
    rewrite Hcor. cbn [bind]. eexists. split; [reflexivity|].
    cbn [cmap fftshift crows ccols cpx]. rewrite Hcr, Hcc. cbn [to_c crows ccols]. rewrite Hro, Hco.
    split; [reflexivity|]. split; [reflexivity|]. intros i j.
    rewrite Hcv. cbn [to_c crows ccols cpx]. rewrite Hro, Hco, Hpx. fold R' C'. fold e.
    rewrite ccorr_real. rewrite <- RtoC_div by lra. reflexivity. }
  assert (AZ : all_zero (img_map (fun v => 0 * v) phase) = true).
  { apply all_zero_spec. intros i j _ _. unfold img_map; cbn [px]. lra. }
  destruct (Z0 (img_map (fun v => 0 * v) phase) E1 E2 AZ) as (o0 & Ho0 & Hr0 & Hc0 & Hv0).
  destruct (all_zero phase) eqn:Az.
  - destruct (Z0 phase E1 E2 Az) as (o & Ho & Hro & Hco & Hvo).
    exists R', C', e, o, o0. repeat split; try assumption; try lia.
    + intros i j. rewrite Hvo, Cmod_R, Rabs_pos_eq; [lra|].
      apply Rmult_le_pos; [apply rcorr_nonneg, He|left; apply Rinv_0_lt_compat; exact HN].
    + rewrite Hvo, !shift_half by assumption. rewrite rcorr_0, Hen0. reflexivity.
  - set (z := fun i j => Cmult (RtoC (px pup i j)) (cos (px phase i j), sin (px phase i j))).
    destruct (Hen (fun i j => fst (z i j))) as (Er & HEr & Hrr & Hcr & Hpr).
    destruct (Hen (fun i j => snd (z i j))) as (Ei & HEi & Hri & Hci & Hpi).
    set (E := mkC (rows Er) (cols Er) (fun i j => (px Er i j, px Ei i j))).
    assert (HE : cenlarge (mkC (rows pup) (cols pup) z) p q = Ok E).
    { unfold cenlarge, re_img; cbn [crows ccols cpx]. rewrite HEr. cbn [bind]. rewrite HEi. reflexivity. }
    assert (HEm : forall i j, Cmod (cpx E i j) = e i j).
    { intros i j. unfold E; cbn [cpx]. rewrite Hpr, Hpi. unfold e, padf.
      destruct (_ && _)%bool.
      - rewrite <- surjective_pairing. unfold z. apply Cmod_phase.
      - apply Cmod_0. }
    destruct (fftCorrel_val E E) as (c & Hcor & Hccr & Hccc & Hcv);
      unfold E in *; cbn [crows ccols] in *; try lia; try reflexivity.
    fold E in Hcor, Hcv, HEm.
    assert (Ho : pupil2otf pup phase p q = Ok (fftshift c)).
    { unfold pupil2otf. rewrite E1, E2, !Nat.eqb_refl. cbn [andb negb]. rewrite Az.
      fold z. rewrite HE. cbn [bind]. fold E. rewrite Hcor. reflexivity. }
    rewrite Hrr, Hcr in Hcv. fold R' C' in Hcv.
    assert (D : forall u v, Cmod (cpx c u v) <= rcorr R' C' e u v / (INR R' * INR C')).
    { intros u v. rewrite Hcv, Cmod_div by (intros F; apply RtoC_inj in F; lra).
      rewrite Cmod_R, (Rabs_pos_eq (INR R' * INR C')) by lra.
      apply Rmult_le_compat_r; [left; apply Rinv_0_lt_compat; exact HN|].
      eapply Rle_trans; [apply ccorr_Cmod|]. right. unfold rcorr.
      apply rsum_ext; intros ? _. apply rsum_ext; intros ? _. rewrite !HEm. reflexivity. }
    exists R', C', e, (fftshift c), o0. cbn [fftshift crows ccols cpx]. rewrite Hccr, Hccc, Hrr, Hcr.
    fold R' C'.
    repeat split; try assumption; try lia.
    + intros i j. apply D.
    + rewrite !shift_half by assumption. rewrite Hcv.
      rewrite <- Hen0.
      assert (V0 : ccorr R' C' (cpx E) (cpx E) 0 0 = RtoC (rsum R' (fun i => rsum C' (fun j => e i j * e i j)))).
      { unfold ccorr. rewrite <- csum_RtoC. apply csum_ext; intros i Hi.
        rewrite <- csum_RtoC. apply csum_ext; intros j Hj.
        rewrite !Nat.add_0_l, !Nat.mod_small by assumption.
        rewrite <- HEm. generalize (cpx E i j). intros w.
        apply C_eq; cbn.
        - unfold Cmod. rewrite sqrt_sqrt; [ring|]. nra.
        - ring. }
      rewrite V0. rewrite <- RtoC_div by lra. reflexivity.
Qed.
