(** Lemmas: hermitian completion, fftsym, otf2psf. *)
From Coq Require Import Reals List Arith ZArith Lia Lra Psatz.
From Coq Require Import ZifyBool ZifyNat.
From Verif Require Import Base_Py Base_Sum Base_DFT M_Image S_Image L_Image L_Image2 M_Fourier S_Fourier L_Fourier L_Fourier2.
From Coquelicot Require Import Complex.
Import ListNotations.
Open Scope R_scope.

Lemma W_neg n u i : (0 < n)%nat -> (u <= n)%nat ->
  Cconj (W n (Z.of_nat (neg_ix n u) * i)) = W n (Z.of_nat u * i).
Proof.
  intros Hn Hu. rewrite W_conj. unfold neg_ix. rewrite W_nat_mod by exact Hn.
  apply W_mod; [exact Hn|].
  replace (- (Z.of_nat (n - u) * i))%Z with (Z.of_nat u * i + (- i) * Z.of_nat n)%Z by (rewrite Nat2Z.inj_sub by lia; ring).
  apply Z.mod_add. lia.
Qed.

Lemma dft2_herm r c (x : nat -> nat -> R) u v :
  (0 < r)%nat -> (0 < c)%nat -> (u <= r)%nat -> (v <= c)%nat ->
  Cconj (dft2 r c (fun i j => RtoC (x i j)) (neg_ix r u) (neg_ix c v)) =
  dft2 r c (fun i j => RtoC (x i j)) u v.
Proof.
  intros Hr Hc Hu Hv. unfold dft2. rewrite csum_conj. apply csum_ext; intros i _.
  rewrite csum_conj. apply csum_ext; intros j _.
  rewrite !Cconj_mult, Cconj_RtoC, !W_neg by assumption. reflexivity.
Qed.

Lemma neg_ix_pos n i : (0 < i)%nat -> (i <= n)%nat -> neg_ix n i = (n - i)%nat.
Proof. intros. unfold neg_ix. apply Nat.mod_small. lia. Qed.
Lemma neg_ix_0 n : (0 < n)%nat -> neg_ix n 0 = 0%nat.
Proof. intros. unfold neg_ix. rewrite Nat.sub_0_r. apply Nat.mod_same. lia. Qed.

Lemma rfft2_to_fft2_correct (a : img) :
  (0 < rows a)%nat -> (0 < cols a)%nat ->
  exists out, rfft2_to_fft2 (rows a) (cols a) (rfft2 a) = Ok out /\
    crows out = rows a /\ ccols out = cols a /\
    forall i j, (i < rows a)%nat -> (j < cols a)%nat -> cpx out i j = cpx (fft2 (to_c a)) i j.
Proof.
  intros Hr Hc. unfold rfft2_to_fft2, rfft2. cbn [crows ccols cpx].
  set (r := rows a) in *. set (c := cols a) in *. set (h := (c / 2 + 1)%nat).
  set (F := dft2 r c (cpx (to_c a))).
  assert (HF : forall u v, (u <= r)%nat -> (v <= c)%nat -> Cconj (F (neg_ix r u) (neg_ix c v)) = F u v).
  { intros u v Hu Hv. apply (dft2_herm r c (px a)); assumption. }
  rewrite Nat.eqb_refl. cbn [negb].
  assert (Hpar : (Nat.even c = true /\ c = (2 * (h - 1))%nat /\ (2 <= h)%nat) \/
                 (Nat.even c = false /\ c = (2 * (h - 1) + 1)%nat /\ (1 <= h)%nat)).
  { unfold h. destruct (Nat.even c) eqn:E.
    - left. apply Nat.even_spec in E. destruct E as (k & E).
      rewrite E. rewrite Nat.mul_comm, Nat.div_mul by lia. lia.
    - right. assert (Ho : Nat.odd c = true) by (rewrite <- Nat.negb_even, E; reflexivity).
      apply Nat.odd_spec in Ho. destruct Ho as (k & Ho). rewrite Ho.
      replace (2 * k + 1)%nat with (1 + k * 2)%nat by lia. rewrite Nat.div_add by lia.
      change (1 / 2)%nat with 0%nat. lia. }
  clearbody h.
  destruct (Nat.ltb_spec c h) as [Hlt|Hge]; [lia|].
  destruct Hpar as [(He & Hce & Hh)|(He & Hce & Hh)]; rewrite He; cbv iota.
  - destruct (Nat.eqb_spec (c - (h - 1)) (h - 1)) as [_|B]; [|lia]. cbn [negb].
    destruct (Nat.eqb_spec (h - 1 + (h - 1 - 1)) (c - 1)) as [_|B]; [|lia]. cbn [negb].
    eexists. split; [reflexivity|]. split; [reflexivity|]. split; [reflexivity|].
    intros i j Hi Hj. cbn [cpx fft2 crows ccols to_c]. fold r c.
    change (dft2 r c (fun i j => RtoC (px a i j)) i j) with (F i j).
    destruct (Nat.leb_spec 1 i) as [Li|Li]; destruct (Nat.leb_spec 1 j) as [Lj|Lj]; cbn [andb].
    + destruct (Nat.ltb_spec (j - 1) (h - 1)) as [L|L].
      * f_equal; lia.
      * rewrite <- (HF i j) by lia. rewrite !neg_ix_pos by lia. f_equal. f_equal; lia.
    + destruct (Nat.eqb_spec i 0); [lia|]. cbn [andb]. destruct (Nat.ltb_spec j h); [reflexivity|lia].
    + destruct (Nat.eqb_spec i 0); [|lia]. cbn [andb]. subst i.
      destruct (Nat.leb_spec (h - 1) j) as [L|L].
      * rewrite <- (HF 0 j)%nat by lia. rewrite neg_ix_0 by lia. rewrite neg_ix_pos by lia. f_equal. f_equal; lia.
      * destruct (Nat.ltb_spec j h); [reflexivity|lia].
    + destruct (Nat.eqb_spec i 0); [|lia]. cbn [andb]. subst i.
      destruct (Nat.leb_spec (h - 1) j) as [L|L]; [lia|].
      destruct (Nat.ltb_spec j h); [reflexivity|lia].
  - destruct (Nat.eqb_spec (c - h) (h - 1)) as [_|B]; [|lia]. cbn [negb].
    destruct (Nat.eqb_spec (h - 1 + (h - 1 - 0)) (c - 1)) as [_|B]; [|lia]. cbn [negb].
    eexists. split; [reflexivity|]. split; [reflexivity|]. split; [reflexivity|].
    intros i j Hi Hj. cbn [cpx fft2 crows ccols to_c]. fold r c.
    change (dft2 r c (fun i j => RtoC (px a i j)) i j) with (F i j).
    destruct (Nat.leb_spec 1 i) as [Li|Li]; destruct (Nat.leb_spec 1 j) as [Lj|Lj]; cbn [andb].
    + destruct (Nat.ltb_spec (j - 1) (h - 1)) as [L|L].
      * f_equal; lia.
      * rewrite <- (HF i j) by lia. rewrite !neg_ix_pos by lia. f_equal. f_equal; lia.
    + destruct (Nat.eqb_spec i 0); [lia|]. cbn [andb]. destruct (Nat.ltb_spec j h); [reflexivity|lia].
    + destruct (Nat.eqb_spec i 0); [|lia]. cbn [andb]. subst i.
      destruct (Nat.leb_spec h j) as [L|L].
      * rewrite <- (HF 0 j)%nat by lia. rewrite neg_ix_0 by lia. rewrite neg_ix_pos by lia. f_equal. f_equal; lia.
      * destruct (Nat.ltb_spec j h); [reflexivity|lia].
    + destruct (Nat.eqb_spec i 0); [|lia]. cbn [andb]. subst i.
      destruct (Nat.leb_spec h j) as [L|L]; [lia|].
      destruct (Nat.ltb_spec j h); [reflexivity|lia].
Qed.

(** ** fftsym *)
Lemma fftsym_last_zero n x i : (2 <= n)%nat -> fftsym n x i (n - 1) = RtoC 0 /\ fftsym n x (n - 1) i = RtoC 0.
Proof.
  intros Hn. unfold fftsym. split.
  - replace ((1 <=? i) && (i <? n - 1) && (1 <=? n - 1) && (n - 1 <? n - 1))%nat%bool with false by lia.
    replace ((1 <=? i) && (i <? n - 1) && (n - 1 =? 0))%nat%bool with false by lia.
    replace ((i =? 0) && (1 <=? n - 1) && (n - 1 <? n - 1))%nat%bool with false by lia.
    replace ((i =? 0) && (n - 1 =? 0))%nat%bool with false by lia. reflexivity.
  - replace ((1 <=? n - 1) && (n - 1 <? n - 1) && (1 <=? i) && (i <? n - 1))%nat%bool with false by lia.
    replace ((1 <=? n - 1) && (n - 1 <? n - 1) && (i =? 0))%nat%bool with false by lia.
    replace ((n - 1 =? 0) && (1 <=? i) && (i <? n - 1))%nat%bool with false by lia.
    replace ((n - 1 =? 0) && (i =? 0))%nat%bool with false by lia. reflexivity.
Qed.

Lemma fftsym_interior n x i j :
  (1 <= i)%nat -> (i < n - 1)%nat -> (1 <= j)%nat -> (j < n - 1)%nat ->
  fftsym n x i j = x (n - j)%nat (n - j)%nat.
Proof.
  intros. unfold fftsym.
  replace ((1 <=? i) && (i <? n - 1) && (1 <=? j) && (j <? n - 1))%nat%bool with true by lia. reflexivity.
Qed.

(** ** otf2psf *)
Lemma img_div_sum a b c : img_div a c = Ok b -> img_sum b = img_sum a / c.
Proof.
  unfold img_div. destruct (Req_EM_T c 0); [discriminate|]. intros H. apply Ok_inj in H; subst b.
  unfold img_sum, img_map; cbn [rows cols px].
  rewrite (rsum_ext _ _ (fun i => rsum (cols a) (fun j => px a i j) / c)) by (intros; apply rsum_div).
  apply rsum_div.
Qed.

Lemma otf2psf_sum otf b psf : otf2psf otf b = Ok psf -> img_sum psf = 1.
Proof.
  unfold otf2psf. destruct (cis_empty otf); [discriminate|].
  match goal with |- context [bind ?r _] => destruct r as [raw|e]; cbn [bind]; [|discriminate] end.
  intros H. rewrite (img_div_sum _ _ _ H). unfold img_div in H.
  destruct (Req_EM_T (img_sum raw) 0); [discriminate|]. field. assumption.
Qed.

(** total of the real part of a shifted inverse transform = real part at (0,0) *)
Lemma sum_ifft (x : carr) :
  (0 < crows x)%nat -> (0 < ccols x)%nat ->
  img_sum (re_img (fftshift (ifft2 x))) = fst (cpx x 0 0).
Proof.
  intros Hr Hc. unfold img_sum, re_img, fftshift, ifft2; cbn [rows cols px crows ccols cpx].
  rewrite (rsum_shift (crows x) (fun i => rsum (ccols x) (fun j =>
     fst (idft2 (crows x) (ccols x) (cpx x) i (shift_ix (ccols x) j)))) Hr).
  rewrite (rsum_ext _ _ (fun i => rsum (ccols x) (fun j => fst (idft2 (crows x) (ccols x) (cpx x) i j)))).
  2:{ intros i _. apply (rsum_shift (ccols x) (fun j => fst (idft2 (crows x) (ccols x) (cpx x) i j)) Hc). }
  rewrite <- (csum2_idft2 (crows x) (ccols x) (cpx x) Hr Hc).
  rewrite csum_Re. apply rsum_ext; intros i _. rewrite csum_Re. reflexivity.
Qed.
