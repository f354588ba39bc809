(** Lemmas for C95. *)
From Coq Require Import Reals List Arith ZArith Lia Lra Psatz Bool.
From Coq Require Import ZifyBool ZifyNat.
From Verif Require Import Base_Py Base_Sum Base_DFT M_Image S_Image L_Image L_Image2 M_Fourier S_Fourier L_Fourier L_Fourier2 L_Fourier3 S_Metric3 M_Metric3.
From Coquelicot Require Import Complex.
Import ListNotations.
Open Scope R_scope.

(** maximum of a real-valued complex array *)
Lemma img_max_at (a : img) : (0 < rows a)%nat -> (0 < cols a)%nat ->
  exists i0 j0, (i0 < rows a)%nat /\ (j0 < cols a)%nat /\
    forall i j, (i < rows a)%nat -> (j < cols a)%nat -> px a i j <= px a i0 j0.
Proof.
  intros Hr Hc.
  assert (H1 : forall c f, (0 < c)%nat -> exists j0, (j0 < c)%nat /\ forall j, (j < c)%nat -> (f j <= f j0)%R).
  { induction c as [|c IH]; intros f H; [lia|]. destruct (Nat.eq_dec c 0) as [->|Hz].
    - exists 0%nat. split; [lia|]. intros j Hj. replace j with 0%nat by lia. lra.
    - destruct (IH f ltac:(lia)) as (j0 & H0 & H1). destruct (Rle_dec (f j0) (f c)) as [L|L].
      + exists c. split; [lia|]. intros j Hj. destruct (Nat.eq_dec j c) as [->|]; [lra|]. specialize (H1 j ltac:(lia)). lra.
      + exists j0. split; [lia|]. intros j Hj. destruct (Nat.eq_dec j c) as [->|]; [lra|]. apply H1. lia. }
  assert (H2 : forall r, (0 < r)%nat -> exists i0 j0, (i0 < r)%nat /\ (j0 < cols a)%nat /\
     forall i j, (i < r)%nat -> (j < cols a)%nat -> (px a i j <= px a i0 j0)%R).
  { induction r as [|r IH]; intros H; [lia|].
    destruct (H1 (cols a) (px a r) Hc) as (jr & Hjr & Hmr).
    destruct (Nat.eq_dec r 0) as [->|Hz].
    - exists 0%nat, jr. repeat split; try lia. intros i j Hi Hj. replace i with 0%nat by lia. apply Hmr; lia.
    - destruct (IH ltac:(lia)) as (i0 & j0 & Hi0 & Hj0 & Hm).
      destruct (Rle_dec (px a i0 j0) (px a r jr)) as [L|L].
      + exists r, jr. repeat split; try lia. intros i j Hi Hj. destruct (Nat.eq_dec i r) as [->|]; [apply Hmr; lia|].
        specialize (Hm i j ltac:(lia) Hj). lra.
      + exists i0, j0. repeat split; try lia. intros i j Hi Hj. destruct (Nat.eq_dec i r) as [->|]; [specialize (Hmr j Hj); lra|].
        apply Hm; lia. }
  apply H2; exact Hr.
Qed.

Lemma carr_max_real (a : carr) (f : nat -> nat -> R) :
  (0 < crows a)%nat -> (0 < ccols a)%nat -> (forall i j, cpx a i j = RtoC (f i j)) ->
  exists i0 j0, (i0 < crows a)%nat /\ (j0 < ccols a)%nat /\
    (forall i j, (i < crows a)%nat -> (j < ccols a)%nat -> f i j <= f i0 j0) /\
    carr_max a = Ok (RtoC (f i0 j0)).
Proof.
  intros Hr Hc E. destruct (img_max_at (mkImg (crows a) (ccols a) f) Hr Hc) as (i0 & j0 & Hi & Hj & Hm).
  cbn [rows cols px] in *. exists i0, j0. repeat split; try assumption.
  rewrite (carr_max_at a i0 j0 Hi Hj); [rewrite E; reflexivity|].
  intros i j Hi' Hj'. rewrite !E. destruct (Req_EM_T (f i j) (f i0 j0)) as [Q|Q].
  - right. rewrite Q. reflexivity.
  - left. cbn. specialize (Hm i j Hi' Hj'). lra.
Qed.

(** convolution theorem for real maps *)
Lemma conj_dft2_neg nx ny (x : nat -> nat -> R) k l : (0 < nx)%nat -> (0 < ny)%nat ->
  Cconj (dft2 nx ny (fun c d => RtoC (x ((nx - c) mod nx)%nat ((ny - d) mod ny)%nat)) k l) = dft2 nx ny (fun c d => RtoC (x c d)) k l.
Proof.
  intros Hx Hy. rewrite conj_dft2. unfold dft2.
  rewrite <- (csum_neg_mod nx) by exact Hx.
  assert (NN : forall n c, (0 < n)%nat -> (c < n)%nat -> ((n - (n - c) mod n) mod n = c)%nat).
  { intros n c Hn Hc. destruct (Nat.eq_dec c 0) as [->|H].
    - rewrite Nat.sub_0_r, Nat.mod_same, Nat.sub_0_r, Nat.mod_same by lia. reflexivity.
    - rewrite (Nat.mod_small (n - c)) by lia. rewrite Nat.mod_small by lia. lia. }
  assert (WN : forall n q c, (0 < n)%nat -> (c < n)%nat -> W n (- (Z.of_nat q * Z.of_nat c)) = W n (Z.of_nat q * Z.of_nat ((n - c) mod n))).
  { intros n q c Hn Hc. destruct (Nat.eq_dec c 0) as [->|H].
    - rewrite Nat.sub_0_r, Nat.mod_same by lia. f_equal. lia.
    - rewrite (Nat.mod_small (n - c)) by lia.
      replace (Z.of_nat q * Z.of_nat (n - c))%Z with (- (Z.of_nat q * Z.of_nat c) + Z.of_nat n * Z.of_nat q)%Z by lia.
      rewrite W_per by exact Hn. reflexivity. }
  apply csum_ext; intros c Hc.
  rewrite <- (csum_neg_mod ny) by exact Hy.
  apply csum_ext; intros d Hd.
  assert (Hc' : ((nx - c) mod nx < nx)%nat) by (apply Nat.mod_upper_bound; lia).
  assert (Hd' : ((ny - d) mod ny < ny)%nat) by (apply Nat.mod_upper_bound; lia).
  rewrite Cconj_RtoC. rewrite (WN nx k _ Hx Hc'), (WN ny l _ Hy Hd').
  rewrite (NN nx c Hx Hc), (NN ny d Hy Hd). reflexivity.
Qed.

Lemma neg_ix_eq n u : (0 < n)%nat -> forall c, (c < n)%nat ->
  ((n - (n - c) mod n) mod n = c)%nat /\ ((u + (n - c) mod n) mod n = (u + (n - c)) mod n)%nat.
Proof.
  intros Hn c Hc. split; [|rewrite Nat.add_mod_idemp_r by lia; reflexivity].
  destruct (Nat.eq_dec c 0) as [->|H].
  - rewrite Nat.sub_0_r, Nat.mod_same, Nat.sub_0_r, Nat.mod_same by lia. reflexivity.
  - rewrite (Nat.mod_small (n - c)) by lia. rewrite Nat.mod_small by lia. lia.
Qed.

Lemma conv_thm nx ny (x : nat -> nat -> R) u v :
  (0 < nx)%nat -> (0 < ny)%nat ->
  idft2 nx ny (fun k l => Cmult (dft2 nx ny (fun c d => RtoC (x c d)) k l) (dft2 nx ny (fun c d => RtoC (x c d)) k l)) u v
  = RtoC (self_convolution nx ny x u v).
Proof.
  intros Hx Hy.
  rewrite (idft2_ext nx ny _ (fun k l => Cmult (dft2 nx ny (fun c d => RtoC (x c d)) k l)
     (Cconj (dft2 nx ny (fun c d => RtoC (x ((nx - c) mod nx)%nat ((ny - d) mod ny)%nat)) k l)))).
  2:{ intros k l _ _. rewrite conj_dft2_neg by assumption. reflexivity. }
  rewrite correl_thm by assumption. unfold ccorr, self_convolution.
  rewrite <- csum_RtoC. rewrite <- (csum_neg_mod nx) by exact Hx. apply csum_ext; intros c Hc.
  rewrite <- csum_RtoC. rewrite <- (csum_neg_mod ny) by exact Hy. apply csum_ext; intros d Hd.
  destruct (neg_ix_eq nx u Hx c Hc) as [A1 A2]. destruct (neg_ix_eq ny v Hy d Hd) as [B1 B2].
  rewrite A1, A2, B1, B2, Cconj_RtoC, <- RtoC_mult, Rmult_comm. reflexivity.
Qed.

(** shifting the map shifts the self-convolution *)
Lemma ix_shift_conv n i a : (0 < n)%nat -> (a < n)%nat ->
  shift_ix n (ishift_ix n a) = a /\
  shift_ix n ((shift_ix n i + (n - ishift_ix n a)) mod n) = ((i + 3 * (n - n / 2) + (n - a)) mod n)%nat.
Proof.
  intros Hn Ha. split; [apply shift_ishift; exact Ha|].
  unfold shift_ix, ishift_ix. rewrite Nat.add_mod_idemp_l by lia.
  assert (Hh : (n / 2 <= n)%nat) by (apply Nat.div_le_upper_bound; lia).
  assert (Hm : ((a + n / 2) mod n <= n)%nat) by (apply Nat.lt_le_incl, Nat.mod_upper_bound; lia).
  set (h := (n / 2)%nat) in *. clearbody h.
  apply Nat2Z.inj. rewrite !Nat2Z.inj_mod.
  replace (Z.of_nat ((i + (n - h)) mod n + (n - (a + h) mod n) + (n - h)))
     with (Z.of_nat ((i + (n - h)) mod n) + Z.of_nat n - Z.of_nat ((a + h) mod n) + (Z.of_nat n - Z.of_nat h))%Z by lia.
  rewrite !Nat2Z.inj_mod.
  set (X := Z.of_nat (i + (n - h))). set (Y := Z.of_nat (a + h)). set (N := Z.of_nat n).
  assert (NZ : N <> 0%Z) by (unfold N; lia).
  assert (EX := Z.div_mod X N NZ). assert (EY := Z.div_mod Y N NZ).
  replace (X mod N + N - Y mod N + (N - Z.of_nat h))%Z
    with (Z.of_nat (i + 3 * (n - h) + (n - a)) + (Y / N - X / N - 1) * N)%Z.
  2:{ rewrite (Z.mod_eq X N NZ), (Z.mod_eq Y N NZ).
      generalize (X / N)%Z, (Y / N)%Z. intros qx qy. unfold X, Y, N.
      rewrite !Nat2Z.inj_add, Nat2Z.inj_mul, !Nat2Z.inj_sub by lia. change (Z.of_nat 3) with 3%Z. ring. }
  rewrite Z.mod_add by exact NZ. reflexivity.
Qed.

Lemma conv_shift nx ny (e : nat -> nat -> R) i j : (0 < nx)%nat -> (0 < ny)%nat ->
  self_convolution nx ny (fun c d => e (shift_ix nx c) (shift_ix ny d)) (shift_ix nx i) (shift_ix ny j) =
  self_convolution nx ny e (i + 3 * (nx - nx / 2)) (j + 3 * (ny - ny / 2)).
Proof.
  intros Hx Hy. unfold self_convolution.
  rewrite (rsum_ishift nx) by exact Hx. apply rsum_ext; intros a Ha.
  rewrite (rsum_ishift ny) by exact Hy. apply rsum_ext; intros b Hb.
  destruct (ix_shift_conv nx i a Hx Ha) as [A1 A2]. destruct (ix_shift_conv ny j b Hy Hb) as [B1 B2].
  rewrite A1, A2, B1, B2. reflexivity.
Qed.

(** the OTF of a padded pupil before normalisation *)
Lemma otf_of_pad_val (e : img) : (0 < rows e)%nat -> (0 < cols e)%nat ->
  exists o, otf_of_pad e = Ok o /\ crows o = rows e /\ ccols o = cols e /\
   (forall i j, cpx o i j = RtoC (self_convolution (rows e) (cols e) (px e) (i + 3 * (rows e - rows e / 2)) (j + 3 * (cols e - cols e / 2)))) /\
   csum_arr o = RtoC (img_sum e * img_sum e).
Proof.
  intros Hr Hc. unfold otf_of_pad.
  replace (cis_empty (to_c e)) with false by (unfold cis_empty; cbn [crows ccols to_c]; lia).
  eexists. split; [reflexivity|]. split; [reflexivity|]. split; [reflexivity|].
  assert (V : forall i j, cpx (fftshift (ifft2 (cmap (fun z => Cmult z z) (fft2 (fftshift (to_c e)))))) i j =
     RtoC (self_convolution (rows e) (cols e) (px e) (i + 3 * (rows e - rows e / 2)) (j + 3 * (cols e - cols e / 2)))).
  { intros i j. cbn [cpx fftshift ifft2 cmap fft2 to_c crows ccols].
    rewrite (conv_thm (rows e) (cols e) (fun c d => px e (shift_ix (rows e) c) (shift_ix (cols e) d)) _ _ Hr Hc).
    f_equal. apply conv_shift; assumption. }
  split; [exact V|].
  assert (S := sum_ifft (cmap (fun z => Cmult z z) (fft2 (fftshift (to_c e)))) Hr Hc).
  cbn [cmap cpx] in S. rewrite cov_val in S by assumption.
  change (Z.of_nat 0) with 0%Z in S. rewrite covre_0, covim_0 in S.
  apply C_eq.
  - unfold csum_arr. rewrite csum_Re. cbn [fst RtoC].
    unfold img_sum, re_img in S; cbn [rows cols px] in S. cbn [Cmult fst snd] in S.
    cbn [fftshift ifft2 cmap fft2 to_c crows ccols cpx] in S |- *.
    rewrite (rsum_ext _ _ (fun i => rsum (cols e) (fun j => fst (idft2 (rows e) (cols e)
       (fun i0 j0 => Cmult (dft2 (rows e) (cols e) (fun i1 j1 => RtoC (px e (shift_ix (rows e) i1) (shift_ix (cols e) j1))) i0 j0)
          (dft2 (rows e) (cols e) (fun i1 j1 => RtoC (px e (shift_ix (rows e) i1) (shift_ix (cols e) j1))) i0 j0))
       (shift_ix (rows e) i) (shift_ix (cols e) j))))) by (intros; apply csum_Re).
    rewrite S. unfold img_sum. lra.
  - unfold csum_arr. rewrite csum_Im. cbn [snd RtoC]. apply rsum_zero; intros i _. rewrite csum_Im. apply rsum_zero; intros j _.
    rewrite V. reflexivity.
Qed.
