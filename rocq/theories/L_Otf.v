(** Closed form of otf2psf. *)
From Coq Require Import Reals List Arith ZArith Lia Lra Psatz.
From Coq Require Import ZifyBool ZifyNat.
From Verif Require Import Base_Py Base_Sum Base_DFT M_Image M_Fourier S_Fourier L_Fourier L_Fourier2 L_Fourier3.
From Coquelicot Require Import Complex.
Import ListNotations.
Open Scope R_scope.

Definition cisr (t : R) : C := (cos t, sin t).

Lemma W_cis n k : W n (- k) = cisr (2 * PI * IZR k / INR n).
Proof.
  unfold W, cisr. rewrite ang_opp. unfold ang. rewrite cos_neg, sin_neg. f_equal. ring.
Qed.

(** inverse transform of an ifftshifted array, output shifted *)
Lemma ifft_val n (x : carr) a b : crows x = n -> ccols x = n -> (0 < n)%nat ->
  (a < n)%nat -> (b < n)%nat ->
  cpx (fftshift (ifft2 (ifftshift x))) a b =
  Cmult (RtoC (/ (INR n * INR n))) (csum n (fun i => csum n (fun j => Cmult (cpx x i j)
    (cisr (2 * PI * ((INR i - INR (n / 2)) * (INR a - INR (n / 2)) + (INR j - INR (n / 2)) * (INR b - INR (n / 2))) / INR n))))).
Proof.
  intros Hr Hc Hn Ha Hb. unfold fftshift, ifft2, ifftshift; cbn [cpx crows ccols]. rewrite Hr, Hc.
  unfold idft2. f_equal.
  rewrite <- (csum_shift n) by exact Hn. apply csum_ext; intros i Hi.
  rewrite <- (csum_shift n) by exact Hn. apply csum_ext; intros j Hj.
  rewrite !ishift_shift by assumption. f_equal.
  assert (P : forall p q, (p < n)%nat -> (q < n)%nat ->
    W n (- (Z.of_nat (shift_ix n p) * Z.of_nat (shift_ix n q)))
    = W n (- ((Z.of_nat p - Z.of_nat (n / 2)) * (Z.of_nat q - Z.of_nat (n / 2))))).
  { intros p q Hp Hq. apply W_mod; [exact Hn|].
    destruct (shift_ix_cong n p Hn) as (u & ->). destruct (shift_ix_cong n q Hn) as (v & ->).
    set (P := (Z.of_nat p - Z.of_nat (n / 2))%Z). set (Q := (Z.of_nat q - Z.of_nat (n / 2))%Z).
    replace (- ((P + Z.of_nat n * u) * (Q + Z.of_nat n * v)))%Z
      with (- (P * Q) + (- (P * v + u * Q + Z.of_nat n * u * v)) * Z.of_nat n)%Z by ring.
    apply Z.mod_add. lia. }
  rewrite !P by assumption. rewrite !W_cis.
  assert (Hn0 : INR n <> 0) by (apply not_0_INR; lia).
  unfold cisr. rewrite !mult_IZR, !minus_IZR, <- !INR_IZR_INZ.
  match goal with |- Cmult (cos ?x, sin ?x) (cos ?y, sin ?y) = (cos ?z, _) =>
    replace z with (x + y) by (field; exact Hn0) end.
  rewrite cos_plus, sin_plus. apply C_eq; cbn; ring.
Qed.

Lemma ifft2_ext (x y : carr) : crows x = crows y -> ccols x = ccols y ->
  (forall i j, cpx x i j = cpx y i j) -> forall a b, cpx (fftshift (ifft2 x)) a b = cpx (fftshift (ifft2 y)) a b.
Proof.
  intros Hr Hc H a b. cbn. rewrite Hr, Hc. apply idft2_ext. intros; apply H.
Qed.

(** half-pixel offset applied by otf2psf *)
Definition half_off (n : nat) (onepix : bool) : R := if (Nat.even n && negb onepix)%bool then / 2 else 0.

(** value before normalisation *)
Definition psf_raw (otf : carr) (n : nat) (s : R) (a b : nat) : R :=
  / (INR n * INR n) * rsum n (fun i => rsum n (fun j =>
    fst (Cmult (cpx otf i j) (cisr (2 * PI * ((INR i - INR (n / 2)) * (INR a - INR (n / 2) + s)
                                    + (INR j - INR (n / 2)) * (INR b - INR (n / 2) + s)) / INR n))))).

Lemma fst_scal r z : fst (Cmult (RtoC r) z) = r * fst z.
Proof. destruct z; cbn; ring. Qed.

Lemma re_ifft n (x : carr) (otf : carr) s a b : crows x = n -> ccols x = n -> (0 < n)%nat ->
  (a < n)%nat -> (b < n)%nat ->
  (forall i j, (i < n)%nat -> (j < n)%nat -> cpx x i j = Cmult (cpx otf i j) (cisr (2 * PI * s * ((INR i - INR (n / 2)) + (INR j - INR (n / 2))) / INR n))) ->
  fst (cpx (fftshift (ifft2 (ifftshift x))) a b) = psf_raw otf n s a b.
Proof.
  intros Hr Hc Hn Ha Hb H. rewrite (ifft_val n) by assumption. rewrite fst_scal. unfold psf_raw. f_equal.
  rewrite csum_Re. apply rsum_ext; intros i Hi. rewrite csum_Re. apply rsum_ext; intros j Hj.
  rewrite H by assumption. rewrite <- Cmult_assoc. f_equal. f_equal. unfold cisr.
  assert (Hn0 : INR n <> 0) by (apply not_0_INR; lia).
  match goal with |- Cmult (cos ?x, sin ?x) (cos ?y, sin ?y) = (cos ?z, _) =>
    replace z with (x + y) by (field; exact Hn0) end.
  rewrite cos_plus, sin_plus. apply C_eq; cbn; ring.
Qed.

Lemma cisr_0 : cisr 0 = RtoC 1.
Proof. unfold cisr. rewrite cos_0, sin_0. reflexivity. Qed.

Lemma sum_eq_centre n (x : carr) : crows x = n -> ccols x = n -> (0 < n)%nat ->
  img_sum (re_img (fftshift (ifft2 (ifftshift x)))) = fst (cpx x (n / 2) (n / 2)).
Proof.
  intros Hr Hc Hn. rewrite sum_ifft by (cbn; lia). cbn. rewrite Hr, Hc. unfold ishift_ix.
  rewrite Nat.add_0_l, !Nat.mod_small by (apply half_lt; exact Hn). reflexivity.
Qed.

Lemma otf2psf_val n (otf : carr) (onepix : bool) :
  crows otf = n -> ccols otf = n -> (0 < n)%nat -> fst (cpx otf (n / 2) (n / 2)) <> 0 ->
  exists psf, otf2psf otf onepix = Ok psf /\ rows psf = n /\ cols psf = n /\
   forall a b, (a < n)%nat -> (b < n)%nat ->
     px psf a b = psf_raw otf n (half_off n onepix) a b / fst (cpx otf (n / 2) (n / 2)).
Proof.
  intros Hr Hc Hn H0. unfold otf2psf.
  assert (He : cis_empty otf = false) by (unfold cis_empty; lia). rewrite He, Hr, Hc, Nat.eqb_refl. cbn [negb].
  assert (Core : forall (x y : carr) s,
     crows x = n -> ccols x = n -> crows y = n -> ccols y = n -> (forall i j, cpx y i j = cpx (ifftshift x) i j) ->
     (forall i j, (i < n)%nat -> (j < n)%nat -> cpx x i j = Cmult (cpx otf i j) (cisr (2 * PI * s * ((INR i - INR (n / 2)) + (INR j - INR (n / 2))) / INR n))) ->
     exists psf, img_div (re_img (fftshift (ifft2 y))) (img_sum (re_img (fftshift (ifft2 y)))) = Ok psf /\
       rows psf = n /\ cols psf = n /\
       forall a b, (a < n)%nat -> (b < n)%nat -> px psf a b = psf_raw otf n s a b / fst (cpx otf (n / 2) (n / 2))).
  { intros x y s Xr Xc Yr Yc Ey Hx.
    assert (Ep : forall a b, cpx (fftshift (ifft2 y)) a b = cpx (fftshift (ifft2 (ifftshift x))) a b).
    { intros a b. apply ifft2_ext; cbn; try congruence. exact Ey. }
    assert (Es : img_sum (re_img (fftshift (ifft2 y))) = fst (cpx otf (n / 2) (n / 2))).
    { rewrite <- (sum_eq_centre n x Xr Xc Hn) || idtac.
      transitivity (img_sum (re_img (fftshift (ifft2 (ifftshift x))))).
      - unfold img_sum. cbn [re_img rows cols crows ccols fftshift ifft2 ifftshift]. rewrite Yr, Yc, Xr, Xc.
        apply rsum_ext; intros a Ha. apply rsum_ext; intros b Hb.
        change (fst (cpx (fftshift (ifft2 y)) a b) = fst (cpx (fftshift (ifft2 (ifftshift x))) a b)). rewrite Ep. reflexivity.
      - rewrite (sum_eq_centre n x Xr Xc Hn). assert (Hh := half_lt n Hn). rewrite Hx by exact Hh.
        replace (2 * PI * s * (INR (n / 2) - INR (n / 2) + (INR (n / 2) - INR (n / 2))) / INR n) with 0
          by (unfold Rdiv; ring).
        rewrite cisr_0, Cmult_1_r. reflexivity. }
    rewrite Es. unfold img_div. destruct (Req_EM_T _ 0) as [Q|Q]; [contradiction|].
    eexists. split; [reflexivity|]. split; [cbn; exact Yr|]. split; [cbn; exact Yc|].
    intros a b Ha Hb. cbn [img_map px re_img]. f_equal. rewrite Ep. apply re_ifft; assumption. }
  assert (Hn0 : INR n <> 0) by (apply not_0_INR; lia).
  unfold half_off. destruct (Nat.even n) eqn:Ev; cbn [andb].
  - destruct onepix; cbn [negb bind].
    + apply (Core otf (fftshift otf) 0); try assumption.
      * intros i j. cbn. rewrite Hr, Hc, !(even_shift n) by exact Ev. reflexivity.
      * intros i j Hi Hj. replace (2 * PI * 0 * _ / INR n) with 0 by (unfold Rdiv; ring).
        rewrite cisr_0, Cmult_1_r. reflexivity.
    + match goal with |- context [fftshift ?p] => match p with mkC _ _ _ => set (ph := p) end end.
      apply (Core ph (fftshift ph) (/ 2)); try reflexivity.
      * intros i j. cbn. rewrite !(even_shift n) by exact Ev. reflexivity.
      * intros i j Hi Hj. unfold ph; cbn [cpx]. f_equal. unfold cisr, fftfreq_shifted.
        replace (2 * PI * / 2 * (INR i - INR (n / 2) + (INR j - INR (n / 2))) / INR n)
          with (PI * ((INR j - INR (n / 2)) / INR n + (INR i - INR (n / 2)) / INR n)) by (field; exact Hn0).
        reflexivity.
  - cbn [bind]. apply (Core otf (ifftshift otf) 0); try assumption.
    + intros i j; reflexivity.
    + intros i j Hi Hj. replace (2 * PI * 0 * _ / INR n) with 0 by (unfold Rdiv; ring).
      rewrite cisr_0, Cmult_1_r. reflexivity.
Qed.
