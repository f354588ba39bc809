(** Properties C01, C02, C03, C10: image processing. *)
From Coq Require Import Reals List Arith ZArith Lia Lra.
From Verif Require Import Base_Py Base_Sum M_Image S_Image L_Image L_Image2.
Open Scope R_scope.

(** C01: shape, block sums and flux of the binned image. *)
Theorem C01_binning :
  forall (a : img) (k : nat), (0 < k)%nat ->
  exists out, binning a k = Ok out /\
    rows out = (rows a / k)%nat /\ cols out = (cols a / k)%nat /\
    (forall u v, px out u v =
       rsum k (fun i => rsum k (fun j => px a (u * k + i) (v * k + j)))) /\
    img_sum out =
      rsum (rows a / k * k) (fun i => rsum (cols a / k * k) (fun j => px a i j)).
Proof.
  intros a k Hk. destruct (binning_ok a k Hk) as (out & Ho & Hr & Hc & Hp).
  exists out. repeat split; try assumption. exact (binning_flux a k out Hk Ho).
Qed.
Print Assumptions C01_binning.

(** Flux conserved when k divides both sides. *)
Theorem C01_flux_conserved :
  forall (a out : img) (k m n : nat), (0 < k)%nat ->
  rows a = (m * k)%nat -> cols a = (n * k)%nat ->
  binning a k = Ok out -> img_sum out = img_sum a.
Proof.
  intros a out k m n Hk Hr Hc Hb. rewrite (binning_flux a k out Hk Hb).
  rewrite Hr, Hc, !Nat.div_mul by lia. unfold img_sum. rewrite Hr, Hc. reflexivity.
Qed.
Print Assumptions C01_flux_conserved.

(** ... and only then: for every other shape some image loses flux. *)
Theorem C01_flux_lost_otherwise :
  forall r c k : nat, (0 < k)%nat -> (0 < r)%nat -> (0 < c)%nat ->
  (r mod k <> 0 \/ c mod k <> 0)%nat ->
  exists a out, rows a = r /\ cols a = c /\ binning a k = Ok out /\ img_sum out <> img_sum a.
Proof. exact binning_lost. Qed.
Print Assumptions C01_flux_lost_otherwise.

(** A zero factor is refused. *)
Theorem C01_zero_factor : forall a, binning a 0 = Err ZeroDivisionError.
Proof. reflexivity. Qed.

Example C01_nonvacuous :
  exists out, binning (mkImg 5 4 (fun i j => INR (i + j))) 2 = Ok out /\ rows out = 2%nat /\ px out 0 0 = 4.
Proof.
  destruct (C01_binning (mkImg 5 4 (fun i j => INR (i + j))) 2) as (o & Ho & Hr & Hc & Hp & _); [lia|].
  exists o. split; [exact Ho|]. split; [exact Hr|]. rewrite Hp. cbn. lra.
Qed.

(** C02: padding never changes the flux. *)
Theorem C02_enlarge_flux :
  forall (a o : img) (p q : Z), (0 < q)%Z ->
  enlargeSupport a p q = Ok o -> img_sum o = img_sum a.
Proof. exact enlarge_sum. Qed.
Print Assumptions C02_enlarge_flux.

(** C02: round trip for an integer factor when (n-1)*side is even. *)
Theorem C02_crop_enlarge :
  forall (a o : img) (n : Z), (1 <= n)%Z ->
  enlargeSupport a n 1 = Ok o ->
  Z.even ((n - 1) * Z.of_nat (rows a)) = true ->
  Z.even ((n - 1) * Z.of_nat (cols a)) = true ->
  img_eq (cropSupport o n 1) a.
Proof. exact crop_enlarge_id. Qed.
Print Assumptions C02_crop_enlarge.

(** C02: otherwise one row is lost: the round trip fails for every image. *)
Theorem C02_crop_enlarge_odd_refuted :
  forall (a o : img) (n : Z), (1 <= n)%Z ->
  enlargeSupport a n 1 = Ok o ->
  Z.even ((n - 1) * Z.of_nat (rows a)) = false ->
  Z.of_nat (rows (cropSupport o n 1)) = (Z.of_nat (rows a) - 1)%Z
  /\ ~ img_eq (cropSupport o n 1) a.
Proof.
  intros a o n Hn He Hodd. assert (E := crop_enlarge_short a o n Hn He Hodd).
  split; [exact E|]. intros (Hr & _). rewrite Hr in E. lia.
Qed.
Print Assumptions C02_crop_enlarge_odd_refuted.

(** Enlarging by a factor >= 1 never fails (so the hypotheses above are met). *)
Theorem C02_enlarge_defined :
  forall (a : img) (p q : Z), (0 < q)%Z -> (q <= p)%Z -> exists o, enlargeSupport a p q = Ok o.
Proof.
  intros a p q Hq Hp. destruct (enlarge_ok a p q Hq Hp) as (r & c & _ & _ & E). eauto.
Qed.

Example C02_nonvacuous :
  Z.even ((2 - 1) * Z.of_nat 4) = true /\ Z.even ((2 - 1) * Z.of_nat 5) = false
  /\ Z.even ((3 - 1) * Z.of_nat 5) = true.
Proof. repeat split. Qed.

(** C03: normalising then un-normalising restores the image, for every normType. *)
Theorem C03_roundtrip :
  forall (a : img) (t : R) (b : img) (p : nparam),
  normalizeImage a t = Ok (b, p) ->
  exists c, unnormalizeImage b t p = Ok c /\ img_eq c a.
Proof. exact normalize_roundtrip. Qed.
Print Assumptions C03_roundtrip.

Theorem C03_sum_one :
  forall (a b : img) (p : nparam), normalizeImage a 1 = Ok (b, p) -> img_sum b = 1.
Proof. exact normalize1_sum. Qed.
Print Assumptions C03_sum_one.

Theorem C03_minmax :
  forall (a b : img) (p : nparam), normalizeImage a 2 = Ok (b, p) ->
  (forall i j, (i < rows b)%nat -> (j < cols b)%nat -> 0 <= px b i j <= 1) /\
  ((exists i j k l, (i < rows a)%nat /\ (j < cols a)%nat /\ (k < rows a)%nat /\ (l < cols a)%nat
                /\ px a i j <> px a k l) ->
   (exists i j, (i < rows b)%nat /\ (j < cols b)%nat /\ px b i j = 0) /\
   (exists i j, (i < rows b)%nat /\ (j < cols b)%nat /\ px b i j = 1)).
Proof. exact normalize2_range. Qed.
Print Assumptions C03_minmax.

Example C03_nonvacuous :
  exists b, normalizeImage (mkImg 2 2 (fun i j => INR (i + 2 * j))) 1 = Ok (b, PScalar 6).
Proof.
  destruct (normalize1_defined (mkImg 2 2 (fun i j => INR (i + 2 * j)))) as (b & Hb).
  - unfold img_sum; cbn. lra.
  - exists b. rewrite Hb. do 3 f_equal. unfold img_sum; cbn; lra.
Qed.

(** C10: the ensquared-energy curve for a peak far enough from the low border. *)
Theorem C10_ensquared_energy :
  forall (a : img) (y0 x0 : nat) (l : list R),
  is_peak a y0 x0 ->
  (forall i j, (i < rows a)%nat -> (j < cols a)%nat -> 0 <= px a i j) ->
  getEnsquaredEnergy a = Ok l ->
  let nEE := Nat.min (rows a - y0) (cols a - x0) in
  (nEE <= y0)%nat -> (nEE <= x0)%nat ->
  length l = (nEE + 1)%nat /\
  (forall n, (n <= nEE)%nat -> nth n l 0 = energy_in_square a y0 x0 n / img_sum a) /\
  (forall n, (n <= nEE)%nat -> 0 <= nth n l 0 <= 1) /\
  (forall n m, (n <= m <= nEE)%nat -> nth n l 0 <= nth m l 0).
Proof. exact ee_centred. Qed.
Print Assumptions C10_ensquared_energy.

(** For an even square PSF peaking at the centre pixel the curve ends at one. *)
Theorem C10_even_reaches_one :
  forall (a : img) (h : nat) (l : list R),
  rows a = (2 * h)%nat -> cols a = (2 * h)%nat -> is_peak a h h ->
  (forall i j, (i < rows a)%nat -> (j < cols a)%nat -> 0 <= px a i j) ->
  getEnsquaredEnergy a = Ok l ->
  length l = (h + 1)%nat /\ nth h l 0 = 1.
Proof. exact ee_even_total. Qed.
Print Assumptions C10_even_reaches_one.

(** Refuted for odd squares: every positive odd-sized centred PSF has a curve
    that reaches one and then drops at its last point. *)
Theorem C10_odd_refuted :
  forall (a : img) (h : nat),
  rows a = (2 * h + 1)%nat -> cols a = (2 * h + 1)%nat -> is_peak a h h ->
  (forall i j, (i < rows a)%nat -> (j < cols a)%nat -> 0 < px a i j) ->
  (0 < h)%nat ->
  exists l, getEnsquaredEnergy a = Ok l /\ length l = (h + 2)%nat /\
    nth h l 0 = 1 /\ nth (h + 1) l 0 < 1.
Proof. exact ee_odd_breaks. Qed.
Print Assumptions C10_odd_refuted.

(** Refuted off-centre: a peak in the upper half gives a zero energy. *)
Theorem C10_offcentre_refuted :
  forall (a : img) (y0 x0 : nat),
  is_peak a y0 x0 ->
  (forall i j, (i < rows a)%nat -> (j < cols a)%nat -> 0 < px a i j) ->
  (2 * y0 + 3 <= rows a)%nat -> (y0 + 1 <= cols a - x0)%nat ->
  exists l, getEnsquaredEnergy a = Ok l /\ nth (y0 + 1) l 0 = 0 /\ 0 < nth 0 l 0.
Proof. exact ee_offcentre_zero. Qed.
Print Assumptions C10_offcentre_refuted.

(** Concrete PSFs meeting the hypotheses: peak 2 on a pedestal of 1. *)
Definition pedestal (n y0 x0 : nat) : img :=
  mkImg n n (fun i j => if ((i =? y0) && (j =? x0))%nat%bool then 2 else 1).
Example C10_nonvacuous :
  is_peak (pedestal 6 3 3) 3 3 /\ is_peak (pedestal 5 2 2) 2 2 /\ is_peak (pedestal 7 1 3) 1 3.
Proof.
  assert (H : forall n y0 x0, (y0 < n)%nat -> (x0 < n)%nat -> is_peak (pedestal n y0 x0) y0 x0).
  { intros n y0 x0 Hy Hx. unfold is_peak, pedestal; cbn [rows cols px].
    rewrite !Nat.eqb_refl. cbn [andb]. repeat split; try assumption.
    - intros i j _ _. destruct ((i =? y0)%nat && (j =? x0)%nat)%bool; lra.
    - intros i j _ _ Hb. destruct (Nat.eqb_spec i y0), (Nat.eqb_spec j x0); cbn [andb]; try lra; lia. }
  repeat split; apply H; lia.
Qed.

Print Assumptions C01_zero_factor.
Print Assumptions C02_enlarge_defined.
