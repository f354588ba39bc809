(** Property C69: tiles, mosaic and extraction of sub-images. *)
From Coq Require Import Reals List Arith ZArith Bool Lia Lra Psatz.
From Flocq Require Import Core.Raux.
From Verif Require Import Base_Py Base_Sum M_Image L_Image2 M_Tools M_Model2 M_Atmo L_Atmo M_Fit L_Fit M_Grid.
Import ListNotations.
Open Scope R_scope.

(** ** Slices inside the image *)
Lemma slice_inside im y1 y2 x1 x2 : (y1 <= y2 <= rows im)%nat -> (x1 <= x2 <= cols im)%nat ->
  let s := img_slice im (Z.of_nat y1) (Z.of_nat y2) (Z.of_nat x1) (Z.of_nat x2) in
  rows s = (y2 - y1)%nat /\ cols s = (x2 - x1)%nat /\ forall i j, px s i j = px im (y1 + i) (x1 + j).
Proof.
  intros Hy Hx. cbv zeta. unfold img_slice. cbn [rows cols px]. rewrite !slice_len_in by lia. rewrite !slice_bound_in by lia. split; [lia|]. split; [lia|]. intros i j. f_equal; lia.
Qed.
Lemma fill_same r c a : rows a = r -> cols a = c -> exists b, fill_slot r c a = Ok b /\ rows b = r /\ cols b = c /\ forall i j, (i < r)%nat -> (j < c)%nat -> px b i j = px a i j.
Proof.
  intros Hr Hc. unfold fill_slot. rewrite Hr, Hc, !Nat.eqb_refl. cbn [orb andb]. eexists. split; [reflexivity|]. cbn [rows cols px]. split; [reflexivity|]. split; [reflexivity|]. intros i j Hi Hj.
  destruct (Nat.eqb_spec r 1), (Nat.eqb_spec c 1); f_equal; lia.
Qed.
Lemma mapM_all {A B} (f : A -> result B) (Q : A -> B -> Prop) l : (forall a, In a l -> exists b, f a = Ok b /\ Q a b) -> exists r, mapM f l = Ok r /\ Forall2 Q l r.
Proof.
  induction l as [|a l IH]; intros H; [exists []; split; [reflexivity|constructor]|]. destruct (H a (or_introl eq_refl)) as (b & E & Hb). destruct IH as (r & Er & Hr); [intros; apply H; now right|].
  exists (b :: r). cbn. rewrite E, Er. split; [reflexivity|]. now constructor.
Qed.
Lemma nth_error_list_prod {A B} (l : list A) (m : list B) : forall y x a b, nth_error l y = Some a -> nth_error m x = Some b -> nth_error (list_prod l m) (y * length m + x) = Some (a, b).
Proof.
  induction l as [|c l IH]; intros [|y] x a b Ha Hb; try discriminate; cbn [list_prod].
  - injection Ha as ->. cbn. rewrite nth_error_app1 by (rewrite map_length; apply nth_error_Some; congruence). rewrite nth_error_map, Hb. reflexivity.
  - cbn in Ha. rewrite nth_error_app2 by (rewrite map_length; cbn; lia). rewrite map_length. replace (S y * length m + x - length m)%nat with (y * length m + x)%nat by (cbn; lia). now apply IH.
Qed.
Lemma nth_error_seq' n k : (k < n)%nat -> nth_error (seq 0 n) k = Some k.
Proof. intros H. rewrite nth_error_nth' with (d := 0%nat) by (now rewrite seq_length). now rewrite seq_nth. Qed.

(** ** Tiles *)
(** tile (y, x) of n x n tiles *)
Definition is_tile (im : img) (n y x : nat) (t : img) : Prop :=
  rows t = (rows im / n)%nat /\ cols t = (cols im / n)%nat /\
  forall i j, (i < rows im / n)%nat -> (j < cols im / n)%nat -> px t i j = px im (y * (rows im / n) + i) (x * (cols im / n) + j).
Theorem C69_tiles : forall im n, n <> 0%nat -> exists tiles centers, segment_image_in_tiles im n = Ok (tiles, centers) /\
  length tiles = (n * n)%nat /\ length centers = (n * n)%nat /\
  forall y x, (y < n)%nat -> (x < n)%nat -> exists t, nth_error tiles (y * n + x) = Some t /\ is_tile im n y x t /\
    nth_error centers (y * n + x) = Some (y * (rows im / n) + rows im / n / 2, x * (cols im / n) + cols im / n / 2)%nat.
Proof.
  intros im n Hn. unfold segment_image_in_tiles. destruct (Nat.eqb_spec n 0); [contradiction|]. cbv zeta.
  match goal with |- context [mapM ?f ?l] => destruct (mapM_all f (fun p q => is_tile im n (fst p) (snd p) (fst q) /\ snd q = (fst p * (rows im / n) + rows im / n / 2, snd p * (cols im / n) + cols im / n / 2)%nat) l) as (r & Er & Hr) end.
  { intros [y x] Hp. apply in_prod_iff in Hp. destruct Hp as [Hy Hx]. apply in_seq in Hy, Hx. cbn [fst snd].
    assert (MY : ((y + 1) * (rows im / n) <= rows im)%nat). { pose proof (Nat.mul_div_le (rows im) n Hn). assert ((y + 1) * (rows im / n) <= n * (rows im / n))%nat by (apply Nat.mul_le_mono_r; lia). lia. }
    assert (MX : ((x + 1) * (cols im / n) <= cols im)%nat). { pose proof (Nat.mul_div_le (cols im) n Hn). assert ((x + 1) * (cols im / n) <= n * (cols im / n))%nat by (apply Nat.mul_le_mono_r; lia). lia. }
    rewrite !Nat.min_l by lia.
    destruct (slice_inside im (y * (rows im / n)) ((y + 1) * (rows im / n)) (x * (cols im / n)) ((x + 1) * (cols im / n))) as (S1 & S2 & S3); [nia|nia|].
    destruct (fill_same (rows im / n) (cols im / n) _ ltac:(rewrite S1; nia) ltac:(rewrite S2; nia)) as (b & E & B1 & B2 & B3). rewrite E. cbn [bind]. eexists. split; [reflexivity|]. cbn [fst snd].
    split; [split; [exact B1|split; [exact B2|]]; intros i j Hi Hj; rewrite B3, S3 by assumption; reflexivity|]. f_equal; f_equal; f_equal; nia. }
  rewrite Er. cbn [bind]. do 2 eexists. split; [reflexivity|]. pose proof (F2_length _ _ _ Hr) as Ln. rewrite prod_length, !seq_length in Ln. rewrite !map_length.
  split; [lia|]. split; [lia|]. intros y x Hy Hx.
  assert (Hp : nth_error (list_prod (seq 0 n) (seq 0 n)) (y * n + x) = Some (y, x)).
  { pose proof (nth_error_list_prod (seq 0 n) (seq 0 n) y x y x (nth_error_seq' n y Hy) (nth_error_seq' n x Hx)) as Q. now rewrite seq_length in Q. }
  destruct (F2_nth _ _ _ Hr _ _ Hp) as (q & Hq & T & Cq). exists (fst q). rewrite !nth_error_map, Hq. cbn. split; [reflexivity|]. split; [exact T|]. now rewrite Cq.
Qed.
Print Assumptions C69_tiles.
(** each pixel of the tiled part of the image is in exactly one tile, at one place *)
Theorem C69_partition : forall im n tiles centers u v, n <> 0%nat -> segment_image_in_tiles im n = Ok (tiles, centers) ->
  (u < n * (rows im / n))%nat -> (v < n * (cols im / n))%nat ->
  exists! p, let '(y, x, i, j) := p in (y < n)%nat /\ (x < n)%nat /\ (i < rows im / n)%nat /\ (j < cols im / n)%nat /\ u = (y * (rows im / n) + i)%nat /\ v = (x * (cols im / n) + j)%nat /\
    (exists t, nth_error tiles (y * n + x) = Some t /\ px t i j = px im u v).
Proof.
  intros im n tiles centers u v Hn H Hu Hv. destruct (C69_tiles im n Hn) as (t' & c' & H' & _ & _ & T). rewrite H in H'. apply Ok_inj in H'. injection H' as <- <-. unfold is_tile in T.
  set (a := (rows im / n)%nat) in *. set (b := (cols im / n)%nat) in *. assert (a <> 0)%nat by nia. assert (b <> 0)%nat by nia.
  exists (u / a, v / b, u mod a, v mod b)%nat. split.
  - split; [apply Nat.div_lt_upper_bound; lia|]. split; [apply Nat.div_lt_upper_bound; lia|]. split; [now apply Nat.mod_upper_bound|]. split; [now apply Nat.mod_upper_bound|].
    pose proof (Nat.div_mod u a ltac:(assumption)) as Du. pose proof (Nat.div_mod v b ltac:(assumption)) as Dv. split; [lia|]. split; [lia|].
    destruct (T (u / a)%nat (v / b)%nat) as (t & Et & (_ & _ & T3) & _); [apply Nat.div_lt_upper_bound; lia|apply Nat.div_lt_upper_bound; lia|]. exists t. split; [exact Et|].
    rewrite T3 by (now apply Nat.mod_upper_bound). f_equal; lia.
  - intros [[[y x] i] j] (Hy & Hx & Hi & Hj & -> & -> & _).
    assert (D1 : ((y * a + i) / a = y)%nat) by (rewrite Nat.add_comm, Nat.div_add by assumption; rewrite Nat.div_small by assumption; lia).
    assert (D2 : ((x * b + j) / b = x)%nat) by (rewrite Nat.add_comm, Nat.div_add by assumption; rewrite Nat.div_small by assumption; lia).
    assert (M1 : ((y * a + i) mod a = i)%nat) by (rewrite Nat.add_comm, Nat.mod_add by assumption; now apply Nat.mod_small).
    assert (M2 : ((x * b + j) mod b = j)%nat) by (rewrite Nat.add_comm, Nat.mod_add by assumption; now apply Nat.mod_small).
    rewrite D1, D2, M1, M2. reflexivity.
Qed.
Lemma lsum_F2 {A} (f : A -> R) l : lsum (map f l) = rsum (length l) (fun k => match nth_error l k with Some a => f a | None => 0 end).
Proof.
  induction l as [|a l IH]; [reflexivity|]. cbn [map length]. rewrite rsum_S_l. cbn [nth_error]. change (lsum (f a :: map f l)) with (f a + lsum (map f l)). now rewrite IH.
Qed.
(** the tiles keep the flux of an image whose sides are multiples of n *)
Theorem C69_flux : forall im n tiles centers, n <> 0%nat -> segment_image_in_tiles im n = Ok (tiles, centers) -> (rows im mod n = 0)%nat -> (cols im mod n = 0)%nat ->
  lsum (map img_sum tiles) = img_sum im.
Proof.
  intros im n tiles centers Hn H Mr Mc. destruct (C69_tiles im n Hn) as (t' & c' & H' & Lt & _ & T). rewrite H in H'. apply Ok_inj in H'. injection H' as <- <-.
  rewrite lsum_F2, Lt. rewrite rsum_blocks.
  set (a := (rows im / n)%nat) in *. set (b := (cols im / n)%nat) in *.
  assert (Ra : rows im = (n * a)%nat) by (pose proof (Nat.div_mod (rows im) n Hn); unfold a; lia). assert (Cb : cols im = (n * b)%nat) by (pose proof (Nat.div_mod (cols im) n Hn); unfold b; lia).
  unfold is_tile in T. fold a b in T. clearbody a b.
  transitivity (rsum n (fun y => rsum n (fun x => rsum a (fun i => rsum b (fun j => px im (y * a + i) (x * b + j)))))).
  - apply rsum_ext. intros y Hy. apply rsum_ext. intros x Hx. destruct (T y x Hy Hx) as (t & Et & (T1 & T2 & T3) & _). rewrite Et. unfold img_sum. rewrite T1, T2. apply rsum_ext. intros i Hi. apply rsum_ext. intros j Hj. apply T3; assumption.
  - unfold img_sum. rewrite Ra, Cb. rewrite rsum_blocks. apply rsum_ext. intros y Hy. rewrite rsum_swap. apply rsum_ext. intros i Hi. rewrite rsum_blocks. reflexivity.
Qed.
Print Assumptions C69_flux.

(** ** Mosaic *)
Lemma flat_map_nth {A B} (f : A -> list B) (L : nat) (d : B) : forall l k m a, (forall x, In x l -> length (f x) = L) -> nth_error l k = Some a -> (m < L)%nat -> nth (k * L + m) (flat_map f l) d = nth m (f a) d.
Proof.
  induction l as [|x l IH]; intros [|k] m a H E Hm; try discriminate; cbn [flat_map].
  - injection E as ->. cbn. apply app_nth1. rewrite H by now left. exact Hm.
  - cbn in E. rewrite app_nth2 by (rewrite H by (now left); cbn; lia). rewrite H by now left. replace (S k * L + m - L)%nat with (k * L + m)%nat by (cbn; lia). apply IH; [intros; apply H; now right|exact E|exact Hm].
Qed.
Lemma sqrt_square (n : nat) : Z.to_nat (Ztrunc (sqrt (INR (n * n)))) = n.
Proof. rewrite mult_INR, sqrt_square by apply pos_INR. rewrite INR_IZR_INZ, Ztrunc_IZR. apply Nat2Z.id. Qed.
(** n x n PSFs of p x p pixels, placed row by row *)
Theorem C69_mosaic : forall cube n p, length cube = (n * n)%nat -> n <> 0%nat -> (forall a, In a cube -> rows a = p /\ cols a = p) ->
  exists m, psf_cube_to_image cube = Ok m /\ rows m = (n * p)%nat /\ cols m = (n * p)%nat /\
  forall y x i j a, (y < n)%nat -> (x < n)%nat -> (i < p)%nat -> (j < p)%nat -> nth_error cube (y * n + x) = Some a -> px m (y * p + i) (x * p + j) = px a i j.
Proof.
  intros cube n p L Hn S. destruct cube as [|a0 cube]; [cbn in L; nia|]. cbn [psf_cube_to_image]. set (c := a0 :: cube) in *. rewrite L, sqrt_square. destruct (S a0 (or_introl eq_refl)) as [R0 C0]. rewrite R0, C0, Nat.eqb_refl.
  eexists. split; [reflexivity|]. cbn [rows cols px]. split; [reflexivity|]. split; [reflexivity|]. intros y x i j a Hy Hx Hi Hj E. assert (P : p <> 0%nat) by lia.
  assert (D1 : ((y * p + i) / p = y)%nat) by (rewrite Nat.add_comm, Nat.div_add by assumption; rewrite Nat.div_small by assumption; lia).
  assert (D2 : ((x * p + j) / p = x)%nat) by (rewrite Nat.add_comm, Nat.div_add by assumption; rewrite Nat.div_small by assumption; lia).
  assert (M1 : ((y * p + i) mod p = i)%nat) by (rewrite Nat.add_comm, Nat.mod_add by assumption; now apply Nat.mod_small).
  assert (M2 : ((x * p + j) mod p = j)%nat) by (rewrite Nat.add_comm, Nat.mod_add by assumption; now apply Nat.mod_small).
  rewrite D1, D2, M1, M2. replace ((((y * n + x) * p + i) * p + j))%nat with ((y * n + x) * (p * p) + (i * p + j))%nat by ring.
  assert (IN : In a c) by (eapply nth_error_In; exact E). destruct (S a IN) as [Ra Ca].
  rewrite (flat_map_nth pixels (p * p) 0 c (y * n + x) (i * p + j) a); [|intros b Hb; destruct (S b Hb); rewrite pixels_length; congruence|exact E|nia].
  apply nth_error_nth. rewrite <- Ca. apply pixels_nth; lia.
Qed.
Print Assumptions C69_mosaic.
(** a square image cut in tiles is rebuilt by the mosaic *)
Theorem C69_roundtrip : forall im n, n <> 0%nat -> rows im = cols im -> (rows im mod n = 0)%nat ->
  exists tiles centers m, segment_image_in_tiles im n = Ok (tiles, centers) /\ psf_cube_to_image tiles = Ok m /\ rows m = rows im /\ cols m = cols im /\
  forall u v, (u < rows im)%nat -> (v < cols im)%nat -> px m u v = px im u v.
Proof.
  intros im n Hn Sq M. destruct (C69_tiles im n Hn) as (tiles & centers & H & Lt & _ & T). set (p := (rows im / n)%nat).
  assert (Cp : (cols im / n)%nat = p) by (unfold p; now rewrite Sq). assert (Rp : rows im = (n * p)%nat) by (pose proof (Nat.div_mod (rows im) n Hn); unfold p; lia).
  assert (AT : forall a, In a tiles -> rows a = p /\ cols a = p).
  { intros a Ha. apply In_nth_error in Ha. destruct Ha as [k Hk]. assert (K : (k < n * n)%nat) by (rewrite <- Lt; apply nth_error_Some; congruence).
    destruct (T (k / n)%nat (k mod n)%nat) as (t & Et & (T1 & T2 & _) & _); [apply Nat.div_lt_upper_bound; lia|now apply Nat.mod_upper_bound|]. replace (k / n * n + k mod n)%nat with k in Et by (pose proof (Nat.div_mod k n Hn); lia). rewrite Hk in Et. injection Et as ->. now rewrite T1, T2, Cp. }
  destruct (C69_mosaic tiles n p Lt Hn AT) as (m & Hm & M1 & M2 & M3). exists tiles, centers, m. split; [exact H|]. split; [exact Hm|]. split; [lia|]. split; [lia|]. intros u v Hu Hv.
  assert (P : p <> 0%nat) by nia. assert (Hy : (u / p < n)%nat) by (apply Nat.div_lt_upper_bound; lia). assert (Hx : (v / p < n)%nat) by (apply Nat.div_lt_upper_bound; lia).
  assert (Hi : (u mod p < p)%nat) by now apply Nat.mod_upper_bound. assert (Hj : (v mod p < p)%nat) by now apply Nat.mod_upper_bound.
  destruct (T _ _ Hy Hx) as (t & Et & (_ & _ & T3) & _). fold p in T3. rewrite Cp in T3. specialize (M3 _ _ _ _ t Hy Hx Hi Hj Et). rewrite T3 in M3 by assumption.
  replace (u / p * p + u mod p)%nat with u in M3 by (pose proof (Nat.div_mod u p P); lia). replace (v / p * p + v mod p)%nat with v in M3 by (pose proof (Nat.div_mod v p P); lia). exact M3.
Qed.
Print Assumptions C69_roundtrip.
(** square PSFs whose number is not a square are refused *)
Theorem C69_mosaic_refused : forall cube p, (forall n, length cube <> n * n)%nat -> p <> 0%nat -> (forall a, In a cube -> rows a = p /\ cols a = p) -> psf_cube_to_image cube = Err ValueError.
Proof.
  intros [|a0 cube] p N P S; [exfalso; apply (N 0%nat); reflexivity|]. cbn [psf_cube_to_image]. set (c := a0 :: cube) in *. destruct (S a0 (or_introl eq_refl)) as [-> ->].
  match goal with |- context [Nat.eqb ?x ?y] => destruct (Nat.eqb_spec x y) as [E|_]; [|reflexivity] end. exfalso. eapply N. eapply Nat.mul_cancel_r; [|exact E]. nia.
Qed.

(** ** Extraction *)
(** the window of nPx pixels around a star that is at least half a window away from the
    edges: row i of the window is row floor(y0 - nPx/2) + i of the image *)
Theorem C69_extraction : forall im nPx y0 x0, nPx <> 0%nat -> INR nPx / 2 <= y0 -> y0 + INR nPx / 2 <= INR (rows im) -> INR nPx / 2 <= x0 -> x0 + INR nPx / 2 <= INR (cols im) ->
  exists w, extract_one im nPx y0 x0 = Ok w /\ rows w = nPx /\ cols w = nPx /\
  exists a b : nat, INR a <= y0 - INR nPx / 2 < INR a + 1 /\ INR b <= x0 - INR nPx / 2 < INR b + 1 /\
  forall i j, (i < nPx)%nat -> (j < nPx)%nat -> px w i j = px im (a + i) (b + j).
Proof.
  intros im n y0 x0 Hn Y1 Y2 X1 X2.
  assert (Q : forall z N, INR n / 2 <= z -> z + INR n / 2 <= INR N -> exists a : nat, Ztrunc (z - INR n / 2) = Z.of_nat a /\ Ztrunc (z + INR n / 2) = Z.of_nat (a + n) /\ (a + n <= N)%nat /\ INR a <= z - INR n / 2 < INR a + 1).
  { intros z N H1 H2. pose proof (pos_INR n). rewrite !Ztrunc_floor by lra. set (f := Zfloor (z - INR n / 2)). assert (F0 : (0 <= f)%Z) by (apply Zfloor_lub; cbn; lra).
    assert (F1 : IZR f <= z - INR n / 2) by apply Zfloor_lb. assert (F2 : z - INR n / 2 < IZR f + 1) by apply Zfloor_ub.
    exists (Z.to_nat f). rewrite Nat2Z.inj_add, Z2Nat.id by exact F0. split; [reflexivity|].
    assert (E : Zfloor (z + INR n / 2) = (f + Z.of_nat n)%Z). { apply Zfloor_imp. rewrite !plus_IZR, <- INR_IZR_INZ. lra. }
    split; [exact E|]. assert (I : INR (Z.to_nat f) = IZR f) by (rewrite INR_IZR_INZ, Z2Nat.id by exact F0; reflexivity). split; [|rewrite I; lra].
    apply INR_le. rewrite plus_INR, I. lra. }
  destruct (Q y0 (rows im) Y1 Y2) as (a & A1 & A2 & A3 & A4). destruct (Q x0 (cols im) X1 X2) as (b & B1 & B2 & B3 & B4).
  unfold extract_one. rewrite A1, A2, B1, B2.
  destruct (slice_inside im a (a + n) b (b + n)) as (S1 & S2 & S3); [lia|lia|].
  destruct (fill_same n n _ ltac:(rewrite S1; lia) ltac:(rewrite S2; lia)) as (w & E & W1 & W2 & W3). exists w. split; [exact E|]. split; [exact W1|]. split; [exact W2|].
  exists a, b. split; [exact A4|]. split; [exact B4|]. intros i j Hi Hj. now rewrite W3, S3.
Qed.
Print Assumptions C69_extraction.
(** the sub-images are those of the stars, in order *)
Theorem C69_extraction_all : forall im coo nPx xon yon l, extract_multiple_psf im coo nPx xon yon = Ok l -> Forall2 (fun c w => extract_one im nPx (fst c + yon) (snd c + xon) = Ok w /\ rows w = nPx /\ cols w = nPx) coo l.
Proof.
  intros im coo nPx xon yon. unfold extract_multiple_psf. induction coo as [|c coo IH]; intros l H; [apply Ok_inj in H; subst; constructor|]. cbn [mapM] in H.
  destruct (extract_one im nPx (fst c + yon) (snd c + xon)) as [w|] eqn:E; [|discriminate]. cbn [bind] in H. destruct (mapM _ coo) as [r|] eqn:Er; [|discriminate]. cbn [bind] in H. apply Ok_inj in H. subst l. constructor; [|now apply IH].
  split; [exact E|]. unfold extract_one, fill_slot in E. match type of E with (if ?b then _ else _) = _ => destruct b; [|discriminate] end. apply Ok_inj in E. subst w. split; reflexivity.
Qed.
(** a star whose window leaves the image is refused, unless one single row (or column) of
    it is inside. Finding: then that row is repeated over the whole sub-image. *)
Theorem C69_edge_repeated_refuted : forall im nPx y0 x0, (2 <= nPx)%nat -> INR nPx / 2 <= x0 -> x0 + INR nPx / 2 <= INR (cols im) ->
  (1 <= rows im)%nat -> INR (rows im) - 1 + INR nPx / 2 <= y0 < INR (rows im) + INR nPx / 2 ->
  exists w, extract_one im nPx y0 x0 = Ok w /\ forall i i' j, px w i j = px w i' j.
Proof.
  intros im n y0 x0 Hn X1 X2 R1 Y. pose proof (pos_INR n). assert (2 <= INR n) by (apply le_INR in Hn; cbn in Hn; lra). assert (1 <= INR (rows im)) by (apply le_INR in R1; exact R1).
  assert (A1 : Ztrunc (y0 - INR n / 2) = (Z.of_nat (rows im) - 1)%Z). { rewrite Ztrunc_floor by lra. apply Zfloor_imp. rewrite !plus_IZR, minus_IZR, <- INR_IZR_INZ. lra. }
  assert (A2 : (Z.of_nat (rows im) <= Ztrunc (y0 + INR n / 2))%Z). { rewrite Ztrunc_floor by lra. apply Zfloor_lub. rewrite <- INR_IZR_INZ. lra. }
  assert (XQ : exists b : nat, Ztrunc (x0 - INR n / 2) = Z.of_nat b /\ Ztrunc (x0 + INR n / 2) = Z.of_nat (b + n) /\ (b + n <= cols im)%nat).
  { rewrite !Ztrunc_floor by lra. set (f := Zfloor (x0 - INR n / 2)). assert (F0 : (0 <= f)%Z) by (apply Zfloor_lub; cbn; lra).
    assert (F1 : IZR f <= x0 - INR n / 2) by apply Zfloor_lb. assert (F2 : x0 - INR n / 2 < IZR f + 1) by apply Zfloor_ub.
    exists (Z.to_nat f). rewrite Nat2Z.inj_add, Z2Nat.id by exact F0. split; [reflexivity|]. split; [apply Zfloor_imp; rewrite !plus_IZR, <- INR_IZR_INZ; lra|].
    apply INR_le. rewrite plus_INR, INR_IZR_INZ, Z2Nat.id by exact F0. lra. }
  destruct XQ as (b & B1 & B2 & B3). unfold extract_one. rewrite A1, B1, B2. unfold fill_slot, img_slice. cbn [rows cols px].
  rewrite (slice_len_in (Z.of_nat (cols im))) by lia.
  assert (L : slice_len (Z.of_nat (rows im)) (Z.of_nat (rows im) - 1) (Ztrunc (y0 + INR n / 2)) = 1%Z) by (unfold slice_len, slice_bound; destruct (Z.ltb_spec (Ztrunc (y0 + INR n / 2)) 0); [lia|]; destruct (Z.ltb_spec (Z.of_nat (rows im) - 1) 0); lia).
  rewrite L. change (Z.to_nat 1) with 1%nat. cbn [Nat.eqb]. rewrite orb_true_r. replace (Z.to_nat (Z.of_nat (b + n) - Z.of_nat b)) with n by lia. rewrite Nat.eqb_refl. cbn [orb andb].
  eexists. split; [reflexivity|]. intros i i' j. reflexivity.
Qed.
Print Assumptions C69_edge_repeated_refuted.
(** refused: no axis of the visible part has the right length or length 1 *)
Theorem C69_outside_refused : forall im nPx y0 x0, (2 <= nPx)%nat -> INR nPx / 2 <= y0 -> INR (rows im) + 1 <= y0 + INR nPx / 2 -> y0 < INR (rows im) - 2 + INR nPx / 2 ->
  extract_one im nPx y0 x0 = Err ValueError.
Proof.
  intros im n y0 x0 Hn Y0 Y1 Y2. pose proof (pos_INR n). unfold extract_one, fill_slot, img_slice. cbn [rows cols px].
  assert (2 <= INR n) by (apply le_INR in Hn; cbn in Hn; lra). rewrite !(Ztrunc_floor (y0 - _)), !(Ztrunc_floor (y0 + _)) by lra.
  set (f := Zfloor (y0 - INR n / 2)). set (g := Zfloor (y0 + INR n / 2)). assert (F0 : (0 <= f)%Z) by (apply Zfloor_lub; cbn; lra).
  assert (F1 : IZR f <= y0 - INR n / 2) by apply Zfloor_lb. assert (F2 : y0 - INR n / 2 < IZR f + 1) by apply Zfloor_ub.
  assert (E : g = (f + Z.of_nat n)%Z) by (apply Zfloor_imp; rewrite !plus_IZR, <- INR_IZR_INZ; lra).
  assert (G : (Z.of_nat (rows im) + 1 <= g)%Z) by (apply Zfloor_lub; rewrite plus_IZR, <- INR_IZR_INZ; lra).
  assert (Fr : (f <= Z.of_nat (rows im) - 2)%Z) by (apply le_IZR; rewrite minus_IZR, <- INR_IZR_INZ; lra).
  assert (L : slice_len (Z.of_nat (rows im)) f g = (Z.of_nat (rows im) - f)%Z) by (unfold slice_len, slice_bound; destruct (Z.ltb_spec g 0); [lia|]; destruct (Z.ltb_spec f 0); lia).
  rewrite L. destruct (Nat.eqb_spec (Z.to_nat (Z.of_nat (rows im) - f)) n); [lia|]. destruct (Nat.eqb_spec (Z.to_nat (Z.of_nat (rows im) - f)) 1); [lia|]. reflexivity.
Qed.
Print Assumptions C69_outside_refused.
Example C69_ex : exists w, extract_one (mkImg 8 8 (fun i j => INR (8 * i + j))) 4 4 3 = Ok w /\ px w 0 0 = INR 17 /\ px w 2 2 = INR 35.
Proof.
  destruct (C69_extraction (mkImg 8 8 (fun i j => INR (8 * i + j))) 4 4 3) as (w & E & _ & _ & a & b & A & B & P); cbn [rows cols]; try (cbn; lra); [lia|]. exists w. split; [exact E|].
  assert (a = 2%nat). { cbn in A. assert (INR a < 3) by lra. assert (1 < INR a) by lra. assert (a < 3)%nat by (apply INR_lt; cbn; lra). assert (1 < a)%nat by (apply INR_lt; cbn; lra). lia. }
  assert (b = 1%nat). { cbn in B. assert (b < 2)%nat by (apply INR_lt; cbn; lra). assert (0 < b)%nat by (apply INR_lt; cbn; lra). lia. }
  subst a b. split; rewrite P by lia; reflexivity.
Qed.

Print Assumptions C69_partition.
Print Assumptions C69_mosaic_refused.
Print Assumptions C69_extraction_all.
