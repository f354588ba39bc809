(** Lemmas about normalisation, ensquared energy. *)
From Coq Require Import Reals List Arith ZArith Lia Lra Psatz.
From Coq Require Import ZifyBool ZifyNat.
From Verif Require Import Base_Py Base_Sum M_Image S_Image L_Image.
Import ListNotations.
Open Scope R_scope.

(** ** pixels *)
Lemma flat_map_const_nth {A} (f : nat -> list A) c n s i j :
  (forall i, length (f i) = c) -> (i < n)%nat -> (j < c)%nat ->
  nth_error (flat_map f (seq s n)) (i * c + j) = nth_error (f (s + i)%nat) j.
Proof.
  intros Hlen. revert s i. induction n as [|n IH]; intros s i Hi Hj; [lia|].
  cbn [seq flat_map]. destruct i as [|i].
  - rewrite nth_error_app1 by (rewrite Hlen; lia). f_equal. f_equal. lia.
  - rewrite nth_error_app2 by (rewrite Hlen; lia). rewrite Hlen.
    replace (S i * c + j - c)%nat with (i * c + j)%nat by lia.
    rewrite IH by lia. f_equal. f_equal. lia.
Qed.

Lemma flat_map_const_length {A} (f : nat -> list A) c n s :
  (forall i, length (f i) = c) -> length (flat_map f (seq s n)) = (n * c)%nat.
Proof.
  intros Hlen. revert s. induction n as [|n IH]; intros s; [reflexivity|].
  cbn [seq flat_map]. rewrite app_length, Hlen, IH. lia.
Qed.

Lemma pixels_length a : length (pixels a) = (rows a * cols a)%nat.
Proof.
  unfold pixels. apply flat_map_const_length. intros; rewrite map_length, seq_length; reflexivity.
Qed.

Lemma pixels_nth a i j :
  (i < rows a)%nat -> (j < cols a)%nat ->
  nth_error (pixels a) (i * cols a + j) = Some (px a i j).
Proof.
  intros Hi Hj. unfold pixels.
  rewrite flat_map_const_nth; [|intros; rewrite map_length, seq_length; reflexivity|assumption|assumption].
  rewrite nth_error_map.
  assert (E : nth_error (seq 0 (cols a)) j = Some j).
  { rewrite nth_error_nth' with (d := 0%nat) by (rewrite seq_length; lia).
    rewrite seq_nth by lia. reflexivity. }
  rewrite E. reflexivity.
Qed.

Lemma pixels_in a x :
  In x (pixels a) <-> exists i j, (i < rows a)%nat /\ (j < cols a)%nat /\ x = px a i j.
Proof.
  unfold pixels. rewrite in_flat_map. split.
  - intros (i & Hi & Hx). apply in_map_iff in Hx. destruct Hx as (j & Hj & Hin).
    apply in_seq in Hi. apply in_seq in Hin. exists i, j. repeat split; try lia. congruence.
  - intros (i & j & Hi & Hj & ->). exists i. split; [apply in_seq; lia|].
    apply in_map_iff. exists j. split; [reflexivity|apply in_seq; lia].
Qed.

(** ** min / max *)
Lemma fold_Rmin_spec l x :
  (forall y, In y (x :: l) -> fold_left Rmin l x <= y) /\ In (fold_left Rmin l x) (x :: l).
Proof.
  revert x. induction l as [|z l IH]; intros x; cbn [fold_left].
  - split; [intros y [<-|[]]; lra|left; reflexivity].
  - destruct (IH (Rmin x z)) as [Hle Hin]. split.
    + assert (H0 := Hle (Rmin x z) (or_introl eq_refl)).
      assert (Rmin x z <= x) by apply Rmin_l. assert (Rmin x z <= z) by apply Rmin_r.
      intros y [<-|[<-|Hy]]; [lra|lra|]. apply Hle. right; exact Hy.
    + destruct Hin as [E|Hin]; [|right; right; exact Hin].
      rewrite <- E. unfold Rmin. destruct (Rle_dec x z); [left; reflexivity|right; left; reflexivity].
Qed.

Lemma fold_Rmax_spec l x :
  (forall y, In y (x :: l) -> y <= fold_left Rmax l x) /\ In (fold_left Rmax l x) (x :: l).
Proof.
  revert x. induction l as [|z l IH]; intros x; cbn [fold_left].
  - split; [intros y [<-|[]]; lra|left; reflexivity].
  - destruct (IH (Rmax x z)) as [Hle Hin]. split.
    + assert (H0 := Hle (Rmax x z) (or_introl eq_refl)).
      assert (x <= Rmax x z) by apply Rmax_l. assert (z <= Rmax x z) by apply Rmax_r.
      intros y [<-|[<-|Hy]]; [lra|lra|]. apply Hle. right; exact Hy.
    + destruct Hin as [E|Hin]; [|right; right; exact Hin].
      rewrite <- E. unfold Rmax. destruct (Rle_dec x z); [right; left; reflexivity|left; reflexivity].
Qed.

Lemma list_min_spec l m : list_min l = Ok m -> (forall y, In y l -> m <= y) /\ In m l.
Proof.
  destruct l as [|x l]; cbn [list_min]; [discriminate|].
  intros H; apply Ok_inj in H; subst m. apply fold_Rmin_spec.
Qed.
Lemma list_max_spec l m : list_max l = Ok m -> (forall y, In y l -> y <= m) /\ In m l.
Proof.
  destruct l as [|x l]; cbn [list_max]; [discriminate|].
  intros H; apply Ok_inj in H; subst m. apply fold_Rmax_spec.
Qed.

Lemma img_min_spec a m : img_min a = Ok m ->
  (forall i j, (i < rows a)%nat -> (j < cols a)%nat -> m <= px a i j) /\
  (exists i j, (i < rows a)%nat /\ (j < cols a)%nat /\ px a i j = m).
Proof.
  intros H. apply list_min_spec in H. destruct H as [Hle Hin]. split.
  - intros i j Hi Hj. apply Hle. apply pixels_in. eauto.
  - apply pixels_in in Hin. destruct Hin as (i & j & Hi & Hj & E). exists i, j. auto.
Qed.
Lemma img_max_spec a m : img_max a = Ok m ->
  (forall i j, (i < rows a)%nat -> (j < cols a)%nat -> px a i j <= m) /\
  (exists i j, (i < rows a)%nat /\ (j < cols a)%nat /\ px a i j = m).
Proof.
  intros H. apply list_max_spec in H. destruct H as [Hle Hin]. split.
  - intros i j Hi Hj. apply Hle. apply pixels_in. eauto.
  - apply pixels_in in Hin. destruct Hin as (i & j & Hi & Hj & E). exists i, j. auto.
Qed.

Lemma img_sum_map_div a c : img_sum (img_map (fun v => v / c) a) = img_sum a / c.
Proof.
  unfold img_sum, img_map; cbn [rows cols px].
  rewrite <- rsum_div. apply rsum_ext; intros i Hi. apply rsum_div.
Qed.

Lemma img_div_inv a c b : img_div a c = Ok b -> c <> 0 /\ b = img_map (fun v => v / c) a.
Proof.
  unfold img_div. destruct (Req_EM_T c 0) as [E|E]; [discriminate|].
  intros H; apply Ok_inj in H. split; [exact E|congruence].
Qed.

Lemma mul_div_img a c : c <> 0 ->
  img_eq (img_map (fun x => x * c) (img_map (fun v => v / c) a)) a.
Proof.
  intros Hc. unfold img_eq, img_map; cbn [rows cols px]. repeat split.
  intros i j _ _. field. exact Hc.
Qed.

Lemma normalize_roundtrip a t b p :
  normalizeImage a t = Ok (b, p) ->
  exists c, unnormalizeImage b t p = Ok c /\ img_eq c a.
Proof.
  unfold normalizeImage, unnormalizeImage.
  destruct (Req_EM_T t 0) as [E0|E0].
  { intros H. apply Ok_inj in H. injection H as <- <-. exists a.
    split; [reflexivity|]. unfold img_eq; auto. }
  destruct (Req_EM_T t 1) as [E1|E1].
  { subst t. destruct (Req_EM_T 1 2) as [E|_]; [lra|].
    destruct (img_div a (img_sum a)) as [r|e] eqn:Ed; [|discriminate].
    intros H. cbn [bind] in H. apply Ok_inj in H. injection H as <- <-.
    apply img_div_inv in Ed. destruct Ed as [Hne ->].
    eexists. split; [reflexivity|]. apply mul_div_img; exact Hne. }
  destruct (Req_EM_T t 2) as [E2|E2].
  { destruct (img_min a) as [lo|e] eqn:Elo; [|discriminate].
    destruct (img_max a) as [hi|e] eqn:Ehi; [|discriminate]. cbn [bind].
    apply img_min_spec in Elo. apply img_max_spec in Ehi.
    destruct Elo as [Hlo _]. destruct Ehi as [Hhi _].
    destruct (Req_EM_T (hi - lo) 0) as [Es|Es];
      intros H; apply Ok_inj in H; injection H as <- <-;
      (eexists; split; [reflexivity|]);
      unfold img_eq, img_map; cbn [rows cols px]; repeat split; intros i j Hi Hj.
    - specialize (Hlo i j Hi Hj). specialize (Hhi i j Hi Hj). lra.
    - field. exact Es. }
  destruct (Req_EM_T t 3) as [E3|E3].
  { destruct (getFlux a) as [f|e]; [|discriminate]. cbn [bind].
    destruct (img_div a (Rabs f)) as [r|e] eqn:Ed; [|discriminate].
    intros H. cbn [bind] in H. apply Ok_inj in H. injection H as <- <-.
    apply img_div_inv in Ed. destruct Ed as [Hne ->].
    eexists. split; [reflexivity|]. apply mul_div_img; exact Hne. }
  destruct (Req_EM_T t 4) as [E4|E4].
  { destruct (img_div a _) as [r|e] eqn:Ed; [|discriminate].
    intros H. cbn [bind] in H. apply Ok_inj in H. injection H as <- <-.
    apply img_div_inv in Ed. destruct Ed as [Hne ->].
    eexists. split; [reflexivity|]. apply mul_div_img; exact Hne. }
  destruct (img_div a t) as [r|e] eqn:Ed; [|discriminate].
  intros H. cbn [bind] in H. apply Ok_inj in H. injection H as <- <-.
  apply img_div_inv in Ed. destruct Ed as [Hne ->].
  eexists. split; [reflexivity|]. apply mul_div_img; exact Hne.
Qed.

Lemma normalize1_sum a b p : normalizeImage a 1 = Ok (b, p) -> img_sum b = 1.
Proof.
  unfold normalizeImage. destruct (Req_EM_T 1 0) as [E|_]; [lra|].
  destruct (Req_EM_T 1 1) as [_|E]; [|lra].
  destruct (img_div a (img_sum a)) as [r|e] eqn:Ed; [|discriminate].
  intros H. cbn [bind] in H. apply Ok_inj in H. injection H as <- <-.
  apply img_div_inv in Ed. destruct Ed as [Hne ->].
  rewrite img_sum_map_div. field. exact Hne.
Qed.

Lemma normalize1_defined a : img_sum a <> 0 -> exists b, normalizeImage a 1 = Ok (b, PScalar (img_sum a)).
Proof.
  intros H. unfold normalizeImage. destruct (Req_EM_T 1 0) as [E|_]; [lra|].
  destruct (Req_EM_T 1 1) as [_|E]; [|lra].
  unfold img_div. destruct (Req_EM_T (img_sum a) 0) as [E|_]; [contradiction|].
  cbn [bind]. eexists. reflexivity.
Qed.

Lemma normalize2_range a b p :
  normalizeImage a 2 = Ok (b, p) ->
  (forall i j, (i < rows b)%nat -> (j < cols b)%nat -> 0 <= px b i j <= 1) /\
  ((exists i j k l, (i < rows a)%nat /\ (j < cols a)%nat /\ (k < rows a)%nat /\ (l < cols a)%nat
                /\ px a i j <> px a k l) ->
   (exists i j, (i < rows b)%nat /\ (j < cols b)%nat /\ px b i j = 0) /\
   (exists i j, (i < rows b)%nat /\ (j < cols b)%nat /\ px b i j = 1)).
Proof.
  unfold normalizeImage. destruct (Req_EM_T 2 0) as [E|_]; [lra|].
  destruct (Req_EM_T 2 1) as [E|_]; [lra|].
  destruct (Req_EM_T 2 2) as [_|E]; [|lra].
  destruct (img_min a) as [lo|e] eqn:Elo; [|discriminate].
  destruct (img_max a) as [hi|e] eqn:Ehi; [|discriminate]. cbn [bind].
  apply img_min_spec in Elo. apply img_max_spec in Ehi.
  destruct Elo as [Hlo (i0 & j0 & Hi0 & Hj0 & E0)].
  destruct Ehi as [Hhi (i1 & j1 & Hi1 & Hj1 & E1)].
  destruct (Req_EM_T (hi - lo) 0) as [Es|Es];
    intros H; apply Ok_inj in H; injection H as <- <-; cbn [rows cols px img_map].
  - split; [intros; lra|].
    intros (i & j & k & l & Hi & Hj & Hk & Hl & Hne). exfalso. apply Hne.
    assert (A := Hlo i j Hi Hj). assert (B := Hhi i j Hi Hj).
    assert (A' := Hlo k l Hk Hl). assert (B' := Hhi k l Hk Hl). lra.
  - assert (Hpos : 0 < hi - lo).
    { assert (A := Hlo i1 j1 Hi1 Hj1). rewrite E1 in A. lra. }
    split.
    + intros i j Hi Hj. assert (A := Hlo i j Hi Hj). assert (B := Hhi i j Hi Hj). split.
      * apply Rmult_le_pos; [lra|]. left. apply Rinv_0_lt_compat. exact Hpos.
      * apply Rmult_le_reg_r with (hi - lo); [exact Hpos|].
        unfold Rdiv. rewrite Rmult_assoc, Rinv_l by exact Es. lra.
    + intros _. split.
      * exists i0, j0. repeat split; try assumption. rewrite E0. field. exact Es.
      * exists i1, j1. repeat split; try assumption. rewrite E1. field. exact Es.
Qed.

(** ** argmax *)
Lemma argmax_list_spec l k m :
  argmax_list l = Some (k, m) ->
  nth_error l k = Some m /\
  (forall i x, nth_error l i = Some x -> x <= m) /\
  (forall i x, (i < k)%nat -> nth_error l i = Some x -> x < m).
Proof.
  revert k m. induction l as [|x l IH]; intros k m; cbn [argmax_list]; [discriminate|].
  destruct (argmax_list l) as [[k' m']|] eqn:E.
  - destruct (IH k' m' eq_refl) as (Hn & Hle & Hlt).
    destruct (Rle_dec m' x) as [Hx|Hx]; intros H; injection H as <- <-.
    + repeat split.
      * intros [|i] y Hy; cbn in Hy; [injection Hy as <-; lra|]. specialize (Hle i y Hy). lra.
      * intros i y Hi; lia.
    + repeat split.
      * exact Hn.
      * intros [|i] y Hy; cbn in Hy; [injection Hy as <-; lra|]. exact (Hle i y Hy).
      * intros [|i] y Hi Hy; cbn in Hy; [injection Hy as <-; lra|]. apply (Hlt i y); [lia|exact Hy].
  - destruct l as [|z l]; [|cbn in E; destruct (argmax_list l) as [[]|]; [destruct (Rle_dec _ _)|]; discriminate].
    intros H; injection H as <- <-. repeat split.
    + intros [|i] y Hy; cbn in Hy; [injection Hy as <-; lra|]. destruct i; discriminate.
    + intros i y Hi; lia.
Qed.

Lemma argmax_list_some l : l <> [] -> exists k m, argmax_list l = Some (k, m).
Proof.
  destruct l as [|x l]; [congruence|]. intros _. cbn.
  destruct (argmax_list l) as [[k m]|]; [destruct (Rle_dec m x)|]; eauto.
Qed.

Lemma argmax_list_unique l k m :
  nth_error l k = Some m ->
  (forall i x, nth_error l i = Some x -> x <= m) ->
  (forall i x, (i < k)%nat -> nth_error l i = Some x -> x < m) ->
  argmax_list l = Some (k, m).
Proof.
  intros Hn Hle Hlt.
  destruct (argmax_list_some l) as (k' & m' & E).
  { intros ->. destruct k; discriminate. }
  destruct (argmax_list_spec l k' m' E) as (Hn' & Hle' & Hlt').
  assert (m = m') by (apply Rle_antisym; [eapply Hle'; exact Hn|eapply Hle; exact Hn']).
  subst m'.
  destruct (Nat.lt_trichotomy k k') as [L|[->|L]]; [|exact E|].
  - specialize (Hlt' k m L Hn). lra.
  - specialize (Hlt k' m L Hn'). lra.
Qed.

(** ** ensquared energy *)
Lemma ee_raw_square a y0 x0 n :
  (y0 < rows a)%nat -> (x0 < cols a)%nat -> (n <= y0)%nat -> (n <= x0)%nat ->
  ee_raw a y0 x0 n = energy_in_square a y0 x0 n.
Proof.
  intros Hy Hx Hny Hnx. unfold ee_raw, energy_in_square, img_sum, slice2; cbn [rows cols px].
  set (ry := Z.to_nat (slice_len (Z.of_nat (rows a)) (Z.of_nat y0 - Z.of_nat n) (Z.of_nat y0 + Z.of_nat n + 1))).
  set (rx := Z.to_nat (slice_len (Z.of_nat (cols a)) (Z.of_nat x0 - Z.of_nat n) (Z.of_nat x0 + Z.of_nat n + 1))).
  set (sy := Z.to_nat (slice_bound (Z.of_nat (rows a)) (Z.of_nat y0 - Z.of_nat n))).
  set (sx := Z.to_nat (slice_bound (Z.of_nat (cols a)) (Z.of_nat x0 - Z.of_nat n))).
  assert (Esy : sy = (y0 - n)%nat) by (unfold sy; rewrite slice_bound_in by lia; lia).
  assert (Esx : sx = (x0 - n)%nat) by (unfold sx; rewrite slice_bound_in by lia; lia).
  assert (Ery : (sy + ry = Nat.min (y0 + n + 1) (rows a))%nat).
  { unfold ry, slice_len. rewrite (slice_bound_in _ (Z.of_nat y0 - Z.of_nat n)) by lia.
    unfold slice_bound. destruct (Z.ltb_spec (Z.of_nat y0 + Z.of_nat n + 1) 0); lia. }
  assert (Erx : (sx + rx = Nat.min (x0 + n + 1) (cols a))%nat).
  { unfold rx, slice_len. rewrite (slice_bound_in _ (Z.of_nat x0 - Z.of_nat n)) by lia.
    unfold slice_bound. destruct (Z.ltb_spec (Z.of_nat x0 + Z.of_nat n + 1) 0); lia. }
  clearbody ry rx sy sx.
  rewrite (rsum_window (rows a) sy ry (fun i => rsum (cols a) _)).
  - apply rsum_ext; intros i Hi.
    rewrite (rsum_window (cols a) sx rx).
    + apply rsum_ext; intros j Hj. unfold in_square.
      destruct (Nat.leb_spec y0 (sy + i + n)); [|lia].
      destruct (Nat.leb_spec (sy + i) (y0 + n)); [|lia].
      destruct (Nat.leb_spec x0 (sx + j + n)); [|lia].
      destruct (Nat.leb_spec (sx + j) (x0 + n)); [|lia]. reflexivity.
    + lia.
    + intros j Hj Hout. unfold in_square.
      destruct (Nat.leb_spec x0 (j + n)), (Nat.leb_spec j (x0 + n)); try lia;
        rewrite ?andb_false_r; reflexivity.
  - lia.
  - intros i Hi Hout. apply rsum_zero; intros j Hj. unfold in_square.
    destruct (Nat.leb_spec y0 (i + n)), (Nat.leb_spec i (y0 + n)); try lia; reflexivity.
Qed.

Lemma energy_square_mono a y0 x0 n m :
  (forall i j, (i < rows a)%nat -> (j < cols a)%nat -> 0 <= px a i j) ->
  (n <= m)%nat -> energy_in_square a y0 x0 n <= energy_in_square a y0 x0 m.
Proof.
  intros Hnn Hnm. apply rsum_le; intros i Hi. apply rsum_le; intros j Hj.
  specialize (Hnn i j Hi Hj). unfold in_square.
  destruct (Nat.leb_spec y0 (i + n)), (Nat.leb_spec y0 (i + m)); try lia; cbn [andb]; try lra;
  destruct (Nat.leb_spec i (y0 + n)), (Nat.leb_spec i (y0 + m)); try lia; cbn [andb]; try lra;
  destruct (Nat.leb_spec x0 (j + n)), (Nat.leb_spec x0 (j + m)); try lia; cbn [andb]; try lra;
  destruct (Nat.leb_spec j (x0 + n)), (Nat.leb_spec j (x0 + m)); try lia; cbn [andb]; lra.
Qed.

Lemma energy_square_le_total a y0 x0 n :
  (forall i j, (i < rows a)%nat -> (j < cols a)%nat -> 0 <= px a i j) ->
  0 <= energy_in_square a y0 x0 n <= img_sum a.
Proof.
  intros Hnn. split.
  - apply rsum_nonneg; intros i Hi; apply rsum_nonneg; intros j Hj.
    specialize (Hnn i j Hi Hj). destruct (in_square _ _ _ _ _); lra.
  - apply rsum_le; intros i Hi; apply rsum_le; intros j Hj.
    specialize (Hnn i j Hi Hj). destruct (in_square _ _ _ _ _); lra.
Qed.

Lemma energy_square_full a y0 x0 n :
  (y0 <= n)%nat -> (rows a <= y0 + n + 1)%nat -> (x0 <= n)%nat -> (cols a <= x0 + n + 1)%nat ->
  energy_in_square a y0 x0 n = img_sum a.
Proof.
  intros. apply rsum_ext; intros i Hi; apply rsum_ext; intros j Hj. unfold in_square.
  destruct (Nat.leb_spec y0 (i + n)); [|lia].
  destruct (Nat.leb_spec i (y0 + n)); [|lia].
  destruct (Nat.leb_spec x0 (j + n)); [|lia].
  destruct (Nat.leb_spec j (x0 + n)); [|lia]. reflexivity.
Qed.

Lemma pixels_nth_inv a k x :
  nth_error (pixels a) k = Some x ->
  exists i j, (i < rows a)%nat /\ (j < cols a)%nat /\ k = (i * cols a + j)%nat /\ x = px a i j.
Proof.
  intros H. assert (Hk : (k < length (pixels a))%nat) by (apply nth_error_Some; congruence).
  rewrite pixels_length in Hk.
  assert (Hc : (0 < cols a)%nat) by nia.
  assert (E := Nat.div_mod k (cols a) ltac:(lia)).
  assert (Hm := Nat.mod_upper_bound k (cols a) ltac:(lia)).
  assert (Hd : (k / cols a < rows a)%nat) by (apply Nat.div_lt_upper_bound; lia).
  exists (k / cols a)%nat, (k mod cols a)%nat. repeat split; try assumption; try lia.
  replace k with (k / cols a * cols a + k mod cols a)%nat in H by lia.
  rewrite pixels_nth in H by assumption. congruence.
Qed.

Lemma argmax_peak a y0 x0 :
  is_peak a y0 x0 ->
  argmax_list (pixels a) = Some ((y0 * cols a + x0)%nat, px a y0 x0).
Proof.
  intros (Hy & Hx & Hle & Hlt). apply argmax_list_unique.
  - apply pixels_nth; assumption.
  - intros k x H. apply pixels_nth_inv in H. destruct H as (i & j & Hi & Hj & _ & ->).
    apply Hle; assumption.
  - intros k x Hk H. apply pixels_nth_inv in H. destruct H as (i & j & Hi & Hj & -> & ->).
    apply Hlt; [assumption|assumption|]. nia.
Qed.

Lemma ee_ok a y0 x0 :
  is_peak a y0 x0 -> img_sum a <> 0 ->
  getEnsquaredEnergy a =
    Ok (map (fun n => ee_raw a y0 x0 n / img_sum a)
            (seq 0 (Nat.min (rows a - y0) (cols a - x0) + 1))).
Proof.
  intros Hp HS. unfold getEnsquaredEnergy. rewrite (argmax_peak a y0 x0 Hp).
  destruct Hp as (Hy & Hx & _).
  assert (E1 : ((y0 * cols a + x0) / cols a = y0)%nat).
  { rewrite Nat.div_add_l by lia. rewrite Nat.div_small by lia. lia. }
  assert (E2 : ((y0 * cols a + x0) mod cols a = x0)%nat).
  { rewrite Nat.add_comm, Nat.mod_add by lia. apply Nat.mod_small; lia. }
  rewrite E1, E2. destruct (Req_EM_T (img_sum a) 0); [contradiction|]. reflexivity.
Qed.

Lemma nth_map_seq {A} (f : nat -> A) m n d : (n < m)%nat -> nth n (map f (seq 0 m)) d = f n.
Proof.
  intros H. rewrite nth_indep with (d' := f 0%nat) by (rewrite map_length, seq_length; exact H).
  rewrite map_nth, seq_nth by exact H. reflexivity.
Qed.

(** Off-centre peak: the square that leaves the low border is read as empty. *)
Lemma ee_raw_negative_rows a y0 x0 n :
  (y0 < n)%nat -> (y0 + n + 1 + n <= rows a + y0)%nat ->
  ee_raw a y0 x0 n = 0.
Proof.
  intros Hlt Hle. unfold ee_raw, img_sum, slice2; cbn [rows].
  replace (slice_len (Z.of_nat (rows a)) (Z.of_nat y0 - Z.of_nat n) (Z.of_nat y0 + Z.of_nat n + 1)) with 0%Z.
  - reflexivity.
  - unfold slice_len, slice_bound.
    destruct (Z.ltb_spec (Z.of_nat y0 - Z.of_nat n) 0); [|lia].
    destruct (Z.ltb_spec (Z.of_nat y0 + Z.of_nat n + 1) 0); lia.
Qed.

(** Odd square image with the peak exactly at the central pixel: the last
    point of the curve is the bottom-right pixel only. *)
Lemma ee_raw_odd_last a h :
  rows a = (2 * h + 1)%nat -> cols a = (2 * h + 1)%nat ->
  ee_raw a h h (h + 1) = px a (2 * h) (2 * h).
Proof.
  intros Hr Hc. unfold ee_raw, img_sum, slice2; cbn [rows cols px].
  rewrite Hr, Hc.
  assert (E1 : slice_len (Z.of_nat (2 * h + 1)) (Z.of_nat h - Z.of_nat (h + 1)) (Z.of_nat h + Z.of_nat (h + 1) + 1) = 1%Z).
  { unfold slice_len, slice_bound.
    destruct (Z.ltb_spec (Z.of_nat h - Z.of_nat (h + 1)) 0); [|lia].
    destruct (Z.ltb_spec (Z.of_nat h + Z.of_nat (h + 1) + 1) 0); lia. }
  assert (E2 : Z.to_nat (slice_bound (Z.of_nat (2 * h + 1)) (Z.of_nat h - Z.of_nat (h + 1))) = (2 * h)%nat).
  { unfold slice_bound. destruct (Z.ltb_spec (Z.of_nat h - Z.of_nat (h + 1)) 0); lia. }
  rewrite E1, E2. change (Z.to_nat 1) with 1%nat. cbn [rsum].
  rewrite Nat.add_0_r. lra.
Qed.

Lemma binning_lost (r c k : nat) :
  (0 < k)%nat -> (0 < r)%nat -> (0 < c)%nat -> (r mod k <> 0 \/ c mod k <> 0)%nat ->
  exists a out, rows a = r /\ cols a = c /\ binning a k = Ok out /\ img_sum out <> img_sum a.
Proof.
  intros Hk Hr Hc Hm.
  set (a := mkImg r c (fun _ _ => 1)).
  destruct (binning_ok a k Hk) as (out & Ho & _).
  exists a, out. repeat split; [exact Ho|].
  rewrite (binning_flux a k out Hk Ho). unfold img_sum; cbn [rows cols px a].
  assert (E : forall m n, rsum m (fun _ => rsum n (fun _ => 1)) = INR (m * n)).
  { intros m n. rewrite rsum_const, rsum_const, Rmult_1_r, mult_INR. reflexivity. }
  rewrite !E. intros Heq. apply INR_eq in Heq.
  assert (D1 := Nat.div_mod r k ltac:(lia)). assert (D2 := Nat.div_mod c k ltac:(lia)).
  destruct Hm as [Hm|Hm].
  - assert (r / k * k < r)%nat by (rewrite Nat.mul_comm; lia).
    assert (c / k * k <= c)%nat by (rewrite Nat.mul_comm; lia).
    clear D1 D2 Hm. revert Heq H H0. generalize (r / k * k)%nat (c / k * k)%nat. intros; nia.
  - assert (r / k * k <= r)%nat by (rewrite Nat.mul_comm; lia).
    assert (c / k * k < c)%nat by (rewrite Nat.mul_comm; lia).
    clear D1 D2 Hm. revert Heq H H0. generalize (r / k * k)%nat (c / k * k)%nat. intros; nia.
Qed.

(** ** assembled statements used by P_Image *)
Lemma ee_centred a y0 x0 l :
  is_peak a y0 x0 ->
  (forall i j, (i < rows a)%nat -> (j < cols a)%nat -> 0 <= px a i j) ->
  getEnsquaredEnergy a = Ok l ->
  let nEE := Nat.min (rows a - y0) (cols a - x0) in
  (nEE <= y0)%nat -> (nEE <= x0)%nat ->
  length l = (nEE + 1)%nat /\
  (forall n, (n <= nEE)%nat -> nth n l 0 = energy_in_square a y0 x0 n / img_sum a) /\
  (forall n, (n <= nEE)%nat -> 0 <= nth n l 0 <= 1) /\
  (forall n m, (n <= m <= nEE)%nat -> nth n l 0 <= nth m l 0).
Proof.
  intros Hp Hnn Hl nEE Hy Hx.
  assert (HS : img_sum a <> 0).
  { intros E. unfold getEnsquaredEnergy in Hl. rewrite (argmax_peak a y0 x0 Hp) in Hl.
    destruct (Req_EM_T (img_sum a) 0); [discriminate|contradiction]. }
  rewrite (ee_ok a y0 x0 Hp HS) in Hl. apply Ok_inj in Hl. subst l. fold nEE.
  assert (HSp : 0 < img_sum a).
  { destruct (energy_square_le_total a y0 x0 0 Hnn). lra. }
  assert (Hval : forall n, (n <= nEE)%nat ->
     nth n (map (fun n => ee_raw a y0 x0 n / img_sum a) (seq 0 (nEE + 1))) 0
     = energy_in_square a y0 x0 n / img_sum a).
  { intros n Hn. rewrite nth_map_seq by lia. destruct Hp as (? & ? & _).
    rewrite ee_raw_square by lia. reflexivity. }
  split; [rewrite map_length, seq_length; reflexivity|].
  split; [exact Hval|]. split.
  - intros n Hn. rewrite Hval by exact Hn.
    destruct (energy_square_le_total a y0 x0 n Hnn) as [H0 H1]. split.
    + apply Rmult_le_pos; [lra|left; apply Rinv_0_lt_compat; lra].
    + apply Rmult_le_reg_r with (img_sum a); [lra|].
      unfold Rdiv. rewrite Rmult_assoc, Rinv_l by lra. lra.
  - intros n m Hnm. rewrite !Hval by lia. apply Rmult_le_compat_r.
    + left; apply Rinv_0_lt_compat; lra.
    + apply energy_square_mono; [exact Hnn|lia].
Qed.

Lemma ee_even_total a h l :
  rows a = (2 * h)%nat -> cols a = (2 * h)%nat ->
  is_peak a h h ->
  (forall i j, (i < rows a)%nat -> (j < cols a)%nat -> 0 <= px a i j) ->
  getEnsquaredEnergy a = Ok l ->
  length l = (h + 1)%nat /\ nth h l 0 = 1.
Proof.
  intros Hr Hc Hp Hnn Hl.
  assert (E : Nat.min (rows a - h) (cols a - h) = h) by lia.
  destruct (ee_centred a h h l Hp Hnn Hl) as (Hlen & Hv & _); try lia.
  rewrite E in *. split; [exact Hlen|]. rewrite Hv by lia.
  rewrite energy_square_full by lia. unfold getEnsquaredEnergy in Hl.
  rewrite (argmax_peak a h h Hp) in Hl.
  destruct (Req_EM_T (img_sum a) 0); [discriminate|]. field. assumption.
Qed.

Lemma ee_odd_breaks a h :
  rows a = (2 * h + 1)%nat -> cols a = (2 * h + 1)%nat ->
  is_peak a h h ->
  (forall i j, (i < rows a)%nat -> (j < cols a)%nat -> 0 < px a i j) ->
  (0 < h)%nat ->
  exists l, getEnsquaredEnergy a = Ok l /\ length l = (h + 2)%nat /\
    nth h l 0 = 1 /\ nth (h + 1) l 0 < 1.
Proof.
  intros Hr Hc Hp Hpos Hh.
  assert (Hnn : forall i j, (i < rows a)%nat -> (j < cols a)%nat -> 0 <= px a i j)
    by (intros; left; auto).
  assert (HS : 0 < img_sum a).
  { apply rsum_pos; [lia|]. intros i Hi. apply rsum_pos; [lia|]. intros j Hj. apply Hpos; assumption. }
  assert (HS' : img_sum a <> 0) by lra.
  exists (map (fun n => ee_raw a h h n / img_sum a) (seq 0 (h + 2))).
  rewrite (ee_ok a h h Hp HS').
  replace (Nat.min (rows a - h) (cols a - h) + 1)%nat with (h + 2)%nat by lia.
  split; [reflexivity|]. split; [rewrite map_length, seq_length; reflexivity|].
  rewrite !nth_map_seq by lia. split.
  - rewrite ee_raw_square by lia. rewrite energy_square_full by lia. field. exact HS'.
  - rewrite (ee_raw_odd_last a h Hr Hc).
    apply Rmult_lt_reg_r with (img_sum a); [lra|].
    unfold Rdiv. rewrite Rmult_assoc, Rinv_l by exact HS'. rewrite Rmult_1_r, Rmult_1_l.
    assert (Hrow : forall i, (i < rows a)%nat -> 0 < rsum (cols a) (fun j => px a i j)).
    { intros i Hi. apply rsum_pos; [lia|]. intros j Hj; apply Hpos; assumption. }
    assert (H1 : px a (2 * h) (2 * h) <= rsum (cols a) (fun j => px a (2 * h) j)).
    { apply (rsum_term_le (cols a) (fun j => px a (2*h) j)); [intros; apply Hnn; lia|lia]. }
    unfold img_sum. rewrite Hr. rewrite rsum_app. cbn [rsum].
    assert (H2 : 0 < rsum (2 * h) (fun i => rsum (cols a) (fun j => px a i j))).
    { apply rsum_pos; [lia|]. intros i Hi; apply Hrow; lia. }
    rewrite Nat.add_0_r. lra.
Qed.

Lemma ee_offcentre_zero a y0 x0 :
  is_peak a y0 x0 ->
  (forall i j, (i < rows a)%nat -> (j < cols a)%nat -> 0 < px a i j) ->
  (2 * y0 + 3 <= rows a)%nat -> (y0 + 1 <= cols a - x0)%nat ->
  exists l, getEnsquaredEnergy a = Ok l /\ nth (y0 + 1) l 0 = 0 /\ 0 < nth 0 l 0.
Proof.
  intros Hp Hpos Hbig Hx.
  assert (Hyx := Hp). destruct Hyx as (Hy & Hx0 & _).
  assert (HS : 0 < img_sum a).
  { apply rsum_pos; [lia|]. intros i Hi. apply rsum_pos; [lia|]. intros j Hj. apply Hpos; assumption. }
  assert (HS' : img_sum a <> 0) by lra.
  eexists. split; [apply (ee_ok a y0 x0 Hp HS')|].
  rewrite !nth_map_seq by lia. split.
  - rewrite ee_raw_negative_rows by lia. unfold Rdiv; lra.
  - rewrite ee_raw_square by lia.
    apply Rmult_lt_0_compat; [|apply Rinv_0_lt_compat; lra].
    unfold energy_in_square.
    apply Rlt_le_trans with (px a y0 x0); [apply Hpos; assumption|].
    set (f := fun i => rsum (cols a) (fun j => if in_square y0 x0 0 i j then px a i j else 0)).
    assert (Hf : forall i, (i < rows a)%nat -> 0 <= f i).
    { intros i Hi. apply rsum_nonneg; intros j Hj. specialize (Hpos i j Hi Hj).
      destruct (in_square _ _ _ _ _); lra. }
    apply Rle_trans with (f y0); [|apply rsum_term_le; assumption].
    unfold f. set (g := fun j => if in_square y0 x0 0 y0 j then px a y0 j else 0).
    apply Rle_trans with (g x0); [|apply (rsum_term_le _ g)].
    + unfold g, in_square. rewrite !Nat.add_0_r, !Nat.leb_refl. cbn [andb]. lra.
    + intros j Hj. unfold g. specialize (Hpos y0 j Hy Hj). destruct (in_square _ _ _ _ _); lra.
    + exact Hx0.
Qed.
