(** Property C115: tip-tilt filter of a phase map and wavefront error of the static modes. *)
From Coq Require Import Reals List Arith ZArith Bool Lia Lra.
From Verif Require Import Base_Py Base_Sum M_Image L_Image2 M_Tools M_Zernike P_Zernike2 M_Sphere.
Import ListNotations.
Open Scope R_scope.

(** The four conditions of Penrose: [P] (m x n) is the pseudo-inverse of [A] (n x m). *)
Definition penrose (n m : nat) (A P : nat -> nat -> R) : Prop :=
  let AP i j := rsum m (fun c => A i c * P c j) in let PA c d := rsum n (fun i => P c i * A i d) in
  (forall i d, (i < n)%nat -> (d < m)%nat -> rsum n (fun k => AP i k * A k d) = A i d) /\
  (forall c j, (c < m)%nat -> (j < n)%nat -> rsum m (fun d => PA c d * P d j) = P c j) /\
  (forall i j, (i < n)%nat -> (j < n)%nat -> AP i j = AP j i) /\
  (forall c d, (c < m)%nat -> (d < m)%nat -> PA c d = PA d c).
Definition pinv2_ok (pinv : pinv_t) : Prop := forall n A, penrose n 2 A (pinv n 2%nat A).

(** Such a pseudo-inverse exists (two columns a, b): (A'A)^-1 A' when the columns are independent, A'/trace otherwise. *)
Definition pinv_two (n : nat) (A : nat -> nat -> R) (c j : nat) : R :=
  let p := rsum n (fun i => A i 0%nat * A i 0%nat) in let q := rsum n (fun i => A i 0%nat * A i 1%nat) in let r := rsum n (fun i => A i 1%nat * A i 1%nat) in
  let d := p * r - q * q in
  if Req_EM_T d 0 then (if Req_EM_T (p + r) 0 then 0 else A j c / (p + r))
  else if (c =? 0)%nat then (r * A j 0%nat - q * A j 1%nat) / d else (p * A j 1%nat - q * A j 0%nat) / d.
Lemma rsum2 f : rsum 2 f = f 0%nat + f 1%nat. Proof. cbn. ring. Qed.
Lemma lin2 n (f g h : nat -> R) a b : (forall i, (i < n)%nat -> h i = a * f i + b * g i) -> rsum n h = a * rsum n f + b * rsum n g.
Proof. intros H. rewrite (rsum_ext n h (fun i => a * f i + b * g i)) by exact H. rewrite rsum_plus, !rsum_scal. reflexivity. Qed.
Lemma sq_zero n f : rsum n (fun i => f i * f i) = 0 -> forall i, (i < n)%nat -> f i = 0.
Proof.
  intros H i Hi. pose proof (rsum_term_le n (fun i => f i * f i) i) as T. specialize (T ltac:(intros; apply Rle_0_sqr) Hi). cbv beta in T. rewrite H in T.
  pose proof (Rle_0_sqr (f i)) as S. apply Rsqr_0_uniq. unfold Rsqr in *. lra.
Qed.
Lemma lt2 c : (c < 2)%nat -> c = 0%nat \/ c = 1%nat. Proof. lia. Qed.
Lemma pinv_two_ok n A : penrose n 2 A (pinv_two n A).
Proof.
  set (p := rsum n (fun i => A i 0%nat * A i 0%nat)). set (q := rsum n (fun i => A i 0%nat * A i 1%nat)). set (r := rsum n (fun i => A i 1%nat * A i 1%nat)).
  set (q' := rsum n (fun i => A i 1%nat * A i 0%nat)). assert (Eq : q' = q) by (apply rsum_ext; intros; ring).
  unfold penrose. cbv zeta. destruct (Req_EM_T (p * r - q * q) 0) as [D|D].
  - destruct (Req_EM_T (p + r) 0) as [T|T].
    + assert (Hp : 0 <= p) by (apply rsum_nonneg; intros; apply Rle_0_sqr). assert (Hr : 0 <= r) by (apply rsum_nonneg; intros; apply Rle_0_sqr).
      assert (P0 : forall c j, pinv_two n A c j = 0) by (intros; unfold pinv_two; fold p q r; destruct (Req_EM_T (p * r - q * q) 0); [|contradiction]; destruct (Req_EM_T (p + r) 0); [reflexivity|contradiction]).
      assert (A0 : forall i c, (i < n)%nat -> (c < 2)%nat -> A i c = 0).
      { intros i c Hi Hc. destruct (lt2 c Hc) as [ ->| ->]; [apply (sq_zero n (fun i => A i 0%nat)); [fold p; lra|exact Hi]|apply (sq_zero n (fun i => A i 1%nat)); [fold r; lra|exact Hi]]. }
      split; [|split; [|split]].
      * intros i d Hi Hd. rewrite (A0 i d Hi Hd). apply rsum_zero. intros k Hk. rewrite (A0 k d Hk Hd). ring.
      * intros c j Hc Hj. rewrite P0. apply rsum_zero. intros d Hd. rewrite P0. ring.
      * intros i j Hi Hj. rewrite !rsum2, !P0. ring.
      * intros c d Hc Hd. rewrite !rsum_zero; [reflexivity| |]; intros i Hi; rewrite P0; ring.
    + assert (PV : forall c j, pinv_two n A c j = A j c / (p + r)) by (intros; unfold pinv_two; fold p q r; destruct (Req_EM_T (p * r - q * q) 0); [|contradiction]; destruct (Req_EM_T (p + r) 0); [contradiction|reflexivity]).
      assert (C1 : forall i, (i < n)%nat -> r * A i 0%nat - q * A i 1%nat = 0).
      { apply (sq_zero n (fun i => r * A i 0%nat - q * A i 1%nat)). rewrite (rsum_ext _ _ (fun i => (r * r) * (A i 0%nat * A i 0%nat) + ((-2 * r * q) * (A i 0%nat * A i 1%nat) + (q * q) * (A i 1%nat * A i 1%nat)))) by (intros; ring).
        rewrite !rsum_plus, !rsum_scal. fold p q r. replace (r * r * p + (-2 * r * q * q + q * q * r)) with (r * (p * r - q * q)) by ring. rewrite D. ring. }
      assert (C2 : forall i, (i < n)%nat -> p * A i 1%nat - q * A i 0%nat = 0).
      { apply (sq_zero n (fun i => p * A i 1%nat - q * A i 0%nat)). rewrite (rsum_ext _ _ (fun i => (p * p) * (A i 1%nat * A i 1%nat) + ((-2 * p * q) * (A i 0%nat * A i 1%nat) + (q * q) * (A i 0%nat * A i 0%nat)))) by (intros; ring).
        rewrite !rsum_plus, !rsum_scal. fold p q r. replace (p * p * r + (-2 * p * q * q + q * q * p)) with (p * (p * r - q * q)) by ring. rewrite D. ring. }
      assert (PA : forall c d, rsum n (fun i => pinv_two n A c i * A i d) = rsum n (fun i => A i c * A i d) / (p + r)).
      { intros c d. rewrite <- rsum_div. apply rsum_ext. intros i Hi. rewrite PV. field. exact T. }
      split; [|split; [|split]].
      * intros i d Hi Hd. rewrite (lin2 n (fun k => A k 0%nat * A k d) (fun k => A k 1%nat * A k d) _ (A i 0%nat / (p + r)) (A i 1%nat / (p + r))) by (intros k Hk; rewrite rsum2, !PV; field; exact T).
        specialize (C1 i Hi). specialize (C2 i Hi). destruct (lt2 d Hd) as [ ->| ->]; fold p q q' r; [rewrite Eq|].
        { replace (A i 0%nat) with ((p * A i 0%nat + q * A i 1%nat) / (p + r)) at 2; [field; exact T|]. replace (q * A i 1%nat) with (r * A i 0%nat) by lra. field. exact T. }
        { replace (A i 1%nat) with ((q * A i 0%nat + r * A i 1%nat) / (p + r)) at 2; [field; exact T|]. replace (q * A i 0%nat) with (p * A i 1%nat) by lra. field. exact T. }
      * intros c j Hc Hj. rewrite rsum2, !PA, !PV. specialize (C1 j Hj). specialize (C2 j Hj). destruct (lt2 c Hc) as [ ->| ->]; fold p q q' r; [|rewrite Eq].
        { replace (p / (p + r) * (A j 0%nat / (p + r)) + q / (p + r) * (A j 1%nat / (p + r))) with ((p * A j 0%nat + q * A j 1%nat) / (p + r) / (p + r)) by (field; exact T). replace (q * A j 1%nat) with (r * A j 0%nat) by lra. field. exact T. }
        { replace (q / (p + r) * (A j 0%nat / (p + r)) + r / (p + r) * (A j 1%nat / (p + r))) with ((q * A j 0%nat + r * A j 1%nat) / (p + r) / (p + r)) by (field; exact T). replace (q * A j 0%nat) with (p * A j 1%nat) by lra. field. exact T. }
      * intros i j Hi Hj. rewrite !rsum2, !PV. field. exact T.
      * intros c d Hc Hd. rewrite !PA. f_equal. apply rsum_ext. intros; ring.
  - set (d := p * r - q * q) in *.
    assert (P0 : forall j, pinv_two n A 0 j = (r * A j 0%nat - q * A j 1%nat) / d) by (intros; unfold pinv_two; fold p q r d; destruct (Req_EM_T d 0); [contradiction|reflexivity]).
    assert (P1 : forall j, pinv_two n A 1 j = (p * A j 1%nat - q * A j 0%nat) / d) by (intros; unfold pinv_two; fold p q r d; destruct (Req_EM_T d 0); [contradiction|reflexivity]).
    assert (PA : forall c e, (c < 2)%nat -> (e < 2)%nat -> rsum n (fun i => pinv_two n A c i * A i e) = if (c =? e)%nat then 1 else 0).
    { intros c e Hc He. destruct (lt2 c Hc) as [ ->| ->]; destruct (lt2 e He) as [ ->| ->]; cbn [Nat.eqb].
      - rewrite (lin2 n (fun i => A i 0%nat * A i 0%nat) (fun i => A i 0%nat * A i 1%nat) _ (r / d) (- q / d)) by (intros; rewrite P0; field; exact D). fold p q. unfold d in *. field. exact D.
      - rewrite (lin2 n (fun i => A i 0%nat * A i 1%nat) (fun i => A i 1%nat * A i 1%nat) _ (r / d) (- q / d)) by (intros; rewrite P0; field; exact D). fold q r. field. exact D.
      - rewrite (lin2 n (fun i => A i 0%nat * A i 1%nat) (fun i => A i 0%nat * A i 0%nat) _ (p / d) (- q / d)) by (intros; rewrite P1; field; exact D). fold p q. field. exact D.
      - rewrite (lin2 n (fun i => A i 1%nat * A i 1%nat) (fun i => A i 0%nat * A i 1%nat) _ (p / d) (- q / d)) by (intros; rewrite P1; field; exact D). fold q r. unfold d in *. field. exact D. }
    split; [|split; [|split]].
    + intros i e Hi He. rewrite (lin2 n (fun k => pinv_two n A 0 k * A k e) (fun k => pinv_two n A 1 k * A k e) _ (A i 0%nat) (A i 1%nat)) by (intros; rewrite rsum2; ring).
      rewrite !PA by lia. destruct (lt2 e He) as [ ->| ->]; cbn [Nat.eqb]; ring.
    + intros c j Hc Hj. rewrite rsum2, !PA by lia. destruct (lt2 c Hc) as [ ->| ->]; cbn [Nat.eqb]; ring.
    + intros i j Hi Hj. rewrite !rsum2, !P0, !P1. field. exact D.
    + intros c e Hc He. rewrite !PA by lia. destruct (lt2 c Hc) as [ ->| ->]; destruct (lt2 e He) as [ ->| ->]; reflexivity.
Qed.
Lemma pinv2_exists : exists pinv, pinv2_ok pinv.
Proof. exists (fun n _ A => pinv_two n A). intros n A. apply pinv_two_ok. Qed.

(** ** The filter *)
Definition map_sum (n : nat) (f : nat -> nat -> R) : R := rsum n (fun a => rsum n (fun b => f a b)).
(** tip and tilt of amplitudes (tx, ty) inside the pupil: coordinates [cx] run from -1 to 1 over the map, x along the columns *)
Definition tilt (n : nat) (pup : nat -> nat -> bool) (tx ty : R) (a b : nat) : R := if pup a b then tx * cx n b + ty * cx n a else 0.

Lemma tt_value n pup : exists M, tt_matrix n pup = Ok M /\ forall a b, (a < n)%nat -> (b < n)%nat ->
  M (a * n + b)%nat 0%nat = (if pup a b then 2 * cx n b else 0) /\ M (a * n + b)%nat 1%nat = (if pup a b then 2 * cx n a else 0).
Proof.
  unfold tt_matrix. destruct (C61_modes [2; 3]%Z n (Some pup) 0) as (z & E & _ & _ & _ & V); [discriminate|intros j [<-|[<-|[]]]; lia|].
  rewrite E. cbn [bind]. eexists. split; [reflexivity|]. intros a b Ha Hb. cbv beta.
  replace ((a * n + b) / n)%nat with a by (rewrite Nat.add_comm, Nat.div_add by lia; rewrite Nat.div_small by lia; lia).
  replace ((a * n + b) mod n)%nat with b by (rewrite Nat.add_comm, Nat.mod_add by lia; now rewrite Nat.mod_small by lia).
  destruct (V 0%nat 2%Z a b eq_refl) as [V1 V2]. destruct (V 1%nat 3%Z a b eq_refl) as [W1 W2]. unfold the_pupil in *. destruct (pup a b).
  - split; [apply (proj1 (proj2 (V2 eq_refl))); reflexivity|apply (proj1 (proj2 (proj2 (W2 eq_refl)))); reflexivity].
  - split; [apply V1; discriminate|apply W1; discriminate].
Qed.
Lemma pix_div n a b : (b < n)%nat -> ((a * n + b) / n)%nat = a /\ ((a * n + b) mod n)%nat = b.
Proof. intros Hb. split; [rewrite Nat.add_comm, Nat.div_add by lia; rewrite Nat.div_small by lia; lia|rewrite Nat.add_comm, Nat.mod_add by lia; now rewrite Nat.mod_small by lia]. Qed.

Definition filtered (n : nat) (H : nat -> nat -> R) (phase : img) : img := mkImg n n (fun a b => mvec (n * n) H (fun k => px phase (k / n) (k mod n)) (a * n + b)%nat).
Lemma remove_ok n phase H p2c : rows phase = n -> cols phase = n -> exists c, remove_tiptilt_from_phase phase (n * n) H p2c = Ok (filtered n H phase, c) /\
  (forall m P, p2c = Some (m, P) -> c = Some (map (fun k => rsum (n * n) (fun i => P k i * px (filtered n H phase) (i / n) (i mod n))) (seq 0 m))) /\ (p2c = None -> c = None).
Proof.
  intros Hr Hc. unfold remove_tiptilt_from_phase. rewrite Nat.sqrt_square. cbv zeta. rewrite Hr, Hc, !Nat.eqb_refl. cbn [negb]. eexists. split; [reflexivity|]. split.
  - intros m P ->. f_equal. apply map_ext. intros k. unfold mvec. apply rsum_ext. intros i Hi. cbn [filtered px]. destruct n as [|n']; [lia|]. replace (i / S n' * S n' + i mod S n')%nat with i; [reflexivity|]. pose proof (Nat.div_mod i (S n') ltac:(lia)). lia.
  - intros ->. reflexivity.
Qed.

Section Filter.
Variables (pinv : pinv_t) (n : nat) (pup : nat -> nat -> bool) (M : nat -> nat -> R).
Hypothesis (HP : pinv2_ok pinv) (HM : forall a b, (a < n)%nat -> (b < n)%nat ->
  M (a * n + b)%nat 0%nat = (if pup a b then 2 * cx n b else 0) /\ M (a * n + b)%nat 1%nat = (if pup a b then 2 * cx n a else 0)).
Let Q := pinv (n * n)%nat 2%nat M.
Let H := filter_of pinv n M.

Lemma filt_form phase : exists tx ty, forall a b, (a < n)%nat -> (b < n)%nat -> px (filtered n H phase) a b = px phase a b - tilt n pup tx ty a b.
Proof.
  set (v := fun k => px phase (k / n) (k mod n)). exists (2 * rsum (n * n) (fun k => Q 0%nat k * v k)), (2 * rsum (n * n) (fun k => Q 1%nat k * v k)).
  intros a b Ha Hb. cbn [filtered px]. unfold mvec. fold v. set (i := (a * n + b)%nat). unfold H, filter_of. fold Q.
  assert (Hi : (i < n * n)%nat) by (unfold i; nia).
  rewrite (rsum_ext _ _ (fun k => (if (i =? k)%nat then v k else 0) - (M i 0%nat * (Q 0%nat k * v k) + M i 1%nat * (Q 1%nat k * v k)))).
  2:{ intros k Hk. rewrite rsum2. change (px phase (k / n) (k mod n)) with (v k). destruct (i =? k)%nat; ring. }
  rewrite rsum_minus, rsum_plus, !rsum_scal. rewrite (rsum_single (n * n) i) by (try exact Hi; intros k Hk Hne; apply Nat.eqb_neq in Hne; rewrite Nat.eqb_sym, Hne; reflexivity).
  rewrite Nat.eqb_refl. unfold v at 1. destruct (pix_div n a b Hb) as [E1 E2]. fold i in E1, E2. rewrite E1, E2. unfold i. destruct (HM a b Ha Hb) as [M0 M1]. rewrite M0, M1. unfold tilt.
  destruct (pup a b); ring.
Qed.
Lemma col_sum c (w : nat -> nat -> R) : (c < 2)%nat -> rsum (n * n) (fun k => M k c * w (k / n)%nat (k mod n)%nat) = map_sum n (fun a b => M (a * n + b)%nat c * w a b).
Proof.
  intros Hc. rewrite rsum_blocks. unfold map_sum. apply rsum_ext. intros a Ha. apply rsum_ext. intros b Hb. destruct (pix_div n a b Hb) as [E1 E2]. rewrite E1, E2. reflexivity.
Qed.
Lemma filt_orth phase c : (c < 2)%nat -> map_sum n (fun a b => M (a * n + b)%nat c * px (filtered n H phase) a b) = 0.
Proof.
  intros Hc. rewrite <- (col_sum c (px (filtered n H phase)) Hc). destruct (HP (n * n)%nat M) as (P1 & _ & P3 & _). fold Q in P1, P3.
  set (v := fun k => px phase (k / n) (k mod n)). set (AP := fun i j => rsum 2 (fun d => M i d * Q d j)) in *. assert (P3' : forall i j, (i < n * n)%nat -> (j < n * n)%nat -> AP i j = AP j i) by exact P3.
  assert (F : forall k, (k < n * n)%nat -> px (filtered n H phase) (k / n) (k mod n) = v k - rsum (n * n) (fun j => AP k j * v j)).
  { intros k Hk. cbn [filtered px]. unfold mvec. fold v. destruct n as [|n']; [lia|]. replace (k / S n' * S n' + k mod S n')%nat with k by (pose proof (Nat.div_mod k (S n') ltac:(lia)); lia).
    unfold H, filter_of. fold Q. rewrite (rsum_ext _ _ (fun j => (if (k =? j)%nat then v j else 0) - AP k j * v j)) by (intros j Hj; unfold AP; change (px phase (j / S n') (j mod S n')) with (v j); destruct (k =? j)%nat; ring).
    rewrite rsum_minus. f_equal. rewrite (rsum_single _ k) by (try exact Hk; intros j Hj Hne; apply Nat.eqb_neq in Hne; rewrite Nat.eqb_sym, Hne; reflexivity). now rewrite Nat.eqb_refl. }
  rewrite (rsum_ext _ _ (fun k => M k c * v k - rsum (n * n) (fun j => M k c * AP k j * v j))).
  2:{ intros k Hk. rewrite (F k Hk). rewrite (rsum_ext (n * n) (fun j => M k c * AP k j * v j) (fun j => M k c * (AP k j * v j))) by (intros; ring). rewrite rsum_scal. ring. }
  rewrite rsum_minus. rewrite rsum_swap. rewrite (rsum_ext (n * n) (fun i => rsum (n * n) (fun j => M j c * AP j i * v i)) (fun i => M i c * v i)); [ring|].
  intros i Hi. rewrite (rsum_ext _ _ (fun j => (AP i j * M j c) * v i)) by (intros j Hj; rewrite (P3' j i Hj Hi); ring). rewrite rsum_scal_r. f_equal. apply (P1 i c Hi Hc).
Qed.
Lemma filt_x phase : map_sum n (fun a b => tilt n pup 1 0 a b * px (filtered n H phase) a b) = 0.
Proof.
  pose proof (filt_orth phase 0 ltac:(lia)) as O. unfold map_sum in *. 
  rewrite (rsum_ext n (fun a => rsum n (fun b => tilt n pup 1 0 a b * px (filtered n H phase) a b)) (fun a => / 2 * rsum n (fun b => M (a * n + b)%nat 0%nat * px (filtered n H phase) a b))).
  - rewrite rsum_scal, O. ring.
  - intros a Ha. rewrite <- rsum_scal. apply rsum_ext. intros b Hb. rewrite (proj1 (HM a b Ha Hb)). unfold tilt. destruct (pup a b); field.
Qed.
Lemma filt_y phase : map_sum n (fun a b => tilt n pup 0 1 a b * px (filtered n H phase) a b) = 0.
Proof.
  pose proof (filt_orth phase 1 ltac:(lia)) as O. unfold map_sum in *. 
  rewrite (rsum_ext n (fun a => rsum n (fun b => tilt n pup 0 1 a b * px (filtered n H phase) a b)) (fun a => / 2 * rsum n (fun b => M (a * n + b)%nat 1%nat * px (filtered n H phase) a b))).
  - rewrite rsum_scal, O. ring.
  - intros a Ha. rewrite <- rsum_scal. apply rsum_ext. intros b Hb. rewrite (proj2 (HM a b Ha Hb)). unfold tilt. destruct (pup a b); field.
Qed.
End Filter.

Lemma map_sum_ext n f g : (forall a b, (a < n)%nat -> (b < n)%nat -> f a b = g a b) -> map_sum n f = map_sum n g.
Proof. intros H. apply rsum_ext. intros a Ha. apply rsum_ext. intros b Hb. now apply H. Qed.
Lemma map_sum_plus n f g : map_sum n (fun a b => f a b + g a b) = map_sum n f + map_sum n g.
Proof. unfold map_sum. rewrite <- rsum_plus. apply rsum_ext. intros. apply rsum_plus. Qed.
Lemma map_sum_scal n c f : map_sum n (fun a b => c * f a b) = c * map_sum n f.
Proof. unfold map_sum. rewrite <- rsum_scal. apply rsum_ext. intros. apply rsum_scal. Qed.
Lemma map_sum_nonneg n f : (forall a b, 0 <= f a b) -> 0 <= map_sum n f.
Proof. intros H. apply rsum_nonneg. intros. apply rsum_nonneg. intros. apply H. Qed.
Lemma map_sum_zero n f : map_sum n (fun a b => f a b * f a b) = 0 -> forall a b, (a < n)%nat -> (b < n)%nat -> f a b = 0.
Proof.
  intros H a b Ha Hb. assert (R0 : rsum n (fun b => f a b * f a b) = 0).
  { apply Rle_antisym; [|apply rsum_nonneg; intros; apply Rle_0_sqr]. rewrite <- H. apply (rsum_term_le n (fun a => rsum n (fun b => f a b * f a b))); [|exact Ha]. intros. apply rsum_nonneg. intros. apply Rle_0_sqr. }
  apply (sq_zero n (fun b => f a b) R0 b Hb).
Qed.

(** What a correctly filtered map is: the input minus a tip and a tilt over the pupil, with no tip or tilt left. *)
Definition is_filtered (n : nat) (pup : nat -> nat -> bool) (phase o : nat -> nat -> R) : Prop :=
  (exists tx ty, forall a b, (a < n)%nat -> (b < n)%nat -> o a b = phase a b - tilt n pup tx ty a b) /\
  map_sum n (fun a b => tilt n pup 1 0 a b * o a b) = 0 /\ map_sum n (fun a b => tilt n pup 0 1 a b * o a b) = 0.

Lemma tilt_lin n pup tx ty a b : tilt n pup tx ty a b = tx * tilt n pup 1 0 a b + ty * tilt n pup 0 1 a b.
Proof. unfold tilt. destruct (pup a b); ring. Qed.
Lemma orth_all n pup o : map_sum n (fun a b => tilt n pup 1 0 a b * o a b) = 0 -> map_sum n (fun a b => tilt n pup 0 1 a b * o a b) = 0 ->
  forall sx sy, map_sum n (fun a b => tilt n pup sx sy a b * o a b) = 0.
Proof.
  intros HX HY sx sy. rewrite (map_sum_ext n _ (fun a b => sx * (tilt n pup 1 0 a b * o a b) + sy * (tilt n pup 0 1 a b * o a b))) by (intros; rewrite tilt_lin; ring).
  rewrite map_sum_plus, !map_sum_scal, HX, HY. ring.
Qed.
(** There is only one such map. *)
Lemma filtered_unique n pup f g o o' : is_filtered n pup f o -> is_filtered n pup g o' ->
  (exists sx sy, forall a b, (a < n)%nat -> (b < n)%nat -> f a b = g a b + tilt n pup sx sy a b) -> forall a b, (a < n)%nat -> (b < n)%nat -> o a b = o' a b.
Proof.
  intros ((tx & ty & F) & X & Y) ((tx' & ty' & F') & X' & Y') (sx & sy & G).
  set (ux := sx - tx + tx'). set (uy := sy - ty + ty').
  assert (DD : forall a b, (a < n)%nat -> (b < n)%nat -> o a b - o' a b = tilt n pup ux uy a b).
  { intros a b Ha Hb. rewrite F, F', G by assumption. rewrite (tilt_lin n pup sx sy), (tilt_lin n pup tx ty), (tilt_lin n pup tx' ty'), (tilt_lin n pup ux uy). unfold ux, uy. ring. }
  assert (Z : map_sum n (fun a b => (o a b - o' a b) * (o a b - o' a b)) = 0).
  { rewrite (map_sum_ext n _ (fun a b => tilt n pup ux uy a b * o a b + (-1) * (tilt n pup ux uy a b * o' a b))) by (intros a b Ha Hb; rewrite <- (DD a b Ha Hb); ring).
    rewrite map_sum_plus, map_sum_scal, (orth_all n pup o X Y), (orth_all n pup o' X' Y'). ring. }
  intros a b Ha Hb. pose proof (map_sum_zero n (fun a b => o a b - o' a b) Z a b Ha Hb). lra.
Qed.

(** The filter removes the best-fitting tip and tilt over the pupil, and nothing else. *)
Theorem C115_filter : forall pinv n pup phase, pinv2_ok pinv -> rows phase = n -> cols phase = n ->
  exists H o, compute_tiptilt_filtering_matrix pinv n pup None = Ok (H, None) /\ remove_tiptilt_from_phase phase (n * n) H None = Ok (o, None) /\
    rows o = n /\ cols o = n /\ is_filtered n pup (px phase) (px o) /\
    forall sx sy, map_sum n (fun a b => px o a b ^ 2) <= map_sum n (fun a b => (px phase a b - tilt n pup sx sy a b) ^ 2).
Proof.
  intros pinv n pup phase HP Hr Hc. destruct (tt_value n pup) as (M & EM & VM). unfold compute_tiptilt_filtering_matrix. rewrite EM. cbn [bind].
  destruct (remove_ok n phase (filter_of pinv n M) None Hr Hc) as (c & E & _ & E0). rewrite (E0 eq_refl) in E.
  exists (filter_of pinv n M), (filtered n (filter_of pinv n M) phase). split; [reflexivity|]. split; [exact E|]. split; [reflexivity|]. split; [reflexivity|].
  set (o := filtered n (filter_of pinv n M) phase).
  assert (IF : is_filtered n pup (px phase) (px o)) by (split; [apply (filt_form pinv n pup M VM phase)|split; [apply (filt_x pinv n pup M HP VM)|apply (filt_y pinv n pup M HP VM)]]).
  split; [exact IF|]. intros sx sy. destruct IF as ((tx & ty & F) & X & Y).
  rewrite (map_sum_ext n (fun a b => (px phase a b - tilt n pup sx sy a b) ^ 2) (fun a b => px o a b ^ 2 + (2 * (tilt n pup (tx - sx) (ty - sy) a b * px o a b) + tilt n pup (tx - sx) (ty - sy) a b ^ 2))).
  - rewrite !map_sum_plus, map_sum_scal, (orth_all n pup (px o) X Y). assert (0 <= map_sum n (fun a b => tilt n pup (tx - sx) (ty - sy) a b ^ 2)) by (apply map_sum_nonneg; intros; apply pow2_ge_0). lra.
  - intros a b Ha Hb. rewrite (F a b Ha Hb). rewrite (tilt_lin n pup sx sy), (tilt_lin n pup tx ty), (tilt_lin n pup (tx - sx) (ty - sy)). ring.
Qed.
(** Filtering twice changes nothing more; phases that differ by a tip and tilt over the pupil give the same result, and a pure
    tip-tilt gives zero. *)
Theorem C115_projection : forall pinv n pup phase phase' H o o', pinv2_ok pinv -> rows phase = n -> cols phase = n -> rows phase' = n -> cols phase' = n ->
  compute_tiptilt_filtering_matrix pinv n pup None = Ok (H, None) -> remove_tiptilt_from_phase phase (n * n) H None = Ok (o, None) -> remove_tiptilt_from_phase phase' (n * n) H None = Ok (o', None) ->
  (img_eq phase' o -> img_eq o' o) /\
  ((exists sx sy, forall a b, (a < n)%nat -> (b < n)%nat -> px phase' a b = px phase a b + tilt n pup sx sy a b) -> img_eq o' o) /\
  ((exists sx sy, forall a b, (a < n)%nat -> (b < n)%nat -> px phase a b = tilt n pup sx sy a b) -> forall a b, (a < n)%nat -> (b < n)%nat -> px o a b = 0).
Proof.
  intros pinv n pup phase phase' H o o' HP Hr Hc Hr' Hc' EH E E'.
  destruct (C115_filter pinv n pup phase HP Hr Hc) as (H1 & o1 & EH1 & E1 & Ro & Co & IF & _). rewrite EH in EH1. apply Ok_inj in EH1. injection EH1 as <-. rewrite E in E1. apply Ok_inj in E1. injection E1 as <-.
  destruct (C115_filter pinv n pup phase' HP Hr' Hc') as (H1 & o1 & EH1 & E1 & Ro' & Co' & IF' & _). rewrite EH in EH1. apply Ok_inj in EH1. injection EH1 as <-. rewrite E' in E1. apply Ok_inj in E1. injection E1 as <-.
  assert (EQ : (exists sx sy, forall a b, (a < n)%nat -> (b < n)%nat -> px phase' a b = px phase a b + tilt n pup sx sy a b) -> img_eq o' o).
  { intros G. split; [lia|]. split; [lia|]. intros a b Ha Hb. rewrite Ro' in Ha. rewrite Co' in Hb. apply (filtered_unique n pup (px phase') (px phase) (px o') (px o) IF' IF G a b Ha Hb). }
  split; [|split; [exact EQ|]].
  - intros (_ & _ & EP). apply EQ. destruct IF as ((tx & ty & F) & _). exists (- tx), (- ty). intros a b Ha Hb. rewrite EP by lia. rewrite F by assumption. rewrite (tilt_lin n pup tx ty), (tilt_lin n pup (- tx)). ring.
  - intros (sx & sy & G) a b Ha Hb.
    assert (Z : is_filtered n pup (fun _ _ => 0) (fun _ _ => 0)).
    { split; [exists 0, 0; intros; unfold tilt; destruct (pup _ _); ring|]. split; unfold map_sum; apply rsum_zero; intros; apply rsum_zero; intros; ring. }
    apply (filtered_unique n pup (px phase) (fun _ _ => 0) (px o) (fun _ _ => 0) IF Z); [|exact Ha|exact Hb]. exists sx, sy. intros. rewrite G by assumption. ring.
Qed.
(** Refusals. *)
Theorem C115_refused : forall pinv n pup r c A phase m H p2c, (0 < m)%nat ->
  (r <> n * n -> compute_tiptilt_filtering_matrix pinv n pup (Some (r, c, A)) = Err ValueError)%nat /\
  (rows phase <> cols phase \/ m <> rows phase * rows phase -> remove_tiptilt_from_phase phase m H p2c = Err ValueError)%nat.
Proof.
  intros pinv n pup r c A phase m H p2c Hm. split.
  - intros Hr. unfold compute_tiptilt_filtering_matrix. destruct (tt_value n pup) as (M & EM & _). rewrite EM. cbn [bind]. destruct (Nat.eqb_spec r (n * n)); [contradiction|]. reflexivity.
  - intros Hd. unfold remove_tiptilt_from_phase. cbv zeta. set (s := Nat.sqrt m) in *. destruct (Nat.eqb_spec (rows phase) s) as [E|]; cbn [negb]; [|reflexivity].
    destruct (Nat.eqb_spec (rows phase * cols phase) (s * s)) as [E2|]; cbn [negb]; [|reflexivity]. destruct (Nat.eqb_spec m (s * s)) as [E3|]; cbn [negb]; [|reflexivity].
    exfalso. rewrite E in *. destruct Hd as [Hd|Hd]; [|contradiction]. apply Hd. destruct (Nat.eq_dec s 0) as [Z|Z]; [rewrite Z in E3; lia|]. apply (Nat.mul_cancel_l _ _ s Z). lia.
Qed.
(** Coefficients of the filtered phase on a modal basis: the least-squares ones. *)
Theorem C115_coefficients : forall pinv n pup nm A phase H p2c o cf, rows phase = n -> cols phase = n -> penrose (n * n) nm A (pinv (n * n)%nat nm A) ->
  compute_tiptilt_filtering_matrix pinv n pup (Some ((n * n)%nat, nm, A)) = Ok (H, p2c) -> remove_tiptilt_from_phase phase (n * n) H p2c = Ok (o, Some cf) ->
  List.length cf = nm /\ forall c' : nat -> R,
    rsum (n * n) (fun i => (px o (i / n) (i mod n) - rsum nm (fun k => A i k * nth k cf 0)) ^ 2) <= rsum (n * n) (fun i => (px o (i / n) (i mod n) - rsum nm (fun k => A i k * c' k)) ^ 2).
Proof.
  intros pinv n pup nm A phase H p2c o cf Hr Hc HPn EH E. unfold compute_tiptilt_filtering_matrix in EH. destruct (tt_value n pup) as (M & EM & _). rewrite EM in EH. cbn [bind] in EH.
  rewrite Nat.eqb_refl in EH. cbn [negb] in EH. apply Ok_inj in EH. injection EH as <- <-. destruct (remove_ok n phase (filter_of pinv n M) (Some (nm, pinv (n * n)%nat nm A)) Hr Hc) as (c & E' & C & _).
  rewrite E in E'. apply Ok_inj in E'. injection E' as -> <-. specialize (C _ _ eq_refl). injection C as ->. split; [now rewrite map_length, seq_length|]. intros c'.
  set (N := (n * n)%nat) in *. set (w := fun i => px (filtered n (filter_of pinv n M) phase) (i / n) (i mod n)). set (P := pinv N nm A) in *.
  set (cf := fun k => rsum N (fun i => P k i * w i)).
  assert (EC : forall k, (k < nm)%nat -> nth k (map (fun k => rsum N (fun i => P k i * px (filtered n (filter_of pinv n M) phase) (i / n) (i mod n))) (seq 0 nm)) 0 = cf k).
  { intros k Hk. rewrite (nth_indep _ 0 (cf 0%nat)) by (now rewrite map_length, seq_length). change (fun k => rsum N (fun i => P k i * px (filtered n (filter_of pinv n M) phase) (i / n) (i mod n))) with cf. rewrite (map_nth cf), seq_nth by exact Hk. reflexivity. }
  destruct HPn as (P1 & _ & P3 & _). set (AP := fun i j => rsum nm (fun c => A i c * P c j)). assert (P3' : forall i j, (i < N)%nat -> (j < N)%nat -> AP i j = AP j i) by exact P3. assert (P1' : forall i d, (i < N)%nat -> (d < nm)%nat -> rsum N (fun k => AP i k * A k d) = A i d) by exact P1.
  assert (FIT : forall i, rsum nm (fun k => A i k * cf k) = rsum N (fun j => AP i j * w j)).
  { intros i. unfold cf. rewrite (rsum_ext nm _ (fun k => rsum N (fun j => A i k * P k j * w j))) by (intros; rewrite <- rsum_scal; apply rsum_ext; intros; ring). rewrite rsum_swap. apply rsum_ext. intros j Hj. unfold AP. rewrite <- rsum_scal_r. reflexivity. }
  assert (ORT : forall d, (d < nm)%nat -> rsum N (fun i => A i d * (w i - rsum nm (fun k => A i k * cf k))) = 0).
  { intros d Hd. rewrite (rsum_ext N _ (fun i => A i d * w i - rsum N (fun j => A i d * AP i j * w j))).
    2:{ intros i Hi. rewrite FIT. rewrite (rsum_ext N (fun j => A i d * AP i j * w j) (fun j => A i d * (AP i j * w j))) by (intros; ring). rewrite rsum_scal. ring. }
    rewrite rsum_minus, rsum_swap. rewrite (rsum_ext N (fun i => rsum N (fun j => A j d * AP j i * w i)) (fun i => A i d * w i)); [ring|].
    intros i Hi. rewrite (rsum_ext N _ (fun j => (AP i j * A j d) * w i)) by (intros j Hj; rewrite (P3' j i Hj Hi); ring). rewrite rsum_scal_r. f_equal. apply (P1' i d Hi Hd). }
  set (res := fun i => w i - rsum nm (fun k => A i k * cf k)) in *. set (dl := fun i => rsum nm (fun k => A i k * (cf k - c' k))).
  assert (ORT' : forall d, (d < nm)%nat -> rsum N (fun i => A i d * res i) = 0) by exact ORT.
  rewrite (rsum_ext N (fun i => (px _ (i / n) (i mod n) - rsum nm (fun k => A i k * c' k)) ^ 2) (fun i => res i ^ 2 + (2 * (dl i * res i) + dl i ^ 2))).
  2:{ intros i Hi. fold (w i). replace (w i - rsum nm (fun k => A i k * c' k)) with (res i + dl i); [ring|]. unfold res, dl. rewrite (rsum_ext nm (fun k => A i k * (cf k - c' k)) (fun k => A i k * cf k - A i k * c' k)) by (intros; ring). rewrite rsum_minus. ring. }
  rewrite !rsum_plus, rsum_scal.
  assert (CR : rsum N (fun i => dl i * res i) = 0).
  { unfold dl. rewrite (rsum_ext N _ (fun i => rsum nm (fun k => (cf k - c' k) * (A i k * res i)))) by (intros; rewrite <- rsum_scal_r; apply rsum_ext; intros; ring). rewrite rsum_swap. apply rsum_zero. intros k Hk. rewrite rsum_scal, (ORT' k Hk). ring. }
  rewrite CR. assert (0 <= rsum N (fun i => dl i ^ 2)) by (apply rsum_nonneg; intros; apply pow2_ge_0).
  rewrite (rsum_ext N (fun i => (px _ (i / n) (i mod n) - rsum nm (fun k => A i k * nth k _ 0)) ^ 2) (fun i => res i ^ 2)); [lra|].
  intros i Hi. unfold res. fold (w i). do 2 f_equal. apply rsum_ext. intros k Hk. rewrite EC by exact Hk. reflexivity.
Qed.

(** ** Wavefront error of a row of coefficients *)
Lemma np_std_nonneg l e : np_std l = Ok e -> 0 <= e.
Proof. unfold np_std. destruct l; [discriminate|]. intros H. apply Ok_inj in H. subst e. apply sqrt_pos. Qed.
Lemma pixels_eq a b : img_eq a b -> pixels a = pixels b.
Proof.
  intros (R & C & V). unfold pixels. rewrite <- R, <- C. assert (HI : forall i, In i (seq 0 (rows a)) -> (i < rows a)%nat) by (intros i Hi; apply in_seq in Hi; lia). revert HI. generalize (seq 0 (rows a)). intros l HI.
  induction l as [|i l IH]; [reflexivity|]. cbn [flat_map]. rewrite IH by (intros; apply HI; now right). f_equal. apply map_ext_in. intros j Hj. apply in_seq in Hj. apply V; [apply HI; now left|lia].
Qed.
Definition all_zero (t : list R) : bool := forallb (fun v => if Req_EM_T v 0 then true else false) t.
Lemma any_all t : existsb (fun v => if Req_EM_T v 0 then false else true) t = negb (all_zero t).
Proof. unfold all_zero. induction t as [|v t IH]; [reflexivity|]. cbn. rewrite IH. destruct (Req_EM_T v 0); reflexivity. Qed.

(** The standard deviation of the non-zero pixels of the map, after removal of tip and tilt. *)
Theorem C115_lwe_value : forall pinv n nm pup A t e c, pinv2_ok pinv -> all_zero t = false -> lwe_row pinv true n nm pup A t = Ok (e, c) ->
  exists o, rows o = n /\ cols o = n /\ is_filtered n pup (px (lwe_opd n nm pup A t)) (px o) /\ np_std (nonzeros o) = Ok e /\ 0 <= e.
Proof.
  intros pinv n nm pup A t e c HP HZ H. unfold lwe_row in H. rewrite any_all, HZ in H. cbn [negb] in H. unfold compute_tiptilt_filtering_matrix in H. destruct (tt_value n pup) as (M & EM & VM). rewrite EM in H. cbn [bind] in H.
  rewrite Nat.eqb_refl in H. cbn [negb] in H. cbn [bind fst snd] in H.
  match type of H with context [remove_tiptilt_from_phase ?ph _ ?hh ?pp] => destruct (remove_ok n ph hh pp eq_refl eq_refl) as (cc & E & _) end. rewrite E in H. cbn [bind fst snd] in H.
  set (o := filtered _ _ _) in *. destruct (np_std (nonzeros o)) as [e'|] eqn:EE; cbn [bind] in H; [|discriminate]. apply Ok_inj in H. injection H as -> _. exists o. split; [reflexivity|]. split; [reflexivity|]. split; [|split; [exact EE|apply (np_std_nonneg _ _ EE)]].
  split; [apply (filt_form pinv n pup M VM)|split; [apply (filt_x pinv n pup M HP VM)|apply (filt_y pinv n pup M HP VM)]].
Qed.
(** Rows whose maps differ by a tip and tilt over the pupil have the same error and the same coefficients. *)
Theorem C115_lwe_tilt_free : forall pinv n nm pup A t t', pinv2_ok pinv -> all_zero t = false -> all_zero t' = false ->
  (exists sx sy, forall a b, (a < n)%nat -> (b < n)%nat -> px (lwe_opd n nm pup A t') a b = px (lwe_opd n nm pup A t) a b + tilt n pup sx sy a b) ->
  lwe_row pinv true n nm pup A t' = lwe_row pinv true n nm pup A t.
Proof.
  intros pinv n nm pup A t t' HP HZ HZ' G. unfold lwe_row. rewrite !any_all, HZ, HZ'. cbn [negb]. unfold compute_tiptilt_filtering_matrix. destruct (tt_value n pup) as (M & EM & VM). rewrite EM. cbn [bind].
  rewrite Nat.eqb_refl. cbn [negb]. cbn [bind fst snd].
  match goal with |- context [remove_tiptilt_from_phase (lwe_opd n nm pup A t') _ ?hh (Some (?m, ?pp))] =>
    destruct (remove_ok n (lwe_opd n nm pup A t') hh (Some (m, pp)) eq_refl eq_refl) as (c' & E' & C' & _); destruct (remove_ok n (lwe_opd n nm pup A t) hh (Some (m, pp)) eq_refl eq_refl) as (c & E & C & _);
    set (o' := filtered n hh (lwe_opd n nm pup A t')) in *; set (o := filtered n hh (lwe_opd n nm pup A t)) in * end.
  rewrite E, E'. cbn [bind fst snd].
  assert (EQ : img_eq o' o).
  { split; [reflexivity|]. split; [reflexivity|]. intros a b Ha Hb. apply (filtered_unique n pup (px (lwe_opd n nm pup A t')) (px (lwe_opd n nm pup A t))); [| |exact G|exact Ha|exact Hb];
    (split; [apply (filt_form pinv n pup M VM)|split; [apply (filt_x pinv n pup M HP VM)|apply (filt_y pinv n pup M HP VM)]]). }
  unfold nonzeros. rewrite (pixels_eq _ _ EQ). rewrite (C _ _ eq_refl), (C' _ _ eq_refl).
  replace (map (fun k => rsum (n * n) (fun i => _ k i * px o' (i / n) (i mod n))) (seq 0 nm)) with (map (fun k => rsum (n * n) (fun i => pinv (n * n)%nat nm (fun i k => A i k * (if pup (i / n)%nat (i mod n)%nat then 1 else 0)) k i * px o (i / n) (i mod n))) (seq 0 nm)); [reflexivity|].
  apply map_ext. intros k. apply rsum_ext. intros i Hi. destruct EQ as (_ & _ & V). rewrite V; [reflexivity| |]; cbn [rows cols o' filtered].
  - apply Nat.div_lt_upper_bound; [destruct n; lia|exact Hi].
  - apply Nat.mod_upper_bound. destruct n; lia.
Qed.
(** A row without coefficients gives -1; without tip-tilt removal it makes the call fail instead. *)
Theorem C115_lwe_zero_refuted : forall pinv n nm pup A t, all_zero t = true ->
  lwe_row pinv true n nm pup A t = Ok (-1, Some (repeat (-1) nm)) /\ lwe_row pinv false n nm pup A t = Err UnboundLocalError.
Proof. intros pinv n nm pup A t HZ. unfold lwe_row. rewrite any_all, HZ. cbn [negb]. split; reflexivity. Qed.
Print Assumptions C115_filter.
Print Assumptions C115_lwe_tilt_free.

(** A 2 x 2 map that is half tilt, half checkerboard. *)
Example ex_tilt : exists H o, compute_tiptilt_filtering_matrix (fun n _ A => pinv_two n A) 2 (fun _ _ => true) None = Ok (H, None) /\
  remove_tiptilt_from_phase (mkImg 2 2 (fun a b => match a, b with 0%nat, 0%nat => 1 | 0%nat, _ => 4 | _, 0%nat => -1 | _, _ => 8 end)) 4 H None = Ok (o, None) /\ px o 0 0 - px o 0 1 - px o 1 0 + px o 1 1 = 6.
Proof.
  destruct (C115_filter (fun n _ A => pinv_two n A) 2 (fun _ _ => true) (mkImg 2 2 (fun a b => match a, b with 0%nat, 0%nat => 1 | 0%nat, _ => 4 | _, 0%nat => -1 | _, _ => 8 end))) as (H & o & E & E' & _ & _ & ((tx & ty & F) & _) & _); [intros n A; apply pinv_two_ok|reflexivity|reflexivity|].
  exists H, o. split; [exact E|]. split; [exact E'|]. rewrite !F by lia. unfold tilt, cx. cbn. field.
Qed.

Print Assumptions C115_projection.
Print Assumptions C115_refused.
Print Assumptions C115_coefficients.
Print Assumptions C115_lwe_value.
Print Assumptions C115_lwe_zero_refuted.
