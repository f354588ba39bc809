(** Finite sums over R, finite sums over C and the lemmas used everywhere. *)
From Coq Require Export Reals Lra Psatz.
From Coq Require Import Arith Lia.
From Coquelicot Require Import Complex.
Open Scope R_scope.

Fixpoint rsum (n : nat) (f : nat -> R) : R :=
  match n with
  | O => 0
  | S m => rsum m f + f m
  end.

Lemma rsum_ext n f g : (forall i, (i < n)%nat -> f i = g i) -> rsum n f = rsum n g.
Proof.
  induction n as [|n IH]; intros H; cbn [rsum]; [reflexivity|].
  rewrite IH by (intros; apply H; lia). rewrite H by lia. reflexivity.
Qed.

Lemma rsum_zero n f : (forall i, (i < n)%nat -> f i = 0) -> rsum n f = 0.
Proof.
  induction n as [|n IH]; intros H; cbn [rsum]; [reflexivity|].
  rewrite IH by (intros; apply H; lia). rewrite H by lia. lra.
Qed.

Lemma rsum_plus n f g : rsum n (fun i => f i + g i) = rsum n f + rsum n g.
Proof. induction n as [|n IH]; cbn [rsum]; [lra|]. rewrite IH; lra. Qed.

Lemma rsum_minus n f g : rsum n (fun i => f i - g i) = rsum n f - rsum n g.
Proof. induction n as [|n IH]; cbn [rsum]; [lra|]. rewrite IH; lra. Qed.

Lemma rsum_opp n f : rsum n (fun i => - f i) = - rsum n f.
Proof. induction n as [|n IH]; cbn [rsum]; [lra|]. rewrite IH; lra. Qed.

Lemma rsum_scal n c f : rsum n (fun i => c * f i) = c * rsum n f.
Proof. induction n as [|n IH]; cbn [rsum]; [lra|]. rewrite IH; lra. Qed.

Lemma rsum_scal_r n c f : rsum n (fun i => f i * c) = rsum n f * c.
Proof. induction n as [|n IH]; cbn [rsum]; [lra|]. rewrite IH; lra. Qed.

Lemma rsum_div n c f : rsum n (fun i => f i / c) = rsum n f / c.
Proof. unfold Rdiv; apply rsum_scal_r. Qed.

Lemma rsum_const n c : rsum n (fun _ => c) = INR n * c.
Proof.
  induction n as [|n IH]; cbn [rsum]; [simpl; lra|].
  rewrite IH, S_INR; lra.
Qed.

Lemma rsum_nonneg n f : (forall i, (i < n)%nat -> 0 <= f i) -> 0 <= rsum n f.
Proof.
  induction n as [|n IH]; intros H; cbn [rsum]; [lra|].
  assert (0 <= f n) by (apply H; lia).
  assert (0 <= rsum n f) by (apply IH; intros; apply H; lia). lra.
Qed.

Lemma rsum_le n f g :
  (forall i, (i < n)%nat -> f i <= g i) -> rsum n f <= rsum n g.
Proof.
  induction n as [|n IH]; intros H; cbn [rsum]; [lra|].
  assert (f n <= g n) by (apply H; lia).
  assert (rsum n f <= rsum n g) by (apply IH; intros; apply H; lia). lra.
Qed.

Lemma rsum_lt n f g :
  (0 < n)%nat -> (forall i, (i < n)%nat -> f i < g i) -> rsum n f < rsum n g.
Proof.
  induction n as [|n IH]; intros Hn H; [lia|]. cbn [rsum].
  destruct n as [|n].
  - cbn [rsum]. assert (f 0%nat < g 0%nat) by (apply H; lia). lra.
  - assert (f (S n) < g (S n)) by (apply H; lia).
    assert (rsum (S n) f < rsum (S n) g) by (apply IH; [lia|intros; apply H; lia]).
    lra.
Qed.

Lemma rsum_pos n f :
  (0 < n)%nat -> (forall i, (i < n)%nat -> 0 < f i) -> 0 < rsum n f.
Proof.
  intros Hn H. rewrite <- (rsum_zero n (fun _ => 0)) by reflexivity.
  apply rsum_lt; assumption.
Qed.

Lemma rsum_term_le n f k :
  (forall i, (i < n)%nat -> 0 <= f i) -> (k < n)%nat -> f k <= rsum n f.
Proof.
  induction n as [|n IH]; intros H Hk; [lia|]. cbn [rsum].
  assert (0 <= rsum n f) by (apply rsum_nonneg; intros; apply H; lia).
  assert (0 <= f n) by (apply H; lia).
  destruct (Nat.eq_dec k n) as [->|Hne]; [lra|].
  assert (f k <= rsum n f) by (apply IH; [intros; apply H; lia|lia]). lra.
Qed.

Lemma rsum_app a b f : rsum (a + b) f = rsum a f + rsum b (fun i => f (a + i)%nat).
Proof.
  induction b as [|b IH]; [rewrite Nat.add_0_r; cbn [rsum]; lra|].
  rewrite Nat.add_succ_r. cbn [rsum]. rewrite IH. lra.
Qed.

Lemma rsum_swap n m f :
  rsum n (fun i => rsum m (fun j => f i j)) = rsum m (fun j => rsum n (fun i => f i j)).
Proof.
  induction n as [|n IH]; cbn [rsum].
  - rewrite rsum_zero; [reflexivity|auto].
  - rewrite IH, <- rsum_plus. reflexivity.
Qed.

(** Re-indexing by blocks: i = a*k + b. *)
Lemma rsum_blocks k m f :
  rsum (m * k) f = rsum m (fun a => rsum k (fun b => f (a * k + b)%nat)).
Proof.
  induction m as [|m IH]; [reflexivity|].
  cbn [rsum]. rewrite <- IH.
  replace (S m * k)%nat with (m * k + k)%nat by lia.
  rewrite rsum_app. reflexivity.
Qed.

(** Shift by one: first term out. *)
Lemma rsum_S_l n f : rsum (S n) f = f 0%nat + rsum n (fun i => f (S i)).
Proof.
  change (S n) with (1 + n)%nat. rewrite rsum_app. cbn [rsum].
  rewrite Rplus_0_l. reflexivity.
Qed.

(** Reversal. *)
Lemma rsum_rev n f : rsum n f = rsum n (fun i => f (n - 1 - i)%nat).
Proof.
  induction n as [|n IH]; [reflexivity|].
  rewrite (rsum_S_l n (fun i => f (S n - 1 - i)%nat)).
  replace (S n - 1 - 0)%nat with n by lia. cbn [rsum].
  rewrite IH, Rplus_comm. f_equal. apply rsum_ext; intros i Hi. f_equal; lia.
Qed.

(** Single non-zero term. *)
Lemma rsum_single n k f :
  (k < n)%nat -> (forall i, (i < n)%nat -> i <> k -> f i = 0) -> rsum n f = f k.
Proof.
  induction n as [|n IH]; intros Hk H; [lia|]. cbn [rsum].
  destruct (Nat.eq_dec k n) as [->|Hne].
  - rewrite rsum_zero; [lra|]. intros i Hi; apply H; lia.
  - rewrite IH; [|lia|intros; apply H; lia]. rewrite (H n); [lra|lia|lia].
Qed.

Lemma rsum_Rabs n f : Rabs (rsum n f) <= rsum n (fun i => Rabs (f i)).
Proof.
  induction n as [|n IH]; cbn [rsum]; [rewrite Rabs_R0; lra|].
  eapply Rle_trans; [apply Rabs_triang|]. lra.
Qed.

(** Sums over a window [f a + ... + f (a+n-1)] extended by zeros outside. *)
Lemma rsum_window N a n f :
  (a + n <= N)%nat ->
  (forall i, (i < N)%nat -> (i < a \/ a + n <= i)%nat -> f i = 0) ->
  rsum N f = rsum n (fun i => f (a + i)%nat).
Proof.
  intros Hle H0.
  replace N with (a + (n + (N - a - n)))%nat by lia.
  rewrite rsum_app, rsum_app.
  rewrite (rsum_zero a f) by (intros i Hi; apply H0; lia).
  rewrite (rsum_zero (N - a - n) _) by (intros i Hi; apply H0; lia).
  lra.
Qed.

(** ** Complex sums *)
Fixpoint csum (n : nat) (f : nat -> C) : C :=
  match n with
  | O => RtoC 0
  | S m => Cplus (csum m f) (f m)
  end.

Lemma csum_ext n f g : (forall i, (i < n)%nat -> f i = g i) -> csum n f = csum n g.
Proof.
  induction n as [|n IH]; intros H; cbn [csum]; [reflexivity|].
  rewrite IH by (intros; apply H; lia). rewrite H by lia. reflexivity.
Qed.

Lemma csum_Re n f : fst (csum n f) = rsum n (fun i => fst (f i)).
Proof. induction n as [|n IH]; cbn [csum rsum]; [reflexivity|]. cbn. rewrite IH. reflexivity. Qed.

Lemma csum_Im n f : snd (csum n f) = rsum n (fun i => snd (f i)).
Proof. induction n as [|n IH]; cbn [csum rsum]; [reflexivity|]. cbn. rewrite IH. reflexivity. Qed.
