(** C78: singular value decomposition of the covariance, Uij basis, examples. *)
From Coq Require Import Reals List Arith ZArith Bool Lia Lra Psatz FunctionalExtensionality.
From Verif Require Import Base_Py Base_Sum Base_DFT M_Image M_Fourier M_Tools M_Atmo M_Zernike2 M_Model M_Model2 M_Psf M_Psfr S_Psfr L_Image2 L_Fourier L_Fourier2 L_Fourier4 L_Model3 L_Psfr P_Psfr.
From Coquelicot Require Import Complex.
Import ListNotations.
Open Scope R_scope.

Definition kron (i j : nat) : R := if (i =? j)%nat then 1 else 0.
(** numpy.linalg.svd of an n x n matrix: C = U diag(ss) V with U and V orthogonal and the
    singular values non-negative, in decreasing order (V is what NumPy calls vh). *)
Definition is_svd (n : nat) (C U V : nat -> nat -> R) (ss : list R) : Prop :=
  length ss = n /\
  (forall i j, (i < n)%nat -> (j < n)%nat -> C i j = rsum n (fun k => U i k * nth k ss 0 * V k j)) /\
  (forall k k', (k < n)%nat -> (k' < n)%nat -> rsum n (fun i => U i k * U i k') = kron k k') /\
  (forall k k', (k < n)%nat -> (k' < n)%nat -> rsum n (fun j => V k j * V k' j) = kron k k') /\
  (forall k, (k < n)%nat -> 0 <= nth k ss 0) /\
  (forall k, (S k < n)%nat -> nth (S k) ss 0 <= nth k ss 0).
Lemma rsum_kron n k f : (k < n)%nat -> rsum n (fun i => kron k i * f i) = f k.
Proof.
  intros Hk. rewrite (rsum_single n k); [unfold kron; rewrite Nat.eqb_refl; ring|exact Hk|].
  intros i Hi Hne. unfold kron. destruct (Nat.eqb_spec k i); [congruence|ring].
Qed.
Lemma svd_left n C U V ss k j : is_svd n C U V ss -> (k < n)%nat -> (j < n)%nat -> rsum n (fun i => U i k * C i j) = nth k ss 0 * V k j.
Proof.
  intros (_ & HC & HU & _) Hk Hj.
  rewrite (rsum_ext n _ (fun i => rsum n (fun k' => U i k * U i k' * (nth k' ss 0 * V k' j)))).
  - rewrite rsum_swap. rewrite (rsum_ext n _ (fun k' => kron k k' * (nth k' ss 0 * V k' j))).
    + rewrite rsum_kron by exact Hk. reflexivity.
    + intros k' Hk'. rewrite rsum_scal_r. now rewrite HU.
  - intros i Hi. rewrite HC by assumption. rewrite <- rsum_scal. apply rsum_ext. intros k' _. ring.
Qed.
Lemma svd_right n C U V ss k i : is_svd n C U V ss -> (k < n)%nat -> (i < n)%nat -> rsum n (fun j => C i j * V k j) = U i k * nth k ss 0.
Proof.
  intros (_ & HC & _ & HV & _) Hk Hi.
  rewrite (rsum_ext n _ (fun j => rsum n (fun k' => V k j * V k' j * (U i k' * nth k' ss 0)))).
  - rewrite rsum_swap. rewrite (rsum_ext n _ (fun k' => kron k k' * (U i k' * nth k' ss 0))).
    + rewrite rsum_kron by exact Hk. reflexivity.
    + intros k' Hk'. rewrite rsum_scal_r. now rewrite HV.
  - intros j Hj. rewrite HC by assumption. rewrite Rmult_comm, <- rsum_scal. apply rsum_ext. intros k' _. ring.
Qed.
(** for a diagonal matrix, singular vectors are carried by the matching variances *)
Lemma svd_diag n c U V ss k j : is_svd n (fun i j => kron i j * c j) U V ss -> (k < n)%nat -> (j < n)%nat -> (c j ^ 2 - nth k ss 0 ^ 2) * V k j = 0.
Proof.
  intros H Hk Hj. pose proof (svd_left _ _ _ _ _ k j H Hk Hj) as L. pose proof (svd_right _ _ _ _ _ k j H Hk Hj) as Rt. cbv beta in L, Rt.
  rewrite (rsum_ext n _ (fun i => kron j i * (U i k * c j))) in L by (intros i _; unfold kron; rewrite (Nat.eqb_sym i j); ring). rewrite rsum_kron in L by exact Hj.
  rewrite (rsum_ext n _ (fun i => kron j i * (c i * V k i))) in Rt by (intros i _; ring). rewrite rsum_kron in Rt by exact Hj.
  replace ((c j ^ 2 - nth k ss 0 ^ 2) * V k j) with (c j * (c j * V k j) - nth k ss 0 * (nth k ss 0 * V k j)) by ring. rewrite Rt, <- L. ring.
Qed.
Lemma svd_row_nonzero n C U V ss k : is_svd n C U V ss -> (k < n)%nat -> exists j, (j < n)%nat /\ V k j <> 0.
Proof.
  intros (_ & _ & _ & HV & _) Hk. specialize (HV k k Hk Hk). unfold kron in HV. rewrite Nat.eqb_refl in HV.
  assert (D : forall m, (m <= n)%nat -> (exists j, (j < m)%nat /\ V k j <> 0) \/ rsum m (fun j => V k j * V k j) = 0).
  { induction m as [|m IH]; intros Hm; [right; reflexivity|]. destruct IH as [(j & Hj & Hz)|Z]; [lia|left; exists j; split; [lia|exact Hz]|].
    destruct (Req_EM_T (V k m) 0) as [E|E]; [right; cbn [rsum]; rewrite Z, E; ring|left; exists m; split; [lia|exact E]]. }
  destruct (D n (le_n n)) as [X|X]; [exact X|lra].
Qed.
(** Finding: the singular vectors are taken transposed (np.dot(modes, V) with V = vh, whose
    ROWS are the singular vectors). For three uncorrelated modes of variances 1, 3, 2 the
    structure function is, for every valid decomposition, the one of the variances 2, 1, 3. *)
Definition var132 (i j : nat) : R := kron i j * nth j [1; 3; 2] 0.
Definition var213 (i j : nat) : R := kron i j * nth j [2; 1; 3] 0.
Lemma sq_eq a b : 0 <= a -> 0 <= b -> a ^ 2 - b ^ 2 = 0 -> a = b.
Proof. intros Ha Hb H. nra. Qed.
Lemma transposed U V ss : is_svd 3 var132 U V ss -> forall l l', (l < 3)%nat -> (l' < 3)%nat -> rsum (length ss) (fun k => nth k ss 0 * V l k * V l' k) = var213 l l'.
Proof.
  intros H. pose proof H as (Hl & _ & _ & HV & H0 & Hd). rewrite Hl.
  assert (D : forall k j, (k < 3)%nat -> (j < 3)%nat -> V k j <> 0 -> nth k ss 0 = nth j [1; 3; 2] 0).
  { intros k j Hk Hj Hz. pose proof (svd_diag 3 (fun j => nth j [1; 3; 2] 0) U V ss k j H Hk Hj) as E. apply Rmult_integral in E. destruct E as [E|E]; [|contradiction]. symmetry. apply sq_eq; [|now apply H0|exact E]. destruct j as [|[|[|]]]; cbn; lra || lia. }
  assert (P : forall k j, (k < 3)%nat -> (j < 3)%nat -> nth k ss 0 <> nth j [1; 3; 2] 0 -> V k j = 0).
  { intros k j Hk Hj Hne. destruct (Req_EM_T (V k j) 0) as [E|E]; [exact E|]. elim Hne. now apply D. }
  assert (Cs : forall k, (k < 3)%nat -> nth k ss 0 = 1 \/ nth k ss 0 = 2 \/ nth k ss 0 = 3).
  { intros k Hk. destruct (svd_row_nonzero _ _ _ _ _ k H Hk) as (j & Hj & Hz). rewrite (D k j Hk Hj Hz). destruct j as [|[|[|]]]; cbn; auto. lia. }
  assert (Ds : forall k k', (k < 3)%nat -> (k' < 3)%nat -> k <> k' -> nth k ss 0 <> nth k' ss 0).
  { intros k k' Hk Hk' Hne E. pose proof (HV k k' Hk Hk') as O. pose proof (HV k k Hk Hk) as O1. pose proof (HV k' k' Hk' Hk') as O2. unfold kron in *. destruct (Nat.eqb_spec k k'); [contradiction|]. rewrite !Nat.eqb_refl in *. cbn [rsum] in O, O1, O2.
    destruct (Cs k Hk) as [Ek|[Ek|Ek]]; pose proof Ek as Ek'; rewrite E in Ek'.
    - rewrite (P k 1%nat), (P k 2%nat) in O1, O by (try lia; cbn; lra). rewrite (P k' 1%nat), (P k' 2%nat) in O2, O by (try lia; cbn; lra). assert (V k 0%nat * V k' 0%nat = 0) by lra. assert (V k 0%nat ^ 2 = 1) by nra. assert (V k' 0%nat ^ 2 = 1) by nra. assert ((V k 0%nat * V k' 0%nat) ^ 2 = 1) by (rewrite Rpow_mult_distr; nra). nra.
    - rewrite (P k 0%nat), (P k 1%nat) in O1, O by (try lia; cbn; lra). rewrite (P k' 0%nat), (P k' 1%nat) in O2, O by (try lia; cbn; lra). assert (V k 2%nat * V k' 2%nat = 0) by lra. assert (V k 2%nat ^ 2 = 1) by nra. assert (V k' 2%nat ^ 2 = 1) by nra. assert ((V k 2%nat * V k' 2%nat) ^ 2 = 1) by (rewrite Rpow_mult_distr; nra). nra.
    - rewrite (P k 0%nat), (P k 2%nat) in O1, O by (try lia; cbn; lra). rewrite (P k' 0%nat), (P k' 2%nat) in O2, O by (try lia; cbn; lra). assert (V k 1%nat * V k' 1%nat = 0) by lra. assert (V k 1%nat ^ 2 = 1) by nra. assert (V k' 1%nat ^ 2 = 1) by nra. assert ((V k 1%nat * V k' 1%nat) ^ 2 = 1) by (rewrite Rpow_mult_distr; nra). nra. }
  assert (V3 : nth 0 ss 0 = 3 /\ nth 1 ss 0 = 2 /\ nth 2 ss 0 = 1).
  { pose proof (Hd 0%nat ltac:(lia)). pose proof (Hd 1%nat ltac:(lia)). pose proof (Ds 0%nat 1%nat ltac:(lia) ltac:(lia) ltac:(lia)). pose proof (Ds 1%nat 2%nat ltac:(lia) ltac:(lia) ltac:(lia)).
    destruct (Cs 0%nat ltac:(lia)) as [A|[A|A]], (Cs 1%nat ltac:(lia)) as [B|[B|B]], (Cs 2%nat ltac:(lia)) as [C|[C|C]]; rewrite A, B, C in *; repeat split; try lra; exfalso; lra. }
  destruct V3 as (A & B & C).
  assert (Z00 : V 0%nat 0%nat = 0) by (apply P; try lia; rewrite A; cbn [nth]; lra).
  assert (Z02 : V 0%nat 2%nat = 0) by (apply P; try lia; rewrite A; cbn [nth]; lra).
  assert (Z10 : V 1%nat 0%nat = 0) by (apply P; try lia; rewrite B; cbn [nth]; lra).
  assert (Z11 : V 1%nat 1%nat = 0) by (apply P; try lia; rewrite B; cbn [nth]; lra).
  assert (Z21 : V 2%nat 1%nat = 0) by (apply P; try lia; rewrite C; cbn [nth]; lra).
  assert (Z22 : V 2%nat 2%nat = 0) by (apply P; try lia; rewrite C; cbn [nth]; lra).
  pose proof (HV 0%nat 0%nat ltac:(lia) ltac:(lia)) as N0. pose proof (HV 1%nat 1%nat ltac:(lia) ltac:(lia)) as N1. pose proof (HV 2%nat 2%nat ltac:(lia) ltac:(lia)) as N2. unfold kron in N0, N1, N2. cbn [rsum Nat.eqb] in N0, N1, N2.
  rewrite Z00, Z02 in N0. rewrite Z10, Z11 in N1. rewrite Z21, Z22 in N2.
  intros l l' L L'. cbn [rsum]. rewrite A, B, C. unfold var213, kron.
  destruct l as [|[|[|]]]; try lia; destruct l' as [|[|[|]]]; try lia; cbn [Nat.eqb nth]; rewrite ?Z00, ?Z02, ?Z10, ?Z11, ?Z21, ?Z22; lra.
Qed.
Lemma pupil_sf_cov n nm P Mo C C' s t : (forall l l', (l < nm)%nat -> (l' < nm)%nat -> C l l' = C' l l') -> pupil_sf n nm P Mo C s t = pupil_sf n nm P Mo C' s t.
Proof. intros H. unfold pupil_sf. f_equal. apply pair_sum_ext. intros a b. unfold diff_variance. apply rsum_ext. intros l Hl. apply rsum_ext. intros l' Hl'. now rewrite H. Qed.
Theorem C78_transposed_refuted : forall svd interp Cmm modes pupil n_otf p q npup otf dphi U,
  (0 < q)%Z -> (2 * q <= p)%Z -> rows pupil = npup -> cols pupil = npup -> (0 < npup)%nat -> binary npup (px pupil) -> rows modes = (npup * npup)%nat -> cols modes = 3%nat ->
  (forall i j, px Cmm i j = var132 i j) -> is_svd 3 (px Cmm) U (px (snd (svd Cmm))) (fst (svd Cmm)) ->
  modes2Otf svd interp Cmm modes pupil n_otf p q Vii = Ok (otf, dphi) ->
  let N := (npup + 2 * margin npup p q)%nat in
  exists d, dphi = interpolateTo interp d n_otf /\
   forall i j, (i < N)%nat -> (j < N)%nat ->
   let s := (Z.of_nat i - Z.of_nat (N / 2))%Z in let t := (Z.of_nat j - Z.of_nat (N / 2))%Z in
   px d i j = if Rlt_dec (/ 10 ^ 7) (overlap npup (px pupil) s t / overlap npup (px pupil) 0 0)
              then pupil_sf npup 3 (px pupil) (fun l a b => px modes (a * npup + b) l) var213 s t else 0.
Proof.
  intros svd interp Cmm modes pupil n_otf p q npup otf dphi U Hq Hp Er Ec Hn Hb Hr H3 HC HS H N.
  destruct (modes2Otf_inv _ _ _ _ _ _ _ _ _ _ _ Hq Hp Er Ec Hn Hb Hr H) as (_ & _ & d & o & om & E & R1 & R2 & _ & _ & _ & _ & V). exists d. split; [exact E|].
  intros i j Hi Hj s t. destruct (V i j Hi Hj) as (Vd & _). fold N s t in Vd. rewrite Vd. destruct (Rlt_dec _ _); [|reflexivity]. rewrite H3. apply pupil_sf_cov. intros l l' Hl Hl'. unfold eff_cov.
  assert (HS' : is_svd 3 var132 U (px (snd (svd Cmm))) (fst (svd Cmm))). { replace var132 with (px Cmm); [exact HS|]. apply functional_extensionality; intros a. apply functional_extensionality; intros b. apply HC. }
  exact (transposed _ _ _ HS' l l' Hl Hl').
Qed.
Print Assumptions C78_transposed_refuted.
(** the two structure functions differ: one poke mode on a 2 x 2 pupil, 1/2 instead of 1 *)
Example C78_transposed_differs :
  let poke l a b := kron l 0 * kron a 0 * kron b 0 in
  pupil_sf 2 3 (fun _ _ => 1) poke var132 0 1 = 1 / 2 /\ pupil_sf 2 3 (fun _ _ => 1) poke var213 0 1 = 1.
Proof. unfold pupil_sf, overlap, pair_sum, diff_variance, zext, var132, var213, kron. cbn. change (Pos.to_nat 1) with 1%nat. cbn. split; field. Qed.
(** an SVD of the covariance exists: the hypothesis of the theorem is satisfiable *)
Example C78_svd_exists :
  is_svd 3 var132 (fun i k => nth k (nth i [[0; 0; 1]; [1; 0; 0]; [0; 1; 0]] []) 0)
                  (fun k j => nth j (nth k [[0; 1; 0]; [0; 0; 1]; [1; 0; 0]] []) 0) [3; 2; 1].
Proof.
  unfold is_svd, var132, kron. split; [reflexivity|]. split; [|split; [|split; [|split]]].
  - intros [|[|[|]]] [|[|[|]]] A B; try lia; cbn; ring.
  - intros [|[|[|]]] [|[|[|]]] A B; try lia; cbn; ring.
  - intros [|[|[|]]] [|[|[|]]] A B; try lia; cbn; ring.
  - intros [|[|[|]]] A; try lia; cbn; lra.
  - intros [|[|[|]]] A; try lia; cbn; lra.
Qed.
(** Finding: the sign of the covariance is lost. When more noise is subtracted than measured
    (covariance -c I), the structure function is the one of +c I. *)
Theorem C78_noise_sign_refuted : forall svd interp Cmm modes pupil n_otf p q npup otf dphi U c,
  (0 < q)%Z -> (2 * q <= p)%Z -> rows pupil = npup -> cols pupil = npup -> (0 < npup)%nat -> binary npup (px pupil) -> rows modes = (npup * npup)%nat ->
  0 < c -> (forall i j, px Cmm i j = kron i j * - c) -> is_svd (cols modes) (px Cmm) U (px (snd (svd Cmm))) (fst (svd Cmm)) ->
  modes2Otf svd interp Cmm modes pupil n_otf p q Vii = Ok (otf, dphi) ->
  let N := (npup + 2 * margin npup p q)%nat in
  exists d, dphi = interpolateTo interp d n_otf /\
   forall i j, (i < N)%nat -> (j < N)%nat ->
   let s := (Z.of_nat i - Z.of_nat (N / 2))%Z in let t := (Z.of_nat j - Z.of_nat (N / 2))%Z in
   px d i j = if Rlt_dec (/ 10 ^ 7) (overlap npup (px pupil) s t / overlap npup (px pupil) 0 0)
              then pupil_sf npup (cols modes) (px pupil) (fun l a b => px modes (a * npup + b) l) (fun l l' => kron l l' * c) s t else 0.
Proof.
  intros svd interp Cmm modes pupil n_otf p q npup otf dphi U c Hq Hp Er Ec Hn Hb Hr Hc HC HS H N.
  destruct (modes2Otf_inv _ _ _ _ _ _ _ _ _ _ _ Hq Hp Er Ec Hn Hb Hr H) as (_ & _ & d & o & om & E & R1 & R2 & _ & _ & _ & _ & V). exists d. split; [exact E|].
  intros i j Hi Hj s t. destruct (V i j Hi Hj) as (Vd & _). fold N s t in Vd. rewrite Vd. destruct (Rlt_dec _ _); [|reflexivity]. apply pupil_sf_cov. intros l l' Hl Hl'. unfold eff_cov. set (W := px (snd (svd Cmm))) in *. set (ss := fst (svd Cmm)) in *.
  assert (HS' : is_svd (cols modes) (fun i j => kron i j * (fun _ => - c) j) U W ss). { replace (fun i j => kron i j * (fun _ => - c) j) with (px Cmm); [exact HS|]. apply functional_extensionality; intros a. apply functional_extensionality; intros b. apply HC. }
  pose proof HS as (Hlen & _ & _ & HV & H0 & _). rewrite Hlen.
  assert (Es : forall k, (k < cols modes)%nat -> nth k ss 0 = c).
  { intros k Hk. destruct (svd_row_nonzero _ _ _ _ _ k HS Hk) as (j' & Hj' & Hz). pose proof (svd_diag _ _ _ _ _ k j' HS' Hk Hj') as E'. apply Rmult_integral in E'. destruct E' as [E'|E']; [|contradiction]. symmetry. apply sq_eq; [lra|now apply H0|]. replace (c ^ 2) with ((- c) ^ 2) by ring. exact E'. }
  rewrite (rsum_ext _ _ (fun k => c * (W l k * W l' k))) by (intros k Hk; rewrite Es by exact Hk; ring). rewrite rsum_scal, HV by assumption. ring.
Qed.
Print Assumptions C78_noise_sign_refuted.
(** Finding: with the basis "Uij", the variances of the modes never enter: for uncorrelated
    modes, whatever their number and variances, the structure function is identically null;
    also for any covariance of one or two modes. *)
Lemma foldM_inv {A B} (Q : A -> Prop) (f : A -> B -> result A) l : (forall a b a', In b l -> Q a -> f a b = Ok a' -> Q a') -> forall a a', Q a -> foldM f a l = Ok a' -> Q a'.
Proof.
  induction l as [|b l IH]; intros Hf a a' Ha H; cbn [foldM] in H; [now injection H as <-|]. destruct (f a b) as [a1|] eqn:E; cbn [bind] in H; [|discriminate].
  apply (IH (fun x y z Hy => Hf x y z (or_intror Hy)) a1 a'); [|exact H]. exact (Hf a b a1 (or_introl eq_refl) Ha E).
Qed.
Theorem C78_Uij_refuted : forall Cmm modes P G gmax p q d,
  (forall i j, (0 < j)%nat -> (j < i)%nat -> (i < cols modes)%nat -> px Cmm i j = 0) \/ (cols modes <= 2)%nat ->
  uij_dphi Cmm modes P G gmax p q = Ok d -> forall u v, px d u v = 0.
Proof.
  intros Cmm modes P G gmax p q d HC H. unfold uij_dphi in H.
  revert H. apply (foldM_inv (fun d => forall u v, px d u v = 0)); [|intros; reflexivity].
  intros a i a' Hi Ha H. revert H. apply (foldM_inv (fun d => forall u v, px d u v = 0)); [|exact Ha].
  intros b j b' Hj Hb H. apply in_seq in Hi, Hj. destruct HC as [HC|HC]; [|lia].
  unfold uij_step in H. destruct (negb _) in H; [discriminate|]. destruct (masked_mode _ _ _ _) as [Mi|] in H; cbn [bind] in H; [|discriminate]. destruct (masked_mode _ _ _ _) as [Mj|] in H; cbn [bind] in H; [|discriminate]. destruct (negb _) in H; [discriminate|]. injection H as <-. intros u v. cbn [px]. rewrite Hb, HC by lia. ring.
Qed.
Print Assumptions C78_Uij_refuted.
(** such calls return: two modes on a 2 x 2 pupil *)
Example C78_Uij_example : exists d, uij_dphi (mkImg 2 2 (fun _ _ => 5)) (mkImg 4 2 (fun i l => INR (i + l))) (mkImg 4 4 (fun _ _ => 1)) (otf_G (mkImg 4 4 (fun _ _ => 1))) 16 2 1 = Ok d.
Proof. eexists. reflexivity. Qed.
(** a single mode of variance 4 on the 2 x 2 pupil, sampling 2: hypotheses of the theorems *)
Definition svd1 (C : img) : list R * img := ([px C 0 0], mkImg 1 1 (fun _ _ => 1)).
Example C78_example : exists otf dphi d, modes2Otf svd1 (fun a _ => a) (mkImg 1 1 (fun _ _ => 4)) (mkImg 4 1 (fun i _ => INR i)) (mkImg 2 2 (fun _ _ => 1)) 4 2 1 Vii = Ok (otf, dphi) /\
  dphi = d /\ px d 2 3 = 4.
Proof.
  set (C := mkImg 1 1 (fun _ _ => 4)). set (M := mkImg 4 1 (fun i _ => INR i)). set (P := mkImg 2 2 (fun _ _ => 1)).
  assert (B : binary 2 (px P)) by (intros i j _ _; right; reflexivity).
  destruct (C78_defined svd1 (fun a _ => a) C M P 2 1 2 ltac:(lia) ltac:(lia) eq_refl eq_refl ltac:(lia) B eq_refl eq_refl eq_refl) as (otf & dphi & E).
  - exists 0%nat, 0%nat. repeat split; lia || reflexivity.
  - exists 0%nat, 0%nat. split; [cbn; lia|]. split; [cbn; lia|]. cbn. lra.
  - replace (2 + 2 * margin 2 2 1)%nat with 4%nat in E by reflexivity. destruct (C78_residual svd1 (fun a _ => a) C M P 4%nat 2%Z 1%Z 2%nat otf dphi ltac:(lia) ltac:(lia) eq_refl eq_refl ltac:(lia) B eq_refl E) as (d & Ed & R1 & R2 & V).
    { change (cols M) with 1%nat. intros l l' L L'. assert (l = 0%nat) as -> by lia. assert (l' = 0%nat) as -> by lia. unfold eff_cov. cbn. ring. }
    exists otf, dphi, d. split; [exact E|]. change (2 + 2 * margin 2 2 1)%nat with 4%nat in *. split. { rewrite Ed. unfold interpolateTo. rewrite R1, R2. reflexivity. }
    specialize (V 2%nat 3%nat ltac:(lia) ltac:(lia)). cbv zeta in V. change (Z.of_nat 2 - Z.of_nat (4 / 2))%Z with 0%Z in V. change (Z.of_nat 3 - Z.of_nat (4 / 2))%Z with 1%Z in V.
    assert (O1 : overlap 2 (px P) 0 1 = 2) by (unfold overlap, pair_sum, zext; cbn; ring). assert (O0 : overlap 2 (px P) 0 0 = 4) by (unfold overlap, pair_sum, zext; cbn; ring).
    match type of V with _ = (if ?c then _ else _) => destruct c as [|n0] end; [|exfalso; apply n0].
    2:{ apply Rlt_le_trans with (/ 2); [|idtac]. 2:{ rewrite O1, O0. lra. } apply Rinv_lt_contravar.
        - apply Rmult_lt_0_compat; [lra|]. apply pow_lt. lra.
        - replace (10 ^ 7) with 10000000 by ring. lra. }
    rewrite V. unfold pupil_sf. rewrite O1. unfold pair_sum, diff_variance, zext, P, M, C. cbn. change (Pos.to_nat 1) with 1%nat. cbn. field.
Qed.
