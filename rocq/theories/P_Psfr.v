(** C78: residual phase structure function of the PSF reconstruction (psfrUtils.modes2Otf). *)
From Coq Require Import Reals List Arith ZArith Bool Lia Lra Psatz FunctionalExtensionality.
From Verif Require Import Base_Py Base_Sum Base_DFT M_Image M_Fourier M_Tools M_Atmo M_Zernike2 M_Model M_Model2 M_Psf M_Psfr S_Psfr L_Image2 L_Fourier L_Fourier2 L_Fourier4 L_Model3 L_Psfr.
From Coquelicot Require Import Complex.
Import ListNotations.
Open Scope R_scope.

Lemma binary_range n f i j : binary n f -> (i < n)%nat -> (j < n)%nat -> 0 <= f i j <= 1.
Proof. intros H Hi Hj. destruct (H i j Hi Hj) as [ ->| ->]; lra. Qed.
Lemma zext_range n f a b : binary n f -> 0 <= zext n f a b <= 1.
Proof. intros H. unfold zext. destruct (_ && _)%bool eqn:E; [|lra]. apply (binary_range n); [exact H|lia|lia]. Qed.
Lemma zext_in n f a b : (a < n)%nat -> (b < n)%nat -> zext n f (Z.of_nat a) (Z.of_nat b) = f a b.
Proof. intros Ha Hb. unfold zext. replace (_ && _ && _ && _)%bool with true by lia. now rewrite !Nat2Z.id. Qed.
Lemma overlap_00 n P : overlap n P 0 0 = rsum n (fun a => rsum n (fun b => P a b * P a b)).
Proof. unfold overlap, pair_sum. apply rsum_ext. intros a Ha. apply rsum_ext. intros b Hb. rewrite !Z.add_0_r, zext_in by assumption. ring. Qed.
Lemma overlap_nonneg n P s t : binary n P -> 0 <= overlap n P s t.
Proof. intros H. unfold overlap, pair_sum. apply rsum_nonneg. intros a Ha. apply rsum_nonneg. intros b Hb. rewrite Rmult_1_r. apply Rmult_le_pos; [now apply zext_range|now apply (binary_range n)]. Qed.
Lemma pair_sum_nonneg n P s t w : binary n P -> (forall a b, 0 <= w a b) -> 0 <= pair_sum n P s t w.
Proof. intros H Hw. unfold pair_sum. apply rsum_nonneg. intros a Ha. apply rsum_nonneg. intros b Hb. apply Rmult_le_pos; [|apply Hw]. apply Rmult_le_pos; [now apply zext_range|now apply (binary_range n)]. Qed.
Lemma G_max pupil npup p q gmax : binary npup (px pupil) -> (0 < npup)%nat ->
  let r := margin npup p q in let N := (npup + 2 * r)%nat in let P := mkImg N N (padf 0 npup npup r r (px pupil)) in
  img_max (otf_G P) = Ok gmax -> gmax = overlap npup (px pupil) 0 0.
Proof.
  intros Hb Hn r N P H.
  assert (HN : (0 < N)%nat) by (unfold N; lia).
  assert (E0 : px (otf_G P) (N / 2) (N / 2) = overlap npup (px pupil) 0 0).
  { rewrite otf_G_val by exact HN. change (rows P) with N. change (cols P) with N. rewrite shift_half by exact HN. unfold xcorr. rewrite overlap_00. change (px P) with (padf 0 npup npup r r (px pupil)). unfold N. rewrite <- (padf_energy npup npup r r (px pupil)). apply rsum_ext. intros c Hc. apply rsum_ext. intros d Hd. rewrite !Nat.add_0_l, !Nat.mod_small by assumption. reflexivity. }
  assert (L : forall i j, px (otf_G P) i j <= overlap npup (px pupil) 0 0).
  { intros i j. rewrite otf_G_val by exact HN. change (rows P) with N. change (cols P) with N. rewrite <- E0. rewrite otf_G_val by exact HN. change (rows P) with N. change (cols P) with N. rewrite shift_half by exact HN.
    pose proof (rcorr_le N N (px P) (shift_ix N i) (shift_ix N j) HN HN) as Q. rewrite <- rcorr_0 in Q. exact Q. }
  destruct (img_max_spec _ _ H) as (U & (i & j & Hi & Hj & E)). apply Rle_antisym; [rewrite <- E; apply L|]. rewrite <- E0. apply U; cbn; apply half_lt; exact HN.
Qed.

Lemma margin_half npup p q : (0 < q)%Z -> (2 * q <= p)%Z -> (npup / 2 <= margin npup p q)%nat.
Proof.
  intros Hq Hp. unfold margin. apply Nat2Z.inj_le. rewrite Z2Nat.id by (apply Z.quot_pos; [apply Z.mul_nonneg_nonneg|]; lia).
  rewrite Z.quot_div_nonneg by (try apply Z.mul_nonneg_nonneg; lia). rewrite Nat2Z.inj_div. apply Z.div_le_lower_bound; [lia|].
  assert (Z.of_nat 2 * (Z.of_nat npup / Z.of_nat 2) <= Z.of_nat npup)%Z by (apply Z.mul_div_le; lia). change (Z.of_nat 2) with 2%Z in *. nia.
Qed.
Lemma sep_ok npup p q i : (0 < q)%Z -> (2 * q <= p)%Z -> let r := margin npup p q in let N := (npup + 2 * r)%nat in (i < N)%nat ->
  (Z.abs (Z.of_nat i - Z.of_nat (N / 2)) <= 2 * Z.of_nat r)%Z.
Proof.
  intros Hq Hp r N Hi. pose proof (margin_half npup p q Hq Hp) as H. fold r in H.
  assert (E : (N / 2 = npup / 2 + r)%nat) by (unfold N; replace (npup + 2 * r)%nat with (npup + r * 2)%nat by lia; apply Nat.div_add; lia).
  rewrite E. assert (npup <= 2 * (npup / 2) + 1)%nat by (pose proof (Nat.div_mod npup 2 ltac:(lia)); pose proof (Nat.mod_upper_bound npup 2 ltac:(lia)); lia). unfold N in Hi. lia.
Qed.
Lemma any_true c : existsb (fun x => if Req_EM_T x 0 then false else true) (pixels c) = true <-> exists i j, (i < rows c)%nat /\ (j < cols c)%nat /\ px c i j <> 0.
Proof.
  rewrite existsb_exists. split.
  - intros (x & Hx & E). apply pixels_in in Hx. destruct Hx as (i & j & Hi & Hj & ->). exists i, j. split; [exact Hi|]. split; [exact Hj|]. destruct (Req_EM_T (px c i j) 0); [discriminate|assumption].
  - intros (i & j & Hi & Hj & Hx). exists (px c i j). split; [apply pixels_in; eauto|]. destruct (Req_EM_T (px c i j) 0); [contradiction|reflexivity].
Qed.
(** what a call that returns computes *)
Lemma modes2Otf_inv svd interp Cmm modes pupil n_otf p q npup otf dphi :
  (0 < q)%Z -> (2 * q <= p)%Z -> rows pupil = npup -> cols pupil = npup -> (0 < npup)%nat -> binary npup (px pupil) -> rows modes = (npup * npup)%nat ->
  modes2Otf svd interp Cmm modes pupil n_otf p q Vii = Ok (otf, dphi) ->
  let N := (npup + 2 * margin npup p q)%nat in
  let ss := fst (svd Cmm) in let V := snd (svd Cmm) in
  rows V = cols modes /\ cols V = length ss /\
  exists d o omax, dphi = interpolateTo interp d n_otf /\ rows d = N /\ cols d = N /\ otf = img_map (fun x => x / omax) (interpolateTo interp o n_otf) /\ img_max (interpolateTo interp o n_otf) = Ok omax /\ rows o = N /\ cols o = N /\
   forall i j, (i < N)%nat -> (j < N)%nat ->
   let s := (Z.of_nat i - Z.of_nat (N / 2))%Z in let t := (Z.of_nat j - Z.of_nat (N / 2))%Z in
   px d i j = (if Rlt_dec (/ 10 ^ 7) (overlap npup (px pupil) s t / overlap npup (px pupil) 0 0) then pupil_sf npup (cols modes) (px pupil) (mode_of modes npup) (eff_cov ss V) s t else 0) /\
   px o i j = (if Rlt_dec (/ 10 ^ 5) (overlap npup (px pupil) s t) then overlap npup (px pupil) s t * exp (- / 2 * px d i j) else 0).
Proof.
  intros Hq Hp Er Ec Hn Hb Hr H N ss V. unfold modes2Otf in H. rewrite (enlarge_sq pupil npup p q Hq ltac:(lia) Er Ec) in H. cbn [bind] in H. fold N in H. set (P := mkImg N N _) in *.
  destruct (img_max (otf_G P)) as [gmax|] eqn:Eg; cbn [bind] in H; [|discriminate]. pose proof (G_max pupil npup p q gmax Hb Hn Eg) as Gv. rewrite <- Gv in *.
  destruct (Req_EM_T gmax 0); [discriminate|]. destruct (existsb _ _) eqn:Ex in H; cbn [bind] in H; [|discriminate].
  destruct (vii_dphi svd Cmm modes P (otf_G P) gmax p q) as [d|] eqn:Ed; cbn [bind] in H; [|discriminate].
  assert (Sh : rows V = cols modes /\ cols V = length ss).
  { unfold vii_dphi in Ed. fold ss V in Ed. cbv zeta in Ed. destruct (negb _) eqn:E in Ed; [discriminate|]. apply negb_false_iff in E. apply andb_true_iff in E. destruct E as (E & _). apply andb_true_iff in E. destruct E as (E1 & E2). apply Nat.eqb_eq in E1, E2. now split. }
  destruct Sh as (S1 & S2). split; [exact S1|]. split; [exact S2|].
  destruct (vii_dphi_val svd Cmm modes pupil npup p q gmax Hq ltac:(lia) Er Ec Hn Hb Hr (eq_sym S1) S2) as (d' & Ed' & R1 & R2 & Vd). fold N in Ed', R1, R2, Vd. fold P in Ed', Vd. rewrite Ed in Ed'. injection Ed' as <-.
  match type of H with (do omax <- img_max (interpolateTo interp ?oo n_otf); _) = _ => set (o := oo) in *; destruct (img_max (interpolateTo interp o n_otf)) as [omax|] eqn:Eo in H; cbn [bind] in H; [|discriminate] end.
  destruct (Req_EM_T omax 0); [discriminate|]. injection H as <- <-. exists d, o, omax. repeat split; try assumption; try reflexivity.
  - pose proof (Vd i j H H0 (sep_ok npup p q i Hq Hp H) (sep_ok npup p q j Hq Hp H0)) as (_ & E). rewrite E. reflexivity.
  - pose proof (Vd i j H H0 (sep_ok npup p q i Hq Hp H) (sep_ok npup p q j Hq Hp H0)) as (E & _). unfold o. cbn [px]. rewrite E. reflexivity.
Qed.

(** C78: with the DM modes and the covariance of their coefficients, the structure function
    at the separation (s, t) is the mean over the pairs of pupil pixels (s, t) apart of the
    variance of their phase difference, for every pupil, every modal basis and every
    covariance whose decomposition satisfies V diag(ss) V^T = C (covariance matrix in V's
    rows and columns); null where fewer than 1e-7 of the pupil overlaps. *)
Theorem C78_residual : forall svd interp Cmm modes pupil n_otf p q npup otf dphi,
  (0 < q)%Z -> (2 * q <= p)%Z -> rows pupil = npup -> cols pupil = npup -> (0 < npup)%nat -> binary npup (px pupil) -> rows modes = (npup * npup)%nat ->
  modes2Otf svd interp Cmm modes pupil n_otf p q Vii = Ok (otf, dphi) ->
  (forall l l', (l < cols modes)%nat -> (l' < cols modes)%nat -> eff_cov (fst (svd Cmm)) (snd (svd Cmm)) l l' = px Cmm l l') ->
  let N := (npup + 2 * margin npup p q)%nat in
  exists d, dphi = interpolateTo interp d n_otf /\ rows d = N /\ cols d = N /\
   forall i j, (i < N)%nat -> (j < N)%nat ->
   let s := (Z.of_nat i - Z.of_nat (N / 2))%Z in let t := (Z.of_nat j - Z.of_nat (N / 2))%Z in
   px d i j = if Rlt_dec (/ 10 ^ 7) (overlap npup (px pupil) s t / overlap npup (px pupil) 0 0)
              then pupil_sf npup (cols modes) (px pupil) (fun l a b => px modes (a * npup + b) l) (px Cmm) s t else 0.
Proof.
  intros svd interp Cmm modes pupil n_otf p q npup otf dphi Hq Hp Er Ec Hn Hb Hr H HC N.
  destruct (modes2Otf_inv _ _ _ _ _ _ _ _ _ _ _ Hq Hp Er Ec Hn Hb Hr H) as (_ & _ & d & o & om & E & R1 & R2 & _ & _ & _ & _ & V). exists d. split; [exact E|]. split; [exact R1|]. split; [exact R2|].
  intros i j Hi Hj s t. destruct (V i j Hi Hj) as (Vd & _). fold N s t in Vd. rewrite Vd. destruct (Rlt_dec _ _); [|reflexivity]. unfold pupil_sf. f_equal. apply pair_sum_ext. intros a b. unfold diff_variance, mode_of. apply rsum_ext. intros l Hl. apply rsum_ext. intros l' Hl'. now rewrite HC.
Qed.
Print Assumptions C78_residual.
Lemma pupil_sf_nonneg n modes P Mo ss V s t : binary n P -> (forall x, In x ss -> 0 <= x) -> 0 <= pupil_sf n (cols modes) P (mode_of modes Mo) (eff_cov ss V) s t \/ Mo <> n.
Proof.
  intros Hb Hs. destruct (Nat.eq_dec Mo n) as [ ->|]; [|now right]. left. unfold pupil_sf. apply Rmult_le_pos.
  - apply pair_sum_nonneg; [exact Hb|]. intros a b. rewrite <- quad_eff. apply rsum_nonneg. intros k Hk. apply Rmult_le_pos; [apply Hs, nth_In, Hk|apply pow2_ge_0].
  - destruct (Rle_lt_or_eq_dec _ _ (overlap_nonneg n P s t Hb)) as [L|E]; [left; now apply Rinv_0_lt_compat|rewrite <- E, Rinv_0; lra].
Qed.
Lemma pupil_sf_0 n nm P Mo C : pupil_sf n nm P Mo C 0 0 = 0.
Proof.
  unfold pupil_sf. replace (pair_sum _ _ _ _ _) with 0; [unfold Rdiv; ring|]. symmetry. unfold pair_sum. apply rsum_zero. intros a _. apply rsum_zero. intros b _. unfold diff_variance. rewrite !Z.add_0_r. rewrite rsum_zero; [ring|]. intros l _. apply rsum_zero. intros l' _. ring.
Qed.
(** C78: whatever the covariance (even with negative eigenvalues after the noise is
    subtracted), singular values are non-negative, so the structure function is
    non-negative everywhere, null at the null separation; the OTF is the one of the
    telescope times a factor between 0 and 1 (before the normalisation to its maximum). *)
Theorem C78_range : forall svd interp Cmm modes pupil n_otf p q npup otf dphi,
  (0 < q)%Z -> (2 * q <= p)%Z -> rows pupil = npup -> cols pupil = npup -> (0 < npup)%nat -> binary npup (px pupil) -> rows modes = (npup * npup)%nat ->
  (forall x, In x (fst (svd Cmm)) -> 0 <= x) ->
  modes2Otf svd interp Cmm modes pupil n_otf p q Vii = Ok (otf, dphi) ->
  let N := (npup + 2 * margin npup p q)%nat in
  exists d o omax, dphi = interpolateTo interp d n_otf /\ otf = img_map (fun x => x / omax) (interpolateTo interp o n_otf) /\
   img_max (interpolateTo interp o n_otf) = Ok omax /\
   (forall i j, (i < N)%nat -> (j < N)%nat -> 0 <= px d i j /\ 0 <= px o i j <= overlap npup (px pupil) (Z.of_nat i - Z.of_nat (N / 2)) (Z.of_nat j - Z.of_nat (N / 2))) /\
   px d (N / 2) (N / 2) = 0.
Proof.
  intros svd interp Cmm modes pupil n_otf p q npup otf dphi Hq Hp Er Ec Hn Hb Hr Hs H N.
  destruct (modes2Otf_inv _ _ _ _ _ _ _ _ _ _ _ Hq Hp Er Ec Hn Hb Hr H) as (_ & _ & d & o & om & E & R1 & R2 & Eo & Em & _ & _ & V). exists d, o, om. split; [exact E|]. split; [exact Eo|]. split; [exact Em|].
  assert (Nn : forall i j, (i < N)%nat -> (j < N)%nat -> 0 <= px d i j).
  { intros i j Hi Hj. destruct (V i j Hi Hj) as (Vd & _). rewrite Vd. destruct (Rlt_dec _ _); [|lra]. destruct (pupil_sf_nonneg npup modes (px pupil) npup (fst (svd Cmm)) (snd (svd Cmm)) (Z.of_nat i - Z.of_nat (N / 2)) (Z.of_nat j - Z.of_nat (N / 2)) Hb Hs) as [L|L]; [exact L|congruence]. }
  split.
  - intros i j Hi Hj. split; [now apply Nn|]. destruct (V i j Hi Hj) as (_ & Vo). fold N in Vo. cbv zeta in Vo. rewrite Vo. pose proof (overlap_nonneg npup (px pupil) (Z.of_nat i - Z.of_nat (N / 2)) (Z.of_nat j - Z.of_nat (N / 2)) Hb) as O. destruct (Rlt_dec _ _); [|split; [lra|exact O]].
    assert (X : 0 < exp (- / 2 * px d i j) <= 1). { split; [apply exp_pos|]. rewrite <- exp_0. specialize (Nn i j Hi Hj). destruct (Rle_lt_or_eq_dec _ _ Nn) as [L|L]; [left; apply exp_increasing; lra|right; rewrite <- L; f_equal; ring]. }
    split; [apply Rmult_le_pos; lra|]. rewrite <- (Rmult_1_r (overlap _ _ _ _)) at 2. apply Rmult_le_compat_l; lra.
  - assert (HN : (N / 2 < N)%nat) by (apply half_lt; unfold N; lia). destruct (V (N / 2)%nat (N / 2)%nat HN HN) as (Vd & _). fold N in Vd. rewrite Vd. cbv zeta. rewrite !Z.sub_diag, pupil_sf_0. match goal with |- (if ?c then _ else _) = _ => destruct c; reflexivity end.
Qed.
Print Assumptions C78_range.
(** C78: defined for every pupil that is not empty, every basis on the pupil grid, every
    non-null covariance, when the output has the size of the enlarged pupil. *)
Theorem C78_defined : forall svd interp Cmm modes pupil p q npup,
  (0 < q)%Z -> (2 * q <= p)%Z -> rows pupil = npup -> cols pupil = npup -> (0 < npup)%nat -> binary npup (px pupil) -> rows modes = (npup * npup)%nat ->
  cols modes = rows (snd (svd Cmm)) -> cols (snd (svd Cmm)) = length (fst (svd Cmm)) ->
  (exists i j, (i < npup)%nat /\ (j < npup)%nat /\ px pupil i j = 1) ->
  (exists i j, (i < rows Cmm)%nat /\ (j < cols Cmm)%nat /\ px Cmm i j <> 0) ->
  exists otf dphi, modes2Otf svd interp Cmm modes pupil (npup + 2 * margin npup p q) p q Vii = Ok (otf, dphi).
Proof.
  intros svd interp Cmm modes pupil p q npup Hq Hp Er Ec Hn Hb Hr H1 H2 (i0 & j0 & Hi & Hj & E1) HC. unfold modes2Otf.
  rewrite (enlarge_sq pupil npup p q Hq ltac:(lia) Er Ec). cbn [bind]. set (r := margin npup p q). set (N := (npup + 2 * r)%nat). set (P := mkImg N N _) in *.
  assert (HN : (0 < N)%nat) by (unfold N; lia). assert (Hh : (N / 2 < N)%nat) by (apply half_lt; lia).
  assert (exists m, img_max (otf_G P) = Ok m) as (gmax & Eg).
  { unfold img_max, list_max. assert (X : In (px (otf_G P) 0 0) (pixels (otf_G P))) by (apply pixels_in; exists 0%nat, 0%nat; split; [exact HN|]; split; [exact HN|reflexivity]). destruct (pixels (otf_G P)); [contradiction|]. eauto. }
  rewrite Eg. cbn [bind]. pose proof (G_max pupil npup p q gmax Hb Hn Eg) as Gv.
  assert (G1 : 1 <= gmax).
  { rewrite Gv, overlap_00.
    assert (A : px pupil i0 j0 * px pupil i0 j0 <= rsum npup (fun b => px pupil i0 b * px pupil i0 b)) by (apply (rsum_term_le npup (fun b => px pupil i0 b * px pupil i0 b) j0); [intros; apply Rle_0_sqr|exact Hj]).
    assert (B : rsum npup (fun b => px pupil i0 b * px pupil i0 b) <= rsum npup (fun a => rsum npup (fun b => px pupil a b * px pupil a b))) by (apply (rsum_term_le npup (fun a => rsum npup (fun b => px pupil a b * px pupil a b)) i0); [intros; apply rsum_nonneg; intros; apply Rle_0_sqr|exact Hi]).
    rewrite E1 in A. lra. }
  destruct (Req_EM_T gmax 0); [lra|]. apply any_true in HC. rewrite HC. cbn [bind].
  destruct (vii_dphi_val svd Cmm modes pupil npup p q gmax Hq ltac:(lia) Er Ec Hn Hb Hr H1 H2) as (d & Ed & R1 & R2 & Vd). fold r N in Ed, R1, R2, Vd. fold P in Ed, Vd. rewrite Ed. cbn [bind].
  set (o := mkImg (rows P) (cols P) _). replace (interpolateTo interp o N) with o. 2:{ unfold interpolateTo. change (rows o) with N. change (cols o) with N. now rewrite !Nat.eqb_refl. }
  assert (exists m, img_max o = Ok m) as (om & Eo).
  { unfold img_max, list_max. assert (X : In (px o 0 0) (pixels o)) by (apply pixels_in; exists 0%nat, 0%nat; split; [exact HN|]; split; [exact HN|reflexivity]). destruct (pixels o); [contradiction|]. eauto. }
  rewrite Eo. cbn [bind]. destruct (img_max_spec _ _ Eo) as (U & _). specialize (U (N / 2)%nat (N / 2)%nat Hh Hh).
  assert (px o (N / 2)%nat (N / 2)%nat = gmax).
  { destruct (Vd (N / 2)%nat (N / 2)%nat Hh Hh) as (G0 & D0); try (apply (sep_ok npup p q); assumption). unfold o. cbn [px]. rewrite G0. rewrite !Z.sub_diag in *. rewrite <- Gv in *. destruct (Rlt_dec (/ 10 ^ 5) gmax) as [|n0]; [|exfalso; apply n0; eapply Rlt_le_trans; [|exact G1]; apply Rmult_lt_reg_l with (10 ^ 5); lra].
    rewrite D0, pupil_sf_0. replace (if Rlt_dec _ _ then 0 else 0) with 0 by (match goal with |- context [if ?c then _ else _] => destruct c; reflexivity end). rewrite Rmult_0_r, exp_0. ring. }
  destruct (Req_EM_T om 0); [lra|]. eauto.
Qed.
Print Assumptions C78_defined.
(** Finding: without covariance (a perfect correction) the function fails instead of giving
    the diffraction-limited OTF: dphi is not assigned in that branch. *)
Theorem C78_null_covariance_refuted : forall svd interp Cmm modes pupil n_otf p q b P g,
  (forall i j, (i < rows Cmm)%nat -> (j < cols Cmm)%nat -> px Cmm i j = 0) -> enlargeSupport pupil p q = Ok P -> img_max (otf_G P) = Ok g -> g <> 0 ->
  modes2Otf svd interp Cmm modes pupil n_otf p q b = Err UnboundLocalError.
Proof.
  intros svd interp Cmm modes pupil n_otf p q b P g HC EP Eg Hg. unfold modes2Otf. rewrite EP. cbn [bind]. rewrite Eg. cbn [bind]. destruct (Req_EM_T g 0); [contradiction|].
  destruct (existsb _ _) eqn:E. { apply any_true in E. destruct E as (i & j & Hi & Hj & Hx). elim Hx. now apply HC. } now destruct b.
Qed.
Print Assumptions C78_null_covariance_refuted.
