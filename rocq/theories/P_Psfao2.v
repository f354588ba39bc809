(** C82: evaluation history of the psfao21 model; C83: several wavelengths. *)
From Coq Require Import Reals List Arith ZArith Lia Lra Psatz.
From Coq Require Import ZifyBool ZifyNat.
From Verif Require Import Base_Py Base_Sum Base_DFT M_Image S_Image L_Image L_Image2 M_Fourier S_Fourier L_Fourier L_Fourier2 L_Fourier3 M_Psf M_Float L_Float L_Psf L_Psf2 L_Psf3 L_Psf4 P_Psf M_Bounds M_Tools S_Tools L_Tools L_Tools2 L_Fit M_Psf M_Psfao L_Psfao P_Psfao M_Tools.
From Coquelicot Require Import Complex.
Import ListNotations.
Open Scope R_scope.

(** ** C82 *)
(** Number of parameters before the static coefficients for one layer and one wavelength:
    r0, 6 of the spectrum, 3 of the jitter, flux and position of each source, background. *)
Definition n_without_static (nSrc : nat) : nat := (1 + 6 + 3 + 3 * nSrc + 1)%nat.
Lemma mono_full nL nRec nSrc spot w tr ex ey : (1 <= nL)%nat -> (1 <= nRec)%nat -> (nL = 1 \/ nRec = 1)%nat ->
  n_full (psfao_inst nL nRec nSrc spot [w] [tr] [ex] [ey]) = n_without_static nSrc.
Proof.
  intros H1 H2 H3. unfold n_full, n_tt, n_dphi, n_atm, psfao_inst, init_src_wvl, n_without_static. cbn [i_atm i_nL i_nRec i_dphi i_jit i_star i_wvl i_frame length]. change (1 <? 1)%nat with false. cbn [length].
  destruct (Nat.ltb_spec 0 (Nat.min nL nRec)); [|lia]. destruct (Nat.ltb_spec 1 nL), (Nat.ltb_spec 1 nRec); cbn [andb]; lia.
Qed.
Lemma sort_stat m x s : sort_params m x = Ok s -> s_stat s = (if (n_full m <? length x)%nat then Some (skipn (n_full m) x) else None).
Proof.
  unfold sort_params. intros H. apply bindOk in H. destruct H as ([[nL c] r] & Ea & H). assert (EN := sort_atm_n _ _ _ _ _ Ea). subst nL.
  cbv zeta in H. apply bindOk in H. destruct H as ([[[F dx] dy] bkg] & _ & H). apply Ok_inj in H. subst s. reflexivity.
Qed.
Lemma call_static m psdm f cur cur' npix x : (n_full m < length x)%nat ->
  fst (psfao_call1 m psdm f cur npix x) = fst (psfao_call1 m psdm f cur' npix x).
Proof.
  intros Hl. unfold psfao_call1. destruct (sort_params m x) as [s|e] eqn:E; cbn [bind]; [|reflexivity].
  assert (St := sort_stat _ _ _ E). destruct (Nat.ltb_spec (n_full m) (length x)); [|lia].
  match goal with |- context [match ?r with Ok _ => _ | Err _ => _ end] => destruct r as [[[[[[[s' F] dx] dy] b] sfs] j]|e'] eqn:E' end; [|reflexivity].
  assert (s' = s) as ->; [|rewrite St; reflexivity].
  repeat (let v := fresh "v" in let Hv := fresh "Hv" in apply bindOk in E'; destruct E' as (v & Hv & E')). apply Ok_inj in E'. congruence.
Qed.
Lemma call_nostatic m psdm f cur npix x : (length x <= n_full m)%nat -> snd (psfao_call1 m psdm f cur npix x) = cur.
Proof.
  intros Hl. unfold psfao_call1. destruct (sort_params m x) as [s|e] eqn:E; cbn [bind]; [|reflexivity].
  assert (St := sort_stat _ _ _ E). destruct (Nat.ltb_spec (n_full m) (length x)); [lia|].
  match goal with |- context [match ?r with Ok _ => _ | Err _ => _ end] => destruct r as [[[[[[[s' F] dx] dy] b] sfs] j]|e'] eqn:E' end; [|reflexivity].
  assert (s' = s) as ->; [|rewrite St; reflexivity].
  repeat (let v := fresh "v" in let Hv := fresh "Hv" in apply bindOk in E'; destruct E' as (v & Hv & E')). apply Ok_inj in E'. congruence.
Qed.

(** C82: a sequence of evaluations none of which gives static coefficients, or all of which
    do, returns for each vector what a fresh object returns for it. *)
Theorem C82_no_static : forall nL nRec nSrc spot w tr ex ey psdm f cur npix xs,
  (1 <= nL)%nat -> (1 <= nRec)%nat -> (nL = 1 \/ nRec = 1)%nat ->
  Forall (fun x => (length x <= n_without_static nSrc)%nat) xs ->
  psfao_run (psfao_inst nL nRec nSrc spot [w] [tr] [ex] [ey]) psdm f cur npix xs =
    (map (fun x => fst (psfao_call1 (psfao_inst nL nRec nSrc spot [w] [tr] [ex] [ey]) psdm f cur npix x)) xs, cur).
Proof.
  intros nL nRec nSrc spot w tr ex ey psdm f cur npix xs H1 H2 H3 H. set (m := psfao_inst _ _ _ _ _ _ _ _).
  assert (NF : n_full m = n_without_static nSrc) by (apply mono_full; assumption).
  induction H as [|x xs Hx _ IH]; [reflexivity|]. cbn [psfao_run map]. cbv zeta.
  rewrite call_nostatic by (rewrite NF; exact Hx). rewrite IH. reflexivity.
Qed.
Print Assumptions C82_no_static.
Theorem C82_all_static : forall nL nRec nSrc spot w tr ex ey psdm f cur cur' npix xs,
  (1 <= nL)%nat -> (1 <= nRec)%nat -> (nL = 1 \/ nRec = 1)%nat ->
  Forall (fun x => (n_without_static nSrc < length x)%nat) xs ->
  fst (psfao_run (psfao_inst nL nRec nSrc spot [w] [tr] [ex] [ey]) psdm f cur npix xs) =
    map (fun x => fst (psfao_call1 (psfao_inst nL nRec nSrc spot [w] [tr] [ex] [ey]) psdm f cur' npix x)) xs.
Proof.
  intros nL nRec nSrc spot w tr ex ey psdm f cur cur' npix xs H1 H2 H3 H. set (m := psfao_inst _ _ _ _ _ _ _ _).
  assert (NF : n_full m = n_without_static nSrc) by (apply mono_full; assumption). revert cur.
  induction H as [|x xs Hx _ IH]; intros cur; [reflexivity|]. cbn [psfao_run map]. cbv zeta. cbn [fst].
  rewrite IH. f_equal. apply call_static. rewrite NF. exact Hx.
Qed.
Print Assumptions C82_all_static.

(** C82 refuted in general: the same vector evaluated before and after a vector with static
    coefficients gives different results: the static OTF of the second call stays in the
    frequency domain. Here the static coefficients halve the OTF. *)
Definition ex_half : img := mkImg 2 2 (fun _ _ => / 2).
Definition ex_f2 : fdom := mkFdom 2 1 2 8 2 0 ex_one ex_one (fun _ => ex_half) (/ 1000000) None.
Definition ex_x : list R := / 5 :: [1; 2; 3; 4; 5; 6] ++ [0; 0; 0] ++ [1] ++ [0] ++ [0] ++ 0 :: [].
Definition ex_y : list R := / 5 :: [1; 2; 3; 4; 5; 6] ++ [0; 0; 0] ++ [1] ++ [0] ++ [0] ++ 0 :: [100].
Definition ex_m : psf_inst := psfao_inst 1 1 1 [0; 0; 0] [/ 1000000] [1] [0] [0].
Lemma sr_val psd ncpa out srs : sf_3D_to_psf_3D 2 1 2 2 ncpa ex_one ex_one (Some (0, 0, 0, 0)) (repeat psd 1) (map (fun v => v * 1) [1]) (map (fun d => d + 0) [0]) (map (fun d => d + 0) [0]) 0 = Ok (out, srs) ->
  nth_error srs 0 = Some (100 * rsum 2 (fun i => rsum 2 (fun j => Rabs (exp (- / 2 * psd i j) * px ncpa i j))) / 4).
Proof.
  intros H. destruct (psf3D_inv _ _ _ _ _ _ _ _ _ _ _ _ _ _ _ H 0%nat psd eq_refl) as (p & q & r & _ & _ & _ & Es & En).
  rewrite En. f_equal. apply strehl_val in Es; [|cbn; lia|cbn; lia]. rewrite Es. cbn [otf_product crows ccols cpx].
  f_equal; [|unfold img_sum, ex_one; cbn; lra]. f_equal. apply rsum_ext; intros i _. apply rsum_ext; intros j _.
  rewrite Cmod_mult, ph3_mod, Cmod_R, Rmult_1_r. f_equal. unfold K3, jitter_kernel. cbn [px ex_one].
  replace (- / 2 * (0 * _)) with 0 by ring. rewrite exp_0. ring.
Qed.
Theorem C82_history_refuted : exists m psdm f cur npix x y o1 o2 o3 r,
  fst (psfao_run m psdm f cur npix [x; y; x]) = [Ok o1; Ok o2; Ok o3] /\
  0 < r /\ nth_error (snd o1) 0 = Some r /\ nth_error (snd o3) 0 = Some (r / 2).
Proof.
  exists ex_m, ex_psd, ex_f2, ex_one, 2%nat, ex_x, ex_y.
  assert (X : forall cur stat, px (match stat with [] => cur | _ => ex_half end) 1 1 <> 0 -> exists out srs s,
    psfao_call1 ex_m ex_psd ex_f2 cur 2 (/ 5 :: [1; 2; 3; 4; 5; 6] ++ [0; 0; 0] ++ [1] ++ [0] ++ [0] ++ 0 :: stat) = (Ok (out, srs), match stat with [] => cur | _ => ex_half end) /\
    (do psd <- ex_psd (/ 5 :: [1; 2; 3; 4; 5; 6]); psfao_sf0 psd 8 2) = Ok s /\
    nth_error srs 0 = Some (100 * rsum 2 (fun i => rsum 2 (fun j => Rabs (exp (- / 2 * px s i j) * px (match stat with [] => cur | _ => ex_half end) i j))) / 4)).
  { intros cur stat Hc.
    destruct (C81_defined 1 1 1 [0; 0; 0] (/ 1000000) 1 0 0 (/ 5) [1; 2; 3; 4; 5; 6] 0 0 0 [1] [0] [0] 0 stat ex_psd ex_f2 cur 2) as (out & srs & c' & E); try reflexivity; try lia; cbn [ex_f2 f_D f_samp f_n f_fov f_k f_pix f_dl f_static]; try lra; try lia.
    - apply ex_psd_ok.
    - split; [lia|]. cbn. lia.
    - split; [exact Hc|]. cbn. lra.
    - unfold img_sum, ex_one. cbn. lra.
    - destruct (mono_call 1 1 1 [0; 0; 0] (/ 1000000) 1 0 0 (/ 5) [1; 2; 3; 4; 5; 6] 0 0 0 [1] [0] [0] 0 stat ex_psd ex_f2 cur 2) as (s & _ & _ & _ & Es & Ec); try reflexivity; try lia; cbn [ex_f2 f_D f_samp f_n]; try lra; try lia; [apply ex_psd_ok|].
      exists out, srs, s. unfold mono in Ec. assert (Ec' := Ec). rewrite E in Ec'. cbv zeta in Ec'. apply pair_equal_spec in Ec'. destruct Ec' as [Eo Ecur].
      split; [|split; [exact Es|]].
      + unfold ex_m. rewrite E. f_equal. exact Ecur.
      + apply (sr_val (px s) _ out srs). symmetry. exact Eo. }
  destruct (X ex_one []) as (o1 & s1 & sf & E1 & Es & V1); [cbn; lra|].
  destruct (X ex_one [100]) as (o2 & s2 & sf2 & E2 & _ & _); [cbn; lra|].
  destruct (X ex_half []) as (o3 & s3 & sf3 & E3 & Es3 & V3); [cbn; lra|].
  rewrite Es in Es3. apply Ok_inj in Es3. subst sf3.
  exists (o1, s1), (o2, s2), (o3, s3), (100 * rsum 2 (fun i => rsum 2 (fun j => Rabs (exp (- / 2 * px sf i j) * 1))) / 4).
  split.
  { cbn [psfao_run]. fold ex_x in E1, E3. fold ex_y in E2. rewrite E1. cbn [fst snd]. rewrite E2. cbn [fst snd]. rewrite E3. reflexivity. }
  assert (A : forall i j, Rabs (exp (- / 2 * px sf i j) * 1) = exp (- / 2 * px sf i j)) by (intros; rewrite Rmult_1_r; apply Rabs_pos_eq; left; apply exp_pos).
  assert (B : forall i j, Rabs (exp (- / 2 * px sf i j) * / 2) = exp (- / 2 * px sf i j) / 2) by (intros; apply Rabs_pos_eq; left; apply Rmult_lt_0_compat; [apply exp_pos|lra]).
  split.
  { cbn [rsum]. rewrite !A. assert (P := fun i j => exp_pos (- / 2 * px sf i j)). assert (P0 := P 0%nat 0%nat). assert (P1 := P 0%nat 1%nat). assert (P2 := P 1%nat 0%nat). assert (P3 := P 1%nat 1%nat). lra. }
  cbn [snd]. split; [exact V1|]. rewrite V3. f_equal. cbn [rsum px ex_half]. rewrite !A, !B. field.
Qed.
Print Assumptions C82_history_refuted.
Example C82_ex : Forall (fun x => (length x <= n_without_static 1)%nat) [ex_x; ex_x] /\ Forall (fun x => (n_without_static 1 < length x)%nat) [ex_y].
Proof. split; repeat constructor; cbn; lia. Qed.
