(** Properties C66 (parameters of the reported PSF), C67 (image model), C68 (quality
    of a fit). *)
From Coq Require Import Reals List Arith ZArith Bool Lia Lra Psatz.
From Verif Require Import Base_Py Base_Sum M_Image L_Image2 M_Tools M_Model2 M_Atmo L_Atmo M_Fit L_Fit.
Import ListNotations.
Open Scope R_scope.

(** ** C66 *)
Lemma zero_range_skip a b : forall l k, (k + length l <= a)%nat -> zero_range a b k l = l.
Proof. induction l as [|v l IH]; intros k H; [reflexivity|]. cbn in H. cbn [zero_range]. destruct (Nat.leb_spec a k); [lia|]. cbn [andb]. rewrite IH; [reflexivity|lia]. Qed.
Lemma zero_range_after a b : forall l k, (b <= k)%nat -> zero_range a b k l = l.
Proof. induction l as [|v l IH]; intros k H; [reflexivity|]. cbn [zero_range]. destruct (Nat.ltb_spec k b); [lia|]. rewrite andb_false_r. rewrite IH; [reflexivity|lia]. Qed.
Lemma zero_range_in a b : forall l k, (a <= k)%nat -> (k + length l <= b)%nat -> zero_range a b k l = repeat 0 (length l).
Proof. induction l as [|v l IH]; intros k H1 H2; [reflexivity|]. cbn in H2. cbn [zero_range]. destruct (Nat.leb_spec a k); [|lia]. destruct (Nat.ltb_spec k b); [|lia]. cbn [andb length repeat]. rewrite IH; [reflexivity|lia|lia]. Qed.
Lemma zero_range_app a b : forall l l' k, zero_range a b k (l ++ l') = zero_range a b k l ++ zero_range a b (k + length l) l'.
Proof. induction l as [|v l IH]; intros l' k; [cbn; f_equal; lia|]. cbn. rewrite IH. do 3 f_equal. lia. Qed.
Lemma set_nth_app {A} (v w : A) : forall pre post, set_nth (length pre) v (pre ++ w :: post) = pre ++ v :: post.
Proof. induction pre as [|a pre IH]; intros post; [reflexivity|]. cbn. now rewrite IH. Qed.
Lemma psf_params_split i pre f mid post : length pre = id_flux i -> length mid = (3 * i_star i)%nat ->
  psf_params i (pre ++ f :: mid ++ post) = Ok (pre ++ 1 :: repeat 0 (3 * i_star i) ++ post).
Proof.
  intros L1 L2. unfold psf_params. rewrite <- L1, set_nth_app. destruct (Nat.ltb_spec (length pre) (length (pre ++ f :: mid ++ post))) as [_|B]; [|rewrite app_length in B; cbn in B; lia].
  f_equal. rewrite zero_range_app, zero_range_skip by lia. f_equal. cbn [zero_range]. destruct (Nat.leb_spec (length pre + 1) (0 + length pre)); [lia|]. cbn [andb]. f_equal.
  rewrite zero_range_app. rewrite zero_range_in by lia. rewrite L2. f_equal. apply zero_range_after. lia.
Qed.
Lemma seg_app_l (l l' : list R) a b : (b <= length l)%nat -> seg (l ++ l') a b = seg l a b.
Proof.
  intros H. unfold seg. rewrite skipn_app. destruct (le_lt_dec a (length l)) as [A|A].
  - replace (a - length l)%nat with 0%nat by lia. cbn [skipn]. rewrite firstn_app, skipn_length. replace (b - a - (length l - a))%nat with 0%nat by lia. cbn [firstn]. now rewrite app_nil_r.
  - replace (b - a)%nat with 0%nat by lia. reflexivity.
Qed.
Lemma seg_app_r (l l' : list R) a b : a = length l -> seg (l ++ l') a b = firstn (b - a) l'.
Proof. intros ->. unfold seg. rewrite skipn_app, skipn_all, Nat.sub_diag. reflexivity. Qed.
Lemma repeat_split (a b : nat) : repeat 0 (a + b) = repeat 0 a ++ repeat 0 b.
Proof. apply repeat_app. Qed.
(** the atmosphere part of a parameter vector only depends on its beginning *)
Lemma sort_atm_app m pre p1 p2 k : (fst (fst k) <= length pre)%nat -> sort_atm m (pre ++ p1) = Ok k -> sort_atm m (pre ++ p2) = Ok k.
Proof.
  intros L H. unfold sort_atm in *. destruct (0 <? i_atm m)%nat; [|exact H]. destruct ((1 <? i_nL m) && (1 <? i_nRec m))%nat%bool.
  - apply bind_ok in H. destruct H as (r & H & K). apply Ok_inj in K. subst k. cbn [fst] in L.
    assert (Q : forall p, firstn (i_nL m) (pre ++ p) = firstn (i_nL m) pre) by (intros p; rewrite firstn_app; replace (i_nL m - length pre)%nat with 0%nat by lia; cbn [firstn]; apply app_nil_r).
    rewrite Q in H. rewrite !Q, H. reflexivity.
  - apply bind_ok in H. destruct H as (r & H & K). apply Ok_inj in K. subst k. cbn [fst] in L. destruct pre as [|a pre]; [cbn in L; lia|]. cbn in H |- *. apply Ok_inj in H. now subst.
Qed.
(** Specification: same atmosphere, phase, jitter and static parameters; flux 1 for the
    first star and 0 for the others; no shift; no background. *)
Definition unit_psf (m : psf_inst) (s s' : sorted) : Prop :=
  s_Cn2 s' = s_Cn2 s /\ s_r0 s' = s_r0 s /\ s_dphi s' = s_dphi s /\ s_jit s' = s_jit s /\ s_stat s' = s_stat s /\
  s_F s' = i_trans m :: repeat (map (fun _ => 0) (i_trans m)) (i_star m - 1) /\
  s_dx s' = repeat (i_dispx m) (i_star m) /\ s_dy s' = repeat (i_dispy m) (i_star m) /\ s_bkg s' = [0].
Lemma map_repeat {A B} (g : A -> B) (a : A) n : map g (repeat a n) = repeat (g a) n.
Proof. induction n; cbn; congruence. Qed.
Theorem C66_psf_parameters : forall m x s, i_jit m = true -> i_wvl m = 1%nat -> i_frame m = 1%nat -> (1 <= i_star m)%nat ->
  (* the atmosphere takes n_param_atm parameters *)
  (forall k, sort_atm m x = Ok k -> fst (fst k) = i_atm m) ->
  (i_atm m + i_dphi m + 3 + 3 * i_star m + 1 <= length x)%nat ->
  sort_params m x = Ok s ->
  exists x' s', psf_params m x = Ok x' /\ length x' = length x /\ sort_params m x' = Ok s' /\ unit_psf m s s'.
Proof.
  intros m x s J W F N A L H.
  set (n := i_star m) in *. set (id := id_flux m). set (pre := firstn id x).
  assert (Hid : id = (i_atm m + i_dphi m + 3)%nat) by reflexivity.
  assert (Lp : length pre = id) by (unfold pre; rewrite firstn_length; lia).
  assert (Ex : exists f mid post, x = pre ++ f :: mid ++ post /\ length mid = (3 * n)%nat).
  { exists (nth id x 0), (firstn (3 * n) (skipn (S id) x)), (skipn (3 * n) (skipn (S id) x)). split.
    - rewrite firstn_skipn. rewrite <- (firstn_skipn id x) at 1. fold pre. f_equal. clear - L Hid. assert (Hl : (id < length x)%nat) by lia. clear L Hid. revert Hl. generalize id as d. induction x as [|a x IH]; intros [|d] H; cbn in H |- *; try lia; [reflexivity|]. apply IH. lia.
    - rewrite firstn_length, skipn_length. lia. }
  destruct Ex as (f & mid & post & Ex & Lm).
  set (x' := pre ++ 1 :: repeat 0 (3 * n) ++ post).
  assert (P : psf_params m x = Ok x') by (rewrite Ex; apply psf_params_split; [exact Lp|exact Lm]).
  exists x'. unfold sort_params in H |- *. destruct (sort_atm m x) as [[[nL C] r]|] eqn:EA; [|discriminate]. specialize (A _ eq_refl). cbn [fst] in A.
  assert (EA' : sort_atm m x' = Ok (nL, C, r)).
  { rewrite Ex in EA. unfold x'. eapply sort_atm_app; [|exact EA]. cbn [fst]. lia. }
  rewrite EA'. cbn [bind] in H |- *. rewrite J in *. cbv zeta in *.
  assert (LL : length x' = length x) by (rewrite Ex; unfold x'; rewrite !app_length; cbn; rewrite !app_length, repeat_length; lia).
  apply bind_ok in H. destruct H as ([[[F0 dx] dy] bk] & _ & H). apply Ok_inj in H. subst s nL.
  assert (ST : sort_stellar m x' (i_atm m + i_dphi m + 3) = Ok (i_trans m :: repeat (map (fun _ => 0) (i_trans m)) (n - 1), repeat (i_dispx m) n, repeat (i_dispy m) n, [0])).
  { unfold sort_stellar. rewrite W, F. cbv zeta. fold n. rewrite LL. destruct (Nat.ltb_spec (i_atm m + i_dphi m + 3) (length x)); [|lia]. cbn [Nat.eqb].
    assert (SG : seg x' (i_atm m + i_dphi m + 3) (i_atm m + i_dphi m + 3 + n * 1 * 3 + 1) = 1 :: repeat 0 (3 * n)).
    { unfold x'. rewrite seg_app_r by (rewrite Lp; exact (eq_sym Hid)). replace (i_atm m + i_dphi m + 3 + n * 1 * 3 + 1 - (i_atm m + i_dphi m + 3))%nat with (S (3 * n)) by lia. cbn [firstn]. f_equal.
      rewrite firstn_app, repeat_length. replace (3 * n - 3 * n)%nat with 0%nat by lia. cbn [firstn]. rewrite app_nil_r. apply firstn_all2. rewrite repeat_length. lia. }
    rewrite SG. assert (RS : 1 :: repeat 0 (3 * n) = (1 :: repeat 0 (n - 1)) ++ repeat 0 n ++ repeat 0 n ++ [0]).
    { cbn [app]. f_equal. replace [0] with (repeat 0 1) by reflexivity. rewrite <- !repeat_app. f_equal. lia. }
    rewrite RS. assert (L1 : length (1 :: repeat 0 (n - 1)) = n) by (cbn; rewrite repeat_length; lia).
    rewrite seg_app_l by lia.
    assert (S1 : seg (1 :: repeat 0 (n - 1)) 0 n = 1 :: repeat 0 (n - 1)) by (unfold seg; cbn [skipn]; apply firstn_all2; lia). rewrite S1.
    assert (S2 : seg ((1 :: repeat 0 (n - 1)) ++ repeat 0 n ++ repeat 0 n ++ [0]) n (2 * n) = repeat 0 n).
    { rewrite seg_app_r by lia. replace (2 * n - n)%nat with n by lia. rewrite firstn_app, repeat_length, Nat.sub_diag. cbn [firstn]. rewrite app_nil_r. apply firstn_all2. rewrite repeat_length. lia. }
    assert (S3 : seg ((1 :: repeat 0 (n - 1)) ++ repeat 0 n ++ repeat 0 n ++ [0]) (2 * n) (3 * n) = repeat 0 n).
    { rewrite app_assoc. rewrite seg_app_r by (rewrite app_length, L1, repeat_length; lia). replace (3 * n - 2 * n)%nat with n by lia. rewrite firstn_app, repeat_length, Nat.sub_diag. cbn [firstn]. rewrite app_nil_r. apply firstn_all2. rewrite repeat_length. lia. }
    rewrite S2, S3. assert (S4 : skipn (3 * (n * 1)) ((1 :: repeat 0 (n - 1)) ++ repeat 0 n ++ repeat 0 n ++ [0]) = [0]).
    { replace ((1 :: repeat 0 (n - 1)) ++ repeat 0 n ++ repeat 0 n ++ [0]) with (((1 :: repeat 0 (n - 1)) ++ repeat 0 n ++ repeat 0 n) ++ [0]) by (now rewrite <- !app_assoc).
      rewrite skipn_app. rewrite skipn_all2 by (rewrite !app_length, L1, !repeat_length; lia). rewrite !app_length, L1, !repeat_length. replace (3 * (n * 1) - (n + (n + n)))%nat with 0%nat by lia. reflexivity. }
    rewrite S4. cbn [map]. rewrite !map_repeat. do 4 f_equal.
    - f_equal.
      + rewrite <- (map_id (i_trans m)) at 2. apply map_ext. intros; ring.
      + f_equal. apply map_ext. intros; ring.
    - f_equal. rewrite <- (map_id (i_dispx m)) at 2. apply map_ext. intros; ring.
    - f_equal. rewrite <- (map_id (i_dispy m)) at 2. apply map_ext. intros; ring. }
  rewrite ST. cbn [bind]. eexists. split; [exact P|]. split; [exact LL|]. split; [reflexivity|]. unfold unit_psf. cbn [s_Cn2 s_r0 s_dphi s_jit s_stat s_F s_dx s_dy s_bkg]. fold n.
  split; [reflexivity|]. split; [reflexivity|]. split.
  { destruct (0 <? i_atm m + i_dphi m)%nat; [|reflexivity]. f_equal. rewrite Ex at 1. unfold x'. rewrite !seg_app_l by lia. reflexivity. }
  split. { rewrite LL. destruct (i_atm m + i_dphi m <? length x)%nat; [|reflexivity]. f_equal. rewrite Ex at 1. unfold x'. rewrite !seg_app_l by lia. reflexivity. }
  split. { rewrite LL, W, F. destruct (_ <? length x)%nat; [|reflexivity]. f_equal.
    assert (SK : forall g u, length u = (3 * n)%nat -> skipn (i_atm m + i_dphi m + 3 + n * 1 * 3 + 1) (pre ++ g :: u ++ post) = post).
    { intros g u Lu. replace (pre ++ g :: u ++ post) with ((pre ++ g :: u) ++ post) by (now rewrite <- app_assoc). rewrite skipn_app.
      assert (LQ : length (pre ++ g :: u) = (i_atm m + i_dphi m + 3 + n * 1 * 3 + 1)%nat) by (rewrite app_length; cbn; lia). rewrite LQ, Nat.sub_diag, skipn_all2 by lia. reflexivity. }
    rewrite Ex. unfold x'. rewrite !SK; [reflexivity|exact Lm|apply repeat_length]. }
  repeat split; reflexivity.
Qed.
Print Assumptions C66_psf_parameters.
(** non-vacuity: one layer, 6 phase parameters, two stars, one static mode *)
Example C66_ex : exists s, sort_params (mkInst 1 1 1 6 true [0; 0; 0] 2 1 1 [1/2] [3] [4]) [/5; 1;2;3;4;5;6; 7;8;9; 10;20; 11;21; 12;22; 30; 40] = Ok s /\ s_F s = [[10 * (1/2)]; [20 * (1/2)]] /\
  psf_params (mkInst 1 1 1 6 true [0; 0; 0] 2 1 1 [1/2] [3] [4]) [/5; 1;2;3;4;5;6; 7;8;9; 10;20; 11;21; 12;22; 30; 40] = Ok [/5; 1;2;3;4;5;6; 7;8;9; 1;0; 0;0; 0;0; 0; 40].
Proof. eexists. split; [reflexivity|]. split; reflexivity. Qed.
(** Finding: psfR has no jitter parameters, but three are counted. The flux and the
    shifts of the fit are kept, the background becomes 1 and up to three static modes
    are erased (one star). *)
Theorem C66_no_jitter_refuted : forall m pre F dx dy bk st, i_jit m = false -> i_star m = 1%nat -> length pre = (i_atm m + i_dphi m)%nat ->
  psf_params m (pre ++ F :: dx :: dy :: bk :: st) = Ok (pre ++ F :: dx :: dy :: 1 :: repeat 0 (Nat.min 3 (length st)) ++ skipn 3 st).
Proof.
  intros m pre F dx dy bk st J N L. unfold psf_params, id_flux. rewrite N, <- L. destruct (Nat.ltb_spec (length pre + 3) (length (pre ++ F :: dx :: dy :: bk :: st))) as [_|B]; [|rewrite app_length in B; cbn in B; lia]. f_equal.
  assert (S3 : set_nth (length pre + 3) 1 (pre ++ F :: dx :: dy :: bk :: st) = pre ++ F :: dx :: dy :: 1 :: st).
  { replace (pre ++ F :: dx :: dy :: bk :: st) with ((pre ++ [F; dx; dy]) ++ bk :: st) by (now rewrite <- app_assoc). replace (length pre + 3)%nat with (length (pre ++ [F; dx; dy])) by (rewrite app_length; reflexivity). rewrite set_nth_app. now rewrite <- app_assoc. }
  rewrite S3. replace (pre ++ F :: dx :: dy :: 1 :: st) with ((pre ++ [F; dx; dy; 1]) ++ st) by (now rewrite <- app_assoc). rewrite zero_range_app, zero_range_skip by (rewrite app_length; cbn; lia).
  rewrite <- app_assoc. cbn [app]. do 5 f_equal. rewrite app_length. cbn [length]. replace (0 + (length pre + 4))%nat with (length pre + 4)%nat by lia.
  destruct st as [|a [|b [|c st]]]; cbn [zero_range length Nat.min repeat app skipn]; repeat (match goal with |- context [(?a <=? ?b)%nat] => destruct (Nat.leb_spec a b); [|lia] end; match goal with |- context [(?a <? ?b)%nat] => destruct (Nat.ltb_spec a b); [|lia] end; cbn [andb]); try reflexivity.
  do 3 f_equal. apply zero_range_after. lia.
Qed.
Print Assumptions C66_no_jitter_refuted.
(** Finding: with several layers, fewer reconstructed ones (n_param_atm = min) than the
    model reads as Cn2 (nL): the reported PSF has a null flux, the background and not the
    jitter of the fit *)
Theorem C66_fewer_reconstructed_layers_refuted : exists m x s x' s', i_atm m = Nat.min (i_nL m) (i_nRec m) /\ i_jit m = true /\
  sort_params m x = Ok s /\ psf_params m x = Ok x' /\ sort_params m x' = Ok s' /\ s_F s' = [[0]] /\ s_F s = [[7]] /\ s_bkg s' = s_bkg s /\ s_bkg s = [10] /\ s_jit s <> s_jit s'.
Proof.
  exists (mkInst 2 3 2 0 true [0; 0; 0] 1 1 1 [1] [0] [0]), [1; 2; 3; 4; 5; 6; 7; 8; 9; 10].
  assert (P : exists r, rpow (lsum [1; 2; 3]) (- 3 / 5) = Ok r). { unfold rpow, lsum. cbn. destruct (Rlt_dec (1 + (2 + (3 + 0))) 0); [lra|]. destruct (Req_EM_T (1 + (2 + (3 + 0))) 0); [lra|eauto]. }
  destruct P as [r P]. unfold sort_params, sort_atm, psf_params. cbn [i_atm i_nL i_nRec Nat.ltb Nat.leb andb firstn i_dphi i_jit id_flux i_star length Nat.add Nat.mul]. rewrite P. cbn [bind].
  eexists. eexists. eexists. split; [reflexivity|]. split; [reflexivity|]. split; [reflexivity|]. split; [reflexivity|]. cbn [set_nth zero_range Nat.leb Nat.ltb andb firstn Nat.sub].
  rewrite P. cbn [bind]. split; [reflexivity|]. cbn. split; [repeat f_equal; lra|]. split; [repeat f_equal; lra|]. split; [reflexivity|]. split; [reflexivity|]. intros E. injection E as E. lra.
Qed.
(** Finding: several wavelengths: 3 entries per star are erased instead of 3 per star and
    wavelength; here the second shift of the only star is kept *)
Theorem C66_several_wavelengths_refuted : exists m x s x' s', i_jit m = true /\ i_wvl m = 2%nat /\
  sort_params m x = Ok s /\ psf_params m x = Ok x' /\ sort_params m x' = Ok s' /\ s_F s' = [[1; 0]] /\ s_dy s' = s_dy s /\ s_dy s = [[14; 15]] /\ s_bkg s' = s_bkg s.
Proof.
  exists (mkInst 0 1 1 0 true [0; 0; 0] 1 2 2 [1; 1] [0; 0] [0; 0]), [1; 2; 3; 10; 11; 12; 13; 14; 15; 16; 17]. do 3 eexists.
  repeat (split; [reflexivity|]). reflexivity.
Qed.
Print Assumptions C66_fewer_reconstructed_layers_refuted.
Print Assumptions C66_several_wavelengths_refuted.

(** ** C67 *)
(** the image without saturation, by the documentation: sums over the sources and/or the
    wavelengths, axes of length 1 dropped *)
Theorem C67_stacking : forall r c s w f sat, r <> 1%nat -> c <> 1%nat -> let psf := mkNd [r; c; s; w] f in
  (exists im, imageModel psf true true sat = Ok (im, psf) /\ nd_shape im = [r; c] /\ forall i j, nd_at im [i; j] = clip_at sat (rsum s (fun k => rsum w (fun l => f [i; j; k; l])))) /\
  (s <> 1%nat -> exists im, imageModel psf true false sat = Ok (im, psf) /\ nd_shape im = [r; c; s] /\ forall i j k, nd_at im [i; j; k] = clip_at sat (rsum w (fun l => f [i; j; k; l]))) /\
  (s = 1%nat -> exists im, imageModel psf true false sat = Ok (im, psf) /\ nd_shape im = [r; c] /\ forall i j, nd_at im [i; j] = clip_at sat (rsum w (fun l => f [i; j; 0%nat; l]))) /\
  (w <> 1%nat -> exists im, imageModel psf false true sat = Ok (im, psf) /\ nd_shape im = [r; c; w] /\ forall i j l, nd_at im [i; j; l] = clip_at sat (rsum s (fun k => f [i; j; k; l]))) /\
  (w = 1%nat -> exists im, imageModel psf false true sat = Ok (im, psf) /\ nd_shape im = [r; c] /\ forall i j, nd_at im [i; j] = clip_at sat (rsum s (fun k => f [i; j; k; 0%nat]))).
Proof.
  intros r c s w f sat Hr Hc. cbv zeta. apply Nat.eqb_neq in Hr, Hc.
  assert (Hr' := Hr). assert (Hc' := Hc).
  split; [|split; [|split; [|split]]]; [|intros E; pose proof E as E'; apply Nat.eqb_neq in E'|intros ->|intros E; pose proof E as E'; apply Nat.eqb_neq in E'|intros ->];
    (eexists; split; [reflexivity|]; unfold saturate, squeeze; cbn [nd_shape nd_at filter unsqueeze]; rewrite ?Hr, ?Hc, ?E'; cbn [negb Nat.eqb]; split; [reflexivity|]; intros; cbn [app]; rewrite ?E'; reflexivity).
Qed.
Print Assumptions C67_stacking.
(** summing over the wavelengths then over the sources is summing over both *)
Theorem C67_order : forall r c s w f, r <> 1%nat -> c <> 1%nat -> s <> 1%nat -> exists a b im, imageModel (mkNd [r; c; s; w] f) true false Inf = Ok (a, mkNd [r; c; s; w] f) /\
  imageModel a true true Inf = Ok (b, a) /\ imageModel (mkNd [r; c; s; w] f) true true Inf = Ok (im, mkNd [r; c; s; w] f) /\ nd_shape b = nd_shape im /\ forall i j, nd_at b [i; j] = nd_at im [i; j].
Proof.
  intros r c s w f Hr Hc Hs. apply Nat.eqb_neq in Hr, Hc, Hs.
  assert (SQ : forall g, squeeze (mkNd [r; c; s] g) = mkNd [r; c; s] (fun idx => g (unsqueeze [r; c; s] idx))) by (intros g; unfold squeeze; cbn [nd_shape nd_at filter]; rewrite Hr, Hc, Hs; reflexivity).
  assert (SQ2 : forall g, squeeze (mkNd [r; c] g) = mkNd [r; c] (fun idx => g (unsqueeze [r; c] idx))) by (intros g; unfold squeeze; cbn [nd_shape nd_at filter]; rewrite Hr, Hc; reflexivity).
  assert (U3 : forall i j k, unsqueeze [r; c; s] [i; j; k] = [i; j; k]) by (intros; cbn [unsqueeze]; rewrite Hr, Hc, Hs; reflexivity).
  assert (U2 : forall i j, unsqueeze [r; c] [i; j] = [i; j]) by (intros; cbn [unsqueeze]; rewrite Hr, Hc; reflexivity).
  unfold imageModel at 1 3. cbn [nd_shape length sum3 sum23 bind]. rewrite SQ, SQ2. unfold saturate. cbn [nd_shape nd_at].
  do 3 eexists. split; [reflexivity|]. unfold imageModel. cbn [nd_shape nd_at length sum2 bind]. rewrite SQ2. split; [reflexivity|]. split; [reflexivity|]. split; [reflexivity|].
  intros i j. unfold saturate. cbn [nd_shape nd_at clip_at]. rewrite U2. apply rsum_ext. intros k _. cbn [app clip_at]. now rewrite U3.
Qed.
Print Assumptions C67_order.
(** no pixel of an image obtained from a cube exceeds the saturation; below it nothing
    is changed *)
Theorem C67_saturation : forall psf sp st s im arg, (3 <= length (nd_shape psf))%nat -> imageModel psf sp st (Fin s) = Ok (im, arg) ->
  (forall idx, nd_at im idx <= s) /\
  exists im0, imageModel psf sp st Inf = Ok (im0, psf) /\ nd_shape im = nd_shape im0 /\ forall idx, nd_at im idx = Rmin s (nd_at im0 idx).
Proof.
  intros psf sp st s im arg L H.
  assert (SA : forall x, (forall idx, nd_at (saturate (Fin s) x) idx <= s) /\ (forall idx, nd_at (saturate (Fin s) x) idx = Rmin s (nd_at (saturate Inf x) idx))).
  { intros x. unfold saturate. cbn [nd_at clip_at]. split; intros idx; unfold Rmin; destruct (Rle_dec s (nd_at x idx)); lra. }
  assert (SI : saturate Inf psf = psf) by (destruct psf; reflexivity).
  unfold imageModel in *. destruct (length (nd_shape psf)) as [|[|[|[|[|n]]]]]; try lia; try discriminate.
  - destruct st; [apply bind_ok in H; destruct H as (a & Ha & H); rewrite Ha; cbn [bind]|]; apply Ok_inj in H; injection H as <- _; destruct (SA (squeeze psf)); try (destruct (SA (squeeze a))); (split; [assumption|]); eexists; rewrite ?SI; (split; [reflexivity|]); split; auto.
  - destruct sp, st; try (apply bind_ok in H; destruct H as (a & Ha & H); rewrite Ha; cbn [bind]); apply Ok_inj in H; injection H as <- _; destruct (SA (squeeze psf)); try (destruct (SA (squeeze a))); (split; [assumption|]); eexists; rewrite ?SI; (split; [reflexivity|]); split; auto.
Qed.
Print Assumptions C67_saturation.
(** the argument is not changed when a sum is made, for an image, or without saturation *)
Theorem C67_argument_unchanged : forall psf sp st sat im arg, imageModel psf sp st sat = Ok (im, arg) ->
  length (nd_shape psf) = 2%nat \/ st = true \/ (sp = true /\ length (nd_shape psf) = 4%nat) \/ sat = Inf -> arg = psf.
Proof.
  intros psf sp st sat im arg H C. assert (SI : saturate Inf psf = psf) by (destruct psf; reflexivity).
  unfold imageModel in H. destruct (length (nd_shape psf)) as [|[|[|[|[|n]]]]]; try discriminate.
  - apply Ok_inj in H. now injection H.
  - destruct st; [apply bind_ok in H; destruct H as (a & Ha & H)|]; apply Ok_inj in H; injection H as _ <-; [reflexivity|]. destruct C as [C|[C|[[_ C]| ->]]]; try discriminate. exact SI.
  - destruct sp, st; try (apply bind_ok in H; destruct H as (a & Ha & H)); apply Ok_inj in H; injection H as _ <-; try reflexivity. destruct C as [C|[C|[[C _]| ->]]]; try discriminate. exact SI.
Qed.
Print Assumptions C67_argument_unchanged.
(** Findings: otherwise the saturation is written in the caller's cube; an image (2-D) is
    returned unsaturated *)
Theorem C67_argument_saturated_refuted : forall psf s im arg, (3 <= length (nd_shape psf))%nat -> imageModel psf false false (Fin s) = Ok (im, arg) ->
  forall idx, s < nd_at psf idx -> nd_at arg idx = s.
Proof.
  intros psf s im arg L H idx Hi. assert (Q : nd_at (saturate (Fin s) psf) idx = s) by (unfold saturate; cbn [nd_at clip_at]; destruct (Rle_dec s (nd_at psf idx)); lra).
  unfold imageModel in H. destruct (length (nd_shape psf)) as [|[|[|[|[|n]]]]]; try lia; try discriminate; apply Ok_inj in H; injection H as _ <-; exact Q.
Qed.
Theorem C67_image_unsaturated_refuted : forall r c f sp st sat, imageModel (mkNd [r; c] f) sp st sat = Ok (mkNd [r; c] f, mkNd [r; c] f).
Proof. reflexivity. Qed.
Print Assumptions C67_argument_saturated_refuted.
Example C67_ex : exists im arg, imageModel (mkNd [2; 2; 1; 2]%nat (fun idx => INR (nth 3 idx 0%nat) + 1)) false false (Fin (3 / 2)) = Ok (im, arg) /\ nd_shape im = [2; 2; 2]%nat /\ nd_at im [0; 0; 0]%nat = 1 /\ nd_at arg [0; 0; 0; 1]%nat = 3 / 2.
Proof. do 2 eexists. split; [reflexivity|]. split; [reflexivity|]. cbn. split; destruct (Rle_dec _ _); lra. Qed.

(** ** C68: quality of a fit (one image) *)
(** totals over the pixels *)
Definition total (sky : img) (f : nat -> nat -> R) : R := rsum (rows sky) (fun i => rsum (cols sky) (fun j => f i j)).
Definition res2 (sky fit : img) : R := total sky (fun i j => (px sky i j - px fit i j) ^ 2).
Definition res1 (sky fit : img) : R := total sky (fun i j => Rabs (px sky i j - px fit i j)).
Definition flux (sky : img) : R := total sky (px sky).
Definition spread (sky : img) : R := total sky (fun i j => (px sky i j - flux sky / (INR (rows sky) * INR (cols sky))) ^ 2).
Theorem C68_definitions : forall sky fit mse mae fvu, meanErrors sky fit = Ok (mse, mae, fvu) <->
  flux sky <> 0 /\ spread sky <> 0 /\ mse = 100 * sqrt (res2 sky fit) / flux sky /\ mae = 100 * res1 sky fit / flux sky /\ fvu = 100 * res2 sky fit / spread sky.
Proof.
  intros. unfold meanErrors, rdiv. cbn [img_zip img_map rows cols px]. fold (flux sky). unfold img_sum. cbn [img_zip img_map rows cols px].
  change (rsum (rows sky) (fun i => rsum (cols sky) (fun j => px sky i j))) with (flux sky).
  change (rsum (rows sky) (fun i => rsum (cols sky) (fun j => (px sky i j - px fit i j) ^ 2))) with (res2 sky fit).
  change (rsum (rows sky) (fun i => rsum (cols sky) (fun j => Rabs (px sky i j - px fit i j)))) with (res1 sky fit).
  change (rsum (rows sky) (fun i => rsum (cols sky) (fun j => (px sky i j - flux sky / (INR (rows sky) * INR (cols sky))) ^ 2))) with (spread sky).
  destruct (Req_EM_T (flux sky) 0); cbn [bind]; [split; [discriminate|intros [? _]; contradiction]|]. destruct (Req_EM_T (spread sky) 0); cbn [bind]; [split; [discriminate|intros (_ & ? & _); contradiction]|].
  split; [intros H; apply Ok_inj in H; injection H as <- <- <-; auto|]. intros (_ & _ & -> & -> & ->). reflexivity.
Qed.
Print Assumptions C68_definitions.
Lemma total_nonneg sky f : (forall i j, 0 <= f i j) -> 0 <= total sky f.
Proof. intros H. unfold total. apply rsum_nonneg. intros. apply rsum_nonneg. intros. apply H. Qed.
Lemma rsum_zero_all n f : (forall i, (i < n)%nat -> 0 <= f i) -> rsum n f = 0 -> forall i, (i < n)%nat -> f i = 0.
Proof. intros H Z i Hi. pose proof (H i Hi). pose proof (rsum_term_le n f i H Hi). lra. Qed.
Lemma total_zero sky f : (forall i j, 0 <= f i j) -> total sky f = 0 -> forall i j, (i < rows sky)%nat -> (j < cols sky)%nat -> f i j = 0.
Proof.
  intros H Z i j Hi Hj. unfold total in Z. assert (Q := rsum_zero_all _ _ (fun i _ => rsum_nonneg _ _ (fun j _ => H i j)) Z i Hi). cbv beta in Q.
  exact (rsum_zero_all _ _ (fun j _ => H i j) Q j Hj).
Qed.
(** for an image of positive flux: the errors are not negative, the mean-square error is
    at most the absolute one, and each is null exactly for a perfect fit *)
Theorem C68_errors : forall sky fit mse mae fvu, meanErrors sky fit = Ok (mse, mae, fvu) -> 0 < flux sky ->
  0 <= mse <= mae /\ 0 <= fvu /\
  let perfect := forall i j, (i < rows sky)%nat -> (j < cols sky)%nat -> px fit i j = px sky i j in
  (mse = 0 <-> perfect) /\ (mae = 0 <-> perfect) /\ (fvu = 0 <-> perfect).
Proof.
  intros sky fit mse mae fvu H F. apply C68_definitions in H. destruct H as (_ & NS & -> & -> & ->).
  assert (P2 : 0 <= res2 sky fit) by (apply total_nonneg; intros; apply pow2_ge_0). assert (P1 : 0 <= res1 sky fit) by (apply total_nonneg; intros; apply Rabs_pos).
  assert (PS : 0 < spread sky) by (assert (0 <= spread sky) by (apply total_nonneg; intros; apply pow2_ge_0); lra).
  assert (IF : 0 < / flux sky) by now apply Rinv_0_lt_compat. assert (IS : 0 < / spread sky) by now apply Rinv_0_lt_compat.
  assert (L21 : sqrt (res2 sky fit) <= res1 sky fit).
  { apply Rsqr_incr_0; [|apply sqrt_pos|exact P1]. rewrite Rsqr_sqrt by exact P2. unfold Rsqr.
    assert (G : forall n f, (forall i, (i < n)%nat -> 0 <= f i) -> rsum n (fun i => f i * f i) <= rsum n f * rsum n f).
    { clear. induction n as [|n IH]; intros f Hf; cbn; [lra|]. pose proof (IH f (fun i Hi => Hf i (Nat.lt_trans _ _ _ Hi (Nat.lt_succ_diag_r n)))). assert (0 <= rsum n f) by (apply rsum_nonneg; intros; apply Hf; lia). assert (0 <= f n) by (apply Hf; lia).
      assert (0 <= rsum n f * f n) by now apply Rmult_le_pos. nra. }
    unfold res2, res1, total. eapply Rle_trans; [|apply G; intros; apply rsum_nonneg; intros; apply Rabs_pos]. apply rsum_le. intros i Hi. eapply Rle_trans; [|apply G; intros; apply Rabs_pos].
    apply rsum_le. intros j Hj. rewrite <- Rabs_mult. rewrite Rabs_right; [right; ring|]. apply Rle_ge. replace ((px sky i j - px fit i j) * (px sky i j - px fit i j)) with ((px sky i j - px fit i j) ^ 2) by ring. apply pow2_ge_0. }
  assert (SQ : 0 <= sqrt (res2 sky fit)) by apply sqrt_pos.
  split; [split; unfold Rdiv; [apply Rmult_le_pos; lra|apply Rmult_le_compat_r; lra]|]. split; [unfold Rdiv; apply Rmult_le_pos; lra|]. cbv zeta.
  assert (Z2 : res2 sky fit = 0 <-> forall i j, (i < rows sky)%nat -> (j < cols sky)%nat -> px fit i j = px sky i j).
  { split; [intros Z i j Hi Hj|].
    - assert (Q : (px sky i j - px fit i j) ^ 2 = 0) by (exact (total_zero sky (fun i j => (px sky i j - px fit i j) ^ 2) (fun _ _ => pow2_ge_0 _) Z i j Hi Hj)). nra.
    - intros Pf. unfold res2, total. apply rsum_zero. intros i Hi. apply rsum_zero. intros j Hj. rewrite Pf by assumption. ring. }
  assert (Z1 : res1 sky fit = 0 <-> forall i j, (i < rows sky)%nat -> (j < cols sky)%nat -> px fit i j = px sky i j).
  { split; [intros Z i j Hi Hj|].
    - assert (Q : Rabs (px sky i j - px fit i j) = 0) by (exact (total_zero sky (fun i j => Rabs (px sky i j - px fit i j)) (fun _ _ => Rabs_pos _) Z i j Hi Hj)). destruct (Req_dec (px sky i j - px fit i j) 0) as [E|E]; [lra|]. apply Rabs_no_R0 in E. contradiction.
    - intros Pf. unfold res1, total. apply rsum_zero. intros i Hi. apply rsum_zero. intros j Hj. rewrite Pf by assumption. rewrite Rminus_diag_eq by reflexivity. apply Rabs_R0. }
  assert (DZ : forall a b, 0 < / b -> (100 * a / b = 0 <-> a = 0)) by (intros a b Hb; unfold Rdiv; split; [intros E; apply Rmult_integral in E; destruct E; [lra|lra]|intros ->; ring]).
  split; [|split].
  - rewrite DZ by exact IF. rewrite <- Z2. split; [intros E; apply sqrt_eq_0 in E; [exact E|exact P2]|intros ->; apply sqrt_0].
  - rewrite DZ by exact IF. exact Z1.
  - rewrite DZ by exact IS. exact Z2.
Qed.
Print Assumptions C68_errors.
(** the units do not matter *)
Theorem C68_scale : forall sky fit k e, 0 < k -> meanErrors sky fit = Ok e -> meanErrors (img_map (Rmult k) sky) (img_map (Rmult k) fit) = Ok e.
Proof.
  intros sky fit k [[mse mae] fvu] Hk H. apply C68_definitions in H. destruct H as (NF & NS & -> & -> & ->). apply C68_definitions.
  assert (TS : forall f g c, (forall i j, f i j = c * g i j) -> total (img_map (Rmult k) sky) f = c * total sky g).
  { intros f g c E. unfold total. cbn [img_map rows cols]. rewrite <- rsum_scal. apply rsum_ext. intros i _. rewrite <- rsum_scal. apply rsum_ext. intros j _. apply E. }
  assert (EF : flux (img_map (Rmult k) sky) = k * flux sky) by (apply TS; reflexivity).
  assert (E2 : res2 (img_map (Rmult k) sky) (img_map (Rmult k) fit) = k ^ 2 * res2 sky fit) by (apply TS; intros; cbn [img_map px]; ring).
  assert (E1 : res1 (img_map (Rmult k) sky) (img_map (Rmult k) fit) = k * res1 sky fit) by (apply TS; intros; cbn [img_map px]; rewrite <- Rmult_minus_distr_l, Rabs_mult, (Rabs_right k) by lra; reflexivity).
  assert (ES : spread (img_map (Rmult k) sky) = k ^ 2 * spread sky) by (apply TS; intros; rewrite EF; cbn [img_map rows cols px]; unfold Rdiv; ring).
  rewrite EF, E2, E1, ES. assert (0 < k ^ 2) by (apply pow_lt; exact Hk).
  split; [apply Rmult_integral_contrapositive_currified; lra|]. split; [apply Rmult_integral_contrapositive_currified; lra|].
  rewrite sqrt_mult by (try (apply total_nonneg; intros; apply pow2_ge_0); lra). rewrite sqrt_pow2 by lra. split; [field; lra|]. split; field; lra.
Qed.
Print Assumptions C68_scale.
(** Finding: for a cube the tables share their memory. Whatever the images, the Strehl
    ratios of the image are those of the model, both widths are the vertical ones, and
    the three errors are the unexplained variance. *)
Lemma set_nth_twice {A} n (u v : A) l : set_nth n v (set_nth n u l) = set_nth n v l.
Proof. revert n. induction l as [|a l IH]; intros [|n]; cbn; try reflexivity. now rewrite IH. Qed.
Lemma fold_set {A} (f : nat -> A) : forall n k pre post, length pre = k -> length post = n -> fold_left (fun l j => set_nth j (f j) l) (seq k n) (pre ++ post) = pre ++ map f (seq k n).
Proof.
  induction n as [|n IH]; intros k pre post Lp Lq; destruct post as [|a post]; try discriminate; [reflexivity|]. cbn [seq fold_left map]. subst k.
  replace (set_nth (length pre) (f (length pre)) (pre ++ a :: post)) with ((pre ++ [f (length pre)]) ++ post).
  - rewrite IH; [now rewrite <- app_assoc|rewrite app_length; cbn; lia|cbn in Lq; lia].
  - rewrite set_nth_app, <- app_assoc. reflexivity.
Qed.
Theorem C68_cube_refuted : forall n sky fit err, let q := evaluate_cube n sky fit err in
  let spec f := map f (seq 0 n) in
  SR_sky q = spec (fun j => q_sr (fit j)) /\ SR_fit q = spec (fun j => q_sr (fit j)) /\
  FX_sky q = spec (fun j => q_fy (sky j)) /\ FY_sky q = spec (fun j => q_fy (sky j)) /\
  FX_fit q = spec (fun j => q_fy (fit j)) /\ FY_fit q = spec (fun j => q_fy (fit j)) /\
  MSE q = spec (fun j => snd (err j)) /\ MAE q = spec (fun j => snd (err j)) /\ FVU q = spec (fun j => snd (err j)).
Proof.
  intros n sky fit err. cbv zeta. unfold evaluate_cube, quality_loop.
  assert (G : forall l a b c d, fold_left (fun st j => let '(sr, fs, ff, er) := st in
    (set_nth j (q_sr (fit j)) (set_nth j (q_sr (sky j)) sr), set_nth j (q_fy (sky j)) (set_nth j (q_fx (sky j)) fs), set_nth j (q_fy (fit j)) (set_nth j (q_fx (fit j)) ff), set_nth j (snd (err j)) (set_nth j (snd (fst (err j))) (set_nth j (fst (fst (err j))) er)))) l (a, b, c, d) =
    (fold_left (fun l j => set_nth j (q_sr (fit j)) l) l a, fold_left (fun l j => set_nth j (q_fy (sky j)) l) l b, fold_left (fun l j => set_nth j (q_fy (fit j)) l) l c, fold_left (fun l j => set_nth j (snd (err j)) l) l d)).
  { induction l as [|j l IH]; intros a b c d; [reflexivity|]. cbn [fold_left]. rewrite IH, !set_nth_twice. reflexivity. }
  cbv zeta. rewrite G. pose proof (fun f => fold_set (A := R) f n 0 [] (repeat 0 n) eq_refl (repeat_length _ _)) as FS. cbn [app] in FS. rewrite !FS. cbn. repeat split.
Qed.
Print Assumptions C68_cube_refuted.
Example C68_ex : exists e, meanErrors (mkImg 1 2 (fun _ j => INR j)) (mkImg 1 2 (fun _ j => 2 * INR j)) = Ok e /\ e = (100, 100, 200).
Proof.
  exists (100, 100, 200). split; [|reflexivity]. apply C68_definitions. unfold flux, spread, res1, res2, total, flux, total. cbn.
  replace (0 + (0 + 0 + 1)) with 1 by ring. replace (0 + (0 + (0 - 2 * 0) * ((0 - 2 * 0) * 1) + (1 - 2 * 1) * ((1 - 2 * 1) * 1))) with 1 by ring. rewrite sqrt_1.
  split; [lra|]. split; [lra|]. split; [lra|]. split; [|lra]. rewrite (Rabs_left (1 - 2 * 1)) by lra. rewrite (Rabs_right (0 - 2 * 0)) by lra. lra.
Qed.

Print Assumptions C67_image_unsaturated_refuted.
