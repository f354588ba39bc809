(** C94, continued: [getFWHM]. *)
From Coq Require Import Reals List Arith ZArith Lia Lra Bool.
From Flocq Require Import Core.
From Verif Require Import Base_Py Base_Sum M_Image M_Tools L_Image2 L_Tools2 L_Flux S_Metric M_Metric M_Metric2 P_Metric6 P_Metric7.
Import ListNotations.
Open Scope R_scope.

Lemma ratio_ge1 a b : 0 < a -> 0 < b -> 1 <= Rmax (a / b) (b / a).
Proof.
  intros Ha Hb. destruct (Rle_lt_dec a b) as [H|H].
  - apply (Rle_trans _ (b / a)); [|apply Rmax_r]. apply (Rmult_le_reg_r a); [assumption|]. unfold Rdiv. rewrite Rmult_assoc, Rinv_l by lra. lra.
  - apply (Rle_trans _ (a / b)); [|apply Rmax_l]. apply (Rmult_le_reg_r b); [assumption|]. unfold Rdiv. rewrite Rmult_assoc, Rinv_l by lra. lra.
Qed.

Lemma contour_width_order f pts ps rebin fx fy th : 0 < ps -> 0 < rebin -> contour_width f pts ps rebin = Ok (fx, fy, th) -> 0 <= fy <= fx.
Proof.
  intros Hp Hr H. unfold contour_width in H.
  destruct (list_max (map fst pts)) as [mxx|]; [|discriminate]. cbn [bind] in H. destruct (list_max (map snd pts)) as [mxy|]; [|discriminate]. cbn [bind] in H.
  destruct (list_min (map fst pts)) as [mnx|]; [|discriminate]. cbn [bind] in H. destruct (list_min (map snd pts)) as [mny|]; [|discriminate]. cbn [bind] in H.
  cbv zeta in H. set (wr := map _ pts) in H. destruct (list_max wr) as [hi|] eqn:Eh; [|discriminate]. cbn [bind] in H.
  destruct (list_min wr) as [lo|] eqn:El; [|discriminate]. cbn [bind] in H. destruct (argmax_list wr) as [[k v]|]; [|discriminate].
  apply Ok_inj in H. injection H as <- <- _. apply list_max_spec in Eh. apply list_min_spec in El. destruct Eh as [E1 E2], El as [L1 L2].
  assert (0 <= lo).
  { unfold wr in L2. apply in_map_iff in L2. destruct L2 as [p [<- _]]. apply Rmult_le_pos; [|lra]. apply Rmult_le_pos; [apply sqrt_pos|]. left. apply Rinv_0_lt_compat. exact Hr. }
  specialize (E1 lo L2). lra.
Qed.

(** The widths before the division by each other: the [w] of the model. *)
Definition widths (E : fwhm_env) psf ps rebin m : result (R * R * R) :=
  match getFWHM E psf ps rebin m with Ok (fx, fy, _, th) => Ok (fx, fy, th) | Err e => Err e end.

(** C94. The axis ratio returned with two positive widths is at least 1, and it
    is the ratio of the larger width to the smaller one. *)
Theorem C94_ratio E psf ps rebin m fx fy ar th :
  getFWHM E psf ps rebin m = Ok (fx, fy, ar, th) -> 0 < fx -> 0 < fy -> 1 <= ar /\ ar = Rmax fx fy / Rmin fx fy.
Proof.
  intros H Hx Hy. unfold getFWHM in H. cbv zeta in H. set (im := if Rlt_dec 1 rebin then _ else _) in *.
  destruct (img_max im) as [pk|]; [|discriminate]. cbn [bind] in H. destruct (img_min im) as [mn|]; [|discriminate]. cbn [bind] in H.
  match type of H with bind ?W _ = _ => destruct W as [[[fx' fy'] th']|]; [|discriminate] end. cbn [bind] in H.
  destruct (Req_EM_T fx' 0); [discriminate|]. destruct (Req_EM_T fy' 0); [discriminate|]. apply Ok_inj in H. injection H as -> -> <- ->.
  split; [apply ratio_ge1; assumption|]. unfold Rmax, Rmin.
  assert (A : fx <= fy -> fx / fy <= fy / fx).
  { intros K. apply (Rle_trans _ 1).
    - apply (Rmult_le_reg_r fy); [assumption|]. unfold Rdiv. rewrite Rmult_assoc, Rinv_l by lra. lra.
    - apply (Rmult_le_reg_r fx); [assumption|]. unfold Rdiv. rewrite Rmult_assoc, Rinv_l by lra. lra. }
  assert (B : fy < fx -> ~ fx / fy <= fy / fx).
  { intros K L. assert (C : fx / fy > 1).
    { apply (Rmult_lt_reg_r fy); [assumption|]. unfold Rdiv. rewrite Rmult_assoc, Rinv_l by lra. lra. }
    assert (D : fy / fx < 1).
    { apply (Rmult_lt_reg_r fx); [assumption|]. unfold Rdiv. rewrite Rmult_assoc, Rinv_l by lra. lra. } lra. }
  destruct (Rle_dec fx fy) as [K|K]; destruct (Rle_dec (fx / fy) (fy / fx)) as [L|L]; try reflexivity; exfalso.
  - apply L. apply A. exact K.
  - apply B in L; [exact L|lra].
Qed.

(** C94. [method='cutting'] without resampling, for an image that falls below
    half of its peak: the widths are those of the row and of the column through
    the (first) brightest pixel, in units of the pixel scale. *)
Theorem C94_cutting E psf ps rebin k pk mn wx wy :
  0 < rebin <= 1 -> img_max psf = Ok pk -> img_min psf = Ok mn -> mn < / 2 * pk ->
  argmax_list (pixels psf) = Some (k, pk) ->
  fwhm_1d (row_of psf (k / cols psf)) = Ok wx -> fwhm_1d (col_of psf (k mod cols psf)) = Ok wy ->
  wx <> 0 -> wy <> 0 -> ps <> 0 ->
  getFWHM E psf ps rebin MCutting = Ok (wx * ps / rebin, wy * ps / rebin, Rmax (wx / wy) (wy / wx), 0).
Proof.
  intros Hr H1 H2 H3 Hk Hx Hy Nx Ny Np. unfold getFWHM. cbv zeta. destruct (Rlt_dec 1 rebin); [lra|]. rewrite H1. cbn [bind]. rewrite H2. cbn [bind].
  destruct (Rle_dec (/ 2 * pk) mn); [lra|]. rewrite Hk, Hx. cbn [bind]. rewrite Hy. cbn [bind]. destruct (Req_EM_T rebin 0); [lra|].
  assert (M : forall A B : Prop, forall (d1 : {A} + {~A}) (d2 : {B} + {~ B}), (if d1 then MCutting else if d2 then MCutting else MCutting) = MCutting) by (intros A B [|] [|]; reflexivity).
  rewrite M. destruct (Req_EM_T wx 1); [destruct (Req_EM_T wy 1)|]; cbn [bind];
  (destruct (Req_EM_T (wx * ps / rebin) 0) as [K|_];
   [exfalso; apply (Rmult_integral_contrapositive_currified (wx * ps) (/ rebin)); [apply Rmult_integral_contrapositive_currified; assumption|apply Rinv_neq_0_compat; lra|exact K]|]);
  (destruct (Req_EM_T (wy * ps / rebin) 0) as [K|_];
   [exfalso; apply (Rmult_integral_contrapositive_currified (wy * ps) (/ rebin)); [apply Rmult_integral_contrapositive_currified; assumption|apply Rinv_neq_0_compat; lra|exact K]|]);
  f_equal; f_equal; f_equal; f_equal; field; repeat split; lra.
Qed.

(** C94. An image that never falls below half of its peak gets the conventional
    width sqrt(2) times its side, whatever the method. *)
Theorem C94_flat E psf ps rebin m pk mn :
  rebin <= 1 -> img_max psf = Ok pk -> img_min psf = Ok mn -> / 2 * pk <= mn -> 0 < ps -> (0 < cols psf)%nat -> (0 < rows psf)%nat ->
  exists ar, getFWHM E psf ps rebin m = Ok (sqrt 2 * INR (cols psf) * ps, sqrt 2 * INR (rows psf) * ps, ar, 0).
Proof.
  intros Hr H1 H2 H3 Hp Hc Hw. unfold getFWHM. cbv zeta. destruct (Rlt_dec 1 rebin); [lra|]. rewrite H1. cbn [bind]. rewrite H2. cbn [bind].
  destruct (Rle_dec (/ 2 * pk) mn); [|lra]. cbn [bind].
  assert (S2 : 0 < sqrt 2) by (apply sqrt_lt_R0; lra).
  apply lt_INR in Hc, Hw. simpl in Hc, Hw.
  assert (A : 0 < sqrt 2 * INR (cols psf) * ps) by (repeat apply Rmult_lt_0_compat; assumption).
  assert (B : 0 < sqrt 2 * INR (rows psf) * ps) by (repeat apply Rmult_lt_0_compat; assumption).
  destruct (Req_EM_T (sqrt 2 * INR (cols psf) * ps) 0); [lra|]. destruct (Req_EM_T (sqrt 2 * INR (rows psf) * ps) 0); [lra|]. eexists. reflexivity.
Qed.

(** * The contour method *)

(** C94. Every contour point lies on the half-line from the peak through the
    chosen bright pixel, at a distance from the peak between the distance of
    that pixel and the distance of the boundary pixel. *)
Theorem C94_contour_point pkx pky level c q :
  In q (contour_pt pkx pky level c) ->
  let far := sqrt (Rsqr (f_x c - pkx) + Rsqr (f_y c - pky)) in
  let near := sqrt (Rsqr (c_x c - pkx) + Rsqr (c_y c - pky)) in
  0 < far ->
  exists d, Rmin far near <= d <= Rmax far near /\
    fst q = pkx + d * (f_x c - pkx) / far /\ snd q = pky + d * (f_y c - pky) / far /\
    sqrt (Rsqr (fst q - pkx) + Rsqr (snd q - pky)) = d.
Proof.
  intros H far near Hf. unfold contour_pt in H. fold (Rsqr (f_x c - pkx)) (Rsqr (f_y c - pky)) in H. fold (Rsqr (c_x c - pkx)) (Rsqr (c_y c - pky)) in H.
  fold far near in H. cbv zeta in H. destruct (Rlt_dec (c_val c) level) as [A|]; [|contradiction]. destruct (Rlt_dec level (f_val c)) as [B|]; [|contradiction].
  destruct (Rlt_dec 0 far) as [_|]; [|contradiction]. destruct H as [<-|[]]. cbn [fst snd].
  set (t := (level - c_val c) / (f_val c - c_val c)).
  assert (T : 0 <= t <= 1).
  { unfold t. split.
    - left. apply Rdiv_lt_0_compat; lra.
    - apply (Rmult_le_reg_r (f_val c - c_val c)); [lra|]. unfold Rdiv. rewrite Rmult_assoc, Rinv_l by lra. lra. }
  assert (Hn : 0 <= near) by apply sqrt_pos.
  set (d := near + t * (far - near)).
  assert (D : Rmin far near <= d <= Rmax far near).
  { unfold Rmin, Rmax, d. destruct (Rle_dec far near) as [K|K].
    - assert (E1 : t * (near - far) <= 1 * (near - far)) by (apply Rmult_le_compat_r; lra).
      assert (E2 : 0 <= t * (near - far)) by (apply Rmult_le_pos; lra). lra.
    - assert (E1 : t * (far - near) <= 1 * (far - near)) by (apply Rmult_le_compat_r; lra).
      assert (E2 : 0 <= t * (far - near)) by (apply Rmult_le_pos; lra). lra. }
  assert (D0 : 0 <= d). { destruct D as [D _]. apply (Rle_trans _ (Rmin far near)); [|exact D]. unfold Rmin. destruct (Rle_dec far near); lra. }
  exists d. split; [exact D|]. split; [field; lra|]. split; [field; lra|].
  replace (Rsqr (pkx + (f_x c - pkx) / far * d - pkx) + Rsqr (pky + (f_y c - pky) / far * d - pky)) with (Rsqr d * ((Rsqr (f_x c - pkx) + Rsqr (f_y c - pky)) / Rsqr far)) by (unfold Rsqr; field; lra).
  assert (E : Rsqr far = Rsqr (f_x c - pkx) + Rsqr (f_y c - pky)).
  { unfold far. apply Rsqr_sqrt. apply Rplus_le_le_0_compat; apply Rle_0_sqr. }
  rewrite <- E. replace (Rsqr far / Rsqr far) with 1 by (unfold Rsqr; field; lra). rewrite Rmult_1_r. apply sqrt_Rsqr. exact D0.
Qed.

Lemma lmean_const l d : l <> [] -> (forall x, In x l -> x = d) -> lmean l = d.
Proof.
  intros Hn H. unfold lmean. assert (E : lsum l = INR (length l) * d).
  { clear Hn. induction l as [|x l IH]; [unfold lsum; simpl; lra|]. cbn [length]. rewrite S_INR. unfold lsum in *. simpl. rewrite IH by (intros y Hy; apply H; right; exact Hy).
    rewrite (H x) by (left; reflexivity). lra. }
  rewrite E. field. apply not_0_INR. destruct l; [contradiction|discriminate].
Qed.

Lemma filter_round pkx pky pts o : (exists d, forall p, In p pts -> pt_dist pkx pky p = d) ->
  contour_filter pkx pky pts = Ok o -> o = None \/ o = Some [].
Proof.
  intros [d Hd] H. unfold contour_filter in H. destruct pts as [|p0 pts0]; [apply Ok_inj in H; left; congruence|].
  set (pts := p0 :: pts0) in *. destruct (median _) as [med|] eqn:Em; [|discriminate]. cbn [bind] in H.
  assert (Hs : nanstd (map (pt_dist pkx pky) pts) = Ok 0).
  { unfold nanstd. rewrite map_length. unfold pts at 1. cbn [length Nat.eqb]. f_equal.
    assert (Hl : lmean (map (pt_dist pkx pky) pts) = d).
    { apply lmean_const; [discriminate|]. intros x Hx. apply in_map_iff in Hx. destruct Hx as [p [<- Hp]]. apply Hd. exact Hp. }
    rewrite Hl. rewrite (lmean_const _ 0); [apply sqrt_0|discriminate|]. intros x Hx. rewrite map_map in Hx. apply in_map_iff in Hx. destruct Hx as [p [<- Hp]].
    rewrite (Hd p Hp). lra. }
  rewrite Hs in H. cbn [bind] in H. apply Ok_inj in H. subst o. right. f_equal.
  assert (G : forall l, filter (fun p => if Rlt_dec (Rabs (pt_dist pkx pky p - med)) (2 * 0) then true else false) l = []).
  { induction l as [|x l IH]; [reflexivity|]. simpl. destruct (Rlt_dec _ _) as [K|_]; [|exact IH]. pose proof (Rabs_pos (pt_dist pkx pky x - med)). lra. }
  apply G.
Qed.

(** C94, refuted reading. "The contour method measures the contour": for a
    perfectly round contour (every contour point at the same distance from the
    peak) the outlier filter removes all the points, and the result is the one
    of the cutting method. *)
Theorem C94_round_refuted E psf ps rebin pk k :
  let im := if Rlt_dec 1 rebin then resample E psf rebin else psf in
  img_max im = Ok pk -> argmax_list (pixels im) = Some (k, pk) ->
  (exists d, forall q, In q (flat_map (contour_pt (INR (k mod cols im)) (INR (k / cols im)) (pk / 2)) (cands_of E im (pk / 2))) ->
     pt_dist (INR (k mod cols im)) (INR (k / cols im)) q = d) ->
  is_ok (getFWHM E psf ps rebin MContour) = true ->
  getFWHM E psf ps rebin MContour = getFWHM E psf ps rebin MCutting.
Proof.
  intros im H1 Hk Hd Hok. unfold getFWHM in *. fold im in Hok |- *. cbv zeta in *. rewrite H1 in *. cbn [bind] in *.
  destruct (img_min im) as [mn|]; [|reflexivity]. cbn [bind] in *. destruct (Rle_dec (/ 2 * pk) mn); [reflexivity|]. rewrite Hk in *.
  destruct (fwhm_1d (row_of im _)) as [cx|]; [|reflexivity]. cbn [bind] in *. destruct (fwhm_1d (col_of im _)) as [cy|]; [|reflexivity]. cbn [bind] in *.
  unfold find_contour_points in *. rewrite Hk in *. cbv zeta in *. set (cf := contour_filter _ _ _) in *.
  assert (Hcf : forall o, cf = Ok o -> o = None \/ o = Some []) by (intros o Ho; apply (filter_round _ _ _ o Hd Ho)).
  destruct (Req_EM_T rebin 0) as [Z|Z]; [reflexivity|]. revert Hok.
  match goal with |- context [Rle_dec ?a cx] => destruct (Rle_dec a cx) end;
  match goal with |- context [Rle_dec ?a cy] => destruct (Rle_dec a cy) | _ => idtac end;
  destruct (Req_EM_T cx 1), (Req_EM_T cy 1); try reflexivity;
  (destruct cf as [oo|ee]; [destruct (Hcf oo eq_refl) as [ ->| ->]; reflexivity|cbn [bind is_ok]; intros K; try discriminate K; reflexivity]).
Qed.

(** C94. With a non-degenerate contour (no fall-back to the cutting method),
    the first width returned is the largest: fwhmX >= fwhmY. *)
Theorem C94_contour_order E psf ps rebin pk k wx wy l fx fy ar th :
  let im := if Rlt_dec 1 rebin then resample E psf rebin else psf in
  0 < ps -> 0 < rebin -> img_max im = Ok pk -> argmax_list (pixels im) = Some (k, pk) ->
  fwhm_1d (row_of im (k / cols im)) = Ok wx -> fwhm_1d (col_of im (k mod cols im)) = Ok wy ->
  wx < INR (cols im) - 1 -> wy < INR (rows im) - 1 -> wx <> 1 ->
  find_contour_points (cands_of E) im (pk / 2) = Ok (Some l) -> (3 <= length l)%nat ->
  (exists mn, img_min im = Ok mn /\ mn < / 2 * pk) ->
  getFWHM E psf ps rebin MContour = Ok (fx, fy, ar, th) -> 0 < fy <= fx /\ 1 <= ar /\ ar = fx / fy.
Proof.
  intros im Hp Hr H1 Hk Hx Hy Wx Wy N1 Hl Hlen (mn & Hmn & Hlt) H.
  assert (Hw : contour_width (at2 E) l ps rebin = Ok (fx, fy, th) /\ fx <> 0 /\ fy <> 0).
  { unfold getFWHM in H. fold im in H. cbv zeta in H. rewrite H1 in H. cbn [bind] in H. rewrite Hmn in H. cbn [bind] in H.
    destruct (Rle_dec (/ 2 * pk) mn); [lra|]. rewrite Hk, Hx in H. cbn [bind] in H. rewrite Hy in H. cbn [bind] in H.
    unfold row_of, col_of in H. rewrite !map_length, !seq_length in H.
    destruct (Rle_dec (INR (cols im) - 1) wx); [lra|]. destruct (Rle_dec (INR (rows im) - 1) wy); [lra|]. destruct (Req_EM_T wx 1); [contradiction|].
    destruct (Req_EM_T rebin 0); [lra|]. rewrite Hl in H. cbn [bind] in H. destruct (Nat.ltb_spec (length l) 3); [lia|].
    destruct (contour_width (at2 E) l ps rebin) as [[[a b] c]|]; [|discriminate]. cbn [bind] in H.
    destruct (Req_EM_T a 0); [discriminate|]. destruct (Req_EM_T b 0); [discriminate|]. apply Ok_inj in H. injection H as -> -> _ ->. auto. }
  destruct Hw as (Hw & F1 & F2). apply (contour_width_order _ _ _ _ _ _ _ Hp Hr) in Hw.
  assert (P : 0 < fy) by lra. destruct (C94_ratio _ _ _ _ _ _ _ _ _ H ltac:(lra) P) as [R1 R2]. split; [lra|]. split; [exact R1|].
  rewrite R2. unfold Rmax, Rmin. destruct (Rle_dec fx fy) as [K|K]; [|reflexivity]. assert (fx = fy) by lra. subst. reflexivity.
Qed.

(** C94, refuted reading. "rebin only refines the measurement": with
    method='gaussian' (or 'moffat') the fitted width, which is in pixels of the
    RESAMPLED image, is multiplied by the pixel scale without dividing by
    rebin: the width returned is rebin times that of the cutting convention. *)
Theorem C94_gaussian_rebin_refuted : forall E psf ps rebin pk mn k wx wy sx sy th,
  let im := resample E psf rebin in
  1 < rebin -> 0 < ps -> 0 < sx -> 0 < sy -> img_max im = Ok pk -> img_min im = Ok mn -> mn < / 2 * pk ->
  argmax_list (pixels im) = Some (k, pk) ->
  fwhm_1d (row_of im (k / cols im)) = Ok wx -> fwhm_1d (col_of im (k mod cols im)) = Ok wy ->
  wx < INR (cols im) - 1 -> wy < INR (rows im) - 1 ->
  gfit E im = (sx, sy, th) ->
  exists ar t, getFWHM E psf ps rebin MGaussian =
    Ok (rebin * (2 * sqrt (2 * ln 2) * (sx / rebin) * ps), rebin * (2 * sqrt (2 * ln 2) * (sy / rebin) * ps), ar, t).
Proof.
  intros E psf ps rebin pk mn k wx wy sx sy th im Hr Hp Hsx Hsy H1 Hmn Hlt Hk Hx Hy Wx Wy Hg.
  unfold getFWHM. cbv zeta. destruct (Rlt_dec 1 rebin); [|lra]. fold im. rewrite H1. cbn [bind]. rewrite Hmn. cbn [bind].
  destruct (Rle_dec (/ 2 * pk) mn); [lra|]. rewrite Hk, Hx. cbn [bind]. rewrite Hy. cbn [bind].
  unfold row_of, col_of. rewrite !map_length, !seq_length.
  destruct (Rle_dec (INR (cols im) - 1) wx); [lra|]. destruct (Rle_dec (INR (rows im) - 1) wy); [lra|].
  destruct (Req_EM_T rebin 0); [lra|].
  assert (Hln : 0 < sqrt (2 * ln 2)). { apply sqrt_lt_R0. apply Rmult_lt_0_compat; [lra|]. rewrite <- ln_1. apply ln_increasing; lra. }
  assert (Px : 0 < 2 * sqrt (2 * ln 2) * Rabs (sx * ps)).
  { apply Rmult_lt_0_compat; [lra|]. apply Rabs_pos_lt. apply Rgt_not_eq. apply Rmult_lt_0_compat; assumption. }
  assert (Py : 0 < 2 * sqrt (2 * ln 2) * Rabs (sy * ps)).
  { apply Rmult_lt_0_compat; [lra|]. apply Rabs_pos_lt. apply Rgt_not_eq. apply Rmult_lt_0_compat; assumption. }
  assert (Ex : 2 * sqrt (2 * ln 2) * Rabs (sx * ps) = rebin * (2 * sqrt (2 * ln 2) * (sx / rebin) * ps)).
  { rewrite Rabs_pos_eq by (apply Rmult_le_pos; lra). field. lra. }
  assert (Ey : 2 * sqrt (2 * ln 2) * Rabs (sy * ps) = rebin * (2 * sqrt (2 * ln 2) * (sy / rebin) * ps)).
  { rewrite Rabs_pos_eq by (apply Rmult_le_pos; lra). field. lra. }
  destruct (Req_EM_T wx 1), (Req_EM_T wy 1); rewrite Hg; cbn [bind];
  (destruct (Req_EM_T (2 * sqrt (2 * ln 2) * Rabs (sx * ps)) 0); [lra|]); (destruct (Req_EM_T (2 * sqrt (2 * ln 2) * Rabs (sy * ps)) 0); [lra|]);
  rewrite Ex, Ey; eexists; eexists; reflexivity.
Qed.

(** Non-vacuity of the hypotheses of [C94_round_refuted] and [C94_contour_point]. *)
Example C94_contour_ex : exists q, In q (contour_pt 0 0 2 (mkCand 2 0 1 1 0 4)) /\ pt_dist 0 0 q = 5 / 3.
Proof.
  unfold contour_pt. cbn [c_val f_val f_x f_y c_x c_y].
  replace ((1 - 0) * (1 - 0) + (0 - 0) * (0 - 0)) with 1 by lra. rewrite sqrt_1.
  replace ((2 - 0) * (2 - 0) + (0 - 0) * (0 - 0)) with (Rsqr 2) by (unfold Rsqr; lra). rewrite sqrt_Rsqr by lra.
  destruct (Rlt_dec 1 2); [|lra]. destruct (Rlt_dec 2 4); [|lra]. destruct (Rlt_dec 0 1); [|lra].
  eexists. split; [left; reflexivity|]. unfold pt_dist. cbn [fst snd].
  match goal with |- sqrt ?X = _ => replace X with (Rsqr (5 / 3)) by (unfold Rsqr; field) end. rewrite sqrt_Rsqr; lra.
Qed.

Print Assumptions C94_ratio.
Print Assumptions C94_cutting.
Print Assumptions C94_flat.
Print Assumptions C94_contour_point.
Print Assumptions C94_round_refuted.
Print Assumptions C94_contour_order.
Print Assumptions C94_gaussian_rebin_refuted.
