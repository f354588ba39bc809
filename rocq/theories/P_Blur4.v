(** C140, in the composed computation: a wider SpotFWHM never gives a higher Strehl ratio. *)
From Coq Require Import Reals List Arith ZArith Lia Lra Bool.
From Verif Require Import Base_Py Base_Sum M_Image M_Source M_Fourier M_Atmo M_Sensor M_Tools M_Psf M_Freq M_Model M_Model2 M_Call M_Driver M_Chain L_Sensor L_Freq L_Psf L_Psf2 L_Psf3 L_Tools2 P_Call P_Chain P_Chain2 P_Blur P_Blur2 P_Blur3.
Import ListNotations.
Open Scope R_scope.

Lemma psf_spot f add stored a b c out st : i_atm (fm_inst f) = 0%nat -> i_dphi (fm_inst f) = 0%nat -> i_jit (fm_inst f) = true -> i_spot (fm_inst f) = [a; b; c] ->
  point_spread_function f add stored [] None = Ok (out, st) -> exists F dx dy bk, sort_stellar (fm_inst f) [] 3 = Ok (F, dx, dy, bk) /\
  sf_3D_to_psf_4D (fm_n f) (fm_kRef f) (fm_fov f) (fm_n f / fm_kRef f) (fm_nyq f) (chans_of f stored None) (fm_dl f) (pixel_otf (fm_n f) add) (Some (a, b, c)) (fm_sfs f)
    (Some (mkStellar F dx dy bk)) = Ok out.
Proof.
  intros Ea Ed Ej Es H. unfold point_spread_function, sort_params, sort_atm in H. rewrite Ea, Ed, Ej, Es in H. cbn [Nat.ltb Nat.leb bind Nat.add List.length] in H.
  destruct (sort_stellar (fm_inst f) [] 3) as [[[[F dx] dy] bk]|er]; cbn [bind] in H; [|discriminate]. cbn [s_jit s_stat M_Tools.s_F M_Tools.s_dx M_Tools.s_dy s_bkg jitter_of] in H.
  destruct (fm_kRef f =? 0)%nat; [discriminate|]. cbn [bind] in H. apply bindOk in H. destruct H as (o & Eo & H). apply Ok_inj in H. injection H as <- _.
  exists F, dx, dy, bk. split; [reflexivity|exact Eo].
Qed.

(** C140: two runs of the same system which differ only by SpotFWHM have the same power spectra and structure functions, and when the jitter
    matrix of the first exceeds that of the second every Strehl ratio of the first is at most that of the second. *)
Theorem C140_spot_strehl : forall w op tp x a b c a' b' c' r r', 0 < img_sum (tp_dl tp) ->
  chain w op tp (with_spot [a'; b'; c'] x) = Ok r -> chain w op tp (with_spot [a; b; c] x) = Ok r' ->
  c * c <= a * a * (b * b) -> c' * c' <= a' * a' * (b' * b') ->
  (forall u v, a ^ 2 * u ^ 2 + b ^ 2 * v ^ 2 + 2 * c * u * v <= a' ^ 2 * u ^ 2 + b' ^ 2 * v ^ 2 + 2 * c' * u * v) ->
  r_psd r = r_psd r' /\ r_sf r = r_sf r' /\ r_wvl r = r_wvl r' /\
  forall j s imgs imgs' srs srs' v v', nth_error (r_psf r) j = Some (imgs, srs) -> nth_error (r_psf r') j = Some (imgs', srs') ->
  (s < List.length (r_sf r))%nat -> nth_error srs s = Some v -> nth_error srs' s = Some v' -> v <= v'.
Proof.
  intros w op tp x a b c a' b' c' r r' Hd H H' JV JV' LE.
  destruct (chain_inv _ _ _ _ _ H) as (fd & kcMax & res & dr & y & p & cf & st & Q0 & Q1 & Q2 & Q3 & Q4 & Q5 & Q6 & Q7 & Q8 & Q9 & Q10 & Q11 & Q12).
  destruct (chain_inv _ _ _ _ _ H') as (fd' & kcMax' & res' & dr' & y' & p' & cf' & st' & P0 & P1 & P2 & P3 & P4 & P5 & P6 & P7 & P8 & P9 & P10 & P11 & P12).
  clear H H'. cbn [with_spot x_src x_nBin x_bw x_ps x_D x_nPix x_pitch x_ao] in *.
  rewrite Q0 in P0. apply Ok_inj in P0. subst fd'. rewrite Q1 in P1. apply Ok_inj in P1. subst kcMax'. rewrite Q2 in P2. apply Ok_inj in P2. subst res'.
  assert (En : r_n r' = r_n r) by congruence. assert (Er : r_res r' = r_res r) by congruence. assert (Ew : r_wvl r = r_wvl r') by congruence. rewrite En, Er in *.
  rewrite Q3 in P3. apply Ok_inj in P3. injection P3 as EA ED. subst dr'. rewrite <- EA in *.
  change (fsys_of w (with_spot [a; b; c] x)) with (fsys_of w x) in *. change (fsys_of w (with_spot [a'; b'; c'] x)) with (fsys_of w x) in *. rewrite Q4 in P4. apply Ok_inj in P4. subst y'.
  change (parts_of (with_spot [a; b; c] x)) with (parts_of x) in *. change (parts_of (with_spot [a'; b'; c'] x)) with (parts_of x) in *. rewrite Q5 in P5. apply Ok_inj in P5. subst p'.
  change (cfg_of (with_spot [a; b; c] x)) with (cfg_of x) in *. change (cfg_of (with_spot [a'; b'; c'] x)) with (cfg_of x) in *. rewrite Q6 in P6. apply Ok_inj in P6. subst cf'.
  rewrite Q7 in P7. apply Ok_inj in P7. rewrite <- P7 in *. rewrite Q8 in P8. apply Ok_inj in P8. rewrite <- P8 in *. rewrite <- Ew in P9.
  split; [reflexivity|]. split; [reflexivity|]. split; [exact Ew|].
  intros j s imgs imgs' srs srs' v v' O1 O2 Hs V1 V2.
  assert (X1 := fun e1 e2 e3 e4 => psf_spot _ _ _ a' b' c' _ _ e1 e2 e3 e4 Q9). destruct (X1 eq_refl eq_refl eq_refl eq_refl) as (F & dx & dy & bk & S1 & E1). assert (X2 := fun e1 e2 e3 e4 => psf_spot _ _ _ a b c _ _ e1 e2 e3 e4 P9). destruct (X2 eq_refl eq_refl eq_refl eq_refl) as (F' & dx' & dy' & bk' & S2 & E2).
  match type of S1 with sort_stellar (fm_inst ?f) _ _ = _ => match type of S2 with sort_stellar (fm_inst ?g) _ _ = _ => change (sort_stellar (fm_inst g) [] 3) with (sort_stellar (fm_inst f) [] 3) in S2 end end.
  rewrite S1 in S2. apply Ok_inj in S2. injection S2 as <- <- <- <-.
  refine (C140_blur_monotone _ _ _ _ _ _ _ _ a b c a' b' c' _ _ _ _ E1 E2 JV LE JV' _ Hd j s imgs imgs' srs srs' v v' O1 O2 _ V1 V2).
  - intros ch Hch. unfold chans_of in Hch. apply in_map_iff in Hch. destruct Hch as ([q [[v0 kv] nf]] & <- & Hin). cbn [snd fst c_nf2].
    assert (Ib : In (v0, kv, nf) (base_of x fd)). { change (In (q, (v0, kv, nf)) (indexed 0 (base_of x fd))) in Hin. clear - Hin. revert Hin. generalize 0%nat. induction (base_of x fd) as [|b0 l IH]; intros k0 Hin; [destruct Hin|]. destruct Hin as [E|Hin]; [left; congruence|right; exact (IH _ Hin)]. }
    unfold base_of in Ib. apply in_map_iff in Ib. destruct Ib as (u & Eu & _). injection Eu as _ _ <-. unfold jit_norm2. apply Rmult_le_pos; apply pow2_ge_0.
  - cbn [fm_sfs]. rewrite map_length. exact Hs.
Qed.
Print Assumptions C140_spot_strehl.
(** The hypotheses of C140_spot_strehl hold for the system of C138_nonvacuous with spots of 10 and 20 mas and without spot. *)
Example C140_spot_nonvacuous : 0 < img_sum (tp_dl ex_tp) /\ (forall u v, 0 ^ 2 * u ^ 2 + 0 ^ 2 * v ^ 2 + 2 * 0 * u * v <= 10 ^ 2 * u ^ 2 + 20 ^ 2 * v ^ 2 + 2 * 0 * u * v) /\
  (exists r, chain ex_world (mkOptions 0 false false) ex_tp (with_spot [10; 20; 0] ex_x) = Ok r) /\
  (exists r, chain ex_world (mkOptions 0 false false) ex_tp (with_spot [0; 0; 0] ex_x) = Ok r).
Proof.
  split. { unfold ex_tp. cbn [tp_dl]. unfold img_sum. cbn [rows cols px]. rewrite (rsum_ext 32 _ (fun _ => INR 32)) by (intros i _; rewrite rsum_const; ring). rewrite rsum_const. apply Rmult_lt_0_compat; apply lt_0_INR; lia. }
  split; [intros u v; nra|]. split; [exact (proj2 (proj2 C140_nonvacuous))|].
  destruct C138_nonvacuous as (_ & _ & _ & _ & r & H & _). exists r. exact H.
Qed.
