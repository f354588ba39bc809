(** C104: the PSF cube computed by the Fourier model, at construction (no
    parameter) and when it is called with a parameter vector. *)
From Coq Require Import Reals List Arith ZArith Lia Lra Bool.
From Verif Require Import Base_Py Base_Sum M_Image M_Fourier M_Model M_Psf M_Tools S_Tools L_Tools2 L_Psf L_Psf2 L_Psf3 L_Psf4 L_Psf5 P_Psf P_Psfr4 P_Tools M_Call.
From Coquelicot Require Import Complex.
Import ListNotations.
Open Scope R_scope.

(** The labels of the Fourier model: jitter, no atmospheric or structure function parameter;
    one value of transmittance and dispersion per wavelength; one structure function per source. *)
Definition fourier_labels (f : fmod) : Prop :=
  i_atm (fm_inst f) = 0%nat /\ i_dphi (fm_inst f) = 0%nat /\ i_jit (fm_inst f) = true /\
  i_wvl (fm_inst f) = length (fm_base f) /\ length (i_trans (fm_inst f)) = length (fm_base f) /\
  length (i_dispx (fm_inst f)) = length (fm_base f) /\ length (i_dispy (fm_inst f)) = length (fm_base f) /\
  i_star (fm_inst f) = length (fm_sfs f).
Definition npx_of (f : fmod) (npix : option nat) : nat := match npix with None => (fm_n f / fm_kRef f)%nat | Some k => k end.

Lemma chans_len f st x : length (chans_of f st x) = length (fm_base f).
Proof. unfold chans_of. rewrite map_length, indexed_length. reflexivity. Qed.
Lemma chans_nth f st x j w k nf : nth_error (fm_base f) j = Some (w, k, nf) ->
  nth_error (chans_of f st x) j = Some (mkChan w k (if refresh f x then fm_static f j x else st) nf).
Proof. intros H. unfold chans_of. rewrite nth_error_map, (indexed_nth _ 0 j _ H). reflexivity. Qed.

Lemma column_repeat (r : list R) n j v : nth_error r j = Some v -> column (repeat r n) j = Ok (repeat v n).
Proof. intros H. unfold column. induction n as [|n IH]; cbn [repeat M_Psf.mapM]; [reflexivity|]. rewrite H. cbn [bind]. rewrite IH. reflexivity. Qed.
Lemma per_repeat v n s : (s < n)%nat -> per_source (repeat v n) s = v.
Proof.
  intros H. destruct n as [|[|n]]; [lia|reflexivity|]. change (per_source (repeat v (S (S n))) s) with (nth s (repeat v (S (S n))) 0).
  apply nth_error_nth. apply nth_error_repeat. exact H.
Qed.

Lemma psf_parts f add st x npix out st' : point_spread_function f add st x npix = Ok (out, st') ->
  exists s jit, sort_params (fm_inst f) x = Ok s /\ fm_kRef f <> 0%nat /\ jitter_of (s_jit s) = Ok jit /\ st' = stored_after f st (s_stat s) /\
  sf_3D_to_psf_4D (fm_n f) (fm_kRef f) (fm_fov f) (npx_of f npix) (fm_nyq f) (chans_of f st (s_stat s))
              (fm_dl f) (pixel_otf (fm_n f) add) jit (fm_sfs f)
              (Some (mkStellar (M_Tools.s_F s) (M_Tools.s_dx s) (M_Tools.s_dy s) (s_bkg s))) = Ok out.
Proof.
  intros H. unfold point_spread_function in H. apply bindOk in H. destruct H as (s & Es & H). destruct (Nat.eqb_spec (fm_kRef f) 0) as [|Hk]; [discriminate|].
  apply bindOk in H. destruct H as (jit & Ej & H). cbv zeta in H. apply bindOk in H. destruct H as (o & Eo & H). apply Ok_inj in H. injection H as <- <-.
  exists s, jit. auto.
Qed.

(** C104: without parameters every image has the requested size, no background,
    and the flux is the transmittance of its wavelength. *)
Theorem C104_defaults : forall f add st npix out st', fourier_labels f ->
  point_spread_function f add st [] npix = Ok (out, st') -> (npx_of f npix <= fm_fov f \/ 2 <= fm_fov f)%nat ->
  forall j t s, nth_error (i_trans (fm_inst f)) j = Some t -> (s < length (fm_sfs f))%nat ->
  exists imgs srs im, nth_error out j = Some (imgs, srs) /\ nth_error imgs s = Some im /\
    rows im = npx_of f npix /\ cols im = npx_of f npix /\ img_sum im = t.
Proof.
  intros f add st npix out st' (La & Ld & Lj & Lw & Lt & Lx & Ly & Ls) H Hfov j t s Ht Hs.
  destruct (psf_parts _ _ _ _ _ _ _ H) as (so & jit & Es & Hk & Ej & -> & Eo).
  destruct (sort_defaults (fm_inst f) [] 0%nat None None) as (so' & Es' & SF & _ & _ & SB & _).
  { unfold sort_atm. rewrite La. reflexivity. } { cbn. lia. } { congruence. } { congruence. } { congruence. }
  rewrite Es in Es'. apply Ok_inj in Es'. subst so'.
  assert (Hj : (j < length (fm_base f))%nat). { rewrite <- Lt. apply nth_error_Some. congruence. }
  destruct (nth_error (fm_base f) j) as [[[w k] nf]|] eqn:Eb; [|apply nth_error_None in Eb; lia].
  destruct (nth_error (fm_sfs f) s) as [sf|] eqn:Esf; [|apply nth_error_None in Esf; lia].
  destruct (C08_flux_4D _ _ _ _ _ _ _ _ _ _ _ _ Eo Hfov j _ s sf (chans_nth _ _ _ _ _ _ _ Eb) Esf) as (y & imgs & srs & im & Fc & Ey & On & In_ & EF & R1 & R2 & _ & Sm).
  injection Ey as <-. cbn [x_F x_bkg] in *. exists imgs, srs, im. split; [exact On|]. split; [exact In_|]. split; [exact R1|]. split; [exact R2|].
  rewrite Sm. rewrite SF in EF. rewrite (column_repeat _ _ _ _ Ht) in EF. apply Ok_inj in EF. subst Fc. rewrite per_repeat by lia. rewrite SB, per_repeat by (rewrite Lw; exact Hj). ring.
Qed.
Print Assumptions C104_defaults.

Lemma app_len_inj : forall (a b t t' : list R), length a = length b -> a ++ t = b ++ t' -> a = b /\ t = t'.
Proof.
  induction a as [|u a IHa]; intros [|v b] t t' Lb E; cbn in Lb; try discriminate; [split; [reflexivity|exact E]|].
  cbn [app] in E. injection E as -> E. injection Lb as Lb. destruct (IHa b t t' Lb E) as [-> Q]. split; [reflexivity|exact Q].
Qed.
Lemma concat_inj : forall (A B : list (list R)) w, Forall (fun r => length r = w) A -> Forall (fun r => length r = w) B -> length A = length B ->
  forall t t', concat A ++ t = concat B ++ t' -> A = B /\ t = t'.
Proof.
  induction A as [|a A IH]; intros [|b B] w FA FB L t t' E; cbn in L; try discriminate; [split; [reflexivity|exact E]|].
  inversion FA as [|? ? La FA']; subst. inversion FB as [|? ? Lb FB']; subst. cbn [concat] in E. rewrite <- !app_assoc in E.
  destruct (app_len_inj a b (concat A ++ t) (concat B ++ t') (eq_sym Lb) E) as [-> Q].
  injection L as L. destruct (IH B (length b) FA' FB' L t t' Q) as [-> ->]. split; reflexivity.
Qed.

(** C104: several wavelengths, complete parameter vector: three jitter values, then the fluxes
    (source after source, wavelength after wavelength), the displacements, the backgrounds (one per
    wavelength), and possibly static coefficients. The flux of each image is the flux asked for
    that source and wavelength, plus the background of that wavelength times the number of pixels. *)
Theorem C104_flux_multi : forall f add st j1 j2 j3 F X Y bk stat npix out st', fourier_labels f -> length (fm_base f) <> 1%nat ->
  i_frame (fm_inst f) = length (fm_base f) -> length bk = length (fm_base f) -> (2 <= length (fm_sfs f))%nat ->
  length F = length (fm_sfs f) -> length X = length (fm_sfs f) -> length Y = length (fm_sfs f) ->
  Forall (fun r => length r = length (fm_base f)) F -> Forall (fun r => length r = length (fm_base f)) X -> Forall (fun r => length r = length (fm_base f)) Y ->
  point_spread_function f add st ([j1; j2; j3] ++ concat F ++ concat X ++ concat Y ++ bk ++ stat) npix = Ok (out, st') ->
  (npx_of f npix <= fm_fov f \/ 2 <= fm_fov f)%nat ->
  forall j s Fs v, nth_error F s = Some Fs -> nth_error Fs j = Some v ->
  exists imgs srs im, nth_error out j = Some (imgs, srs) /\ nth_error imgs s = Some im /\
    rows im = npx_of f npix /\ cols im = npx_of f npix /\ img_sum im = v + INR (npx_of f npix) * INR (npx_of f npix) * nth j bk 0.
Proof.
  intros f add st j1 j2 j3 F X Y bk stat npix out st' (La & Ld & Lj & Lw & Lt & Lx & Ly & Ls) H1 Hfr Lbk HS LF LX LY WF WX WY H Hfov j s Fs v EFs Ev.
  destruct (psf_parts _ _ _ _ _ _ _ H) as (so & jit & Es & Hk & Ej & -> & Eo).
  assert (Hs : (s < length (fm_sfs f))%nat) by (rewrite <- LF; apply nth_error_Some; congruence).
  assert (LFs : length Fs = length (fm_base f)). { rewrite Forall_forall in WF. apply WF. apply (nth_error_In _ s). exact EFs. }
  assert (Hj : (j < length (fm_base f))%nat). { rewrite <- LFs. apply nth_error_Some. congruence. }
  assert (CL : forall M : list (list R), Forall (fun r => length r = length (fm_base f)) M -> length (concat M) = (length M * length (fm_base f))%nat).
  { clear. induction M as [|r M IH]; intros W; [reflexivity|]. inversion W as [|? ? A B]; subst. cbn [concat length]. rewrite app_length, IH by exact B. rewrite A. cbn. lia. }
  assert (NT : n_tt (fm_inst f) = 3%nat) by (unfold n_tt, n_dphi, n_atm; rewrite La, Ld, Lj; reflexivity).
  assert (NF : n_full (fm_inst f) = (3 + length (fm_sfs f) * length (fm_base f) * 3 + length (fm_base f))%nat) by (unfold n_full; rewrite NT, Ls, Lw, Hfr; reflexivity).
  destruct (sort_full_multi (fm_inst f) _ so Es) as (Ex & (L1 & L2 & L3) & W & LB & LD & LJ & _).
  { congruence. } { rewrite NF. rewrite !app_length, !CL by assumption. rewrite LF, LX, LY, Lbk. cbn [length]. lia. } { rewrite NT. rewrite !app_length, !CL by assumption. rewrite LF, Lbk. cbn [length]. nia. }
  assert (A0 : atm_head (s_Cn2 so) (s_r0 so) = []).
  { clear - Es La. unfold sort_params in Es. apply bindOk in Es. destruct Es as ([[nL c] r] & Ea & Es). unfold sort_atm in Ea. rewrite La in Ea. cbn in Ea. apply Ok_inj in Ea. injection Ea as <- <- <-.
    cbv zeta in Es. apply bindOk in Es. destruct Es as ([[[A B] D] E] & _ & Es). apply Ok_inj in Es. subst so. reflexivity. }
  assert (D0 : opt_list (s_dphi so) = []) by (apply length_zero_iff_nil; rewrite LD, Ld; reflexivity).
  rewrite Lj in LJ. rewrite A0, D0 in Ex. cbn [app] in Ex.
  destruct (opt_list (s_jit so)) as [|a1 [|a2 [|a3 [|]]]]; cbn in LJ; try discriminate. cbn [app] in Ex. injection Ex as <- <- <- Ex.
  rewrite !Forall_app in W. destruct W as (W1 & W2 & W3). rewrite Lw in W1, W2, W3. rewrite Ls in L1, L2, L3.
  destruct (concat_inj _ _ _ WF W1 ltac:(congruence) _ _ Ex) as [QF Ex1]. destruct (concat_inj _ _ _ WX W2 ltac:(congruence) _ _ Ex1) as [QX Ex2]. destruct (concat_inj _ _ _ WY W3 ltac:(congruence) _ _ Ex2) as [QY Ex3].
  destruct (concat_inj [bk] [s_bkg so] (length (fm_base f)) ltac:(repeat constructor; assumption) ltac:(repeat constructor; congruence) eq_refl stat (opt_list (s_stat so))) as [Eb _]; [cbn [concat]; rewrite !app_nil_r; exact Ex3|]. injection Eb as Eb.
  destruct (nth_error (fm_base f) j) as [[[w k] nf]|] eqn:Ebase; [|apply nth_error_None in Ebase; lia].
  destruct (nth_error (fm_sfs f) s) as [sf|] eqn:Esf; [|apply nth_error_None in Esf; lia].
  destruct (C08_flux_4D _ _ _ _ _ _ _ _ _ _ _ _ Eo Hfov j _ s sf (chans_nth _ _ _ _ _ _ _ Ebase) Esf) as (y & imgs & srs & im & Fc & Ey & On & In_ & EF & R1 & R2 & _ & Sm).
  injection Ey as <-. cbn [x_F x_bkg] in *. exists imgs, srs, im. split; [exact On|]. split; [exact In_|]. split; [exact R1|]. split; [exact R2|].
  rewrite <- QF in EF. rewrite Sm, <- Eb. f_equal; [|f_equal].
  - assert (Q : nth_error Fc s = Some v). { unfold column in EF. destruct (mapM_nth _ _ _ s EF _ EFs) as (v' & Hv & E'). rewrite Ev in E'. apply Ok_inj in E'. subst v'. exact Hv. }
    assert (LFc : length Fc = length F) by (unfold column in EF; apply (mapM_length _ _ _ EF)).
    destruct Fc as [|c1 [|c2 Fc]]; [destruct s; discriminate|cbn in LFc; lia|]. change (per_source (c1 :: c2 :: Fc) s) with (nth s (c1 :: c2 :: Fc) 0). apply nth_error_nth. exact Q.
  - destruct bk as [|b1 [|b2 bk]]; [cbn in Lbk; lia|cbn in Lbk; lia|reflexivity].
Qed.
Print Assumptions C104_flux_multi.

(** C104 (finding): when the number of backgrounds of a complete vector (one per source
    wavelength) is neither one nor the number of simulated wavelengths, every complete call fails. *)
Theorem C104_frames_refuted : forall f add st x npix, fourier_labels f -> length (fm_base f) <> 1%nat -> (1 <= length (fm_sfs f))%nat -> (1 <= length (fm_base f))%nat ->
  i_frame (fm_inst f) <> 1%nat -> i_frame (fm_inst f) <> length (fm_base f) -> (n_full (fm_inst f) <= length x)%nat ->
  exists e, point_spread_function f add st x npix = Err e.
Proof.
  intros f add st x npix (La & Ld & Lj & Lw & Lt & Lx & Ly & Ls) H1 HS HB Hf1 Hf Hlen.
  destruct (point_spread_function f add st x npix) as [[out st']|e] eqn:H; [exfalso|eauto].
  destruct (psf_parts _ _ _ _ _ _ _ H) as (so & jit & Es & Hk & Ej & -> & Eo).
  assert (NT : n_tt (fm_inst f) = 3%nat) by (unfold n_tt, n_dphi, n_atm; rewrite La, Ld, Lj; reflexivity).
  assert (NN : (n_tt (fm_inst f) < length x)%nat). { unfold n_full in Hlen. rewrite NT in *. rewrite Ls, Lw in Hlen. nia. }
  destruct (sort_full_multi (fm_inst f) _ so Es ltac:(congruence) Hlen NN) as (_ & _ & _ & LB & _).
  unfold sf_3D_to_psf_4D in Eo. cbv zeta in Eo. apply bindOk in Eo. destruct Eo as (raw & _ & Eo). apply bindOk in Eo. destruct Eo as (bk & Eb & _).
  cbn [x_bkg] in Eb. unfold bcast in Eb. rewrite LB, chans_len in Eb. destruct (Nat.eqb_spec (i_frame (fm_inst f)) (length (fm_base f))); [contradiction|].
  destruct (s_bkg so) as [|b [|b' l]]; [discriminate|cbn in LB; congruence|discriminate].
Qed.
Print Assumptions C104_frames_refuted.

(** C104 (finding): Nyquist sampling, several wavelengths and a camera without spot width: the
    PSF cannot be computed (the jitter kernel is read before it is defined). *)
Theorem C104_nyquist_refuted : forall f add st npix, fourier_labels f -> (2 <= length (fm_base f))%nat -> fm_nyq f = true -> fm_kRef f <> 0%nat ->
  i_spot (fm_inst f) = [0; 0; 0] -> point_spread_function f add st [] npix = Err UnboundLocalError.
Proof.
  intros f add st npix (La & Ld & Lj & Lw & Lt & Lx & Ly & Ls) H2 Hn Hk Hsp. unfold point_spread_function.
  destruct (sort_defaults (fm_inst f) [] 0%nat None None) as (so & Es & SF & _ & _ & SB & _ & SJ & _).
  { unfold sort_atm. rewrite La. reflexivity. } { cbn. lia. } { congruence. } { congruence. } { congruence. }
  rewrite Es. cbn [bind]. destruct (Nat.eqb_spec (fm_kRef f) 0); [contradiction|]. rewrite SJ; [|exact Lj|cbn; lia]. rewrite Hsp. cbn [jitter_of bind].
  pose proof (chans_len f st (s_stat so)) as L. destruct (chans_of f st (s_stat so)) as [|c [|c' l]]; [cbn in L; lia|cbn in L; lia|].
  rewrite Hn, C44_zero_jitter_refuted. reflexivity.
Qed.
Print Assumptions C104_nyquist_refuted.

(** ** pixel transfer function *)
Lemma pixel_sub n add : sub_unit n (pixel_otf n add).
Proof.
  intros i j _ _. unfold pixel_otf. cbn [px]. destruct add; [|rewrite Rabs_R1; lra]. rewrite Rabs_mult.
  pose proof (sinc_abs (Uax n i)). pose proof (sinc_abs (Uax n j)). pose proof (Rabs_pos (sinc (Uax n i))). pose proof (Rabs_pos (sinc (Uax n j))).
  replace 1 with (1 * 1) by ring. apply Rmult_le_compat; assumption.
Qed.

(** C104: the Strehl ratios reported with the PSF are percentages. *)
Theorem C104_strehl : forall f add st x npix out st', point_spread_function f add st x npix = Ok (out, st') ->
  (0 < fm_n f)%nat -> rows (fm_dl f) = fm_n f -> cols (fm_dl f) = fm_n f -> dominated (fm_n f) st (fm_dl f) -> (forall j o, dominated (fm_n f) (fm_static f j o) (fm_dl f)) ->
  (forall w k nf, In (w, k, nf) (fm_base f) -> 0 <= nf) -> (forall sf, In sf (fm_sfs f) -> sf_nonneg_on (fm_n f) sf) ->
  (forall s jit, sort_params (fm_inst f) x = Ok s -> jitter_of (s_jit s) = Ok jit -> jitter_valid4 jit) ->
  length out = length (fm_base f) /\ forall j imgs srs, nth_error out j = Some (imgs, srs) -> length imgs = length (fm_sfs f) /\ length srs = length (fm_sfs f) /\
  forall s r, nth_error srs s = Some r -> 0 <= r <= 100.
Proof.
  intros f add st x npix out st' H Hn R1 R2 D0 D1 Hnf Hsf Hj. destruct (psf_parts _ _ _ _ _ _ _ H) as (so & jit & Es & Hk & Ej & -> & Eo).
  destruct (C07_strehl_range_4D _ _ _ _ _ _ _ _ _ _ _ _ Eo Hn R1 R2 (pixel_sub _ _) (Hj _ _ Es Ej)) as [L V]; [|exact Hsf|].
  - intros c Hc. unfold chans_of in Hc. apply in_map_iff in Hc. destruct Hc as ([q [[w k] nf]] & <- & Hq). cbn [snd fst c_otf c_nf2]. split; [destruct (refresh f (s_stat so)); [apply D1|exact D0]|].
    apply (Hnf w k nf). apply In_nth_error in Hq. destruct Hq as (i & Hi). destruct (nth_error (fm_base f) i) as [b|] eqn:Eb.
    + rewrite (indexed_nth _ 0 i b Eb) in Hi. injection Hi as _ <-. apply (nth_error_In _ i). exact Eb.
    + apply nth_error_None in Eb. rewrite <- (indexed_length (fm_base f) 0) in Eb. apply nth_error_None in Eb. congruence.
  - rewrite L, chans_len. split; [reflexivity|exact V].
Qed.
Print Assumptions C104_strehl.

(** C104: taking the detector pixel into account keeps the flux (see C104_flux_multi, whatever
    the option) and never raises a Strehl ratio. *)
Theorem C104_pixel_strehl : forall f st x npix out out' st1 st2,
  point_spread_function f false st x npix = Ok (out, st1) -> point_spread_function f true st x npix = Ok (out', st2) -> 0 < img_sum (fm_dl f) ->
  st1 = st2 /\ forall j s imgs imgs' srs srs' r r', nth_error out j = Some (imgs, srs) -> nth_error out' j = Some (imgs', srs') ->
  (s < length (fm_sfs f))%nat -> nth_error srs s = Some r -> nth_error srs' s = Some r' -> r' <= r.
Proof.
  intros f st x npix out out' st1 st2 H H' Hd. destruct (psf_parts _ _ _ _ _ _ _ H) as (so & jit & Es & Hk & Ej & -> & Eo). destruct (psf_parts _ _ _ _ _ _ _ H') as (so' & jit' & Es' & _ & Ej' & -> & Eo').
  rewrite Es in Es'. apply Ok_inj in Es'. subst so'. rewrite Ej in Ej'. apply Ok_inj in Ej'. subst jit'. split; [reflexivity|].
  intros j s imgs imgs' srs srs' r r' On On' Hs Er Er'. destruct (psf4D_inv _ _ _ _ _ _ _ _ _ _ _ _ Eo) as [L I]. destruct (psf4D_inv _ _ _ _ _ _ _ _ _ _ _ _ Eo') as [L' I'].
  assert (Hj : (j < length (chans_of f st (s_stat so)))%nat) by (rewrite <- L; apply nth_error_Some; congruence).
  destruct (nth_error (chans_of f st (s_stat so)) j) as [c|] eqn:Ec; [|apply nth_error_None in Ec; lia].
  destruct (nth_error (fm_sfs f) s) as [sf|] eqn:Esf; [|apply nth_error_None in Esf; lia].
  destruct (I j c Ec) as (y & i1 & s1 & Ey & N1 & _ & _ & V1). rewrite On in N1. injection N1 as <- <-. injection Ey as <-.
  destruct (I' j c Ec) as (y & i1 & s1 & Ey & N1' & _ & _ & V1'). rewrite On' in N1'. injection N1' as <- <-. injection Ey as <-.
  destruct (V1 s sf Esf) as (ph & p & q & q' & r0 & Fc & P1 & _ & _ & _ & _ & _ & S1 & T1). destruct (V1' s sf Esf) as (ph' & p' & q2 & q2' & r0' & Fc' & P1' & _ & _ & _ & _ & _ & S1' & T1').
  rewrite Er in T1. injection T1 as <-. rewrite Er' in T1'. injection T1' as <-.
  assert (Eph : ph' = ph). { destruct (shifted4 _); [|congruence]. destruct P1 as (d & E1 & ->), P1' as (d' & E1' & ->). rewrite E1 in E1'. apply Ok_inj in E1'. subst d'. reflexivity. } subst ph'.
  unfold strehl in S1, S1'. destruct (Req_EM_T (img_sum (fm_dl f)) 0); [lra|]. cbv zeta in S1, S1'. apply Ok_inj in S1. apply Ok_inj in S1'. subst r r'.
  unfold Rdiv. apply Rmult_le_compat_r; [apply Rlt_le, Rinv_0_lt_compat; exact Hd|]. apply Rmult_le_compat_l; [lra|].
  cbn [fftshift crows ccols cpx otf_product]. apply rsum_le. intros i Hi. apply rsum_le. intros k Hk'. cbn [cpx]. rewrite !Cmod_mult, !Cmod_R. apply Rmult_le_compat_r; [apply Cmod_ge_0|].
  rewrite !Rabs_mult. apply Rmult_le_compat_l; [apply Rabs_pos|]. apply Rmult_le_compat_l; [apply Rmult_le_pos; apply Rabs_pos|].
  cbn [pixel_otf px]. rewrite Rabs_R1. rewrite Rabs_mult. replace 1 with (1 * 1) by ring. apply Rmult_le_compat; try apply Rabs_pos; apply sinc_abs.
Qed.
Print Assumptions C104_pixel_strehl.

(** ** history *)
(** C104: with several wavelengths, or with static coefficients in the vector, the result does not depend on earlier calls. *)
Theorem C104_history : forall f add st1 st2 x npix s, sort_params (fm_inst f) x = Ok s -> (2 <= length (fm_base f))%nat \/ s_stat s <> None ->
  point_spread_function f add st1 x npix = point_spread_function f add st2 x npix.
Proof.
  intros f add st1 st2 x npix s Es H. assert (R : refresh f (s_stat s) = true).
  { unfold refresh. destruct H as [H|H]; [destruct (Nat.ltb_spec 1 (length (fm_base f))); [reflexivity|lia]|]. destruct (s_stat s); [apply orb_true_r|contradiction]. }
  unfold point_spread_function. rewrite Es. cbn [bind]. unfold stored_after, chans_of. rewrite R. reflexivity.
Qed.
Print Assumptions C104_history.

(** Strehl ratio of a source whose OTF is the static one times exp(-SF/2) *)
Definition strehl_with (f : fmod) (w : R) (otf : img) (sf : nat -> nat -> R) : R :=
  100 * rsum (fm_n f) (fun i => rsum (fm_n f) (fun j => exp (- / 2 * (sf i j * ((2 * PI * / 1000000000 / w) * (2 * PI * / 1000000000 / w)))) * Rabs (px otf i j))) / img_sum (fm_dl f).

Lemma mono_default f st w k nf t : fourier_labels f -> fm_base f = [(w, k, nf)] -> fm_n f = (fm_fov f * k)%nat -> (1 <= k)%nat -> fm_kRef f = k ->
  pix_ok (fm_fov f) -> Nat.even (fm_n f) = true -> i_trans (fm_inst f) = [t] -> i_dispx (fm_inst f) = [0] -> i_dispy (fm_inst f) = [0] -> i_spot (fm_inst f) = [0; 0; 0] ->
  px st (fm_n f / 2)%nat (fm_n f / 2)%nat <> 0 -> img_sum (fm_dl f) <> 0 ->
  exists out imgs srs, point_spread_function f false st [] None = Ok (out, st) /\ nth_error out 0 = Some (imgs, srs) /\
  forall s sf, nth_error (fm_sfs f) s = Some sf -> nth_error srs s = Some (strehl_with f w st sf).
Proof.
  intros LL Eb Hn Hk Hkr Hf He Et Edx Edy Esp Hc Hd. pose proof LL as (La & Ld & Lj & Lw & Lt & Lx & Ly & Ls).
  assert (Hn0 : (0 < fm_n f)%nat) by (destruct Hf; nia).
  destruct (sort_defaults (fm_inst f) [] 0%nat None None) as (so & Es & SF & SX & SY & SB & SS & SJ & _).
  { unfold sort_atm. rewrite La. reflexivity. } { cbn. lia. } { congruence. } { congruence. } { congruence. }
  specialize (SJ Lj ltac:(cbn; lia)). rewrite Esp in SJ. rewrite Et in SF. rewrite Edx in SX. rewrite Edy in SY. rewrite Lw, Eb in SB. cbn [length repeat] in SB.
  set (y := mkStellar (M_Tools.s_F so) (M_Tools.s_dx so) (M_Tools.s_dy so) (s_bkg so)).
  assert (Zany : forall m, mat_any (repeat [0] m) = false). { induction m as [|m IH]; [reflexivity|]. cbn [repeat mat_any existsb]. fold (mat_any (repeat [0] m)). rewrite IH. cbn. destruct (Req_EM_T 0 0) as [_|Q]; [reflexivity|contradiction Q; reflexivity]. }
  assert (Act : jitter4_active (0, 0, 0) = false). { cbn. destruct (Req_EM_T 0 0) as [_|Q]; [reflexivity|contradiction Q; reflexivity]. }
  assert (Ech : chans_of f st (s_stat so) = [mkChan w k st nf]). { rewrite SS. unfold chans_of, refresh. rewrite Eb. reflexivity. }
  set (pix := pixel_otf (fm_n f) false).
  assert (Ok4 : exists out, sf_3D_to_psf_4D (fm_n f) (fm_kRef f) (fm_fov f) (fm_fov f) (fm_nyq f) [mkChan w k st nf] (fm_dl f) pix (Some (0, 0, 0)) (fm_sfs f) (Some y) = Ok out).
  { unfold sf_3D_to_psf_4D. cbv zeta. cbn [indexed length M_Psf.mapM fst snd]. 
    match goal with |- context [channel4 ?a ?b ?c ?d ?e ?f' ?g ?h ?i ?j ?k' ?l ?m ?o] => assert (EC : exists r, channel4 a b c d e f' g h i j k' l m o = Ok r) end.
    { unfold channel4. cbv zeta. rewrite Act. rewrite Bool.andb_false_r. cbn [bind c_otf c_wvl c_k].
      unfold y at 1 2. cbn [x_dx x_dy]. rewrite SX, SY, !Zany. cbn [orb].
      match goal with |- context [M_Psf.mapM ?f (combine (seq 0 (length (fm_sfs _))) _)] => set (f1 := f) end.
      destruct (mapM_ok f1 (combine (seq 0 (length (fm_sfs f))) (fm_sfs f))) as (otfs & Eo); [intros q _; unfold f1; cbn [bind]; eauto|]. rewrite Eo. cbn [bind].
      assert (OO : forall o, In o otfs -> crows o = fm_n f /\ ccols o = fm_n f /\ fst (cpx o (fm_n f / 2)%nat (fm_n f / 2)%nat) <> 0).
      { intros o Ho. apply In_nth_error in Ho. destruct Ho as (i & Hi). assert (exists q, nth_error (combine (seq 0 (length (fm_sfs f))) (fm_sfs f)) i = Some q) as (q & Hq).
        { destruct (nth_error (combine _ _) i) eqn:E; [eauto|]. apply nth_error_None in E. rewrite <- (mapM_length _ _ _ Eo) in E. apply nth_error_None in E. congruence. }
        destruct (mapM_nth _ _ _ i Eo _ Hq) as (o' & Ho' & Ff). rewrite Hi in Ho'. injection Ho' as <-. unfold f1 in Ff. cbn [bind] in Ff. apply Ok_inj in Ff. subst o. split; [reflexivity|]. split; [reflexivity|].
        unfold otf_product. cbn [cpx pix pixel_otf px]. cbn. rewrite !Rmult_1_r, Rmult_0_r, Rminus_0_r. apply Rmult_integral_contrapositive. split; [apply Rgt_not_eq, exp_pos|exact Hc]. }
      assert (PP : forall o, In o otfs -> exists p, psf_plane o k (fm_fov f) (fm_fov f) = Ok p /\ rows p = fm_fov f /\ cols p = fm_fov f /\ img_sum p <> 0).
      { intros o Ho. destruct (OO o Ho) as (Ro & Co & Nz). destruct (psf_plane_val o k (fm_fov f) (fm_fov f) Hk Hf (le_n _)) as (p & Ep & Rp & Cp & _ & Sp); [congruence|congruence|].
        exists p. split; [exact Ep|]. split; [exact Rp|]. split; [exact Cp|]. rewrite Sp, raw_psf_sum_even; rewrite ?Ro, ?Co; assumption. }
      destruct (mapM_ok (fun o => psf_plane o k (fm_fov f) (fm_fov f)) otfs) as (psfs & Ep). { intros o Ho. destruct (PP o Ho) as (p & Hpp & _). eauto. }
      rewrite Ep. cbn [bind]. unfold y at 1. cbn [x_F]. rewrite SF, (column_repeat [t] _ 0 t eq_refl). cbn [bind]. unfold bcast. rewrite repeat_length, Ls, Nat.eqb_refl. cbn [bind].
      match goal with |- context [M_Psf.mapM ?f (combine psfs ?Fs)] => destruct (mapM_ok f (combine psfs Fs)) as (os & Eos) end.
      { intros [p Fv] Hin. apply in_combine_l in Hin. apply In_nth_error in Hin. destruct Hin as (s & Hs).
        assert (exists o, nth_error otfs s = Some o) as (o & Hoo).
        { destruct (nth_error otfs s) eqn:E; [eauto|]. apply nth_error_None in E. rewrite <- (mapM_length _ _ _ Ep) in E. apply nth_error_None in E. congruence. }
        destruct (mapM_nth _ _ _ s Ep _ Hoo) as (p' & Hp' & Hf'). rewrite Hs in Hp'. injection Hp' as <-.
        destruct (PP o (nth_error_In _ _ Hoo)) as (p' & Hp' & Rp & Cp & Nz). rewrite Hp' in Hf'. apply Ok_inj in Hf'. subst p'.
        cbn [fst snd]. unfold scale_psf. destruct (Req_EM_T (img_sum p) 0); [contradiction|]. cbn [bind].
        unfold assign_plane, img_map; cbn [rows cols]. rewrite Rp, Cp, Nat.eqb_refl. cbn [andb]. eauto. }
      rewrite Eos. cbn [bind]. destruct (mapM_ok (fun o => strehl o (fm_dl f)) otfs) as (rs & Ers). { intros o _. unfold strehl. destruct (Req_EM_T (img_sum (fm_dl f)) 0); [contradiction|]. eauto. }
      rewrite Ers. cbn [bind]. eauto. }
    destruct EC as (r & EC). rewrite EC. cbn [bind]. unfold y. cbn [x_bkg]. rewrite SB. cbn. eauto. }
  destruct Ok4 as (out & E4).
  destruct (psf4D_inv _ _ _ _ _ _ _ _ _ _ _ _ E4) as [_ I]. destruct (I 0%nat _ eq_refl) as (y' & imgs & srs & Ey & On & _ & _ & V). injection Ey as <-.
  exists out, imgs, srs. split; [|split; [exact On|]].
  - unfold point_spread_function. rewrite Es. cbn [bind]. destruct (Nat.eqb_spec (fm_kRef f) 0); [lia|]. rewrite SJ. cbn [jitter_of bind]. rewrite Ech. fold y. fold pix.
    replace (fm_n f / fm_kRef f)%nat with (fm_fov f) by (rewrite Hkr, Hn, Nat.div_mul; lia). rewrite E4. cbn [bind]. unfold stored_after, refresh. rewrite SS, Eb. reflexivity.
  - intros s sf Hs. destruct (V s sf Hs) as (ph & p & q & q' & r & Fc & Hph & _ & _ & _ & _ & _ & Hr & ->). f_equal.
    assert (Sh : shifted4 y = false). { unfold shifted4, y. cbn [x_dx x_dy]. rewrite SX, SY, !Zany. reflexivity. } rewrite Sh in Hph. subst ph.
    apply strehl_val in Hr; [|exact Hn0|exact Hn0]. rewrite Hr. unfold strehl_with. f_equal. f_equal. cbn [otf_product crows ccols cpx]. apply rsum_ext. intros i Hi. apply rsum_ext. intros j Hj.
    rewrite Cmod_mult, !Cmod_R, Rabs_R1, Rmult_1_r, Rabs_mult. rewrite (Rabs_pos_eq (exp _)) by (apply Rlt_le, exp_pos). f_equal.
    unfold K4. rewrite Act. cbn [pix pixel_otf px c_otf]. f_equal. ring.
Qed.

(** C104 (finding): with one wavelength the static coefficients of a call stay in force. The Strehl
    ratios of a later call without parameters are those of the aberrated system, not those reported
    before by the same call. *)
Theorem C104_static_stays_refuted : forall f st x npix out1 st1 s p w k nf t add, fourier_labels f -> fm_base f = [(w, k, nf)] -> fm_n f = (fm_fov f * k)%nat -> (1 <= k)%nat -> fm_kRef f = k ->
  pix_ok (fm_fov f) -> Nat.even (fm_n f) = true -> i_trans (fm_inst f) = [t] -> i_dispx (fm_inst f) = [0] -> i_dispy (fm_inst f) = [0] -> i_spot (fm_inst f) = [0; 0; 0] -> img_sum (fm_dl f) <> 0 ->
  px st (fm_n f / 2)%nat (fm_n f / 2)%nat <> 0 -> px (fm_static f 0 (Some p)) (fm_n f / 2)%nat (fm_n f / 2)%nat <> 0 ->
  point_spread_function f add st x npix = Ok (out1, st1) -> sort_params (fm_inst f) x = Ok s -> s_stat s = Some p ->
  exists out0 imgs0 srs0 out2 imgs2 srs2,
  point_spread_function f false st [] None = Ok (out0, st) /\ nth_error out0 0 = Some (imgs0, srs0) /\
  point_spread_function f false st1 [] None = Ok (out2, st1) /\ nth_error out2 0 = Some (imgs2, srs2) /\
  forall k sf, nth_error (fm_sfs f) k = Some sf -> nth_error srs0 k = Some (strehl_with f w st sf) /\ nth_error srs2 k = Some (strehl_with f w (fm_static f 0 (Some p)) sf).
Proof.
  intros f st x npix out1 st1 s p w k nf t add LL Eb Hn Hk Hkr Hf He Et Edx Edy Esp Hd Hc Hc' H Es Ep.
  destruct (psf_parts _ _ _ _ _ _ _ H) as (so & jit & Es' & _ & _ & E1 & _). rewrite Es in Es'. apply Ok_inj in Es'. subst so.
  unfold stored_after, refresh in E1. rewrite Ep, Eb in E1. cbn in E1. subst st1.
  destruct (mono_default f st w k nf t LL Eb Hn Hk Hkr Hf He Et Edx Edy Esp Hc Hd) as (o0 & i0 & s0 & A0 & B0 & C0).
  destruct (mono_default f (fm_static f 0 (Some p)) w k nf t LL Eb Hn Hk Hkr Hf He Et Edx Edy Esp Hc' Hd) as (o2 & i2 & s2 & A2 & B2 & C2).
  exists o0, i0, s0, o2, i2, s2. split; [exact A0|]. split; [exact B0|]. split; [exact A2|]. split; [exact B2|]. intros q sf Hq. split; [apply C0|apply C2]; exact Hq.
Qed.
Print Assumptions C104_static_stays_refuted.

(** A two-pixel system at one wavelength: perfect at first, 50 % after a call with a static coefficient. *)
Definition ex_inst : psf_inst := mkInst 0 1 1 0 true [0; 0; 0] 1 1 1 [1] [0] [0].
Definition ex_static (j : nat) (o : option (list R)) : img := mkImg 2 2 (fun a b => match o with None => 1 | Some _ => if ((a =? 1) && (b =? 1))%nat%bool then 1 else 1 / 3 end).
Definition ex_f : fmod := mkFmod ex_inst 2 1 2 false [(1, 1%nat, 0)] ex_static (mkImg 2 2 (fun _ _ => 1)) [fun _ _ => 0].
Example C104_nonvacuous : fourier_labels ex_f /\ strehl_with ex_f 1 (ex_static 0 None) (fun _ _ => 0) = 100 /\ strehl_with ex_f 1 (ex_static 0 (Some [5])) (fun _ _ => 0) = 50 /\
  exists s, sort_params ex_inst [0; 0; 0; 1; 0; 0; 0; 5] = Ok s /\ s_stat s = Some [5].
Proof.
  split; [repeat split|]. split; [|split].
  - unfold strehl_with. cbn. rewrite !Rabs_R1. replace (- / 2 * (0 * (2 * PI * / 1000000000 / 1 * (2 * PI * / 1000000000 / 1)))) with 0 by ring. rewrite exp_0. unfold img_sum. cbn. field.
  - unfold strehl_with. cbn. rewrite !Rabs_R1. rewrite (Rabs_pos_eq (1 / 3)) by lra. replace (- / 2 * (0 * (2 * PI * / 1000000000 / 1 * (2 * PI * / 1000000000 / 1)))) with 0 by ring. rewrite exp_0. unfold img_sum. cbn. field.
  - eexists. split; reflexivity.
Qed.
Example C104_runs : exists out imgs srs, point_spread_function ex_f false (ex_static 0 None) [] None = Ok (out, ex_static 0 None) /\ nth_error out 0 = Some (imgs, srs) /\ nth_error srs 0 = Some 100.
Proof.
  destruct (mono_default ex_f (ex_static 0 None) 1 1 0 1) as (o & i & s & A & B & C); try reflexivity; try lia.
  - repeat split.
  - unfold pix_ok. cbn. lia.
  - cbn. lra.
  - unfold img_sum. cbn. lra.
  - exists o, i, s. split; [exact A|]. split; [exact B|]. rewrite (C 0%nat _ eq_refl). f_equal. apply C104_nonvacuous.
Qed.
