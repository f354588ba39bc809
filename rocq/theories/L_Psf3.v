(** Lemmas on the 4-D function. *)
From Coq Require Import Reals List Arith ZArith Lia Lra Psatz.
From Coq Require Import ZifyBool ZifyNat.
From Verif Require Import Base_Py Base_Sum Base_DFT M_Image S_Image L_Image L_Image2 M_Fourier S_Fourier L_Fourier L_Fourier2 L_Fourier3 M_Float L_Float M_Psf L_Psf L_Psf2.
From Coquelicot Require Import Complex.
Import ListNotations.
Open Scope R_scope.

Lemma indexed_nth {A} (l : list A) k j a :
  nth_error l j = Some a -> nth_error (indexed k l) j = Some ((k + j)%nat, a).
Proof.
  revert k j. induction l as [|b l IH]; intros k [|j] H; cbn in *; try discriminate.
  - injection H as ->. rewrite Nat.add_0_r. reflexivity.
  - rewrite (IH (S k) j H). f_equal. f_equal. lia.
Qed.
Lemma indexed_length {A} (l : list A) k : length (indexed k l) = length l.
Proof. revert k; induction l; intros; cbn; [reflexivity|]. rewrite IHl. reflexivity. Qed.

Definition K4 (n : nat) (nyq : bool) (nW : nat) (c : chan) (nf2max : R) (jit : option (R * R * R)) : nat -> nat -> R :=
  match jit with
  | None => fun _ _ => 1
  | Some v => if jitter4_active v then jitter4 n (if (nyq && (1 <? nW)%nat)%bool then c_nf2 c else nf2max) v
              else fun _ _ => 1
  end.
Definition wscale (c : chan) : R := (2 * PI * / 1000000000 / c_wvl c) * (2 * PI * / 1000000000 / c_wvl c).

Definition shifted4 (y : stellar) : bool := (mat_any (x_dx y) || mat_any (x_dy y))%bool.

Lemma bind_Ok {A B} (r : result A) (f : A -> result B) b : bind r f = Ok b -> exists a, r = Ok a /\ f a = Ok b.
Proof. destruct r; cbn; [eauto|discriminate]. Qed.

Lemma psf4D_inv n kRef fov npix nyq chans dl pix jit sfs x out :
  sf_3D_to_psf_4D n kRef fov npix nyq chans dl pix jit sfs x = Ok out ->
  length out = length chans /\
  forall j c, nth_error chans j = Some c ->
  exists y imgs srs, x = Some y /\ nth_error out j = Some (imgs, srs) /\
    length imgs = length sfs /\ length srs = length sfs /\
    forall s sf, nth_error sfs s = Some sf ->
    exists ph p q q' r Fcol,
      let o := otf_product n (fun a b => sf a b * wscale c) (px (c_otf c)) (px pix)
                 (K4 n nyq (length chans) c (rmax_list (map c_nf2 chans)) jit) ph in
      (if shifted4 y then exists d, shifts4 (length chans) y (length sfs) s j = Ok d /\
                                    ph = phasor n (bin_fact_4D kRef) (fst d) (snd d)
       else ph = fun _ _ => RtoC 1) /\
      psf_plane o (c_k c) fov npix = Ok p /\
      column (x_F y) j = Ok Fcol /\
      scale_psf p (per_source Fcol s) 0 = Ok q /\ assign_plane npix q = Ok q' /\
      nth_error imgs s = Some (img_map (fun v => v + per_source (x_bkg y) j) q') /\
      strehl o dl = Ok r /\ nth_error srs s = Some r.
Proof.
  unfold sf_3D_to_psf_4D. cbv zeta. intros H.
  apply bind_Ok in H. destruct H as (raw & Eraw & H).
  apply bind_Ok in H. destruct H as (bk & Ebk & H). apply Ok_inj in H.
  assert (Lr := mapM_length _ _ _ Eraw). rewrite indexed_length in Lr.
  apply bcast_nth in Ebk. destruct Ebk as [Lb Nb].
  split. { rewrite <- H, map_length, combine_length. lia. }
  intros j c Hc. assert (Hj : (j < length chans)%nat) by (apply nth_error_Some; congruence).
  destruct (mapM_nth _ _ _ j Eraw _ (indexed_nth chans 0 j c Hc)) as ([imgs srs] & Hn & Hch).
  cbn [fst snd Nat.add] in Hch. unfold channel4 in Hch. cbv zeta in Hch.
  apply bind_Ok in Hch. destruct Hch as (K & EK & Hch).
  apply bind_Ok in Hch. destruct Hch as (otfs & Eo & Hch).
  apply bind_Ok in Hch. destruct Hch as (psfs & Ep & Hch).
  apply bind_Ok in Hch. destruct Hch as (Fcol & EF & Hch).
  apply bind_Ok in Hch. destruct Hch as (Fs & EFs & Hch).
  apply bind_Ok in Hch. destruct Hch as (os & Eos & Hch).
  apply bind_Ok in Hch. destruct Hch as (rs & Ers & Hch). apply Ok_inj in Hch.
  injection Hch as <- <-.
  destruct x as [y|]; [|discriminate].
  assert (Lo := mapM_length _ _ _ Eo). rewrite combine_length, seq_length, Nat.min_id in Lo.
  assert (Lp := mapM_length _ _ _ Ep). assert (Lrs := mapM_length _ _ _ Ers).
  apply bcast_nth in EFs. destruct EFs as [LF NF].
  assert (Los := mapM_length _ _ _ Eos). rewrite combine_length in Los.
  exists y, (map (img_map (fun v => v + per_source (x_bkg y) j)) os), rs.
  split; [reflexivity|].
  assert (Nout : nth_error out j = Some (map (img_map (fun v => v + per_source (x_bkg y) j)) os, rs)).
  { rewrite <- H. rewrite nth_error_map.
    rewrite (nth_error_combine raw bk j (os, rs) (per_source (x_bkg y) j)).
    - reflexivity.
    - exact Hn.
    - apply Nb. exact Hj. }
  split; [exact Nout|]. rewrite map_length. split; [lia|]. split; [lia|].
  intros s sf Hs. assert (Hsl : (s < length sfs)%nat) by (apply nth_error_Some; congruence).
  assert (Nq : nth_error (combine (seq 0 (length sfs)) sfs) s = Some (s, sf)).
  { apply nth_error_combine; [|exact Hs]. 
    rewrite (nth_error_nth' _ 0%nat) by (rewrite seq_length; exact Hsl). rewrite seq_nth by exact Hsl. reflexivity. }
  destruct (mapM_nth _ _ _ s Eo _ Nq) as (o & Ho & Fo). cbn [fst snd] in Fo.
  apply bind_Ok in Fo. destruct Fo as (ph & Eph & Fo). apply Ok_inj in Fo.
  destruct (mapM_nth _ _ _ s Ep _ Ho) as (p & Hp & Fp).
  assert (Nc : nth_error (combine psfs Fs) s = Some (p, per_source Fcol s)).
  { apply nth_error_combine; [exact Hp|apply NF; exact Hsl]. }
  destruct (mapM_nth _ _ _ s Eos _ Nc) as (q' & Hq' & Fq). cbn [fst snd] in Fq.
  apply bind_Ok in Fq. destruct Fq as (q & Eq & Fq).
  destruct (mapM_nth _ _ _ s Ers _ Ho) as (r & Hr & Fr).
  assert (K = K4 n nyq (length chans) c (rmax_list (map c_nf2 chans)) jit) as ->.
  { unfold K4. destruct jit as [v|]; [|apply Ok_inj in EK; congruence].
    destruct (nyq && (1 <? length chans)%nat)%bool; destruct (jitter4_active v); try discriminate; apply Ok_inj in EK; congruence. }
  exists ph, p, q, q', r, Fcol. cbv zeta. unfold wscale. rewrite Fo.
  split.
  { unfold shifted4. destruct (mat_any (x_dx y) || mat_any (x_dy y))%bool.
    - apply bind_Ok in Eph. destruct Eph as (d & Ed & Eph). apply Ok_inj in Eph. exists d. split; [exact Ed|congruence].
    - apply Ok_inj in Eph. congruence. }
  repeat split; try assumption. rewrite nth_error_map, Hq'. reflexivity.
Qed.

(** flux, 4-D *)
Lemma psf4D_flux n kRef fov npix nyq chans dl pix jit sfs x out :
  sf_3D_to_psf_4D n kRef fov npix nyq chans dl pix jit sfs x = Ok out ->
  (npix <= fov \/ 2 <= fov)%nat ->
  forall j c s sf, nth_error chans j = Some c -> nth_error sfs s = Some sf ->
  exists y imgs srs img Fcol, x = Some y /\ nth_error out j = Some (imgs, srs) /\ nth_error imgs s = Some img /\
    column (x_F y) j = Ok Fcol /\ rows img = npix /\ cols img = npix /\ (npix <= fov)%nat /\
    img_sum img = per_source Fcol s + INR npix * INR npix * per_source (x_bkg y) j.
Proof.
  intros H Hd j c s sf Hj Hs.
  destruct (psf4D_inv _ _ _ _ _ _ _ _ _ _ _ _ H) as [_ Inv].
  destruct (Inv j c Hj) as (y & imgs & srs & Hx & Ho & _ & _ & V).
  destruct (V s sf Hs) as (ph & p & q & q' & r & Fcol & _ & Ep & EF & Eq & Ea & Hi & _ & _).
  assert (Sp := psf_plane_shape _ _ _ _ _ Ep). destruct Sp as [Rp Cp].
  destruct (scale_psf_spec _ _ _ _ Eq) as (Rq & Cq & Sq).
  assert (LE : (npix <= fov)%nat).
  { destruct Hd as [L|L]; [exact L|]. destruct (Nat.le_gt_cases npix fov) as [L'|L']; [exact L'|].
    exfalso. unfold assign_plane in Ea.
    destruct (Nat.eqb_spec (rows q) npix); cbn [andb] in Ea; [lia|].
    destruct (Nat.eqb_spec (rows q) 1); cbn [andb] in Ea; [lia|]. discriminate. }
  assert (q' = q) as ->.
  { unfold assign_plane in Ea. rewrite Rq, Cq, Rp, Cp in Ea. rewrite Nat.min_l in Ea by exact LE.
    rewrite Nat.eqb_refl in Ea. cbn in Ea. congruence. }
  eexists y, imgs, srs, _, Fcol. split; [exact Hx|]. split; [exact Ho|]. split; [exact Hi|]. split; [exact EF|].
  cbn [img_map rows cols]. rewrite Rq, Cq, Rp, Cp, Nat.min_l by exact LE.
  split; [reflexivity|]. split; [reflexivity|]. split; [exact LE|].
  assert (E : img_sum (img_map (fun v => v + per_source (x_bkg y) j) q) =
              img_sum q + INR (rows q) * INR (cols q) * per_source (x_bkg y) j).
  { unfold img_sum, img_map; cbn [rows cols px].
    rewrite (rsum_ext (rows q) _ (fun i => rsum (cols q) (fun k => px q i k) + INR (cols q) * per_source (x_bkg y) j)).
    - rewrite rsum_plus, rsum_const. ring.
    - intros i _. rewrite rsum_plus, rsum_const. reflexivity. }
  rewrite E, Sq, Rq, Cq, Rp, Cp, Nat.min_l by exact LE. ring.
Qed.

(** validity of the jitter parameters *)
Definition jitter_valid3 (jit : option (R * R * R * R)) : Prop :=
  match jit with None => True
  | Some (nf2, a, b, c) => 0 <= nf2 /\ 0 <= a /\ 0 <= b /\ c * c <= a * b end.
Definition jitter_valid4 (jit : option (R * R * R)) : Prop :=
  match jit with None => True | Some (a, b, c) => c * c <= (a * a) * (b * b) end.

Lemma K3_range n jit i j : jitter_valid3 jit -> 0 <= K3 n jit i j <= 1.
Proof.
  destruct jit as [[[[nf2 a] b] c]|]; cbn [jitter_valid3 K3].
  - intros (H0 & H1 & H2 & H3). apply jitter_range; assumption.
  - intros _. lra.
Qed.
Lemma rmax_list_nonneg l : 0 <= rmax_list l.
Proof.
  unfold rmax_list. assert (G : forall l a, 0 <= a -> 0 <= fold_left Rmax l a).
  { induction l0 as [|b l0 IH]; intros a Ha; cbn [fold_left]; [exact Ha|]. apply IH.
    eapply Rle_trans; [exact Ha|apply Rmax_l]. }
  apply G. lra.
Qed.
Lemma K4_range n nyq nW c m jit i j : 0 <= c_nf2 c -> 0 <= m -> jitter_valid4 jit -> 0 <= K4 n nyq nW c m jit i j <= 1.
Proof.
  intros Hc Hm. destruct jit as [[[a b] d]|]; cbn [jitter_valid4 K4]; [|lra].
  intros H. destruct (jitter4_active _); [|lra]. unfold jitter4. apply jitter_range.
  - destruct (_ && _)%bool; assumption.
  - apply Rle_0_sqr.
  - apply Rle_0_sqr.
  - exact H.
Qed.

Definition dominated (n : nat) (stat dl : img) : Prop :=
  forall i j, (i < n)%nat -> (j < n)%nat -> Rabs (px stat i j) <= px dl i j.
Definition sub_unit (n : nat) (pix : img) : Prop :=
  forall i j, (i < n)%nat -> (j < n)%nat -> Rabs (px pix i j) <= 1.
Definition sf_nonneg_on (n : nat) (sf : nat -> nat -> R) : Prop :=
  forall i j, (i < n)%nat -> (j < n)%nat -> 0 <= sf i j.

Lemma ph3_mod n k dx dy s i j : Cmod (ph3 n k dx dy s i j) = 1.
Proof. unfold ph3. destruct (_ || _)%bool; [apply phasor_mod|]. rewrite Cmod_R. apply Rabs_R1. Qed.

Lemma strehl3_range n kRef fov npix ncpa dl pix jit sfs F dx dy bkg out srs :
  sf_3D_to_psf_3D n kRef fov npix ncpa dl pix jit sfs F dx dy bkg = Ok (out, srs) ->
  (0 < n)%nat -> rows dl = n -> cols dl = n -> dominated n ncpa dl -> sub_unit n pix -> jitter_valid3 jit ->
  (forall sf, In sf sfs -> sf_nonneg_on n sf) ->
  length srs = length sfs /\ forall s r, nth_error srs s = Some r -> 0 <= r <= 100.
Proof.
  intros H Hn Rd Cd Hdom Hpix Hj Hsf.
  destruct (psf3D_flux _ _ _ _ _ _ _ _ _ _ _ _ _ _ _ H) as (_ & Ls & _). split; [exact Ls|].
  intros s r Hr.
  destruct (nth_error sfs s) as [sf|] eqn:Es.
  2:{ apply nth_error_None in Es. rewrite <- Ls in Es. apply nth_error_None in Es. congruence. }
  destruct (psf3D_inv _ _ _ _ _ _ _ _ _ _ _ _ _ _ _ H s sf Es) as (p & q & r' & _ & _ & _ & Hs & Hr').
  rewrite Hr in Hr'. injection Hr' as <-.
  refine (strehl_bound n sf (px ncpa) (px pix) _ _ dl r Hn Rd Cd _ _ Hdom Hpix _ Hs).
  - intros; apply ph3_mod.
  - apply Hsf. apply nth_error_In with s; exact Es.
  - intros i j _ _. apply K3_range. exact Hj.
Qed.

Lemma strehl3_mono n kRef fov npix ncpa dl pix jit sfs sfs' F dx dy bkg out srs out' srs' :
  sf_3D_to_psf_3D n kRef fov npix ncpa dl pix jit sfs F dx dy bkg = Ok (out, srs) ->
  sf_3D_to_psf_3D n kRef fov npix ncpa dl pix jit sfs' F dx dy bkg = Ok (out', srs') ->
  (0 < n)%nat -> 0 < img_sum dl ->
  Forall2 (fun sf sf' => forall i j, (i < n)%nat -> (j < n)%nat -> sf i j <= sf' i j) sfs sfs' ->
  forall s r r', nth_error srs s = Some r -> nth_error srs' s = Some r' -> r' <= r.
Proof.
  intros H H' Hn Hd Hle s r r' Hr Hr'.
  destruct (psf3D_flux _ _ _ _ _ _ _ _ _ _ _ _ _ _ _ H) as (_ & Ls & _).
  destruct (psf3D_flux _ _ _ _ _ _ _ _ _ _ _ _ _ _ _ H') as (_ & Ls' & _).
  destruct (nth_error sfs s) as [sf|] eqn:Es.
  2:{ apply nth_error_None in Es. rewrite <- Ls in Es. apply nth_error_None in Es. congruence. }
  destruct (nth_error sfs' s) as [sf'|] eqn:Es'.
  2:{ apply nth_error_None in Es'. rewrite <- Ls' in Es'. apply nth_error_None in Es'. congruence. }
  destruct (psf3D_inv _ _ _ _ _ _ _ _ _ _ _ _ _ _ _ H s sf Es) as (p & q & r0 & _ & _ & _ & Hs & Hr0).
  destruct (psf3D_inv _ _ _ _ _ _ _ _ _ _ _ _ _ _ _ H' s sf' Es') as (p' & q' & r0' & _ & _ & _ & Hs' & Hr0').
  rewrite Hr in Hr0. injection Hr0 as <-. rewrite Hr' in Hr0'. injection Hr0' as <-.
  refine (strehl_mono n sf sf' _ _ _ _ dl r r' Hn Hd _ _ Hs Hs').
  - intros; apply ph3_mod.
  - clear - Hle Es Es'. revert s Es Es'. induction Hle as [|a b l l' Hab Hl IH]; intros [|s] Es Es'; cbn in *; try discriminate.
    + injection Es as ->. injection Es' as ->. exact Hab.
    + eapply IH; eassumption.
Qed.

Lemma strehl4_range n kRef fov npix nyq chans dl pix jit sfs x out :
  sf_3D_to_psf_4D n kRef fov npix nyq chans dl pix jit sfs x = Ok out ->
  (0 < n)%nat -> rows dl = n -> cols dl = n -> sub_unit n pix -> jitter_valid4 jit ->
  (forall c, In c chans -> dominated n (c_otf c) dl /\ 0 <= c_nf2 c) ->
  (forall sf, In sf sfs -> sf_nonneg_on n sf) ->
  length out = length chans /\
  forall j imgs srs, nth_error out j = Some (imgs, srs) ->
    length imgs = length sfs /\ length srs = length sfs /\
    forall s r, nth_error srs s = Some r -> 0 <= r <= 100.
Proof.
  intros H Hn Rd Cd Hpix Hj Hch Hsf.
  destruct (psf4D_inv _ _ _ _ _ _ _ _ _ _ _ _ H) as [Lo Inv]. split; [exact Lo|].
  intros j imgs srs Hout.
  destruct (nth_error chans j) as [c|] eqn:Ec.
  2:{ apply nth_error_None in Ec. rewrite <- Lo in Ec. apply nth_error_None in Ec. congruence. }
  destruct (Inv j c Ec) as (y & imgs' & srs' & _ & Hout' & Li & Lsr & V).
  rewrite Hout in Hout'. injection Hout' as <- <-. split; [exact Li|]. split; [exact Lsr|].
  intros s r Hr.
  destruct (nth_error sfs s) as [sf|] eqn:Es.
  2:{ apply nth_error_None in Es. rewrite <- Lsr in Es. apply nth_error_None in Es. congruence. }
  destruct (V s sf Es) as (ph & p & q & q' & r' & Fcol & Hph & _ & _ & _ & _ & _ & Hs & Hr').
  rewrite Hr in Hr'. injection Hr' as <-.
  destruct (Hch c) as [Hdom Hnf]; [apply nth_error_In with j; exact Ec|].
  refine (strehl_bound n _ (px (c_otf c)) (px pix) _ _ dl r Hn Rd Cd _ _ Hdom Hpix _ Hs).
  - intros a b. destruct (shifted4 y).
    + destruct Hph as (d & _ & ->). apply phasor_mod.
    + rewrite Hph. rewrite Cmod_R. apply Rabs_R1.
  - intros a b Ha Hb. apply Rmult_le_pos; [|apply Rle_0_sqr].
    apply (Hsf sf); [apply nth_error_In with s; exact Es|exact Ha|exact Hb].
  - intros a b _ _. apply K4_range; [exact Hnf|apply rmax_list_nonneg|exact Hj].
Qed.

(** ** exceptions of the 4-D function *)
Lemma psf4D_default_refused n kRef fov npix nyq c chans dl pix jit sfs :
  exists e, sf_3D_to_psf_4D n kRef fov npix nyq (c :: chans) dl pix jit sfs None = Err e.
Proof.
  destruct (sf_3D_to_psf_4D n kRef fov npix nyq (c :: chans) dl pix jit sfs None) as [out|e] eqn:E; [|eauto].
  destruct (psf4D_inv _ _ _ _ _ _ _ _ _ _ _ _ E) as [_ Inv].
  destruct (Inv 0%nat c eq_refl) as (y & ? & ? & Hx & _). discriminate.
Qed.

Lemma psf4D_mono_shift_refused n kRef fov npix nyq c dl pix jit sf1 sf2 sfs y :
  shifted4 y = true ->
  exists e, sf_3D_to_psf_4D n kRef fov npix nyq [c] dl pix jit (sf1 :: sf2 :: sfs) (Some y) = Err e.
Proof.
  intros Hs.
  destruct (sf_3D_to_psf_4D n kRef fov npix nyq [c] dl pix jit (sf1 :: sf2 :: sfs) (Some y)) as [out|e] eqn:E; [|eauto].
  destruct (psf4D_inv _ _ _ _ _ _ _ _ _ _ _ _ E) as [_ Inv].
  destruct (Inv 0%nat c eq_refl) as (y' & ? & ? & Hx & _ & _ & _ & V). injection Hx as <-.
  destruct (V 0%nat sf1 eq_refl) as (ph & p & q & q' & r & Fcol & Hph & _).
  rewrite Hs in Hph. destruct Hph as (d & Hd & _). exfalso. revert Hd. unfold shifts4. cbn [length Nat.ltb Nat.leb].
  destruct (x_dx y) as [|[|a [|a' r1]] [|r2 r3]]; try discriminate;
  destruct (x_dy y) as [|[|b [|b' r4]] [|r5 r6]]; try discriminate.
Qed.

Lemma psf4D_nyq_zero_jitter_refused n kRef fov npix c c' chans dl pix a sfs x :
  sf_3D_to_psf_4D n kRef fov npix true (c :: c' :: chans) dl pix (Some (0, 0, a)) sfs x = Err UnboundLocalError.
Proof.
  unfold sf_3D_to_psf_4D. cbv zeta. cbn [indexed mapM fst snd length].
  unfold channel4 at 1. cbn [andb Nat.ltb Nat.leb]. unfold jitter4_active. cbn [any_nonzero existsb].
  destruct (Req_EM_T 0 0); [|lra]. reflexivity.
Qed.

(** displacement in the 4-D function with several wavelengths: the image moves
    by bin_fact/k pixels per unit of dx *)
Lemma psf4D_shift n kRef fov npix nyq chans dl pix jit sfs y y0 out out0 j c s (dx dy Dx Dy : Z) :
  n = (fov * c_k c)%nat -> (1 <= c_k c)%nat -> pix_ok fov -> npix = fov -> Nat.even n = true ->
  (2 <= length chans)%nat ->
  sf_3D_to_psf_4D n kRef fov npix nyq chans dl pix jit sfs (Some y0) = Ok out0 ->
  sf_3D_to_psf_4D n kRef fov npix nyq chans dl pix jit sfs (Some y) = Ok out ->
  x_F y = x_F y0 -> x_bkg y = x_bkg y0 -> shifted4 y0 = false -> shifted4 y = true ->
  nth_error chans j = Some c -> (s < length sfs)%nat ->
  shifts4 (length chans) y (length sfs) s j = Ok (IZR dx, IZR dy) ->
  bin_fact_4D kRef * IZR dx = INR (c_k c) * IZR Dx -> bin_fact_4D kRef * IZR dy = INR (c_k c) * IZR Dy ->
  exists imgs0 srs0 imgs srs p0 p, nth_error out0 j = Some (imgs0, srs0) /\ nth_error out j = Some (imgs, srs) /\
    nth_error imgs0 s = Some p0 /\ nth_error imgs s = Some p /\
    forall u v, (u < fov)%nat -> (v < fov)%nat -> px p (cyc fov u Dx) (cyc fov v Dy) = px p0 u v.
Proof.
  intros Hn Hk Hf Hnp He HW H0 H EF Eb S0 S1 Hc Hs Hsh Ex Ey.
  destruct (nth_error sfs s) as [sf|] eqn:Es; [|apply nth_error_None in Es; lia].
  destruct (psf4D_inv _ _ _ _ _ _ _ _ _ _ _ _ H0) as [_ I0].
  destruct (psf4D_inv _ _ _ _ _ _ _ _ _ _ _ _ H) as [_ I1].
  destruct (I0 j c Hc) as (y0' & imgs0 & srs0 & X0 & O0 & _ & _ & V0). injection X0 as <-.
  destruct (I1 j c Hc) as (y' & imgs & srs & X1 & O1 & _ & _ & V1). injection X1 as <-.
  destruct (V0 s sf Es) as (ph0 & p0 & q0 & q0' & r0 & F0 & P0 & Q0 & C0 & A0 & B0 & N0 & _).
  destruct (V1 s sf Es) as (ph & p & q & q' & r & F1 & P1 & Q1 & C1 & A1 & B1 & N1 & _).
  rewrite S0 in P0. rewrite S1 in P1. subst ph0. destruct P1 as (d & Hd & ->).
  rewrite Hsh in Hd. apply Ok_inj in Hd. subst d. cbn [fst snd] in Q1.
  rewrite EF, C0 in C1. apply Ok_inj in C1. subst F1.
  exists imgs0, srs0, imgs, srs.
  eexists _, _. split; [exact O0|]. split; [exact O1|]. split; [exact N0|]. split; [exact N1|].
  intros u v Hu Hv. rewrite Eb. unfold img_map; cbn [px]. f_equal.
  assert (AS : forall z z', assign_plane npix z = Ok z' -> rows z = fov -> cols z = fov -> z' = z).
  { intros z z' Hz Rz Cz. unfold assign_plane in Hz. rewrite Rz, Cz, Hnp, Nat.eqb_refl in Hz. cbn in Hz. congruence. }
  assert (SH : forall p z, psf_plane p (c_k c) fov npix = Ok z -> rows z = fov /\ cols z = fov).
  { intros p1 z Hz. apply psf_plane_shape in Hz. rewrite Hnp, Nat.min_id in Hz. exact Hz. }
  destruct (SH _ _ Q0) as [R0 L0]. destruct (SH _ _ Q1) as [R1 L1].
  destruct (scale_psf_spec _ _ _ _ A0) as (Ra & Ca & _). destruct (scale_psf_spec _ _ _ _ A1) as (Rb & Cb & _).
  rewrite (AS q0 q0' B0) by congruence. rewrite (AS q q' B1) by congruence.
  refine (plane_shift n (c_k c) fov _ _ _ _ (bin_fact_4D kRef) (IZR dx) (IZR dy) Dx Dy npix p0 p
            (per_source F0 s) 0 q0 q Hn Hk Hf _ He Ex Ey Q0 Q1 A0 A1 u v Hu Hv). lia.
Qed.
