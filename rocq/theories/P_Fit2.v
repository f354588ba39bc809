(** Property C40, continued: criterion, refusals, images and error bars of a fit. *)
From Coq Require Import Reals List Arith ZArith Bool Lia Lra Psatz.
From Flocq Require Import Core.Raux.
From Verif Require Import Base_Py Base_Sum M_Image L_Image2 M_Tools M_Atmo L_Atmo L_Freq M_Model2 M_Fit L_Fit P_Fit.
Import ListNotations.
Open Scope R_scope.

(** ** The criterion. Specification: sum over the pixels of weight x (model - image)^2,
    times 1 + alpha where the model exceeds or equals the image when the option
    alpha_positivity is used. *)
Definition wls (w im model : img) (alpha : option R) : R :=
  rsum (rows im) (fun i => rsum (cols im) (fun j =>
    px w i j * (px model i j - px im i j) ^ 2 *
    match alpha with None => 1 | Some a => if Rle_dec (px im i j) (px model i j) then 1 + a else 1 end)).
Definition same_size (a b : img) : Prop := rows a = rows b /\ cols a = cols b.

Lemma neg_pixel_spec a : neg_pixel a = false -> forall i j, (i < rows a)%nat -> (j < cols a)%nat -> 0 <= px a i j.
Proof.
  intros H i j Hi Hj. destruct (Rle_dec 0 (px a i j)) as [L|L]; [exact L|]. exfalso. unfold neg_pixel in H.
  assert (existsb (fun v => if Rlt_dec v 0 then true else false) (pixels a) = true); [|congruence].
  apply existsb_exists. exists (px a i j). split; [apply pixels_in; eauto|]. destruct (Rlt_dec (px a i j) 0); [reflexivity|lra].
Qed.
Lemma existsb_false {A} (f : A -> bool) l x : existsb f l = false -> In x l -> f x = false.
Proof. intros H Hx. destruct (f x) eqn:E; [|reflexivity]. assert (existsb f l = true) by (apply existsb_exists; eauto). congruence. Qed.
(** The sum of the squares of the vector returned by the cost function is the
    documented criterion between the normalised image and the image model. *)
Theorem C40_criterion : forall m o w imn p x v, cost m o w imn p x = Ok v ->
  exists psf sat e est, p_call m x (rows imn) = Ok psf /\ sat_over (p_sat m) p = Ok sat /\ imageModel psf (f_spectral o) (f_spatial o) sat = Ok e /\
    nd_to_img (rows imn) (cols imn) (fst e) = Ok est /\ same_size est imn /\ same_size w imn /\
    (forall i j, (i < rows w)%nat -> (j < cols w)%nat -> 0 <= px w i j) /\
    length v = (rows imn * cols imn)%nat /\ lsum (map (fun r => r ^ 2) v) = wls w imn est (f_alpha o).
Proof.
  intros m o w imn p x v H. unfold cost in H.
  apply bind_ok in H. destruct H as (psf & H1 & H). apply bind_ok in H. destruct H as (sat & H2 & H). apply bind_ok in H. destruct H as (e & H3 & H). apply bind_ok in H. destruct H as (est & H4 & H).
  destruct ((rows w =? rows imn) && (cols w =? cols imn))%nat eqn:S; [|discriminate]. apply andb_true_iff in S. destruct S as [S1 S2]. apply Nat.eqb_eq in S1. apply Nat.eqb_eq in S2. cbn [negb] in H.
  destruct (neg_pixel w) eqn:NW; [discriminate|]. pose proof (neg_pixel_spec w NW) as PW.
  exists psf, sat, e, est. repeat (split; [assumption|]).
  assert (SE : same_size est imn).
  { unfold nd_to_img in H4. destruct (nd_shape (fst e)) as [|a [|b [|c t]]]; try discriminate.
    - apply Ok_inj in H4. subst est. now split.
    - destruct (a =? cols imn)%nat; [|discriminate]. apply Ok_inj in H4. subst est. now split.
    - destruct ((a =? rows imn) && (b =? cols imn))%nat; [|discriminate]. apply Ok_inj in H4. subst est. now split. }
  split; [exact SE|]. split; [now split|]. split; [exact PW|]. unfold wls.
  destruct (f_alpha o) as [al|].
  - set (reg := fun v => 1 + al * (if Rlt_dec 0 v then 0 else 1)) in H.
    destruct (existsb _ _) eqn:X in H; [discriminate|]. apply Ok_inj in H. subst v. rewrite pixels_length. cbn [img_zip rows cols]. split; [now rewrite S1, S2|].
    rewrite map_pixels, lsum_pixels. unfold img_sum. cbn [img_map img_zip rows cols px]. rewrite S1. apply rsum_ext. intros i Hi. rewrite S2. apply rsum_ext. intros j Hj.
    assert (RG : 0 <= reg (px imn i j - px est i j)).
    { assert (IN : In (px imn i j - px est i j) (pixels (img_zip Rminus imn est))) by (apply pixels_in; exists i, j; cbn; auto).
      destruct (Rlt_dec (reg (px imn i j - px est i j)) 0) as [L|L]; [exfalso|lra]. enough (true = false) by discriminate. rewrite <- X. symmetry. apply existsb_exists. exists (px imn i j - px est i j). split; [exact IN|]. destruct (Rlt_dec _ 0); [reflexivity|contradiction]. }
    rewrite !Rpow_mult_distr, !pow2_sqrt; try assumption; [|rewrite <- S1 in Hi; rewrite <- S2 in Hj; now apply PW]. unfold reg.
    destruct (Rlt_dec 0 (px imn i j - px est i j)), (Rle_dec (px imn i j) (px est i j)); try lra; ring.
  - apply Ok_inj in H. subst v. rewrite pixels_length. cbn [img_zip rows cols]. split; [now rewrite S1, S2|].
    rewrite map_pixels, lsum_pixels. unfold img_sum. cbn [img_map img_zip rows cols px]. rewrite S1. apply rsum_ext. intros i Hi. rewrite S2. apply rsum_ext. intros j Hj.
    rewrite Rpow_mult_distr, pow2_sqrt by (rewrite <- S1 in Hi; rewrite <- S2 in Hj; now apply PW). ring.
Qed.
Print Assumptions C40_criterion.

(** ** Refusals *)
Lemma img_div_size a c r : img_div a c = Ok r -> same_size r a.
Proof. unfold img_div. destruct (Req_EM_T c 0); [discriminate|]. intros H. apply Ok_inj in H. subst r. now split. Qed.
Lemma normalize_size a t r p : normalizeImage a t = Ok (r, p) -> same_size r a.
Proof.
  unfold normalizeImage. cbv zeta. intros H.
  destruct (Req_EM_T t 0). { apply Ok_inj in H. injection H as <- _. now split. }
  destruct (Req_EM_T t 1). { apply bind_ok in H. destruct H as (r' & D & H). apply Ok_inj in H. injection H as <- _. eapply img_div_size; exact D. }
  destruct (Req_EM_T t 2). { apply bind_ok in H. destruct H as (lo & _ & H). apply bind_ok in H. destruct H as (hi & _ & H). destruct (Req_EM_T (hi - lo) 0); apply Ok_inj in H; injection H as <- _; now split. }
  destruct (Req_EM_T t 3). { apply bind_ok in H. destruct H as (f & _ & H). apply bind_ok in H. destruct H as (r' & D & H). apply Ok_inj in H. injection H as <- _. eapply img_div_size; exact D. }
  destruct (Req_EM_T t 4); (apply bind_ok in H; destruct H as (r' & D & H); apply Ok_inj in H; injection H as <- _; eapply img_div_size; exact D).
Qed.
Definition refused (c : list (list R) * result fitres * img) : Prop := exists e, outcome c = Err e.
Lemma run_first_error cst s e : (forall y, cst y = Err e \/ exists e', cst y = Err e') -> (exists y k, s = Ask y k) -> exists y e', run cst s = ([y], Err e').
Proof. intros H (y & k & ->). cbn [run]. destruct (H y) as [E|(e' & E)]; rewrite E; eauto. Qed.
(** the minimiser evaluates the cost at least once (SciPy: at its starting point) *)
Definition evaluates (solver : list R -> option (list ext * list ext) -> strat) : Prop := forall y0 b, exists y k, solver y0 b = Ask y k.
Theorem C40_refusals : forall solver inv m image x0 o, evaluates solver ->
  (forall w, f_weights o = Some w -> rows w <> rows image -> outcome (psfFitting solver inv m image x0 o) = Err ValueError) /\
  (forall f, f_fixed o = Some f -> length f <> length x0 -> refused (psfFitting solver inv m image x0 o)) /\
  (* bounds: wrong number, crossed, or guess outside *)
  (forall b y0, f_trf o = true -> get_bounds (p_bounds m) (f_bounds o) (f_fixed o) = Ok b -> input2mini x0 (f_fixed o) = Ok y0 -> bounds_ok b y0 = false -> refused (psfFitting solver inv m image x0 o)) /\
  (* an image that is not square, for a model that gives square images *)
  (rows image <> cols image -> (2 <= rows image)%nat -> (2 <= cols image)%nat ->
    (forall x n a, p_call m x n = Ok a -> exists r, nd_shape a = n :: n :: r) -> f_spectral o = true -> f_spatial o = true -> refused (psfFitting solver inv m image x0 o)) /\
  (* normType = 2 *)
  (f_norm o = 2 -> refused (psfFitting solver inv m image x0 o)).
Proof.
  intros solver inv m image x0 o HE. split; [|split; [|split; [|split]]].
  - intros w W N. unfold outcome, psfFitting. rewrite W. destruct (Nat.eqb_spec (rows image) (rows w)) as [E|_]; [congruence|]. reflexivity.
  - intros f F N. unfold refused, outcome, psfFitting.
    match goal with |- context [match ?c with Ok _ => _ | Err _ => _ end] => destruct c as [[w im]|e] end; [|eexists; reflexivity].
    destruct (normalizeImage im (f_norm o)) as [n|e]; cbn [bind fst snd]; [|eexists; reflexivity]. rewrite F. destruct (Nat.eqb_spec (length f) (length x0)); [contradiction|]. eexists; reflexivity.
  - intros b y0 T G Y B. unfold refused, outcome, psfFitting.
    match goal with |- context [match ?c with Ok _ => _ | Err _ => _ end] => destruct c as [[w im]|e] end; [|eexists; reflexivity].
    destruct (normalizeImage im (f_norm o)) as [n|e]; cbn [bind fst snd]; [|eexists; reflexivity].
    match goal with |- context [bind ?c (fun _ : unit => _)] => destruct c as [u|e] end; cbn [bind fst snd]; [|eexists; reflexivity].
    rewrite Y, T, G. cbn [bind]. rewrite B. eexists; reflexivity.
  - intros NS R2 C2 SQ S1 S2. unfold refused, outcome, psfFitting.
    match goal with |- context [match ?c with Ok _ => _ | Err _ => _ end] => destruct c as [[w im]|e] eqn:E1 end; [|eexists; reflexivity].
    assert (SZ : same_size im image). { apply bind_ok in E1. destruct E1 as (? & _ & E1). apply bind_ok in E1. destruct E1 as (lo & _ & E1). apply Ok_inj in E1. injection E1 as _ <-. destruct (Rlt_dec lo 0); now split. }
    match goal with |- context [match ?c with Ok _ => _ | Err _ => _ end] => destruct c as [[[[imn p] y0] b]|e] eqn:E2 end; [|eexists; reflexivity].
    assert (SN : same_size imn im).
    { apply bind_ok in E2. destruct E2 as ([imn' p'] & En & E2). apply bind_ok in E2. destruct E2 as (? & _ & E2). apply bind_ok in E2. destruct E2 as (? & _ & E2). apply bind_ok in E2. destruct E2 as (? & _ & E2). apply Ok_inj in E2. injection E2 as -> -> _ _.
      exact (normalize_size _ _ _ _ En). }
    destruct SN as [N1 N2], SZ as [Z1 Z2]. cbv zeta. cbn [fst snd].
    destruct (HE y0 b) as (y & k & K). rewrite K. cbn [run].
    assert (CE : forall x, exists e, cost m o w imn p x = Err e).
    { intros x. unfold cost. destruct (p_call m x (rows imn)) as [a|e] eqn:PC; cbn [bind]; [|eauto]. destruct (sat_over (p_sat m) p) as [s|e]; cbn [bind]; [|eauto].
      destruct (SQ _ _ _ PC) as (r & SH). rewrite S1, S2. unfold imageModel. rewrite SH. set (n := rows imn) in *.
      assert (Hn : n <> cols imn) by congruence. assert (Hn2 : (2 <= n)%nat) by (rewrite N1, Z1; exact R2).
      assert (NI : forall f, nd_to_img n (cols imn) (mkNd [n; n] f) = Err ValueError) by (intros f; unfold nd_to_img; cbn [nd_shape]; destruct (Nat.eqb_spec n (cols imn)); [contradiction|]; now rewrite andb_false_r).
      assert (FL : filter (fun d => negb (d =? 1)%nat) [n; n] = [n; n]) by (cbn; destruct (Nat.eqb_spec n 1); [lia|reflexivity]).
      destruct r as [|s0 [|s1 [|s2 r]]]; cbn [length].
      - cbn [bind fst]. unfold nd_to_img. rewrite SH. destruct (Nat.eqb_spec n (cols imn)); [contradiction|]. rewrite andb_false_r. cbn. eauto.
      - unfold sum2. rewrite SH. cbn [bind fst]. unfold saturate, squeeze. cbn [nd_shape nd_at]. rewrite FL, NI. cbn. eauto.
      - unfold sum23. rewrite SH. cbn [bind fst]. unfold saturate, squeeze. cbn [nd_shape nd_at]. rewrite FL, NI. cbn. eauto.
      - cbn. eauto. }
    destruct (mini2input x0 (f_fixed o) false y) as [x|e] eqn:MI; cbn [bind fst snd]; [|eexists; reflexivity]. destruct (CE x) as [e Ee]. rewrite Ee. eexists; reflexivity.
  - intros N2. unfold refused, outcome, psfFitting.
    match goal with |- context [match ?c with Ok _ => _ | Err _ => _ end] => destruct c as [[w im]|e] eqn:E1 end; [|eexists; reflexivity].
    match goal with |- context [match ?c with Ok _ => _ | Err _ => _ end] => destruct c as [[[[imn p] y0] b]|e] eqn:E2 end; [|eexists; reflexivity].
    assert (PM : exists lo hi, p = PMinMax lo hi).
    { apply bind_ok in E2. destruct E2 as ([imn' p'] & En & E2). apply bind_ok in E2. destruct E2 as (? & _ & E2). apply bind_ok in E2. destruct E2 as (? & _ & E2). apply bind_ok in E2. destruct E2 as (? & _ & E2). apply Ok_inj in E2. injection E2 as -> -> _ _.
      rewrite N2 in En. unfold normalizeImage in En. destruct (Req_EM_T 2 0); [lra|]. destruct (Req_EM_T 2 1); [lra|]. destruct (Req_EM_T 2 2); [|lra].
      apply bind_ok in En. destruct En as (lo & _ & En). apply bind_ok in En. destruct En as (hi & _ & En). destruct (Req_EM_T (hi - lo) 0); apply Ok_inj in En; injection En as _ <-; eauto. }
    destruct PM as (lo & hi & ->). cbv zeta. cbn [fst snd]. destruct (HE y0 b) as (y & k & K). rewrite K. cbn [run].
    destruct (mini2input x0 (f_fixed o) false y) as [x|e] eqn:MI; cbn [bind fst snd]; [|eexists; reflexivity]. unfold cost. destruct (p_call m x (rows imn)); cbn [bind fst snd]; [|eexists; reflexivity].
    cbn. eexists; reflexivity.
Qed.
Print Assumptions C40_refusals.

(** ** The images of the answer: what was fitted is the image, raised to be
    non-negative - and the caller's own image is changed; the model image is given on
    the scale of the image; their difference. *)
Lemma fit_ok solver inv m image x0 o r : outcome (psfFitting solver inv m image x0 o) = Ok r ->
  exists lo w im imn p x fv j y, img_min image = Ok lo /\ im = (if Rlt_dec lo 0 then img_map (fun v => v - lo) image else image) /\
    normalizeImage im (f_norm o) = Ok (imn, p) /\ image_after (psfFitting solver inv m image x0 o) = im /\
    (forall f, f_fixed o = Some f -> length f = length x0) /\
    match f_weights o with None => w = img_map (fun _ => 1) image | Some w' => w = w' end /\
    mini2input x0 (f_fixed o) false y = Ok x /\ r_x r = x /\ r_sky r = im /\ r_dif r = img_zip Rminus im (r_fit r) /\
    (exists a s t ti, p_call m x (cols imn) = Ok a /\ sat_over (p_sat m) p = Ok s /\ imageModel a (f_spectral o) (f_spatial o) s = Ok t /\ nd_to_img (rows im) (cols im) (fst t) = Ok ti /\ unnormalizeImage ti (f_norm o) p = Ok (r_fit r)) /\
    (exists ps, psf_params (p_inst m) x = Ok (r_xpsf r) /\ p_call m (r_xpsf r) (cols imn) = Ok ps /\ r_psf r = squeeze ps) /\
    r_xerr r = error_bars inv x0 (f_fixed o) x fv j.
Proof.
  unfold outcome, image_after, psfFitting. intros H.
  match type of H with context [match ?c with Ok _ => _ | Err _ => _ end] => destruct c as [[w im]|e] eqn:E1 end; [|discriminate].
  match type of H with context [match ?c with Ok _ => _ | Err _ => _ end] => destruct c as [[[[imn p] y0] b]|e] eqn:E2 end; [|discriminate].
  apply bind_ok in E1. destruct E1 as (w0 & Ew & E1). apply bind_ok in E1. destruct E1 as (lo & El & E1). apply Ok_inj in E1. injection E1 as -> E1.
  apply bind_ok in E2. destruct E2 as ([imn' p'] & En & E2). apply bind_ok in E2. destruct E2 as (? & Ef & E2). apply bind_ok in E2. destruct E2 as (? & _ & E2). apply bind_ok in E2. destruct E2 as (? & _ & E2). apply Ok_inj in E2. injection E2 as -> -> _ _.
  cbv zeta in H. cbn [fst snd] in H |- *.
  apply bind_ok in H. destruct H as ([[y fv] j] & Hr & H). apply bind_ok in H. destruct H as (xx & C & H). apply bind_ok in H. destruct H as (a & H1 & H). apply bind_ok in H. destruct H as (s & H2 & H). apply bind_ok in H. destruct H as (t & H3 & H). apply bind_ok in H. destruct H as (ti & H4 & H). apply bind_ok in H. destruct H as (fit & H5 & H). apply bind_ok in H. destruct H as (xp & H6 & H). apply bind_ok in H. destruct H as (ps & H7 & H).
  apply Ok_inj in H. subst r. cbn [r_x r_sky r_dif r_fit r_xpsf r_psf r_xerr].
  exists lo, w, im, imn, p, xx, fv, j, y. split; [exact El|]. split; [now rewrite E1|]. split; [exact En|]. split; [reflexivity|]. split.
  { intros f F. rewrite F in Ef. destruct (Nat.eqb_spec (length f) (length x0)); [assumption|discriminate]. }
  split. { destruct (f_weights o); [destruct (rows image =? rows i)%nat; [|discriminate]|]; apply Ok_inj in Ew; auto. }
  split; [exact C|]. repeat (split; [reflexivity|]). split; [exists a, s, t, ti; auto|]. split; [exists ps; auto|reflexivity].
Qed.
Theorem C40_images : forall solver inv m image x0 o r, outcome (psfFitting solver inv m image x0 o) = Ok r ->
  exists lo, img_min image = Ok lo /\
    (* the fitted image: the one given if non-negative, otherwise raised to a null minimum *)
    (forall i j, px (r_sky r) i j = px image i j - Rmin lo 0) /\ same_size (r_sky r) image /\
    (forall i j, (i < rows image)%nat -> (j < cols image)%nat -> 0 <= px (r_sky r) i j) /\
    (* the array of the caller is the same object *)
    image_after (psfFitting solver inv m image x0 o) = r_sky r /\
    (forall i j, px (r_dif r) i j = px (r_sky r) i j - px (r_fit r) i j) /\
    (* normalisation by the sum: the model is scaled by the flux of the image *)
    (f_norm o = 1 -> exists a s t ti, p_call m (r_x r) (cols image) = Ok a /\ imageModel a (f_spectral o) (f_spatial o) s = Ok t /\ nd_to_img (rows image) (cols image) (fst t) = Ok ti /\
        img_sum (r_sky r) <> 0 /\ (forall i j, px (r_fit r) i j = px ti i j * img_sum (r_sky r)) /\
        (match p_sat m with Inf => s = Inf | Fin v => s = Fin (v / img_sum (r_sky r)) end)).
Proof.
  intros solver inv m image x0 o r H. destruct (fit_ok _ _ _ _ _ _ _ H) as (lo & w & im & imn & p & x & fv & j & y & El & Eim & En & Ea & _ & _ & C & Ex & Es & Ed & (a & s & t & ti & H1 & H2 & H3 & H4 & H5) & _).
  exists lo. split; [exact El|]. assert (P : forall i j, px (r_sky r) i j = px image i j - Rmin lo 0).
  { intros i j'. rewrite Es, Eim. unfold Rmin. destruct (Rlt_dec lo 0); destruct (Rle_dec lo 0); cbn [img_map px]; lra. }
  split; [exact P|]. assert (SZ : same_size (r_sky r) image) by (rewrite Es, Eim; destruct (Rlt_dec lo 0); now split). split; [exact SZ|]. split.
  { intros i j' Hi Hj. rewrite P. destruct (img_min_spec _ _ El) as [Q _]. specialize (Q i j' Hi Hj). pose proof (Rmin_l lo 0). lra. }
  split; [now rewrite Ea, Es|]. split; [intros; rewrite Ed, Es; reflexivity|]. intros N1. rewrite N1 in *. destruct SZ as [Z1 Z2]. rewrite Es in Z1, Z2.
  unfold normalizeImage in En. destruct (Req_EM_T 1 0) as [|_]; [lra|]. destruct (Req_EM_T 1 1) as [_|]; [|lra]. unfold img_div in En. destruct (Req_EM_T (img_sum im) 0) as [|NZ]; [discriminate|]. cbn [bind] in En. apply Ok_inj in En. injection En as <- <-.
  cbn [img_map cols] in H1. rewrite Z2 in *. rewrite Z1 in *. exists a, s, t, ti. rewrite Ex. repeat (split; [assumption|]). rewrite Es. split; [exact NZ|].
  unfold unnormalizeImage in H5. destruct (Req_EM_T 1 0) as [|_]; [lra|]. destruct (Req_EM_T 1 2) as [|_]; [lra|]. apply Ok_inj in H5. split; [intros; now rewrite <- H5|].
  unfold sat_over in H2. destruct (p_sat m) as [v|]; [destruct (Req_EM_T (img_sum im) 0); [discriminate|]|destruct (Rlt_dec 0 (img_sum im)); [|discriminate]]; apply Ok_inj in H2; congruence.
Qed.
Print Assumptions C40_images.

(** ** Error bars. [inv] gives the inverse of its argument or fails. *)
Definition inverts (inv : img -> option img) : Prop := forall a c, inv a = Some c -> rows c = rows a /\ cols c = cols a /\
  forall i k, (i < rows a)%nat -> (k < rows a)%nat -> rsum (rows a) (fun l => px a i l * px c l k) = (if (i =? k)%nat then 1 else 0).
(** the diagonal of the inverse of J^T J is a sum of squares *)
Lemma gram_inverse_diag inv jac c k : inverts inv -> inv (gram jac) = Some c -> (k < cols jac)%nat ->
  px c k k = rsum (rows jac) (fun i => (rsum (cols jac) (fun l => px jac i l * px c l k)) ^ 2).
Proof.
  intros HI E Hk. destruct (HI _ _ E) as (R1 & C1 & I). cbn [gram rows cols] in R1, C1, I.
  (* sum_a c_ak * (sum_l G_al c_lk) = c_kk *)
  transitivity (rsum (cols jac) (fun a => px c a k * rsum (cols jac) (fun l => px (gram jac) a l * px c l k))).
  - rewrite (rsum_ext _ _ (fun a => if (a =? k)%nat then px c a k else 0)).
    + rewrite (rsum_single _ k); [now rewrite Nat.eqb_refl|exact Hk|]. intros a Ha Na. destruct (Nat.eqb_spec a k); [contradiction|reflexivity].
    + intros a Ha. rewrite (I a k Ha Hk). destruct (a =? k)%nat; ring.
  - cbn [gram px]. transitivity (rsum (cols jac) (fun a => rsum (rows jac) (fun i => px c a k * px jac i a * rsum (cols jac) (fun l => px jac i l * px c l k)))).
    + apply rsum_ext. intros a Ha. rewrite <- rsum_scal.
      transitivity (rsum (cols jac) (fun l => rsum (rows jac) (fun i => px c a k * px jac i a * (px jac i l * px c l k)))).
      * apply rsum_ext. intros l Hl. rewrite <- rsum_scal_r, <- rsum_scal. apply rsum_ext. intros i Hi. ring.
      * rewrite rsum_swap. apply rsum_ext. intros i Hi. now rewrite rsum_scal.
    + rewrite rsum_swap. apply rsum_ext. intros i Hi. rewrite rsum_scal_r. rewrite (rsum_ext _ _ (fun l => px jac i l * px c l k)) by (intros; ring). ring.
Qed.
Theorem C40_error_bars : forall solver inv m image x0 o r, inverts inv -> outcome (psfFitting solver inv m image x0 o) = Ok r ->
  forall e, r_xerr r = Ok e ->
  (* computation failed: -1 everywhere *)
  (forall v, In v e -> v = -1) /\ length e = length (r_x r) \/
  (* otherwise null for the fixed parameters, non-negative everywhere *)
  (forall i v, nth_error e i = Some v -> 0 <= v) /\ (forall i, is_fixed o i -> (i < length x0)%nat -> nth_error e i = Some 0).
Proof.
  intros solver inv m image x0 o r HI H e He. destruct (fit_ok _ _ _ _ _ _ _ H) as (lo & w & im & imn & p & x & fv & j & y & _ & _ & _ & _ & L & _ & _ & Ex & _ & _ & _ & _ & E). rewrite E in He. unfold error_bars in He.
  destruct (bind _ _) as [e0|er] eqn:B in He; [|left; destruct er; try discriminate; apply Ok_inj in He; subst e; (split; [intros v Hv; apply in_map_iff in Hv; destruct Hv as (? & <- & _); reflexivity|rewrite map_length; congruence])].
  right. apply Ok_inj in He. subst e0. apply bind_ok in B. destruct B as (c & Hc & B).
  assert (PC : forall v, In v c -> 0 <= v).
  { unfold confidence_interval in Hc. destruct (inv (gram j)); [|discriminate]. apply bind_ok in Hc. destruct Hc as (ssq & _ & Hc). apply Ok_inj in Hc. subst c. intros v Hv. apply in_map_iff in Hv. destruct Hv as (k & <- & _). apply Rmult_le_pos; [apply sqrt_pos|lra]. }
  destruct (f_fixed o) as [f|] eqn:F.
  - destruct (mini2input_spec _ _ _ _ _ (L f eq_refl) B) as (Lc & Le & O & D). split.
    + intros i v Hv. destruct (in_dec Nat.eq_dec i (firstn (length c) (indfree f))) as [Hi|Hi].
      * apply In_nth_error in Hi. destruct Hi as [k Hk]. assert (K : (k < length c)%nat). { assert (k < length (firstn (length c) (indfree f)))%nat by (apply nth_error_Some; congruence). rewrite firstn_length in *. lia. }
        assert (Hk' : nth_error (indfree f) k = Some i). { rewrite <- Hk. clear - K. revert K. generalize (length c). revert k. induction (indfree f) as [|a l IH]; intros [|k] [|n] K; cbn; try lia; try reflexivity. apply IH. lia. }
        destruct (nth_error c k) as [u|] eqn:Eu; [|apply nth_error_None in Eu; lia]. rewrite (D k i u Hk' Eu) in Hv. injection Hv as <-. pose proof (PC u (nth_error_In _ _ Eu)) as U. unfold stored. destruct (all_ints x0); [|exact U].
        apply (IZR_le 0). rewrite Ztrunc_floor by exact U. apply Zfloor_lub. exact U.
      * rewrite (O i Hi), nth_error_map in Hv. destruct (nth_error x0 i); [|discriminate]. cbn in Hv. injection Hv as <-. lra.
    + intros i (f' & F' & Hi) Li. rewrite F in F'. injection F' as <-. rewrite O.
      * rewrite nth_error_map. destruct (nth_error x0 i) eqn:En; [reflexivity|apply nth_error_None in En; lia].
      * intros Hin. assert (In i (indfree f)) as Hf by (rewrite <- (firstn_skipn (length c) (indfree f)); apply in_or_app; now left). apply indfree_spec in Hf. congruence.
  - cbn in B. apply Ok_inj in B. subst c. split; [intros i v Hv; apply PC; eapply nth_error_In; exact Hv|]. intros i (f & F' & _). rewrite F in F'. discriminate.
Qed.
Print Assumptions C40_error_bars.
(** value of an error bar: 1.96 x sqrt(rss/(n-p) x |J c_k|^2), c_k the k-th column of the
    inverse of J^T J; in particular the absolute values of the code change nothing, and
    the bars scale with the residuals. *)
Theorem C40_error_bar_value : forall inv fvec jac e, inverts inv -> confidence_interval inv fvec jac = Ok e -> (cols jac < rows jac)%nat ->
  exists c, inv (gram jac) = Some c /\ length e = cols jac /\
  forall k, (k < cols jac)%nat -> exists v, nth_error e k = Some v /\ 0 <= v /\
    v ^ 2 * (INR (rows jac) - INR (cols jac)) = (196 / 100) ^ 2 * lsum (map (fun r => r ^ 2) fvec) * rsum (rows jac) (fun i => (rsum (cols jac) (fun l => px jac i l * px c l k)) ^ 2).
Proof.
  intros inv fvec jac e HI H N. unfold confidence_interval in H. destruct (inv (gram jac)) as [c|] eqn:E; [|discriminate]. apply bind_ok in H. destruct H as (ssq & Hs & H). apply Ok_inj in H. subst e.
  exists c. split; [reflexivity|]. split; [now rewrite map_length, seq_length|]. intros k Hk. exists (sqrt (Rabs (px c k k * ssq)) * (196 / 100)). split.
  { rewrite nth_error_map. replace (nth_error (seq 0 (cols jac)) k) with (Some k); [reflexivity|]. symmetry. rewrite nth_error_nth' with (d := 0%nat) by (rewrite seq_length; exact Hk). now rewrite seq_nth. }
  split; [apply Rmult_le_pos; [apply sqrt_pos|lra]|]. apply lt_INR in N. unfold rdiv in Hs. destruct (Req_EM_T _ 0); [lra|]. apply Ok_inj in Hs. subst ssq.
  rewrite Rpow_mult_distr, pow2_sqrt by apply Rabs_pos. rewrite (gram_inverse_diag inv jac c k HI E Hk). set (S := rsum _ _). set (Q := lsum _).
  assert (0 <= S) by (apply rsum_nonneg; intros; apply pow2_ge_0). assert (0 <= Q). { unfold Q. clear. induction fvec as [|a l IH]; unfold lsum in *; cbn; [lra|]. pose proof (pow2_ge_0 a). cbn in *. lra. }
  rewrite Rabs_right. - field. lra. - apply Rle_ge, Rmult_le_pos; [assumption|]. apply Rmult_le_pos; [assumption|]. left. apply Rinv_0_lt_compat. lra.
Qed.
Print Assumptions C40_error_bar_value.
(** ** Non-vacuity: an image with a negative pixel, a model of one free parameter (the
    flux), a minimiser that evaluates the cost at its start and moves. *)
Definition ex_image : img := mkImg 2 2 (fun i j => if ((i =? 0) && (j =? 0))%nat then -1 else 1).
Definition ex_model : pmodel := mkPM (fun x n => Ok (mkNd [n; n] (fun _ => nth 3 x 0))) (repeat NegInf 7, repeat PosInf 7) Inf (mkInst 0 1 1 0 true [0; 0; 0] 1 1 1 [1] [0] [0]).
Definition ex_solver (y0 : list R) (b : option (list ext * list ext)) : strat := Ask y0 (fun v => Stop [1 / 4] v (mkImg 4 1 (fun _ _ => 1))).
Definition ex_inv (a : img) : option img := if Req_EM_T (px a 0 0) 0 then None else if ((rows a =? 1) && (cols a =? 1))%nat then Some (mkImg 1 1 (fun _ _ => / px a 0 0)) else None.
Definition ex_x0 : list num := map NF [0; 0; 0; 1 / 2; 0; 0; 0].
Definition ex_args : fitargs := mkFA None (Some [true; true; true; false; true; true; true]) true true true 1 None None.
Example C40_ex_inverts : inverts ex_inv.
Proof.
  intros a c H. unfold ex_inv in H. destruct (Req_EM_T (px a 0 0) 0); [discriminate|]. destruct (Nat.eqb_spec (rows a) 1); [|discriminate]. destruct (Nat.eqb_spec (cols a) 1); [|discriminate]. injection H as <-.
  cbn. split; [lia|]. split; [lia|]. intros i k Hi Hk. replace i with 0%nat by lia. replace k with 0%nat by lia. rewrite e. cbn. field. assumption.
Qed.
Example C40_ex : exists r, outcome (psfFitting ex_solver ex_inv ex_model ex_image ex_x0 ex_args) = Ok r /\
  tried (psfFitting ex_solver ex_inv ex_model ex_image ex_x0 ex_args) = [[0; 0; 0; 1 / 2; 0; 0; 0]] /\ r_x r = [0; 0; 0; 1 / 4; 0; 0; 0] /\
  px (r_sky r) 0 0 = 0 /\ px (r_sky r) 1 1 = 2 /\ px (r_fit r) 1 1 = 3 / 2 /\ r_xpsf r = [0; 0; 0; 1; 0; 0; 0] /\
  (exists e, r_xerr r = Ok e /\ nth 3 e 0 > 0).
Proof.
  assert (LO : img_min ex_image = Ok (-1)).
  { unfold img_min, list_min, pixels. cbn. f_equal. unfold Rmin. repeat destruct (Rle_dec _ _); lra. }
  unfold outcome, tried, psfFitting. cbn [f_weights f_norm f_fixed f_trf f_bounds ex_args bind]. rewrite LO. cbn [bind].
  destruct (Rlt_dec (-1) 0) as [_|]; [|lra]. set (im := img_map _ ex_image).
  assert (IS : img_sum im = 6) by (unfold img_sum; cbn; lra).
  assert (NI : normalizeImage im 1 = Ok (img_map (fun v => v / 6) im, PScalar 6)).
  { unfold normalizeImage. destruct (Req_EM_T 1 0) as [|_]; [lra|]. destruct (Req_EM_T 1 1) as [_|]; [|lra]. unfold img_div. rewrite IS. destruct (Req_EM_T 6 0); [lra|]. reflexivity. }
  rewrite NI. cbn [bind Nat.eqb length ex_x0 map].
  assert (CV : exists v, cost ex_model ex_args (img_map (fun _ => 1) ex_image) (img_map (fun v => v / 6) im) (PScalar 6) [0; 0; 0; 1 / 2; 0; 0; 0] = Ok v /\ lsum (map (fun r => r ^ 2) v) > 0).
  { unfold cost, sat_over. cbn [p_call ex_model bind p_sat]. destruct (Rlt_dec 0 6); [|lra]. cbn [bind]. cbn. unfold neg_pixel, pixels. cbn. destruct (Rlt_dec 1 0); [lra|]. cbn. eexists. split; [reflexivity|]. rewrite sqrt_1. unfold lsum. cbn. lra. }
  destruct CV as (v & CV & VP).
  match goal with |- context [input2mini ?a ?b] => change (input2mini a b) with (Ok [1 / 2]) end. cbn [bind].
  match goal with |- context [get_bounds ?a ?b ?c] => change (get_bounds a b c) with (Ok ([NegInf], [PosInf])) end. cbn [bind].
  change (bounds_ok ([NegInf], [PosInf]) [1 / 2]) with true. cbn [bind fst snd ex_solver run].
  match goal with |- context [mini2input ?a ?b false [1 / 2]] => change (mini2input a b false [1 / 2]) with (Ok [0; 0; 0; 1 / 2; 0; 0; 0]) end. cbn [bind]. rewrite CV. cbn [bind run fst snd].
  match goal with |- context [mini2input ?a ?b false [1 / 4]] => change (mini2input a b false [1 / 4]) with (Ok [0; 0; 0; 1 / 4; 0; 0; 0]) end. cbn [bind].
  unfold sat_over. cbn [p_call ex_model bind p_sat p_inst]. destruct (Rlt_dec 0 6); [|lra]. cbn [bind imageModel nd_shape length fst]. change (rows im) with 2%nat. change (cols im) with 2%nat. change (cols (img_map (fun v => v / 6) im)) with 2%nat.
  cbn [nd_to_img nd_shape Nat.eqb andb bind nd_at]. unfold unnormalizeImage. destruct (Req_EM_T 1 0) as [|_]; [lra|]. destruct (Req_EM_T 1 2) as [|_]; [lra|]. cbn [bind].
  match goal with |- context [psf_params ?a ?b] => change (psf_params a b) with (Ok [0; 0; 0; 1; 0; 0; 0]) end. cbn [bind].
  eexists. split; [reflexivity|]. cbn [r_x r_sky r_fit r_xpsf r_xerr].
  split; [reflexivity|]. split; [reflexivity|]. split; [cbn; lra|]. split; [cbn; lra|]. split; [cbn; lra|]. split; [reflexivity|].
  unfold error_bars, confidence_interval, ex_inv. cbn [gram px rows cols rsum Nat.eqb andb]. destruct (Req_EM_T _ 0); [lra|]. unfold rdiv. cbn [INR]. destruct (Req_EM_T _ 0); [lra|]. cbn [bind].
  eexists. split; [reflexivity|]. cbn. unfold stored. cbn [all_ints forallb andb].
  apply Rmult_lt_0_compat; [|lra]. apply sqrt_lt_R0. apply Rabs_pos_lt. apply Rmult_integral_contrapositive_currified; [apply Rinv_neq_0_compat; lra|]. unfold Rdiv. apply Rmult_integral_contrapositive_currified; [|apply Rinv_neq_0_compat; lra].
  apply Rgt_not_eq. exact VP.
Qed.
Example C40_ex_bounds : respects_bounds (fun y0 _ => Ask y0 (fun v => Stop y0 v (mkImg 0 0 (fun _ _ => 0)))) /\ evaluates ex_solver.
Proof. split; [intros y0 b H; constructor; [exact H|intros v; constructor; exact H]|intros y0 b; unfold ex_solver; eauto]. Qed.

(** C40: when the normal matrix is singular, whatever the fit, the error bars are -1 for every
    parameter and the fit still returns. *)
Theorem C40_singular : forall solver m image x0 o r, outcome (psfFitting solver (fun _ => None) m image x0 o) = Ok r ->
  r_xerr r = Ok (map (fun _ => -1) (r_x r)).
Proof.
  intros solver m image x0 o r H. destruct (fit_ok _ _ _ _ _ _ _ H) as (lo & w & im & imn & p & x & fv & j & y & _ & _ & _ & _ & _ & _ & _ & Hx & _ & _ & _ & _ & He). rewrite He, Hx. reflexivity.
Qed.
Print Assumptions C40_singular.
