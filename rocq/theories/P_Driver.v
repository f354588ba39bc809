(** Property C101: the atmosphere used by the reconstructor, and the stretching of the
    altitudes seen from the guide star. *)
From Coq Require Import Reals List Arith ZArith Lia Lra Psatz Sorting.Sorted Permutation.
From Verif Require Import Base_Py M_Image M_Tools S_Tools L_Tools L_Tools2 P_Tools M_Atmo S_Atmo L_Atmo P_Atmo M_Sensor M_Source M_Freq L_Freq M_Metric M_Driver.
Import ListNotations.
Open Scope R_scope.

(** ** Specification vocabulary *)
(** smallest and largest element of a list *)
Definition least (m : R) (l : list R) : Prop := In m l /\ forall x, In x l -> m <= x.
Definition greatest (m : R) (l : list R) : Prop := In m l /\ forall x, In x l -> x <= m.
(** n equally spaced values from lo to hi (lo alone when n = 1) *)
Definition ramp (lo hi : R) (n : nat) (l : list R) : Prop :=
  length l = n /\ (n = 1%nat -> l = [lo]) /\
  ((2 <= n)%nat -> forall i, (i < n)%nat -> nth_error l i = Some (lo + INR i * ((hi - lo) / INR (n - 1)))).
(** An AO system with a regular atmosphere: positive wavelength, r0 and weights,
    one altitude, wind speed and wind direction per layer, one outer scale. *)
Definition regular (ao : aosys) : Prop :=
  exists vs ds L, a_v (ao_atm ao) = Lst vs /\ a_d (ao_atm ao) = Lst ds /\ a_L0 (ao_atm ao) = LNum L /\
  valid_profile (a_wvl (ao_atm ao)) (a_r0 (ao_atm ao)) (a_w (ao_atm ao)) (a_h (ao_atm ao)) (Lst vs) (Lst ds) /\
  (forall h, In h (a_h (ao_atm ao)) -> 0 <= h).

(** ** Lemmas *)
Lemma bindE {A B} (r : result A) (f : A -> result B) b : bind r f = Ok b -> exists a, r = Ok a /\ f a = Ok b.
Proof. destruct r; cbn; [eauto|discriminate]. Qed.
Tactic Notation "bnd" hyp(H) ident(x) ident(E) := apply bindE in H; destruct H as (x & E & H).

Lemma fold_min l : forall x, least (fold_left Rmin l x) (x :: l).
Proof.
  induction l as [|y l IH]; intros x; cbn [fold_left]. { split; [left; reflexivity|]. intros z [<-|[]]. lra. }
  destruct (IH (Rmin x y)) as [I M]. split.
  - destruct I as [I|I]; [|right; right; exact I]. rewrite <- I. unfold Rmin. destruct (Rle_dec x y); [left; reflexivity|right; left; reflexivity].
  - intros z [<-|[<-|Hz]]; [| |apply M; right; exact Hz].
    + apply Rle_trans with (Rmin x y); [apply M; left; reflexivity|apply Rmin_l].
    + apply Rle_trans with (Rmin x y); [apply M; left; reflexivity|apply Rmin_r].
Qed.
Lemma fold_max l : forall x, greatest (fold_left Rmax l x) (x :: l).
Proof.
  induction l as [|y l IH]; intros x; cbn [fold_left]. { split; [left; reflexivity|]. intros z [<-|[]]. lra. }
  destruct (IH (Rmax x y)) as [I M]. split.
  - destruct I as [I|I]; [|right; right; exact I]. rewrite <- I. unfold Rmax. destruct (Rle_dec x y); [right; left; reflexivity|left; reflexivity].
  - intros z [<-|[<-|Hz]]; [| |apply M; right; exact Hz].
    + apply Rle_trans with (Rmax x y); [apply Rmax_l|apply M; left; reflexivity].
    + apply Rle_trans with (Rmax x y); [apply Rmax_r|apply M; left; reflexivity].
Qed.
Lemma linspace_ramp lo hi n : ramp lo hi n (linspace lo hi n).
Proof.
  split; [apply linspace_length|]. split.
  - intros ->. reflexivity.
  - intros Hn i Hi. rewrite linspace_nth by exact Hi. destruct (Nat.eqb_spec n 1); [lia|reflexivity].
Qed.
Lemma wind_line_spec l n v : wind_line (Lst l) n = Ok v -> exists lo hi, least lo l /\ greatest hi l /\ ramp lo hi n v.
Proof.
  destruct l as [|x l]; cbn; [discriminate|]. intros H. apply Ok_inj in H. subst v.
  exists (fold_left Rmin l x), (fold_left Rmax l x). split; [apply fold_min|]. split; [apply fold_max|]. apply linspace_ramp.
Qed.
Lemma wind_line_ok l n : l <> [] -> exists v, wind_line (Lst l) n = Ok v /\ length v = n.
Proof. destruct l; [congruence|]. intros _. eexists. split; [reflexivity|]. apply linspace_length. Qed.

(** what initComputations leaves in the model, step by step *)
Lemma init_inv nair f ao ao' dr : initComputations nair f ao = Ok (ao', Some dr) ->
  ao_error ao = false /\ exists g st m s nv a' m' w0,
  guide ao = Ok (g, st) /\ pyindex (so_wvl g) 0 = Ok w0 /\ nair (f_wvlRef f) = Ok (dr_n_ref dr) /\ nair w0 = Ok (dr_n_gs dr) /\
  modelled ao g st = Ok (m, s) /\
  fov_check (f_kc f) (a_wvl (ao_atm ao)) (f_ps f) (f_nOtf f) = Ok tt /\
  noise_of ao g (f_wvlRef f) = Ok nv /\ set_wvl (ao_atm ao) (f_wvlRef f) = Ok a' /\ set_wvl m (f_wvlRef f) = Ok m' /\
  nv <> [] /\ rdiv (lsum nv / INR (length nv)) ((2 * f_kcMax f) ^ 2) = Ok (dr_Wn dr) /\
  ao' = mkAO (ao_error ao) a' (ao_lgs ao) (ao_ngs ao) (ao_nRec ao) (ao_wfs ao) (NoiseArr nv) /\
  dr_gs dr = g /\ dr_nGs dr = so_nSrc g /\ dr_stretch dr = st /\ dr_stretch_mod dr = s /\ dr_mod dr = m'.
Proof.
  unfold initComputations. destruct (ao_error ao); [discriminate|]. intros H. split; [reflexivity|].
  bnd H gs E1. destruct gs as [g st]. cbn [fst snd] in H. bnd H n1 E2. bnd H w0 E3. bnd H n2 E4. bnd H ms E5. destruct ms as [m s]. cbn [fst snd] in H.
  bnd H u E6. destruct u. bnd H nv E7. bnd H a' E8. bnd H m' E9. bnd H Wn E10. apply Ok_inj in H. injection H as <- <-.
  exists g, st, m, s, nv, a', m', w0. cbn. destruct nv; [discriminate|]. repeat split; try assumption. discriminate.
Qed.

Lemma wvlRef_pos_of nair f ao ao' dr : 0 < f_wvlRef f -> regular ao -> initComputations nair f ao = Ok (ao', Some dr) ->
  a_wvl (ao_atm ao') = f_wvlRef f /\ a_wvl (dr_mod dr) = f_wvlRef f.
Proof.
  intros Hw (vs & ds & L & Ev & Ed & EL & V & Hh) H. destruct (init_inv _ _ _ _ _ H) as (_ & g & st & m & s & nv & a' & m' & w0 & _ & _ & _ & _ & Hm & _ & _ & Ha & Hm' & _ & _ & -> & _ & _ & _ & _ & ->).
  destruct V as (Vw & Vr & _). rewrite set_wvl_val in Ha by assumption. apply Ok_inj in Ha. subst a'. cbn [ao_atm a_wvl]. split; [reflexivity|].
  unfold set_wvl in Hm'. bnd Hm' q Q. bnd Hm' p P. apply Ok_inj in Hm'. subst m'. reflexivity.
Qed.

(** ** The modelled atmosphere *)
(** C101: with fewer reconstructed layers than turbulent layers, the reconstructor uses that
    number of layers; their total strength is the one of the atmosphere and (two layers or more)
    so is the integral of h^(5/3); one layer alone is put on the ground. Their wind speeds and
    directions are equally spaced from the smallest to the largest value of the profile. Both
    atmospheres end at the reference wavelength, with the same r0 and outer scale. *)
Theorem C101_modelled : forall nair f ao ao' dr n,
  0 < f_wvlRef f -> regular ao -> ao_nRec ao = Some n -> (1 <= n < length (a_w (ao_atm ao)))%nat ->
  initComputations nair f ao = Ok (ao', Some dr) ->
  let a := ao_atm ao in let m := dr_mod dr in
  length (a_w m) = n /\ length (a_h m) = n /\ length (a_layers m) = n /\
  total (a_w m) = total (a_w a) /\
  ((2 <= n)%nat -> moment (5 / 3) (combine (a_w m) (a_h m)) = moment (5 / 3) (combine (a_w a) (a_h a))) /\
  (n = 1%nat -> a_h m = [0]) /\
  (exists vs vm lo hi, a_v a = Lst vs /\ a_v m = Lst vm /\ least lo vs /\ greatest hi vs /\ ramp lo hi n vm) /\
  (exists ds dm lo hi, a_d a = Lst ds /\ a_d m = Lst dm /\ least lo ds /\ greatest hi ds /\ ramp lo hi n dm) /\
  a_wvl m = f_wvlRef f /\ a_wvl (ao_atm ao') = f_wvlRef f /\
  a_r0 m = a_r0 a * Rpower (f_wvlRef f / a_wvl a) (6 / 5) /\ a_r0 (ao_atm ao') = a_r0 m /\ a_L0 m = a_L0 a.
Proof.
  intros nair f ao ao' dr n Hw (vs & ds & L & Ev & Ed & EL & V & Hh) Hn Hr H a m.
  destruct (init_inv _ _ _ _ _ H) as (_ & g & st & m0 & s & nv & a' & m' & w0 & _ & _ & _ & _ & Hm & _ & _ & Ha & Hm' & _ & _ & -> & _ & _ & _ & _ & Edm).
  fold m in Edm. subst m. rewrite Edm.
  unfold modelled in Hm. rewrite Hn in Hm. destruct (Nat.ltb_spec n (length (a_w (ao_atm ao)))); [|lia].
  bnd Hm e E1. bnd Hm v E2. bnd Hm d E3. bnd Hm s' E4. bnd Hm mm E5. apply Ok_inj in Hm. injection Hm as -> ->.
  destruct V as (Vw & Vr & Vn & Vp & Vh & Vv & Vd). fold a in Vw, Vr, Vn, Vp, Vh, E1, E2, E3, E5, Ha, Hh, Ev, Ed, EL, Hr |- *.
  destruct (C05_eqLayers (5/3) (a_w a) (a_h a) n ltac:(lra) ltac:(congruence) ltac:(lia) ltac:(lia) Vp Hh) as (c' & h' & segs & E & Lc & Lh & Ls & Cc & Nn & K & T & M & SV).
  rewrite E in E1. apply Ok_inj in E1. subst e. cbn [fst snd] in *.
  assert (Pc : forall x, In x c' -> 0 < x).
  { intros x Hx. destruct (In_nth_error _ _ Hx) as [i Hi].
    assert (Hil : (i < n)%nat) by (rewrite <- Lc; apply nth_error_Some; congruence).
    destruct (nth_error segs i) as [sg|] eqn:Es; [|apply nth_error_None in Es; lia].
    destruct (nth_error h' i) as [ai|] eqn:Eh; [|apply nth_error_None in Eh; lia].
    destruct (SV i sg x ai Es Hi Eh) as (Ex & _). subst x.
    assert (Hs : sg <> []) by (apply Nn; apply nth_error_In with i; exact Es).
    assert (Hall : forall y, In y sg -> 0 < fst y).
    { intros y Hy. apply Vp. assert (In y (concat segs)) by (apply in_concat; exists sg; split; [apply nth_error_In with i; exact Es|exact Hy]).
      rewrite Cc in H1. destruct y as [y1 y2]. apply in_combine_l in H1. exact H1. }
    clear -Hs Hall. unfold weight. destruct sg as [|y sg]; [congruence|]. cbn [map total].
    assert (0 <= total (map fst sg)).
    { induction sg as [|z sg IH]; cbn [map total]; [lra|]. assert (0 < fst z) by (apply Hall; right; left; reflexivity).
      assert (0 <= total (map fst sg)); [|lra]. apply IH; [discriminate|]. intros w [Hw|Hw]; apply Hall; [left; exact Hw|right; right; exact Hw]. }
    assert (0 < fst y) by (apply Hall; left; reflexivity). lra. }
  set (hm := if (n =? 1)%nat then [0] else h') in *.
  assert (Lhm : length hm = n). { unfold hm. destruct (Nat.eqb_spec n 1); [cbn; congruence|exact Lh]. }
  rewrite Ev in E2. rewrite Ed in E3.
  destruct (wind_line_spec _ _ _ E2) as (lo & hi & W1 & W2 & W3).
  destruct (wind_line_spec _ _ _ E3) as (lo' & hi' & X1 & X2 & X3).
  rewrite EL in E5. cbn [L0_arg] in E5. rewrite atmosphere_val in E5.
  2:{ split; [exact Vw|]. split; [exact Vr|]. split; [intros ->; cbn in Lc; lia|]. split; [exact Pc|]. split; [congruence|].
      split; [destruct W3 as [W3 _]; congruence|destruct X3 as [X3 _]; congruence]. }
  apply Ok_inj in E5. subst m0. rewrite set_wvl_val in Hm' by (cbn; assumption). apply Ok_inj in Hm'. subst m'.
  rewrite set_wvl_val in Ha by assumption. apply Ok_inj in Ha. subst a'. cbn [ao_atm a_wvl a_r0 a_w a_h a_v a_d a_L0 a_layers].
  replace (12/10) with (6/5) by field.
  split; [exact Lc|]. split; [exact Lhm|]. split; [rewrite map_length, seq_length; exact Lc|]. split; [exact T|].
  split. { intros H2. unfold hm. destruct (Nat.eqb_spec n 1); [lia|exact M]. }
  split. { intros H2. unfold hm. destruct (Nat.eqb_spec n 1); [reflexivity|lia]. }
  split. { exists vs, v, lo, hi. auto. }
  split. { exists ds, d, lo', hi'. auto. }
  repeat split. symmetry. exact EL.
Qed.
Print Assumptions C101_modelled.

(** C101: otherwise (no number given, or at least as many as turbulent layers) the
    reconstructor uses the profile of the atmosphere itself. *)
Theorem C101_uncompressed : forall nair f ao ao' dr,
  0 < f_wvlRef f -> regular ao -> (forall n, ao_nRec ao = Some n -> (length (a_w (ao_atm ao)) <= n)%nat) ->
  initComputations nair f ao = Ok (ao', Some dr) ->
  let a := ao_atm ao in let m := dr_mod dr in
  a_w m = a_w a /\ a_h m = a_h a /\ a_v m = a_v a /\ a_d m = a_d a /\ a_L0 m = a_L0 a /\
  a_wvl m = a_wvl (ao_atm ao') /\ a_r0 m = a_r0 (ao_atm ao') /\ dr_stretch_mod dr = dr_stretch dr.
Proof.
  intros nair f ao ao' dr Hw (vs & ds & L & Ev & Ed & EL & V & Hh) Hn H a m.
  destruct (init_inv _ _ _ _ _ H) as (_ & g & st & m0 & s & nv & a' & m' & w0 & _ & _ & _ & _ & Hm & _ & _ & Ha & Hm' & _ & _ & -> & _ & _ & -> & -> & Edm).
  fold m in Edm. subst m. rewrite Edm.
  assert (Hk : (do m <- atmosphere (a_wvl a) (a_r0 a) (a_w a) (a_h a) (a_v a) (a_d a) (L0_arg (a_L0 a)); Ok (m, st)) = Ok (m0, s)).
  { unfold modelled in Hm. fold a in Hm. destruct (ao_nRec ao) as [n|]; [|exact Hm]. specialize (Hn n eq_refl). destruct (Nat.ltb_spec n (length (a_w a))); [fold a in Hn; lia|exact Hm]. }
  fold a in V, Ev, Ed, EL. rewrite Ev, Ed, EL in Hk. cbn [L0_arg] in Hk. rewrite atmosphere_val in Hk by exact V. cbn [bind] in Hk. apply Ok_inj in Hk. injection Hk as <- <-.
  destruct V as (Vw & Vr & _). rewrite set_wvl_val in Hm' by (cbn; assumption). apply Ok_inj in Hm'. subst m'.
  rewrite set_wvl_val in Ha by assumption. apply Ok_inj in Ha. subst a'. cbn. repeat split; congruence.
Qed.
Print Assumptions C101_uncompressed.

(** C101 refuted (the reconstructed layers keep the wind of the turbulence they stand for):
    the wind speed and direction of the modelled layers do not depend on which layer carries
    which wind. Two systems whose wind profiles are permutations of each other get the same
    modelled atmosphere; and a single modelled layer gets the SLOWEST wind of the profile. *)
Definition with_wind (ao : aosys) (vs : list R) : aosys :=
  let a := ao_atm ao in
  mkAO (ao_error ao) (mkAtmo (a_wvl a) (a_r0 a) (a_w a) (a_h a) (Lst vs) (a_d a) (a_L0 a) (a_layers a))
       (ao_lgs ao) (ao_ngs ao) (ao_nRec ao) (ao_wfs ao) (ao_noise ao).
Lemma least_unique l m m' : least m l -> least m' l -> m = m'.
Proof. intros [I M] [I' M']. apply Rle_antisym; [apply M; exact I'|apply M'; exact I]. Qed.
Lemma greatest_unique l m m' : greatest m l -> greatest m' l -> m = m'.
Proof. intros [I M] [I' M']. apply Rle_antisym; [apply M'; exact I|apply M; exact I']. Qed.
Lemma wind_line_perm l l' n : Permutation l l' -> wind_line (Lst l) n = wind_line (Lst l') n.
Proof.
  intros P. destruct l as [|x l], l' as [|y l'].
  - reflexivity.
  - apply Permutation_nil in P. discriminate.
  - apply Permutation_sym, Permutation_nil in P. discriminate.
  - cbn. f_equal. f_equal.
    + apply least_unique with (x :: l); [apply fold_min|]. destruct (fold_min l' y) as [I M]. split.
      * apply Permutation_in with (1 := Permutation_sym P). exact I.
      * intros z Hz. apply M. apply Permutation_in with (1 := P). exact Hz.
    + apply greatest_unique with (x :: l); [apply fold_max|]. destruct (fold_max l' y) as [I M]. split.
      * apply Permutation_in with (1 := Permutation_sym P). exact I.
      * intros z Hz. apply M. apply Permutation_in with (1 := P). exact Hz.
Qed.
Theorem C101_wind_pairing_refuted : forall nair f ao n vs vs',
  ao_nRec ao = Some n -> (n < length (a_w (ao_atm ao)))%nat -> Permutation vs vs' ->
  match initComputations nair f (with_wind ao vs), initComputations nair f (with_wind ao vs') with
  | Ok (_, Some d), Ok (_, Some d') => dr_mod d = dr_mod d'
  | Ok (_, None), Ok (_, None) => True
  | Err e, Err e' => e = e'
  | _, _ => False
  end.
Proof.
  intros nair f ao n vs vs' Hn Hlt P. unfold initComputations, with_wind. cbn [ao_error].
  destruct (ao_error ao); [exact I|]. unfold guide. cbn [ao_lgs ao_ngs ao_atm a_h].
  set (G := match ao_lgs ao with Some g => _ | None => _ end).
  assert (EG : forall k k' : source * sol R -> result (aosys * option drv),
    (forall x, match k x, k' x with Ok (_, Some d), Ok (_, Some d') => dr_mod d = dr_mod d' | Ok (_, None), Ok (_, None) => True | Err e, Err e' => e = e' | _, _ => False end) ->
    match bind G k, bind G k' with Ok (_, Some d), Ok (_, Some d') => dr_mod d = dr_mod d' | Ok (_, None), Ok (_, None) => True | Err e, Err e' => e = e' | _, _ => False end).
  { intros k k' Hk. destruct G; cbn; [apply Hk|reflexivity]. }
  apply EG. clear EG G. intros [g st]. cbn [fst snd].
  destruct (nair (f_wvlRef f)) as [n1|]; cbn [bind]; [|reflexivity].
  destruct (pyindex (so_wvl g) 0) as [w0|] eqn:Ew; cbn [bind]; [|reflexivity].
  destruct (nair w0) as [n2|]; cbn [bind]; [|reflexivity].
  unfold modelled. cbn [ao_atm ao_nRec ao_lgs a_wvl a_r0 a_w a_h a_v a_d a_L0]. rewrite Hn.
  destruct (Nat.ltb_spec n (length (a_w (ao_atm ao)))); [|lia].
  rewrite (wind_line_perm vs vs' n P).
  set (M := do e <- eqLayers _ _ _ _; _). destruct M as [[m s]|e]; cbn [bind fst snd]; [|reflexivity].
  destruct (fov_check _ _ _ _); cbn [bind]; [|reflexivity].
  unfold noise_of. cbn [ao_noise ao_wfs ao_atm a_r0].
  set (N := match ao_noise ao with NoiseNone => _ | NoiseList l => _ | NoiseArr l => _ end). destruct N as [nv|e]; cbn [bind]; [|reflexivity].
  unfold set_wvl. cbn [a_wvl a_r0 a_w a_h a_v a_d a_L0 a_layers].
  destruct (rdiv (f_wvlRef f) (a_wvl (ao_atm ao))) as [q|]; cbn [bind]; [|reflexivity].
  destruct (rpow q (12/10)) as [p|]; cbn [bind]; [|reflexivity].
  destruct (rdiv (f_wvlRef f) (a_wvl m)) as [q'|]; cbn [bind]; [|reflexivity].
  destruct (rpow q' (12/10)) as [p'|]; cbn [bind]; [|reflexivity].
  destruct (match nv with [] => _ | _ => _ end) as [Wn|]; cbn [bind]; reflexivity.
Qed.
Print Assumptions C101_wind_pairing_refuted.
Theorem C101_single_layer_refuted : forall nair f ao ao' dr vs,
  0 < f_wvlRef f -> regular ao -> ao_nRec ao = Some 1%nat -> (2 <= length (a_w (ao_atm ao)))%nat -> a_v (ao_atm ao) = Lst vs ->
  initComputations nair f ao = Ok (ao', Some dr) ->
  exists v, a_v (dr_mod dr) = Lst [v] /\ In v vs /\ forall x, In x vs -> v <= x.
Proof.
  intros nair f ao ao' dr vs Hw Hreg Hn HL Ev H.
  destruct (C101_modelled nair f ao ao' dr 1 Hw Hreg Hn ltac:(lia) H) as (_ & _ & _ & _ & _ & _ & (vs' & vm & lo & hi & E1 & E2 & [W1 W2] & _ & (_ & W3 & _)) & _).
  rewrite Ev in E1. injection E1 as <-. exists lo. rewrite E2, W3 by reflexivity. auto.
Qed.
Print Assumptions C101_single_layer_refuted.

(** ** The stretching factor *)
(** C101: a natural guide star does not stretch the altitudes; a laser guide star at altitude H
    above every layer multiplies the altitude h by H/(H-h) >= 1, for the layers of the
    atmosphere and for the modelled layers. *)
Lemma stretch1_val H h : 0 <= h < H -> stretch1 H h = Ok (H / (H - h)) /\ 1 <= H / (H - h).
Proof.
  intros Hh. unfold stretch1. split.
  - rewrite rdiv_ok. { f_equal. field. lra. } assert (h / H < 1). { apply Rmult_lt_reg_r with H; [lra|]. unfold Rdiv. rewrite Rmult_assoc, Rinv_l by lra. lra. } lra.
  - apply Rmult_le_reg_r with (H - h); [lra|]. unfold Rdiv. rewrite Rmult_assoc, Rinv_l by lra. lra.
Qed.
Theorem C101_stretch_ngs : forall nair f ao ao' dr, ao_lgs ao = None -> initComputations nair f ao = Ok (ao', Some dr) ->
  ao_ngs ao = Some (dr_gs dr) /\ dr_nGs dr = so_nSrc (dr_gs dr) /\ dr_stretch dr = Scal 1 /\ dr_stretch_mod dr = Scal 1.
Proof.
  intros nair f ao ao' dr Hl H. destruct (init_inv _ _ _ _ _ H) as (_ & g & st & m0 & s & nv & a' & m' & w0 & Hg & _ & _ & _ & Hm & _ & _ & Ha & Hm' & _ & _ & -> & -> & -> & -> & -> & _).
  unfold guide in Hg. rewrite Hl in Hg. destruct (ao_ngs ao) as [g'|]; [|discriminate]. apply Ok_inj in Hg. injection Hg as <- <-.
  split; [reflexivity|]. split; [reflexivity|]. split; [reflexivity|]. unfold modelled in Hm. rewrite Hl in Hm.
  destruct (ao_nRec ao) as [n|].
  - destruct (n <? length (a_w (ao_atm ao)))%nat.
    + bnd Hm e E1. bnd Hm v E2. bnd Hm d E3. cbn [bind] in Hm. bnd Hm mm E5. apply Ok_inj in Hm. congruence.
    + bnd Hm mm E5. apply Ok_inj in Hm. congruence.
  - bnd Hm mm E5. apply Ok_inj in Hm. congruence.
Qed.
Print Assumptions C101_stretch_ngs.
Lemma mapM_stretch H hs l : (forall h, In h hs -> 0 <= h < H) -> mapM (stretch1 H) hs = Ok l ->
  l = map (fun h => H / (H - h)) hs.
Proof.
  intros Hh E. rewrite (mapM_map _ (fun h => H / (H - h))) in E; [apply Ok_inj in E; congruence|].
  intros h Hi. apply stretch1_val. apply Hh. exact Hi.
Qed.
Theorem C101_stretch_lgs : forall nair f ao ao' dr g H,
  ao_lgs ao = Some g -> nth_error (so_h g) 0 = Some H -> 0 < H ->
  0 < f_wvlRef f -> regular ao -> (forall h, In h (a_h (ao_atm ao)) -> h < H) ->
  (forall n, ao_nRec ao = Some n -> (1 <= n)%nat) ->
  initComputations nair f ao = Ok (ao', Some dr) ->
  dr_gs dr = g /\ dr_nGs dr = so_nSrc g /\
  dr_stretch dr = Lst (map (fun h => H / (H - h)) (a_h (ao_atm ao))) /\
  dr_stretch_mod dr = Lst (map (fun h => H / (H - h)) (a_h (dr_mod dr))) /\
  (forall h, In h (a_h (ao_atm ao)) \/ In h (a_h (dr_mod dr)) -> 1 <= H / (H - h)).
Proof.
  intros nair f ao ao' dr g H Hl HH H0 Hw Hreg Hlow Hn1 HI.
  assert (Hreg' := Hreg). destruct Hreg' as (vs & ds & L & Ev & Ed & EL & V & Hh).
  destruct (init_inv _ _ _ _ _ HI) as (_ & g' & st & m0 & s & nv & a' & m' & w0 & Hg & _ & _ & _ & Hm & _ & _ & Ha & Hm' & _ & _ & Eao & Edg & Edn & Eds & Edm & Edmod).
  assert (PH : pyindex (so_h g) 0 = Ok H) by exact (pyindex_some (so_h g) 0 H HH).
  unfold guide in Hg. rewrite Hl, PH in Hg. cbn [bind] in Hg. destruct (Req_EM_T H 0) as [?|_]; [lra|].
  bnd Hg l El. apply Ok_inj in Hg. injection Hg as <- <-.
  assert (Rg : forall h, In h (a_h (ao_atm ao)) -> 0 <= h < H) by (intros h Hi; split; [apply Hh|apply Hlow]; exact Hi).
  pose proof (mapM_stretch H _ l Rg El) as Il.
  rewrite Edg, Edn, Eds. split; [reflexivity|]. split; [reflexivity|].
  rewrite Il.
  split; [reflexivity|].
  assert (Gmod : dr_stretch_mod dr = Lst (map (fun h => H / (H - h)) (a_h (dr_mod dr))) /\ forall h, In h (a_h (dr_mod dr)) -> 0 <= h < H).
  { destruct (ao_nRec ao) as [n|] eqn:En.
    - destruct (Nat.ltb_spec n (length (a_w (ao_atm ao)))) as [Hlt|Hge].
      + assert (M := Hm). unfold modelled in M. rewrite En, Hl, PH in M. destruct (Nat.ltb_spec n (length (a_w (ao_atm ao)))); [|lia].
        bnd M e E1. bnd M v E2. bnd M d E3. cbn [bind] in M. bnd M s' E4. bnd E4 l' E4'. apply Ok_inj in E4. subst s'. bnd M mm E5. apply Ok_inj in M. injection M as <- <-.
        destruct V as (Vw & Vr & Vn & Vp & Vh & Vv & Vd).
        destruct (C05_eqLayers (5/3) (a_w (ao_atm ao)) (a_h (ao_atm ao)) n ltac:(lra) ltac:(congruence) ltac:(apply Hn1; reflexivity) ltac:(lia) Vp Hh) as (c' & h' & segs & E & Lc & Lh & Ls & Cc & Nn & K & T & M2 & SV).
        rewrite E in E1. apply Ok_inj in E1. subst e. cbn [fst snd] in *.
        assert (Hrange : forall h, In h (if (n =? 1)%nat then [0] else h') -> 0 <= h < H).
        { destruct (n =? 1)%nat; [intros h [<-|[]]; lra|]. intros h Hi. destruct (In_nth_error _ _ Hi) as [i Ei].
          assert (Hil : (i < n)%nat) by (rewrite <- Lh; apply nth_error_Some; congruence).
          destruct (nth_error segs i) as [sg|] eqn:Es; [|apply nth_error_None in Es; lia].
          destruct (nth_error c' i) as [ci|] eqn:Ec; [|apply nth_error_None in Ec; lia].
          destruct (SV i sg ci h Es Ec Ei) as (_ & S0 & _ & _ & (x & Hx & Hxa)). split; [exact S0|].
          apply Rle_lt_trans with (snd x); [exact Hxa|]. apply Hlow.
          assert (Hin : In x (concat segs)) by (apply in_concat; exists sg; split; [apply nth_error_In with i; exact Es|exact Hx]).
          rewrite Cc in Hin. destruct x as [x1 x2]. apply in_combine_r in Hin. exact Hin. }
        assert (Eh : a_h (dr_mod dr) = if (n =? 1)%nat then [0] else h').
        { rewrite Edmod. unfold set_wvl in Hm'. bnd Hm' q Q. bnd Hm' p P. apply Ok_inj in Hm'. subst m'. cbn [a_h].
          unfold atmosphere in E5. bnd E5 p0 P0. bnd E5 ls LS. apply Ok_inj in E5. subst mm. reflexivity. }
        rewrite Eh. split; [|exact Hrange]. rewrite Edm. f_equal.
        rewrite (mapM_map _ (fun h => H / (H - h))) in E4'; [apply Ok_inj in E4'; congruence|].
        intros h Hi. unfold stretch1_mod. destruct (Req_EM_T H 0); [lra|]. apply stretch1_val. apply Hrange. exact Hi.
      + destruct (C101_uncompressed nair f ao ao' dr Hw Hreg) as (_ & U & _ & _ & _ & _ & _ & U2); [|exact HI|].
        { intros k Hk. rewrite En in Hk. injection Hk as <-. exact Hge. }
        rewrite U2, U, Eds. rewrite Il.
        split; [reflexivity|]. intros h Hi. split; [apply Hh|apply Hlow]; exact Hi.
    - destruct (C101_uncompressed nair f ao ao' dr Hw Hreg) as (_ & U & _ & _ & _ & _ & _ & U2); [intros k Hk; rewrite En in Hk; discriminate|exact HI|].
      rewrite U2, U, Eds. rewrite Il.
      split; [reflexivity|]. intros h Hi. split; [apply Hh|apply Hlow]; exact Hi. }
  destruct Gmod as [G1 G2]. split; [exact G1|]. intros h [Hi|Hi].
  - apply stretch1_val. split; [apply Hh|apply Hlow]; exact Hi.
  - apply stretch1_val. apply G2. exact Hi.
Qed.
Print Assumptions C101_stretch_lgs.
