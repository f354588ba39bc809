(** C33 science field of view; C35 AO mode; C36 resolution of paths. *)
From Coq Require Import Reals List Arith ZArith String Ascii Bool Lra Lia Psatz.
From Flocq Require Import Core.Raux Core.Generic_fmt Core.Round_NE.
From Verif Require Import Base_Py M_Tools M_Atmo M_Sensor M_Source M_Config S_Config L_Tools2 L_Config L_Config2 L_Atmo P_Config.
Import ListNotations.
Open Scope R_scope.
Open Scope string_scope.

(** ** Field of view *)
(** smallest element of a list *)
Definition is_min (l : list R) (m : R) : Prop := In m l /\ forall x, In x l -> m <= x.
(** the number requested by the file: float(value) *)
Inductive requested (e : env) : pval -> R -> Prop :=
| rq_num v x : number v x -> requested e v x
| rq_str s x : e_float e s = Some (PNum x) -> requested e (PStr s) x.
Definition auto_request (x : R) : Prop := Rabs (x + 1) <= 1 / 10 ^ 8 + 1 / 10 ^ 5.
(** the requirements on an automatic field of view of n pixels: at least twice
    the corrected area lambda/(pitch), and twice the seeing *)
Record enough (wmin pmin px see : R) (n : Z) : Prop := {
  en_even : Z.even n = true;
  en_two : (2 <= n)%Z;
  en_corrected : 2 * (180 * 3600 * 1000 / PI * wmin / (pmin * px)) <= IZR n;
  en_seeing : 2 * see * 1000 / px <= IZR n }.

Lemma pymin_is l m : pymin l = Ok m -> is_min l m.
Proof.
  destruct l as [|x r]; [discriminate|]. cbn [pymin]. intros H. apply Ok_inj in H. subst m.
  revert x; induction r as [|y r IH]; intros x; cbn [fold_left].
  - split; [now left|]. intros z [<-|[]]. lra.
  - destruct (IH (Rmin x y)) as [I1 I2]. split.
    + destruct I1 as [I1|I1]; [rewrite <- I1|right; now right]. unfold Rmin. destruct (Rle_dec x y); [left|right; left]; reflexivity.
    + intros z [<-|[<-|Hz]]; [|  |apply I2; now right].
      * apply Rle_trans with (Rmin x y); [apply I2; now left|apply Rmin_l].
      * apply Rle_trans with (Rmin x y); [apply I2; now left|apply Rmin_r].
Qed.
Lemma to_float_requested e v x : to_float e v = Ok (PNum x) <-> requested e v x.
Proof.
  split.
  - destruct v; cbn [to_float]; intros H; try discriminate.
    + apply Ok_inj in H. injection H as <-. apply rq_num. destruct b; constructor.
    + apply Ok_inj in H. injection H as <-. apply rq_num. constructor.
    + apply Ok_inj in H. injection H as <-. apply rq_num. constructor.
    + destruct (e_float e s) eqn:E; [|discriminate]. apply Ok_inj in H. subst. now apply rq_str.
  - intros [v' x' Hv|s x' Hs]; [inversion Hv; reflexivity|]. cbn. now rewrite Hs.
Qed.
Lemma isclose_auto x : isclose_m1 x = true <-> auto_request x.
Proof. unfold isclose_m1, auto_request. destruct (Rle_dec _ _); split; intros; congruence || assumption || contradiction. Qed.

Theorem C33_fov_missing : forall e am satm a wvl ps pitch s, lookup s "FieldOfView" = None -> get_fov e am satm a wvl ps pitch s = Err ValueError.
Proof. intros. unfold get_fov, req. rewrite H. reflexivity. Qed.
(** a positive request is rounded up *)
Theorem C33_fov_positive : forall e am satm a wvl ps pitch s v x,
  lookup s "FieldOfView" = Some v -> requested e v x -> 0 < x ->
  exists n, get_fov e am satm a wvl ps pitch s = Ok n /\ IZR n - 1 < x <= IZR n.
Proof.
  intros e am satm a wvl ps pitch s v x Hl Hv Hx. exists (Zceil x). split.
  - unfold get_fov, req. rewrite Hl. cbn [bind]. apply to_float_requested in Hv. rewrite Hv. cbn [bind].
    destruct (isclose_m1 x) eqn:E.
    + apply isclose_auto in E. unfold auto_request in E. rewrite Rabs_pos_eq in E by lra. lra.
    + destruct (Rlt_dec 0 x); [reflexivity|contradiction].
  - pose proof (Zceil_ub x). pose proof (Zceil_lb x). lra.
Qed.
(** zero, negative numbers other than -1, NaN, None, lists and words are refused *)
Theorem C33_fov_refused : forall e am satm a wvl ps pitch s v,
  lookup s "FieldOfView" = Some v ->
  (exists x, requested e v x /\ x <= 0 /\ ~ auto_request x) \/ v = PNaN \/ v = PNone \/ (exists l, v = PList l) \/
  (exists w, v = PStr w /\ (e_float e w = None \/ e_float e w = Some PNaN)) ->
  get_fov e am satm a wvl ps pitch s = Err ValueError.
Proof.
  intros e am satm a wvl ps pitch s v Hl H. unfold get_fov, req. rewrite Hl. cbn [bind].
  destruct H as [(x & Hv & Hx & Hn)|[->|[->|[(l & ->)|(w & -> & [Hw|Hw])]]]]; try reflexivity.
  - apply to_float_requested in Hv. rewrite Hv. cbn [bind]. destruct (isclose_m1 x) eqn:E; [apply isclose_auto in E; contradiction|].
    destruct (Rlt_dec 0 x); [lra|reflexivity].
  - cbn [to_float]. rewrite Hw. reflexivity.
  - cbn [to_float]. rewrite Hw. reflexivity.
Qed.
(** -1: the smallest sufficient even field *)
Theorem C33_fov_automatic : forall e am satm a wvl ps pitch s v x n,
  lookup s "FieldOfView" = Some v -> requested e v x -> auto_request x ->
  get_fov e am satm a wvl ps pitch s = Ok n ->
  exists wmin pmin px see, is_min wvl wmin /\ is_min pitch pmin /\ is_min (vec ps) px /\
    ((exists vs s0, lookup satm "Seeing" = Some vs /\ number vs s0 /\ (0 < am -> see = s0 * Rpower am (3 / 5))) \/
     (lookup satm "Seeing" = None /\ see = 976 / 1000 * a_wvl a / a_r0 a * (3600 * 180 / PI))) /\
    enough wmin pmin px see n /\ forall m, enough wmin pmin px see m -> (n <= m)%Z.
Proof.
  intros e am satm a wvl ps pitch s v x n Hl Hv Ha H. unfold get_fov, req in H. rewrite Hl in H. cbn [bind] in H.
  apply to_float_requested in Hv. rewrite Hv in H. cbn [bind] in H. apply isclose_auto in Ha. rewrite Ha in H.
  unfold auto_fov in H. bnext H wmin E1. bnext H pmin E2. bnext H px E3. bnext H corr E4. bnext H see E5. bnext H fl E6. apply Ok_inj in H.
  unfold pydiv in E4, E6. destruct (Req_EM_T (pmin * px) 0) as [?|N1]; [discriminate|]. apply Ok_inj in E4.
  destruct (Req_EM_T px 0) as [?|N2]; [discriminate|]. apply Ok_inj in E6.
  apply pymin_is in E1, E2, E3.
  exists wmin, pmin, px, see. split; [assumption|]. split; [assumption|]. split; [assumption|]. split; [|split].
  - destruct (lookup satm "Seeing") as [vs|].
    + left. bnext E5 s0 F1. bnext E5 f F2. apply Ok_inj in E5. exists vs, s0. split; [reflexivity|]. split; [now apply as_num_ok|].
      intros Hp. rewrite rpow_pos in F2 by assumption. apply Ok_inj in F2. congruence.
    + right. split; [reflexivity|]. bnext E5 q F1. apply Ok_inj in E5. unfold rdiv in F1. destruct (Req_EM_T (a_r0 a) 0); [discriminate|]. apply Ok_inj in F1. subst. field. split; [apply PI_neq0|assumption].
  - set (M := Rmax corr (fl / 2)) in *. pose proof (Zceil_ub M) as U.
    assert (B : IZR (Zceil M * 2) <= IZR n) by (apply IZR_le; subst n; lia). rewrite mult_IZR in B.
    assert (C1 : corr <= M) by apply Rmax_l. assert (C2 : fl / 2 <= M) by apply Rmax_r.
    assert (EC : 180 * 3600 * 1000 / PI * wmin / (pmin * px) = corr) by (subst corr; unfold rad2mas; reflexivity).
    constructor.
    + subst n. destruct (Z.max_spec (Zceil M * 2) 2) as [[_ ->]|[_ ->]]; [reflexivity|]. rewrite Z.even_mul. cbn. apply orb_true_r.
    + subst n. lia.
    + rewrite EC. lra.
    + replace (2 * see * 1000 / px) with fl by (subst fl; reflexivity). lra.
  - intros m [M1 M2 M3 M4]. subst n. apply Z.max_lub; [|assumption].
    rewrite Z.even_spec in M1. destruct M1 as [k ->]. rewrite mult_IZR in M3, M4.
    assert (Zceil (Rmax corr (fl / 2)) <= k)%Z; [|lia]. apply Zceil_glb. apply Rmax_lub.
    + subst corr. unfold rad2mas. lra.
    + subst fl. lra.
Qed.
(** the camera of an accepted file: the rule above, times ceil(max/min) of the
    wavelengths when the expansion is requested *)
Theorem C33_camera_fov : forall e ar c y c', aoSystem e ar c = (Ok y, c') ->
  exists wvl f0, (exists src, science_stage ar c = Ok (wvl, src)) /\
    get_fov e (c_am (y_core y)) (sec c "atmosphere") (c_atm (y_core y)) wvl (k_ps (s_cam (y_sci y))) (dm_pitch (dd_dm (s_dms (y_sci y)))) (sec c "sensor_science") = Ok f0 /\
    (ar_expand ar = false \/ (length wvl <= 1)%nat -> k_fov (s_cam (y_sci y)) = f0) /\
    (ar_expand ar = true -> (1 < length wvl)%nat -> exists mx mn, pymax wvl = Ok mx /\ is_min wvl mn /\ k_fov (s_cam (y_sci y)) = (f0 * Zceil (mx / mn))%Z) /\
    entry c' "sensor_science" "FieldOfView" (PInt (k_fov (s_cam (y_sci y)))).
Proof.
  intros e ar c y c' H. destruct (ao_inv _ _ _ _ _ H) as [Hk Hc].
  apply conf_inv in Hc. destruct Hc as (wvl & sHO & hw & sLO & Hs & S4 & Hw & Ew & Htt & Hr & S5 & tf & Htf & Hd & sS & Hcam & Ec' & _).
  apply cam_inv in Hcam. destruct Hcam as (ps & psn & f0 & f & ntr & C1 & C2 & C3 & C4 & C5 & C6 & C7 & C8 & C9).
  exists wvl, f0. rewrite C8. cbn [k_fov k_ps]. split; [eauto|]. split; [exact C4|]. split; [|split].
  - intros Hor. unfold expand_fov in C5. destruct (ar_expand ar && (1 <? length wvl)%nat)%bool eqn:E; [|now apply Ok_inj in C5].
    apply andb_true_iff in E. destruct E as [E1 E2]. apply Nat.ltb_lt in E2. destruct Hor; [congruence|lia].
  - intros Hx Hl. unfold expand_fov in C5. rewrite Hx in C5. apply Nat.ltb_lt in Hl. rewrite Hl in C5. cbn [andb] in C5.
    bnext C5 mx F1. bnext C5 mn F2. exists mx, mn. split; [assumption|]. split; [now apply pymin_is|]. unfold rdiv in C5. destruct (Req_EM_T mn 0); [discriminate|]. now apply Ok_inj in C5.
  - apply entry_sec. subst c'. rewrite sec_assign, String.eqb_refl, C9, lookup_assign, String.eqb_refl. reflexivity.
Qed.

(** ** AO mode *)
(** source_init with lists of the same length: as many sources as zeniths *)
Lemma source_nsrc wvl zen az h g : length zen = length az -> source_init (Lst wvl) (Lst zen) (Lst az) h = Ok g -> so_nSrc g = length zen.
Proof.
  intros L H. unfold source_init in H. cbn [vec] in H. bnext H hh E. apply Ok_inj in H. subst g. cbn [so_nSrc]. unfold test1 in *. rewrite L in *.
  destruct (length az =? 1)%nat eqn:E1; destruct (length wvl =? 1)%nat; cbn [andb negb fst snd]; auto. now apply Nat.eqb_eq in E1.
Qed.
(** The documented decision, in terms of the file: a high-order guide star is a
    laser (finite altitude) unless its height is 0 and there is no low-order star. *)
Theorem C35_mode_of_file : forall e ar c y c', aoSystem e ar c = (Ok y, c') ->
  exists zs hv hh pitchs nl nrec,
    value c "sources_HO" "Zenith" (PList [PNum 0]) (PList zs) /\
    value c "sources_HO" "Height" (PNum 0) hv /\ number hv hh /\
    entry c "DM" "DmPitchs" (PList pitchs) /\
    value c "DM" "NumberReconstructedLayers" (PInt 10) nl /\ number nl nrec /\
    s_mode (y_sci y) =
      (if Req_EM_T hh 0 then if has_sec c "sources_LO" then
           (if (1 <? length zs)%nat then if (1 <? length pitchs)%nat then MCAO else if Rlt_dec 1 nrec then LTAO else GLAO else SLAO)
         else SCAO
       else if (1 <? length zs)%nat then if (1 <? length pitchs)%nat then MCAO else if Rlt_dec 1 nrec then LTAO else GLAO else SLAO).
Proof.
  intros e ar c y c' H. destruct (ao_inv _ _ _ _ _ H) as [Hk Hc].
  apply core_inv in Hk. destruct Hk as (S1 & S2 & S3 & Ht & Ham & Ha & g & Hho & Hlo).
  apply conf_inv in Hc. destruct Hc as (wvl & sHO & hw & sLO & Hs & S4 & Hw & Ew & Htt & Hr & S5 & tf & Htf & Hd & sS & Hcam & Ec' & Hm & _).
  apply ho_inv in Hho. destruct Hho as (wv & wl & zen & az & x & so & H1 & H2 & H3 & H4 & H5 & H6 & H7).
  apply dm_inv in Hd. destruct Hd as (p & pitch & dh & na & ic & ow & oa & oz & nrec & D1 & D2 & D3 & D4 & D5 & D6 & D7 & D8 & D9 & D10 & D11 & D12 & D13 & _).
  apply dm_init_lens in D13. destruct D13 as (_ & _ & _ & L4 & _).
  destruct H3 as (zs & Ez & Hz). destruct D2 as (pm & -> & Hp).
  exists zs, (opt (sec c "sources_HO") "Height" (PNum 0)), x, pm, (opt (sec c "DM") "NumberReconstructedLayers" (PInt 10)), nrec.
  split; [apply value_opt; now rewrite Ez|]. split; [now apply value_opt|]. split; [assumption|]. split; [now apply entry_sec|]. split; [now apply value_opt|]. split; [assumption|].
  rewrite Hm, L4, D12. rewrite (F2_len _ _ _ Hz), (F2_len _ _ _ Hp).
  assert (Eg : g_lgs (c_stars (y_core y)) = g_lgs g).
  { apply lo_inv in Hlo. destruct Hlo as [[_ ->]|(_ & ? & ? & ? & ? & ? & ? & ? & _ & _ & _ & _ & _ & _ & _ & _ & ->)]; reflexivity. }
  rewrite Eg.
  assert (NS : forall h, source_init (Lst wl) (Lst zen) (Lst az) h = Ok so -> so_nSrc so = length zen) by (intros h; now apply source_nsrc).
  destruct (Req_EM_T x 0), (has_sec c "sources_LO"); cbn [andb negb] in H7; destruct H7 as [H7 ->]; cbn [g_lgs ao_mode]; rewrite ?(NS _ H7); reflexivity.
Qed.
(** two finite-altitude guide stars, one mirror, one layer -> GLAO; etc.: the table *)
Theorem C35_mode_table : forall g nDM nrec,
  ao_mode None nDM nrec = SCAO /\
  ((so_nSrc g <= 1)%nat -> ao_mode (Some g) nDM nrec = SLAO) /\
  ((1 < so_nSrc g)%nat -> (1 < nDM)%nat -> ao_mode (Some g) nDM nrec = MCAO) /\
  ((1 < so_nSrc g)%nat -> (nDM <= 1)%nat -> 1 < nrec -> ao_mode (Some g) nDM nrec = LTAO) /\
  ((1 < so_nSrc g)%nat -> (nDM <= 1)%nat -> nrec <= 1 -> ao_mode (Some g) nDM nrec = GLAO).
Proof.
  intros g nDM nrec. cbn [ao_mode]. split; [reflexivity|].
  repeat split; intros; destruct (Nat.ltb_spec 1 (so_nSrc g)); try lia; try reflexivity; destruct (Nat.ltb_spec 1 nDM); try lia; try reflexivity;
    destruct (Rlt_dec 1 nrec); try lra; reflexivity.
Qed.

(** ** Resolution of paths *)
(** what the documentation says, one clause per case, in order of priority *)
Inductive resolves (isfile : string -> bool) (path root p3 : string) (tiptop : option string) : string -> Prop :=
| rs_empty : path = "" -> resolves isfile path root p3 tiptop ""
| rs_root : path <> "" -> root <> "" -> isfile (join root path) = true -> resolves isfile path root p3 tiptop (join root path)
| rs_p3 : path <> "" -> (root = "" \/ isfile (join root path) = false) -> prefix "aoSystem" (lstrip path) = true ->
    resolves isfile path root p3 tiptop (join p3 (lstrip path))
| rs_tiptop t : path <> "" -> (root = "" \/ isfile (join root path) = false) -> prefix "aoSystem" (lstrip path) = false ->
    tiptop = Some t -> t <> "" -> prefix "tiptop" (lstrip path) = true -> resolves isfile path root p3 tiptop (join t (lstrip path))
| rs_file : path <> "" -> (root = "" \/ isfile (join root path) = false) -> prefix "aoSystem" (lstrip path) = false ->
    (prefix "tiptop" (lstrip path) = false \/ tiptop = None \/ tiptop = Some "") ->
    isfile path = true -> resolves isfile path root p3 tiptop path
| rs_slash : path <> "" -> (root = "" \/ isfile (join root path) = false) -> prefix "aoSystem" (lstrip path) = false ->
    (prefix "tiptop" (lstrip path) = false \/ tiptop = None \/ tiptop = Some "") ->
    isfile path = false -> starts_slash path = true -> isfile (join p3 (lstrip path)) = true -> resolves isfile path root p3 tiptop (join p3 (lstrip path))
| rs_asis : path <> "" -> (root = "" \/ isfile (join root path) = false) -> prefix "aoSystem" (lstrip path) = false ->
    (prefix "tiptop" (lstrip path) = false \/ tiptop = None \/ tiptop = Some "") ->
    isfile path = false -> (starts_slash path = false \/ isfile (join p3 (lstrip path)) = false) -> resolves isfile path root p3 tiptop path.
Lemma lstrip_length a : (String.length (lstrip a) <= String.length a)%nat.
Proof. induction a as [|x r IH]; cbn [lstrip]; [lia|]. destruct (Ascii.eqb x "/"); cbn [String.length]; lia. Qed.
Lemma lstrip_slash path : starts_slash path = true -> String.eqb (lstrip path) path = false.
Proof.
  destruct path as [|x r]; cbn [starts_slash lstrip]; [discriminate|]. intros ->. apply String.eqb_neq. intros E.
  pose proof (lstrip_length r). rewrite E in H. cbn in H. lia.
Qed.
Theorem C36_paths_resolved : forall isfile path root p3 tiptop r,
  resolve_config_path isfile path root p3 tiptop = r <-> resolves isfile path root p3 tiptop r.
Proof.
  intros isfile path root p3 tiptop r. unfold resolve_config_path. split.
  - intros <-. destruct (String.eqb_spec path "") as [E|N]; [now apply rs_empty|]. cbv zeta.
    destruct (String.eqb_spec root "") as [ER|NR]; cbn [negb andb].
    + (* no root *)
      destruct (prefix "aoSystem" (lstrip path)) eqn:E1; [apply rs_p3; auto|].
      destruct (prefix "tiptop" (lstrip path)) eqn:E2.
      * destruct tiptop as [t|]; [destruct (String.eqb_spec t "") as [Et|Nt]|]; cbn [negb andb].
        -- subst t. destruct (isfile path) eqn:E3; [apply rs_file; auto|]. destruct (starts_slash path) eqn:E4; cbn [andb]; [rewrite (lstrip_slash _ E4); cbn [negb]; destruct (isfile (join p3 (lstrip path))) eqn:E5|]; [apply rs_slash|apply rs_asis|apply rs_asis]; auto.
        -- eapply rs_tiptop; eauto.
        -- destruct (isfile path) eqn:E3; [apply rs_file; auto|]. destruct (starts_slash path) eqn:E4; cbn [andb]; [rewrite (lstrip_slash _ E4); cbn [negb]; destruct (isfile (join p3 (lstrip path))) eqn:E5|]; [apply rs_slash|apply rs_asis|apply rs_asis]; auto.
      * rewrite andb_false_r. destruct (isfile path) eqn:E3; [apply rs_file; auto|]. destruct (starts_slash path) eqn:E4; cbn [andb]; [rewrite (lstrip_slash _ E4); cbn [negb]; destruct (isfile (join p3 (lstrip path))) eqn:E5|]; [apply rs_slash|apply rs_asis|apply rs_asis]; auto.
    + destruct (isfile (join root path)) eqn:EJ; [now apply rs_root|].
      destruct (prefix "aoSystem" (lstrip path)) eqn:E1; [apply rs_p3; auto|].
      destruct (prefix "tiptop" (lstrip path)) eqn:E2.
      * destruct tiptop as [t|]; [destruct (String.eqb_spec t "") as [Et|Nt]|]; cbn [negb andb].
        -- subst t. destruct (isfile path) eqn:E3; [apply rs_file; auto|]. destruct (starts_slash path) eqn:E4; cbn [andb]; [rewrite (lstrip_slash _ E4); cbn [negb]; destruct (isfile (join p3 (lstrip path))) eqn:E5|]; [apply rs_slash|apply rs_asis|apply rs_asis]; auto.
        -- eapply rs_tiptop; eauto.
        -- destruct (isfile path) eqn:E3; [apply rs_file; auto|]. destruct (starts_slash path) eqn:E4; cbn [andb]; [rewrite (lstrip_slash _ E4); cbn [negb]; destruct (isfile (join p3 (lstrip path))) eqn:E5|]; [apply rs_slash|apply rs_asis|apply rs_asis]; auto.
      * rewrite andb_false_r. destruct (isfile path) eqn:E3; [apply rs_file; auto|]. destruct (starts_slash path) eqn:E4; cbn [andb]; [rewrite (lstrip_slash _ E4); cbn [negb]; destruct (isfile (join p3 (lstrip path))) eqn:E5|]; [apply rs_slash|apply rs_asis|apply rs_asis]; auto.
  - intros H.
    assert (RT : forall A (x y : A), path <> "" -> (root = "" \/ isfile (join root path) = false) ->
       (if (negb (String.eqb root "") && isfile (join root path))%bool then x else y) = y).
    { intros A x y _ [->| ->]; [reflexivity|]. now rewrite andb_false_r. }
    assert (TT : forall A (x y : A), (prefix "tiptop" (lstrip path) = false \/ tiptop = None \/ tiptop = Some "") ->
       (if (match tiptop with Some t => negb (String.eqb t "") | None => false end && prefix "tiptop" (lstrip path))%bool then x else y) = y).
    { intros A x y [-> |[->| ->]]; [now rewrite andb_false_r|reflexivity|reflexivity]. }
    assert (PN : path <> "" -> String.eqb path "" = false) by (intros; now apply String.eqb_neq).
    destruct H as [-> | N NR EJ | N R1 E1 | t N R1 E1 Et Nt E2 | N R1 E1 T1 E3 | N R1 E1 T1 E3 E4 E5 | N R1 E1 T1 E3 E4]; [reflexivity| | | | | |]; rewrite (PN N); cbv zeta.
    + apply String.eqb_neq in NR. rewrite NR, EJ. reflexivity.
    + rewrite RT, E1 by assumption. reflexivity.
    + rewrite RT, E1 by assumption. subst tiptop. apply String.eqb_neq in Nt. rewrite Nt, E2. reflexivity.
    + rewrite RT, E1, TT, E3 by assumption. reflexivity.
    + rewrite RT, E1, TT, E3, E4, (lstrip_slash _ E4), E5 by assumption. reflexivity.
    + rewrite RT, E1, TT, E3 by assumption. destruct E4 as [E4|E4].
      * rewrite E4. reflexivity.
      * destruct (starts_slash path) eqn:E6; [|reflexivity]. rewrite (lstrip_slash _ E6), E4. reflexivity.
Qed.
(** an absolute path is joined to itself, whatever the root *)
Theorem C36_absolute_path_kept : forall isfile path root p3 tiptop,
  starts_slash path = true -> isfile path = true -> prefix "aoSystem" (lstrip path) = false -> prefix "tiptop" (lstrip path) = false ->
  resolve_config_path isfile path root p3 tiptop = path.
Proof.
  intros isfile path root p3 tiptop H1 H2 H3 H4. apply C36_paths_resolved.
  assert (N : path <> "") by (intros ->; discriminate).
  assert (J : join root path = path) by (unfold join; now rewrite H1).
  destruct (String.eqb_spec root "") as [E|NR].
  - subst. apply rs_file; auto.
  - assert (R1 : resolves isfile path root p3 tiptop (join root path)) by (apply rs_root; auto; now rewrite J). rewrite J in R1. exact R1.
Qed.
(** the resolved path is a file whenever one of the candidates is *)
Example resolve_ex :
  resolve_config_path (fun s => String.eqb s "/p3/data/pupil.fits") "/data/pupil.fits" "" "/p3" None = "/p3/data/pupil.fits" /\
  resolve_config_path (fun s => String.eqb s "/root/a.fits") "a.fits" "/root" "/p3" None = "/root/a.fits" /\
  resolve_config_path (fun _ => false) "aoSystem/data/a.fits" "" "/p3" None = "/p3/aoSystem/data/a.fits" /\
  resolve_config_path (fun _ => false) "tiptop/a.fits" "" "/p3" (Some "/t") = "/t/tiptop/a.fits".
Proof. repeat split; reflexivity. Qed.
(** the priority of the aoSystem prefix hides an existing absolute file *)
Theorem C36_existing_absolute_file_hidden_refuted :
  exists isfile path p3, starts_slash path = true /\ isfile path = true /\ resolve_config_path isfile path "" p3 None <> path.
Proof. exists (fun s => String.eqb s "/aoSystem/a.fits"), "/aoSystem/a.fits", "/p3". repeat split; discriminate. Qed.

Print Assumptions C33_fov_missing.
Print Assumptions C33_fov_positive.
Print Assumptions C33_fov_refused.
Print Assumptions C33_fov_automatic.
Print Assumptions C33_camera_fov.
Print Assumptions C35_mode_of_file.
Print Assumptions C35_mode_table.
Print Assumptions C36_paths_resolved.
Print Assumptions C36_absolute_path_kept.
Print Assumptions C36_existing_absolute_file_hidden_refuted.
