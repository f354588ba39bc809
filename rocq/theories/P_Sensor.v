(** Properties C19, C20: wavefront-sensor noise and photon lists. *)
From Coq Require Import Reals List Arith ZArith Lia Lra Psatz String.
From Flocq Require Import Core.Raux.
From Verif Require Import Base_Py M_Tools L_Tools L_Tools2 M_Atmo S_Atmo L_Atmo M_Sensor S_Sensor L_Sensor.
Import ListNotations.
Open Scope R_scope.

(** C19: one non-negative variance per sensor. *)
Theorem C19_defined_nonnegative :
  forall (s : sensor) (r0 wvl : R), valid_sensor s -> 0 < r0 -> 0 < wvl ->
  exists vs, NoiseVariance s r0 wvl = Ok vs /\ length vs = nWfs s /\ Forall (fun v => 0 <= v) vs.
Proof.
  intros s r0 wvl (HL & HD & HO & HT) Hr Hw. unfold NoiseVariance. destruct (Rle_dec r0 0); [lra|]. destruct (Rle_dec wvl 0); [lra|].
  destruct (mapM_all (fun od => noise_one s (snd od) (fst od) r0 wvl) (fun v => 0 <= v) (combine (s_opt s) (s_det s))) as (vs & E & L & F).
  - intros [o d] Hx. cbn [fst snd]. assert (Id := in_combine_r _ _ _ _ Hx). assert (Io := in_combine_l _ _ _ _ Hx).
    apply noise_one_val; [apply HD; exact Id|apply HO; exact Io|]. destruct HT as [T|(T & Fq)]; [left; exact T|right; split; [exact T|apply Fq; exact Id]].
  - exists vs. split; [exact E|]. split; [|exact F]. rewrite L, combine_length, HL. unfold nWfs. lia.
Qed.
Print Assumptions C19_defined_nonnegative.
(** C19: more read-out noise, a larger excess factor, fewer photons, or worse
    seeing never reduce the variance of any sensor. *)
Theorem C19_monotone :
  forall (s1 s2 : sensor) (r1 r2 wvl : R) (v1 v2 : list R), valid_sensor s1 -> valid_sensor s2 -> noisier_sensor s1 s2 ->
  0 < wvl -> 0 < r2 -> r2 <= r1 ->
  NoiseVariance s1 r1 wvl = Ok v1 -> NoiseVariance s2 r2 wvl = Ok v2 -> Forall2 Rle v1 v2.
Proof.
  intros s1 s2 r1 r2 wvl v1 v2 (L1 & D1 & O1 & _) (L2 & D2 & O2 & _) (ET & EA & ES & EO & N) Hw H2 H12.
  unfold NoiseVariance. destruct (Rle_dec r1 0); [lra|]. destruct (Rle_dec r2 0); [lra|]. destruct (Rle_dec wvl 0); [lra|].
  rewrite <- EO in *. clear L1 L2 EO.
  revert D1 D2 N O1 v1 v2. generalize (s_opt s1) as os. generalize (s_det s1) as l1, (s_det s2) as l2.
  intros l1 l2 os D1 D2 N. revert os. induction N as [|d1 d2 l1 l2 Hd N IH]; intros os O1 v1 v2.
  - destruct os; cbn; intros E1 E2; apply Ok_inj in E1; apply Ok_inj in E2; subst; constructor.
  - destruct os as [|o os]; [cbn; intros E1 E2; apply Ok_inj in E1; apply Ok_inj in E2; subst; constructor|]. cbn [combine mapM fst snd].
    intros E1 E2. apply bindOk in E1. destruct E1 as (a & Ea & E1). apply bindOk in E1. destruct E1 as (r & Er & E1). apply Ok_inj in E1. subst v1.
    apply bindOk in E2. destruct E2 as (b & Eb & E2). apply bindOk in E2. destruct E2 as (t & Et & E2). apply Ok_inj in E2. subst v2. constructor.
    + eapply (noise_one_mono s1 s2 d1 d2 o r1 r2 wvl); try eassumption; [apply D1; left; reflexivity|apply D2; left; reflexivity|apply O1; left; reflexivity].
    + eapply IH; [intros x Hx; apply D1; right; exact Hx|intros x Hx; apply D2; right; exact Hx|intros x Hx; apply O1; right; exact Hx|exact Er|exact Et].
Qed.
Print Assumptions C19_monotone.
(** C19: invalid inputs are refused with ValueError. *)
Theorem C19_refused :
  forall (s : sensor) (r0 wvl : R),
  (r0 <= 0 \/ wvl <= 0 \/
   (exists d ds o os, s_det s = d :: ds /\ s_opt s = o :: os /\
     (d_ron d < 0 \/ nph_any_neg (d_nph d) = true \/ o_dsub o <= 0 \/
      (upper (s_type s) <> "SHACK-HARTMANN" /\ upper (s_type s) <> "PYRAMID")%string \/
      (shack_hartmann s /\ ~ known_algorithm (s_algo s) /\ s_settings s <> [] /\ valid_det d)))) ->
  NoiseVariance s r0 wvl = Err ValueError.
Proof.
  intros s r0 wvl H. unfold NoiseVariance. destruct (Rle_dec r0 0); [reflexivity|]. destruct (Rle_dec wvl 0); [reflexivity|].
  destruct H as [H|[H|(d & ds & o & os & Ed & Eo & H)]]; [lra|lra|]. rewrite Ed, Eo. cbn [combine mapM fst snd].
  replace (noise_one s d o r0 wvl) with (@Err R ValueError); [reflexivity|]. unfold noise_one.
  destruct (Rlt_dec (d_ron d) 0); [reflexivity|]. destruct (nph_any_neg (d_nph d)); [reflexivity|]. destruct (Rle_dec (o_dsub o) 0); [reflexivity|].
  destruct H as [H|[H|[H|[(H1 & H2)|(H1 & H2 & H3 & H4)]]]]; [lra|discriminate|lra| |].
  - destruct (String.eqb_spec (upper (s_type s)) "SHACK-HARTMANN"); [contradiction|]. destruct (String.eqb_spec (upper (s_type s)) "PYRAMID"); [contradiction|reflexivity].
  - unfold shack_hartmann in H1. rewrite H1, String.eqb_refl. destruct H4 as (Hp & _ & _ & _ & Hsp).
    destruct (geometry_val s d o r0 wvl Hp Hsp H3) as (m & w & _ & G & _). rewrite G. cbn [bind]. unfold factors, known_algorithm in *.
    destruct (String.eqb_spec (s_algo s) "cog"); [tauto|]. destruct (String.eqb_spec (s_algo s) "tcog"); [tauto|].
    destruct (String.eqb_spec (s_algo s) "wcog"); [tauto|]. destruct (String.eqb_spec (s_algo s) "qc"); [tauto|]. reflexivity.
Qed.
Print Assumptions C19_refused.
(** C19 refuted: a pyramid with the default (infinite) photon number has no
    finite variance (nan), a Shack-Hartmann has none at all (0). *)
Theorem C19_pyramid_infinite_flux_refuted :
  forall s d ds o os r0 wvl, pyramid s -> s_det s = d :: ds -> s_opt s = o :: os -> valid_det d -> d_nph d = NNum Inf ->
  0 < o_dsub o -> 0 < r0 -> 0 < wvl -> NoiseVariance s r0 wvl = Err NonFinite.
Proof.
  intros s d ds o os r0 wvl T Ed Eo (Hp & Hr & He & _) En Ho Hr0 Hw. unfold NoiseVariance.
  destruct (Rle_dec r0 0); [lra|]. destruct (Rle_dec wvl 0); [lra|]. rewrite Ed, Eo. cbn [combine mapM fst snd].
  replace (noise_one s d o r0 wvl) with (@Err R NonFinite); [reflexivity|]. unfold noise_one.
  destruct (Rlt_dec (d_ron d) 0); [lra|]. rewrite En. cbn [nph_any_neg xneg]. destruct (Rle_dec (o_dsub o) 0); [lra|].
  unfold pyramid in T. rewrite T. reflexivity.
Qed.
Print Assumptions C19_pyramid_infinite_flux_refuted.
(** C19: scaling to the science wavelength: the seeing used is the one of an
    atmosphere defined at 500 nm and set to the sensing wavelength, and the
    variance scales as the inverse square of the science wavelength. *)
Theorem C19_science_wavelength :
  forall s w1 w2 wfs r0 a v1, 0 < w1 -> 0 < w2 -> 0 < wfs -> 0 < r0 ->
  a_wvl a = 500 * / 10 ^ 9 -> a_r0 a = r0 -> noise_at_wavelength s w1 wfs r0 = Ok v1 ->
  exists b vn, set_wvl a wfs = Ok b /\ NoiseVariance s (a_r0 b) wfs = Ok vn /\ v1 = map (fun x => x * (wfs / w1) ^ 2) vn /\
    noise_at_wavelength s w2 wfs r0 = Ok (map (fun x => x * (w1 / w2) ^ 2) v1).
Proof.
  intros s w1 w2 wfs r0 a v1 H1 H2 Hf Hr Ea Er. unfold noise_at_wavelength.
  assert (P : 0 < 500 * / 10 ^ 9) by lra. rewrite rpow_pos by (apply Rdiv_lt_0_compat; assumption). cbn [bind].
  destruct (NoiseVariance s _ wfs) as [vn|] eqn:N; cbn [bind]; [|discriminate]. rewrite !rdiv_ok by lra. cbn [bind]. intros E; apply Ok_inj in E.
  eexists. exists vn. split; [rewrite set_wvl_val by (rewrite ?Ea; lra); reflexivity|]. cbn [a_r0].
  split; [rewrite Er, Ea; replace (12/10) with (6/5) by field; exact N|]. split; [symmetry; exact E|]. f_equal. subst v1. rewrite map_map.
  apply map_ext. intros x. field. lra.
Qed.
Print Assumptions C19_science_wavelength.

Definition ex_sensor (ron : R) (p : xR) : sensor :=
  mkSensor "Shack-Hartmann" "wcog" [5; 0; 0] [mkOpt 16 (1/2); mkOpt 8 1] [mkDet 500 8 [[0;0;0]] (NNum p) ron 1 1; mkDet 500 8 [[100;200]] (NNum p) ron 1 1].
Lemma ex_valid ron p : 0 <= ron -> xpos p -> valid_sensor (ex_sensor ron p).
Proof.
  intros Hr Hp. split; [reflexivity|]. split; [|split].
  - cbn. intros d [ <-|[ <-|[]]]; (split; [cbn; lra|]; split; [exact Hr|]; split; [cbn; lra|]; split; [exists p; split; [reflexivity|exact Hp]|]; cbn; do 3 eexists; reflexivity).
  - cbn. intros o [ <-|[ <-|[]]]; cbn; lra.
  - left. split; [reflexivity|]. split; [right; right; left; reflexivity|discriminate].
Qed.
Example C19_nonvacuous : exists v1 v2, NoiseVariance (ex_sensor 1 (Fin 100)) (1/5) (5 * / 10 ^ 7) = Ok v1 /\
  NoiseVariance (ex_sensor 2 (Fin 50)) (1/10) (5 * / 10 ^ 7) = Ok v2 /\ length v1 = 2%nat /\ Forall2 Rle v1 v2.
Proof.
  assert (V1 := ex_valid 1 (Fin 100) ltac:(lra) ltac:(cbn; lra)). assert (V2 := ex_valid 2 (Fin 50) ltac:(lra) ltac:(cbn; lra)).
  destruct (C19_defined_nonnegative _ (1/5) (5 * / 10 ^ 7) V1) as (v1 & E1 & L1 & _); [lra|lra|].
  destruct (C19_defined_nonnegative _ (1/10) (5 * / 10 ^ 7) V2) as (v2 & E2 & L2 & _); [lra|lra|].
  exists v1, v2. split; [exact E1|]. split; [exact E2|]. split; [exact L1|].
  eapply (C19_monotone _ _ (1/5) (1/10) (5 * / 10 ^ 7)); [exact V1|exact V2| |lra|lra|lra|exact E1|exact E2].
  repeat split. cbn. constructor; [|constructor; [|constructor]]; (split; [reflexivity|]; split; [reflexivity|]; split; [reflexivity|]; split; [cbn; lra|]; split; [cbn; lra|]; exists (Fin 100), (Fin 50); split; [reflexivity|]; split; [reflexivity|]; cbn; lra).
Qed.

Lemma skipn_nth {A} (l : list A) k x : nth_error l k = Some x -> skipn k l = x :: skipn (S k) l.
Proof. revert l. induction k as [|k IH]; intros [|y l]; cbn; try discriminate; [intros E; injection E as ->; reflexivity|]. intros E. rewrite (IH l E). reflexivity. Qed.
(** C20: a list with one entry per sensor (or more), and a single value for one
    sensor, are used as given; the caller's list is not changed. *)
Theorem C20_full_list_kept :
  forall (a : sargs) (l : list nphval) (s : sensor) (after : option (list nphval)),
  (length (sa_nL a) <= length l)%nat -> sensor_init a (AList l) = (Ok s, after) ->
  after = Some l /\ nWfs s = length (sa_nL a) /\ map d_nph (s_det s) = firstn (length (sa_nL a)) l.
Proof.
  intros a l s after HL. unfold sensor_init. destruct (mapM _ (seq 0 (length (sa_nL a)))) as [os|] eqn:EO; [|discriminate].
  intros E. apply (f_equal (fun x => (fst x, snd x))) in E. cbn [fst snd] in E. injection E as E1 <-.
  apply bindOk in E1. destruct E1 as (ds & Ed & E1). apply Ok_inj in E1. subst s.
  unfold complete in *. destruct (Nat.ltb_spec (length l) (length (sa_nL a))); [lia|]. split; [reflexivity|].
  assert (LO : length os = length (sa_nL a)). { apply mapM_len in EO. rewrite EO. apply seq_length. }
  split; [exact LO|]. cbn [s_det]. 
  assert (G : forall k n ds, (k + n <= length l)%nat ->
     mapM (fun i => do p <- pyindex l (Z.of_nat i); do c <- pyindex match sa_clock a with [] => sa_clock a | [c] => repeat c (length (sa_nL a)) | _ :: _ :: _ => sa_clock a end (Z.of_nat i);
        if (sa_nDisp a =? sa_nWvl a)%nat then Ok (mkDet (sa_ps a) (sa_fov a) (sa_spot a) p (sa_ron a) (sa_excess a) c) else Err ValueError) (seq k n) = Ok ds ->
     map d_nph ds = firstn n (skipn k l)).
  { clear. intros k n. revert k. induction n as [|n IH]; intros k ds HL; cbn [seq mapM]; intros E.
    - apply Ok_inj in E. subst ds. reflexivity.
    - apply bindOk in E. destruct E as (d & Ed & E). apply bindOk in E. destruct E as (r & Er & E). apply Ok_inj in E. subst ds.
      apply bindOk in Ed. destruct Ed as (p & Ep & Ed). apply bindOk in Ed. destruct Ed as (c & _ & Ed).
      destruct (_ =? _)%nat; [|discriminate]. apply Ok_inj in Ed. subst d. cbn [map d_nph].
      destruct (nth_error l k) as [x|] eqn:N; [|apply nth_error_None in N; lia].
      rewrite (pyindex_some _ _ _ N) in Ep. apply Ok_inj in Ep. subst x.
      rewrite (IH (S k) r); [|lia|exact Er]. rewrite (skipn_nth l k p N). reflexivity. }
  apply (G 0%nat _ ds); [lia|]. rewrite <- Ed. f_equal. destruct (sa_clock a) as [|c [|]]; reflexivity.
Qed.
Print Assumptions C20_full_list_kept.

(** Arguments for which the rest of the construction succeeds. *)
Definition buildable (a : sargs) : Prop :=
  length (sa_dsub a) = length (sa_nL a) /\ (length (sa_clock a) = 1 \/ length (sa_clock a) = length (sa_nL a))%nat /\ sa_nDisp a = sa_nWvl a.
Lemma clock_ok a i : buildable a -> (i < length (sa_nL a))%nat ->
  exists c, pyindex match sa_clock a with [] => sa_clock a | [c] => repeat c (length (sa_nL a)) | _ :: _ :: _ => sa_clock a end (Z.of_nat i) = Ok c.
Proof.
  intros (_ & Hc & _) Hi. destruct (sa_clock a) as [|c [|c' r]] eqn:E.
  - cbn in Hc. lia.
  - exists c. rewrite (pyindex_nth c) by (rewrite repeat_length; exact Hi). f_equal. apply nth_repeat.
  - eexists. apply (pyindex_nth 0). destruct Hc as [Hc|Hc]; [cbn in Hc; lia|lia].
Qed.
Lemma opt_ok a : buildable a -> exists os, mapM (fun i => do nl <- pyindex (sa_nL a) (Z.of_nat i); do d <- pyindex (sa_dsub a) (Z.of_nat i); Ok (mkOpt nl d)) (seq 0 (length (sa_nL a))) = Ok os.
Proof.
  intros (Hd & _). destruct (mapM_all (fun i => do nl <- pyindex (sa_nL a) (Z.of_nat i); do d <- pyindex (sa_dsub a) (Z.of_nat i); Ok (mkOpt nl d)) (fun _ => True) (seq 0 (length (sa_nL a)))) as (os & E & _).
  - intros i Hi. apply in_seq in Hi. rewrite (pyindex_nth 0%Z) by lia. cbn [bind]. rewrite (pyindex_nth 0) by lia. cbn [bind]. eexists. split; [reflexivity|exact I].
  - exists os. exact E.
Qed.
(** C20 refuted: a list that is too short. The caller's list object is always
    extended by one nested list of zeros. If two or more entries are missing the
    call raises IndexError; if exactly one is missing the call succeeds but the
    last sensor receives the list [0] as its photon number. *)
Theorem C20_short_list_refuted :
  forall (a : sargs) (l : list nphval), buildable a -> (length l < length (sa_nL a))%nat ->
  let l' := l ++ [NList (repeat (Fin 0) (length (sa_nL a) - length l))] in
  snd (sensor_init a (AList l)) = Some l' /\
  ((length l + 1 < length (sa_nL a))%nat -> fst (sensor_init a (AList l)) = Err IndexError) /\
  ((length l + 1 = length (sa_nL a))%nat -> exists s, fst (sensor_init a (AList l)) = Ok s /\
  map d_nph (s_det s) = l ++ [NList [Fin 0]]).
Proof.
  intros a l HB HL l'. destruct (opt_ok a HB) as (os & EO).
  assert (EC : complete (length (sa_nL a)) l = l'). { unfold complete. destruct (Nat.ltb_spec (length l) (length (sa_nL a))); [reflexivity|lia]. }
  assert (LL : length l' = (length l + 1)%nat) by (unfold l'; rewrite app_length; reflexivity).
  assert (V : snd (sensor_init a (AList l)) = Some l').
  { unfold sensor_init. rewrite EO. cbn [snd]. rewrite EC. reflexivity. }
  split; [exact V|]. split.
  - intros H. unfold sensor_init. rewrite EO. cbn [fst]. rewrite EC.
    replace (seq 0 (length (sa_nL a))) with (seq 0 (length l') ++ length l' :: seq (S (length l')) (length (sa_nL a) - length l' - 1)).
    2:{ replace (length (sa_nL a)) with (length l' + S (length (sa_nL a) - length l' - 1))%nat at 2 by lia. rewrite seq_app. reflexivity. }
    rewrite (mapM_Err_at _ _ _ _ IndexError); [reflexivity| |].
    + intros i Hi. apply in_seq in Hi. rewrite (pyindex_nth (NNum Inf)) by lia. cbn [bind].
      destruct (clock_ok a i HB) as (c & Ec); [lia|]. destruct HB as (_ & _ & EN).
      destruct (sa_clock a) as [|c0 [|c1 r]]; rewrite Ec; cbn [bind]; rewrite EN, Nat.eqb_refl; eexists; reflexivity.
    + unfold pyindex at 1. destruct (Z.ltb_spec (Z.of_nat (length l')) 0); [lia|]. destruct (Z.leb_spec (Z.of_nat (length l')) (Z.of_nat (length l'))); [|lia].
      rewrite Bool.orb_true_r. reflexivity.
  - intros H.
    assert (X : exists s, fst (sensor_init a (AList l')) = Ok s).
    { unfold sensor_init. rewrite EO. cbn [fst]. unfold complete. destruct (Nat.ltb_spec (length l') (length (sa_nL a))); [lia|].
      match goal with |- exists s, (do ds <- mapM ?f ?q; _) = _ => destruct (mapM_all f (fun _ => True) q) as (ds & Ed & _) end.
      - intros i Hi. apply in_seq in Hi. rewrite (pyindex_nth (NNum Inf)) by lia. cbn [bind].
        destruct (clock_ok a i HB) as (c & Ec); [lia|]. destruct HB as (_ & _ & EN).
        destruct (sa_clock a) as [|c0 [|c1 r]]; rewrite Ec; cbn [bind]; rewrite EN, Nat.eqb_refl; eexists; (split; [reflexivity|exact I]).
      - rewrite Ed. cbn [bind]. eexists. reflexivity. }
    destruct X as (s & X). exists s. 
    assert (S1 : fst (sensor_init a (AList l)) = fst (sensor_init a (AList l'))).
    { unfold sensor_init. rewrite EO. cbn [fst]. rewrite EC. unfold complete. destruct (Nat.ltb_spec (length l') (length (sa_nL a))); [lia|]. reflexivity. }
    split; [rewrite S1; exact X|].
    destruct (sensor_init a (AList l')) as [rs after] eqn:E. cbn [fst] in X. subst rs.
    apply C20_full_list_kept in E; [|lia]. destruct E as (_ & _ & E). rewrite E, firstn_all2 by lia. unfold l'.
    replace (length (sa_nL a) - length l)%nat with 1%nat by lia. reflexivity.
Qed.
Print Assumptions C20_short_list_refuted.
(** C20: history of calls on the same list object (for instance the default
    argument): the j-th identical call succeeds iff the list has grown enough. *)
Fixpoint calls (a : sargs) (l : list nphval) (j : nat) : list nphval :=
  match j with O => l | S k => match snd (sensor_init a (AList (calls a l k))) with Some l' => l' | None => [] end end.
Theorem C20_repeated_calls :
  forall (a : sargs) (l : list nphval) (j : nat), buildable a -> (length l <= length (sa_nL a))%nat ->
  length (calls a l j) = Nat.min (length l + j) (length (sa_nL a)) /\ firstn (length l) (calls a l j) = l /\
  ((exists s, fst (sensor_init a (AList (calls a l j))) = Ok s) <-> (length (sa_nL a) <= length l + j + 1)%nat).
Proof.
  intros a l j HB HL.
  assert (A : length (calls a l j) = Nat.min (length l + j) (length (sa_nL a)) /\ firstn (length l) (calls a l j) = l).
  { induction j as [|j (I1 & I2)]; cbn [calls]; [split; [lia|apply firstn_all]|].
    destruct (Nat.lt_ge_cases (length (calls a l j)) (length (sa_nL a))) as [H|H].
    - destruct (C20_short_list_refuted a (calls a l j) HB H) as (E & _). rewrite E. rewrite app_length. cbn [length]. split; [lia|].
      rewrite firstn_app. replace (length l - length (calls a l j))%nat with 0%nat by lia. cbn [firstn]. rewrite app_nil_r. exact I2.
    - destruct (opt_ok a HB) as (os & EO). unfold sensor_init. rewrite EO. cbn [snd]. unfold complete.
      destruct (Nat.ltb_spec (length (calls a l j)) (length (sa_nL a))); [lia|]. split; [lia|exact I2]. }
  destruct A as (A1 & A2). split; [exact A1|]. split; [exact A2|].
  destruct (Nat.lt_ge_cases (length (calls a l j)) (length (sa_nL a))) as [H|H].
  - destruct (C20_short_list_refuted a (calls a l j) HB H) as (_ & E1 & E2). split.
    + intros (s & Es). destruct (Nat.eq_dec (length (calls a l j) + 1) (length (sa_nL a))); [lia|]. rewrite E1 in Es by lia. discriminate.
    + intros H'. destruct E2 as (s & Es & _); [lia|]. exists s. exact Es.
  - split; [lia|]. intros _. destruct (opt_ok a HB) as (os & EO). unfold sensor_init. rewrite EO. cbn [fst]. unfold complete.
    destruct (Nat.ltb_spec (length (calls a l j)) (length (sa_nL a))); [lia|].
    match goal with |- exists s, (do ds <- mapM ?f ?q; _) = _ => destruct (mapM_all f (fun _ => True) q) as (ds & Ed & _) end.
    + intros i Hi. apply in_seq in Hi. rewrite (pyindex_nth (NNum Inf)) by lia. cbn [bind].
      destruct (clock_ok a i HB) as (c & Ec); [lia|]. destruct HB as (_ & _ & EN).
      destruct (sa_clock a) as [|c0 [|c1 r]]; rewrite Ec; cbn [bind]; rewrite EN, Nat.eqb_refl; eexists; (split; [reflexivity|exact I]).
    + rewrite Ed. cbn [bind]. eexists. reflexivity.
Qed.
Print Assumptions C20_repeated_calls.
Example C20_nonvacuous : let a := mkSargs 500 8 [[0;0;0]] 1 1 0 1 "Pyramid" [16%Z; 16%Z; 16%Z] [1/2; 1/2; 1/2] [1] "cog" [] in
  buildable a /\ fst (sensor_init a (AList [NNum Inf])) = Err IndexError /\ exists s, fst (sensor_init a (AList (calls a [NNum Inf] 1))) = Ok s.
Proof.
  cbv zeta. set (a := mkSargs _ _ _ _ _ _ _ _ _ _ _ _ _). assert (HB : buildable a) by (repeat split; left; reflexivity).
  split; [exact HB|]. split; [apply (C20_short_list_refuted a [NNum Inf] HB); cbn; lia|].
  apply (C20_repeated_calls a [NNum Inf] 1 HB); cbn; lia.
Qed.
