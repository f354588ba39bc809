(** Property C117: fitting a SPHERE image - initial guess, fixed parameters, row of the data base. *)
From Coq Require Import Reals List Arith ZArith Bool String Ascii Lia Lra Decimal DecimalString DecimalNat FinFun Permutation ListDec.
From Verif Require Import Base_Py Base_Sum M_Image L_Image2 M_Tools M_Sphere.
Import ListNotations.
Open Scope R_scope.

(** ** Column names *)
Lemma str_inj n m : str n = str m -> n = m.
Proof.
  unfold str. intros H. apply (f_equal NilEmpty.uint_of_string) in H. rewrite !NilEmpty.usu in H. injection H as H.
  rewrite <- (DecimalNat.Unsigned.of_to n), <- (DecimalNat.Unsigned.of_to m), H. reflexivity.
Qed.
Lemma app_inj (p a b : string) : (p ++ a = p ++ b)%string -> a = b.
Proof. induction p as [|c p IH]; cbn; [auto|]. intros H. injection H. exact IH. Qed.
Lemma prefix_app p s : String.prefix p (p ++ s) = true.
Proof. induction p as [|c p IH]; cbn; [destruct s; reflexivity|]. destruct (ascii_dec c c); [exact IH|contradiction]. Qed.
Lemma skipn_skipn {A} a b (l : list A) : skipn a (skipn b l) = skipn (b + a) l.
Proof. revert l. induction b as [|b IH]; intros [|x l]; cbn; rewrite ?skipn_nil; auto. Qed.
Lemma nodup_app {A} (l m : list A) : NoDup l -> NoDup m -> (forall x, In x l -> In x m -> False) -> NoDup (l ++ m).
Proof.
  induction l as [|x l IH]; cbn; [auto|]. intros H Hm D. inversion H as [|? ? H1 H2]; subst. constructor; [|apply IH; eauto].
  intros C. apply in_app_or in C. destruct C as [C|C]; [contradiction|]. apply (D x); auto.
Qed.
Lemma nodup_modes p n : NoDup (map (fun k => (p ++ str k)%string) (seq 0 n)).
Proof. apply FinFun.Injective_map_NoDup; [|apply seq_NoDup]. intros a b H. apply app_inj in H. now apply str_inj. Qed.
Lemma no_prefix p l : forallb (fun s => negb (String.prefix p s)) l = true -> forall n s, In s l -> In s (map (fun k => (p ++ str k)%string) (seq 0 n)) -> False.
Proof.
  intros H n s Hs Hm. rewrite forallb_forall in H. specialize (H s Hs). apply in_map_iff in Hm. destruct Hm as (k & <- & _). rewrite prefix_app in H. discriminate.
Qed.
Fixpoint distinct (l : list string) : bool := match l with [] => true | x :: r => negb (existsb (String.eqb x) r) && distinct r end.
Lemma nodup_dec (l : list string) : distinct l = true -> NoDup l.
Proof.
  induction l as [|x l IH]; cbn [distinct]; [constructor|]. intros H. apply andb_prop in H. destruct H as [H1 H2]. constructor; [|now apply IH].
  intros C. apply negb_true_iff in H1. rewrite <- not_true_iff_false, existsb_exists in H1. apply H1. exists x. split; [exact C|apply String.eqb_refl].
Qed.
(** The names of the columns are all different, for any number of modes. *)
Theorem C117_names : forall fit n, NoDup (define_database_colnames fit n) /\
  List.length (define_database_colnames fit n) = (if fit then 78 + 2 * n else 47)%nat.
Proof.
  intros [|] n; unfold define_database_colnames; [|split; [apply nodup_dec; reflexivity|reflexivity]]. split.
  - set (F := map (fun k => ("FIT MODE" ++ str k)%string) (seq 0 n)). set (E := map (fun k => ("ERR MODE" ++ str k)%string) (seq 0 n)).
    assert (NF : NoDup F) by apply nodup_modes. assert (NE : NoDup E) by apply nodup_modes.
    assert (FE : forall s, In s F -> In s E -> False).
    { intros s HF HE. apply in_map_iff in HF, HE. destruct HF as (k & <- & _). destruct HE as (j & HE & _). discriminate HE. }
    assert (CF : forall s, In s (base_names ++ fit_names ++ err_names ++ tail_names) -> In s F -> False) by (apply no_prefix; reflexivity).
    assert (CE : forall s, In s (base_names ++ fit_names ++ err_names ++ tail_names) -> In s E -> False) by (apply no_prefix; reflexivity).
    assert (NC : NoDup (base_names ++ fit_names ++ err_names ++ tail_names)) by (apply nodup_dec; vm_compute; reflexivity).
    assert (PC : NoDup ((base_names ++ fit_names ++ err_names ++ tail_names) ++ F ++ E)).
    { apply nodup_app; [exact NC|apply nodup_app; assumption|]. intros s HC HFE. apply in_app_or in HFE. destruct HFE; eauto. }
    eapply Permutation.Permutation_NoDup; [|exact PC]. fold F E.
    rewrite <- !app_assoc. apply Permutation.Permutation_app_head. apply Permutation.Permutation_app_head.
    rewrite (app_assoc err_names). etransitivity; [apply Permutation.Permutation_app_comm|]. rewrite <- app_assoc. apply Permutation.Permutation_app_head.
    etransitivity; [apply Permutation.Permutation_app_comm|]. rewrite <- app_assoc. apply Permutation.Permutation_app_head. apply Permutation.Permutation_app_comm.
  - rewrite !app_length, !map_length, !seq_length. cbn [List.length base_names fit_names err_names tail_names]. lia.
Qed.

(** ** Initial guess and fixed parameters *)
Theorem C117_guess : forall im wvl r0 SR nm t x, define_initial_guess im wvl r0 SR nm t = Ok x ->
  List.length x = (14 + nm)%nat /\
  nth 0 x 0 = match r0 with Some r => r | None => 16 / 100 * (wvl / (500 / 10 ^ 9)) ^ 2 end /\
  (forall s, SR = Some s -> 0 < s /\ exp (- nth 2 x 0) = s /\ (s <= 1 -> 0 <= nth 2 x 0)) /\
  (SR = None -> nth 2 x 0 = (2 * PI * (120 / 10 ^ 9) / wvl) ^ 2) /\
  [nth 1 x 1; nth 3 x 0; nth 4 x 0; nth 5 x 1; nth 6 x 0; nth 7 x 1; nth 8 x 1; nth 9 x 1; nth 11 x 1; nth 12 x 1; nth 13 x 1] = [0; 1 / 100; 1; 0; 13 / 10; 0; 0; 0; 0; 0; 0] /\
  (forall k, (14 <= k < 14 + nm)%nat -> nth k x 1 = 0) /\
  (t = 0 -> exists lo, img_min im = Ok lo /\ nth 10 x 0 = img_sum im - Rmin lo 0 * INR (rows im * cols im)) /\
  (t = 1 -> nth 10 x 0 = 1).
Proof.
  intros im wvl r0 SR nm t x H. unfold define_initial_guess in H.
  match type of H with bind ?s _ = _ => destruct s as [sg|] eqn:ES end; cbn [bind] in H; [|discriminate].
  destruct (img_min im) as [lo|] eqn:EL; cbn [bind] in H; [|discriminate]. set (nnz := if Rlt_dec lo 0 then _ else _) in H.
  destruct (normalizeImage nnz t) as [[r p]|] eqn:EN; cbn [bind] in H; [|discriminate]. apply Ok_inj in H. cbn [fst] in H. subst x.
  split; [rewrite app_length, repeat_length; reflexivity|]. split; [reflexivity|]. split; [|split; [|split; [reflexivity|split; [|split]]]].
  - intros s ->. destruct (Rle_dec s 0); [discriminate|]. apply Ok_inj in ES. cbn [app nth]. subst sg. split; [lra|]. split; [rewrite Ropp_involutive; apply exp_ln; lra|]. intros Hs.
    destruct (Req_dec s 1) as [ ->|]; [rewrite ln_1; lra|]. assert (ln s < ln 1) by (apply ln_increasing; lra). rewrite ln_1 in *. lra.
  - intros ->. destruct (Req_EM_T wvl 0); [discriminate|]. apply Ok_inj in ES. cbn [app nth]. now subst sg.
  - intros k [Hk1 Hk2]. rewrite app_nth2 by (cbn [List.length]; lia). cbn [List.length]. rewrite nth_indep with (d' := 0) by (rewrite repeat_length; lia). apply nth_repeat.
  - intros ->. exists lo. split; [reflexivity|]. cbn [app nth]. unfold normalizeImage in EN. destruct (Req_EM_T 0 0); [|contradiction]. apply Ok_inj in EN. injection EN as <- _. unfold nnz.
    destruct (Rlt_dec lo 0).
    + rewrite Rmin_left by lra. unfold img_sum. cbn [img_map rows cols px]. rewrite mult_INR.
      rewrite (rsum_ext (rows im) _ (fun i => rsum (cols im) (fun j => px im i j) - INR (cols im) * lo)) by (intros; rewrite rsum_minus, rsum_const; reflexivity). rewrite rsum_minus, rsum_const. ring.
    + rewrite Rmin_right by lra. ring.
  - intros ->. cbn [app nth]. unfold normalizeImage in EN. destruct (Req_EM_T 1 0); [lra|]. destruct (Req_EM_T 1 1); [|contradiction]. unfold img_div in EN. destruct (Req_EM_T (img_sum nnz) 0) as [|N]; cbn [bind] in EN; [discriminate|].
    apply Ok_inj in EN. injection EN as <- _. unfold img_sum at 1. cbn [img_map rows cols px]. rewrite (rsum_ext (rows nnz) _ (fun i => rsum (cols nnz) (fun j => px nnz i j) / img_sum nnz)) by (intros; apply rsum_div). rewrite rsum_div. fold (img_sum nnz). field. exact N.
Qed.
(** Fried's parameter is fixed exactly when the region corrected by the mirror, n_actu lambda/D, is wider than the image; the
    jitter is always fixed, the other seeing parameters, flux, background and static modes are free. *)
Definition arcsec_mas (rad : R) : R := rad * 180 / PI * 3600 * 1000.
Theorem C117_fixed : forall n D wvl na ps fc fs nm f, define_fixed_parameters n D wvl na ps fc fs nm = Ok f ->
  D <> 0 /\ ps <> 0 /\ List.length f = (14 + nm)%nat /\
  (nth 0 f false = true <-> INR n < na * arcsec_mas (wvl / D) / ps) /\ nth 1 f false = fc /\
  (forall k, (2 <= k < 7)%nat \/ k = 10%nat \/ (13 <= k < 14 + nm)%nat -> nth k f true = false) /\ (forall k, (7 <= k < 10)%nat -> nth k f false = true) /\
  nth 11 f false = fs /\ nth 12 f false = fs.
Proof.
  intros n D wvl na ps fc fs nm f H. unfold define_fixed_parameters in H. destruct (Req_EM_T D 0) as [|ND]; [discriminate|]. destruct (Req_EM_T ps 0) as [|NP]; [discriminate|]. apply Ok_inj in H. subst f.
  split; [exact ND|]. split; [exact NP|]. split; [rewrite app_length, repeat_length; reflexivity|]. split; [|split; [reflexivity|split; [|split; [|split; reflexivity]]]].
  - cbn [app nth]. pose proof PI_RGT_0. replace (na * arcsec_mas (wvl / D) / ps) with (3600 * 1000 * 180 / PI * na * wvl / D / ps) by (unfold arcsec_mas; field; repeat split; try assumption; lra).
    destruct (Rlt_dec _ _); split; intros; try reflexivity; try assumption; try discriminate; contradiction.
  - intros k Hk. destruct (Nat.lt_ge_cases k 14) as [L|L].
    + rewrite app_nth1 by (cbn [List.length]; lia). destruct Hk as [Hk|[ ->|Hk]]; [|reflexivity|]; (do 14 (destruct k as [|k]; [try reflexivity; lia|])); lia.
    + rewrite app_nth2 by (cbn [List.length]; lia). cbn [List.length]. rewrite nth_indep with (d' := false) by (rewrite repeat_length; lia). apply nth_repeat.
  - intros k Hk. rewrite app_nth1 by (cbn [List.length]; lia). do 10 (destruct k as [|k]; [try reflexivity; lia|]). lia.
Qed.

(** ** The row of the data base *)
(** the fit returns as many parameters and errors as it was given *)
Definition keeps_length (fit : list R -> list bool -> result fitres) : Prop :=
  forall x f r, fit x f = Ok r -> List.length (f_x r) = List.length x /\ List.length (f_xerr r) = List.length x.
(** column [c] of the row contains [v] *)
Definition entry (names : list string) (row : list R) (c : string) (v : R) : Prop := exists i, nth_error names i = Some c /\ nth_error row i = Some v.
Lemma entry_unique names row c v v' : NoDup names -> entry names row c v -> entry names row c v' -> v = v'.
Proof.
  intros ND (i & A & B) (j & A' & B'). assert (i = j). { apply (proj1 (NoDup_nth_error names) ND); [apply nth_error_Some; congruence|congruence]. } subst j. congruence.
Qed.
(** static modes are fitted *)
Definition joint (fit_stat : bool) (SR : option R) : Prop := fit_stat = true /\ exists s, SR = Some s /\ 4 / 10 <= s.

Lemma fitting_inv fit im p r0 SR fs t fc out : fitting_image fit im p r0 SR fs t fc = Ok out ->
  exists plain x0 fx res, (plain = false <-> joint fs SR) /\ define_initial_guess im (c_wvl p) r0 SR (if plain then 0%nat else c_nmodes p) t = Ok x0 /\
    define_fixed_parameters (rows im) (c_D p) (c_wvl p) (c_nactu p) (c_ps p) fc (negb plain) (if plain then 0%nat else c_nmodes p) = Ok fx /\ fit x0 fx = Ok res /\
    out = (f_x res ++ (if plain then repeat (-1) (c_nmodes p) else []), f_xerr res ++ (if plain then repeat (-1) (c_nmodes p) else []), [fst (f_SR res); snd (f_SR res)],
           [fst (f_sky res); snd (f_sky res); fst (f_fit res); fst (f_fit res)], [fst (fst (f_err res)); snd (fst (f_err res)); snd (f_err res)]).
Proof.
  intros H. unfold fitting_image in H. match type of H with bind ?s _ = _ => destruct s as [plain|] eqn:EP end; cbn [bind] in H; [|discriminate].
  destruct (define_initial_guess im (c_wvl p) r0 SR _ t) as [x0|] eqn:E0; cbn [bind] in H; [|discriminate]. destruct (define_fixed_parameters _ _ _ _ _ _ _ _) as [fx|] eqn:EF; cbn [bind] in H; [|discriminate].
  match type of H with bind ?s _ = _ => destruct s as [u|] eqn:EU end; cbn [bind] in H; [|discriminate]. destruct (fit x0 fx) as [res|] eqn:ER; cbn [bind] in H; [|discriminate].
  destruct (f_err res) as [[e1 e2] e3] eqn:EE. apply Ok_inj in H. exists plain, x0, fx, res. split; [|split; [exact E0|split; [exact EF|split; [exact ER|rewrite EE; cbn [fst snd]; congruence]]]].
  unfold joint. destruct fs; cbn [negb] in EP.
  - destruct SR as [s|]; [|discriminate]. apply Ok_inj in EP. subst plain. destruct (Rlt_dec s (4 / 10)); split; intros Q; try discriminate.
    + destruct Q as (_ & s' & Es & Hs). injection Es as <-. lra.
    + split; [reflexivity|]. exists s. split; [reflexivity|lra].
    + reflexivity.
  - apply Ok_inj in EP. subst plain. split; [discriminate|]. intros [Q _]. discriminate.
Qed.

(** The row made of 47 header values and of the result has one value for each column, and the parameters, their errors, the
    coefficients of the static modes and the criteria stand under their names. Without static modes (or for a Strehl ratio
    below 0.4) the columns of the modes contain -1. *)
Theorem C117_row : forall fit im p r0 SR fs t fc out data, keeps_length fit -> List.length data = 47%nat -> fitting_image fit im p r0 SR fs t fc = Ok out ->
  exists res, let names := define_database_colnames true (c_nmodes p) in let row := update_data_struct data out in
    List.length row = List.length names /\
    (forall i c v, nth_error fit_names i = Some c -> nth_error (firstn 7 (f_x res) ++ firstn 4 (skipn 10 (f_x res))) i = Some v -> entry names row c v) /\
    (forall i c v, nth_error err_names i = Some c -> nth_error (firstn 7 (f_xerr res) ++ firstn 4 (skipn 10 (f_xerr res))) i = Some v -> entry names row c v) /\
    (joint fs SR -> List.length (f_x res) = (14 + c_nmodes p)%nat /\ forall k, (k < c_nmodes p)%nat -> entry names row ("FIT MODE" ++ str k) (nth (14 + k) (f_x res) 0) /\ entry names row ("ERR MODE" ++ str k) (nth (14 + k) (f_xerr res) 0)) /\
    (~ joint fs SR -> List.length (f_x res) = 14%nat /\ forall k, (k < c_nmodes p)%nat -> entry names row ("FIT MODE" ++ str k) (-1) /\ entry names row ("ERR MODE" ++ str k) (-1)) /\
    entry names row "SR SKY" (fst (f_SR res)) /\ entry names row "SR FIT" (snd (f_SR res)) /\ entry names row "FWHMX SKY" (fst (f_sky res)) /\ entry names row "FWHMY SKY" (snd (f_sky res)) /\ entry names row "FWHMX FIT" (fst (f_fit res)) /\
    entry names row "MSE" (fst (fst (f_err res))) /\ entry names row "MAE" (snd (fst (f_err res))) /\ entry names row "FVU" (snd (f_err res)) /\
    (exists x0 fx k shift, fit x0 fx = Ok res /\ (joint fs SR -> k = c_nmodes p /\ shift = true) /\ (~ joint fs SR -> k = 0%nat /\ shift = false) /\
      define_initial_guess im (c_wvl p) r0 SR k t = Ok x0 /\ define_fixed_parameters (rows im) (c_D p) (c_wvl p) (c_nactu p) (c_ps p) fc shift k = Ok fx).
Proof.
  intros fit im p r0 SR fs t fc out data HK HD H. destruct (fitting_inv _ _ _ _ _ _ _ _ _ H) as (plain & x0 & fx & res & EP & E0 & EF & ER & EO). exists res. cbv zeta. set (nm := c_nmodes p) in *.
  destruct (C117_guess _ _ _ _ _ _ _ E0) as (L0 & _). destruct (C117_fixed _ _ _ _ _ _ _ _ _ EF) as (_ & _ & LF & _). destruct (HK _ _ _ ER) as [LX LE].
  set (pad := if plain then repeat (-1) nm else []) in *. set (X := f_x res ++ pad) in *. set (Y := f_xerr res ++ pad) in *.
  assert (LXX : List.length X = (14 + nm)%nat) by (unfold X, pad; rewrite app_length, LX, L0; destruct plain; [rewrite repeat_length|cbn [List.length]]; lia).
  assert (LYY : List.length Y = (14 + nm)%nat) by (unfold Y, pad; rewrite app_length, LE, L0; destruct plain; [rewrite repeat_length|cbn [List.length]]; lia).
  assert (SL : forall l : list R, List.length l = (14 + nm)%nat -> pyslice l 0 7 = firstn 7 l).
  { intros l Hl. unfold pyslice. rewrite slice_len_in by lia. rewrite slice_bound_in by lia. reflexivity. }
  set (row := update_data_struct data out). assert (ROW : row = data ++ firstn 7 X ++ skipn 10 X ++ firstn 7 Y ++ skipn 10 Y ++ [fst (f_SR res); snd (f_SR res)] ++ [fst (f_sky res); snd (f_sky res); fst (f_fit res); fst (f_fit res)] ++ [fst (fst (f_err res)); snd (fst (f_err res)); snd (f_err res)]).
  { unfold row, update_data_struct. rewrite EO. rewrite (SL X LXX), (SL Y LYY). reflexivity. }
  assert (F7X : List.length (firstn 7 X) = 7%nat) by (rewrite firstn_length; lia). assert (F7Y : List.length (firstn 7 Y) = 7%nat) by (rewrite firstn_length; lia).
  assert (S10X : List.length (skipn 10 X) = (4 + nm)%nat) by (rewrite skipn_length; lia). assert (S10Y : List.length (skipn 10 Y) = (4 + nm)%nat) by (rewrite skipn_length; lia).
  set (FM := map (fun n => ("FIT MODE" ++ str n)%string) (seq 0 nm)). set (EM := map (fun n => ("ERR MODE" ++ str n)%string) (seq 0 nm)).
  assert (LFM : List.length FM = nm) by (unfold FM; now rewrite map_length, seq_length). assert (LEM : List.length EM = nm) by (unfold EM; now rewrite map_length, seq_length).
  set (names := define_database_colnames true nm). assert (NAM : names = base_names ++ fit_names ++ FM ++ err_names ++ EM ++ tail_names) by reflexivity.
  assert (LB : List.length base_names = 47%nat) by reflexivity. assert (LFN : List.length fit_names = 11%nat) by reflexivity. assert (LEN : List.length err_names = 11%nat) by reflexivity.
  (* sub-lists at the same position *)
  assert (AT : forall (A B : Type) (p1 s1 m1 : list A) (p2 s2 m2 : list B) i a b, List.length p1 = List.length p2 -> nth_error m1 i = Some a -> nth_error m2 i = Some b ->
     exists j, nth_error (p1 ++ m1 ++ s1) j = Some a /\ nth_error (p2 ++ m2 ++ s2) j = Some b).
  { intros A B p1 s1 m1 p2 s2 m2 i a b HL Ha Hb. exists (List.length p1 + i)%nat. assert (i < List.length m1)%nat by (apply nth_error_Some; congruence). assert (i < List.length m2)%nat by (apply nth_error_Some; congruence).
    split; [rewrite nth_error_app2 by lia; rewrite nth_error_app1 by lia|rewrite HL, nth_error_app2 by lia; rewrite nth_error_app1 by lia]; [replace (List.length p1 + i - List.length p1)%nat with i by lia|replace (List.length p2 + i - List.length p2)%nat with i by lia]; assumption. }
  assert (HX : firstn 7 (f_x res) ++ firstn 4 (skipn 10 (f_x res)) = firstn 7 X ++ firstn 4 (skipn 10 X)).
  { unfold X. rewrite firstn_app, skipn_app. replace (7 - List.length (f_x res))%nat with 0%nat by lia. replace (10 - List.length (f_x res))%nat with 0%nat by lia. rewrite firstn_O, skipn_O, app_nil_r. f_equal. rewrite firstn_app, skipn_length. replace (4 - (List.length (f_x res) - 10))%nat with 0%nat by lia. now rewrite firstn_O, app_nil_r. }
  assert (HY : firstn 7 (f_xerr res) ++ firstn 4 (skipn 10 (f_xerr res)) = firstn 7 Y ++ firstn 4 (skipn 10 Y)).
  { unfold Y. rewrite firstn_app, skipn_app. replace (7 - List.length (f_xerr res))%nat with 0%nat by lia. replace (10 - List.length (f_xerr res))%nat with 0%nat by lia. rewrite firstn_O, skipn_O, app_nil_r. f_equal. rewrite firstn_app, skipn_length. replace (4 - (List.length (f_xerr res) - 10))%nat with 0%nat by lia. now rewrite firstn_O, app_nil_r. }
  assert (SX : skipn 10 X = firstn 4 (skipn 10 X) ++ skipn 14 X) by (rewrite <- (firstn_skipn 4 (skipn 10 X)) at 1; rewrite skipn_skipn; reflexivity).
  assert (SY : skipn 10 Y = firstn 4 (skipn 10 Y) ++ skipn 14 Y) by (rewrite <- (firstn_skipn 4 (skipn 10 Y)) at 1; rewrite skipn_skipn; reflexivity).
  set (T := [fst (f_SR res); snd (f_SR res); fst (f_sky res); snd (f_sky res); fst (f_fit res); fst (f_fit res); fst (fst (f_err res)); snd (fst (f_err res)); snd (f_err res)]).
  assert (R1 : row = data ++ (firstn 7 X ++ firstn 4 (skipn 10 X)) ++ skipn 14 X ++ (firstn 7 Y ++ firstn 4 (skipn 10 Y)) ++ skipn 14 Y ++ T).
  { rewrite ROW. rewrite SX at 1. rewrite SY at 1. rewrite <- !app_assoc. reflexivity. }
  assert (LFX : List.length (firstn 7 X ++ firstn 4 (skipn 10 X)) = 11%nat) by (rewrite app_length, firstn_length, firstn_length, skipn_length; lia).
  assert (LFY : List.length (firstn 7 Y ++ firstn 4 (skipn 10 Y)) = 11%nat) by (rewrite app_length, firstn_length, firstn_length, skipn_length; lia).
  assert (L14X : List.length (skipn 14 X) = nm) by (rewrite skipn_length; lia). assert (L14Y : List.length (skipn 14 Y) = nm) by (rewrite skipn_length; lia).
  rewrite HX, HY. set (VX := firstn 7 X ++ firstn 4 (skipn 10 X)) in *. set (VY := firstn 7 Y ++ firstn 4 (skipn 10 Y)) in *.
  assert (ND := proj1 (C117_names true nm)).
  assert (EFIT : forall i c v, nth_error fit_names i = Some c -> nth_error VX i = Some v -> entry names row c v).
  { intros i c v Hc Hv. rewrite NAM, R1. apply (AT _ _ base_names _ fit_names data _ VX i c v); [lia|exact Hc|exact Hv]. }
  assert (EMOD : forall i c v, nth_error FM i = Some c -> nth_error (skipn 14 X) i = Some v -> entry names row c v).
  { intros i c v Hc Hv. rewrite NAM, R1. rewrite (app_assoc base_names), (app_assoc data). apply (AT _ _ (base_names ++ fit_names) _ FM (data ++ VX) _ (skipn 14 X) i c v); [rewrite !app_length; lia|exact Hc|exact Hv]. }
  assert (EERR : forall i c v, nth_error err_names i = Some c -> nth_error VY i = Some v -> entry names row c v).
  { intros i c v Hc Hv. rewrite NAM, R1. rewrite (app_assoc base_names), (app_assoc (base_names ++ fit_names)), (app_assoc data), (app_assoc (data ++ VX)). apply (AT _ _ ((base_names ++ fit_names) ++ FM) _ err_names ((data ++ VX) ++ skipn 14 X) _ VY i c v); [rewrite !app_length; lia|exact Hc|exact Hv]. }
  assert (EEM : forall i c v, nth_error EM i = Some c -> nth_error (skipn 14 Y) i = Some v -> entry names row c v).
  { intros i c v Hc Hv. rewrite NAM, R1. rewrite (app_assoc base_names), (app_assoc (base_names ++ fit_names)), (app_assoc ((base_names ++ fit_names) ++ FM)), (app_assoc data), (app_assoc (data ++ VX)), (app_assoc ((data ++ VX) ++ skipn 14 X)).
    apply (AT _ _ (((base_names ++ fit_names) ++ FM) ++ err_names) _ EM (((data ++ VX) ++ skipn 14 X) ++ VY) _ (skipn 14 Y) i c v); [rewrite !app_length; lia|exact Hc|exact Hv]. }
  assert (ETAIL : forall i c v, nth_error tail_names i = Some c -> nth_error T i = Some v -> entry names row c v).
  { intros i c v Hc Hv. rewrite NAM, R1. rewrite (app_assoc base_names), (app_assoc (base_names ++ fit_names)), (app_assoc ((base_names ++ fit_names) ++ FM)), (app_assoc (((base_names ++ fit_names) ++ FM) ++ err_names)), (app_assoc data), (app_assoc (data ++ VX)), (app_assoc ((data ++ VX) ++ skipn 14 X)), (app_assoc (((data ++ VX) ++ skipn 14 X) ++ VY)).
    pose proof (AT _ _ ((((base_names ++ fit_names) ++ FM) ++ err_names) ++ EM) [] tail_names ((((data ++ VX) ++ skipn 14 X) ++ VY) ++ skipn 14 Y) [] T i c v) as Q. rewrite !app_nil_r in Q. apply Q; [rewrite !app_length; lia|exact Hc|exact Hv]. }
  assert (MODE : forall k, (k < nm)%nat -> entry names row ("FIT MODE" ++ str k) (nth (14 + k) X 0) /\ entry names row ("ERR MODE" ++ str k) (nth (14 + k) Y 0)).
  { intros k Hk. assert (NS : forall l : list R, List.length l = (14 + nm)%nat -> nth_error (skipn 14 l) k = Some (nth (14 + k) l 0)).
    { intros l Hl. rewrite (nth_error_nth' (skipn 14 l) 0) by (rewrite skipn_length; lia). f_equal. rewrite <- (firstn_skipn 14 l) at 2. rewrite app_nth2 by (rewrite firstn_length; lia). rewrite firstn_length. f_equal. lia. }
    split; [apply (EMOD k)|apply (EEM k)]; try (apply NS; assumption).
    - unfold FM. rewrite (map_nth_error _ k (seq 0 nm) (d := k)); [reflexivity|]. rewrite (nth_error_nth' _ 0%nat) by (rewrite seq_length; lia). rewrite seq_nth by lia. reflexivity.
    - unfold EM. rewrite (map_nth_error _ k (seq 0 nm) (d := k)); [reflexivity|]. rewrite (nth_error_nth' _ 0%nat) by (rewrite seq_length; lia). rewrite seq_nth by lia. reflexivity. }
  split. { rewrite NAM, R1, !app_length. change (List.length T) with 9%nat. change (List.length tail_names) with 9%nat. lia. }
  split; [exact EFIT|]. split; [exact EERR|]. split; [|split; [|]].
  - intros J. apply EP in J. unfold X, Y, pad in MODE. rewrite J in *. rewrite !app_nil_r in MODE. split; [lia|exact MODE].
  - intros J. assert (plain = true) as PL by (destruct plain; [reflexivity|exfalso; apply J, EP; reflexivity]). rewrite PL in *. split; [lia|]. intros k Hk. specialize (MODE k Hk).
    unfold X, Y, pad in MODE. rewrite !app_nth2 in MODE by lia. rewrite LX, LE, L0 in MODE. replace (14 + k - (14 + 0))%nat with k in MODE by lia. rewrite PL in MODE.
    rewrite !(nth_indep (repeat (-1) nm) 0 (-1)), !nth_repeat in MODE by (rewrite repeat_length; lia). exact MODE.
  - split; [now apply (ETAIL 0%nat)|]. split; [now apply (ETAIL 1%nat)|]. split; [now apply (ETAIL 2%nat)|]. split; [now apply (ETAIL 3%nat)|]. split; [now apply (ETAIL 4%nat)|]. split; [now apply (ETAIL 6%nat)|]. split; [now apply (ETAIL 7%nat)|]. split; [now apply (ETAIL 8%nat)|].
    exists x0, fx, (if plain then 0%nat else nm), (negb plain). split; [exact ER|]. split; [intros J; apply EP in J; rewrite J; split; reflexivity|]. split; [|split; [exact E0|exact EF]].
    intros J. destruct plain; [split; reflexivity|exfalso; apply J, EP; reflexivity].
Qed.

(** ** Defects *)
(** The width of the fitted PSF along y never reaches the data base: the column FWHMY FIT repeats the width along x. *)
Theorem C117_fwhmy_refuted : forall fit im p r0 SR fs t fc out data, keeps_length fit -> List.length data = 47%nat -> fitting_image fit im p r0 SR fs t fc = Ok out ->
  exists res, (exists x0 fx, fit x0 fx = Ok res) /\
    forall v, entry (define_database_colnames true (c_nmodes p)) (update_data_struct data out) "FWHMY FIT" v <-> v = fst (f_fit res).
Proof.
  intros fit im p r0 SR fs t fc out data HK HD H. destruct (C117_row _ _ _ _ _ _ _ _ _ data HK HD H) as (res0 & LN & _). cbv zeta in LN. clear res0.
  destruct (fitting_inv _ _ _ _ _ _ _ _ _ H) as (plain & x0 & fx & res & _ & _ & _ & ER & EO). exists res. split; [exists x0, fx; exact ER|].
  set (names := define_database_colnames true (c_nmodes p)) in *. set (row := update_data_struct data out) in *.
  assert (E : entry names row "FWHMY FIT" (fst (f_fit res))).
  { exists (List.length names - 4)%nat. split.
    - assert (names = (base_names ++ fit_names ++ map (fun n => ("FIT MODE" ++ str n)%string) (seq 0 (c_nmodes p)) ++ err_names ++ map (fun n => ("ERR MODE" ++ str n)%string) (seq 0 (c_nmodes p))) ++ tail_names) as EN by (unfold names, define_database_colnames; rewrite <- !app_assoc; reflexivity).
      rewrite EN. match goal with |- context [nth_error (?z ++ tail_names)] => generalize z end. intros q. rewrite app_length. change (List.length tail_names) with 9%nat. rewrite nth_error_app2 by lia. replace (List.length q + 9 - 4 - List.length q)%nat with 5%nat by lia. reflexivity.
    - rewrite <- LN. unfold row, update_data_struct. rewrite EO. rewrite !app_assoc. rewrite <- (app_assoc _ [_; _; _; _]), <- (app_assoc _ [_; _]). cbn [app]. match goal with |- context [nth_error (?z ++ _)] => generalize z end. intros q. rewrite app_length. cbn [List.length]. rewrite nth_error_app2 by lia. replace (List.length q + 9 - 4 - List.length q)%nat with 5%nat by lia. reflexivity. }
  intros v. split; [|intros ->; exact E]. intros HV. apply (entry_unique names row "FWHMY FIT"); [apply C117_names|exact HV|exact E].
Qed.
(** Asking for static modes without a Strehl ratio (whose default is None, a documented value) fails. *)
Theorem C117_no_strehl_refuted : forall fit im p r0 t fc, fitting_image fit im p r0 None true t fc = Err TypeError.
Proof. reflexivity. Qed.

(** ** A case: 64 x 64 image of 1, two static modes, the fit returns the initial guess *)
Definition ex_cam : camera := {| c_wvl := 16 / 10 ^ 7; c_D := 8; c_nactu := 40; c_ps := 12; c_nmodes := 2 |}.
Definition ex_fit (x : list R) (_ : list bool) : result fitres := Ok (mkFit x x (8 / 10, 79 / 100) (40, 42) (41, 43) (1, 2, 3)).
Example C117_ex : keeps_length ex_fit /\ joint true (Some (8 / 10)) /\
  exists out, fitting_image ex_fit (mkImg 64 64 (fun _ _ => 1)) ex_cam None (Some (8 / 10)) true 0 false = Ok out.
Proof.
  split; [intros x f r H; apply Ok_inj in H; subst r; split; reflexivity|]. split; [split; [reflexivity|]; exists (8 / 10); split; [reflexivity|lra]|].
  unfold fitting_image. cbn [negb]. destruct (Rlt_dec (8 / 10) (4 / 10)); [lra|]. cbn [bind]. unfold define_initial_guess. destruct (Rle_dec (8 / 10) 0); [lra|]. cbn [bind].
  destruct (img_min (mkImg 64 64 (fun _ _ => 1))) as [lo|e] eqn:EL; [|exfalso; unfold img_min in EL; pose proof (pixels_length (mkImg 64 64 (fun _ _ => 1))) as PL; destruct (pixels _); [discriminate PL|discriminate EL]].
  cbn [bind]. unfold normalizeImage. destruct (Req_EM_T 0 0); [|contradiction]. cbn [bind]. unfold define_fixed_parameters, ex_cam. cbn [c_D c_ps c_wvl c_nactu c_nmodes rows]. destruct (Req_EM_T 8 0); [lra|]. destruct (Req_EM_T 12 0); [lra|]. cbn [bind negb ex_fit f_err]. eexists. reflexivity.
Qed.

Print Assumptions C117_names.
Print Assumptions C117_guess.
Print Assumptions C117_fixed.
Print Assumptions C117_row.
Print Assumptions C117_fwhmy_refuted.
Print Assumptions C117_no_strehl_refuted.
