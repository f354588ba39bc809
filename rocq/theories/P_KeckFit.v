(** C137: the automatic fit of a directory of Keck images. *)
From Coq Require Import Reals List Arith ZArith String Ascii Bool Lra Lia.
From Flocq Require Import Core.Raux Core.Generic_fmt Core.Round_NE.
From Verif Require Import Base_Py M_Tools M_Atmo M_Sensor M_Source M_Config S_Config L_Tools2 L_Config L_Config2 P_Config L_Config3 P_Config2 M_Keck P_Config9 M_KeckFit L_Atmo P_Config7.
Import ListNotations.
Open Scope R_scope.
Open Scope string_scope.

Lemma parser_set_ok c s k v d : parser_set c s k v = Ok d -> has_sec c s = true /\ d = with_key c s k v.
Proof. unfold parser_set. destruct (has_sec c s); [|discriminate]. intros H. apply Ok_inj in H. auto. Qed.

(** ** What choosing the static modes and adjusting the file change *)
(** C137: choosing another family of static modes does not change the system that is built *)
Theorem C137_stat_modes_no_effect : forall mode c d e ar, choose_stat_modes mode c = Ok d -> fst (aoSystem e ar d) = fst (aoSystem e ar c).
Proof.
  intros mode c d e ar H. unfold choose_stat_modes in H. destruct (stat_modes_file mode) as [p|]; [|discriminate]. cbn [bind] in H.
  apply parser_set_ok in H. destruct H as [_ ->]. apply C136_unknown_key_ignored. intros K. cbn in K. intuition discriminate.
Qed.
Theorem C137_unknown_mode : forall mode c, mode <> "Piston" -> mode <> "Zernike" -> choose_stat_modes mode c = Err UnboundLocalError.
Proof. intros mode c H1 H2. unfold choose_stat_modes, stat_modes_file. apply String.eqb_neq in H1, H2. now rewrite H1, H2. Qed.

Lemma adjust_inv txt n h prof cen c d : adjust_init_file txt n h prof cen c = Ok d ->
  exists wvl ws bw tr disp date pa pup,
    samplingFilterProfile prof 3 (9 / 10) (100 / 10 ^ 9) cen = Ok (wvl :: ws, bw, tr, disp) /\
    has_sec c "telescope" = true /\ has_sec c "sources_HO" = true /\ has_sec c "sensor_HO" = true /\ has_sec c "sensor_science" = true /\
    d = with_key (with_key (with_key (with_key (with_key (with_key (with_key (with_key c "telescope" "path_pupil" (PStr pup))
          "telescope" "Path_static" (PStr (ncpa_name date))) "telescope" "pupilAngle" (PNum pa)) "sources_HO" "Wavelength" (PNum wvl))
          "sensor_science" "FiedOfView" (PInt (Z.of_nat n))) "sensor_HO" "SpectralBandwidth" (PNum bw))
          "sensor_HO" "Dispersion" (PList [written_list (fst disp); written_list (snd disp)])) "sensor_HO" "Transmittance" (written_array txt tr).
Proof.
  unfold adjust_init_file. intros H.
  bnext H pa E0. bnext H date E1. bnext H f E2. destruct f as [[[wvls bw] tr] disp]. bnext H wvl E3. bnext H sd E4. bnext H pms E5. bnext H pup E6.
  bnext H c1 F1. bnext H c2 F2. bnext H c3 F3. bnext H c4 F4. bnext H c5 F5. bnext H c6 F6. bnext H c7 F7.
  apply parser_set_ok in F1, F2, F3, F4, F5, F6, F7, H.
  destruct F1 as [A1 ->], F2 as [A2 ->], F3 as [A3 ->], F4 as [A4 ->], F5 as [A5 ->], F6 as [A6 ->], F7 as [A7 ->], H as [A8 ->].
  rewrite ?has_with in *. destruct wvls as [|w0 ws]; [discriminate E3|]. cbn in E3. apply Ok_inj in E3. subst w0.
  exists wvl, ws, bw, tr, disp, date, pa, pup. repeat split; assumption.
Qed.

(** C137: the file adjusted to an image builds exactly the system of the original file in which only the guide-star wavelength and the spectral
    description of the high-order sensor are replaced: the pupil mask, the static aberrations, the pupil angle and the size of the image have no effect. *)
Theorem C137_adjusted_system : forall txt n h prof cen c d e ar wvl ws bw tr disp,
  adjust_init_file txt n h prof cen c = Ok d -> samplingFilterProfile prof 3 (9 / 10) (100 / 10 ^ 9) cen = Ok (wvl :: ws, bw, tr, disp) ->
  fst (aoSystem e ar d) =
  fst (aoSystem e ar (with_key (with_key (with_key (with_key c "sources_HO" "Wavelength" (PNum wvl)) "sensor_HO" "SpectralBandwidth" (PNum bw))
         "sensor_HO" "Dispersion" (PList [written_list (fst disp); written_list (snd disp)])) "sensor_HO" "Transmittance" (written_array txt tr))).
Proof.
  intros txt n h prof cen c d e ar wvl ws bw tr disp H S0. apply adjust_inv in H.
  destruct H as (wvl' & ws' & bw' & tr' & disp' & date & pa & pup & S1 & A1 & A2 & A3 & A4 & ->).
  rewrite S0 in S1. apply Ok_inj in S1. injection S1 as <- <- <- <- <-.
  apply known_ext; [intros s'; now rewrite !has_with|].
  intros s' k Hk. rewrite !sec_with by (rewrite ?has_with; assumption).
  destruct (String.eqb_spec "telescope" s') as [E|N1].
  { subst s'. seqb. rewrite !lookup_assign.
    assert (Q : String.eqb "pupilAngle" k = false /\ String.eqb "Path_static" k = false /\ String.eqb "path_pupil" k = false).
    { repeat split; apply String.eqb_neq; intros <-; cbn in Hk; intuition discriminate. }
    destruct Q as (-> & -> & ->). reflexivity. }
  destruct (String.eqb_spec "sensor_science" s') as [E|N2].
  { subst s'. seqb. rewrite !lookup_assign.
    assert (Q : String.eqb "FiedOfView" k = false) by (apply String.eqb_neq; intros <-; cbn in Hk; intuition discriminate).
    now rewrite Q. }
  reflexivity.
Qed.

(** hence, when both files are accepted, everything but the guide stars, the high-order sensor and the error budget is that of the original file *)
Theorem C137_adjusted_unchanged : forall txt n h prof cen c d e ar y c' y1 d',
  adjust_init_file txt n h prof cen c = Ok d -> aoSystem e ar c = (Ok y, c') -> aoSystem e ar d = (Ok y1, d') ->
  c_tel (y_core y1) = c_tel (y_core y) /\ c_atm (y_core y1) = c_atm (y_core y) /\ s_src (y_sci y1) = s_src (y_sci y) /\
  s_cam (y_sci y1) = s_cam (y_sci y) /\ s_dms (y_sci y1) = s_dms (y_sci y) /\ s_rtc (y_sci y1) = s_rtc (y_sci y) /\
  s_tts (y_sci y1) = s_tts (y_sci y).
Proof.
  intros txt n h prof cen c d e ar y c' y1 d' H Y Y1.
  pose proof H as H0. apply adjust_inv in H0. destruct H0 as (wvl & ws & bw & tr & disp & date & pa & pup & S1 & A1 & A2 & A3 & A4 & _).
  pose proof (C137_adjusted_system txt n h prof cen c d e ar wvl ws bw tr disp H S1) as Q. rewrite Y1 in Q. cbn [fst] in Q.
  set (f := with_key (with_key (with_key (with_key c _ _ _) _ _ _) _ _ _) _ _ _) in Q.
  assert (F : forall s, has_sec f s = has_sec c s) by (intros; unfold f; now rewrite !has_with).
  assert (G : forall s, s <> "sources_HO" -> s <> "sensor_HO" -> sec f s = sec c s).
  { intros s N1 N2. unfold f. rewrite !sec_with by (rewrite ?has_with; assumption).
    destruct (String.eqb_spec "sensor_HO" s); [congruence|]. destruct (String.eqb_spec "sources_HO" s); [congruence|]. reflexivity. }
  destruct (aoSystem e ar f) as [r f'] eqn:YF. cbn [fst] in Q. subst r. clearbody f.
  apply ao_inv in Y, YF. destruct Y as [K1 C1], YF as [K2 C2]. clear Y1.
  assert (T : c_tel (y_core y1) = c_tel (y_core y) /\ c_am (y_core y1) = c_am (y_core y) /\ c_atm (y_core y1) = c_atm (y_core y)).
  { unfold core_of, precision_of, req_sec in K1, K2. rewrite !F in K2. rewrite !G in K2 by discriminate.
    destruct (has_sec c "telescope"); [|discriminate]. cbn [bind] in K1, K2. destruct (tel_stage _ _ _) as [t|]; [|discriminate]. cbn [bind] in K1, K2.
    destruct (airmass_of _) as [am|]; [|discriminate]. cbn [bind] in K1, K2. destruct (has_sec c "atmosphere"); [|discriminate]. cbn [bind] in K1, K2.
    destruct (atm_stage _ _) as [a|]; [|discriminate]. cbn [bind] in K1, K2. rewrite A2 in K1, K2. cbn [bind] in K1, K2.
    bnext K1 g1 E1. bnext K1 g1' E1'. apply Ok_inj in K1. bnext K2 g2 E2. bnext K2 g2' E2'. apply Ok_inj in K2. rewrite <- K1, <- K2. auto. }
  destruct T as (T1 & T2 & T3). apply conf_inv in C1, C2. cbv zeta in C1, C2.
  destruct C1 as (w1 & h1 & hw1 & l1 & B1 & B2 & B3 & B4 & B5 & B6 & B7 & tf1 & B8 & B9 & q1 & B10 & _).
  destruct C2 as (w2 & h2 & hw2 & l2 & D1 & D2 & D3 & D4 & D5 & D6 & D7 & tf2 & D8 & D9 & q2 & D10 & _).
  rewrite (science_ext ar f c) in D1 by (rewrite ?F, ?G by discriminate; reflexivity). rewrite D1 in B1. apply Ok_inj in B1. injection B1 as Ew Es. subst w2.
  rewrite T1 in D5, D8, D9. rewrite B8 in D8. apply Ok_inj in D8. subst tf2.
  rewrite G in D6, D9, D10 by discriminate. rewrite B6 in D6. apply Ok_inj in D6. injection D6 as Er _. rewrite B9 in D9. apply Ok_inj in D9.
  rewrite T2, T3, <- D9 in D10.
  assert (CS : forall z, cam_stage e (ar_expand ar) (c_am (y_core y)) (sec c "atmosphere") (c_atm (y_core y)) w1 z f = cam_stage e (ar_expand ar) (c_am (y_core y)) (sec c "atmosphere") (c_atm (y_core y)) w1 z c).
  { intros z. unfold cam_stage, req_sec. rewrite F, G by discriminate. reflexivity. }
  rewrite CS in D10. rewrite B10 in D10. apply Ok_inj in D10. injection D10 as Ec _.
  repeat split; auto.
  rewrite F in D5. rewrite G in D5 by discriminate. destruct (has_sec c "sensor_LO").
  - destruct B5 as (t1 & L1 & ->), D5 as (t2 & L2 & ->). rewrite L1 in L2. now injection L2 as ->.
  - congruence.
Qed.

(** C137: with a broad-band filter (more than one wavelength sampled) the adjusted file cannot be used: every system is refused *)
Theorem C137_broadband_refused : forall txt n h prof cen c d e ar wvl ws bw tr disp x l,
  adjust_init_file txt n h prof cen c = Ok d -> samplingFilterProfile prof 3 (9 / 10) (100 / 10 ^ 9) cen = Ok (wvl :: ws, bw, tr, disp) ->
  (2 <= List.length tr)%nat -> (exists y, In y (tl tr) /\ 0 <= y) ->
  value c "sensor_HO" "NumberLenslets" (PList [PInt 20]) (PList (x :: l)) ->
  forall y d', aoSystem e ar d <> (Ok y, d').
Proof.
  intros txt n h prof cen c d e ar wvl ws bw tr disp x l H S0 L [t [Ht Hp]] _ y d' Y.
  apply adjust_inv in H. destruct H as (wvl' & ws' & bw' & tr' & disp' & date & pa & pup & S1 & A1 & A2 & A3 & A4 & ->).
  rewrite S0 in S1. apply Ok_inj in S1. injection S1 as <- <- <- <- <-.
  apply ao_inv in Y. destruct Y as [_ C1]. apply conf_inv in C1. cbv zeta in C1. destruct C1 as (w1 & h1 & hw1 & l1 & _ & _ & B3 & _).
  revert B3. unfold ho_sensor. cbv zeta.
  assert (W : written_array txt tr = PStr (txt tr)).
  { unfold written_array. destruct tr as [|a [|b r]]; [cbn in L; lia|cbn in L; lia|].
    destruct (forallb _ (b :: r)) eqn:E; [|reflexivity]. rewrite forallb_forall in E. cbn [tl] in Ht. specialize (E t Ht). destruct (Rlt_dec t 0); [lra|discriminate]. }
  rewrite W. rewrite sec_with by (rewrite ?has_with; assumption). seqb.
  set (s1 := assign _ "Transmittance" _).
  assert (O : opt s1 "Transmittance" (PList [PNum 1]) = PStr (txt tr)) by (unfold opt, s1; rewrite lookup_assign; reflexivity).
  rewrite O. clearbody s1.
  match goal with |- match ?r with Ok _ => _ | Err _ => _ end = _ -> _ => assert (R : exists x, r = Err x) end.
  { change (len_val (PStr (txt tr))) with (@Err nat TypeError).
    repeat match goal with |- exists z, bind (Err _) _ = Err z => eexists; reflexivity | |- exists z, bind ?a _ = Err z => destruct a; cbn [bind]; [|eexists; reflexivity] end; eexists; reflexivity. }
  destruct R as [z ->]. discriminate.
Qed.
Theorem C137_unknown_mask : forall txt n h prof cen c pms, h_str h "PMSNAME" = Some pms -> pms <> "OPEN" -> pms <> "LARGEHEX" ->
  forall d, adjust_init_file txt n h prof cen c <> Ok d.
Proof.
  intros txt n h prof cen c pms Hp H1 H2 d H. unfold adjust_init_file in H.
  bnext H pa E0. bnext H date E1. bnext H f E2. destruct f as [[[wvls bw] tr] disp]. bnext H wvl E3. bnext H sd E4. bnext H p E5. bnext H pup E6.
  unfold key in E5. rewrite Hp in E5. apply Ok_inj in E5. subst p. unfold pupil_file in E6. apply String.eqb_neq in H1, H2. rewrite H1, H2 in E6. discriminate.
Qed.

(** ** Dates and numbers *)
Definition two_digits (n : nat) : string := digit (n / 10) ++ digit (n mod 10).
Definition four_digits (n : nat) : string := two_digits (n / 100) ++ two_digits (n mod 100).
Lemma digit_of_ascii n : (n < 10)%nat -> digit_of (ascii_of_nat (48 + n)) = Some (Z.of_nat n).
Proof. intros H. do 10 (destruct n as [|n]; [reflexivity|]). lia. Qed.
Lemma two_digits_val acc n : (n < 100)%nat -> digits_acc acc (two_digits n) = Some (100 * acc + Z.of_nat n)%Z.
Proof.
  intros H. unfold two_digits, digit. cbn [String.append digits_acc].
  assert (A : (n / 10 < 10)%nat) by (apply Nat.div_lt_upper_bound; lia). assert (B : (n mod 10 < 10)%nat) by (apply Nat.mod_upper_bound; lia).
  rewrite (digit_of_ascii _ A), (digit_of_ascii _ B). f_equal. pose proof (Nat.div_mod n 10 ltac:(lia)). lia.
Qed.
(** C137: a header date yyyy-mm-dd (possibly followed by a time) is read as the numbers it shows *)
Theorem C137_date : forall h y m d rest, (y < 100 * 100)%nat -> (m < 100)%nat -> (d < 100)%nat ->
  h_str h "DATE-OBS" = Some (four_digits y ++ "-" ++ two_digits m ++ "-" ++ two_digits d ++ rest) ->
  get_split_date h = Ok (Z.of_nat y, Z.of_nat m, Z.of_nat d).
Proof.
  intros h y m d rest Hy Hm Hd E. unfold get_split_date, key. rewrite E. cbn [bind].
  assert (S1 : substring 0 4 (four_digits y ++ "-" ++ two_digits m ++ "-" ++ two_digits d ++ rest) = four_digits y) by reflexivity.
  assert (S2 : substring 5 2 (four_digits y ++ "-" ++ two_digits m ++ "-" ++ two_digits d ++ rest) = two_digits m) by reflexivity.
  assert (S3 : substring 8 2 (four_digits y ++ "-" ++ two_digits m ++ "-" ++ two_digits d ++ rest) = two_digits d).
  { unfold four_digits, two_digits, digit. cbn [String.append substring]. destruct rest; reflexivity. }
  rewrite S1, S2, S3.
  assert (I2 : forall n, (n < 100)%nat -> int_of (two_digits n) = Ok (Z.of_nat n)).
  { intros n Hn. pose proof (two_digits_val 0 n Hn) as Q. unfold int_of. destruct (two_digits n) eqn:T; [discriminate T|]. rewrite Q. reflexivity. }
  assert (I4 : int_of (four_digits y) = Ok (Z.of_nat y)).
  { assert (A : (y / 100 < 100)%nat) by (apply Nat.div_lt_upper_bound; lia). assert (B : (y mod 100 < 100)%nat) by (apply Nat.mod_upper_bound; lia).
    assert (Ap : forall s t a, digits_acc a (s ++ t) = match digits_acc a s with Some b => digits_acc b t | None => None end).
    { induction s as [|c s IH]; intros t a; [reflexivity|]. cbn [String.append digits_acc]. destruct (digit_of c); [apply IH|reflexivity]. }
    assert (Q : digits_acc 0 (four_digits y) = Some (Z.of_nat y)).
    { unfold four_digits. rewrite Ap, (two_digits_val 0 _ A), (two_digits_val _ _ B). f_equal. pose proof (Nat.div_mod y 100 ltac:(lia)). lia. }
    unfold int_of. destruct (four_digits y) eqn:T; [discriminate T|]. rewrite Q. reflexivity. }
  rewrite I4, (I2 m Hm), (I2 d Hd). reflexivity.
Qed.

(** ** The table and the dictionary *)
Lemma dict_names_length : List.length dict_names = 111%nat. Proof. reflexivity. Qed.
Lemma dict_names_distinct : NoDup dict_names.
Proof.
  assert (D : forall a b : string, {a = b} + {a <> b}) by apply string_dec.
  assert (Q : forall l, (fix nd (l : list string) := match l with [] => true | x :: r => (negb (existsb (String.eqb x) r) && nd r)%bool end) l = true -> NoDup l).
  { induction l as [|x r IH]; [constructor|]. intros H. apply andb_prop in H. destruct H as [H1 H2]. constructor; [|now apply IH].
    intros Hin. apply negb_true_iff in H1. assert (existsb (String.eqb x) r = true) by (apply existsb_exists; exists x; split; [assumption|apply String.eqb_refl]). congruence. }
  apply Q. vm_compute. reflexivity.
Qed.
Definition column (data : list (list R)) (k : nat) : list R := map (fun row => nth k row 0) data.
Lemma column_ok data k : Forall (fun row => (k < List.length row)%nat) data -> mapM (fun row => pyindex row (Z.of_nat k)) data = Ok (column data k).
Proof.
  induction 1 as [|row r Hr Hl IH]; [reflexivity|]. cbn [mapM column map]. rewrite (L_Atmo.pyindex_nth 0 row k Hr). cbn [bind]. fold (column r k). rewrite IH. reflexivity.
Qed.
Lemma fill_dict_ok data : forall names num d, NoDup names -> Forall (fun row => (num + List.length names <= List.length row)%nat) data ->
  exists d', fill_dict data num names d = Ok d' /\
    (forall k, (k < List.length names)%nat -> lookup d' (nth k names EmptyString) = Some (column data (num + k))) /\
    (forall n, ~ In n names -> lookup d' n = lookup d n).
Proof.
  induction names as [|n r IH]; intros num d ND H.
  - exists d. cbn. split; [reflexivity|]. split; [intros k Hk; lia|reflexivity].
  - inversion ND as [|? ? N1 N2]; subst. cbn [fill_dict List.length] in *.
    rewrite column_ok by (eapply Forall_impl; [|exact H]; cbn; intros; lia). cbn [bind].
    destruct (IH (S num) (assign d n (column data num)) N2) as (d' & E & L1 & L2).
    { eapply Forall_impl; [|exact H]. cbn. intros. lia. }
    exists d'. split; [exact E|]. split.
    + intros [|k] Hk; cbn [nth].
      * rewrite L2, lookup_assign, String.eqb_refl, Nat.add_0_r by assumption. reflexivity.
      * rewrite L1 by lia. f_equal. f_equal. lia.
    + intros m Hm. cbn [In] in Hm. rewrite L2, lookup_assign by tauto. destruct (String.eqb_spec n m); [subst; tauto|reflexivity].
Qed.
(** C137: the dictionary has one entry per column, the k-th name giving the k-th column, and nothing else; a table with fewer columns is refused *)
Theorem C137_dictionary : forall data, Forall (fun row => List.length row = 111%nat) data ->
  exists d, fits_2_dict data = Ok d /\ (forall k, (k < 111)%nat -> lookup d (nth k dict_names EmptyString) = Some (column data k)) /\
    (forall n, ~ In n dict_names -> lookup d n = None).
Proof.
  intros data H. destruct (fill_dict_ok data dict_names 0 [] dict_names_distinct) as (d & E & L1 & L2).
  { eapply Forall_impl; [|exact H]. cbn beta. intros row ->. rewrite dict_names_length. lia. }
  exists d. split; [exact E|]. split; [intros k Hk; apply L1; rewrite dict_names_length; lia|]. intros n Hn. now rewrite L2.
Qed.
Lemma mapM_err (data : list (list R)) (row : list R) k : In row data -> (List.length row <= k)%nat -> forall c, mapM (fun row : list R => pyindex row (Z.of_nat k)) data <> Ok c.
Proof.
  induction data as [|r0 r IH]; intros Hin Hk c; [contradiction|]. cbn [mapM]. destruct Hin as [->|Hin].
  - assert (Q : pyindex row (Z.of_nat k) = Err IndexError).
    { unfold pyindex. destruct (Z.ltb_spec (Z.of_nat k) 0); [lia|]. rewrite Nat2Z.id.
      replace (nth_error row k) with (@None R) by (symmetry; now apply nth_error_None).
      match goal with |- (if ?b then _ else _) = _ => destruct b; reflexivity end. }
    rewrite Q. discriminate.
  - destruct (pyindex r0 (Z.of_nat k)); [|discriminate]. cbn [bind]. destruct (mapM _ r) as [s|] eqn:E; [|discriminate]. now exfalso; apply (IH Hin Hk s).
Qed.
Theorem C137_short_table_refused : forall data row, In row data -> (List.length row < 111)%nat -> forall d, fits_2_dict data <> Ok d.
Proof.
  intros data row Hin Hl. unfold fits_2_dict.
  assert (G : forall names num d0, (List.length row < num + List.length names)%nat -> (num <= List.length row)%nat -> forall d, fill_dict data num names d0 <> Ok d).
  { induction names as [|n r IH]; intros num d0 H1 H2 d; cbn [List.length fill_dict] in *; [lia|].
    destruct (mapM _ data) as [col|] eqn:E; [|discriminate]. cbn [bind].
    destruct (Nat.eq_dec (List.length row) num) as [E2|N]; [exfalso; apply (mapM_err data row num Hin ltac:(lia) col E)|]. apply IH; lia. }
  apply G; [rewrite dict_names_length; lia|lia].
Qed.

(** ** The loop over the images *)
(** C137: with draws in [0, 1) and at least one file, the file drawn is one of the directory *)
Theorem C137_draw : forall files u, files <> [] -> 0 <= u < 1 -> exists f, drawn files u = Ok f /\ In f files.
Proof.
  intros files u N [U0 U1]. unfold drawn. set (n := List.length files). assert (Hn : (0 < n)%nat) by (destruct files; [congruence|unfold n; cbn; lia]).
  assert (P : 0 < INR n) by now apply lt_0_INR.
  assert (L : (0 <= Zfloor (u * INR n))%Z) by (apply Zfloor_lub; cbn; nra).
  assert (H : (Zfloor (u * INR n) < Z.of_nat n)%Z).
  { apply lt_IZR. rewrite <- INR_IZR_INZ. eapply Rle_lt_trans; [apply Zfloor_lb|]. nra. }
  exists (nth (Z.to_nat (Zfloor (u * INR n))) files EmptyString).
  assert (K : (Z.to_nat (Zfloor (u * INR n)) < n)%nat) by lia.
  split; [|now apply nth_In]. rewrite <- (Z2Nat.id _ L) at 1. now apply L_Atmo.pyindex_nth.
Qed.
(** the row of the table for an image *)
Definition row_of (num : R) (y m d : Z) (wv : R) (r : fitres) : list R :=
  ([num; IZR d; IZR m; IZR y; wv; fr_SRfit r; fr_SRsky r; fr_Fxs r; fr_Fys r; fr_Fxf r; fr_Fyf r] ++ fr_x r ++ fr_xerr r)%list.
Definition good_row (w : world) (files : list string) (row : list R) : Prop :=
  exists f p c m r y mo da wv num, In f files /\ w_load w f = Ok p /\ w_measure w c f = Ok m /\ 35 / 100 < fst m /\ 35 < snd m /\ w_fit w c f = Ok r /\
    get_split_date (pc_hdr p) = Ok (y, mo, da) /\ w_wvl w f = Ok wv /\ get_PSF_number f = Ok num /\ row = row_of num y mo da wv r /\ List.length row = 111%nat.
Lemma drawn_in files u f : drawn files u = Ok f -> In f files.
Proof.
  unfold drawn, pyindex. intros H.
  repeat match type of H with context [if ?b then _ else _] => destruct b end; try discriminate;
  match type of H with context [nth_error ?l ?k] => destruct (nth_error l k) eqn:E; [apply Ok_inj in H; subst; now apply nth_error_In in E|discriminate] end.
Qed.
Lemma one_psf_rows w mode files c t u c' t' : one_psf w mode files (c, t) u = Ok (c', t') ->
  t' = t \/ exists row, t' = (t ++ [row])%list /\ good_row w files row.
Proof.
  unfold one_psf. cbn [fst snd]. intros H. bnext H f E1. bnext H p E2. bnext H c1 E3. bnext H c2 E4. bnext H m E5.
  destruct (Rlt_dec (35 / 100) (fst m)) as [M1|]; [destruct (Rlt_dec 35 (snd m)) as [M2|]|].
  - bnext H r E6. bnext H d E7. destruct d as [[y mo] da]. bnext H wv E8. bnext H num E9. bnext H tt E10. apply Ok_inj in H. injection H as _ <-.
    right. unfold add_row in E10. destruct (Nat.eqb_spec (List.length ([num; IZR da; IZR mo; IZR y; wv; fr_SRfit r; fr_SRsky r; fr_Fxs r; fr_Fys r; fr_Fxf r; fr_Fyf r] ++ fr_x r ++ fr_xerr r)) 111) as [L|]; [|discriminate].
    apply Ok_inj in E10. subst tt. eexists. split; [reflexivity|]. exists f, p, c2, m, r, y, mo, da, wv, num. repeat split; auto. now apply drawn_in in E1.
  - apply Ok_inj in H. injection H as _ <-. now left.
  - apply Ok_inj in H. injection H as _ <-. now left.
Qed.
(** C137: every row of the table written is the row of an image of the directory whose Strehl ratio is above 0.35 and whose width is above 35 mas, in the
    documented order, and has 111 columns; there are at most as many rows as draws. *)
Theorem C137_table : forall w mode files nb us c c' tab, fit_all_PSFs w mode files nb us c = Ok (c', tab) ->
  Forall (good_row w files) tab /\ (List.length tab <= match nb with Some n => n | None => List.length files end)%nat.
Proof.
  intros w mode files nb us c c' tab H. unfold fit_all_PSFs in H. bnext H c1 E1.
  set (n := match nb with Some n => n | None => _ end) in *. cbv zeta in H.
  assert (G : forall vs c t c' t', psf_loop w mode files vs (c, t) = Ok (c', t') -> Forall (good_row w files) t ->
     Forall (good_row w files) t' /\ (List.length t' <= List.length t + List.length vs)%nat).
  { induction vs as [|v vs IH]; intros a t a' t' Q F; cbn [psf_loop] in Q.
    - apply Ok_inj in Q. injection Q as _ <-. split; [assumption|lia].
    - bnext Q st E. destruct st as [a1 t1]. pose proof (one_psf_rows _ _ _ _ _ _ _ _ E) as [->|[row [-> Hr]]].
      + destruct (IH _ _ _ _ Q F). split; [assumption|cbn; lia].
      + assert (F1 : Forall (good_row w files) (t ++ [row])) by (apply Forall_app; split; [assumption|constructor; [assumption|constructor]]).
        destruct (IH _ _ _ _ Q F1) as [X Y]. split; [assumption|]. rewrite app_length in Y. cbn in *. lia. }
  destruct (G _ _ _ _ _ H (Forall_nil _)) as [X Y]. split; [assumption|]. cbn [List.length] in Y. rewrite firstn_length in Y. lia.
Qed.
(** C137: and the dictionary read back from that table gives, for each image kept, its fitted parameters under their names *)
Theorem C137_table_readback : forall w mode files nb us c c' tab, fit_all_PSFs w mode files nb us c = Ok (c', tab) ->
  exists d, fits_2_dict tab = Ok d /\ (forall k, (k < 111)%nat -> lookup d (nth k dict_names EmptyString) = Some (column tab k)).
Proof.
  intros w mode files nb us c c' tab H. apply C137_table in H. destruct H as [H _].
  destruct (C137_dictionary tab) as (d & E & L & _).
  { eapply Forall_impl; [|exact H]. intros row (f & p & c0 & m & r & y & mo & da & wv & num & Q). apply Q. }
  exists d. split; assumption.
Qed.
(** the names of the parameter columns: r0 is the first fitted parameter, the flux the eleventh, and each error is fifty columns after its parameter *)
Theorem C137_names : forall num y m d wv r, List.length (fr_x r) = 50%nat ->
  (forall k, (k < 50)%nat -> nth (11 + k) (row_of num y m d wv r) 0 = nth k (fr_x r) 0) /\
  (forall k, (k < 50)%nat -> nth (61 + k) (row_of num y m d wv r) 0 = nth k (fr_xerr r) 0) /\
  nth 11 dict_names EmptyString = "r0" /\ nth 21 dict_names EmptyString = "flux" /\ nth 25 dict_names EmptyString = "StatMode_x0" /\
  nth 60 dict_names EmptyString = "StatMode_x35" /\ nth 61 dict_names EmptyString = "r0err" /\ nth 71 dict_names EmptyString = "fluxerr" /\
  nth 110 dict_names EmptyString = "StatMode_xerr35".
Proof.
  intros num y m d wv r L. unfold row_of. repeat split; try reflexivity; intros k Hk.
  - rewrite app_nth2 by (cbn; lia). cbn [List.length]. replace (11 + k - 11)%nat with k by lia. now rewrite app_nth1 by lia.
  - rewrite app_nth2 by (cbn; lia). cbn [List.length]. rewrite app_nth2 by lia. rewrite L. f_equal. lia.
Qed.
(** C137: a fit whose parameters and errors are not a hundred numbers (fifty parameters: 36 static modes) makes the whole call fail *)
Theorem C137_other_mode_count : forall w mode files c t u f p m r c1 c2, drawn files u = Ok f -> w_load w f = Ok p ->
  adjust_init_file (w_txt w) (pc_npix p) (pc_hdr p) (pc_prof p) (pc_cen p) c = Ok c1 -> choose_stat_modes mode c1 = Ok c2 ->
  w_measure w c2 f = Ok m -> 35 / 100 < fst m -> 35 < snd m -> w_fit w c2 f = Ok r -> (List.length (fr_x r) + List.length (fr_xerr r) <> 100)%nat ->
  forall st, one_psf w mode files (c, t) u <> Ok st.
Proof.
  intros w mode files c t u f p m r c1 c2 E1 E2 E3 E4 E5 M1 M2 E6 L st H. unfold one_psf in H. cbn [fst snd] in H.
  rewrite E1 in H. cbn [bind] in H. rewrite E2 in H. cbn [bind] in H. rewrite E3 in H. cbn [bind] in H. rewrite E4 in H. cbn [bind] in H. rewrite E5 in H. cbn [bind] in H.
  destruct (Rlt_dec (35 / 100) (fst m)); [|lra]. destruct (Rlt_dec 35 (snd m)); [|lra]. rewrite E6 in H. cbn [bind] in H.
  bnext H d E7. destruct d as [[y mo] da]. bnext H wv E8. bnext H num E9. bnext H tt E10. unfold add_row in E10.
  match type of E10 with context [(?a =? ?b)%nat] => destruct (Nat.eqb_spec a b) as [K|]; [|discriminate] end.
  rewrite !app_length in K. cbn [List.length] in K. lia.
Qed.
(** C137 refuted: "all" the PSFs of the directory are fitted by default. The images are drawn at random with replacement: for some draws the outcome does
    not depend on the second file of the directory at all. *)
Theorem C137_all_files_refuted : exists us, Forall (fun u => 0 <= u < 1) us /\ List.length us = 2%nat /\
  forall w mode c f g g', fit_all_PSFs w mode [f; g] None us c = fit_all_PSFs w mode [f; g'] None us c.
Proof.
  exists [0; 0]. split; [repeat constructor; lra|]. split; [reflexivity|]. intros w mode c f g g'.
  assert (D : forall x, drawn [f; x] 0 = Ok f).
  { intros x. unfold drawn. replace (Zfloor (0 * INR (List.length [f; x]))) with 0%Z; [reflexivity|]. rewrite Rmult_0_l. symmetry. apply (Zfloor_IZR 0). }
  assert (O : forall x st, one_psf w mode [f; x] st 0 = one_psf w mode [f; f] st 0) by (intros; unfold one_psf; now rewrite !D).
  unfold fit_all_PSFs. destruct (choose_stat_modes "Piston" c) as [c1|]; [|reflexivity]. cbn [bind List.length firstn psf_loop].
  rewrite (O g), (O g'). destruct (one_psf w mode [f; f] (c1, []) 0) as [st|]; [|reflexivity]. cbn [bind]. now rewrite (O g), (O g').
Qed.

(** ** Concrete cases *)
Definition kh : header := mkHeader (fun k => if String.eqb k "ROTPOSN" then Some 10 else if String.eqb k "INSTANGL" then Some 1 else None) (fun _ => None)
  (fun k => if String.eqb k "CURRINST" then Some "NIRC2" else if String.eqb k "DATE-OBS" then Some "2013-08-01" else if String.eqb k "PMSNAME" then Some "OPEN" else None).
Definition flat (a b : R) : list (R * R) := [(a, 1); (b, 1)].
Lemma flat_fit a b : a < b -> polyfit1 (flat a b) = Ok (0, 1).
Proof.
  intros H. unfold polyfit1, flat, lsum2. cbn [map fst snd lsum fold_right List.length INR].
  match goal with |- (if Req_EM_T ?x 0 then _ else _) = _ => destruct (Req_EM_T x 0) as [E|N] end.
  - exfalso. assert (0 < (b - a) * (b - a)) by (apply Rmult_lt_0_compat; lra). unfold lsum in E. cbn in E. nra.
  - apply f_equal. unfold lsum in *. cbn [fold_left fold_right] in *. f_equal.
    + field_simplify_eq; [ring|intros Z; apply N; lra].
    + field_simplify_eq; [ring|intros Z; apply N; lra].
Qed.
Lemma flat_sampling a b cen : a < b ->
  samplingFilterProfile (flat a b) 3 (9 / 10) (100 / 10 ^ 9) cen =
  if Rle_dec (b - a) (100 / 10 ^ 9) then Ok ([cen], 0, [1], ([0], [0])) else Ok ([a; a + (b - a) / 2; b], b - a, [1; 1; 1], ([0; 0; 0], [0; 0; 0])).
Proof.
  intros H. unfold samplingFilterProfile. cbn [flat map fst snd fold_left].
  replace (Rmax 1 1) with 1 by (unfold Rmax; destruct (Rle_dec 1 1); reflexivity).
  assert (F : filter (fun p : R * R => if Rlt_dec (9 / 10 * 1) (snd p) then true else false) (flat a b) = flat a b).
  { unfold flat. cbn [filter snd]. destruct (Rlt_dec (9 / 10 * 1) 1) as [_|N]; [reflexivity|exfalso; lra]. }
  change [(a, 1); (b, 1)] with (flat a b). rewrite F, flat_fit by assumption. cbn [bind flat map fst snd fold_left].
  rewrite Rmin_left, Rmax_right by lra. unfold polyval1. cbn [fst snd].
  destruct (Rle_dec (b - a) (100 / 10 ^ 9)); cbn [Nat.ltb Nat.leb repeat map M_Cone.linspace seq].
  - replace (0 * cen + 1) with 1 by ring. reflexivity.
  - apply f_equal. cbn [INR Nat.sub].
    replace (a + 0 * ((b - a) / (1 + 1))) with a by ring. replace (a + 1 * ((b - a) / (1 + 1))) with (a + (b - a) / 2) by field.
    replace (a + (1 + 1) * ((b - a) / (1 + 1))) with b by field. rewrite !Rmult_0_l, !Rplus_0_l. reflexivity.
Qed.
(** a narrow-band image of a file that is accepted: the adjusted file is accepted too, and it is the case of the theorems above; and a broad-band one *)
Theorem C137_nonvacuous : exists n h prof cen c d e ar y c' y1 d',
  adjust_init_file (fun _ => EmptyString) n h prof cen c = Ok d /\ aoSystem e ar c = (Ok y, c') /\ aoSystem e ar d = (Ok y1, d') /\
  exists prof2 d2 wvl ws bw tr disp,
    adjust_init_file (fun _ => EmptyString) n h prof2 cen c = Ok d2 /\ samplingFilterProfile prof2 3 (9 / 10) (100 / 10 ^ 9) cen = Ok (wvl :: ws, bw, tr, disp) /\
    (2 <= List.length tr)%nat /\ (exists y, In y (tl tr) /\ 0 <= y) /\ value c "sensor_HO" "NumberLenslets" (PList [PInt 20]) (PList [PInt 20]).
Proof.
  assert (N1 : 49 / 10 ^ 8 < 51 / 10 ^ 8) by lra. assert (N2 : 1 / 10 ^ 6 < 2 / 10 ^ 6) by lra.
  pose proof (flat_sampling _ _ (5 / 10 ^ 7) N1) as S1. destruct (Rle_dec (51 / 10 ^ 8 - 49 / 10 ^ 8) (100 / 10 ^ 9)) as [_|Q]; [|exfalso; apply Q; lra].
  pose proof (flat_sampling _ _ (5 / 10 ^ 7) N2) as S2. destruct (Rle_dec (2 / 10 ^ 6 - 1 / 10 ^ 6) (100 / 10 ^ 9)) as [Q|_]; [exfalso; lra|].
  destruct (C32_file0_accepted false) as (y & c' & Y & _).
  assert (A : forall p wvl ws bw tr disp, samplingFilterProfile p 3 (9 / 10) (100 / 10 ^ 9) (5 / 10 ^ 7) = Ok (wvl :: ws, bw, tr, disp) ->
     exists d, adjust_init_file (fun _ => EmptyString) 200 kh p (5 / 10 ^ 7) file0 = Ok d).
  { intros p wvl ws bw tr disp Hs. unfold adjust_init_file. rewrite Hs. unfold getPA, getInstAngle, key. cbn [h_num h_str kh String.eqb Ascii.eqb Bool.eqb bind].
    eexists. unfold pyindex. cbn [List.length]. 
    replace ((0 <? 0) || (Z.of_nat (S (List.length ws)) <=? 0))%Z%bool with false by (destruct (Z.leb_spec (Z.of_nat (S (List.length ws))) 0); [lia|reflexivity]).
    reflexivity. }
  destruct (A _ _ _ _ _ _ S1) as [d Hd]. destruct (A _ _ _ _ _ _ S2) as [d2 Hd2].
  pose proof (C137_adjusted_system _ _ _ _ _ _ _ e0 (ar0 false) _ _ _ _ _ Hd S1) as T.
  unfold written_list, written_array in T. cbn [fst snd map] in T.
  rewrite (C32_defaults_are_documented e0 (ar0 false) _ "sensor_HO" "Transmittance") in T;
    [|inl|intros v V; destruct V as (s & V1 & V2); vm_compute in V1; injection V1 as <-; vm_compute in V2; discriminate V2].
  rewrite (C32_defaults_are_documented e0 (ar0 false) _ "sensor_HO" "Dispersion") in T;
    [|inl|intros v V; destruct V as (s & V1 & V2); vm_compute in V1; injection V1 as <-; vm_compute in V2; discriminate V2].
  rewrite (C32_defaults_are_documented e0 (ar0 false) _ "sensor_HO" "SpectralBandwidth") in T;
    [|inl|intros v V; destruct V as (s & V1 & V2); vm_compute in V1; injection V1 as <-; vm_compute in V2; discriminate V2].
  change (with_key file0 "sources_HO" "Wavelength" (PNum (5 / 10 ^ 7))) with file0 in T. rewrite Y in T. cbn [fst] in T.
  destruct (aoSystem e0 (ar0 false) d) as [r d'] eqn:E. cbn [fst] in T. subst r.
  exists 200%nat, kh, (flat (49 / 10 ^ 8) (51 / 10 ^ 8)), (5 / 10 ^ 7), file0, d, e0, (ar0 false), y, c', y, d'.
  split; [exact Hd|]. split; [exact Y|]. split; [exact E|].
  exists (flat (1 / 10 ^ 6) (2 / 10 ^ 6)), d2. do 5 eexists. split; [exact Hd2|]. split; [exact S2|]. split; [cbn; lia|].
  split; [exists 1; cbn; split; [auto|lra]|]. right. split; [|reflexivity].
  intros v V; destruct V as (s & V1 & V2); vm_compute in V1; injection V1 as <-; vm_compute in V2; discriminate V2.
Qed.
(** a directory of one image: one row *)
Definition fr0 : fitres := mkFres (1 / 2) (1 / 2) 40 40 40 40 (repeat 1 50) (repeat 0 50).
Definition w0 : world := mkWorld (fun _ => Ok (mkPic 200 kh (flat (49 / 10 ^ 8) (51 / 10 ^ 8)) (5 / 10 ^ 7))) (fun _ _ => Ok (1 / 2, 50)) (fun _ _ => Ok fr0) (fun _ => Ok (5 / 10 ^ 7)) (fun _ => EmptyString).
Theorem C137_table_nonvacuous : exists c', fit_all_PSFs w0 "Zernike" ["psf_00000_0007.fits"] None [0] file0 = Ok (c', [row_of 7 2013 8 1 (5 / 10 ^ 7) fr0]).
Proof.
  assert (N1 : 49 / 10 ^ 8 < 51 / 10 ^ 8) by lra.
  pose proof (flat_sampling _ _ (5 / 10 ^ 7) N1) as S1. destruct (Rle_dec (51 / 10 ^ 8 - 49 / 10 ^ 8) (100 / 10 ^ 9)) as [_|Q]; [|exfalso; apply Q; lra].
  unfold fit_all_PSFs. unfold choose_stat_modes at 1. cbn [stat_modes_file String.eqb Ascii.eqb Bool.eqb bind].
  unfold parser_set. cbn [has_sec file0 has String.eqb Ascii.eqb Bool.eqb orb bind List.length firstn psf_loop]. unfold one_psf, drawn.
  replace (Zfloor (0 * INR (List.length ["psf_00000_0007.fits"]))) with 0%Z by (rewrite Rmult_0_l; symmetry; apply (Zfloor_IZR 0)).
  change (pyindex ["psf_00000_0007.fits"] 0) with (@Ok string "psf_00000_0007.fits"). cbn [bind w_load w0 fst snd pc_npix pc_hdr pc_prof pc_cen w_txt].
  unfold adjust_init_file. rewrite S1. unfold getPA, getInstAngle, key. cbn [h_num h_str kh String.eqb Ascii.eqb Bool.eqb bind].
  change (pyindex [5 / 10 ^ 7] 0) with (@Ok R (5 / 10 ^ 7)). change (get_split_date kh) with (@Ok (Z * Z * Z) (2013, 8, 1)%Z).
  cbn [bind pupil_file String.eqb Ascii.eqb Bool.eqb].
  set (c1 := with_key file0 _ _ _).
  assert (H : forall s, In s ["telescope"; "sources_HO"; "sensor_HO"; "sensor_science"] -> has_sec c1 s = true).
  { intros s Hs. unfold c1. rewrite has_with. cbn [In] in Hs. repeat (destruct Hs as [<-|Hs]; [reflexivity|]). contradiction. }
  clearbody c1.
  assert (P : forall c s k v, has_sec c s = true -> parser_set c s k v = Ok (with_key c s k v)) by (intros c s k v E; unfold parser_set; now rewrite E).
  repeat (rewrite P by (rewrite ?has_with; apply H; cbn; tauto); cbn [bind]).
  unfold choose_stat_modes. cbn [stat_modes_file String.eqb Ascii.eqb Bool.eqb bind]. rewrite P by (rewrite ?has_with; apply H; cbn; tauto). cbn [bind w_measure w_fit w_wvl w0 fst snd].
  destruct (Rlt_dec (35 / 100) (1 / 2)) as [_|N]; [|exfalso; lra]. destruct (Rlt_dec 35 50) as [_|N]; [|exfalso; lra].
  cbn [bind]. change (get_PSF_number "psf_00000_0007.fits") with (@Ok R 7). cbn [bind]. eexists. reflexivity.
Qed.

Print Assumptions C137_stat_modes_no_effect.
Print Assumptions C137_unknown_mode.
Print Assumptions C137_adjusted_system.
Print Assumptions C137_adjusted_unchanged.
Print Assumptions C137_broadband_refused.
Print Assumptions C137_unknown_mask.
Print Assumptions C137_date.
Print Assumptions C137_dictionary.
Print Assumptions C137_short_table_refused.
Print Assumptions C137_draw.
Print Assumptions C137_table.
Print Assumptions C137_table_readback.
Print Assumptions C137_names.
Print Assumptions C137_other_mode_count.
Print Assumptions C137_all_files_refuted.
Print Assumptions C137_nonvacuous.
Print Assumptions C137_table_nonvacuous.
