(** C131: PSF reconstruction over a data base: files, table of results, merged table, simulated data. *)
From Coq Require Import Reals List Arith ZArith Bool String Ascii NArith Lia Lra Sorted Permutation.
From Verif Require Import Base_Py L_Freq M_Sphere M_Sparta P_Sparta M_PsfrRun.
Import ListNotations.

(** * The order of strings and sorting *)
Definition le_str (s t : string) : Prop := sle s t = true.
Lemma sle_refl s : le_str s s.
Proof. unfold le_str. induction s as [|a s IH]; cbn; [reflexivity|]. rewrite Ascii.eqb_refl. exact IH. Qed.
Lemma N_ascii_inj a b : N_of_ascii a = N_of_ascii b -> a = b.
Proof. intros H. rewrite <- (ascii_N_embedding a), <- (ascii_N_embedding b), H. reflexivity. Qed.
Lemma sle_total s t : le_str s t \/ le_str t s.
Proof.
  unfold le_str. revert t. induction s as [|a s IH]; intros [|b t]; cbn; auto.
  destruct (Ascii.eqb_spec a b) as [->|N].
  - rewrite Ascii.eqb_refl. apply IH.
  - destruct (Ascii.eqb_spec b a) as [->|_]; [contradiction|]. destruct (N.ltb_spec (N_of_ascii a) (N_of_ascii b)); [left; reflexivity|]. right. apply N.ltb_lt.
    assert (N_of_ascii a <> N_of_ascii b) by (intros E; apply N, N_ascii_inj, E). lia.
Qed.
Lemma sle_antisym s t : le_str s t -> le_str t s -> s = t.
Proof.
  unfold le_str. revert t. induction s as [|a s IH]; intros [|b t]; cbn; try congruence.
  destruct (Ascii.eqb_spec a b) as [->|N].
  - rewrite Ascii.eqb_refl. intros H1 H2. f_equal. apply IH; assumption.
  - destruct (Ascii.eqb_spec b a) as [->|_]; [contradiction|]. intros H1 H2. apply N.ltb_lt in H1, H2. lia.
Qed.
Lemma sle_trans s t u : le_str s t -> le_str t u -> le_str s u.
Proof.
  unfold le_str. revert t u. induction s as [|a s IH]; intros [|b t] [|c u]; cbn; try congruence.
  destruct (Ascii.eqb_spec a b) as [->|N].
  - destruct (Ascii.eqb_spec b c) as [->|M]; [apply IH|auto].
  - destruct (Ascii.eqb_spec b c) as [->|M].
    + destruct (Ascii.eqb_spec a c) as [->|_]; [contradiction|auto].
    + intros H1 H2. apply N.ltb_lt in H1, H2. destruct (Ascii.eqb_spec a c) as [->|_]; [lia|]. apply N.ltb_lt. lia.
Qed.
Lemma sinsert_perm x l : Permutation (x :: l) (sinsert x l).
Proof. induction l as [|y l IH]; cbn; [reflexivity|]. destruct (sle x y); [reflexivity|]. etransitivity; [apply perm_swap|]. constructor. exact IH. Qed.
Lemma ssort_perm l : Permutation l (ssort l).
Proof. induction l as [|x l IH]; cbn; [reflexivity|]. etransitivity; [|apply sinsert_perm]. constructor. exact IH. Qed.
Lemma sinsert_sorted x l : StronglySorted le_str l -> StronglySorted le_str (sinsert x l).
Proof.
  induction l as [|y l IH]; intros H; cbn; [repeat constructor|]. inversion_clear H as [|? ? H1 H2]. destruct (sle x y) eqn:E.
  - constructor; [constructor; assumption|]. constructor; [exact E|]. eapply Forall_impl; [|exact H2]. intros z. apply sle_trans. exact E.
  - constructor; [apply IH; exact H1|]. eapply Permutation_Forall; [apply sinsert_perm|]. constructor; [|exact H2]. destruct (sle_total x y) as [Q|Q]; [unfold le_str in Q; congruence|exact Q].
Qed.
Lemma ssort_sorted l : StronglySorted le_str (ssort l).
Proof. induction l as [|x l IH]; cbn; [constructor|]. apply sinsert_sorted, IH. Qed.
Lemma sorted_unique l l' : StronglySorted le_str l -> StronglySorted le_str l' -> Permutation l l' -> l = l'.
Proof.
  revert l'. induction l as [|x l IH]; intros l' H H' P; [apply Permutation_nil in P; now subst|].
  destruct l' as [|y l']; [apply Permutation_sym, Permutation_nil in P; discriminate|].
  inversion_clear H as [|? ? S1 F1]. inversion_clear H' as [|? ? S2 F2].
  assert (E : x = y). { apply sle_antisym.
    - assert (I : In y (x :: l)) by (apply (Permutation_in _ (Permutation_sym P)); left; reflexivity). destruct I as [->|I]; [apply sle_refl|]. rewrite Forall_forall in F1. apply F1, I.
    - assert (I : In x (y :: l')) by (apply (Permutation_in _ P); left; reflexivity). destruct I as [->|I]; [apply sle_refl|]. rewrite Forall_forall in F2. apply F2, I. }
  subst y. f_equal. apply IH; [assumption|assumption|]. apply Permutation_cons_inv in P. exact P.
Qed.
Lemma ssort_ext l l' : Permutation l l' -> ssort l = ssort l'.
Proof. intros P. apply sorted_unique; try apply ssort_sorted. rewrite <- !ssort_perm. exact P. Qed.
Lemma ssort_in x l : In x (ssort l) <-> In x l.
Proof. split; apply Permutation_in; [apply Permutation_sym|]; apply ssort_perm. Qed.
Lemma filter_perm {A} (f : A -> bool) l l' : Permutation l l' -> Permutation (filter f l) (filter f l').
Proof. induction 1; cbn; [constructor|destruct (f x); [constructor|]; assumption|destruct (f x), (f y); (apply perm_swap || reflexivity)|etransitivity; eassumption]. Qed.

(** * The pairs of files *)
(** f is the first file, in the order of strings, among those satisfying P *)
Definition first_file (P : string -> Prop) (f : string) : Prop := P f /\ forall g, P g -> le_str f g.
(** telemetry files and images having the identifier i *)
Definition sav_of (dir : list string) (i f : string) : Prop := In f dir /\ (exists a b, f = a ++ ".sav" ++ b)%string /\ id_sav f = i.
Definition fits_of (dir : list string) (year i f : string) : Prop :=
  In f dir /\ (exists a b, f = a ++ ".fits" ++ b)%string /\ (exists a b, f = a ++ year ++ b)%string /\ id_fits f = i.

Lemma index_spec (key : string -> string) i l : In i (map key l) -> StronglySorted le_str l ->
  exists a f, index_of i (map key l) = Ok a /\ nth_error l a = Some f /\ first_file (fun g => In g l /\ key g = i) f.
Proof.
  induction l as [|x l IH]; intros H S0; [destruct H|]. cbn [map index_of]. inversion_clear S0 as [|? ? S1 F1]. destruct (String.eqb_spec (key x) i) as [E|E].
  - exists 0%nat, x. split; [reflexivity|]. split; [reflexivity|]. split; [split; [left; reflexivity|exact E]|]. intros g [[<-|G] _]; [apply sle_refl|]. rewrite Forall_forall in F1. apply F1, G.
  - destruct H as [H|H]; [contradiction|]. destruct (IH H S1) as (a & f & E1 & E2 & [[I K] M]). exists (S a), f. rewrite E1. split; [reflexivity|]. split; [exact E2|]. split; [split; [right; exact I|exact K]|].
    intros g [[<-|G] Kg]; [congruence|]. apply M. split; assumption.
Qed.
Lemma smem_iff x l : smem x l = true <-> In x l.
Proof. unfold smem. rewrite existsb_exists. split; [intros (y & I & E); apply String.eqb_eq in E; subst; exact I|intros I; exists x; split; [exact I|apply String.eqb_refl]]. Qed.
Lemma id_match_in i fits sav : In i (id_match fits sav) <-> In i (map id_fits fits) /\ In i (map id_sav sav).
Proof. unfold id_match. rewrite ssort_in, nodup_In, filter_In, smem_iff. reflexivity. Qed.
Lemma strict_of l : StronglySorted le_str l -> NoDup l -> StronglySorted (fun x y => le_str x y /\ x <> y) l.
Proof. induction 1 as [|x l S0 IH F]; intros ND; constructor; inversion_clear ND as [|? ? N1 N2]; [apply IH, N2|]. rewrite Forall_forall in *. intros y Hy. split; [apply F, Hy|intros ->; contradiction]. Qed.
Lemma id_match_strict fits sav : StronglySorted (fun x y => le_str x y /\ x <> y) (id_match fits sav).
Proof. apply strict_of; [apply ssort_sorted|]. unfold id_match. eapply Permutation_NoDup; [apply ssort_perm|apply NoDup_nodup]. Qed.
Lemma sav_files_in f dir : In f (sav_files dir) <-> In f dir /\ (exists a b, f = a ++ ".sav" ++ b)%string.
Proof. unfold sav_files. rewrite ssort_in, filter_In, contains_iff. reflexivity. Qed.
Lemma fits_files_in f year dir : In f (fits_files year dir) <-> In f dir /\ (exists a b, f = a ++ ".fits" ++ b)%string /\ (exists a b, f = a ++ year ++ b)%string.
Proof. unfold fits_files. rewrite ssort_in, !filter_In, !contains_iff. tauto. Qed.
Lemma sequence_map {A B} (g : A -> result B) (h : A -> B -> Prop) l : (forall x, In x l -> exists y, g x = Ok y /\ h x y) -> exists r, sequence (map g l) = Ok r /\ Forall2 h l r.
Proof.
  induction l as [|x l IH]; intros H; [exists []; split; [reflexivity|constructor]|]. destruct (H x (or_introl eq_refl)) as (y & E & Hy). destruct IH as (r & Er & F); [intros z Hz; apply H; right; exact Hz|].
  exists (y :: r). cbn [map sequence]. rewrite E. cbn [bind]. rewrite Er. split; [reflexivity|constructor; assumption].
Qed.
Lemma first_unique P f g : first_file P f -> first_file P g -> f = g.
Proof. intros [A1 A2] [B1 B2]. apply sle_antisym; auto. Qed.
Lemma first_iff P Q f : (forall g, P g <-> Q g) -> first_file P f -> first_file Q f.
Proof. intros E [A B]. split; [apply E, A|]. intros g G. apply B, E, G. Qed.

(** C131: for every content of the two folders the runs are defined; there is exactly one for each identifier carried by a
    telemetry file (before the first underscore) and by an image of that date (after the last underscore, before the dot), in
    increasing order of the identifiers, and it uses the first telemetry file and the first image having it. *)
Theorem C131_runs : forall year dir_sav dir_fits, exists l, database_runs year dir_sav dir_fits = Ok l /\
  StronglySorted (fun x y => le_str x y /\ x <> y) (map (fun t => fst (fst t)) l) /\
  forall i s f, In (i, s, f) l <-> first_file (sav_of dir_sav i) s /\ first_file (fits_of dir_fits year i) f.
Proof.
  intros year dsav dfits. set (sav := sav_files dsav). set (fits := fits_files year dfits).
  assert (KS : forall i g, (In g sav /\ id_sav g = i) <-> sav_of dsav i g) by (intros; unfold sav, sav_of; rewrite sav_files_in; tauto).
  assert (KF : forall i g, (In g fits /\ id_fits g = i) <-> fits_of dfits year i g) by (intros; unfold fits, fits_of; rewrite fits_files_in; tauto).
  pose (h := fun (i : string) (t : string * string * string) => fst (fst t) = i /\ first_file (sav_of dsav i) (snd (fst t)) /\ first_file (fits_of dfits year i) (snd t)).
  destruct (sequence_map (fun i => do a <- index_of i (map id_sav sav); do s <- pyindex sav (Z.of_nat a);
     do b <- index_of i (map id_fits fits); do f <- pyindex fits (Z.of_nat b); Ok (i, s, f)) h (id_match fits sav)) as (l & El & F).
  { intros i Hi. apply id_match_in in Hi. destruct Hi as [H1 H2].
    destruct (index_spec id_sav i sav H2 (ssort_sorted _)) as (a & s & E1 & E2 & Fs). destruct (index_spec id_fits i fits H1 (ssort_sorted _)) as (b & f & E3 & E4 & Ff).
    exists (i, s, f). rewrite E1. cbn [bind]. rewrite (pyindex_nth _ _ _ E2). cbn [bind]. rewrite E3. cbn [bind]. rewrite (pyindex_nth _ _ _ E4). split; [reflexivity|].
    split; [reflexivity|]. cbn [fst snd]. split; [eapply first_iff; [apply KS|exact Fs]|eapply first_iff; [apply KF|exact Ff]]. }
  exists l. split; [exact El|].
  assert (M : map (fun t => fst (fst t)) l = id_match fits sav). { clear El. induction F as [|x y l1 l2 Hxy F IH]; [reflexivity|]. cbn [map]. rewrite IH. destruct Hxy as [-> _]. reflexivity. }
  split; [rewrite M; apply id_match_strict|]. intros i s f. split.
  - intros H. assert (Q : forall l1 l2, Forall2 h l1 l2 -> In (i, s, f) l2 -> h i (i, s, f)). { induction 1 as [|x y l1 l2 Hxy F' IH]; intros I; [destruct I|]. destruct I as [->|I]; [|apply IH, I]. pose proof Hxy as [E _]. cbn in E. subst x. exact Hxy. }
    destruct (Q _ _ F H) as (_ & A & B). split; assumption.
  - intros [A B]. assert (I : In i (id_match fits sav)). { apply id_match_in. split; [destruct B as [B _]; apply KF in B; destruct B as [B <-]; apply in_map, B|destruct A as [A _]; apply KS in A; destruct A as [A <-]; apply in_map, A]. }
    assert (Q : forall l1 l2, Forall2 h l1 l2 -> In i l1 -> exists t, In t l2 /\ h i t). { induction 1 as [|x y l1 l2 Hxy F' IH]; intros J; [destruct J|]. destruct J as [->|J]; [exists y; split; [left; reflexivity|exact Hxy]|]. destruct (IH J) as (t & T1 & T2). exists t. split; [right; exact T1|exact T2]. }
    destruct (Q _ _ F I) as ([[i' s'] f'] & T & (E1 & E2 & E3)). cbn [fst snd] in *. subst i'. rewrite (first_unique _ _ _ A E2), (first_unique _ _ _ B E3). exact T.
Qed.
(** C131: the order in which the file system lists the folders has no influence. *)
Theorem C131_listing_order : forall year s s' f f', Permutation s s' -> Permutation f f' -> database_runs year s f = database_runs year s' f'.
Proof.
  intros year s s' f f' H1 H2. unfold database_runs, sav_files, fits_files. rewrite (ssort_ext _ _ (filter_perm (contains ".sav") _ _ H1)).
  rewrite (ssort_ext _ _ (filter_perm (contains year) _ _ (filter_perm (contains ".fits") _ _ H2))). reflexivity.
Qed.
Example C131_runs_example : database_runs "20130801" ["n0004_fullNGS_trs.sav"; "readme.txt"; "n0003_fullNGS_trs.sav"; "n0003_LGS_trs.sav"]%string
    ["20130801_n0003.fits"; "20130801_n0004.fits"; "20130203_n0007.fits"]%string
  = Ok [("n0003", "n0003_LGS_trs.sav", "20130801_n0003.fits"); ("n0004", "n0004_fullNGS_trs.sav", "20130801_n0004.fits")]%string.
Proof. reflexivity. Qed.

(** * The table of results *)
Local Open Scope string_scope.
Local Open Scope list_scope.
Local Open Scope R_scope.
Definition known (d : string -> option R) (k : string) : R := match d k with Some v => v | None => 0 end.
Definition has (d : string -> option R) (l : list string) : Prop := forall k, In k l -> d k <> None.
(** what a reconstruction must contain to give a row *)
Definition complete (r : run) : Prop :=
  (2 <= List.length (split_on "_" (last (split_on "/" (r_path_img r)) "")))%nat /\ s_x r <> [] /\ List.length (r_cn2 r) = 7%nat /\
  has (r_holoop r) ["gain"; "delay"; "rate"; "wfe"]%string /\ has (r_ttloop r) ["gain"; "delay"; "rate"]%string /\
  List.length (r_jitter r) = 3%nat /\ r_noise_ho r <> [] /\ r_noise_tt r <> [] /\
  has (r_wfe r) ["NCPA"; "FITTING"; "ALIASING"; "HO NOISE"; "TT NOISE"; "SERVO-LAG"; "TIP-TILT"; "ANGULAR ANISOPLANATISM";
                 "ANISOKINETISM"; "FOCAL ANISOPLANATISM"; "TOTAL WFE"; "PIXEL TF"; "PSFR SR PEAK"; "PSFR SR OTF"]%string.
(** the quantity that each column is expected to hold; the columns whose content is another one (see below) are left out *)
Definition expected (r : run) : list (string * cell) :=
  [("AOMODE", Str (upper (r_aomode r))); ("AIRMASS", Num (r_airmass r)); ("WVL [µm]", Num (r_wvl r * 1000000));
   ("BANDWIDTH [µm]", Num (r_bandwidth r * 1000000)); ("PUP ANG [DEG]", Num (r_pupang r)); ("PUP MASK", Str (r_pupmask r));
   ("PUP RES [PX]", Num (r_resolution r)); ("CAM PS [MAS]", Num (r_psinmas r)); ("CAM FOV [PX]", Num (r_fov r));
   ("CAM SR", Num (s_sr_sky r / 100)); ("CAM FWHMX [MAS]", Num (s_fwhmx_sky r)); ("CAM FWHMY [MAS]", Num (s_fwhmy_sky r));
   ("CAM FIT BKG", Num (last (s_x r) 0)); ("CAM SATURATION", Flag (r_saturated r)); ("SEEING DIMM [AS]", Num (r_dimm r));
   ("SEEING MASS", Num (r_mass r)); ("CN2 0KM", Num (nth 0 (r_cn2 r) 0)); ("CN2 0.5KM", Num (nth 1 (r_cn2 r) 0));
   ("CN2 1KM", Num (nth 2 (r_cn2 r) 0)); ("CN2 2KM", Num (nth 3 (r_cn2 r) 0)); ("CN2 4KM", Num (nth 4 (r_cn2 r) 0));
   ("CN2 8KM", Num (nth 5 (r_cn2 r) 0)); ("CN2 16KM", Num (nth 6 (r_cn2 r) 0));
   ("HO GAIN", Num (known (r_holoop r) "gain")); ("HO LAT [ms]", Num (known (r_holoop r) "delay")); ("HO RATE [Hz]", Num (known (r_holoop r) "rate"));
   ("HO NPH", Num (r_nph_ho r)); ("HO WFE [NM]", Num (known (r_holoop r) "wfe"));
   ("TT GAIN", Num (known (r_ttloop r) "gain")); ("TT LAT [ms]", Num (known (r_ttloop r) "delay")); ("TT RATE [Hz]", Num (known (r_ttloop r) "rate"));
   ("JITTERX [MAS]", Num (nth 0 (r_jitter r) 0)); ("JITTERY [MAS]", Num (nth 1 (r_jitter r) 0)); ("JITTERXY [MAS]", Num (nth 2 (r_jitter r) 0));
   ("TEL R0 [CM]", Num (r_r0_tel r * 100)); ("TEL L0 [M]", Num (r_L0_tel r)); ("TEL TAU0 [MS]", Num (r_tau0_tel r * 1000)); ("TEL V [M/S]", Num (r_v0_tel r));
   ("TEL THETA0 [AS]", Num (r_theta0 r (5 / 10000000))); ("HO NOISE [RAD]", Num (hd 0 (r_noise_ho r))); ("TT NOISE [RAD]", Num (hd 0 (r_noise_tt r)));
   ("WFE NCPA [NM]", Num (known (r_wfe r) "NCPA")); ("WFE FITTING [NM]", Num (known (r_wfe r) "FITTING")); ("WFE ALIASING [NM]", Num (known (r_wfe r) "ALIASING"));
   ("WFE HO NOISE [NM]", Num (known (r_wfe r) "HO NOISE")); ("WFE TT NOISE [NM]", Num (known (r_wfe r) "TT NOISE")); ("WFE SERVO-LAG [NM]", Num (known (r_wfe r) "SERVO-LAG"));
   ("WFE JITTER [NM]", Num (known (r_wfe r) "TIP-TILT")); ("WFE ANGULAR ANISO [NM]", Num (known (r_wfe r) "ANGULAR ANISOPLANATISM"));
   ("WFE TOTAL [NM]", Num (known (r_wfe r) "TOTAL WFE")); ("PSF PIXEL [NM]", Num (known (r_wfe r) "PIXEL TF"));
   ("PSFR SR PEAK", Num (known (r_wfe r) "PSFR SR PEAK" / 100)); ("PSFR SR OTF", Num (known (r_wfe r) "PSFR SR OTF" / 100));
   ("PSFR FWHMX", Num (s_fwhmx_fit r)); ("PSFR FWHMY", Num (s_fwhmy_fit r)); ("PSFR MSE", Num (s_mse r))]%string.
(** the columns holding something else *)
Definition misplaced (r : run) : list (string * cell) :=
  [("TT NPH", Num (r_nph_ho r)); ("TT WFE [NM]", Num (known (r_holoop r) "wfe"));
   ("WFE FOCAL ANISO [NM]", Num (known (r_wfe r) "ANISOKINETISM")); ("WFE TT ANISO [NM]", Num (known (r_wfe r) "FOCAL ANISOPLANATISM"))]%string.

Lemma getk_known d k : d k <> None -> getk d k = Ok (known d k).
Proof. unfold getk, known. destruct (d k); [reflexivity|contradiction]. Qed.
Lemma pyindex_last {A} (d : A) l : l <> [] -> pyindex l (-1) = Ok (last l d).
Proof.
  intros H. destruct (exists_last H) as (l0 & x & ->). rewrite last_last. unfold pyindex. cbn [Z.ltb Z.compare]. rewrite app_length. cbn [List.length].
  replace (Z.of_nat (List.length l0 + 1) + -1)%Z with (Z.of_nat (List.length l0)) by lia.
  destruct (Z.ltb_spec (Z.of_nat (List.length l0)) 0); [lia|]. destruct (Z.leb_spec (Z.of_nat (List.length l0 + 1)) (Z.of_nat (List.length l0))); [lia|]. cbn [orb].
  rewrite Nat2Z.id, nth_error_app2, Nat.sub_diag by lia. reflexivity.
Qed.
Lemma pyindex_hd {A} (d : A) l : l <> [] -> pyindex l 0 = Ok (hd d l).
Proof. destruct l as [|x l]; [contradiction|]. intros _. apply (pyindex_nth (x :: l) 0 x). reflexivity. Qed.
Lemma list7 {A} (l : list A) : List.length l = 7%nat -> exists a b c d e f g, l = [a; b; c; d; e; f; g].
Proof. intros H. do 7 (destruct l as [|? l]; [discriminate|]). destruct l; [|discriminate]. repeat eexists. Qed.
Lemma list3 {A} (l : list A) : List.length l = 3%nat -> exists a b c, l = [a; b; c].
Proof. intros H. do 3 (destruct l as [|? l]; [discriminate|]). destruct l; [|discriminate]. repeat eexists. Qed.
Ltac inlist := solve [cbn [In]; repeat (first [left; reflexivity|right])].

(** C131: a complete reconstruction gives one row with as many values as there are columns; the columns have distinct names and
    each of these holds the quantity of its name, in the unit of its name; DATE is the beginning of the name of the image up to
    the first underscore and ID what lies between the first and the second underscore, up to the dot, in capitals. *)
Theorem C131_row : forall r, complete r -> exists row wl f, unpack_results r = Ok (row, wl) /\ frame_row colnames row = Ok f /\
  NoDup colnames /\ map fst f = colnames /\
  (forall c v, In (c, v) (expected r ++ misplaced r) -> column f c = Some v) /\
  column f "DATE" = Some (Str (hd "" (split_on "_" (last (split_on "/" (r_path_img r)) "")))) /\
  column f "ID" = Some (Str (upper (hd "" (split_on "." (nth 1 (split_on "_" (last (split_on "/" (r_path_img r)) "")) ""))))).
Proof.
  intros r (H1 & H2 & H3 & H4 & H5 & H6 & H7 & H8 & H9).
  destruct (list7 _ H3) as (c0 & c1 & c2 & c3 & c4 & c5 & c6 & Ec). destruct (list3 _ H6) as (j0 & j1 & j2 & Ej).
  eexists _, _, _. split.
  { unfold unpack_results. cbv zeta. rewrite (pyindex_nth _ 1 (nth 1 (split_on "_" (last (split_on "/" (r_path_img r)) "")) "")) by (apply nth_error_nth'; lia).
    cbn [bind]. rewrite (pyindex_last 0) by exact H2. rewrite Ec, Ej. cbn [bind].
    rewrite !getk_known by (first [apply H4; inlist|apply H5; inlist|apply H9; inlist]). rewrite !(pyindex_hd 0) by assumption. cbn [bind]. reflexivity. }
  split; [reflexivity|]. split.
  { replace colnames with (nodup string_dec colnames) by (vm_compute; reflexivity). apply NoDup_nodup. }
  split; [reflexivity|]. split; [|split; reflexivity].
  assert (W : 5 / 10000000 = 500 / 1000000000) by lra.
  intros c v Hin. apply in_app_or in Hin. destruct Hin as [Hin|Hin]; unfold expected, misplaced in Hin; rewrite ?Ec, ?Ej, ?W in Hin; cbn [In nth] in Hin;
    repeat (destruct Hin as [Hin|Hin]; [injection Hin as <- <-; reflexivity|]); destruct Hin.
Qed.

Print Assumptions C131_runs.
Print Assumptions C131_listing_order.
Print Assumptions C131_row.
