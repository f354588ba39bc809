(** C131 (continued): contents of the columns, whole data base, merged table, simulated data. *)
From Coq Require Import Reals List Arith ZArith Bool String Ascii NArith Lia Lra Sorted Permutation.
From Verif Require Import Base_Py L_Freq M_Sphere M_Sparta P_Sparta M_PsfrRun P_PsfrRun.
Import ListNotations.
Local Open Scope string_scope.
Local Open Scope list_scope.
Local Open Scope R_scope.

(** a complete reconstruction *)
Definition ex_run : run := mkRun "/data/20130801_n0004.fits" "ngs" 1 (16 / 10000000) 0 0 "largehex" 200 10 128 false (6 / 10) (3 / 10) [1; 2; 3; 4; 5; 6; 7]
  (fun k => if String.eqb k "wfe" then Some 200 else Some 1) (fun k => if String.eqb k "wfe" then Some 50 else Some 1) 900 40 [0; 0; 0]
  (15 / 100) 25 (3 / 1000) 10 (fun w => 2) [1] [2]
  (fun k => if String.eqb k "FOCAL ANISOPLANATISM" then Some 120 else if String.eqb k "ANISOKINETISM" then Some 30 else Some 0)
  40 60 61 [0; 1; 2] 58 59 0.
Lemma ex_run_complete : complete ex_run.
Proof. repeat split; try (cbn; lia); try discriminate; intros k Hk; cbn; repeat match goal with |- context [String.eqb ?a ?b] => destruct (String.eqb a b) end; discriminate. Qed.
(** C131 refuted: the table gives, under "TT NPH" and "TT WFE", the flux and the error of the high-order sensor and not those of
    the tip-tilt one, and the columns "WFE FOCAL ANISO" and "WFE TT ANISO" are exchanged. *)
Theorem C131_columns_refuted : exists r row wl f, complete r /\ unpack_results r = Ok (row, wl) /\ frame_row colnames row = Ok f /\
  (exists v, column f "TT NPH" = Some (Num v) /\ v <> r_nph_tt r) /\
  (exists v, column f "TT WFE [NM]" = Some (Num v) /\ v <> known (r_ttloop r) "wfe") /\
  (exists v, column f "WFE FOCAL ANISO [NM]" = Some (Num v) /\ v <> known (r_wfe r) "FOCAL ANISOPLANATISM") /\
  (exists v, column f "WFE TT ANISO [NM]" = Some (Num v) /\ v <> known (r_wfe r) "ANISOKINETISM").
Proof.
  destruct (C131_row ex_run ex_run_complete) as (row & wl & f & E1 & E2 & _ & _ & C & _). exists ex_run, row, wl, f. split; [exact ex_run_complete|]. split; [exact E1|]. split; [exact E2|].
  repeat split; eexists; (split; [apply C, in_or_app; right; unfold misplaced; inlist|]); cbn; lra.
Qed.

(** * The whole data base *)
Lemma sequence_len {A} (l : list (result A)) r : sequence l = Ok r -> Forall2 (fun x a => x = Ok a) l r.
Proof.
  revert r. induction l as [|x l IH]; intros r H; cbn [sequence] in H; [apply Ok_inj in H; subst; constructor|].
  destruct x as [a|e]; cbn [bind] in H; [|discriminate]. destruct (sequence l) as [s|e]; cbn [bind] in H; [|discriminate]. apply Ok_inj in H. subst. constructor; [reflexivity|apply IH; reflexivity].
Qed.
Lemma sequence_err {A} (l : list (result A)) : (exists x, In x l /\ is_ok x = false) -> is_ok (sequence l) = false.
Proof.
  induction l as [|x l IH]; intros (y & Hy & E); [destruct Hy|]. cbn [sequence]. destruct Hy as [->|Hy]; [destruct y; [discriminate|reflexivity]|].
  destruct x as [a|e]; [cbn [bind]|reflexivity]. specialize (IH (ex_intro _ y (conj Hy E))). destruct (sequence l); [discriminate|reflexivity].
Qed.
Lemma sequence_ok {A} (l : list (result A)) : Forall (fun x => is_ok x = true) l -> exists r, sequence l = Ok r.
Proof. induction 1 as [|x l H F (r & E)]; [exists []; reflexivity|]. destruct x as [a|e]; [|discriminate]. exists (a :: r). cbn [sequence bind]. rewrite E. reflexivity. Qed.
Lemma row_length r u : unpack_results r = Ok u -> List.length (fst u) = 62%nat.
Proof.
  intros H. unfold unpack_results in H. cbv zeta in H.
  repeat match type of H with bind ?x _ = Ok _ => let v := fresh "v" in let E := fresh "E" in destruct x as [v|] eqn:E; cbn [bind] in H; [|discriminate H] end.
  apply Ok_inj in H. subst u. cbn [fst]. rewrite !app_length, !map_length.
  repeat match goal with E : match ?l with [] => _ | _ => _ end = Ok ?v |- _ => revert E; repeat (match goal with |- match ?q with [] => _ | _ => _ end = Ok _ -> _ => destruct q; try discriminate end); intros E; apply Ok_inj in E; subst v end.
  reflexivity.
Qed.
(** C131: the table of a data base is written only if every reconstruction succeeds and is complete enough to give a row; it then
    has one row per pair of files, in the order of the identifiers, and its name carries the date. One failure: no table. *)
Theorem C131_database : forall keck year ds df runs, database_runs year ds df = Ok runs ->
  (forall t, In t runs -> exists r u, keck (snd (fst t)) (snd t) = Ok r /\ unpack_results r = Ok u) ->
  exists fr, psfr_on_database keck year ds df = Ok ("keck_psfr_" ++ year ++ ".csv", fr)%string /\
    Forall2 (fun t f => exists r u, keck (snd (fst t)) (snd t) = Ok r /\ unpack_results r = Ok u /\ frame_row colnames (fst u) = Ok f) runs fr.
Proof.
  intros keck year ds df runs E H. unfold psfr_on_database. rewrite E. cbn [bind]. clear E. revert H.
  set (g := fun t : string * string * string => do r <- keck (snd (fst t)) (snd t); do u <- unpack_results r; Ok (fst u)).
  intros H. assert (Q : exists rows fr, sequence (map g runs) = Ok rows /\ sequence (map (frame_row colnames) rows) = Ok fr /\
     Forall2 (fun t f => exists r u, keck (snd (fst t)) (snd t) = Ok r /\ unpack_results r = Ok u /\ frame_row colnames (fst u) = Ok f) runs fr).
  { induction runs as [|t runs IH]; [exists [], []; repeat split; constructor|].
    destruct IH as (rows & fr & E1 & E2 & F); [intros t' Ht'; apply H; right; exact Ht'|]. destruct (H t (or_introl eq_refl)) as (r & u & K1 & K2).
    exists (fst u :: rows), (combine colnames (fst u) :: fr). cbn [map sequence]. unfold g at 1. rewrite K1. cbn [bind]. rewrite K2. cbn [bind]. rewrite E1. cbn [bind].
    assert (K3 : frame_row colnames (fst u) = Ok (combine colnames (fst u))) by (unfold frame_row; rewrite (row_length _ _ K2); reflexivity).
    rewrite K3. cbn [bind]. rewrite E2. split; [reflexivity|]. split; [reflexivity|]. constructor; [|exact F]. exists r, u. repeat split; assumption. }
  destruct Q as (rows & fr & E1 & E2 & F). exists fr. rewrite E1. cbn [bind]. rewrite E2. split; [reflexivity|exact F].
Qed.
Theorem C131_one_failure : forall keck year ds df runs t, database_runs year ds df = Ok runs -> In t runs ->
  (is_ok (keck (snd (fst t)) (snd t)) = false \/ (exists r, keck (snd (fst t)) (snd t) = Ok r /\ is_ok (unpack_results r) = false)) ->
  is_ok (psfr_on_database keck year ds df) = false.
Proof.
  intros keck year ds df runs t E Ht H. unfold psfr_on_database. rewrite E. cbn [bind].
  assert (Q : is_ok (sequence (map (fun t => do r <- keck (snd (fst t)) (snd t); do u <- unpack_results r; Ok (fst u)) runs)) = false).
  { apply sequence_err. eexists. split; [apply in_map, Ht|]. cbv beta. destruct H as [H|(r & H1 & H2)].
    - destruct (keck (snd (fst t)) (snd t)); [discriminate|reflexivity].
    - rewrite H1. cbn [bind]. destruct (unpack_results r); [discriminate|reflexivity]. }
  destruct (sequence _); [discriminate|reflexivity].
Qed.
(** a profile without exactly seven layers (the seven of MASS-DIMM) or an image whose name has no underscore gives no row *)
Theorem C131_incomplete : forall r, List.length (r_cn2 r) <> 7%nat \/ split_on "_" (last (split_on "/" (r_path_img r)) "") = [last (split_on "/" (r_path_img r)) ""] ->
  is_ok (unpack_results r) = false.
Proof.
  intros r H. destruct (unpack_results r) as [u|e] eqn:E; [|reflexivity]. exfalso. unfold unpack_results in E. cbv zeta in E.
  destruct (pyindex (split_on "_" (last (split_on "/" (r_path_img r)) "")) 1) as [p1|] eqn:E1; [cbn [bind] in E|discriminate E].
  destruct H as [H|H]; [|rewrite H in E1; discriminate E1].
  destruct (pyindex (s_x r) (-1)); [cbn [bind] in E|discriminate E].
  destruct (r_cn2 r) as [|? [|? [|? [|? [|? [|? [|? [|? ?]]]]]]]]; cbn [bind List.length] in *; try discriminate E. apply H. reflexivity.
Qed.

(** * The merged table *)
(** what is known of pandas' sort_values: the same rows, in increasing order of DATE *)
Definition sorts {row} (sorter : list (frow row) -> list (frow row)) : Prop :=
  forall l, Permutation l (sorter l) /\ StronglySorted (fun a b => (fst a <= fst b)%Z) (sorter l).
(** C131: the merged table holds the rows of all the .csv files whose name does not contain "merged", each as many times as it
    occurs, in order of date; without such a file it fails; it is saved under the prefix of the first file listed. *)
Theorem C131_merge : forall row sorter ls content tocsv, @sorts row sorter ->
  ((exists f, In f ls /\ contains ".csv" f = true /\ contains "merged" f = false) ->
   exists m s, merge_dataframe row sorter ls content tocsv = Ok (m, s) /\
     Permutation m (flat_map content (filter (fun f => contains ".csv" f && negb (contains "merged" f)) ls)) /\
     StronglySorted (fun a b => (fst a <= fst b)%Z) m /\
     (s = None <-> tocsv = false) /\ (forall n d, s = Some (n, d) -> d = m /\ contains "merged" n = true)) /\
  ((forall f, In f ls -> contains ".csv" f = true -> contains "merged" f = true) -> merge_dataframe row sorter ls content tocsv = Err KeyError).
Proof.
  intros row sorter ls content tocsv Hs.
  assert (EF : csv_files ls = filter (fun f => contains ".csv" f && negb (contains "merged" f)) ls).
  { unfold csv_files. clear. induction ls as [|f ls IH]; [reflexivity|]. cbn [filter]. destruct (contains ".csv" f) eqn:A; cbn [andb filter]; [|exact IH]. destruct (contains "merged" f); cbn [negb]; [exact IH|]. f_equal. exact IH. }
  split.
  - intros (f & I & A & B). unfold merge_dataframe. rewrite EF. set (L := filter (fun f => contains ".csv" f && negb (contains "merged" f)) ls).
    assert (IL : In f L) by (apply filter_In; split; [exact I|rewrite A, B; reflexivity]).
    destruct L as [|f0 L'] eqn:EL; [destruct IL|]. eexists _, _. split; [reflexivity|]. destruct (Hs (flat_map content (f0 :: L'))) as [P S0].
    split; [apply Permutation_sym, P|]. split; [exact S0|]. split; [destruct tocsv; split; congruence|].
    intros n d H. destruct tocsv; [|discriminate]. injection H as <- <-. split; [reflexivity|]. apply contains_iff. exists (hd "" (split_on "_" f0) ++ "_psfr_")%string, ".csv"%string.
    generalize (hd ""%string (split_on "_"%char f0)). clear. intros s. induction s as [|c s IH]; [reflexivity|]. cbn. f_equal. exact IH.
  - intros H. unfold merge_dataframe. rewrite EF. replace (filter (fun f => contains ".csv" f && negb (contains "merged" f)) ls) with (@nil string); [reflexivity|].
    clear EF. symmetry. induction ls as [|f ls IH]; [reflexivity|]. cbn [filter]. destruct (contains ".csv" f) eqn:A.
    + rewrite (H f (or_introl eq_refl) A). cbn. apply IH. intros g Hg. apply H. right. exact Hg.
    + cbn. apply IH. intros g Hg. apply H. right. exact Hg.
Qed.
(** C131: saving the merged table in the folder does not change what a second merge returns. *)
Theorem C131_merge_again : forall row sorter l1 l2 content content' tocsv name d m0,
  merge_dataframe row sorter (l1 ++ l2) content true = Ok (m0, Some (name, d)) ->
  (forall f, f <> name -> content' f = content f) ->
  bind (merge_dataframe row sorter (l1 ++ name :: l2) content' tocsv) (fun r => Ok (fst r)) = Ok m0.
Proof.
  intros row sorter l1 l2 content content' tocsv name d m0 H Hc.
  assert (HN : contains "merged" name = true). { unfold merge_dataframe in H. destruct (csv_files (l1 ++ l2)) as [|f0 r]; [discriminate|]. apply Ok_inj in H. injection H as <- <- <-.
    apply contains_iff. exists (hd "" (split_on "_" f0) ++ "_psfr_")%string, ".csv"%string. generalize (hd ""%string (split_on "_"%char f0)). clear. intros s. induction s as [|c s IH]; [reflexivity|]. cbn. f_equal. exact IH. }
  assert (EL : csv_files (l1 ++ name :: l2) = csv_files (l1 ++ l2)).
  { unfold csv_files. rewrite !filter_app. f_equal. cbn [filter]. destruct (contains ".csv" name); [|reflexivity]. cbn [filter]. rewrite HN. reflexivity. }
  assert (EM : flat_map content' (csv_files (l1 ++ l2)) = flat_map content (csv_files (l1 ++ l2))).
  { assert (Q : forall f, In f (csv_files (l1 ++ l2)) -> content' f = content f). { intros f Hf. apply Hc. intros ->. unfold csv_files in Hf. apply filter_In in Hf. rewrite HN in Hf. destruct Hf; discriminate. }
    revert Q. generalize (csv_files (l1 ++ l2)). clear. intros L. induction L as [|x L IH]; intros Q; [reflexivity|]. cbn [flat_map]. rewrite Q by (left; reflexivity). f_equal. apply IH. intros f Hf. apply Q. right. exact Hf. }
  unfold merge_dataframe in *. rewrite EL. destruct (csv_files (l1 ++ l2)) as [|f0 r]; [discriminate|]. rewrite EM. cbn [bind fst]. apply Ok_inj in H. apply (f_equal fst) in H. cbn [fst] in H. rewrite H. reflexivity.
Qed.

(** * Simulated data *)
(** C131: the simulations used are those whose name contains every pattern, in increasing order. *)
Theorem C131_patterns : forall ps ls, StronglySorted le_str (kasp_files ps ls) /\
  forall f, In f (kasp_files ps ls) <-> In f ls /\ forall l p, ps = Some l -> In p l -> exists a b, f = (a ++ p ++ b)%string.
Proof.
  intros ps ls. split; [apply ssort_sorted|]. intros f. unfold kasp_files. rewrite ssort_in. destruct ps as [ps|]; [|split; [intros H; split; [exact H|discriminate]|tauto]].
  revert ls. induction ps as [|p ps IH]; intros ls; cbn [fold_left].
  - split; [intros H; split; [exact H|intros l p E Hp; injection E as <-; destruct Hp]|tauto].
  - rewrite IH, filter_In, contains_iff. split.
    + intros [[A B] C]. split; [exact A|]. intros l q E Hq. injection E as <-. destruct Hq as [<-|Hq]; [exact B|]. exact (C _ q eq_refl Hq).
    + intros [A C]. split; [split; [exact A|apply (C _ p eq_refl); left; reflexivity]|]. intros l q E Hq. injection E as <-. apply (C _ q eq_refl). right. exact Hq.
Qed.
(** C131: asked for it, the reconstruction uses the true parameters of the simulation; in every case R0 and L0 of the table are
    the estimates from the telemetry. *)
Theorem C131_true_r0 : forall r0 L0 tau0 v0 a c s p t w,
  let '(u, d) := run_kasp true (r0, L0, tau0, v0) a in
  k_r0 u = k_r0 a /\ k_L0 u = k_L0 a /\ k_r0_tel u = k_r0 a /\ k_L0_tel u = k_L0 a /\
  nth 3 (kasp_row c s p t w d) 0 = r0 /\ nth 4 (kasp_row c s p t w d) 0 = L0 /\ nth 7 (kasp_row c s p t w d) 0 = k_r0 a /\ nth 8 (kasp_row c s p t w d) 0 = k_L0 a.
Proof. intros. cbn. repeat split; reflexivity. Qed.
(** C131 refuted: without true_r0 the columns TRUE R0 and TRUE L0 hold the estimates, whatever the simulation. *)
Theorem C131_true_column_refuted : forall r0 L0 tau0 v0 a c s p t w,
  let '(u, d) := run_kasp false (r0, L0, tau0, v0) a in
  nth 7 (kasp_row c s p t w d) 0 = r0 /\ nth 8 (kasp_row c s p t w d) 0 = L0 /\ (exists b, k_r0 b <> r0).
Proof. intros. cbn. repeat split; try reflexivity. exists (mkKatm (r0 + 1) L0 r0 L0 tau0 v0 0 0). cbn. lra. Qed.
(** C131 refuted: the coherence times of the table are not in the same unit: of the same r0 and wind speed, TRUE TAU0 is a million
    times TAU0 (systemDiagnosis.py:367 in seconds; atmosphere.py:83-85 in milliseconds, then times 1000). *)
Theorem C131_tau0_unit_refuted : forall b r0 L0 v0 a c s p, r0 <> 0 -> v0 <> 0 ->
  let d := snd (run_kasp b (r0, L0, 314 / 1000 * r0 / v0, v0) a) in
  let row := kasp_row c s p (314 / 1000 * 1000 * r0 / v0) v0 d in
  nth 9 row 0 = 1000000 * nth 5 row 0 /\ nth 5 row 0 <> 0.
Proof.
  intros b r0 L0 v0 a c s p H1 H2. destruct b; cbn; (split; [field; exact H2|]); unfold Rdiv; repeat apply Rmult_integral_contrapositive_currified; try apply Rinv_neq_0_compat; lra || assumption.
Qed.
(** systemDiagnosis writes the seeing without the factor 0.976-0.978: the one of a true_r0 run is 2.2 percent smaller for the same r0 *)
Theorem C131_seeing_factor : forall r0 L0 tau0 v0 a, r0 <> 0 -> k_r0 a = r0 ->
  k_seeing (fst (run_kasp true (r0, L0, tau0, v0) a)) = 978 / 1000 * k_seeing (fst (run_kasp false (r0, L0, tau0, v0) a)).
Proof. intros r0 L0 tau0 v0 a H E. cbn. rewrite E. field. split; [apply PI_neq0|exact H]. Qed.

Print Assumptions C131_columns_refuted.
Print Assumptions C131_database.
Print Assumptions C131_one_failure.
Print Assumptions C131_incomplete.
Print Assumptions C131_merge.
Print Assumptions C131_merge_again.
Print Assumptions C131_patterns.
Print Assumptions C131_true_r0.
Print Assumptions C131_true_column_refuted.
Print Assumptions C131_tau0_unit_refuted.
Print Assumptions C131_seeing_factor.
