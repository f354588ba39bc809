(** Property C125 (example) and C126: catalogues of stars. *)
From Coq Require Import Reals List Arith ZArith Bool Lia Lra Psatz Permutation Sorted.
From Flocq Require Import Core.Raux.
From Verif Require Import Base_Py Base_Sum M_Image L_Image2 M_Tools L_Tools M_Model2 M_Atmo L_Atmo M_Freq L_Freq M_Grid P_Grid P_Grid2 P_Grid3 P_Diag5 P_Diag6 M_Calib P_Calib.
Import ListNotations.
Open Scope R_scope.

(** * A complete calibration: an image of 4 x 4 pixels, one segment, one star *)
Definition ex_im : img := mkImg 4 4 (fun i j => INR (i + j)).
Definition ex_fit (_ : nat) (_ : list (R * R)) (_ : img) (_ : list R) (_ : list bool) : result fitout := Ok (mkFO (repeat 1 7) (Some (repeat 1 7)) (repeat 1 7)).
Example C125_ex : forall argsort, is_argsort argsort -> exists c, generate_psfs_grid_from_image argsort (fun _ => [mkSrc 1 1 1]) ex_fit (fun n _ => Ok (mkImg n n (fun _ _ => 1))) (fun n _ _ => Ok (mkImg n n (fun _ _ => 1))) (fun _ _ => [0; 0; 0]) 1
    ex_im [mkStar (5/2) (5/2) 10] 1 2 1 1 ByPsfs Center (Some NegInf) (Some PosInf) = Ok c /\ (forall col, In col (c_X c) -> 0 < nth 23 col 0) /\ (forall out, In out (c_coo c) -> away (c_extr c) out) /\ (forall p, In p (c_fit c) -> rows p = fov_written 2 1 /\ cols p = fov_written 2 1 /\ img_sum p = 4).
Proof.
  intros argsort AS. assert (A1 : forall v, argsort [v] = [0%nat]) by (intros v; destruct (AS [v]) as [P _]; cbn in P; apply Permutation_sym in P; now apply Permutation_length_1_inv in P).
  unfold generate_psfs_grid_from_image. change (fov_written 2 1) with 2%nat.
  destruct (segment_image_in_tiles ex_im 1) as [seg|] eqn:ES; [|discriminate]. assert (snd seg = [(2%nat, 2%nat)]) as S2. { unfold segment_image_in_tiles in ES. cbn in ES. injection ES as <-. reflexivity. }
  cbn [bind]. rewrite S2. cbn [rows cols ex_im]. change (4 / 1)%nat with 4%nat. change (4 / 2)%nat with 2%nat. change (2 / 2)%nat with 1%nat.
  assert (SL : select_candidates_for_fitting argsort 4 4 [(2%nat, 2%nat)] [mkStar (5/2) (5/2) 10] 1 1 (Some NegInf) (Some PosInf) (INR 2) (INR 2) Center = Ok [(5 / 2 - INR 2, 5 / 2 - INR 2)]).
  { unfold select_candidates_for_fitting. cbn [mapM]. unfold select_one. cbn [map length Nat.ltb Nat.leb filter]. unfold in_borders. cbn [fst snd st_x st_y st_m]. change (4 / 2)%nat with 2%nat. unfold rltb. destruct (Rlt_dec (INR 2 - INR 2 + INR 1) (5 / 2)) as [_|H]; [|exfalso; apply H; cbn; lra]. destruct (Rlt_dec (5 / 2) (INR 2 + INR 2 - INR 1)) as [_|H]; [|exfalso; apply H; cbn; lra]. cbn [andb ext_gt ext_ltm length Nat.ltb Nat.leb map]. rewrite A1. reflexivity. }
  rewrite SL. cbn [bind].
  assert (EX : extract_one ex_im 2 (5 / 2 - INR 2 + INR 2) (5 / 2 - INR 2 + INR 2) = Ok (mkImg 2 2 (fun i j => px (img_slice ex_im 1 3 1 3) i j))).
  { unfold extract_one. replace (Ztrunc (5 / 2 - INR 2 + INR 2 - INR 2 / 2)) with 1%Z by (symmetry; rewrite Ztrunc_floor by (cbn; lra); apply Zfloor_imp; cbn; lra). replace (Ztrunc (5 / 2 - INR 2 + INR 2 + INR 2 / 2)) with 3%Z by (symmetry; rewrite Ztrunc_floor by (cbn; lra); apply Zfloor_imp; cbn; lra). reflexivity. }
  unfold extract_multiple_psf. cbn [mapM fst snd]. rewrite EX. cbn [bind].
  unfold fit_multiple_psfs. cbn [length Nat.ltb Nat.leb combine mapM]. unfold fit_one, star_guess. cbn [mapM map s_f fst snd]. unfold lsum at 1. cbn [fold_right]. rewrite rdiv_ok by lra. cbn [bind]. unfold ex_fit. cbn [bind fo_err fo_x fo_met repeat firstn app length Nat.eqb detected flat_map map nth].
  match goal with |- context [median ?l] => destruct (median_def l) as (m & Em); [discriminate|]; rewrite Em end. cbn [bind mapM regen skipn]. cbn [bind fst snd row_of map column_of nth].
  match goal with |- context [interpolate_nan argsort 2 ?p ?co ?o ?ms 1 4] => rewrite (C125_all_detected argsort 2 p co o ms 1 4 AS) by (intros q [<-|[]]; lra); destruct (C71_convex argsort 2 p co o ms 1 4 AS) as (l & El & _) end; try discriminate; try reflexivity; try lia.
  - intros q [<-|[]]. lra.
  - intros out Ho. unfold interp_points, interp_axis, linspace in Ho. cbn [seq map Nat.eqb list_prod app] in Ho. rewrite (Zfloor_imp 2) in Ho by (cbn; lra). change (- Z.of_nat 4 / 2)%Z with (-2)%Z in Ho. destruct Ho as [<-|[]]. intros [|k] c Hc; [|destruct k; discriminate]. cbn [nth_error] in Hc. injection Hc as <-. cbn [fst snd]. unfold distance. intros Q. apply sqrt_eq_0 in Q; [cbn in Q; lra|]. cbn. nra.
  - rewrite El. cbn [bind]. eexists. split; [reflexivity|]. cbn [c_X c_coo c_extr c_fit]. split; [intros col [<-|[]]; cbn [nth]; lra|]. split.
    + intros out Ho. unfold interp_points, interp_axis, linspace in Ho. cbn [seq map Nat.eqb list_prod app] in Ho. rewrite (Zfloor_imp 2) in Ho by (cbn; lra). change (- Z.of_nat 4 / 2)%Z with (-2)%Z in Ho. destruct Ho as [<-|[]]. intros [|k] c Hc; [|destruct k; discriminate]. cbn [nth_error] in Hc. injection Hc as <-. cbn [fst snd]. unfold distance. intros Q. apply sqrt_eq_0 in Q; [cbn in Q; lra|]. cbn. nra.
    + intros p [<-|[]]. cbn [rows cols]. split; [reflexivity|]. split; [reflexivity|]. unfold img_sum. cbn [rows cols px rsum]. lra.
Qed.

(** * Catalogues (C126) *)
(** With the usual one line of labels: the table holds the word k of the line n + 1 at (k, n), nothing else. *)
Theorem C126_catalog : forall W (num : W -> result R) labels rows (val : nat -> nat -> R),
  (forall n l, nth_error rows n = Some l -> forall k, (k < length labels)%nat -> exists w, nth_error l k = Some w /\ num w = Ok (val k n)) ->
  exists tab, read_catalog num (labels :: rows) 1 = Ok (tab, labels) /\ tab = map (fun k => map (val k) (seq 0 (length rows))) (seq 0 (length labels)).
Proof.
  intros W num labels rows val H. unfold read_catalog. change (nth 0 (labels :: rows) []) with labels. change (length (labels :: rows)) with (S (length rows)). cbv zeta. replace (Z.of_nat (S (length rows)) - 1)%Z with (Z.of_nat (length rows)) by lia. destruct (Z.ltb_spec (Z.of_nat (length rows)) 0); [lia|].
  replace (Z.to_nat (Z.of_nat (length rows) + 1)) with (S (length rows)) by lia. replace (Z.to_nat (Z.of_nat (length rows) + 1 - 1)) with (length rows) by lia. rewrite Nat2Z.id.
  assert (RD : map (fun n => nth n (labels :: rows) []) (seq 0 (S (length rows))) = labels :: rows). { change (S (length rows)) with (length (labels :: rows)). apply (pick_all (labels :: rows) []). }
  rewrite RD. rewrite (mapM_ok _ (fun k => map (val k) (seq 0 (length rows)))).
  - cbn [bind]. eexists. split; reflexivity.
  - intros k Hk. apply in_seq in Hk. rewrite mapM_comp. rewrite (mapM_ok _ (val k)).
    + cbn [bind]. rewrite map_length, seq_length, Nat.eqb_refl. reflexivity.
    + intros n Hn. apply in_seq in Hn. destruct (nth_error rows n) as [l|] eqn:E; [|apply nth_error_None in E; lia]. destruct (H n l E k ltac:(lia)) as (w & Hw & Ew). replace (1 + Z.of_nat n)%Z with (Z.of_nat (S n)) by lia. rewrite (pyindex_some (labels :: rows) (S n) l) by exact E. cbn [bind]. rewrite (pyindex_some l k w) by exact Hw. cbn [bind]. exact Ew.
Qed.
(** a line with too few words, or a word that is not a number, is refused *)
Theorem C126_bad_line : forall W (num : W -> result R) labels rows n l k, nth_error rows n = Some l -> (k < length labels)%nat -> (nth_error l k = None \/ exists w e, nth_error l k = Some w /\ num w = Err e) ->
  forall p, read_catalog num (labels :: rows) 1 <> Ok p.
Proof.
  intros W num labels rows n l k Hl Hk Hb p E. unfold read_catalog in E. change (nth 0 (labels :: rows) []) with labels in E. change (length (labels :: rows)) with (S (length rows)) in E. cbv zeta in E. replace (Z.of_nat (S (length rows)) - 1)%Z with (Z.of_nat (length rows)) in E by lia. destruct (Z.ltb_spec (Z.of_nat (length rows)) 0); [lia|].
  replace (Z.to_nat (Z.of_nat (length rows) + 1)) with (S (length rows)) in E by lia. replace (Z.to_nat (Z.of_nat (length rows) + 1 - 1)) with (length rows) in E by lia.
  assert (RD : map (fun n => nth n (labels :: rows) []) (seq 0 (S (length rows))) = labels :: rows). { change (S (length rows)) with (length (labels :: rows)). apply (pick_all (labels :: rows) []). }
  rewrite RD in E. destruct (mapM _ (seq 0 (length labels))) as [tab|] eqn:ET; cbn [bind] in E; [|discriminate]. clear E.
  destruct (proj2 (P_Diag6.mapM_nth _ _ _ ET) k k) as (c & _ & C); [rewrite (nth_error_nth' _ 0%nat) by (now rewrite seq_length); now rewrite seq_nth|]. rewrite mapM_comp in C. destruct (mapM _ (seq 0 (length rows))) as [col|] eqn:EC; cbn [bind] in C; [|discriminate]. clear C.
  assert (Hn : (n < length rows)%nat) by (apply nth_error_Some; congruence). destruct (proj2 (P_Diag6.mapM_nth _ _ _ EC) n n) as (v & _ & V); [rewrite (nth_error_nth' _ 0%nat) by (now rewrite seq_length); now rewrite seq_nth|].
  replace (1 + Z.of_nat n)%Z with (Z.of_nat (S n)) in V by lia. rewrite (pyindex_some (labels :: rows) (S n) l) in V by exact Hl. cbn [bind] in V. destruct Hb as [Hb|(w & e & Hw & Ee)].
  - apply nth_error_None in Hb. unfold pyindex in V. cbv zeta in V. destruct (Z.ltb_spec (Z.of_nat k) 0); [lia|]. destruct (Z.leb_spec (Z.of_nat (length l)) (Z.of_nat k)); [|lia]. rewrite orb_true_r in V. cbn [bind] in V. discriminate.
  - rewrite (pyindex_some l k w) in V by exact Hw. cbn [bind] in V. congruence.
Qed.
(** Finding: nSkip other than 1 never gives the table: no line to skip is refused; with s >= 2 lines to skip the number of values
    read does not fit the table; refused, unless a single value is read, which is then repeated. *)
Theorem C126_skip_zero_refuted : forall W (num : W -> result R) labels rows p, labels <> [] -> read_catalog num (labels :: rows) 0 <> Ok p.
Proof.
  intros W num labels rows p N E. unfold read_catalog in E. change (nth 0 (labels :: rows) []) with labels in E. change (length (labels :: rows)) with (S (length rows)) in E. cbv zeta in E. rewrite Z.sub_0_r in E. destruct (Z.ltb_spec (Z.of_nat (S (length rows))) 0); [lia|]. rewrite Z.sub_0_r in E. replace (Z.to_nat (Z.of_nat (S (length rows)) + 1)) with (S (S (length rows))) in E by lia.
  destruct labels as [|w0 lb]; [contradiction|]. set (L := (w0 :: lb) :: rows) in *. set (rd := map (fun n => nth n L []) (seq 0 (S (S (length rows))))) in *. cbn [length seq mapM] in E. rewrite mapM_comp in E.
  destruct (mapM _ (0%nat :: 1%nat :: seq 2 (length rows))) as [col|] eqn:EC; cbn [bind] in E; [|discriminate]. clear E. change (0%nat :: 1%nat :: seq 2 (length rows)) with (seq 0 (S (S (length rows)))) in EC.
  destruct (proj2 (P_Diag6.mapM_nth _ _ _ EC) (S (length rows)) (S (length rows))) as (v & _ & V); [rewrite (nth_error_nth' _ 0%nat) by (rewrite seq_length; lia); rewrite seq_nth by lia; reflexivity|].
  rewrite Z.add_0_l in V. rewrite (pyindex_some rd (S (length rows)) []) in V.
  - cbn [bind] in V. unfold pyindex in V. cbn in V. discriminate.
  - unfold rd. rewrite nth_error_map. rewrite (nth_error_nth' _ 0%nat) by (rewrite seq_length; lia). rewrite seq_nth by lia. cbn [option_map Nat.add]. f_equal. apply nth_overflow. unfold L. cbn [length]. lia.
Qed.
Theorem C126_skip_many_refuted : forall W (num : W -> result R) labels rows s p, labels <> [] -> (2 <= s)%nat -> (2 * s < S (length rows))%nat -> read_catalog num (labels :: rows) (Z.of_nat s) <> Ok p.
Proof.
  intros W num labels rows s p N S2 B E. unfold read_catalog in E. change (nth 0 (labels :: rows) []) with labels in E. change (length (labels :: rows)) with (S (length rows)) in E. cbv zeta in E. destruct (Z.ltb_spec (Z.of_nat (S (length rows)) - Z.of_nat s) 0); [lia|]. destruct labels as [|w0 lb]; [contradiction|]. set (L := (w0 :: lb) :: rows) in *. cbn [length] in E. change (seq 0 (S (length lb))) with (0%nat :: seq 1 (length lb)) in E. cbn [mapM] in E.
  destruct (mapM _ (map _ (seq 0 _))) as [col|] eqn:EC; cbn [bind] in E; [|discriminate]. apply P_Diag6.mapM_nth in EC. destruct EC as (LC & _). rewrite map_length, seq_length in LC.
  destruct (Nat.eqb_spec (length col) (Z.to_nat (Z.of_nat (S (length rows)) - Z.of_nat s))) as [Q|Q]; [lia|]. destruct col as [|a [|b col]]; cbn [length] in LC; try lia. discriminate.
Qed.
Example C126_ex : exists tab, read_catalog (fun x : R => Ok x) [[0; 0]; [1; 2]; [3; 4]] 1 = Ok (tab, [0; 0]) /\ tab = [[1; 3]; [2; 4]].
Proof.
  destruct (C126_catalog R (fun x => Ok x) [0; 0] [[1; 2]; [3; 4]] (fun k n => nth k (nth n [[1; 2]; [3; 4]] []) 0)) as (tab & E & T).
  - intros [|[|n]] l Hl [|[|k]] Hk; cbn in *; try lia; try (destruct n; discriminate); injection Hl as <-; eexists; split; reflexivity.
  - exists tab. split; [exact E|]. rewrite T. reflexivity.
Qed.

Print Assumptions C126_catalog.
Print Assumptions C126_bad_line.
Print Assumptions C126_skip_zero_refuted.
Print Assumptions C126_skip_many_refuted.
