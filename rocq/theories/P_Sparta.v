(** C130: parameters of an observation read from SPARTA files and headers. *)
From Coq Require Import Reals List Arith ZArith Bool String Ascii Lia Lra Sorted.
From Verif Require Import Base_Py M_Image M_Freq L_Freq M_Atmo L_Flux L_Tools P_Diag5 M_Sparta.
Import ListNotations.
Open Scope R_scope.

Definition increasing (ts : list R) : Prop := forall i j, (i < j < List.length ts)%nat -> nth i ts 0 < nth j ts 0.
Lemma nearest_spec ts t k : nearest ts t = Ok k -> (k < List.length ts)%nat /\ forall i, (i < List.length ts)%nat -> Rabs (nth k ts 0 - t) <= Rabs (nth i ts 0 - t).
Proof.
  unfold nearest. intros H. destruct (argmin_spec _ _ H) as (m & E & M). assert (L : (k < List.length ts)%nat) by (rewrite <- (map_length (fun u => Rabs (u - t)) ts); apply nth_error_Some; congruence).
  split; [exact L|]. intros i Hi. rewrite (nth_error_nth' _ 0) in E by (rewrite map_length; exact L). injection E as E.
  rewrite (nth_indep _ 0 ((fun u => Rabs (u - t)) 0)) in E by (rewrite map_length; exact L). rewrite (map_nth (fun u => Rabs (u - t))) in E. rewrite E. apply M. apply (in_map (fun u => Rabs (u - t))). apply nth_In. exact Hi.
Qed.
Lemma nearest_def ts t : ts <> [] -> exists k, nearest ts t = Ok k.
Proof. intros H. apply argmin_defined. destruct ts; [contradiction|discriminate]. Qed.

(** C130: for a table in order of time the window of an exposure is found for every date; it starts at or before the sample
    nearest to the date and ends at or after it, holds every sample dated within half the exposure time of that sample, and
    at most one sample beyond at each end. *)
Theorem C130_window : forall ts date texp, ts <> [] -> increasing ts -> 0 <= texp ->
  exists k a b, nearest ts date = Ok k /\ find_closest ts date texp = Ok (a, b) /\ (a <= k <= b)%nat /\ (b < List.length ts)%nat /\
   (forall i, (i < List.length ts)%nat -> Rabs (nth i ts 0 - nth k ts 0) <= texp / 2 -> (a <= i <= b)%nat) /\
   (forall i, (a < i < b)%nat -> Rabs (nth i ts 0 - nth k ts 0) < texp / 2).
Proof.
  intros ts date texp Hne Hinc HT. destruct (nearest_def ts date Hne) as (k & Ek). destruct (nearest_spec _ _ _ Ek) as [Lk Bk].
  set (tc := nth k ts 0). destruct (nearest_def ts (tc - texp / 2) Hne) as (a & Ea). destruct (nearest_def ts (tc + texp / 2) Hne) as (b & Eb).
  destruct (nearest_spec _ _ _ Ea) as [La Ba]. destruct (nearest_spec _ _ _ Eb) as [Lb Bb].
  exists k, a, b. split; [exact Ek|]. split. { unfold find_closest. rewrite Ek. cbn [bind]. rewrite (pyindex_nth ts k tc) by (unfold tc; apply nth_error_nth'; exact Lk). cbn [bind]. rewrite Ea. cbn [bind]. rewrite Eb. reflexivity. }
  assert (LO : forall i, (i < List.length ts)%nat -> tc - texp / 2 <= nth i ts 0 -> (a <= i)%nat).
  { intros i Hi H. destruct (le_lt_dec a i) as [L|L]; [exact L|exfalso]. pose proof (Hinc i a ltac:(lia)) as Q. pose proof (Ba i Hi) as P. rewrite !Rabs_right in P by lra. lra. }
  assert (HI : forall i, (i < List.length ts)%nat -> nth i ts 0 <= tc + texp / 2 -> (i <= b)%nat).
  { intros i Hi H. destruct (le_lt_dec i b) as [L|L]; [exact L|exfalso]. pose proof (Hinc b i ltac:(lia)) as Q. pose proof (Bb i Hi) as P. rewrite !Rabs_left1 in P by lra. lra. }
  split; [split; [apply LO|apply HI]; fold tc; lra || exact Lk|]. split; [exact Lb|]. split.
  - intros i Hi H. assert (- (texp / 2) <= nth i ts 0 - tc <= texp / 2) by (fold tc in H; unfold Rabs in H; destruct (Rcase_abs (nth i ts 0 - tc)); lra). split; [apply LO|apply HI]; lra || exact Hi.
  - intros i Hi. fold tc. apply Rabs_def1.
    + destruct (Rlt_le_dec (nth i ts 0 - tc) (texp / 2)) as [L|L]; [exact L|exfalso]. pose proof (Hinc i b ltac:(lia)) as Q. pose proof (Bb i ltac:(lia)) as P. rewrite !Rabs_right in P by lra. lra.
    + destruct (Rlt_le_dec (- (texp / 2)) (nth i ts 0 - tc)) as [L|L]; [exact L|exfalso]. pose proof (Hinc a i ltac:(lia)) as Q. pose proof (Ba i ltac:(lia)) as P. rewrite !Rabs_left1 in P by lra. lra.
Qed.
Lemma window_val {A} (l : list A) a b : (a <= b < List.length l)%nat -> window l (a, b) = firstn (b + 1 - a) (skipn a l).
Proof.
  intros H. unfold window, pyslice, slice_len, slice_bound. cbn [fst snd]. destruct (Z.ltb_spec (Z.of_nat a) 0); [lia|]. destruct (Z.ltb_spec (Z.of_nat b + 1) 0); [lia|].
  rewrite !Z.min_l by lia. rewrite Nat2Z.id. f_equal. lia.
Qed.
Lemma window_in {A} (d : A) (l : list A) a b x : (a <= b < List.length l)%nat -> In x (window l (a, b)) <-> exists i, (a <= i <= b)%nat /\ nth i l d = x.
Proof.
  intros H. rewrite window_val by exact H. split.
  - intros Hx. apply (In_nth _ _ d) in Hx. destruct Hx as (i & Hi & E). rewrite firstn_length, skipn_length in Hi. exists (a + i)%nat. split; [lia|]. rewrite <- E. rewrite <- (firstn_skipn (b + 1 - a) (skipn a l)) in E.
    assert (Q : nth i (firstn (b + 1 - a) (skipn a l)) d = nth i (skipn a l) d). { rewrite <- (firstn_skipn (b + 1 - a) (skipn a l)) at 2. rewrite app_nth1 by (rewrite firstn_length, skipn_length; lia). reflexivity. }
    rewrite Q. clear. revert a. induction l as [|y l IH]; intros [|a]; cbn; try reflexivity; [destruct i; reflexivity|apply IH].
  - intros (i & Hi & <-). replace (nth i l d) with (nth (i - a) (firstn (b + 1 - a) (skipn a l)) d).
    + apply nth_In. rewrite firstn_length, skipn_length. lia.
    + assert (Q : nth (i - a) (firstn (b + 1 - a) (skipn a l)) d = nth (i - a) (skipn a l) d). { rewrite <- (firstn_skipn (b + 1 - a) (skipn a l)) at 2. rewrite app_nth1 by (rewrite firstn_length, skipn_length; lia). reflexivity. }
      rewrite Q. replace i with (a + (i - a))%nat at 2 by lia. generalize (i - a)%nat as m. clear. revert a. induction l as [|y l IH]; intros [|a] m; cbn; try reflexivity; [destruct m; reflexivity|apply IH].
Qed.
(** C130: with an ordered table the photon number per sub-aperture and frame and the frame rate are the medians of the window of
    the exposure (the first divided by the number of sub-apertures), hence between two values recorded there; a table without
    one of the columns gives nan for it. *)
Theorem C130_photons : forall ts fl rt date texp ns, ts <> [] -> increasing ts -> 0 <= texp -> ns <> 0 -> List.length fl = List.length ts ->
  (forall l, rt = Some l -> List.length l = List.length ts) ->
  exists a b m, find_closest ts date texp = Ok (a, b) /\ median (window fl (a, b)) = Ok m /\
   (exists i j, (a <= i <= b)%nat /\ (a <= j <= b)%nat /\ nth i fl 0 <= m <= nth j fl 0) /\
   match rt with
   | None => read_night (ATable (mkTable ts (Some fl) None)) date texp ns = Ok (Some (m / ns), None)
   | Some l => exists r, median (window l (a, b)) = Ok r /\ read_night (ATable (mkTable ts (Some fl) rt)) date texp ns = Ok (Some (m / ns), Some r)
   end.
Proof.
  intros ts fl rt date texp ns Hne Hinc HT Hns Hfl Hrt. destruct (C130_window ts date texp Hne Hinc HT) as (k & a & b & _ & EF & AB & LB & _).
  assert (NE : forall l : list R, List.length l = List.length ts -> exists m, median (window l (a, b)) = Ok m).
  { intros l Hl. apply median_def. rewrite window_val by lia. intros E. apply (f_equal (@List.length R)) in E. rewrite firstn_length, skipn_length in E. cbn in E. lia. }
  destruct (NE fl Hfl) as (m & Em). exists a, b, m. split; [exact EF|]. split; [exact Em|]. split.
  - destruct (median_between _ _ Em) as (u & v & Hu & Hv & B). apply (window_in 0 fl a b) in Hu; [|lia]. apply (window_in 0 fl a b) in Hv; [|lia]. destruct Hu as (i & Hi & <-). destruct Hv as (j & Hj & <-). exists i, j. repeat split; lia || apply B.
  - assert (EV : forall o, read_night (ATable (mkTable ts (Some fl) o)) date texp ns = match o with None => Ok (Some (m / ns), None) | Some l => Ok (Some (m / ns), series_median (window l (a, b))) end).
    { intros o. unfold read_night. cbn [t_flux t_date t_rate]. rewrite EF. cbn [bind]. unfold series_median at 1. rewrite Em. unfold rdiv. destruct (Req_EM_T ns 0); [contradiction|]. cbn [bind fst snd]. destruct o; reflexivity. }
    destruct rt as [l|]; [|apply EV]. destruct (NE l (Hrt l eq_refl)) as (r & Er). exists r. split; [exact Er|]. rewrite EV. unfold series_median. rewrite Er. reflexivity.
Qed.
(** C130: nothing is searched without a folder or a table: the photon number and the rate are then nan. *)
Theorem C130_no_table : forall nt date texp ns, nt = NoFolder \/ nt = NoTable -> read_night nt date texp ns = Ok (None, None).
Proof. intros nt date texp ns [ ->| ->]; reflexivity. Qed.
(** C130, finding: a table with the frame rate but without the flux makes the reading fail, and an observation without the SPARTA
    file can never be read (the values to return do not exist). *)
Theorem C130_missing_refuted : (forall ts rt date texp ns, read_night (ATable (mkTable ts None (Some rt))) date texp ns = Err UnboundLocalError) /\
  (forall which nt date texp ns v, read_sparta_data None which nt date texp ns <> Ok v).
Proof. split; [reflexivity|]. intros which nt date texp ns v. cbn. destruct nt; discriminate. Qed.
(** C130, finding: in a table in order of decreasing time the window is empty and the photon number is nan although three samples
    lie in the exposure. *)
Theorem C130_order_refuted : forall t s texp ns fl, 0 < s -> 2 * s <= texp -> List.length fl = 3%nat -> ns <> 0 ->
  read_night (ATable (mkTable [t + s; t; t - s] (Some fl) None)) t texp ns = Ok (None, None).
Proof.
  intros t s texp ns fl Hs HT Hf Hns. unfold read_night. cbn [t_flux t_date t_rate].
  assert (A0 : nearest [t + s; t; t - s] t = Ok 1%nat).
  { unfold nearest, argmin. cbn [map argmin_aux]. replace (t + s - t) with s by ring. replace (t - t) with 0 by ring. replace (t - s - t) with (- s) by ring. rewrite Rabs_R0, Rabs_Ropp, !(Rabs_right s) by lra. destruct (Rlt_dec 0 s); [|lra]. destruct (Rlt_dec s 0); [lra|reflexivity]. }
  assert (A1 : nearest [t + s; t; t - s] (t - texp / 2) = Ok 2%nat).
  { unfold nearest, argmin. cbn [map argmin_aux]. rewrite !(Rabs_right (_ - _)) by lra. repeat match goal with |- context [Rlt_dec ?u ?v] => destruct (Rlt_dec u v); try lra end. reflexivity. }
  assert (A2 : nearest [t + s; t; t - s] (t + texp / 2) = Ok 0%nat).
  { unfold nearest, argmin. cbn [map argmin_aux]. rewrite !(Rabs_left1 (_ - _)) by lra. repeat match goal with |- context [Rlt_dec ?u ?v] => destruct (Rlt_dec u v); try lra end. reflexivity. }
  unfold find_closest. rewrite A0. cbn [bind]. change (pyindex [t + s; t; t - s] (Z.of_nat 1)) with (@Ok R t). cbn [bind]. rewrite A1. cbn [bind]. rewrite A2. cbn [bind].
  assert (W : window fl (2, 0)%nat = []). { unfold window, pyslice, slice_len, slice_bound. rewrite Hf. reflexivity. }
  rewrite W. reflexivity.
Qed.
(** C130: the SPARTA statistics over all frames are the last rows of the four planes, in the order of the file. *)
Theorem C130_statistics : forall p0 p1 p2 p3 q0 q1 q2 q3 nt date texp ns nr,
  List.length p1 = List.length p0 -> List.length p2 = List.length p0 -> List.length p3 = List.length p0 ->
  read_night nt date texp ns = Ok nr ->
  read_sparta_data (Some [p0 ++ [q0]; p1 ++ [q1]; p2 ++ [q2]; p3 ++ [q3]]) "last" nt date texp ns = Ok (Row q0, Row q1, Row q2, Row q3, fst nr, snd nr) /\
  (forall which, which <> "last"%string -> read_sparta_data (Some [p0 ++ [q0]; p1 ++ [q1]; p2 ++ [q2]; p3 ++ [q3]]) which nt date texp ns =
     Ok (Plane (p0 ++ [q0]), Plane (p1 ++ [q1]), Plane (p2 ++ [q2]), Plane (p3 ++ [q3]), fst nr, snd nr)).
Proof.
  intros p0 p1 p2 p3 q0 q1 q2 q3 nt date texp ns nr H1 H2 H3 HN. unfold read_sparta_data, sparta_plane.
  set (sp := [p0 ++ [q0]; p1 ++ [q1]; p2 ++ [q2]; p3 ++ [q3]]).
  change (pyindex sp 0) with (@Ok (list (list R)) (p0 ++ [q0])). change (pyindex sp 1) with (@Ok (list (list R)) (p1 ++ [q1])). change (pyindex sp 2) with (@Ok (list (list R)) (p2 ++ [q2])). change (pyindex sp 3) with (@Ok (list (list R)) (p3 ++ [q3])). change (nth 0 sp []) with (p0 ++ [q0]). cbn [bind].
  split.
  - cbn [String.eqb Ascii.eqb Bool.eqb]. rewrite app_length. cbn [List.length].
    assert (I : forall (p : list (list R)) q, List.length p = List.length p0 -> pyindex (p ++ [q]) (Z.of_nat (List.length p0 + 1) - 1) = Ok q).
    { intros p q Hp. replace (Z.of_nat (List.length p0 + 1) - 1)%Z with (Z.of_nat (List.length p)) by lia. apply pyindex_nth. rewrite nth_error_app2 by lia. rewrite Nat.sub_diag. reflexivity. }
    rewrite !I by (assumption || reflexivity). cbn [bind]. rewrite HN. reflexivity.
  - intros which Hw. destruct (String.eqb_spec which "last") as [E|_]; [contradiction|]. cbn [bind]. rewrite HN. reflexivity.
Qed.
(** C130: the detector always has a non-null read-out noise (4 electrons by default) and the pixel scale of the header or 12.25 mas;
    the airmass lies between its values at the two ends of the exposure; the seeing written is never negative. *)
Theorem C130_header : (forall p g r, let '(ps, g', ron) := get_detector_config p g r in ron <> 0 /\ (r <> 0 -> ron = r) /\ (r = 0 -> ron = 4) /\ g' = g /\ (forall v, p = Some v -> ps = v) /\ (p = None -> ps = 1225 / 100)) /\
  (forall az alt e s, let '(a, l, m) := get_telescope_pointing az alt e s in a = az /\ l = alt /\ Rmin e s <= m <= Rmax e s) /\
  (forall s, 0 <= seeing_written s /\ (0 <= s -> seeing_written s = s)).
Proof.
  split; [|split].
  - intros p g r. cbn. destruct (Req_EM_T r 0) as [E|E]; (split; [lra|]); (split; [intros; lra || reflexivity|]); (split; [intros; lra || reflexivity|]); (split; [reflexivity|]); (split; [intros v ->; reflexivity|intros ->; reflexivity]).
  - intros az alt e s. cbn. split; [reflexivity|]. split; [reflexivity|]. unfold Rmin, Rmax. destruct (Rle_dec e s); lra.
  - intros s. unfold seeing_written. destruct (Rlt_dec s 0); split; intros; lra.
Qed.
Lemma prefix_refl_app s t : String.prefix s (s ++ t) = true.
Proof. induction s as [|c s IH]; cbn [append String.prefix]; [destruct t; reflexivity|]. destruct (Ascii.ascii_dec c c); [exact IH|congruence]. Qed.
Lemma contains_iff s t : contains s t = true <-> exists a b, t = (a ++ s ++ b)%string.
Proof.
  split.
  - revert s. induction t as [|c t IH]; intros s H; cbn [contains] in H.
    + exists ""%string, ""%string. destruct s; [reflexivity|discriminate].
    + apply orb_prop in H. destruct H as [H|H].
      * exists ""%string. cbn [append]. revert H. generalize (String c t) as u. clear. induction s as [|d s IH]; intros u H; [exists u; reflexivity|]. destruct u as [|e u]; [discriminate|]. cbn [String.prefix] in H. destruct (Ascii.ascii_dec d e) as [ ->|]; [|discriminate]. destruct (IH u H) as (b & ->). exists b. reflexivity.
      * destruct (IH s H) as (a & b & ->). exists (String c a), b. reflexivity.
  - intros (a & b & ->). induction a as [|c a IH]; cbn [append].
    + destruct (s ++ b)%string as [|c t] eqn:E.
      * destruct s; [reflexivity|discriminate].
      * cbn [contains]. rewrite <- E, prefix_refl_app. reflexivity.
    + cbn [contains]. rewrite IH. apply orb_true_r.
Qed.
(** C130: the temperatures returned are exactly the floating point values of the header keys containing TEMP, each with its key,
    in the order of the header. *)
Theorem C130_temperature : forall hdr, let '(vals, names) := get_temperature hdr in
  List.length vals = List.length names /\
  (forall v k, In (v, k) (combine vals names) <-> In (k, HFloat v) hdr /\ exists a b, k = (a ++ "TEMP" ++ b)%string).
Proof.
  intros hdr. unfold get_temperature. cbv zeta. set (fl := flat_map _ _). split; [rewrite !map_length; reflexivity|]. intros v k.
  assert (C : forall (l : list (R * string)), combine (map fst l) (map snd l) = l) by (induction l as [|[u w] l IH]; [reflexivity|]; cbn [map combine fst snd]; rewrite IH; reflexivity). rewrite C.
  unfold fl. rewrite in_flat_map. split.
  - intros ([k' x] & Hin & Hx). apply filter_In in Hin. destruct Hin as [Hin Hc]. cbn [fst snd] in *. destruct x as [u|]; [|destruct Hx]. destruct Hx as [Hx|[]]. injection Hx as -> ->. split; [exact Hin|]. apply contains_iff. exact Hc.
  - intros [Hin Hc]. exists (k, HFloat v). split; [|left; reflexivity]. apply filter_In. split; [exact Hin|]. apply contains_iff. exact Hc.
Qed.
(** C130: an ordered table with three samples, one second apart, and an exposure of two seconds *)
Example C130_nonvacuous : increasing [0; 1; 2] /\ find_closest [0; 1; 2] 1 2 = Ok (0, 2)%nat /\
  get_temperature [("TEMP 1", HFloat 280); ("INS4 TEMP", HOther); ("PRES", HFloat 740); ("ESO TEMP 2", HFloat 281)]%string = ([280; 281], ["TEMP 1"; "ESO TEMP 2"]%string).
Proof.
  split; [|split; [|reflexivity]].
  - intros i j H. cbn in H. assert (C : (i, j) = (0, 1)%nat \/ (i, j) = (0, 2)%nat \/ (i, j) = (1, 2)%nat) by (destruct i as [|[|i]], j as [|[|[|j]]]; tauto || lia). destruct C as [C|[C|C]]; injection C as -> ->; cbn; lra.
  - assert (N : forall t k, Rabs (nth k [0; 1; 2] 0 - t) = 0 -> (k < 3)%nat -> nearest [0; 1; 2] t = Ok k).
    { intros t k E L. assert (T : t = nth k [0; 1; 2] 0) by (destruct (Req_EM_T (nth k [0; 1; 2] 0 - t) 0) as [Q|Q]; [lra|apply Rabs_no_R0 in Q; contradiction]). subst t. unfold nearest, argmin. cbn [map argmin_aux].
      destruct k as [|[|[|k]]]; [| | |lia]; cbn [nth]; unfold Rabs; repeat match goal with |- context [Rcase_abs ?u] => destruct (Rcase_abs u); try lra end; repeat match goal with |- context [Rlt_dec ?u ?v] => destruct (Rlt_dec u v); try lra end; reflexivity. }
    unfold find_closest. rewrite (N 1 1%nat) by (cbn; rewrite ?Rminus_diag_eq by reflexivity; try apply Rabs_R0; lia). cbn [bind]. change (pyindex [0; 1; 2] (Z.of_nat 1)) with (@Ok R 1). cbn [bind].
    rewrite (N (1 - 2 / 2) 0%nat) by (cbn; try (replace (0 - (1 - 2 / 2)) with 0 by lra; apply Rabs_R0); lia). cbn [bind].
    rewrite (N (1 + 2 / 2) 2%nat) by (cbn; try (replace (2 - (1 + 2 / 2)) with 0 by lra; apply Rabs_R0); lia). reflexivity.
Qed.
Lemma substring_app s : forall t n, String.length s = n -> substring 0 n (s ++ t) = s.
Proof. induction s as [|c s IH]; intros t [|n] H; cbn in *; try discriminate; [destruct t; reflexivity|]. rewrite IH by lia. reflexivity. Qed.
Lemma substring_all t : substring 0 (String.length t) t = t.
Proof. induction t as [|c t IH]; [reflexivity|]. cbn. rewrite IH. reflexivity. Qed.
Lemma substring_skip s : forall t m, substring (String.length s) m (s ++ t) = substring 0 m t.
Proof. induction s as [|c s IH]; intros t m; [reflexivity|]. cbn [append String.length substring]. apply IH. Qed.
Lemma length_app s t : String.length (s ++ t) = (String.length s + String.length t)%nat.
Proof. induction s as [|c s IH]; [reflexivity|]. cbn. rewrite IH. reflexivity. Qed.
(** C130: a date of ten characters and a time, separated by one character, are split exactly. *)
Theorem C130_date : forall day sep time, String.length day = 10%nat -> get_date (day ++ String sep time) = (day, time).
Proof.
  intros day sep time H. unfold get_date. rewrite substring_app by exact H. f_equal. rewrite length_app, H.
  replace (day ++ String sep time)%string with ((day ++ String sep "") ++ time)%string by (clear; induction day as [|c d IH]; [reflexivity|]; cbn; rewrite IH; reflexivity).
  replace 11%nat with (String.length (day ++ String sep "")) at 1 by (rewrite length_app, H; reflexivity). rewrite substring_skip. cbn [String.length]. replace (10 + S (String.length time) - 11)%nat with (String.length time) by lia. apply substring_all.
Qed.

Print Assumptions C130_window.
Print Assumptions C130_photons.
Print Assumptions C130_no_table.
Print Assumptions C130_missing_refuted.
Print Assumptions C130_order_refuted.
Print Assumptions C130_statistics.
Print Assumptions C130_header.
Print Assumptions C130_temperature.
Print Assumptions C130_date.
