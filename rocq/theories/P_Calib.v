(** Property C125: calibration of the PSF model over a field of stars. *)
From Coq Require Import Reals List Arith ZArith Bool Lia Lra Psatz Permutation Sorted FunctionalExtensionality.
From Flocq Require Import Core.Raux.
From Verif Require Import Base_Py Base_Sum M_Image L_Image2 M_Tools L_Tools M_Model2 M_Atmo L_Atmo L_Config M_Fit L_Fit M_Freq M_Grid P_Grid P_Grid2 P_Grid3 P_Diag5 P_Diag6 M_Calib.
Import ListNotations.
Open Scope R_scope.

(** * Interpolation with fits that failed *)
Lemma mapM_comp {A B C} (f : A -> B) (g : B -> result C) l : mapM g (map f l) = mapM (fun a => g (f a)) l.
Proof. induction l as [|a l IH]; [reflexivity|]. cbn [map mapM]. now rewrite IH. Qed.
Lemma mapM_ext {A B} (f g : A -> result B) l : (forall a, In a l -> f a = g a) -> mapM f l = mapM g l.
Proof. induction l as [|a l IH]; intros H; [reflexivity|]. cbn [mapM]. rewrite (H a (or_introl eq_refl)), IH by (intros; apply H; now right). reflexivity. Qed.
Lemma nth_map {A B} (f : A -> B) l k da db : (k < length l)%nat -> nth k (map f l) db = f (nth k l da).
Proof. intros H. rewrite nth_indep with (d' := f da) by (now rewrite map_length). apply map_nth. Qed.
Lemma nth_mapseq {B} (f : nat -> B) n k db : (k < n)%nat -> nth k (map f (seq 0 n)) db = f k.
Proof. intros H. rewrite (nth_map f _ _ 0%nat) by (now rewrite seq_length). now rewrite seq_nth. Qed.
Lemma filter_ext_in' {A} (f g : A -> bool) l : (forall a, In a l -> f a = g a) -> filter f l = filter g l.
Proof. induction l as [|a l IH]; intros H; [reflexivity|]. cbn [filter]. rewrite (H a (or_introl eq_refl)), IH by (intros; apply H; now right). reflexivity. Qed.
Lemma filter_split {A} (f : A -> bool) l : (length (filter f l) + length (filter (fun a => negb (f a)) l) = length l)%nat.
Proof. induction l as [|a l IH]; [reflexivity|]. cbn [filter]. destruct (f a); cbn [negb length]; lia. Qed.
Definition pick {A} (l : list A) (d : A) (ix : list nat) : list A := map (fun k => nth k l d) ix.
Definition img0 : img := mkImg 0 0 (fun _ _ => 0).
Lemma interp_nan_sel argsort psfs coo w nNeigh n out : is_argsort argsort -> length w = length psfs ->
  let fin := filter (some_of w) (seq 0 (length psfs)) in (nNeigh <= length fin)%nat \/ length fin = length psfs ->
  interp_one_nan argsort psfs coo w nNeigh n out = interp_one argsort (pick psfs img0 fin) (pick coo (0, 0) fin) (map get0 (pick w None fin)) nNeigh n out.
Proof.
  intros AS Lw fin C. unfold interp_one_nan, interp_one.
  set (g := fun k => option_map (fun v => v * hypot (fst out - fst (nth k coo (0, 0))) (snd out - snd (nth k coo (0, 0)))) (nth k w None)). set (d := map g (seq 0 (length psfs))).
  assert (Ld : length d = length psfs) by (unfold d; now rewrite map_length, seq_length).
  assert (Dk : forall k, (k < length psfs)%nat -> nth k d None = g k) by (intros k Hk; unfold d; now rewrite nth_mapseq).
  assert (Sk : forall k, (k < length psfs)%nat -> some_of d k = some_of w k) by (intros k Hk; unfold some_of; rewrite Dk by exact Hk; unfold g; destruct (nth k w None); reflexivity).
  assert (Fin : filter (some_of d) (seq 0 (length d)) = fin) by (rewrite Ld; apply filter_ext_in'; intros k Hk; apply in_seq in Hk; apply Sk; lia).
  assert (Fl : forall k, In k fin -> (k < length psfs)%nat /\ exists v, nth k w None = Some v) by (intros k Hk; apply filter_In in Hk; destruct Hk as (H1 & H2); apply in_seq in H1; split; [lia|]; unfold some_of in H2; destruct (nth k w None); [eauto|discriminate]).
  unfold argsort_nan. rewrite Fin. set (D := map (fun k => get0 (nth k d None)) fin).
  assert (LF : length (pick psfs img0 fin) = length fin) by apply map_length. rewrite LF.
  assert (ED : map (fun k => nth k (map get0 (pick w None fin)) 0 * hypot (fst out - fst (nth k (pick coo (0, 0) fin) (0, 0))) (snd out - snd (nth k (pick coo (0, 0) fin) (0, 0)))) (seq 0 (length fin)) = D).
  { apply nth_ext with (d := 0) (d' := 0); [unfold D; now rewrite !map_length, seq_length|]. intros k Hk. rewrite map_length, seq_length in Hk. rewrite nth_mapseq by exact Hk. unfold D. rewrite (nth_map _ fin k 0%nat) by exact Hk. rewrite (nth_map get0 _ k None) by (unfold pick; now rewrite map_length). unfold pick. rewrite (nth_map _ fin k 0%nat) by exact Hk. rewrite (nth_map (fun k0 => nth k0 coo (0, 0)) fin k 0%nat) by exact Hk. destruct (Fl (nth k fin 0%nat) (nth_In _ _ Hk)) as (B & v & Ev). rewrite Dk by exact B. unfold g. rewrite Ev. reflexivity. }
  rewrite ED. set (o := argsort D). assert (Lo : length o = length fin) by (unfold o; rewrite argsort_length by exact AS; unfold D; apply map_length).
  assert (Ids : firstn nNeigh (map (fun i => nth i fin 0%nat) o ++ filter (fun k => negb (some_of d k)) (seq 0 (length d))) = map (fun i => nth i fin 0%nat) (firstn nNeigh o)).
  { rewrite firstn_app, map_length, Lo, <- firstn_map. destruct C as [C|C].
    - replace (nNeigh - length fin)%nat with 0%nat by lia. apply app_nil_r.
    - replace (filter (fun k => negb (some_of d k)) (seq 0 (length d))) with (@nil nat); [rewrite firstn_nil; apply app_nil_r|]. symmetry. rewrite <- Fin in C. clear - C Ld. rewrite <- Ld in C. clear Ld. pose proof (filter_split (some_of d) (seq 0 (length d))) as Q. rewrite seq_length in Q. destruct (filter (fun k => negb (some_of d k)) (seq 0 (length d))) eqn:E; [reflexivity|]. cbn [length] in Q. lia. }
  rewrite Ids. rewrite mapM_comp. set (ks := firstn nNeigh o). assert (Kl : forall k, In k ks -> (k < length fin)%nat) by (intros k Hk; assert (In k o) as Q by (rewrite <- (firstn_skipn nNeigh o); apply in_or_app; now left); pose proof (argsort_lt argsort D k AS Q) as B; unfold D in B; now rewrite map_length in B).
  rewrite (mapM_ext _ (fun k => rdiv 1 (nth k D 0)) ks). 2:{ intros k Hk. specialize (Kl k Hk). destruct (Fl (nth k fin 0%nat) (nth_In _ _ Kl)) as (B & v & Ev). unfold D. rewrite (nth_map _ fin k 0%nat) by exact Kl. rewrite Dk by exact B. unfold g. rewrite Ev. reflexivity. }
  destruct (mapM _ ks) as [inv|]; cbn [bind]; [|reflexivity]. destruct (mapM _ inv) as [wo|]; cbn [bind]; [|reflexivity]. f_equal. f_equal. apply functional_extensionality. intros i. apply functional_extensionality. intros j. f_equal.
  clear - Kl. revert wo. induction ks as [|k ks IH]; intros [|w0 wo]; try reflexivity. cbn [map combine fst snd]. f_equal; [|apply IH; intros; apply Kl; now right]. f_equal. f_equal. unfold pick. symmetry. apply (nth_map (fun k0 => nth k0 psfs img0)). apply Kl. now left.
Qed.

Lemma pick_all {A} (l : list A) d : pick l d (seq 0 (length l)) = l.
Proof. unfold pick. apply nth_ext with (d := d) (d' := d); [now rewrite map_length, seq_length|]. intros k Hk. rewrite map_length, seq_length in Hk. now rewrite nth_mapseq. Qed.
Lemma filter_true {A} (f : A -> bool) l : (forall a, In a l -> f a = true) -> filter f l = l.
Proof. induction l as [|a l IH]; intros H; [reflexivity|]. cbn [filter]. rewrite (H a (or_introl eq_refl)), IH by (intros; apply H; now right). reflexivity. Qed.
Lemma is0_spec x : is0 x = true <-> x = 0.
Proof. unfold is0. destruct (Req_EM_T x 0); split; intros; congruence. Qed.
(** when every fit succeeded (no null mean-square error) the interpolation is the one of property C71 *)
Theorem C125_all_detected : forall argsort n psfs coo outs mse nMax nNeigh, is_argsort argsort -> (forall m, In m mse -> 0 < m) ->
  interpolate_nan argsort n psfs coo outs mse nMax nNeigh = interpolate_psfs_in_fov argsort n psfs coo outs mse nMax nNeigh.
Proof.
  intros argsort n psfs coo outs mse nMax nNeigh AS Pm. unfold interpolate_nan, interpolate_psfs_in_fov. destruct (Nat.eqb_spec nMax 0) as [|NM]; [reflexivity|]. cbv zeta. set (nSeg := (length psfs / nMax)%nat).
  destruct (Nat.eqb_spec (nMax * nSeg) (length psfs)) as [E|]; [|reflexivity]. destruct (Nat.eqb_spec (length coo) (length psfs)) as [Lc|]; [|reflexivity]. destruct (Nat.eqb_spec (length mse) (length psfs)) as [Lm|]; [|reflexivity]. cbn [andb negb].
  assert (W : forall p, In p (seq 0 (length psfs)) -> w_nan mse nMax nSeg p = Ok (Some (wspec mse nMax nSeg p))).
  { intros p Hp. apply in_seq in Hp. unfold w_nan. replace (existsb is0 _) with false.
    - rewrite (proj1 (w_mse_ok mse nMax nSeg ltac:(lia) Pm p ltac:(lia))). reflexivity.
    - symmetry. apply not_true_is_false. intros Q. apply existsb_exists in Q. destruct Q as (x & Hx & Zx). apply is0_spec in Zx. apply in_map_iff in Hx. destruct Hx as (a & Ea & Ha). apply in_seq in Ha. assert (0 < x); [|lra]. rewrite <- Ea. apply Pm, nth_In. assert (nSeg <> 0)%nat by nia. pose proof (Nat.mod_upper_bound p nSeg ltac:(assumption)). nia. }
  rewrite (mapM_ok _ (fun p => Some (wspec mse nMax nSeg p)) _ W). rewrite (mapM_ok _ (wspec mse nMax nSeg)) by (intros p Hp; apply in_seq in Hp; apply (w_mse_ok mse nMax nSeg ltac:(lia) Pm p ltac:(lia))). cbn [bind].
  apply mapM_ext. intros out _. set (w := map (fun p => Some (wspec mse nMax nSeg p)) (seq 0 (length psfs))). assert (Lw : length w = length psfs) by (unfold w; now rewrite map_length, seq_length).
  assert (F : filter (some_of w) (seq 0 (length psfs)) = seq 0 (length psfs)) by (apply filter_true; intros k Hk; apply in_seq in Hk; unfold some_of, w; now rewrite nth_mapseq by lia).
  rewrite interp_nan_sel; [|exact AS|exact Lw|rewrite F, seq_length; now right]. rewrite F. rewrite pick_all. rewrite <- Lc at 1. rewrite pick_all. f_equal. rewrite <- Lw. rewrite pick_all. unfold w. rewrite map_map, ?map_length, ?seq_length. reflexivity.
Qed.
(** With one star per segment, the segments without a fit (null error) are ignored, as if they had not been given, as long as
    enough of the others remain. *)
Definition found (mse : list R) : list nat := filter (fun k => negb (is0 (nth k mse 0))) (seq 0 (length mse)).
Lemma wnan1 mse p : (p < length mse)%nat -> w_nan mse 1 (length mse) p = Ok (if is0 (nth p mse 0) then None else Some 1).
Proof.
  intros H. unfold w_nan, w_mse. cbn [seq map existsb Nat.mul Nat.add mapM]. rewrite Nat.mod_small by exact H. destruct (is0 (nth p mse 0)) eqn:E; cbn [orb]; [reflexivity|]. assert (N : nth p mse 0 <> 0) by (intros Q; apply is0_spec in Q; congruence). rewrite rdiv_ok by exact N. cbn [bind]. unfold lsum. cbn [fold_right]. rewrite rdiv_ok; [cbn [bind]; do 2 f_equal; field; exact N|]. rewrite Rplus_0_r. unfold Rdiv. rewrite Rmult_1_l. now apply Rinv_neq_0_compat.
Qed.
Theorem C125_undetected_ignored : forall argsort n psfs coo outs mse nNeigh, is_argsort argsort -> length coo = length psfs -> length mse = length psfs -> (nNeigh <= length (found mse))%nat ->
  interpolate_nan argsort n psfs coo outs mse 1 nNeigh =
  interpolate_psfs_in_fov argsort n (pick psfs img0 (found mse)) (pick coo (0, 0) (found mse)) outs (pick mse 0 (found mse)) 1 nNeigh.
Proof.
  intros argsort n psfs coo outs mse nNeigh AS Lc Lm Hn. unfold interpolate_nan, interpolate_psfs_in_fov. cbn [Nat.eqb]. cbv zeta. rewrite !Nat.div_1_r, !Nat.mul_1_l. set (fin := found mse) in *. assert (LP : forall {A} (l : list A) d, length (pick l d fin) = length fin) by (intros; apply map_length). rewrite !LP, Lc, Lm, !Nat.eqb_refl. cbn [andb negb].
  rewrite <- Lm. rewrite (mapM_ok _ (fun p => if is0 (nth p mse 0) then None else Some 1)) by (intros p Hp; apply in_seq in Hp; apply wnan1; lia). cbn [bind].
  rewrite (mapM_ok _ (fun _ => 1) (seq 0 (length fin))).
  2:{ intros p Hp. apply in_seq in Hp. assert (N : nth p (pick mse 0 fin) 0 <> 0). { unfold pick. rewrite (nth_map _ fin p 0%nat) by lia. assert (In (nth p fin 0%nat) fin) as Q by (apply nth_In; lia). apply filter_In in Q. destruct Q as (_ & Q). intros Z. apply is0_spec in Z. rewrite Z in Q. discriminate. }
      unfold w_mse. cbn [seq mapM Nat.mul Nat.add]. rewrite Nat.mod_small by lia. rewrite rdiv_ok by exact N. cbn [bind]. unfold lsum. cbn [fold_right]. rewrite rdiv_ok; [f_equal; field; exact N|]. rewrite Rplus_0_r. unfold Rdiv. rewrite Rmult_1_l. now apply Rinv_neq_0_compat. }
  cbn [bind]. apply mapM_ext. intros out _. set (w := map (fun p => if is0 (nth p mse 0) then None else Some 1) (seq 0 (length mse))). assert (Lw : length w = length psfs) by (unfold w; now rewrite map_length, seq_length).
  assert (F : filter (some_of w) (seq 0 (length psfs)) = fin). { unfold fin, found. rewrite <- Lm. apply filter_ext_in'. intros k Hk. apply in_seq in Hk. unfold some_of, w. rewrite nth_mapseq by lia. destruct (is0 (nth k mse 0)); reflexivity. }
  rewrite interp_nan_sel; [|exact AS|exact Lw|rewrite F; left; exact Hn]. rewrite F. f_equal. apply nth_ext with (d := 0) (d' := 0); [rewrite !map_length, seq_length; apply LP|]. intros k Hk. rewrite map_length, LP in Hk. rewrite (nth_map get0 _ k None) by (now rewrite LP). unfold pick. rewrite (nth_map _ fin k 0%nat) by exact Hk. rewrite nth_mapseq by exact Hk.
  assert (In (nth k fin 0%nat) fin) as Q by (apply nth_In; lia). apply filter_In in Q. destruct Q as (Q1 & Q2). apply in_seq in Q1. unfold w. rewrite nth_mapseq by lia. destruct (is0 _); [discriminate|reflexivity].
Qed.
Lemma mapM_fail {A B} (f : A -> result B) l : (forall a, In a l -> (exists b, f a = Ok b) \/ f a = Err NonFinite) -> (exists a, In a l /\ f a = Err NonFinite) -> mapM f l = Err NonFinite.
Proof.
  induction l as [|x l IH]; intros H (a & Ha & Ea); [destruct Ha|]. cbn [mapM]. destruct (H x (or_introl eq_refl)) as [(b & Eb)|E]; [|now rewrite E]. rewrite Eb. cbn [bind]. destruct Ha as [->|Ha]; [congruence|]. rewrite IH; [reflexivity|intros; apply H; now right|eauto].
Qed.
(** Finding (one star per segment): when fewer stars than the number of neighbours (4) were fitted, and one was not, no value is finite. *)
Theorem C125_too_few_refuted : forall argsort n psfs coo outs mse nNeigh, is_argsort argsort -> length coo = length psfs -> length mse = length psfs -> outs <> [] ->
  (length (found mse) < nNeigh)%nat -> (length (found mse) < length mse)%nat -> interpolate_nan argsort n psfs coo outs mse 1 nNeigh = Err NonFinite.
Proof.
  intros argsort n psfs coo outs mse nNeigh AS Lc Lm No H1 H2. unfold interpolate_nan. cbn [Nat.eqb]. cbv zeta. rewrite Nat.div_1_r, Nat.mul_1_l, Lc, Lm, Nat.eqb_refl. cbn [andb negb].
  rewrite <- Lm. rewrite (mapM_ok _ (fun p => if is0 (nth p mse 0) then None else Some 1)) by (intros p Hp; apply in_seq in Hp; apply wnan1; lia). cbn [bind].
  destruct outs as [|out outs]; [contradiction|]. cbn [mapM]. replace (interp_one_nan _ _ _ _ _ _ out) with (@Err img NonFinite); [reflexivity|]. symmetry. unfold interp_one_nan.
  match goal with |- context [argsort_nan argsort ?l] => set (d := l) end. assert (Ld : length d = length mse) by (unfold d; rewrite map_length, seq_length; congruence).
  assert (Dk : forall k, (k < length mse)%nat -> some_of d k = negb (is0 (nth k mse 0))). { intros k Hk. unfold some_of, d. rewrite nth_mapseq by lia. rewrite nth_mapseq by lia. destruct (is0 _); reflexivity. }
  rewrite (mapM_fail _ (firstn nNeigh (argsort_nan argsort d))); [reflexivity| |].
  - intros k _. destruct (nth k d None) as [v|]; [|now right]. unfold rdiv. destruct (Req_EM_T v 0); [now right|left; eauto].
  - unfold argsort_nan. rewrite Ld. rewrite (filter_ext_in' (some_of d) (fun k => negb (is0 (nth k mse 0)))) by (intros k Hk; apply in_seq in Hk; apply Dk; lia). fold (found mse). set (fin := found mse) in *. set (a := map (fun i => nth i fin 0%nat) _).
    assert (La : length a = length fin) by (unfold a; rewrite map_length, argsort_length by exact AS; apply map_length).
    pose proof (filter_split (fun k => negb (is0 (nth k mse 0))) (seq 0 (length mse))) as Sp. rewrite seq_length in Sp. fold (found mse) in Sp. fold fin in Sp.
    rewrite (filter_ext_in' (fun k => negb (some_of d k)) (fun k => negb (negb (is0 (nth k mse 0)))) (seq 0 (length mse))) by (intros k Hk; apply in_seq in Hk; now rewrite Dk by lia).
    destruct (filter (fun k => negb (negb (is0 (nth k mse 0)))) (seq 0 (length mse))) as [|q Q] eqn:EQ; [cbn [length] in Sp; lia|]. exists q. split.
    + rewrite firstn_app, La. apply in_or_app. right. replace (nNeigh - length fin)%nat with (S (nNeigh - length fin - 1)) by lia. now left.
    + assert (In q (q :: Q)) as I by now left. rewrite <- EQ in I. apply filter_In in I. destruct I as (I1 & I2). apply in_seq in I1. rewrite <- (Dk q) in I2 by lia. unfold some_of in I2. destruct (nth q d None); [discriminate|reflexivity].
Qed.
(** Finding (several stars per segment): one star not fitted, sharing its normalisation with a fitted one, makes every
    interpolated PSF undefined: the fitted one gets a null weight, so that it seems to be on every target. *)
Theorem C125_one_missing_refuted : forall argsort n psfs coo outs mse nMax nSeg nNeigh a b c, is_argsort argsort -> length psfs = (nMax * nSeg)%nat -> length coo = length psfs -> length mse = length psfs -> (forall m, In m mse -> 0 <= m) ->
  outs <> [] -> nNeigh <> 0%nat -> (a < nMax)%nat -> (b < nMax)%nat -> (c < nSeg)%nat -> nth (a * nSeg + c) mse 0 = 0 -> nth (b * nSeg + c) mse 0 <> 0 ->
  interpolate_nan argsort n psfs coo outs mse nMax nNeigh = Err NonFinite.
Proof.
  intros argsort n psfs coo outs mse nMax nSeg nNeigh a b c AS Lp Lc Lm Pm No Hn Ha Hb Hc Za Nb. unfold interpolate_nan. destruct (Nat.eqb_spec nMax 0); [lia|]. cbv zeta. rewrite Lp. replace (nMax * nSeg / nMax)%nat with nSeg by (rewrite Nat.mul_comm, Nat.div_mul by assumption; reflexivity). rewrite Lc, Lm, Lp, Nat.eqb_refl. cbn [andb negb].
  assert (PW : forall p, (p < nMax * nSeg)%nat -> exists o, w_nan mse nMax nSeg p = Ok o /\ (forall v, o = Some v -> 0 <= v)).
  { intros p Hp. unfold w_nan. destruct (existsb is0 _) eqn:E; [eexists; split; [reflexivity|]; intros v Ev; destruct (is0 _); [discriminate|injection Ev as <-; lra]|].
    assert (NZ : forall q, (q < nMax)%nat -> 0 < nth (q * nSeg + p mod nSeg) mse 0). { intros q Hq. assert (B : (q * nSeg + p mod nSeg < length mse)%nat) by (rewrite Lm, Lp; pose proof (Nat.mod_upper_bound p nSeg ltac:(lia)); nia). pose proof (Pm _ (nth_In mse 0 B)) as [P|P]; [exact P|]. exfalso. assert (existsb is0 (map (fun a => nth (a * nSeg + p mod nSeg) mse 0) (seq 0 nMax)) = true) by (apply existsb_exists; exists (nth (q * nSeg + p mod nSeg) mse 0); split; [apply in_map_iff; exists q; split; [reflexivity|apply in_seq; lia]|apply is0_spec; now symmetry]). congruence. }
    unfold w_mse. rewrite (mapM_ok _ (fun q => 1 / nth (q * nSeg + p mod nSeg) mse 0)) by (intros q Hq; apply in_seq in Hq; apply rdiv_ok; apply Rgt_not_eq, NZ; lia). cbn [bind].
    assert (P0 : 0 < nth p mse 0). { specialize (NZ (p / nSeg)%nat ltac:(apply Nat.div_lt_upper_bound; lia)). pose proof (Nat.div_mod p nSeg ltac:(lia)) as DM. replace (p / nSeg * nSeg + p mod nSeg)%nat with p in NZ by lia. exact NZ. }
    rewrite rdiv_ok by lra. cbn [bind]. assert (S0 : 0 < lsum (map (fun q => 1 / nth (q * nSeg + p mod nSeg) mse 0) (seq 0 nMax))) by (apply lsum_pos; [destruct nMax; [lia|discriminate]|]; intros x Hx; apply in_map_iff in Hx; destruct Hx as (q & <- & Hq); apply in_seq in Hq; apply Rdiv_lt_0_compat; [lra|apply NZ; lia]).
    rewrite rdiv_ok by lra. cbn [bind]. eexists. split; [reflexivity|]. intros v Ev. injection Ev as <-. left. apply Rdiv_lt_0_compat; [apply Rdiv_lt_0_compat; lra|exact S0]. }
  destruct (mapM (w_nan mse nMax nSeg) (seq 0 (nMax * nSeg))) as [w|e] eqn:EW.
  2:{ exfalso. assert (exists v, mapM (w_nan mse nMax nSeg) (seq 0 (nMax * nSeg)) = Ok v) as (v & Ev); [|congruence]. clear EW. assert (G : forall l, (forall p, In p l -> (p < nMax * nSeg)%nat) -> exists v, mapM (w_nan mse nMax nSeg) l = Ok v). { induction l as [|p l IH]; intros H; [eexists; reflexivity|]. destruct (PW p ltac:(apply H; now left)) as (o & Eo & _). destruct IH as (v & Ev); [intros; apply H; now right|]. cbn [mapM]. rewrite Eo, Ev. eexists; reflexivity. } apply G. intros p Hp. apply in_seq in Hp. lia. }
  cbn [bind].
  assert (Lw : length w = (nMax * nSeg)%nat) by (rewrite (proj1 (P_Diag6.mapM_nth _ _ _ EW)); apply seq_length).
  assert (Wk : forall k, (k < nMax * nSeg)%nat -> w_nan mse nMax nSeg k = Ok (nth k w None)).
  { intros k Hk. destruct (proj2 (P_Diag6.mapM_nth _ _ _ EW) k k) as (o & H1 & H2); [rewrite (nth_error_nth' _ 0%nat) by (now rewrite seq_length); now rewrite seq_nth|]. rewrite (nth_error_nth _ _ None H1). exact H2. }
  destruct outs as [|out outs]; [contradiction|]. cbn [mapM]. replace (interp_one_nan _ _ _ _ _ _ out) with (@Err img NonFinite); [reflexivity|]. symmetry. unfold interp_one_nan. rewrite Lp.
  match goal with |- context [argsort_nan argsort ?l] => set (d := l) end. assert (Ld : length d = (nMax * nSeg)%nat) by (unfold d; now rewrite map_length, seq_length).
  set (p := (b * nSeg + c)%nat). assert (Hp : (p < nMax * nSeg)%nat) by (unfold p; nia).
  assert (Wp : nth p w None = Some 0). { specialize (Wk p Hp). unfold w_nan in Wk. replace (existsb is0 _) with true in Wk; [|symmetry; apply existsb_exists; exists 0; split; [|apply is0_spec; reflexivity]; apply in_map_iff; exists a; split; [|apply in_seq; lia]; replace (p mod nSeg)%nat with c; [exact Za|]; unfold p; rewrite Nat.add_comm, Nat.mod_add by lia; symmetry; now apply Nat.mod_small]. apply Ok_inj in Wk. destruct (is0 (nth p mse 0)) eqn:E; [apply is0_spec in E; contradiction|]. now symmetry. }
  assert (Dp : nth p d None = Some 0) by (unfold d; rewrite nth_mapseq by exact Hp; rewrite Wp; cbn [option_map]; f_equal; ring).
  assert (Dn : forall k, (k < nMax * nSeg)%nat -> forall v, nth k d None = Some v -> 0 <= v). { intros k Hk v. unfold d. rewrite nth_mapseq by exact Hk. destruct (PW k Hk) as (o & Eo & Po). rewrite Wk in Eo by exact Hk. apply Ok_inj in Eo. subst o. destruct (nth k w None) as [u|]; cbn [option_map]; [|discriminate]. intros E. injection E as <-. apply Rmult_le_pos; [now apply Po|apply sqrt_pos]. }
  rewrite (mapM_fail _ (firstn nNeigh (argsort_nan argsort d))); [reflexivity| |].
  { intros k _. destruct (nth k d None) as [v|]; [|now right]. unfold rdiv. destruct (Req_EM_T v 0); [now right|left; eauto]. }
  unfold argsort_nan. rewrite Ld. set (fin := filter (some_of d) (seq 0 (nMax * nSeg))). set (D := map (fun k => get0 (nth k d None)) fin).
  assert (Fp : In p fin) by (apply filter_In; split; [apply in_seq; lia|unfold some_of; now rewrite Dp]). assert (LD : length D = length fin) by apply map_length.
  apply In_nth with (d := 0%nat) in Fp. destruct Fp as (i & Hi & Ei). pose proof (argsort_all argsort D i AS ltac:(lia)) as Io. destruct (AS D) as (_ & Ss). destruct (argsort D) as [|o0 o] eqn:EO; [destruct Io|].
  assert (B0 : (o0 < length fin)%nat) by (rewrite <- LD; apply (argsort_lt argsort D o0 AS); rewrite EO; now left).
  assert (Le : nth o0 D 0 <= 0). { assert (nth i D 0 = 0) as Q by (unfold D; rewrite (nth_map _ fin i 0%nat) by exact Hi; now rewrite Ei, Dp). destruct Io as [->|Io]; [lra|]. inversion Ss as [|? ? _ Fa]; subst. rewrite Forall_forall in Fa. specialize (Fa i Io). lra. }
  assert (Q0 : In (nth o0 fin 0%nat) fin) by now apply nth_In. apply filter_In in Q0. destruct Q0 as (Q1 & Q2). apply in_seq in Q1. unfold some_of in Q2. unfold D in Le. rewrite (nth_map _ fin o0 0%nat) in Le by exact B0.
  destruct nNeigh; [contradiction|]. cbn [map app firstn]. exists (nth o0 fin 0%nat). split; [now left|]. destruct (nth (nth o0 fin 0%nat) d None) as [v|] eqn:Ev; [|reflexivity]. cbn [get0] in Le. pose proof (Dn (nth o0 fin 0%nat) ltac:(lia) v Ev) as Nv. unfold rdiv. destruct (Req_EM_T v 0); [reflexivity|lra].
Qed.

(** * Fits of the sub-images *)
(** the first guess given to each fit: as many values as flags; nothing fixed but the constant C and the jitter; the fluxes of
    the stars add up to one; positions from the centre of the image *)
Theorem C125_guess : forall im d x0, d <> [] -> star_guess im d = Ok x0 -> exists p, x0 = guess0 ++ p ++ map (fun s => s_y s - INR (rows im / 2)) d ++ map (fun s => s_x s - INR (cols im / 2)) d ++ [0] /\
  length x0 = length (star_fixed (length d)) /\ length p = length d /\ lsum p = 1 /\ (forall k, nth k (star_fixed (length d)) false = true <-> k = 1%nat \/ (7 <= k < 10)%nat) /\
  ((forall s, In s d -> 0 < s_f s) -> forall x, In x p -> 0 < x <= 1).
Proof.
  intros im d x0 N E. unfold star_guess in E. destruct (mapM _ d) as [p|] eqn:EP; cbn [bind] in E; [|discriminate]. apply Ok_inj in E. subst x0. exists p. unfold centred. rewrite !map_map. cbn [fst snd].
  assert (Z : lsum (map s_f d) <> 0). { intros Z. destruct d as [|s d]; [contradiction|]. cbn [mapM] in EP. unfold rdiv at 1 in EP. rewrite Z in EP. destruct (Req_EM_T 0 0); [discriminate|lra]. }
  rewrite (mapM_ok _ (fun s => s_f s / lsum (map s_f d))) in EP by (intros; now apply rdiv_ok). apply Ok_inj in EP. subst p.
  split; [reflexivity|]. split; [rewrite !app_length; unfold star_fixed; rewrite !app_length, !repeat_length, !map_length; cbn [length guess0]; lia|]. split; [apply map_length|].
  assert (S1 : lsum (map (fun s => s_f s / lsum (map s_f d)) d) = 1). { rewrite <- (map_map s_f (fun x => x / lsum (map s_f d))), lsum_scal. field. exact Z. }
  split; [exact S1|]. split.
  - intros k. unfold star_fixed. destruct (Nat.lt_ge_cases k 10) as [L|G].
    + do 10 (destruct k as [|k]; [cbn; split; intros; try discriminate; try lia; reflexivity|]). lia.
    + change ([false; true; false; false; false; false; false] ++ repeat true 3 ++ repeat false (3 * length d + 1)) with (([false; true; false; false; false; false; false] ++ repeat true 3) ++ repeat false (3 * length d + 1)). rewrite app_nth2 by (cbn [length app repeat]; lia). split; [|lia]. intros H. exfalso. cbn [length app repeat] in H. generalize dependent (k - 10)%nat. generalize (3 * length d + 1)%nat. clear. intros m q H. assert (nth q (repeat false m) false = false) by (revert q H; induction m as [|m IH]; intros [|q] H; cbn in *; auto). congruence.
  - intros P x Hx. apply in_map_iff in Hx. destruct Hx as (s & <- & Hs). assert (Sp : 0 < lsum (map s_f d)) by (apply lsum_pos; [destruct d; [contradiction|discriminate]|]; intros y Hy; apply in_map_iff in Hy; destruct Hy as (t & <- & Ht); now apply P).
    split; [apply Rdiv_lt_0_compat; auto|]. apply Rmult_le_reg_r with (lsum (map s_f d)); [exact Sp|]. unfold Rdiv. rewrite Rmult_assoc, Rinv_l, Rmult_1_r, Rmult_1_l by lra. clear - P Hs. induction d as [|t d IH]; [destruct Hs|]. cbn [map]. change (lsum (s_f t :: map s_f d)) with (s_f t + lsum (map s_f d)).
    assert (G : forall l, (forall u, In u l -> 0 < s_f u) -> 0 <= lsum (map s_f l)) by (induction l as [|u l IHl]; intros H; [cbn; lra|]; cbn [map]; change (lsum (s_f u :: map s_f l)) with (s_f u + lsum (map s_f l)); specialize (IHl (fun z Hz => H z (or_intror Hz))); specialize (H u (or_introl eq_refl)); lra).
    destruct Hs as [->|Hs]; [pose proof (G d (fun u Hu => P u (or_intror Hu))); lra|]. specialize (IH (fun u Hu => P u (or_intror Hu)) Hs). specialize (P t (or_introl eq_refl)). lra.
Qed.
(** The table: one column of 24 values per sub-image: the seven parameters, their errors, the coordinates, the distance to the
    centre and the metrics of its own fit; zeros when no star is found. One PSF per sub-image: the model with the parameters of
    its own fit, but the same r0 for all, between the smallest and the largest fitted; zeros when no star is found. *)
Definition fitted (fitter : list (R * R) -> img -> list R -> list bool -> result fitout) (ps : R) (im : img) (d : list source) (coo : R * R) (col : list R) : Prop :=
  exists x0 f e, star_guess im d = Ok x0 /\ fitter (map (fun c => (fst c * ps, snd c * ps)) (centred im d)) im x0 (star_fixed (length d)) = Ok f /\ fo_err f = Some e /\
    col = firstn 7 (fo_x f) ++ firstn 7 e ++ [fst coo; snd coo; sqrt (fst coo ^ 2 + snd coo ^ 2)] ++ fo_met f /\ length col = 24%nat.
Lemma fit_one_some detect fitter ps im coo c : fit_one detect fitter ps im coo = Ok c -> (detect im = [] /\ c = None) \/ exists col, detect im <> [] /\ c = Some col /\ fitted fitter ps im (detect im) coo col.
Proof.
  unfold fit_one. destruct (detect im) as [|s d] eqn:E; intros H; [left; apply Ok_inj in H; auto|]. right. destruct (star_guess im (s :: d)) as [x0|] eqn:EG; cbn [bind] in H; [|discriminate]. destruct (fitter _ im x0 _) as [f|] eqn:EF; cbn [bind] in H; [|discriminate]. destruct (fo_err f) as [e|] eqn:EE; [|discriminate]. match type of H with context [(length ?l =? 24)%nat] => set (col := l) in * end. destruct (Nat.eqb_spec (length col) 24) as [L|]; [|discriminate]. apply Ok_inj in H. subst c. exists col. split; [discriminate|]. split; [reflexivity|]. exists x0, f, e. repeat split; auto.
Qed.
Lemma F2_mapM {A B} (f : A -> result B) l v : mapM f l = Ok v -> Forall2 (fun a b => f a = Ok b) l v.
Proof. revert v. induction l as [|a l IH]; intros v E; cbn [mapM] in E; [apply Ok_inj in E; subst; constructor|]. destruct (f a) eqn:F; cbn [bind] in E; [|discriminate]. destruct (mapM f l); cbn [bind] in E; [|discriminate]. apply Ok_inj in E. subst. constructor; auto. Qed.
Lemma comb_nth {A B} (l : list A) (m : list B) k a b : nth_error l k = Some a -> nth_error m k = Some b -> nth_error (combine l m) k = Some (a, b).
Proof. revert m k. induction l as [|x l IH]; intros [|y m] [|k] H1 H2; cbn in *; try discriminate; [congruence|now apply IH]. Qed.
Theorem C125_fits : forall detect fitter render ps fov sub coo X psfs, fit_multiple_psfs detect fitter render ps fov sub coo = Ok (X, psfs) ->
  length X = length sub /\ length psfs = length sub /\ exists r0,
    (forall k im c, nth_error sub k = Some im -> nth_error coo k = Some c ->
       (detect im = [] -> nth_error X k = Some (repeat 0 24) /\ nth_error psfs k = Some (mkImg fov fov (fun _ _ => 0))) /\
       (detect im <> [] -> exists col p, nth_error X k = Some col /\ fitted fitter ps im (detect im) c col /\ nth_error psfs k = Some p /\ render (r0 :: firstn 6 (skipn 1 col) ++ [0; 0; 0; 1; 0; 0; 0]) = Ok p)) /\
    ((exists im, In im sub /\ detect im <> []) -> exists i j ci cj imi imj, nth_error sub i = Some imi /\ detect imi <> [] /\ nth_error sub j = Some imj /\ detect imj <> [] /\ nth_error X i = Some ci /\ nth_error X j = Some cj /\ nth 0 ci 0 <= r0 <= nth 0 cj 0).
Proof.
  intros detect fitter render ps fov sub coo X psfs E. unfold fit_multiple_psfs in E. destruct (Nat.ltb_spec (length coo) (length sub)) as [|LC]; [discriminate|]. destruct (mapM _ (combine sub coo)) as [cl|] eqn:EC; cbn [bind] in E; [|discriminate].
  pose proof (P_Diag6.mapM_nth _ _ _ EC) as (Lcl & Ncl). rewrite combine_length, Nat.min_l in Lcl by exact LC.
  assert (COMB : forall k im c, nth_error sub k = Some im -> nth_error coo k = Some c -> nth_error (combine sub coo) k = Some (im, c)) by (intros; now apply comb_nth).
  assert (KEY : forall k im c, nth_error sub k = Some im -> nth_error coo k = Some c -> exists o, nth_error cl k = Some o /\ ((detect im = [] /\ o = None) \/ exists col, detect im <> [] /\ o = Some col /\ fitted fitter ps im (detect im) c col)).
  { intros k im c H1 H2. destruct (Ncl k (im, c) (COMB k im c H1 H2)) as (o & O1 & O2). cbn [fst snd] in O2. exists o. split; [exact O1|now apply fit_one_some]. }
  destruct (detected cl) as [|c0 cs] eqn:ED.
  - apply Ok_inj in E. injection E as <- <-. split; [now rewrite map_length|]. split; [now rewrite map_length|]. exists 0.
    assert (AN : forall o, In o cl -> o = None) by (intros [c|] Ho; [|reflexivity]; exfalso; assert (In c (detected cl)) as Q by (unfold detected; apply in_flat_map; exists (Some c); split; [exact Ho|now left]); rewrite ED in Q; destruct Q).
    split.
    + intros k im c H1 H2. destruct (KEY k im c H1 H2) as (o & O1 & O2). pose proof (AN o (nth_error_In _ _ O1)) as ->. split.
      * intros _. rewrite !nth_error_map, O1. split; reflexivity.
      * intros D. exfalso. destruct O2 as [(D' & _)|(col & _ & Q & _)]; [contradiction|discriminate].
    + intros (im & Him & D). exfalso. apply In_nth_error in Him. destruct Him as (k & Hk). assert (exists c, nth_error coo k = Some c) as (c & Hc). { destruct (nth_error coo k) eqn:Q; [eauto|]. apply nth_error_None in Q. assert (k < length sub)%nat by (apply nth_error_Some; congruence). lia. }
      destruct (KEY k im c Hk Hc) as (o & O1 & O2). pose proof (AN o (nth_error_In _ _ O1)) as ->. destruct O2 as [(D' & _)|(col & _ & Q & _)]; [contradiction|discriminate].
  - rewrite <- ED in E. clear EC. destruct (median _) as [r0|] eqn:EM; cbn [bind] in E; [|discriminate]. destruct (mapM _ cl) as [ps'|] eqn:EP; cbn [bind] in E; [|discriminate]. apply Ok_inj in E. injection E as <- <-. pose proof (P_Diag6.mapM_nth _ _ _ EP) as (Lps & Nps). split; [now rewrite map_length|]. split; [congruence|]. exists r0. split.
    + intros k im c H1 H2. destruct (KEY k im c H1 H2) as (o & O1 & O2). destruct (Nps k o O1) as (p & P1 & P2). split.
      * intros D. destruct O2 as [(_ & ->)|(col & D' & _)]; [|contradiction]. cbn [regen] in P2. apply Ok_inj in P2. subst p. rewrite nth_error_map, O1. auto.
      * intros D. destruct O2 as [(D' & _)|(col & _ & -> & F)]; [contradiction|]. exists col, p. rewrite nth_error_map, O1. cbn [regen] in P2. repeat split; auto.
    + intros _. destruct (median_between _ _ EM) as (a & b & Ha & Hb & Hab).
      assert (G : forall a, In a (map (fun c => nth 0 c 0) (detected cl)) -> exists i c im, nth_error sub i = Some im /\ detect im <> [] /\ nth_error (map column_of cl) i = Some c /\ nth 0 c 0 = a).
      { intros z Hz. apply in_map_iff in Hz. destruct Hz as (c & <- & Hc). unfold detected in Hc. apply in_flat_map in Hc. destruct Hc as (o & Ho & Hc). destruct o as [c'|]; [|destruct Hc]. destruct Hc as [->|[]]. apply In_nth_error in Ho. destruct Ho as (i & Hi). assert (Bi : (i < length sub)%nat) by (rewrite <- Lcl; apply nth_error_Some; congruence).
        destruct (nth_error sub i) as [im|] eqn:S1; [|apply nth_error_None in S1; lia]. destruct (nth_error coo i) as [co|] eqn:S2; [|apply nth_error_None in S2; lia]. destruct (KEY i im co S1 S2) as (o & O1 & O2). exists i, c, im. split; [exact S1|]. rewrite Hi in O1. injection O1 as <-. split; [destruct O2 as [(_ & Q)|(col & D & _)]; [discriminate|exact D]|]. rewrite nth_error_map, Hi. auto. }
      destruct (G a Ha) as (i & ci & imi & A1 & A2 & A3 & A4). destruct (G b Hb) as (j & cj & imj & B1 & B2 & B3 & B4). exists i, j, ci, cj, imi, imj. rewrite A4, B4. auto 10.
Qed.

(** * Targets of the interpolation *)
(** When the size of the image is a multiple of twice the number of segments, the targets are the centres of the segments,
    counted from the centre of the image. *)
Theorem C125_points : forall n nSeg k, nSeg <> 0%nat -> (n mod (2 * nSeg) = 0)%nat -> (k < nSeg)%nat ->
  nth k (interp_axis n nSeg) 0 = INR (k * (n / nSeg) + n / nSeg / 2) - INR (n / 2).
Proof.
  intros n nSeg k H M Hk. apply Nat.mod_divides in M; [|lia]. destruct M as (c & ->). replace (2 * nSeg * c / nSeg)%nat with (2 * c)%nat by (replace (2 * nSeg * c)%nat with (2 * c * nSeg)%nat by lia; now rewrite Nat.div_mul). replace (2 * c / 2)%nat with c by (rewrite Nat.mul_comm, Nat.div_mul; lia). replace (2 * nSeg * c / 2)%nat with (nSeg * c)%nat by (replace (2 * nSeg * c)%nat with (nSeg * c * 2)%nat by lia; rewrite Nat.div_mul; lia).
  assert (IN : INR nSeg <> 0) by now apply not_0_INR.
  unfold interp_axis. replace (INR (2 * nSeg * c) / INR nSeg / 2) with (IZR (Z.of_nat c)) by (rewrite !mult_INR, <- INR_IZR_INZ; cbn [INR]; field; exact IN). rewrite Zfloor_IZR. replace (- Z.of_nat (2 * nSeg * c) / 2)%Z with (- Z.of_nat (nSeg * c))%Z by (apply Z.div_unique_exact; lia). replace (2 * nSeg * c / 2)%nat with (nSeg * c)%nat by (replace (2 * nSeg * c)%nat with (nSeg * c * 2)%nat by lia; rewrite Nat.div_mul; lia).
  unfold linspace. rewrite nth_mapseq by exact Hk. rewrite opp_IZR, <- !INR_IZR_INZ. rewrite plus_INR, !mult_INR. cbn [INR]. destruct (Nat.eqb_spec nSeg 1) as [->|N1].
  - assert (k = 0)%nat as -> by lia. cbn [INR]. ring.
  - rewrite minus_INR by lia. cbn [INR]. assert (INR nSeg - 1 <> 0). { change 1 with (INR 1). rewrite <- minus_INR by lia. apply not_0_INR. lia. } field. assumption.
Qed.
(** Finding: for other sizes they drift from the centres: an image of 6 pixels in 2 segments of 3 has its centres at -2 and 1, the targets are -2 and 2. *)
Theorem C125_points_refuted : interp_axis 6 2 = [-2; 2] /\ map (fun k => INR (k * (6 / 2) + 6 / 2 / 2) - INR (6 / 2)) (seq 0 2) = [-2; 1].
Proof.
  split; [|cbn [seq map]; change (6 / 2)%nat with 3%nat; change (3 / 2)%nat with 1%nat; cbn [Nat.mul Nat.add INR]; f_equal; [lra|f_equal; lra]]. unfold interp_axis. rewrite (Zfloor_imp 1) by (cbn; lra). change (- Z.of_nat 6 / 2)%Z with (-3)%Z. change (6 / 2)%nat with 3%nat. unfold linspace. cbn [seq map Nat.eqb Nat.sub INR]. f_equal; [lra|]. f_equal. lra.
Qed.

(** * The whole calibration *)
Lemma concat_len {A} (l : list (list A)) n : (forall x, In x l -> length x = n) -> length (concat l) = (length l * n)%nat.
Proof. induction l as [|x l IH]; intros H; [reflexivity|]. cbn [concat]. rewrite app_length, IH by (intros; apply H; now right). rewrite (H x) by now left. cbn [length]. lia. Qed.
Lemma select_one_len argsort ny nx c stars nMax b lo hi crit sel : select_one argsort ny nx c stars nMax b lo hi crit = Ok sel -> length sel = nMax.
Proof.
  unfold select_one. destruct (_ <? _)%nat; [discriminate|]. destruct lo; [|discriminate]. destruct hi; [|discriminate]. destruct (_ <? _)%nat; [discriminate|]. destruct (match crit with Isolated => _ | Center => _ | OtherCrit => _ end) as [ind|]; cbn [bind]; [|discriminate]. destruct (mapM _ ind) as [s|]; cbn [bind]; [|discriminate]. destruct (Nat.eqb_spec (length s) nMax) as [E|]; intros H; [apply Ok_inj in H; now subst|]. destruct s as [|x [|y s]]; try discriminate. apply Ok_inj in H. subst sel. apply repeat_length.
Qed.
Lemma interpolate_nan_len argsort n psfs coo outs mse nMax nNeigh l : interpolate_nan argsort n psfs coo outs mse nMax nNeigh = Ok l -> length l = length outs.
Proof. unfold interpolate_nan. destruct (_ =? 0)%nat; [discriminate|]. destruct (negb _); [discriminate|]. destruct (mapM _ (seq _ _)); cbn [bind]; [|discriminate]. intros H. now apply P_Diag6.mapM_nth in H. Qed.
Lemma points_len nY nX nSeg : length (interp_points nY nX nSeg) = (nSeg * nSeg)%nat.
Proof. unfold interp_points. rewrite prod_length. unfold interp_axis, linspace. now rewrite !map_length, seq_length. Qed.
(** An accepted calibration returns nSeg^2 interpolated PSFs, at nSeg^2 positions, and nPSFMax stars per segment: positions,
    sub-images, columns and fitted PSFs in the same number and order. *)
Theorem C125_counts : forall argsort detect fitter render call polyfit ps im stars nSeg nPx nMax fact mode crit lo hi c,
  generate_psfs_grid_from_image argsort detect fitter render call polyfit ps im stars nSeg nPx nMax fact mode crit lo hi = Ok c ->
  length (c_interp c) = (nSeg * nSeg)%nat /\ length (c_coo c) = (nSeg * nSeg)%nat /\ length (c_extr c) = (nSeg * nSeg * nMax)%nat /\ length (c_sub c) = (nSeg * nSeg * nMax)%nat /\ length (c_X c) = (nSeg * nSeg * nMax)%nat /\ length (c_fit c) = (nSeg * nSeg * nMax)%nat /\
  (forall k y x w, nth_error (c_extr c) k = Some (y, x) -> nth_error (c_sub c) k = Some w -> extract_one im nPx (y + INR (rows im / 2)) (x + INR (cols im / 2)) = Ok w) /\
  fit_multiple_psfs detect (fitter (fov_written nPx fact)) (render (fov_written nPx fact)) ps (fov_written nPx fact) (c_sub c) (c_extr c) = Ok (c_X c, c_fit c) /\
  (mode = ByPsfs -> interpolate_nan argsort (fov_written nPx fact) (c_fit c) (c_extr c) (c_coo c) (row_of (c_X c) 23) nMax 4 = Ok (c_interp c)) /\ mode <> OtherMode.
Proof.
  intros argsort detect fitter render call polyfit ps im stars nSeg nPx nMax fact mode crit lo hi c E. unfold generate_psfs_grid_from_image in E. destruct (segment_image_in_tiles im nSeg) as [seg|] eqn:ES; cbn [bind] in E; [|discriminate]. destruct (select_candidates_for_fitting _ _ _ _ _ _ _ _ _ _ _) as [coo|] eqn:EC; cbn [bind] in E; [|discriminate]. destruct (extract_multiple_psf _ _ _ _ _) as [sub|] eqn:EX; cbn [bind] in E; [|discriminate]. destruct (fit_multiple_psfs _ _ _ _ _ _ _) as [f|] eqn:EF; cbn [bind] in E; [|discriminate]. destruct (match mode with ByPsfs => _ | ByParameters => _ | OtherMode => _ end) as [out|] eqn:EM; cbn [bind] in E; [|discriminate]. apply Ok_inj in E. subst c. cbn [c_interp c_coo c_extr c_sub c_X c_fit].
  assert (LS : length (snd seg) = (nSeg * nSeg)%nat). { unfold segment_image_in_tiles in ES. destruct (nSeg =? 0)%nat; [discriminate|]. destruct (mapM _ (list_prod _ _)) as [t|] eqn:ET; cbn [bind] in ES; [|discriminate]. apply Ok_inj in ES. subst seg. cbn [snd]. rewrite map_length. apply P_Diag6.mapM_nth in ET. rewrite (proj1 ET), prod_length, !seq_length. reflexivity. }
  assert (LC : length coo = (nSeg * nSeg * nMax)%nat). { unfold select_candidates_for_fitting in EC. destruct (mapM _ (snd seg)) as [l|] eqn:EL; cbn [bind] in EC; [|discriminate]. apply Ok_inj in EC. subst coo. rewrite map_length. rewrite (concat_len l nMax). - rewrite (proj1 (P_Diag6.mapM_nth _ _ _ EL)), LS. reflexivity. - intros s Hs. destruct (mapM_some _ _ _ EL s Hs) as (q & _ & Q). eapply select_one_len. exact Q. }
  assert (LX : length sub = length coo) by (unfold extract_multiple_psf in EX; now apply P_Diag6.mapM_nth in EX).
  destruct f as [X psfs]. destruct (C125_fits _ _ _ _ _ _ _ _ _ EF) as (L1 & L2 & _). cbn [fst snd] in *. rewrite LX, LC in *. rewrite points_len.
  assert (LO : length out = (nSeg * nSeg)%nat). { rewrite <- (points_len (rows im) (cols im) nSeg). destruct mode; [now apply interpolate_nan_len in EM| |discriminate]. destruct (create_spatial_variations_psf_model _ _ _) as [M|]; cbn [bind] in EM; [|discriminate]. unfold compute_psfs_grid in EM. now apply P_Diag6.mapM_nth in EM. }
  repeat (split; [assumption || reflexivity|]). split; [|split; [exact EF|split; [intros ->; exact EM|intros ->; discriminate]]].
  intros k y x w H1 H2. unfold extract_multiple_psf in EX. destruct (proj2 (P_Diag6.mapM_nth _ _ _ EX) k (y, x) H1) as (w' & W1 & W2). cbn [fst snd] in W2. congruence.
Qed.
(** Finding: with the default limits of magnitude (None) the calibration is always refused. *)
Theorem C125_default_limits_refuted : forall argsort detect fitter render call polyfit ps im stars nSeg nPx nMax fact mode crit lo hi c, nSeg <> 0%nat -> lo = None \/ hi = None ->
  generate_psfs_grid_from_image argsort detect fitter render call polyfit ps im stars nSeg nPx nMax fact mode crit lo hi <> Ok c.
Proof.
  intros argsort detect fitter render call polyfit ps im stars nSeg nPx nMax fact mode crit lo hi c N H E. unfold generate_psfs_grid_from_image in E. destruct (segment_image_in_tiles im nSeg) as [seg|] eqn:ES; cbn [bind] in E; [|discriminate].
  assert (LS : length (snd seg) = (nSeg * nSeg)%nat). { unfold segment_image_in_tiles in ES. destruct (nSeg =? 0)%nat; [discriminate|]. destruct (mapM _ (list_prod _ _)) as [t|] eqn:ET; cbn [bind] in ES; [|discriminate]. apply Ok_inj in ES. subst seg. cbn [snd]. rewrite map_length. apply P_Diag6.mapM_nth in ET. rewrite (proj1 ET), prod_length, !seq_length. reflexivity. }
  unfold select_candidates_for_fitting in E. destruct (snd seg) as [|q qs]; [cbn in LS; nia|]. cbn [mapM] in E. destruct (C70_no_limit_refuted argsort (rows im / nSeg) (cols im / nSeg) q stars nMax (nPx / 2) lo hi crit H) as (e & Ee). cbv beta in E. destruct Ee as (Ee & _). rewrite Ee in E. discriminate.
Qed.
(** With the interpolation of the PSFs: when every star was fitted with a positive error, no target is on a star and the fitted PSFs have the same flux, so has every interpolated PSF. *)
Theorem C125_flux : forall argsort detect fitter render call polyfit ps im stars nSeg nPx nMax fact crit lo hi c F, is_argsort argsort -> nSeg <> 0%nat -> nMax <> 0%nat ->
  generate_psfs_grid_from_image argsort detect fitter render call polyfit ps im stars nSeg nPx nMax fact ByPsfs crit lo hi = Ok c ->
  (forall col, In col (c_X c) -> 0 < nth 23 col 0) -> (forall out, In out (c_coo c) -> away (c_extr c) out) ->
  (forall p, In p (c_fit c) -> rows p = fov_written nPx fact /\ cols p = fov_written nPx fact /\ img_sum p = F) ->
  forall p, In p (c_interp c) -> img_sum p = F.
Proof.
  intros argsort detect fitter render call polyfit ps im stars nSeg nPx nMax fact crit lo hi c F AS NS NM E PX AW SH p Hp. destruct (C125_counts _ _ _ _ _ _ _ _ _ _ _ _ _ _ _ _ _ _ E) as (L1 & L2 & L3 & L4 & L5 & L6 & _ & _ & I & _). specialize (I eq_refl).
  assert (PM : forall m, In m (row_of (c_X c) 23) -> 0 < m) by (intros m Hm; apply in_map_iff in Hm; destruct Hm as (col & <- & Hc); now apply PX). rewrite C125_all_detected in I by assumption.
  refine (C71_flux _ _ _ _ _ _ _ _ _ F AS NM _ _ _ _ _ PM AW SH I p Hp); [lia| | | |].
  - destruct (c_fit c); [cbn in L6; nia|discriminate].
  - rewrite L6. apply Nat.mod_mul. exact NM.
  - congruence.
  - unfold row_of. rewrite map_length. congruence.
Qed.
(** With the interpolation of the parameters: two targets at the same distance of the centre receive the same PSF. *)
Theorem C125_radial : forall call M coo nPx l i j ci cj a b, compute_psfs_grid call M coo nPx = Ok l -> nth_error coo i = Some ci -> nth_error coo j = Some cj ->
  fst ci ^ 2 + snd ci ^ 2 = fst cj ^ 2 + snd cj ^ 2 -> nth_error l i = Some a -> nth_error l j = Some b -> a = b.
Proof.
  intros call M coo nPx l i j ci cj a b E Hi Hj D Ha Hb. unfold compute_psfs_grid in E. destruct (proj2 (P_Diag6.mapM_nth _ _ _ E) i ci Hi) as (a' & A1 & A2). destruct (proj2 (P_Diag6.mapM_nth _ _ _ E) j cj Hj) as (b' & B1 & B2). unfold grid_params, hypot in A2, B2. rewrite D in A2. congruence.
Qed.

Print Assumptions C125_all_detected.
Print Assumptions C125_undetected_ignored.
Print Assumptions C125_too_few_refuted.
Print Assumptions C125_one_missing_refuted.
Print Assumptions C125_guess.
Print Assumptions C125_fits.
Print Assumptions C125_points.
Print Assumptions C125_points_refuted.
Print Assumptions C125_counts.
Print Assumptions C125_default_limits_refuted.
Print Assumptions C125_flux.
Print Assumptions C125_radial.
