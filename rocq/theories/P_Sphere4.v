(** Property C116: sorting of SPHERE telemetry files by date; recentring and stacking of frames. *)
From Coq Require Import Reals List Arith ZArith Bool String Ascii Lia Lra.
From Verif Require Import Base_Py Base_Sum M_Image L_Image2 M_Tools L_Tools L_Tools2 M_Atmo M_Gen M_Sphere P_Sphere.
Import ListNotations.
Open Scope R_scope.

(** ** Sorting *)
Lemma yloc_eqb_spec a b : reflect (a = b) (yloc_eqb a b).
Proof. destruct a as [x|], b as [y|]; cbn; try (constructor; congruence). destruct (String.eqb_spec x y); constructor; congruence. Qed.
Lemma yset_same {A} (fs : yfiles A) l n v : yset fs l n v l n = v.
Proof. unfold yset. destruct (yloc_eqb_spec l l); [|congruence]. rewrite String.eqb_refl. reflexivity. Qed.
Lemma yset_other {A} (fs : yfiles A) l n v l' n' : (l' <> l \/ n' <> n) -> yset fs l n v l' n' = fs l' n'.
Proof. unfold yset. intros H. destruct (yloc_eqb_spec l' l); cbn [andb]; [|reflexivity]. destruct (String.eqb_spec n' n); [destruct H; congruence|reflexivity]. Qed.

Lemma ymove_spec {A} d names : forall (fs : yfiles A), NoDup names -> (forall n, In n names -> fs None n <> None) ->
  exists fs', ymove fs d names = Ok fs' /\ (forall n, In n names -> fs' None n = None /\ fs' (Some d) n = fs None n) /\
    (forall l n, ~ (In n names /\ (l = None \/ l = Some d)) -> fs' l n = fs l n).
Proof.
  induction names as [|x r IH]; intros fs ND HE.
  - exists fs. split; [reflexivity|]. split; [intros n []|reflexivity].
  - cbn [ymove]. unfold yrename. destruct (fs None x) as [c|] eqn:Ex; [|destruct (HE x (or_introl eq_refl) Ex)]. cbn [bind].
    set (g := yset (yset fs None x None) (Some d) x (Some c)). inversion ND as [|? ? Nx NDr]; subst.
    assert (GN : forall l n, n <> x -> g l n = fs l n) by (intros l n Hn; unfold g; rewrite !yset_other by (right; exact Hn); reflexivity).
    destruct (IH g NDr) as (fs' & E & P & Q). { intros n Hn. rewrite GN; [apply HE; now right|]. intros ->. contradiction. }
    exists fs'. split; [exact E|]. split.
    + intros n [<-|Hn].
      * rewrite !Q by (intros [Hn _]; contradiction). unfold g. rewrite yset_other by (left; discriminate). rewrite yset_same, yset_same. split; [reflexivity|]. now rewrite Ex.
      * destruct (P n Hn) as [P1 P2]. split; [exact P1|]. rewrite P2. apply GN. intros ->. contradiction.
    + intros l n H. rewrite Q by (intros [Hn Hl]; apply H; split; [now right|exact Hl]). destruct (string_dec n x) as [ ->|Hn]; [|now apply GN].
      unfold g. rewrite !yset_other; [reflexivity| |]; left; intros ->; apply H; (split; [now left|auto]).
Qed.

Lemma tagged_filter (tagged : list (string * string)) d n : In n (map fst (filter (fun p => String.eqb (snd p) d) tagged)) <-> In (n, d) tagged.
Proof.
  rewrite in_map_iff. split.
  - intros ((n' & d') & E & H). cbn in E. subst n'. apply filter_In in H. destruct H as [H1 H2]. cbn in H2. apply String.eqb_eq in H2. now subst d'.
  - intros H. exists (n, d). split; [reflexivity|]. apply filter_In. split; [exact H|]. apply String.eqb_refl.
Qed.
Lemma NoDup_filter_fst {X Y} (f : X * Y -> bool) l : NoDup (map fst l) -> NoDup (map fst (filter f l)).
Proof.
  induction l as [|p l IH]; cbn; [auto|]. intros H. inversion H as [|? ? H1 H2]; subst. destruct (f p); [|auto]. cbn. constructor; [|auto].
  intros C. apply H1. apply in_map_iff in C. destruct C as (q & E & Hq). apply filter_In in Hq. apply in_map_iff. exists q. tauto.
Qed.
Lemma fst_inj {X Y} (l : list (X * Y)) n d d' : NoDup (map fst l) -> In (n, d) l -> In (n, d') l -> d = d'.
Proof.
  induction l as [|[m e] l IH]; cbn; [intros _ []|]. intros H. inversion H as [|? ? H1 H2]; subst. intros [E|I] [E'|I'].
  - congruence.
  - exfalso. apply H1. injection E as -> ->. apply in_map_iff. now exists (n, d').
  - exfalso. apply H1. injection E' as -> ->. apply in_map_iff. now exists (n, d).
  - eauto.
Qed.

Lemma ydates_spec {A} tagged (ND : NoDup (map fst tagged)) dates : forall (fs : yfiles A), NoDup dates -> (forall n d, In (n, d) tagged -> In d dates -> fs None n <> None) ->
  exists fs', ydates fs dates tagged = Ok fs' /\ (forall n d, In (n, d) tagged -> In d dates -> fs' None n = None /\ fs' (Some d) n = fs None n) /\
    (forall l n, ~ (exists d, In (n, d) tagged /\ In d dates /\ (l = None \/ l = Some d)) -> fs' l n = fs l n).
Proof.
  induction dates as [|d r IH]; intros fs NDd HE.
  - exists fs. split; [reflexivity|]. split; [intros n d _ []|reflexivity].
  - cbn [ydates]. set (names := map fst _). inversion NDd as [|? ? Nd NDr]; subst.
    destruct (ymove_spec d names fs) as (g & E & P & Q); [apply NoDup_filter_fst, ND| |].
    { intros n Hn. apply tagged_filter in Hn. apply (HE n d Hn). now left. }
    rewrite E. cbn [bind].
    assert (GO : forall n e, In (n, e) tagged -> In e r -> forall l, g l n = fs l n).
    { intros n e Ht He l. apply Q. intros [Hn _]. apply tagged_filter in Hn. rewrite (fst_inj _ _ _ _ ND Hn Ht) in Nd. contradiction. }
    destruct (IH g NDr) as (fs' & E' & P' & Q'). { intros n e Ht He. rewrite (GO n e Ht He). apply (HE n e Ht). now right. }
    exists fs'. split; [exact E'|]. split.
    + intros n e Ht [<-|He].
      * assert (Hn : In n names) by (apply tagged_filter; exact Ht). destruct (P n Hn) as [P1 P2].
        rewrite !Q'; [split; assumption| |]; intros (e & Ht' & He & _); rewrite (fst_inj _ _ _ _ ND Ht' Ht) in He; contradiction.
      * destruct (P' n e Ht He) as [P1 P2]. split; [exact P1|]. rewrite P2. apply (GO n e Ht He).
    + intros l n H. rewrite Q' by (intros (e & Ht & He & Hl); apply H; exists e; split; [exact Ht|split; [now right|exact Hl]]).
      apply Q. intros [Hn Hl]. apply tagged_filter in Hn. apply H. exists d. split; [exact Hn|]. split; [now left|exact Hl].
Qed.

Lemma split_ne c s : split_on c s <> [].
Proof. destruct s as [|a s]; cbn; [discriminate|]. destruct (Ascii.eqb a c); [discriminate|]. destruct (split_on c s); discriminate. Qed.
Lemma split_two c s m : get m s = Some c -> (2 <= List.length (split_on c s))%nat.
Proof.
  revert m. induction s as [|a s IH]; intros m H; [destruct m; discriminate|]. cbn [split_on]. destruct m as [|m]; cbn [get] in H.
  - injection H as ->. rewrite Ascii.eqb_refl. cbn. pose proof (split_ne c s). destruct (split_on c s); [contradiction|cbn; lia].
  - specialize (IH m H). destruct (Ascii.eqb a c); [cbn; lia|]. destruct (split_on c s); [cbn in IH; lia|cbn in *; lia].
Qed.
Lemma get_app_sub m s t c : substring m (String.length t) s = t -> get 0 t = Some c -> get m s = Some c.
Proof.
  intros H G. destruct t as [|b t]; [discriminate|]. cbn in G. injection G as ->. cbn [String.length] in H.
  revert s H. induction m as [|m IH]; intros s H; destruct s as [|a s]; cbn in H |- *; try discriminate.
  - injection H as -> _. reflexivity.
  - apply IH. exact H.
Qed.
Lemma pyidx0 {A} (x : A) l : pyindex (x :: l) 0 = Ok x.
Proof. unfold pyindex. cbn [List.length]. change (0 <? 0)%Z with false. cbn iota. change (0 <? 0)%Z with false. cbn [orb]. destruct (Z.leb_spec (Z.of_nat (S (List.length l))) 0); [lia|reflexivity]. Qed.
Lemma pyidx1 {A} (x y : A) l : pyindex (x :: y :: l) 1 = Ok y.
Proof. unfold pyindex. cbn [List.length]. change (1 <? 0)%Z with false. cbn iota. change (1 <? 0)%Z with false. cbn [orb]. destruct (Z.leb_spec (Z.of_nat (S (S (List.length l)))) 1); [lia|reflexivity]. Qed.
Lemma date_total n : is_fits n = true -> exists d, date_of n = Ok d.
Proof.
  unfold is_fits. destruct (String.index 0 ".fits" n) as [m|] eqn:E; [|discriminate]. intros _.
  apply index_correct1 in E. pose proof (split_two "."%char n m (get_app_sub m n ".fits" "."%char E eq_refl)) as L.
  unfold date_of. destruct (split_on "." n) as [|a [|b l]]; cbn in L; [lia|lia|]. rewrite pyidx1. cbn [bind].
  pose proof (split_ne "T" b). destruct (split_on "T" b) as [|x y]; [contradiction|]. exists x. apply pyidx0.
Qed.

(** Every .fits file of the listing goes, with its contents, to the sub-folder of its date; no other file changes. *)
Theorem C116_sorted : forall A (fs : yfiles A) listing, NoDup listing -> (forall n, In n listing -> fs None n <> None) ->
  exists fs', sort_year fs listing = Ok fs' /\
    (forall n, In n listing -> is_fits n = true -> exists d, date_of n = Ok d /\ fs' None n = None /\ fs' (Some d) n = fs None n) /\
    (forall l n, ~ (In n listing /\ is_fits n = true /\ (l = None \/ exists d, date_of n = Ok d /\ l = Some d)) -> fs' l n = fs l n).
Proof.
  intros A fs listing ND HE. unfold sort_year. set (F := filter is_fits listing).
  assert (FD : forall n, In n F -> exists d, date_of n = Ok d) by (intros n Hn; apply date_total; apply filter_In in Hn; tauto).
  assert (ED : exists ds, mapM date_of F = Ok ds /\ List.length ds = List.length F /\ forall n d, In (n, d) (combine F ds) -> date_of n = Ok d).
  { clear - FD. induction F as [|x F IH]; [exists []; split; [reflexivity|split; [reflexivity|intros n d []]]|].
    destruct IH as (ds & E & L & P); [intros; apply FD; now right|]. destruct (FD x (or_introl eq_refl)) as [d Hd]. exists (d :: ds). cbn [mapM]. rewrite Hd, E. cbn [bind].
    split; [reflexivity|]. split; [cbn; lia|]. intros n e [H|H]; [injection H as <- <-; exact Hd|now apply P]. }
  destruct ED as (ds & E & L & P). rewrite E. cbn [bind].
  assert (MF : map fst (combine F ds) = F). { clear - L. revert ds L. induction F as [|x F IH]; intros [|d ds] L; cbn in *; try lia; [reflexivity|]. f_equal. apply IH. lia. }
  assert (NF : NoDup (map fst (combine F ds))) by (rewrite MF; apply NoDup_filter, ND).
  assert (IN : forall n, In n F -> exists d, In (n, d) (combine F ds)). { intros n Hn. rewrite <- MF in Hn. apply in_map_iff in Hn. destruct Hn as ((m & d) & Em & Hm). cbn in Em. subst m. now exists d. }
  assert (IF : forall n d, In (n, d) (combine F ds) -> In n F /\ In d (nodup string_dec ds)). { intros n d H. split; [eapply in_combine_l, H|apply nodup_In; eapply in_combine_r, H]. }
  destruct (ydates_spec (combine F ds) NF (nodup string_dec ds) fs (NoDup_nodup _ _)) as (fs' & E' & Q1 & Q2).
  { intros n d H _. apply HE. apply IF in H. destruct H as [H _]. apply filter_In in H. tauto. }
  exists fs'. split; [exact E'|]. split.
  - intros n Hn Hf. destruct (IN n) as [d Hd]; [apply filter_In; auto|]. exists d. split; [apply P, Hd|]. apply Q1; [exact Hd|apply (IF n d Hd)].
  - intros l n H. apply Q2. intros (d & Hd & _ & Hl). apply H. destruct (IF n d Hd) as [HF _]. apply filter_In in HF. split; [tauto|]. split; [tauto|]. destruct Hl as [ ->| ->]; [now left|]. right. exists d. split; [apply P, Hd|reflexivity].
Qed.
Print Assumptions C116_sorted.

(** The date of a name PREFIX.DATETxxx is DATE. *)
Definition occurs (c : ascii) (s : string) : Prop := exists m, get m s = Some c.
Lemma split_free c s t : ~ occurs c s -> split_on c (s ++ String c t) = s :: split_on c t.
Proof.
  induction s as [|a s IH]; intros H; cbn [append split_on].
  - rewrite Ascii.eqb_refl. reflexivity.
  - destruct (Ascii.eqb_spec a c) as [ ->|N]; [exfalso; apply H; now exists 0%nat|]. rewrite IH; [reflexivity|]. intros [m Hm]. apply H. now exists (S m).
Qed.
Lemma split_head c s t : ~ occurs c s -> exists r u, split_on c (s ++ t) = (s ++ r)%string :: u /\ (exists w, t = (r ++ w)%string) /\ ~ occurs c r.
Proof.
  induction s as [|a s IH]; intros H; cbn [append].
  - clear H. induction t as [|b t (r & u & E & (w & Ew) & F)]; cbn [split_on].
    + exists EmptyString, []. split; [reflexivity|]. split; [now exists EmptyString|]. intros [[|m] Hm]; discriminate.
    + destruct (Ascii.eqb_spec b c) as [ ->|N].
      * exists EmptyString, (split_on c t). split; [reflexivity|]. split; [now exists (String c t)|]. intros [[|m] Hm]; discriminate.
      * rewrite E. exists (String b r), u. split; [reflexivity|]. split; [exists w; cbn; now rewrite Ew|]. intros [[|m] Hm]; cbn in Hm; [congruence|]. apply F. now exists m.
  - destruct IH as (r & u & E & W & F); [intros [m Hm]; apply H; now exists (S m)|]. exists r, u. cbn [split_on]. destruct (Ascii.eqb_spec a c) as [ ->|N]; [exfalso; apply H; now exists 0%nat|]. rewrite E. auto.
Qed.
Lemma occurs_app c s t : occurs c (s ++ t) -> occurs c s \/ occurs c t.
Proof.
  intros [m H]. revert m H. induction s as [|a s IH]; intros m H; cbn [append] in H; [right; now exists m|]. destruct m as [|m]; cbn in H; [left; exists 0%nat; exact H|].
  destruct (IH m H) as [[k Hk]|Ht]; [left; now exists (S k)|now right].
Qed.
Lemma app_assoc_s (a b c : string) : ((a ++ b) ++ c = a ++ (b ++ c))%string.
Proof. induction a as [|x a IH]; cbn; [reflexivity|now rewrite IH]. Qed.
Theorem C116_date : forall p d r, ~ occurs "." p -> ~ occurs "." d -> ~ occurs "T" d -> date_of (p ++ "." ++ d ++ "T" ++ r) = Ok d.
Proof.
  intros p d r Hp Hd Ht. unfold date_of. cbn [append]. rewrite (split_free "." p) by exact Hp.
  assert (HdT : ~ occurs "." (d ++ "T")) by (intros H; apply occurs_app in H; destruct H as [H|[[|[|m]] Hm]]; [contradiction|discriminate|discriminate|discriminate]).
  destruct (split_head "." (d ++ "T") r HdT) as (r1 & u & E & _ & _). rewrite app_assoc_s in E. cbn [append] in E. rewrite E.
  rewrite pyidx1. cbn [bind]. rewrite app_assoc_s. cbn [append]. rewrite (split_free "T" d) by exact Ht. apply pyidx0.
Qed.
Example ex_sorted : exists fs', sort_year (fun l n => if yloc_eqb l None && (String.eqb n "SPHER.2016-03-01T02:10:11.122.fits" || String.eqb n "notes.txt")%bool then Some 7%nat else None)
   ["notes.txt"; "SPHER.2016-03-01T02:10:11.122.fits"]%string = Ok fs' /\ fs' (Some "2016-03-01"%string) "SPHER.2016-03-01T02:10:11.122.fits"%string = Some 7%nat /\ fs' None "notes.txt"%string = Some 7%nat.
Proof. eexists. split; [reflexivity|]. split; reflexivity. Qed.

(** ** Recentring *)
Lemma pos_index a k m : argmax_list (pixels a) = Some (k, m) -> let x := (k / cols a)%nat in let y := (k mod cols a)%nat in
  (x < rows a)%nat /\ (y < cols a)%nat /\ px a x y = m /\ forall i j, (i < rows a)%nat -> (j < cols a)%nat -> px a i j <= m.
Proof.
  intros H x y. apply argmax_list_spec in H. destruct H as (H1 & H2 & _).
  assert (Hk : (k < List.length (pixels a))%nat) by (apply nth_error_Some; congruence). rewrite pixels_length in Hk.
  assert (Hc : (0 < cols a)%nat) by (destruct (cols a); lia).
  assert (Hy : (y < cols a)%nat) by (apply Nat.mod_upper_bound; lia). assert (Hx : (x < rows a)%nat) by (apply Nat.div_lt_upper_bound; [lia|nia]).
  assert (Ek : k = (x * cols a + y)%nat) by (unfold x, y; rewrite (Nat.div_mod k (cols a)) at 1 by lia; lia).
  split; [exact Hx|]. split; [exact Hy|]. split.
  - rewrite Ek, pixels_nth in H1 by assumption. congruence.
  - intros i j Hi Hj. apply (H2 (i * cols a + j)%nat). apply pixels_nth; assumption.
Qed.
(** (x, y) is a brightest pixel of the frame *)
Definition peak (a : img) (x y : nat) : Prop := (x < rows a)%nat /\ (y < cols a)%nat /\ forall i j, (i < rows a)%nat -> (j < cols a)%nat -> px a i j <= px a x y.
Lemma crop_axis n x h : (0 < n)%nat -> (x < n)%nat -> (2 * h <= n)%nat ->
  slice_len (Z.of_nat n) (Z.of_nat x - Z.of_nat h) (Z.of_nat x + Z.of_nat h) = (if ((h <=? x)%nat && (x + h <=? n)%nat)%bool then 2 * Z.of_nat h else
     Z.max 0 (if (h <=? x)%nat then Z.of_nat n - Z.of_nat x + Z.of_nat h else 2 * Z.of_nat h - Z.of_nat n))%Z.
Proof.
  intros Hn Hx Hh. unfold slice_len, slice_bound. destruct (Nat.leb_spec h x), (Nat.leb_spec (x + h) n); cbn [andb];
  repeat match goal with |- context [(?a <? ?b)%Z] => destruct (Z.ltb_spec a b) end; try lia.
Qed.
Lemma recentre_ok n a o : (0 < n)%nat -> (n <= rows a)%nat -> (n <= cols a)%nat -> recentre n a = Ok o ->
  Nat.even n = true /\ rows o = n /\ cols o = n /\ exists x y, peak a x y /\ (n / 2 <= x)%nat /\ (x + n / 2 <= rows a)%nat /\ (n / 2 <= y)%nat /\ (y + n / 2 <= cols a)%nat /\
    forall i j, (i < n)%nat -> (j < n)%nat -> px o i j = px a (x - n / 2 + i) (y - n / 2 + j).
Proof.
  intros Hn Hr Hc H. unfold recentre in H. destruct (argmax_list (pixels a)) as [[k m]|] eqn:E; [|discriminate]. pose proof (pos_index a k m E) as P. cbv zeta in P.
  set (x := (k / cols a)%nat) in *. set (y := (k mod cols a)%nat) in *. destruct P as (Px & Py & Pv & Pm). set (h := (n / 2)%nat) in *.
  assert (Hh : (2 * h <= n)%nat) by (unfold h; pose proof (Nat.div_mod n 2); lia).
  unfold assign_plane_b in H. unfold slice2 in H. cbn [rows cols px] in H.
  rewrite (crop_axis (rows a) x h) in H by lia. rewrite (crop_axis (cols a) y h) in H by lia.
  assert (DV : (n = 2 * h + n mod 2)%nat) by (unfold h; apply Nat.div_mod; lia). assert (MB := Nat.mod_upper_bound n 2 ltac:(lia)).
  destruct (Nat.leb_spec h x) as [Hx1|Hx1], (Nat.leb_spec (x + h) (rows a)) as [Hx2|Hx2]; cbn [andb] in H;
  destruct (Nat.leb_spec h y) as [Hy1|Hy1], (Nat.leb_spec (y + h) (cols a)) as [Hy2|Hy2]; cbn [andb] in H;
  try (exfalso; match type of H with (if ?c then _ else _) = _ => destruct c eqn:EC; [|discriminate] end; rewrite andb_true_iff, !orb_true_iff, !Nat.eqb_eq in EC; lia).
  match type of H with (if ?c then _ else _) = _ => destruct c eqn:EC; [|discriminate] end. rewrite andb_true_iff, !orb_true_iff, !Nat.eqb_eq in EC.
  assert (En : n = (2 * h)%nat) by lia. apply Ok_inj in H. subst o. cbn [rows cols px].
  split; [rewrite En; apply Nat.even_spec; now exists h|]. split; [reflexivity|]. split; [reflexivity|]. exists x, y.
  split; [split; [exact Px|split; [exact Py|intros; rewrite Pv; now apply Pm]]|]. do 4 (split; [assumption|]). intros i j Hi Hj.
  replace (Z.to_nat (2 * Z.of_nat h) =? n)%nat with true by (symmetry; apply Nat.eqb_eq; lia). rewrite !slice_bound_in by lia. f_equal; lia.
Qed.
Lemma recentre_accepts n a : (0 < n)%nat -> Nat.even n = true -> (0 < rows a)%nat -> (0 < cols a)%nat ->
  (forall x y, peak a x y -> (n / 2 <= x)%nat /\ (x + n / 2 <= rows a)%nat /\ (n / 2 <= y)%nat /\ (y + n / 2 <= cols a)%nat) -> exists o, recentre n a = Ok o.
Proof.
  intros Hn He Hr Hc HP. unfold recentre. destruct (argmax_list (pixels a)) as [[k m]|] eqn:E.
  2:{ exfalso. assert (LL : (0 < List.length (pixels a))%nat) by (rewrite pixels_length; nia). destruct (pixels a) as [|p r]; [cbn in LL; lia|]. cbn in E. destruct (argmax_list r) as [[? ?]|]; [destruct (Rle_dec _ _)|]; discriminate. }
  pose proof (pos_index a k m E) as P. cbv zeta in P. set (x := (k / cols a)%nat) in *. set (y := (k mod cols a)%nat) in *. destruct P as (Px & Py & Pv & Pm).
  destruct (HP x y) as (A1 & A2 & A3 & A4). { split; [exact Px|split; [exact Py|intros; rewrite Pv; now apply Pm]]. }
  apply Nat.even_spec in He. destruct He as [h Eh]. assert (E2 : (n / 2 = h)%nat) by (rewrite Eh, Nat.mul_comm; apply Nat.div_mul; lia). rewrite E2 in *.
  unfold assign_plane_b, slice2. cbn [rows cols]. unfold slice_len. rewrite !slice_bound_in by lia.
  replace (Z.to_nat (Z.max 0 (Z.of_nat x + Z.of_nat h - (Z.of_nat x - Z.of_nat h)))) with n by lia. replace (Z.to_nat (Z.max 0 (Z.of_nat y + Z.of_nat h - (Z.of_nat y - Z.of_nat h)))) with n by lia.
  rewrite Nat.eqb_refl. cbn [orb andb]. eexists. reflexivity.
Qed.

(** Frames at least as large as the window: when the call returns, the size is even, every frame has its window around a
    brightest pixel inside the frame, and the result is the mean of these windows over the exposure time and the density;
    the brightest pixels are stacked on pixel (n/2, n/2). *)
Theorem C116_recentred : forall n dit nd frames out, (0 < n)%nat -> (forall a, In a frames -> (n <= rows a)%nat /\ (n <= cols a)%nat) ->
  process_clean_data n dit nd frames = Ok out ->
  Nat.even n = true /\ rows out = n /\ cols out = n /\ exists pos : list (nat * nat), List.length pos = List.length frames /\
    (forall k a x y, nth_error frames k = Some a -> nth_error pos k = Some (x, y) -> peak a x y /\ (n / 2 <= x)%nat /\ (x + n / 2 <= rows a)%nat /\ (n / 2 <= y)%nat /\ (y + n / 2 <= cols a)%nat) /\
    forall i j, (i < n)%nat -> (j < n)%nat ->
      px out i j = lsum (map (fun p => px (fst p) (fst (snd p) - n / 2 + i) (snd (snd p) - n / 2 + j)) (combine frames pos)) / INR (List.length frames) / dit / nd.
Proof.
  intros n dit nd frames out Hn HF H. unfold process_clean_data in H. destruct (mapM (recentre n) frames) as [l|] eqn:E; cbn [bind] in H; [|discriminate].
  destruct l as [|o1 l1]; [discriminate|]. destruct (Req_EM_T dit 0); [discriminate|]. destruct (Req_EM_T nd 0); [discriminate|]. apply Ok_inj in H. subst out. set (l := o1 :: l1) in *.
  assert (Q : Nat.even n = true /\ exists pos : list (nat * nat), List.length pos = List.length frames /\
    (forall k a x y, nth_error frames k = Some a -> nth_error pos k = Some (x, y) -> peak a x y /\ (n / 2 <= x)%nat /\ (x + n / 2 <= rows a)%nat /\ (n / 2 <= y)%nat /\ (y + n / 2 <= cols a)%nat) /\
    List.length l = List.length frames /\
    forall i j, (i < n)%nat -> (j < n)%nat -> map (fun f => px f i j) l = map (fun p => px (fst p) (fst (snd p) - n / 2 + i) (snd (snd p) - n / 2 + j)) (combine frames pos)).
  { assert (NE : l <> []) by discriminate. clearbody l. clear n0 n1 o1 l1. revert l E NE. induction frames as [|a frames IH]; intros l E NE; cbn [mapM] in E; [apply Ok_inj in E; congruence|].
    destruct (recentre n a) as [o|] eqn:Ea; cbn [bind] in E; [|discriminate]. destruct (mapM (recentre n) frames) as [t|] eqn:Et; cbn [bind] in E; [|discriminate]. apply Ok_inj in E. subst l.
    destruct (HF a (or_introl eq_refl)) as [R C]. destruct (recentre_ok n a o Hn R C Ea) as (Ev & _ & _ & x & y & P & A1 & A2 & A3 & A4 & V). split; [exact Ev|].
    destruct t as [|o2 t2].
    - exists [(x, y)]. destruct (mapM_ok_nth _ _ _ Et) as [L _]. destruct frames; [|cbn in L; lia]. split; [reflexivity|]. split; [|split; [reflexivity|]].
      + intros [|k] b u v Hb Hu; cbn in Hb, Hu; [injection Hb as <-; injection Hu as <- <-; auto|destruct k; discriminate].
      + intros i j Hi Hj. cbn. rewrite V by assumption. reflexivity.
    - destruct (IH (fun b Hb => HF b (or_intror Hb)) (o2 :: t2) eq_refl ltac:(discriminate)) as (_ & pos & L & Q1 & L2 & Q2). exists ((x, y) :: pos). split; [cbn; lia|]. split; [|split; [cbn [List.length] in *; lia|]].
      + intros [|k] b u v Hb Hu; cbn in Hb, Hu; [injection Hb as <-; injection Hu as <- <-; auto|eauto].
      + intros i j Hi Hj. cbn [combine]. rewrite map_cons, (map_cons _ (a, (x, y))), Q2 by assumption. cbn [fst snd]. rewrite V by assumption. reflexivity. }
  destruct Q as (Ev & pos & L & Q1 & L2 & Q2). split; [exact Ev|]. split; [reflexivity|]. split; [reflexivity|]. exists pos. split; [exact L|]. split; [exact Q1|].
  intros i j Hi Hj. cbn [px]. rewrite Q2 by assumption. rewrite L2. reflexivity.
Qed.
Theorem C116_accepted : forall n dit nd frames, (0 < n)%nat -> Nat.even n = true -> frames <> [] -> dit <> 0 -> nd <> 0 ->
  (forall a x y, In a frames -> peak a x y -> (n / 2 <= x)%nat /\ (x + n / 2 <= rows a)%nat /\ (n / 2 <= y)%nat /\ (y + n / 2 <= cols a)%nat) ->
  (forall a, In a frames -> (0 < rows a)%nat /\ (0 < cols a)%nat) -> exists out, process_clean_data n dit nd frames = Ok out.
Proof.
  intros n dit nd frames Hn He HN Hd Hnd HP HD. unfold process_clean_data. assert (E : exists l, mapM (recentre n) frames = Ok l).
  { clear HN. induction frames as [|a frames IH]; [eexists; reflexivity|]. destruct (HD a (or_introl eq_refl)) as [R C].
    destruct (recentre_accepts n a Hn He R C) as [o Ho]. { intros x y. apply HP. now left. }
    destruct IH as [t Et]; [intros; eapply HP; [right|]; eassumption|intros; apply HD; now right|]. cbn [mapM]. rewrite Ho, Et. cbn [bind]. eexists. reflexivity. }
  destruct E as [l El]. rewrite El. cbn [bind]. destruct (mapM_ok_nth _ _ _ El) as [L _]. destruct l; [destruct frames; [contradiction|cbn in L; lia]|].
  destruct (Req_EM_T dit 0); [contradiction|]. destruct (Req_EM_T nd 0); [contradiction|]. eexists. reflexivity.
Qed.
(** Frames smaller than the window are not always refused: when the frame has one pixel less than the window and its star is
    in the centre, the negative bound wraps around, a single pixel (the last corner) is selected and repeated over the whole
    window. *)
Theorem C116_small_frame_refuted : forall h a, (1 <= h)%nat -> rows a = (2 * h - 1)%nat -> cols a = (2 * h - 1)%nat ->
  (forall i j, (i < 2 * h - 1)%nat -> (j < 2 * h - 1)%nat -> (i, j) <> (h - 1, h - 1)%nat -> px a i j < px a (h - 1) (h - 1)) ->
  exists o, recentre (2 * h) a = Ok o /\ forall i j, px o i j = px a (2 * h - 2) (2 * h - 2).
Proof.
  intros h a Hh Hr Hc HM. unfold recentre. destruct (argmax_list (pixels a)) as [[k m]|] eqn:E.
  2:{ exfalso. assert (LL : (0 < List.length (pixels a))%nat) by (rewrite pixels_length; nia). destruct (pixels a) as [|p r]; [cbn in LL; lia|]. cbn in E. destruct (argmax_list r) as [[? ?]|]; [destruct (Rle_dec _ _)|]; discriminate. }
  pose proof (pos_index a k m E) as P. cbv zeta in P. set (x := (k / cols a)%nat) in *. set (y := (k mod cols a)%nat) in *. destruct P as (Px & Py & Pv & Pm).
  assert (EX : x = (h - 1)%nat /\ y = (h - 1)%nat).
  { destruct (Nat.eq_dec x (h - 1)), (Nat.eq_dec y (h - 1)); auto; exfalso; specialize (HM x y ltac:(lia) ltac:(lia)); specialize (Pm (h - 1)%nat (h - 1)%nat ltac:(lia) ltac:(lia)); rewrite Pv in HM; assert ((x, y) <> (h - 1, h - 1)%nat) by congruence; specialize (HM ltac:(assumption)); lra. }
  destruct EX as [ -> ->]. assert (E2 : (2 * h / 2 = h)%nat) by (rewrite Nat.mul_comm; apply Nat.div_mul; lia). rewrite E2.
  unfold assign_plane_b, slice2. cbn [rows cols px]. rewrite Hr, Hc.
  assert (SL : Z.to_nat (slice_len (Z.of_nat (2 * h - 1)) (Z.of_nat (h - 1) - Z.of_nat h) (Z.of_nat (h - 1) + Z.of_nat h)) = 1%nat).
  { unfold slice_len, slice_bound. repeat match goal with |- context [(?a <? ?b)%Z] => destruct (Z.ltb_spec a b) end; lia. }
  assert (SB : Z.to_nat (slice_bound (Z.of_nat (2 * h - 1)) (Z.of_nat (h - 1) - Z.of_nat h)) = (2 * h - 2)%nat).
  { unfold slice_bound. repeat match goal with |- context [(?a <? ?b)%Z] => destruct (Z.ltb_spec a b) end; lia. }
  rewrite SL, SB. cbn [Nat.eqb]. rewrite orb_true_r. cbn [andb]. eexists. split; [reflexivity|]. intros i j. cbn [px].
  assert (EB : forall (u v : nat), (if match (2 * h)%nat with 1%nat => true | _ => false end then u else v) = v) by (intros u v; destruct (2 * h)%nat as [|[|q]] eqn:EQ; [reflexivity|lia|reflexivity]). rewrite !EB, !Nat.add_0_r. reflexivity.
Qed.
Print Assumptions C116_recentred.
Example ex_recentred : exists out, process_clean_data 2 2 1 [mkImg 4 4 (fun i j => if ((i =? 2) && (j =? 1))%nat then 8 else 0); mkImg 4 4 (fun i j => if ((i =? 1) && (j =? 3))%nat then 4 else 0)] = Ok out /\ px out 1 1 = 3.
Proof.
  set (fr := [_; _]).
  assert (UP : forall r c v, 0 < v -> (r < 4)%nat -> (c < 4)%nat -> forall x y, peak (mkImg 4 4 (fun i j => if ((i =? r) && (j =? c))%nat then v else 0)) x y -> x = r /\ y = c).
  { intros r c v Hv Hr Hc x y (P1 & P2 & P3). specialize (P3 r c). cbn [rows cols px] in *. rewrite !Nat.eqb_refl in P3. cbn [andb] in P3. specialize (P3 Hr Hc).
    destruct (Nat.eqb_spec x r), (Nat.eqb_spec y c); cbn [andb] in P3; auto; lra. }
  destruct (C116_accepted 2 2 1 fr) as [out E]; try lia; try lra; [reflexivity|discriminate| | |].
  - intros a x y [<-|[<-|[]]] P; apply UP in P; try lra; try lia; destruct P as [ -> ->]; cbn; lia.
  - intros a [<-|[<-|[]]]; cbn; lia.
  - exists out. split; [exact E|]. destruct (C116_recentred 2 2 1 fr out ltac:(lia)) as (_ & _ & _ & pos & L & Q1 & Q2); [intros a [<-|[<-|[]]]; cbn; lia|exact E|].
    rewrite Q2 by lia. destruct pos as [|[x1 y1] [|[x2 y2] [|]]]; cbn in L; try lia.
    destruct (Q1 0%nat _ _ _ eq_refl eq_refl) as [P1 _]. destruct (Q1 1%nat _ _ _ eq_refl eq_refl) as [P2 _]. apply UP in P1; [|lra|lia|lia]. apply UP in P2; [|lra|lia|lia]. destruct P1 as [ -> ->], P2 as [ -> ->].
    cbn. lra.
Qed.

Print Assumptions C116_date.
Print Assumptions C116_accepted.
Print Assumptions C116_small_frame_refuted.
