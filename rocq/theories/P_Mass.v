(** C110: seeing-monitor tables (massdimm.py). *)
From Coq Require Import Reals List Arith ZArith Lia Lra Bool.
From Verif Require Import Base_Py M_Tools M_Freq L_Freq M_Mass.
Import ListNotations.
Open Scope R_scope.

(** ** Specification: the Gregorian calendar *)
Definition leap (y : Z) : bool := ((y mod 4 =? 0) && (negb (y mod 100 =? 0) || (y mod 400 =? 0)))%Z.
Definition days_in_month (y m : Z) : Z :=
  (if (m =? 2)%Z then (if leap y then 29 else 28) else if ((m =? 4) || (m =? 6) || (m =? 9) || (m =? 11))%Z then 30 else 31)%Z.
Definition valid (s : stamp) : Prop :=
  (1 <= st_month s <= 12 /\ 1 <= st_day s <= days_in_month (st_year s) (st_month s) /\
   0 <= st_hour s < 24 /\ 0 <= st_minute s < 60 /\ 0 <= st_second s < 60)%Z.
(** the day after a date *)
Definition next_day (y m d : Z) : Z * Z * Z :=
  (if d <? days_in_month y m then (y, m, d + 1) else if m <? 12 then (y, m + 1, 1) else (y + 1, 1, 1))%Z.
(** ten hours later *)
Definition ten_hours_later (s : stamp) : stamp :=
  if (st_hour s <? 14)%Z then mkStamp (st_year s) (st_month s) (st_day s) (st_hour s + 10) (st_minute s) (st_second s)
  else match next_day (st_year s) (st_month s) (st_day s) with
       | (y, m, d) => mkStamp y m d (st_hour s - 14) (st_minute s) (st_second s) end.

(** C110: the conversion to universal time is right except on the last day of a month. *)
Theorem C110_universal_time : forall s, valid s -> (st_hour s < 14 \/ st_day s < days_in_month (st_year s) (st_month s))%Z ->
  to_ut s = ten_hours_later s /\ valid (to_ut s).
Proof.
  intros s (H1 & H2 & H3 & H4 & H5) H. unfold to_ut, ten_hours_later. cbv zeta.
  destruct (Z.leb_spec 24 (st_hour s + 10)) as [A|A]; destruct (Z.ltb_spec (st_hour s) 14) as [B|B]; try lia.
  - unfold next_day. destruct (Z.ltb_spec (st_day s) (days_in_month (st_year s) (st_month s))) as [C|C]; [|lia].
    replace (st_hour s + 10 - 24)%Z with (st_hour s - 14)%Z by lia. split; [reflexivity|].
    unfold valid. cbn. repeat split; lia.
  - split; [reflexivity|]. unfold valid. cbn. repeat split; lia.
Qed.
Print Assumptions C110_universal_time.

(** finding: in the afternoon and evening of the last day of a month the day overflows: the stamp is no date at all. *)
Theorem C110_month_end_refuted : forall s, valid s -> (14 <= st_hour s)%Z -> st_day s = days_in_month (st_year s) (st_month s) ->
  st_day (to_ut s) = (days_in_month (st_year s) (st_month s) + 1)%Z /\ st_month (to_ut s) = st_month s /\ ~ valid (to_ut s) /\ valid (ten_hours_later s).
Proof.
  intros s (H1 & H2 & H3 & H4 & H5) H Hd. unfold to_ut, ten_hours_later. cbv zeta.
  destruct (Z.leb_spec 24 (st_hour s + 10)) as [A|A]; [|lia]. destruct (Z.ltb_spec (st_hour s) 14) as [B|B]; [lia|].
  cbn [st_day st_month st_year]. split; [lia|]. split; [reflexivity|]. split.
  - unfold valid. cbn. lia.
  - unfold next_day. destruct (Z.ltb_spec (st_day s) (days_in_month (st_year s) (st_month s))) as [C|C]; [lia|].
    assert (D : forall y m, (1 <= days_in_month y m)%Z).
    { intros y m. unfold days_in_month. destruct (m =? 2)%Z; [destruct (leap y); lia|]. destruct (_ || _)%bool; lia. }
    destruct (Z.ltb_spec (st_month s) 12) as [E|E]; unfold valid; cbn -[days_in_month]; pose proof (D (st_year s) (st_month s + 1)%Z); pose proof (D (st_year s + 1)%Z 1%Z); repeat split; try lia.
Qed.
Example ex_month_end : exists s, valid s /\ (14 <= st_hour s)%Z /\ st_day s = days_in_month (st_year s) (st_month s).
Proof. exists (mkStamp 2020 2 29 20 30 0). unfold valid. cbn. lia. Qed.
Print Assumptions C110_month_end_refuted.

(** C110: hours of the day are in [0,24). *)
Theorem C110_hours : forall s, valid s -> 0 <= in_hours (to_ut s) < 24 /\ st_minute (to_ut s) = st_minute s /\ st_second (to_ut s) = st_second s /\
  (st_hour (to_ut s) = (st_hour s + 10) mod 24)%Z.
Proof.
  intros s (H1 & H2 & H3 & H4 & H5).
  assert (Hh : st_hour (to_ut s) = ((st_hour s + 10) mod 24)%Z /\ st_minute (to_ut s) = st_minute s /\ st_second (to_ut s) = st_second s).
  { unfold to_ut. cbv zeta. destruct (Z.leb_spec 24 (st_hour s + 10)) as [A|A]; cbn; (split; [|split; reflexivity]).
    - apply Z.mod_unique with 1%Z; lia.
    - symmetry. apply Z.mod_small. lia. }
  destruct Hh as (Eh & Em & Es). split; [|split; [exact Em|split; [exact Es|exact Eh]]].
  unfold in_hours. rewrite Eh, Em, Es.
  pose proof (Z.mod_pos_bound (st_hour s + 10) 24 ltac:(lia)) as Hb.
  assert (A1 : (0 <= (st_hour s + 10) mod 24 <= 23)%Z) by lia. assert (A2 : (0 <= st_minute s <= 59)%Z) by lia. assert (A3 : (0 <= st_second s <= 59)%Z) by lia.
  destruct A1 as [A1 A1']. destruct A2 as [A2 A2']. destruct A3 as [A3 A3'].
  apply IZR_le in A1, A1', A2, A2', A3, A3'. lra.
Qed.
Print Assumptions C110_hours.

Lemma nth_error_map_inv {A B} (f : A -> B) l k y : nth_error (map f l) k = Some y -> exists x, nth_error l k = Some x /\ y = f x.
Proof. rewrite nth_error_map. destruct (nth_error l k) as [x|]; cbn; [|discriminate]. intros H. injection H as <-. exists x. now split. Qed.

(** C110: the value returned is that of a record whose time of day is the closest to the one asked (the first of them), with that difference.
    Only a verbose table refuses, with the sentinel, a record more than one hour away. *)
Theorem C110_nearest : forall V verbose (t : table V) item v d, index_one verbose t item = Ok (v, d) ->
  (exists r, In r t /\ d = Rabs (in_hours (fst r) - item) /\ v = (if Rlt_dec 1 d then if verbose then None else Some (snd r) else Some (snd r))) /\
  (forall r, In r t -> d <= Rabs (in_hours (fst r) - item)).
Proof.
  intros V verbose t item v d. unfold index_one. cbv zeta. set (diffs := map _ t).
  destruct (argmin diffs) as [k|] eqn:Ek; cbn [bind]; [|discriminate].
  destruct (argmin_spec _ _ Ek) as (m & Em & Hm).
  destruct (nth_error_map_inv _ _ _ _ Em) as (r & Er & Emr). rewrite Er, Em.
  intros H.
  assert (Hd : d = m /\ v = if Rlt_dec 1 m then if verbose then None else Some (snd r) else Some (snd r)).
  { destruct (Rlt_dec 1 m); cbn [andb] in H; [destruct verbose|]; apply Ok_inj in H; inversion H; subst; split; reflexivity. }
  destruct Hd as [-> ->]. split.
  - exists r. split; [apply (nth_error_In _ _ Er)|]. split; [exact Emr|reflexivity].
  - intros r' Hr'. apply Hm. unfold diffs. apply in_map_iff. exists r'. split; [reflexivity|exact Hr'].
Qed.
Print Assumptions C110_nearest.
Theorem C110_answers : forall V verbose (t : table V) item, (t = [] -> index_one verbose t item = Err ValueError) /\
  (t <> [] -> exists v d, index_one verbose t item = Ok (v, d)).
Proof.
  intros V verbose t item. split; [intros ->; reflexivity|]. intros Ht. unfold index_one. cbv zeta. set (diffs := map _ t).
  destruct (argmin_defined diffs) as (k & Ek); [unfold diffs; destruct t; [congruence|discriminate]|]. rewrite Ek. cbn [bind].
  destruct (argmin_spec _ _ Ek) as (m & Em & _). destruct (nth_error_map_inv _ _ _ _ Em) as (r & Er & _). rewrite Er, Em.
  destruct (andb _ verbose); eexists; eexists; reflexivity.
Qed.
Print Assumptions C110_answers.

(** Findings: (a) the time of day is not circular and the date is ignored: at 23.9 h, a record at 22:00 (1.9 h away) is preferred to the one at 00:06
    of the next day (0.2 h away); (b) unless the table is verbose, any record is accepted, however far. *)
Definition r22 := mkStamp 2021 4 8 12 0 0.
Definition r0h := mkStamp 2021 4 8 14 6 0.
Theorem C110_midnight_refuted : forall V (x y : V),
  in_hours (to_ut r22) = 22 /\ in_hours (to_ut r0h) = 1 / 10 /\
  index_one false (load [(r22, x); (r0h, y)]) (239 / 10) = Ok (Some x, 19 / 10).
Proof.
  intros V x y. assert (E1 : in_hours (to_ut r22) = 22) by (unfold in_hours; cbn; lra).
  assert (E2 : in_hours (to_ut r0h) = 1 / 10) by (unfold in_hours; cbn; lra). split; [exact E1|]. split; [exact E2|].
  unfold index_one, load. cbn [map fst snd]. rewrite E1, E2.
  replace (22 - 239 / 10) with (- (19 / 10)) by lra. replace (1 / 10 - 239 / 10) with (- (238 / 10)) by lra.
  rewrite !Rabs_Ropp, !Rabs_pos_eq by lra. cbn [argmin argmin_aux]. destruct (Rlt_dec (238 / 10) (19 / 10)) as [|_]; [lra|].
  cbn [bind nth_error snd]. destruct (Rlt_dec 1 (19 / 10)); cbn [andb]; reflexivity.
Qed.
Theorem C110_far_record_refuted : forall V (s : stamp) (x : V) item, index_one false [(s, x)] item = Ok (Some x, Rabs (in_hours s - item)).
Proof. intros V s x item. unfold index_one. cbn. destruct (Rlt_dec 1 _); reflexivity. Qed.
Print Assumptions C110_midnight_refuted.

(** ** combination of the two seeings *)
Definition pow53 (x : R) : R := if Req_EM_T x 0 then 0 else Rpower x (5 / 3).
Definition mu_seeing (wvl : R) : R := Rpower (976 / 1000 * (3600 * 180 / PI)) (5 / 3) * (423 / 1000) * 4 * PI * PI / Rpower wvl (1 / 3).
Lemma rpow_nonneg x y : 0 <= x -> 0 < y -> rpow x y = Ok (if Req_EM_T x 0 then 0 else Rpower x y).
Proof.
  intros Hx Hy. unfold rpow. destruct (Rlt_dec x 0) as [|_]; [lra|]. destruct (Req_EM_T x 0) as [_|_]; [|reflexivity].
  destruct (Rlt_dec 0 y) as [_|]; [reflexivity|contradiction].
Qed.
Lemma Rpower_pos x y : 0 < Rpower x y. Proof. apply exp_pos. Qed.
Lemma pow53_mono a b : 0 <= a <= b -> pow53 a <= pow53 b.
Proof.
  intros H. unfold pow53. destruct (Req_EM_T a 0) as [->|Ha]; destruct (Req_EM_T b 0) as [->|Hb]; try lra.
  - left. apply Rpower_pos.
  - destruct (Req_EM_T a b) as [->|Hab]; [lra|]. left. apply Rlt_Rpower_l; [lra|lra].
Qed.
(** C110: the ground layer gets exactly what the free atmosphere leaves of the total, in the 5/3 power of the seeings; the upper layers are kept. A free-atmosphere
    seeing above the total one gives no number. *)
Theorem C110_combine : forall seeing alt cn2 wvl, 0 <= seeing -> 0 <= alt -> 0 < wvl ->
  (alt <= seeing -> exists g, combineMASSandDIMM seeing alt cn2 wvl = Ok (g :: cn2) /\ 0 <= g /\ mu_seeing wvl * g + pow53 alt = pow53 seeing) /\
  (seeing < alt -> combineMASSandDIMM seeing alt cn2 wvl = Err NonFinite).
Proof.
  intros s a cn2 wvl Hs Ha Hw. unfold combineMASSandDIMM. rewrite !rpow_nonneg by lra. cbn [bind]. fold (pow53 s). fold (pow53 a).
  assert (Hmu : 0 < mu_seeing wvl).
  { unfold mu_seeing. pose proof PI_RGT_0. apply Rdiv_lt_0_compat; [|apply Rpower_pos]. apply Rmult_lt_0_compat; [|exact H]. apply Rmult_lt_0_compat; [|exact H].
    apply Rmult_lt_0_compat; [|lra]. apply Rmult_lt_0_compat; [apply Rpower_pos|lra]. }
  split.
  - intros H. pose proof (pow53_mono a s ltac:(lra)) as M. rewrite rpow_nonneg by lra. cbn [bind].
    set (D := pow53 s - pow53 a) in *. assert (HD : 0 <= D) by (unfold D; lra).
    set (s0 := if Req_EM_T D 0 then 0 else Rpower D (3 / 5)).
    assert (Hs0 : 0 <= s0) by (unfold s0; destruct (Req_EM_T D 0); [lra|left; apply Rpower_pos]).
    rewrite rpow_nonneg by lra. cbn [bind]. fold (mu_seeing wvl).
    assert (Ec : (if Req_EM_T s0 0 then 0 else Rpower s0 (5 / 3)) = D).
    { unfold s0. destruct (Req_EM_T D 0) as [E|E].
      - destruct (Req_EM_T 0 0); [symmetry; exact E|congruence].
      - destruct (Req_EM_T (Rpower D (3 / 5)) 0) as [E'|_]; [pose proof (Rpower_pos D (3 / 5)); lra|].
        rewrite Rpower_mult. replace (3 / 5 * (5 / 3)) with 1 by field. apply Rpower_1. lra. }
    rewrite Ec. exists (D / mu_seeing wvl). split; [reflexivity|]. split; [apply Rmult_le_pos; [exact HD|left; apply Rinv_0_lt_compat, Hmu]|].
    unfold D. field. lra.
  - intros H. assert (M : pow53 s < pow53 a).
    { unfold pow53. destruct (Req_EM_T a 0) as [|Hane]; [lra|]. destruct (Req_EM_T s 0) as [_|Hse]; [apply Rpower_pos|apply Rlt_Rpower_l; lra]. }
    unfold rpow at 1. destruct (Rlt_dec (pow53 s - pow53 a) 0) as [_|]; [reflexivity|lra].
Qed.
Print Assumptions C110_combine.

(** C110: the seeing of the DIMM as a Fried parameter in centimetres: r0 = 0.98 wavelength / seeing. *)
Theorem C110_r0 : forall seeing r, 0 < seeing -> dimm_r0 seeing = Ok r ->
  Rabs (r / 100 * (seeing / 206265) - 98 / 100 * (500 / 10 ^ 9)) = 0.
Proof.
  intros s r Hs. unfold dimm_r0. destruct (Req_EM_T s 0) as [|Hne]; [lra|]. intros H. apply Ok_inj in H. subst r.
  assert (E : 98 / 100 * (500 / 10 ^ 7) * 206265 / s / 100 * (s / 206265) = 98 / 100 * (500 / 10 ^ 9)) by (field; lra).
  rewrite E, Rminus_diag_eq by reflexivity. apply Rabs_R0.
Qed.
Print Assumptions C110_r0.

(** C110: one line per exposure; each line depends only on its own date and time, whatever the lines before. *)
Theorem C110_append : forall D (dimm mass : D -> option (table R)) (prof : D -> option (table (list R))) stats out,
  append_mass_dimm D dimm mass prof stats = Ok out ->
  Forall2 (fun row o => exists a b c, dimm (fst row) = Some a /\ mass (fst row) = Some b /\ prof (fst row) = Some c /\
     index_one false (load a) (snd row) = Ok (fst (fst o)) /\ index_one false (load b) (snd row) = Ok (snd (fst o)) /\
     index_one false (load c) (snd row) = Ok (snd o)) stats out.
Proof.
  intros D dimm mass prof stats. unfold append_mass_dimm. induction stats as [|r l IH]; intros out H.
  - cbn in H. apply Ok_inj in H. subst. constructor.
  - cbn [mapM] in H. destruct (append_row D dimm mass prof r) as [o|] eqn:Eo; cbn [bind] in H; [|discriminate].
    destruct (mapM (append_row D dimm mass prof) l) as [os|] eqn:El; cbn [bind] in H; [|discriminate]. apply Ok_inj in H. subst out.
    constructor; [|apply IH; reflexivity]. unfold append_row in Eo.
    destruct (dimm (fst r)) as [a|]; cbn [need bind] in Eo; [|discriminate]. destruct (mass (fst r)) as [b|]; cbn [need bind] in Eo; [|discriminate].
    destruct (prof (fst r)) as [c|]; cbn [need bind] in Eo; [|discriminate].
    destruct (index_one false (load a) (snd r)) as [va|] eqn:Ea; cbn [bind] in Eo; [|discriminate].
    destruct (index_one false (load b) (snd r)) as [vb|] eqn:Eb; cbn [bind] in Eo; [|discriminate].
    destruct (index_one false (load c) (snd r)) as [vc|] eqn:Ec; cbn [bind] in Eo; [|discriminate].
    apply Ok_inj in Eo. subst o. exists a, b, c. repeat split; assumption.
Qed.
Print Assumptions C110_append.
Example ex_append : is_ok (append_mass_dimm nat (fun _ => Some [(r22, 1)]) (fun _ => Some [(r0h, 1)]) (fun _ => Some [(r22, [1; 2])]) [(0%nat, 20); (1%nat, 3)]) = true.
Proof.
  unfold append_mass_dimm. cbn [mapM]. unfold append_row, index_one, load. cbn [fst snd need bind map argmin argmin_aux nth_error].
  repeat (destruct (Rlt_dec 1 _); cbn [andb bind]); reflexivity.
Qed.

Print Assumptions C110_far_record_refuted.
