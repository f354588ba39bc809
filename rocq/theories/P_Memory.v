(** C30 (memory estimate) and C31 (fit bounds of the Fourier model). *)
From Coq Require Import Reals List Arith ZArith Bool String Lia Lra Psatz.
From Verif Require Import Base_Py Base_Sum M_Tools M_Model2.
Import ListNotations.
Open Scope Z_scope.

(** Sizes are non-negative, there is at least one source. *)
Definition valid_dims (d : dims) : Prop := 0 <= z_otf d /\ 0 <= z_ao d /\ 0 <= z_times d /\ 0 <= z_gs d /\ 1 <= z_src d /\ 0 <= z_atm d /\ 0 <= z_dm d.
(** d' is at least as large as d in every size, with the same options. *)
Definition dims_le (d d' : dims) : Prop :=
  z_otf d <= z_otf d' /\ z_ao d <= z_ao d' /\ z_times d <= z_times d' /\ z_gs d <= z_gs d' /\ z_src d <= z_src d' /\ z_atm d <= z_atm d' /\ z_dm d <= z_dm d' /\
  z_single d = z_single d' /\ z_gainpos d = z_gainpos d' /\ z_reduce d = z_reduce d' /\ z_break d = z_break d'.
Definition set_reduce (b : bool) (d : dims) : dims :=
  mkDims (z_otf d) (z_ao d) (z_times d) (z_gs d) (z_src d) (z_atm d) (z_dm d) (z_single d) (z_gainpos d) b (z_break d).
Definition set_single (b : bool) (d : dims) : dims :=
  mkDims (z_otf d) (z_ao d) (z_times d) (z_gs d) (z_src d) (z_atm d) (z_dm d) b (z_gainpos d) (z_reduce d) (z_break d).

Lemma zsum_app l l' : zsum (l ++ l') = zsum l + zsum l'.
Proof. unfold zsum. rewrite map_app, fold_right_app. induction l as [|a l IH]; cbn [map fold_right app]; [cbn; reflexivity|]. rewrite IH. lia. Qed.
Lemma zsum_cons a l : zsum (a :: l) = snd a + zsum l.
Proof. reflexivity. Qed.
Lemma zsum_nonneg l : (forall e, In e l -> 0 <= snd e) -> 0 <= zsum l.
Proof. induction l as [|a l IH]; intros H; [cbn; lia|]. rewrite zsum_cons. assert (A := H a (or_introl eq_refl)). assert (B := IH (fun e He => H e (or_intror He))). lia. Qed.
Lemma dsize_pos d : 0 < dsize d.
Proof. unfold dsize. destruct (z_single d); lia. Qed.
Ltac nn := repeat match goal with
  | |- 0 <= _ * _ => apply Z.mul_nonneg_nonneg
  | |- 0 <= (if ?b then _ else _) => destruct b
  | |- 0 <= _ ^ _ => apply Z.pow_nonneg
  end; first [assumption | apply Z.le_refl | discriminate | lia].
(** C30: no entry is negative. *)
Theorem C30_entries_nonnegative :
  forall d pk e, valid_dims d -> In e (mem_final d ++ mem_peak pk d) -> 0 <= snd e.
Proof.
  intros d pk e (H1 & H2 & H3 & H4 & H5 & H6 & H7) He. assert (HB := dsize_pos d). unfold mem_final, mem_peak in He. cbv zeta in He.
  repeat first [apply in_app_or in He; destruct He as [He|He] | match type of He with In _ (if ?b then _ else _) => destruct b end];
  repeat (destruct He as [He|He]; [subst e; cbn [snd]; nn|]); try destruct He.
Qed.
Print Assumptions C30_entries_nonnegative.

(** C30: the totals are the sums of the breakdowns; the peak is never below the
    persistent part, in the theoretical and in the public view, and equals it when
    the peak is not asked for. *)
Theorem C30_peak_above_final :
  forall d pk gpu, valid_dims d ->
  total_final d = zsum (mem_final d) /\ total_peak d pk = total_final d + zsum (mem_peak pk d) /\
  0 <= total_final d <= total_peak d pk /\
  (0 <= fst (observable gpu pk d) <= snd (observable gpu pk d))%R /\
  (pk = false -> total_peak d pk = total_final d /\ snd (observable gpu pk d) = fst (observable gpu pk d)) /\
  (gpu = false -> fst (observable gpu pk d) = MB (total_final d) /\ snd (observable gpu pk d) = MB (total_peak d pk)).
Proof.
  intros d pk gpu HV. split; [reflexivity|]. split; [reflexivity|].
  assert (PF : 0 <= total_final d) by (apply zsum_nonneg; intros e He; apply (C30_entries_nonnegative d pk); [exact HV|apply in_or_app; left; exact He]).
  assert (PP : 0 <= zsum (mem_peak pk d)) by (apply zsum_nonneg; intros e He; apply (C30_entries_nonnegative d pk); [exact HV|apply in_or_app; right; exact He]).
  assert (PT : total_final d <= total_peak d pk) by (unfold total_peak; lia).
  assert (E0 : pk = false -> total_peak d pk = total_final d) by (intros ->; unfold total_peak, mem_peak; cbn; lia).
  assert (M : forall a b, a <= b -> (MB a <= MB b)%R) by (intros a b Hab; unfold MB; apply IZR_le in Hab; lra).
  split; [lia|]. split; [|split].
  - unfold observable. destruct gpu; cbv zeta; cbn [fst snd].
    + assert (A := Rmax_r (IZR (z_gs d - 1)) 0). assert (B := Rmax_r (IZR (z_atm d - 1)) 0).
      set (f := (28 / 1000 + _ + _)%R). assert (F : (28 / 1000 <= f)%R) by (unfold f; lra). assert (G : (15 / 1000 <= Rmax (15 / 1000) (55 / 100 * f))%R) by apply Rmax_l.
      split; [lra|]. destruct pk; [|lra]. apply Rmax_lub; lra.
    + split; [apply IZR_le in PF; unfold MB; lra|]. destruct pk; [apply M; exact PT|lra].
  - intros E. split; [auto|]. subst pk. unfold observable. destruct gpu; reflexivity.
  - intros ->. unfold observable. cbn [fst snd]. split; [reflexivity|]. destruct pk; [reflexivity|]. rewrite E0 by reflexivity. reflexivity.
Qed.
Print Assumptions C30_peak_above_final.

Ltac mono := repeat match goal with
  | |- _ * _ <= _ * _ => apply Z.mul_le_mono_nonneg
  | |- _ ^ _ <= _ ^ _ => apply Z.pow_le_mono_l; split
  | |- 0 <= _ * _ => apply Z.mul_nonneg_nonneg
  | |- 0 <= _ ^ _ => apply Z.pow_nonneg
  end; try first [assumption | apply Z.le_refl | discriminate | lia].
Ltac le2 := repeat rewrite zsum_cons; cbn [snd]; repeat match goal with |- _ + _ <= _ + _ => apply Z.add_le_mono end; change (zsum []) with 0; mono.
(** C30: the estimates grow with every size... *)
Theorem C30_monotone :
  forall d d' pk, valid_dims d -> dims_le d d' -> total_final d <= total_final d' /\ total_peak d pk <= total_peak d' pk.
Proof.
  intros d d' pk HV (L1 & L2 & L3 & L4 & L5 & L6 & L7 & E1 & E2 & E3 & E4). pose proof HV as (H1 & H2 & H3 & H4 & H5 & H6 & H7).
  assert (HV' : valid_dims d') by (unfold valid_dims; lia).
  assert (HB := Z.lt_le_incl _ _ (dsize_pos d)). assert (EB : dsize d' = dsize d) by (unfold dsize; rewrite E1; reflexivity).
  assert (NF : forall e, In e (mem_final d') -> 0 <= snd e) by (intros e He; apply (C30_entries_nonnegative d' pk); [exact HV'|apply in_or_app; left; exact He]).
  assert (NP : forall e, In e (mem_peak pk d') -> 0 <= snd e) by (intros e He; apply (C30_entries_nonnegative d' pk); [exact HV'|apply in_or_app; right; exact He]).
  assert (F : total_final d <= total_final d').
  { clear NF NP. unfold total_final, mem_final. cbv zeta. rewrite EB, <- E2, <- E3, <- E4, !zsum_app. clear E1 E2 E3 E4 EB.
    apply Z.add_le_mono; [le2|]. apply Z.add_le_mono; [|apply Z.add_le_mono; [|le2]].
    - destruct (z_gainpos d); [|reflexivity]. rewrite !zsum_app. apply Z.add_le_mono; [le2|]. destruct (z_reduce d); cbn [negb]; [rewrite !andb_false_r; reflexivity|]. rewrite !andb_true_r.
      destruct (1 <? z_gs d) eqn:G1; [rewrite (proj2 (Z.ltb_lt 1 (z_gs d'))) by (apply Z.ltb_lt in G1; lia); clear G1; le2|]. destruct (1 <? z_gs d') eqn:G2; [|reflexivity]. apply zsum_nonneg. intros e He. cbn [In] in He.
      repeat (destruct He as [He|He]; [subst e; cbn [snd]; nn|]). destruct He.
    - destruct (z_break d || negb (z_reduce d))%bool; [|reflexivity]. le2.
      all: destruct (1 <? z_gs d) eqn:G1; [rewrite ?(proj2 (Z.ltb_lt 1 (z_gs d'))) by (apply Z.ltb_lt in G1; lia); clear G1; lia|]; clear G1; destruct (1 <? z_gs d'); lia. }
  split; [exact F|]. unfold total_peak. apply Z.add_le_mono; [exact F|]. clear F NF NP. unfold mem_peak. cbv zeta. rewrite EB, <- E2. clear E1 E2 E3 E4 EB. destruct (pk && z_gainpos d)%bool; [|reflexivity]. rewrite !zsum_app.
  apply Z.add_le_mono; [|apply Z.add_le_mono; [le2|apply Z.add_le_mono; [|le2]]].
  - destruct (1 <? z_gs d) eqn:G1; [rewrite (proj2 (Z.ltb_lt 1 (z_gs d'))) by (apply Z.ltb_lt in G1; lia); clear G1; le2|]. destruct (1 <? z_gs d'); [|reflexivity]. apply zsum_nonneg. intros e He. cbn [In] in He. repeat (destruct He as [He|He]; [subst e; cbn [snd]; nn|]). destruct He.
  - destruct (1 <? z_gs d) eqn:G1; [rewrite (proj2 (Z.ltb_lt 1 (z_gs d'))) by (apply Z.ltb_lt in G1; lia); clear G1; le2|]. destruct (1 <? z_gs d'); [|reflexivity]. apply zsum_nonneg. intros e He. cbn [In] in He. repeat (destruct He as [He|He]; [subst e; cbn [snd]; nn|]). destruct He.
Qed.
Print Assumptions C30_monotone.
(** ... never with reduce_memory, and double with double precision. *)
Theorem C30_reduce_memory :
  forall d pk, valid_dims d -> total_final (set_reduce true d) <= total_final (set_reduce false d) /\ total_peak (set_reduce true d) pk <= total_peak (set_reduce false d) pk.
Proof.
  intros d pk HV. assert (F : total_final (set_reduce true d) <= total_final (set_reduce false d)).
  { assert (NN : forall b e, In e (mem_final (set_reduce b d)) -> 0 <= snd e) by (intros b e He; apply (C30_entries_nonnegative (set_reduce b d) pk); [exact HV|apply in_or_app; left; exact He]).
    pose proof HV as (H1 & H2 & H3 & H4 & H5 & H6 & H7). assert (HB := dsize_pos d).
    unfold total_final, mem_final. cbv zeta. change (dsize (set_reduce true d)) with (dsize d). change (dsize (set_reduce false d)) with (dsize d).
    cbn [set_reduce z_otf z_ao z_times z_gs z_src z_atm z_dm z_single z_gainpos z_reduce z_break]. cbn [negb]. rewrite andb_false_r, andb_true_r, orb_false_r, orb_true_r, !zsum_app.
    apply Z.add_le_mono; [lia|]. apply Z.add_le_mono; [|apply Z.add_le_mono; [|lia]].
    - destruct (z_gainpos d); [|lia]. rewrite !zsum_app. apply Z.add_le_mono; [lia|]. destruct (1 <? z_gs d); [|lia]. apply zsum_nonneg. intros e He. cbn [In] in He. repeat (destruct He as [He|He]; [subst e; cbn [snd]; nn|]). destruct He.
    - destruct (z_break d); [lia|]. apply zsum_nonneg. intros e He. cbn [In] in He. repeat (destruct He as [He|He]; [subst e; cbn [snd]; nn|]). destruct He. }
  split; [exact F|]. unfold total_peak. apply Z.add_le_mono; [exact F|]. apply Z.eq_le_incl. reflexivity.
Qed.
Print Assumptions C30_reduce_memory.
Theorem C30_double_precision :
  forall d pk, total_final (set_single false d) = 2 * total_final (set_single true d) /\ total_peak (set_single false d) pk = 2 * total_peak (set_single true d) pk.
Proof.
  intros d pk.
  assert (F : zsum (mem_final (set_single false d)) = 2 * zsum (mem_final (set_single true d))).
  { unfold mem_final. cbv zeta. unfold dsize. cbn [set_single z_otf z_ao z_times z_gs z_src z_atm z_dm z_single z_gainpos z_reduce z_break].
    destruct (z_gainpos d), (1 <? z_gs d), (z_reduce d), (z_break d); cbn [andb orb negb]; rewrite ?zsum_app, ?zsum_cons; cbn [snd]; change (zsum []) with 0; ring. }
  assert (P : zsum (mem_peak pk (set_single false d)) = 2 * zsum (mem_peak pk (set_single true d))).
  { unfold mem_peak. cbv zeta. unfold dsize. cbn [set_single z_otf z_ao z_times z_gs z_src z_atm z_dm z_single z_gainpos z_reduce z_break].
    destruct pk, (z_gainpos d), (1 <? z_gs d); cbn [andb orb negb]; rewrite ?zsum_app, ?zsum_cons; cbn [snd]; change (zsum []) with 0; ring. }
  unfold total_peak, total_final. lia.
Qed.
Print Assumptions C30_double_precision.
(** C30: the estimate covers the big arrays of the sources: the PSD and the
    structure function, one real per pixel and source, and the static OTFs. *)
Theorem C30_covers_psd :
  forall d, valid_dims d -> 2 * (z_otf d * z_otf d * z_src d) * dsize d + 2 * (2 * (z_otf d * z_otf d)) * dsize d <= total_final d.
Proof.
  intros d HV. pose proof HV as (H1 & H2 & H3 & H4 & H5 & H6 & H7). assert (HB := dsize_pos d).
  unfold total_final, mem_final. cbv zeta. rewrite !zsum_app.
  match goal with |- _ <= zsum ?a + (zsum ?b + (zsum ?c + zsum ?e)) => assert (B1 : 0 <= zsum b); [|assert (B2 : 0 <= zsum c)] end.
  - destruct (z_gainpos d); [|cbn; lia]. apply zsum_nonneg. intros e He. repeat first [apply in_app_or in He; destruct He as [He|He] | match type of He with In _ (if ?b then _ else _) => destruct b end]; repeat (destruct He as [He|He]; [subst e; cbn [snd]; nn|]); try destruct He.
  - destruct (z_break d || _)%bool; [|cbn; lia]. apply zsum_nonneg. intros e He. repeat (destruct He as [He|He]; [subst e; cbn [snd]; nn|]); try destruct He.
  - match goal with |- _ <= _ + (?b + (?c + zsum ?e)) => set (B := b) in *; set (C := c) in * end. rewrite !zsum_cons. cbn [snd]. change (zsum []) with 0.
    assert (N1 : 0 <= 5 * (z_otf d * z_otf d) * dsize d) by nn. assert (N2 : 0 <= 5 * (z_ao d * z_ao d) * dsize d) by nn. lia.
Qed.
Print Assumptions C30_covers_psd.
(** C30 (refuted): it is not an upper bound: the temporal transfer functions (one
    complex and two real maps, the types allocated by the controller) are counted as
    three real maps. *)
Definition bytes_h1_h2_hn (d : dims) : Z := (2 + 1 + 1) * (z_ao d * z_ao d) * dsize d.
Theorem C30_upper_bound_refuted :
  forall d, 1 <= z_ao d -> z_gainpos d = true -> exists v, In ("h1_h2_hn"%string, v) (mem_final d) /\ v < bytes_h1_h2_hn d.
Proof.
  intros d H HG. assert (HB := dsize_pos d). unfold mem_final. cbv zeta. rewrite HG. eexists. split.
  - apply in_or_app. right. apply in_or_app. left. apply in_or_app. left. cbn [In]. do 3 right. left. reflexivity.
  - unfold bytes_h1_h2_hn. assert (0 < z_ao d * z_ao d * dsize d) by (repeat apply Z.mul_pos_pos; lia). lia.
Qed.
Print Assumptions C30_upper_bound_refuted.
Example C30_ex : valid_dims (mkDims 256 64 2 3 5 10 2 false true false true) /\ total_final (mkDims 256 64 2 3 5 10 2 false true false true) < total_peak (mkDims 256 64 2 3 5 10 2 false true false true) true.
Proof. split; [unfold valid_dims; cbn; lia|]. vm_compute. reflexivity. Qed.
Close Scope Z_scope.

(** ** C31 *)
Definition ext_le (a b : ext) : Prop :=
  match a, b with NegInf, _ => True | _, PosInf => True | Val x, Val y => (x <= y)%R | _, _ => False end.
Definition ext_opp (a : ext) : ext := match a with NegInf => PosInf | PosInf => NegInf | Val x => Val (- x)%R end.
(** C31: the bounds of the Fourier model: three atmosphere/jitter parameters, then
    per source a flux, then per source and axis a position, then the background. *)
Theorem C31_fourier_bounds :
  forall (nPix : Z) (nSrc : nat), (0 <= nPix)%Z ->
  let lo := fst (define_bounds nPix nSrc) in let hi := snd (define_bounds nPix nSrc) in
  length lo = (3 + 3 * nSrc + 1)%nat /\ length hi = length lo /\
  (forall k, (k < length lo)%nat -> ext_le (nth k lo PosInf) (nth k hi NegInf)) /\
  (forall k, (3 <= k < 3 + nSrc)%nat -> nth k lo NegInf = Val 0%R /\ nth k hi NegInf = PosInf) /\
  (forall k, (3 + nSrc <= k < 3 + 3 * nSrc)%nat -> nth k hi NegInf = Val (IZR (nPix / 2)) /\
     nth k lo NegInf = Val (IZR (- ((nPix + 1) / 2)))) /\
  ((1 <= nSrc)%nat -> ((forall k, (3 + nSrc <= k < 3 + 3 * nSrc)%nat -> nth k lo NegInf = ext_opp (nth k hi NegInf)) <-> Z.even nPix = true)).
Proof.
  intros nPix nSrc HP lo hi. unfold lo, hi, define_bounds. cbn [fst snd]. clear lo hi.
  assert (EN : (- nPix / 2 = - ((nPix + 1) / 2))%Z).
  { assert (D := Z.div_mod (nPix + 1) 2 ltac:(lia)). assert (M := Z.mod_pos_bound (nPix + 1) 2 ltac:(lia)). symmetry; apply Z.div_unique with (r := (1 - (nPix + 1) mod 2)%Z); lia. }
  rewrite EN.
  assert (L : forall (a x y z : ext), length (repeat a 3 ++ repeat x nSrc ++ repeat y (2 * nSrc) ++ [z]) = (3 + 3 * nSrc + 1)%nat) by (intros; rewrite !app_length, !repeat_length; cbn; lia).
  assert (N : forall (a x y z d : ext) (k : nat), (k < 3 + 3 * nSrc + 1)%nat -> nth k (repeat a 3 ++ repeat x nSrc ++ repeat y (2 * nSrc) ++ [z]) d =
     if (k <? 3)%nat then a else if (k <? 3 + nSrc)%nat then x else if (k <? 3 + 3 * nSrc)%nat then y else z).
  { intros a x y z d k Hk. destruct (Nat.ltb_spec k 3) as [K1|K1]; [rewrite app_nth1 by (rewrite repeat_length; exact K1); rewrite (nth_indep _ d a) by (rewrite repeat_length; exact K1); apply nth_repeat|].
    rewrite app_nth2 by (rewrite repeat_length; exact K1). rewrite repeat_length. destruct (Nat.ltb_spec k (3 + nSrc)) as [K2|K2].
    - rewrite app_nth1 by (rewrite repeat_length; lia). rewrite (nth_indep _ d x) by (rewrite repeat_length; lia). apply nth_repeat.
    - rewrite app_nth2 by (rewrite repeat_length; lia). rewrite repeat_length. destruct (Nat.ltb_spec k (3 + 3 * nSrc)) as [K3|K3].
      + rewrite app_nth1 by (rewrite repeat_length; lia). rewrite (nth_indep _ d y) by (rewrite repeat_length; lia). apply nth_repeat.
      + rewrite app_nth2 by (rewrite repeat_length; lia). rewrite repeat_length. replace (k - 3 - nSrc - 2 * nSrc)%nat with 0%nat by lia. reflexivity. }
  assert (D := Z.div_mod nPix 2 ltac:(lia)). assert (M := Z.mod_pos_bound nPix 2 ltac:(lia)).
  assert (D1 := Z.div_mod (nPix + 1) 2 ltac:(lia)). assert (M1 := Z.mod_pos_bound (nPix + 1) 2 ltac:(lia)).
  split; [apply L|]. split; [rewrite !L; reflexivity|]. rewrite L. split; [|split; [|split]].
  - intros k Hk. rewrite !N by exact Hk. destruct (k <? 3)%nat; [exact I|]. destruct (k <? 3 + nSrc)%nat; [exact I|]. destruct (k <? 3 + 3 * nSrc)%nat; [|exact I]. cbn [ext_le]. apply IZR_le. lia.
  - intros k Hk. rewrite !N by lia. destruct (Nat.ltb_spec k 3); [lia|]. destruct (Nat.ltb_spec k (3 + nSrc)); [|lia]. split; reflexivity.
  - intros k Hk. rewrite !N by lia. destruct (Nat.ltb_spec k 3); [lia|]. destruct (Nat.ltb_spec k (3 + nSrc)); [lia|]. destruct (Nat.ltb_spec k (3 + 3 * nSrc)); [|lia]. split; reflexivity.
  - intros HS. assert (EV : Z.even nPix = true <-> ((nPix + 1) / 2 = nPix / 2)%Z).
    { rewrite Zeven_mod. split; intros Q.
      - apply Zeq_bool_eq in Q. lia.
      - apply Zeq_is_eq_bool. lia. }
    rewrite EV. split.
    + intros H. specialize (H (3 + nSrc)%nat ltac:(lia)). rewrite !N in H by lia. destruct (Nat.ltb_spec (3 + nSrc) 3); [lia|]. destruct (Nat.ltb_spec (3 + nSrc) (3 + nSrc)); [lia|]. destruct (Nat.ltb_spec (3 + nSrc) (3 + 3 * nSrc)); [|lia].
      cbn [ext_opp] in H. assert (X : (IZR (- ((nPix + 1) / 2)) = - IZR (nPix / 2))%R) by congruence. rewrite <- opp_IZR in X. apply eq_IZR in X. lia.
    + intros H k Hk. rewrite !N by lia. destruct (Nat.ltb_spec k 3); [lia|]. destruct (Nat.ltb_spec k (3 + nSrc)); [lia|]. destruct (Nat.ltb_spec k (3 + 3 * nSrc)); [|lia]. cbn [ext_opp]. rewrite H, opp_IZR. reflexivity.
Qed.
Print Assumptions C31_fourier_bounds.
