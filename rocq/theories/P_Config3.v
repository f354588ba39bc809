(** C32: an accepted file in which one entry is changed to a forbidden value is
    refused with ValueError. *)
From Coq Require Import Reals List Arith ZArith String Bool Lra Lia.
From Flocq Require Import Core.Raux Core.Generic_fmt Core.Round_NE.
From Verif Require Import Base_Py M_Tools M_Atmo M_Sensor M_Source M_Config S_Config L_Tools2 L_Config L_Config2 P_Config.
Import ListNotations.
Open Scope R_scope.
Open Scope string_scope.

Lemma bdivl_total a b : Forall (fun y => y <> 0) b -> (exists q, bdivl a b = Ok q) \/ bdivl a b = Err ValueError.
Proof.
  intros H.
  assert (R1 : forall x y, y <> 0 -> rdiv x y = Ok (x / y)) by (intros x y Hy; unfold rdiv; destruct (Req_EM_T y 0); [contradiction|reflexivity]).
  assert (M : forall A (f : A -> result R) l, Forall (fun x => exists z, f x = Ok z) l -> exists z, mapM f l = Ok z).
  { intros A f l Hl. induction Hl as [|x r (z & Ez) _ (zs & IH)]; [eexists; reflexivity|]. cbn [mapM]. rewrite Ez, IH. eexists; reflexivity. }
  unfold bdivl. destruct (length a =? length b)%nat.
  - left. apply M. apply Forall_forall. intros [x y] Hin. apply in_combine_r in Hin. rewrite Forall_forall in H. eexists. apply R1, H, Hin.
  - destruct a as [|x [|x' a]].
    + destruct b as [|y [|y' b]]; eauto.
    + left. apply M. eapply Forall_impl; [|exact H]. intros y Hy. eexists. now apply R1.
    + destruct b as [|y [|y' b]]; auto. left. apply M. apply Forall_forall. intros u _. inversion H; subst. eexists. now apply R1.
Qed.
Lemma bdivl_nonzero a b q : bdivl a b = Ok q -> length a = length b -> Forall (fun y => y <> 0) b.
Proof.
  intros H L. unfold bdivl in H. rewrite L, Nat.eqb_refl in H. revert b q L H. induction a as [|x a IH]; intros [|y b] q L H; try discriminate; [constructor|].
  cbn [combine mapM fst snd] in H. bnext H z E. bnext H zs F. constructor.
  - unfold rdiv in E. destruct (Req_EM_T y 0); [discriminate|assumption].
  - eapply IH; [|exact F]. cbn in L. congruence.
Qed.

Section Bad.
  Variables (e : env) (ar : args) (c : cfg) (y : system) (c' : cfg).
  Hypothesis Hacc : aoSystem e ar c = (Ok y, c').

  Lemma core_err d x : core_of e d = Err x -> fst (aoSystem e ar d) = Err x.
  Proof. intros H. unfold aoSystem. rewrite H. reflexivity. Qed.

  Theorem C32_zenith_too_large v z : number v z -> 90 <= z -> fst (aoSystem e ar (with_key c "telescope" "ZenithAngle" v)) = Err ValueError.
  Proof.
    intros Hv Hz. apply core_err. destruct (ao_inv _ _ _ _ _ Hacc) as [Hk _]. apply core_inv in Hk. destruct Hk as (S1 & _ & _ & Ht & _).
    apply tel_inv in Ht. destruct Ht as (vD & D & zen & am & T1 & T2 & _).
    unfold core_of, req_sec. rewrite has_with, S1, sec_with by exact S1. seqb. cbn [bind]. unfold tel_stage.
    rewrite req_assign. seqb. unfold req. rewrite T1. cbn [bind]. apply as_num_ok in T2. rewrite T2. cbn [bind].
    rewrite !opt_assign. seqb. apply as_num_ok in Hv. rewrite Hv. cbn [bind]. destruct (Rle_dec 90 z); [reflexivity|contradiction].
  Qed.

  Theorem C32_precision_unknown v : section_present c "COMPUTATION" -> (forall s, v = PStr s -> lower s <> "single" /\ lower s <> "double") ->
    fst (aoSystem e ar (with_key c "COMPUTATION" "precision" v)) = Err ValueError.
  Proof.
    intros Hp Hv. apply section_has in Hp. apply core_err. destruct (ao_inv _ _ _ _ _ Hacc) as [Hk _]. apply core_inv in Hk. destruct Hk as (S1 & _ & _ & Ht & _).
    unfold core_of, req_sec. rewrite has_with, S1. cbn [bind].
    assert (EP : (String.eqb (precision_of (with_key c "COMPUTATION" "precision" v)) "single" || String.eqb (precision_of (with_key c "COMPUTATION" "precision" v)) "double")%bool = false).
    { unfold precision_of. rewrite sec_with by exact Hp. rewrite String.eqb_refl, lookup_assign, String.eqb_refl.
      destruct v; try reflexivity. destruct (Hv s eq_refl) as [N1 N2].
      apply orb_false_iff. now rewrite !String.eqb_neq. }
    rewrite (sec_with _ _ _ _ "telescope" Hp). seqb.
    generalize dependent (precision_of (with_key c "COMPUTATION" "precision" v)). intros p EP.
    unfold tel_stage in *. bnext Ht vD E1. bnext Ht D E2. bnext Ht zen E3. rewrite E1. cbn [bind]. rewrite E2. cbn [bind]. rewrite E3. cbn [bind].
    destruct (Rle_dec 90 zen); [discriminate|]. bnext Ht am E4. bnext Ht pu E5. bnext Ht on E6. bnext Ht off E7. bnext Ht pos E8. bnext Ht apo E9. bnext Ht mo E10.
    rewrite E4. cbn [bind]. rewrite E5. cbn [bind]. rewrite E6. cbn [bind]. rewrite E7. cbn [bind]. rewrite E8. cbn [bind]. rewrite E9. cbn [bind]. rewrite E10. cbn [bind].
    cbv zeta. rewrite EP. reflexivity.
  Qed.

  (** a path that resolves to a name that is not a file *)
  Theorem C32_file_missing k p : In k ["PathPupil"; "PathStaticOn"; "PathStaticOff"; "PathStaticPos"; "PathApodizer"; "PathStatModes"] ->
    resolve_config_path (e_isfile e) p (e_root e) (e_p3 e) (e_tiptop e) <> "" ->
    e_isfile e (resolve_config_path (e_isfile e) p (e_root e) (e_p3 e) (e_tiptop e)) = false ->
    fst (aoSystem e ar (with_key c "telescope" k (PStr p))) = Err ValueError.
  Proof.
    intros Hin N1 N2. apply core_err. destruct (ao_inv _ _ _ _ _ Hacc) as [Hk _]. apply core_inv in Hk. destruct Hk as (S1 & _ & _ & Ht & _).
    unfold core_of, req_sec. rewrite has_with, S1. cbn [bind]. rewrite (sec_with _ _ _ _ "telescope" S1). rewrite String.eqb_refl.
    generalize (precision_of (with_key c "telescope" k (PStr p))). intros pr.
    assert (PK : forall dd, path_key e (assign (sec c "telescope") k (PStr p)) k dd = Err ValueError).
    { intros dd. unfold path_key. rewrite lookup_assign, String.eqb_refl. cbn [resolve_value bind]. apply String.eqb_neq in N1. rewrite N1, N2. reflexivity. }
    unfold tel_stage in *. bnext Ht vD E1. bnext Ht D E2. bnext Ht zen E3.
    destruct (Rle_dec 90 zen); [discriminate|]. bnext Ht am E4. bnext Ht pu E5. bnext Ht on E6. bnext Ht off E7. bnext Ht pos E8. bnext Ht apo E9. bnext Ht mo E10. clear Ht.
    rewrite req_assign, !opt_assign. cbn [In] in Hin.
    repeat (destruct Hin as [Hin|Hin]; [subst k; seqb; rewrite E1; cbn [bind]; rewrite E2; cbn [bind]; rewrite E3; cbn [bind];
      destruct (Rle_dec 90 zen) as [?|_]; [contradiction|]; rewrite E4; cbn [bind];
      rewrite ?PK; rewrite ?path_key_assign by reflexivity;
      rewrite ?E5; cbn [bind]; rewrite ?E6; cbn [bind]; rewrite ?E7; cbn [bind]; rewrite ?E8; cbn [bind]; rewrite ?E9; cbn [bind]; rewrite ?E10; cbn [bind]; reflexivity|]).
    contradiction.
  Qed.

  (** the atmosphere *)
  Lemma atm_err k v : atm_stage (c_am (y_core y)) (assign (sec c "atmosphere") k v) = Err ValueError ->
    fst (aoSystem e ar (with_key c "atmosphere" k v)) = Err ValueError.
  Proof.
    intros H. apply core_err. destruct (ao_inv _ _ _ _ _ Hacc) as [Hk _]. apply core_inv in Hk. destruct Hk as (S1 & S2 & _).
    rewrite (core_prefix _ _ _ _ _ Hacc); [|unfold precision_of; rewrite sec_with by exact S2; reflexivity|now rewrite has_with|rewrite sec_with by exact S2; reflexivity].
    unfold req_sec at 1. rewrite has_with, S2. cbn [bind]. rewrite sec_with by exact S2. rewrite String.eqb_refl, H. reflexivity.
  Qed.
  Theorem C32_weights_not_normalised v w : numbers v w -> 1 / 1000 < Rabs (Rsum w - 1) ->
    fst (aoSystem e ar (with_key c "atmosphere" "Cn2Weights" v)) = Err ValueError.
  Proof.
    intros Hv Hw. apply atm_err. destruct (ao_inv _ _ _ _ _ Hacc) as [Hk _]. apply core_inv in Hk. destruct Hk as (_ & _ & _ & _ & _ & Ha & _).
    unfold atm_stage in *. bnext Ha wvl E1. bnext Ha r0 E2. bnext Ha L0 E3.
    rewrite !opt_assign, !req_assign, !lookup_assign. seqb. rewrite E1. cbn [bind]. rewrite E2. cbn [bind]. rewrite E3. cbn [bind].
    apply as_nums_ok, as_sol_lst in Hv. rewrite Hv. cbn [bind sol_sum].
    replace (lsum w) with (Rsum w) by reflexivity.
    destruct (Rlt_dec _ _); [reflexivity|contradiction].
  Qed.
  (** a profile list with another number of layers *)
  Theorem C32_profile_length k d v l m0 : In (k, d) [("Cn2Heights", PList [PNum 0]); ("WindSpeed", PList [PNum 10])] ->
    numbers v l -> value c "atmosphere" "Cn2Weights" (PList [PNum 1]) (PList m0) -> length l <> length m0 ->
    fst (aoSystem e ar (with_key c "atmosphere" k v)) = Err ValueError.
  Proof.
    intros Hin Hv Hm HL. apply atm_err. destruct (ao_inv _ _ _ _ _ Hacc) as [Hk _]. apply core_inv in Hk. destruct Hk as (_ & _ & _ & _ & _ & Ha & _).
    apply value_opt in Hm. pose proof Ha as Ha0. apply atm_inv in Ha0. destruct Ha0 as (wvl0 & r00 & L00 & w & h & vv & dd & f & _ & _ & _ & A4 & A5 & A6 & A7 & A8 & L1 & L2 & L3 & _).
    assert (Lw : length w = length m0) by (destruct A4 as (m & Em & Hf); rewrite Em in Hm; injection Hm as ->; symmetry; now apply F2_len in Hf).
    unfold atm_stage in *. bnext Ha wvl E1. bnext Ha r0 E2. bnext Ha L0 E3. clear Ha.
    rewrite !opt_assign, !req_assign, !lookup_assign.
    apply as_nums_ok, as_sol_lst in Hv. apply as_nums_ok, as_sol_lst in A4. apply as_nums_ok, as_sol_lst in A6. apply as_nums_ok, as_sol_lst in A7.
    cbn [In] in Hin. destruct Hin as [Hin|[Hin|[]]]; injection Hin as <- <-; seqb; rewrite E1; cbn [bind]; rewrite E2; cbn [bind]; rewrite E3; cbn [bind];
      rewrite A4; cbn [bind sol_sum]; (destruct (Rlt_dec _ _); [reflexivity|]); rewrite Hv, ?A6, ?A7; cbn [bind].
    - destruct (lookup (sec c "atmosphere") "WindDirection").
      + apply as_nums_ok, as_sol_lst in A8. rewrite A8. cbn [bind len_sol]. destruct (Nat.eqb_spec (length w) (length l)); [congruence|reflexivity].
      + cbn [bind len_sol]. destruct (Nat.eqb_spec (length w) (length l)); [congruence|reflexivity].
    - destruct (lookup (sec c "atmosphere") "WindDirection").
      + apply as_nums_ok, as_sol_lst in A8. rewrite A8. cbn [bind len_sol]. destruct (Nat.eqb_spec (length w) (length h)); [|reflexivity].
        cbn [negb bind]. destruct (Nat.eqb_spec (length h) (length l)); [congruence|reflexivity].
      + cbn [bind len_sol]. destruct (Nat.eqb_spec (length w) (length h)); [|reflexivity].
        cbn [negb bind]. destruct (Nat.eqb_spec (length h) (length l)); [congruence|reflexivity].
  Qed.
  Theorem C32_wind_direction_length v l m0 : numbers v l -> value c "atmosphere" "Cn2Weights" (PList [PNum 1]) (PList m0) -> length l <> length m0 ->
    fst (aoSystem e ar (with_key c "atmosphere" "WindDirection" v)) = Err ValueError.
  Proof.
    intros Hv Hm HL. apply atm_err. destruct (ao_inv _ _ _ _ _ Hacc) as [Hk _]. apply core_inv in Hk. destruct Hk as (_ & _ & _ & _ & _ & Ha & _).
    apply value_opt in Hm. pose proof Ha as Ha0. apply atm_inv in Ha0. destruct Ha0 as (wvl0 & r00 & L00 & w & h & vv & dd & f & _ & _ & _ & A4 & A5 & A6 & A7 & A8 & L1 & L2 & L3 & _).
    assert (Lw : length w = length m0) by (destruct A4 as (m & Em & Hf); rewrite Em in Hm; injection Hm as ->; symmetry; now apply F2_len in Hf).
    unfold atm_stage in *. bnext Ha wvl E1. bnext Ha r0 E2. bnext Ha L0 E3. clear Ha.
    rewrite !opt_assign, !req_assign, !lookup_assign.
    apply as_nums_ok, as_sol_lst in Hv. apply as_nums_ok, as_sol_lst in A4. apply as_nums_ok, as_sol_lst in A6. apply as_nums_ok, as_sol_lst in A7.
    seqb; rewrite E1; cbn [bind]; rewrite E2; cbn [bind]; rewrite E3; cbn [bind];
      rewrite A4; cbn [bind sol_sum]; (destruct (Rlt_dec _ _); [reflexivity|]); rewrite A6; cbn [bind]; rewrite A7; cbn [bind]; rewrite Hv; cbn [bind len_sol].
    destruct (Nat.eqb_spec (length w) (length h)); [|reflexivity]. cbn [negb bind].
    destruct (Nat.eqb_spec (length h) (length vv)); [|reflexivity]. cbn [negb bind].
    destruct (Nat.eqb_spec (length vv) (length l)); [congruence|reflexivity].
  Qed.
  (** guide stars: as many zeniths as azimuths *)
  Theorem C32_ho_star_length k k' v l m0 : (k = "Zenith" /\ k' = "Azimuth") \/ (k = "Azimuth" /\ k' = "Zenith") -> numbers v l ->
    value c "sources_HO" k' (PList [PNum 0]) (PList m0) -> length l <> length m0 ->
    fst (aoSystem e ar (with_key c "sources_HO" k v)) = Err ValueError.
  Proof.
    intros Hkk Hv Hm HL. apply core_err. destruct (ao_inv _ _ _ _ _ Hacc) as [Hk _]. apply core_inv in Hk. destruct Hk as (S1 & S2 & S3 & _ & _ & Ha & g & Hg & _).
    rewrite (core_prefix _ _ _ _ _ Hacc); [|unfold precision_of; rewrite sec_with by exact S3; reflexivity|now rewrite has_with|rewrite sec_with by exact S3; reflexivity].
    unfold req_sec. rewrite !has_with, S2, S3. cbn [bind]. rewrite !sec_with by exact S3. seqb. rewrite Ha. cbn [bind].
    apply value_opt in Hm. apply ho_inv in Hg. destruct Hg as (wv & wvl & zen & az & x & so & G1 & G2 & G3 & G4 & G5 & _).
    unfold ho_stage. rewrite !opt_assign, req_assign. apply as_nums_ok in Hv.
    destruct Hkk as [[-> ->]|[-> ->]]; seqb; unfold req; rewrite G1; cbn [bind]; rewrite G2; cbn [bind].
    - rewrite Hv. cbn [bind]. pose proof G4 as G4'. apply as_nums_ok in G4. rewrite G4. cbn [bind].
      destruct (Nat.eqb_spec (length l) (length az)); [|reflexivity]. exfalso. destruct G4' as (m & Em & Hf). rewrite Em in Hm. injection Hm as ->. apply F2_len in Hf. congruence.
    - pose proof G3 as G3'. apply as_nums_ok in G3. rewrite G3. cbn [bind]. rewrite Hv. cbn [bind].
      destruct (Nat.eqb_spec (length zen) (length l)); [|reflexivity]. exfalso. destruct G3' as (m & Em & Hf). rewrite Em in Hm. injection Hm as ->. apply F2_len in Hf. congruence.
  Qed.
  (** optimisation directions *)
  Theorem C32_opt_length k v l k' m0 : In k ["OptimizationZenith"; "OptimizationAzimuth"; "OptimizationWeight"] -> In k' ["OptimizationZenith"; "OptimizationAzimuth"; "OptimizationWeight"] -> k <> k' ->
    numbers v l -> value c "DM" k' (PList [PNum 0]) (PList m0) -> length l <> length m0 ->
    fst (aoSystem e ar (with_key c "DM" k v)) = Err ValueError.
  Proof.
    intros Hin Hin' Nk Hv Hm HL. destruct (tail_facts _ _ _ _ _ Hacc) as (tf & dms & wvl' & sS & Htf & S5 & Hd & _).
    apply (rest_err _ _ _ _ _ Hacc).
    { apply core_ext. intros s Hs. cbn [In core_sections] in Hs. rewrite sec_with, has_with by exact S5. repeat (destruct Hs as [<-|Hs]; [split; reflexivity|]). contradiction. }
    destruct (conf_tail _ _ _ _ _ Hacc (with_key c "DM" k v)) as (wvl & rt & tts & c2 & _ & Hs & Ht).
    { intros s Hs. cbn [In] in Hs. rewrite sec_with, has_with by exact S5. repeat (destruct Hs as [<-|Hs]; [split; reflexivity|]). contradiction. }
    rewrite (Ht _ Htf). cbv zeta. unfold req_sec at 1. destruct (Hs "DM") as [-> ->]; [cbn; auto|]. rewrite has_with, S5, sec_with, String.eqb_refl by exact S5. cbn [bind].
    apply value_opt in Hm. pose proof Hd as Hd0. apply dm_inv in Hd0.
    destruct Hd0 as (p & pitch & dh & na & ic & ow & oa & oz & nrec & D1 & D2 & D3 & D4 & D5 & D6 & D7 & D8 & D9 & D10 & _).
    assert (Lk : length m0 = length oz).
    { cbn [In] in Hin'. destruct Hin' as [E|[E|[E|[]]]]; subst k';
        [destruct D8 as (m & Em & Hf)|destruct D7 as (m & Em & Hf)|destruct D6 as (m & Em & Hf)]; rewrite Em in Hm; injection Hm as ->; apply F2_len in Hf; congruence. }
    unfold dm_stage in *. bnext Hd p' E1. bnext Hd pitch' E2. bnext Hd h' E3. bnext Hd na' E4. bnext Hd ic' E5. bnext Hd ow' E6. bnext Hd oa' E7. bnext Hd oz' E8. clear Hd.
    apply as_nums_ok in D6, D7, D8. rewrite E6 in D6. rewrite E7 in D7. rewrite E8 in D8. apply Ok_inj in D6, D7, D8. subst ow' oa' oz'.
    rewrite req_assign, !opt_assign, !lookup_assign. apply as_nums_ok in Hv.
    cbn [In] in Hin, Hin'. destruct Hin as [<-|[<-|[<-|[]]]]; seqb; rewrite E1; cbn [bind]; rewrite E2; cbn [bind]; rewrite E3; cbn [bind]; rewrite E4; cbn [bind]; rewrite E5; cbn [bind];
      rewrite ?Hv, ?E6, ?E7, ?E8; cbn [bind]; rewrite ?Hv, ?E6, ?E7, ?E8; cbn [bind]; rewrite ?Hv, ?E6, ?E7, ?E8; cbn [bind].
    - destruct (Nat.eqb_spec (length l) (length oa)); [congruence|]. reflexivity.
    - destruct (Nat.eqb_spec (length oz) (length l)); [congruence|]. reflexivity.
    - destruct (Nat.eqb_spec (length oz) (length l)); [congruence|]. rewrite orb_true_r. reflexivity.
  Qed.
  (** several mirrors without their heights *)
  Theorem C32_mirror_heights_needed m0 : entry c "DM" "DmPitchs" (PList m0) -> (1 < length m0)%nat ->
    fst (aoSystem e ar (without_key c "DM" "DmHeights")) = Err ValueError.
  Proof.
    intros Hm HL. destruct (tail_facts _ _ _ _ _ Hacc) as (tf & dms & wvl' & sS & Htf & S5 & Hd & _).
    apply (rest_err _ _ _ _ _ Hacc); [apply core_ext; same_secs|].
    destruct (conf_tail _ _ _ _ _ Hacc (without_key c "DM" "DmHeights")) as (wvl & rt & tts & c2 & _ & Hs & Ht).
    { intros s Hs. cbn [In] in Hs. rewrite sec_without, has_without. repeat (destruct Hs as [<-|Hs]; [split; reflexivity|]). contradiction. }
    rewrite (Ht _ Htf). cbv zeta. unfold req_sec at 1. destruct (Hs "DM") as [-> ->]; [cbn; auto|]. rewrite has_without, S5, sec_without, String.eqb_refl. cbn [bind].
    unfold dm_stage in *. bnext Hd p' E1. bnext Hd pitch' E2. clear Hd. rewrite req_rm, !lookup_rm. seqb. rewrite E1. cbn [bind]. rewrite E2. cbn [bind].
    apply entry_sec in Hm. apply req_ok in E1. rewrite Hm in E1. injection E1 as <-. apply as_nums_len in E2. destruct E2 as (m & Em & Lm). injection Em as <-.
    destruct (Nat.ltb_spec 1 (length pitch')); [reflexivity|lia].
  Qed.
  (** as many heights and actuators as pitches *)
  Theorem C32_mirror_lengths v m0 : entry c "DM" "DmPitchs" (PList m0) ->
    (forall l, numbers v l -> length l <> length m0 -> fst (aoSystem e ar (with_key c "DM" "DmHeights" v)) = Err ValueError) /\
    (forall l, as_ints v = Ok l -> length l <> length m0 -> fst (aoSystem e ar (with_key c "DM" "NumberActuators" v)) = Err ValueError).
  Proof.
    intros Hm. destruct (tail_facts _ _ _ _ _ Hacc) as (tf & dms & wvl' & sS & Htf & S5 & Hd & _).
    assert (K : forall k, k = "DmHeights" \/ k = "NumberActuators" -> dm_stage tf (t_D (c_tel (y_core y))) (assign (sec c "DM") k v) = Err ValueError ->
              fst (aoSystem e ar (with_key c "DM" k v)) = Err ValueError).
    { intros k Hk He. apply (rest_err _ _ _ _ _ Hacc).
      { apply core_ext. intros s Hs. cbn [In core_sections] in Hs. rewrite sec_with, has_with by exact S5. repeat (destruct Hs as [<-|Hs]; [split; reflexivity|]). contradiction. }
      destruct (conf_tail _ _ _ _ _ Hacc (with_key c "DM" k v)) as (wvl & rt & tts & c2 & _ & Hs & Ht).
      { intros s Hs. cbn [In] in Hs. rewrite sec_with, has_with by exact S5. repeat (destruct Hs as [<-|Hs]; [split; reflexivity|]). contradiction. }
      rewrite (Ht _ Htf). cbv zeta. unfold req_sec at 1. destruct (Hs "DM") as [-> ->]; [cbn; auto|]. rewrite has_with, S5, sec_with, String.eqb_refl by exact S5. cbn [bind].
      rewrite He. reflexivity. }
    pose proof Hd as Hd0. apply dm_inv in Hd0.
    destruct Hd0 as (p & pitch & dh & na & ic & ow & oa & oz & nrec & D1 & D2 & D3 & D4 & D5 & D6 & D7 & D8 & D9 & D10 & D11 & _ & D12 & _).
    apply dm_init_lens in D12. destruct D12 as (Q1 & Q2 & Q3 & _).
    apply entry_sec in Hm. rewrite Hm in D1. injection D1 as <-.
    assert (Lp : length m0 = length pitch) by (destruct D2 as (m & Em & Hf); injection Em as ->; now apply F2_len in Hf).
    apply as_nums_ok in D2, D5, D6, D7, D8. apply as_num_ok in D11. clear Hd.
    assert (O : (negb (length oz =? length oa)%nat || negb (length oz =? length ow)%nat)%bool = false) by (rewrite <- D9, <- D10, !Nat.eqb_refl; reflexivity).
    split.
    - intros l Hl Nl. apply K; [auto|]. unfold dm_stage. rewrite req_assign, !opt_assign, !lookup_assign. seqb. unfold req. rewrite Hm. cbn [bind]. rewrite D2. cbn [bind].
      apply as_nums_ok in Hl. rewrite Hl. cbn [bind].
      assert (EN : exists na', (match lookup (sec c "DM") "NumberActuators" with Some v => as_ints v | None => nact_default tf (t_D (c_tel (y_core y))) l pitch end) = Ok na' \/
                   (match lookup (sec c "DM") "NumberActuators" with Some v => as_ints v | None => nact_default tf (t_D (c_tel (y_core y))) l pitch end) = Err ValueError).
      { destruct (lookup (sec c "DM") "NumberActuators"); [eauto|]. unfold nact_default in *. bnext D4 q F1.
        apply bdivl_nonzero in F1; [|rewrite map_length; exact Q2].
        destruct (bdivl_total (map (fun x => tf * (PI / (3600 * 180)) * x + t_D (c_tel (y_core y))) l) pitch F1) as [(z & ->)| ->]; cbn [bind]; [eexists; left; reflexivity|exists []; now right]. }
      destruct EN as (na' & [EN|EN]); rewrite EN; cbn [bind]; [|reflexivity].
      rewrite D5. cbn [bind]. rewrite D6. cbn [bind]. rewrite D7. cbn [bind]. rewrite D8. cbn [bind].
      rewrite O, D11. cbn [bind]. unfold dm_init. destruct (Nat.eqb_spec (length l) (length pitch)); [congruence|]. rewrite orb_true_r. reflexivity.
    - intros l Hl Nl. apply K; [auto|]. unfold dm_stage. rewrite req_assign, !opt_assign, !lookup_assign. seqb. unfold req. rewrite Hm. cbn [bind]. rewrite D2. cbn [bind].
      assert (E3 : (match lookup (sec c "DM") "DmHeights" with Some v => as_nums v | None => if (1 <? length pitch)%nat then Err ValueError else Ok [0] end) = Ok dh).
      { destruct (lookup (sec c "DM") "DmHeights"); [now apply as_nums_ok|]. destruct D3 as [? ->]. destruct (Nat.ltb_spec 1 (length pitch)); [lia|reflexivity]. }
      rewrite E3. cbn [bind]. rewrite Hl. cbn [bind]. rewrite D5. cbn [bind]. rewrite D6. cbn [bind]. rewrite D7. cbn [bind]. rewrite D8. cbn [bind].
      rewrite O, D11. cbn [bind]. unfold dm_init. destruct (Nat.eqb_spec (length l) (length pitch)); [congruence|]. reflexivity.
  Qed.
End Bad.
Print Assumptions C32_zenith_too_large.
Print Assumptions C32_precision_unknown.
Print Assumptions C32_file_missing.
Print Assumptions C32_weights_not_normalised.
Print Assumptions C32_profile_length.
Print Assumptions C32_wind_direction_length.
Print Assumptions C32_ho_star_length.
Print Assumptions C32_opt_length.
Print Assumptions C32_mirror_heights_needed.
Print Assumptions C32_mirror_lengths.
