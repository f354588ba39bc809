(** Documented defaults, stage by stage. *)
From Coq Require Import Reals List Arith ZArith String Bool Lra Lia.
From Flocq Require Import Core.Raux Core.Generic_fmt Core.Round_NE.
From Verif Require Import Base_Py M_Tools M_Atmo M_Sensor M_Source M_Config S_Config L_Tools2 L_Config L_Config2 P_Config.
Import ListNotations.
Open Scope R_scope.
Open Scope string_scope.

(** ** Defaults, stage by stage *)
Ltac dflt_cases Hin tac := unfold defaults in Hin; cbn [In lookup default_table String.eqb Ascii.eqb Bool.eqb] in Hin;
  repeat (destruct Hin as [Hin|Hin]; [injection Hin as <- <-; tac|]); try contradiction.
Lemma path_default e s k : lookup s k = None -> path_key e (assign s k (PStr "")) k (PStr "") = path_key e s k (PStr "").
Proof. intros H. unfold path_key. rewrite lookup_assign, String.eqb_refl, H. reflexivity. Qed.
Section Assign.
  Variables (s : section) (k : string) (d : pval).
  Hypothesis HN : lookup s k = None.
  Lemma opt_eq : opt (assign s k d) k d = opt s k d.
  Proof. unfold opt. now rewrite lookup_assign, String.eqb_refl, HN. Qed.
  Lemma opt_ne k' d' : String.eqb k k' = false -> opt (assign s k d) k' d' = opt s k' d'.
  Proof. intros H. now rewrite opt_assign, H. Qed.
  Lemma lookup_eq : lookup (assign s k d) k = Some d.
  Proof. now rewrite lookup_assign, String.eqb_refl. Qed.
  Lemma lookup_ne k' : String.eqb k k' = false -> lookup (assign s k d) k' = lookup s k'.
  Proof. intros H. now rewrite lookup_assign, H. Qed.
  Lemma req_ne k' : String.eqb k k' = false -> req (assign s k d) k' = req s k'.
  Proof. intros H. now rewrite req_assign, H. Qed.
  Lemma plain_assign L : Forall (fun kd => fst kd = k -> snd kd = d) L -> plain (assign s k d) L = plain s L.
  Proof.
    intros H. unfold plain. induction H as [|[k' d'] r Hx Hr IH]; [reflexivity|]. cbn [map fst snd] in *. rewrite IH. f_equal. f_equal.
    destruct (String.eqb_spec k k') as [E|N].
    - subst k'. rewrite (Hx eq_refl). apply opt_eq.
    - apply opt_ne. now apply String.eqb_neq.
  Qed.
End Assign.
Ltac plain_side := repeat (constructor; [cbn [fst snd]; intros; first [reflexivity|discriminate]|]); constructor.
Ltac dflt HN :=
  rewrite ?(path_default _ _ _ HN), ?(opt_eq _ _ _ HN), ?lookup_eq, ?HN;
  rewrite ?path_key_assign, ?opt_ne, ?req_ne, ?lookup_ne by reflexivity;
  rewrite ?(plain_assign _ _ _ HN) by plain_side;
  try reflexivity.
Lemma defaults_tel e p s k d : In (k, d) (defaults "telescope") -> lookup s k = None -> tel_stage e p (assign s k d) = tel_stage e p s.
Proof.
  intros Hin HN.
  dflt_cases Hin ltac:(unfold tel_stage; dflt HN).
Qed.
Lemma defaults_atm am s k d : In (k, d) (defaults "atmosphere") -> lookup s k = None -> atm_stage am (assign s k d) = atm_stage am s.
Proof. intros Hin HN. dflt_cases Hin ltac:(unfold atm_stage; dflt HN). Qed.
Lemma defaults_atm_seeing s k d : In (k, d) (defaults "atmosphere") -> lookup (assign s k d) "Seeing" = lookup s "Seeing".
Proof. intros Hin. dflt_cases Hin ltac:(rewrite lookup_assign; reflexivity). Qed.
Lemma defaults_ho am b s k d : In (k, d) (defaults "sources_HO") -> lookup s k = None -> ho_stage am b (assign s k d) = ho_stage am b s.
Proof. intros Hin HN. dflt_cases Hin ltac:(unfold ho_stage; dflt HN). Qed.
Lemma defaults_ho_sensor D s k d : In (k, d) (defaults "sensor_HO") -> lookup s k = None -> fst (ho_sensor D (assign s k d)) = fst (ho_sensor D s).
Proof.
  intros Hin HN.
  assert (E : forall r1 r2 (f : sargs * nph_arg -> result wfs * section) (g : sargs * nph_arg -> result wfs * section) s1 s2, r1 = r2 -> (forall x, fst (f x) = fst (g x)) ->
     fst (match r1 with Err e => (Err e, s1) | Ok x => f x end) = fst (match r2 with Err e => (Err e, s2) | Ok x => g x end)).
  { intros r1 r2 f g s1 s2 -> Hf. destruct r2; [apply Hf|reflexivity]. }
  dflt_cases Hin ltac:(unfold ho_sensor; cbv zeta;
    match goal with |- fst (match ?r1 with _ => _ end) = fst (match ?r2 with _ => _ end) =>
      replace r1 with r2; [destruct r2 as [[? ?]|]; [cbn [fst]; dflt HN|reflexivity]|symmetry; dflt HN] end).
Qed.
Lemma defaults_lo_sensor D s k d : In (k, d) (defaults "sensor_LO") -> lookup s k = None -> fst (lo_sensor D (assign s k d)) = fst (lo_sensor D s).
Proof.
  intros Hin HN.
  dflt_cases Hin ltac:(unfold lo_sensor; cbv zeta;
    match goal with |- fst (match ?r1 with _ => _ end) = fst (match ?r2 with _ => _ end) =>
      replace r1 with r2; [destruct r2 as [[? ?]|]; [cbn [fst]; dflt HN|reflexivity]|symmetry; dflt HN] end).
Qed.
Lemma defaults_rtc s k d : In (k, d) (defaults "RTC") -> lookup s k = None -> rtc_stage (assign s k d) = rtc_stage s.
Proof. intros Hin HN. dflt_cases Hin ltac:(unfold rtc_stage; first [solve [dflt HN] | unfold opt; rewrite ?lookup_eq, ?HN; rewrite ?lookup_ne by reflexivity; rewrite ?HN; reflexivity]). Qed.
Lemma defaults_dm tf D s k d : In (k, d) (defaults "DM") -> lookup s k = None -> dm_stage tf D (assign s k d) = dm_stage tf D s.
Proof. intros Hin HN. dflt_cases Hin ltac:(unfold dm_stage; dflt HN). Qed.

Lemma defaults_cam e ex am satm a wvl pitch c s k d s0 :
  In (k, d) (defaults "sensor_science") -> lookup s k = None -> has_sec c "sensor_science" = true -> sec c "sensor_science" = s -> has_sec s0 "sensor_science" = true ->
  sec s0 "sensor_science" = assign s k d ->
  (do x <- cam_stage e ex am satm a wvl pitch s0; Ok (fst x)) = (do x <- cam_stage e ex am satm a wvl pitch c; Ok (fst x)).
Proof.
  intros Hin HN H1 H2 H3 H4. unfold cam_stage, req_sec. rewrite H1, H2, H3, H4. cbn [bind].
  assert (G : get_fov e am satm a wvl = fun ps pitch s => get_fov e am satm a wvl ps pitch s) by reflexivity.
  assert (E1 : req (assign s k d) "PixelScale" = req s "PixelScale") by (dflt_cases Hin ltac:(apply req_ne; reflexivity)).
  assert (E2 : forall ps, get_fov e am satm a wvl ps pitch (assign s k d) = get_fov e am satm a wvl ps pitch s).
  { intros ps. unfold get_fov. replace (req (assign s k d) "FieldOfView") with (req s "FieldOfView"); [reflexivity|]. symmetry. dflt_cases Hin ltac:(apply req_ne; reflexivity). }
  assert (E3 : opt (assign s k d) "Transmittance" (PList [PNum 1]) = opt s "Transmittance" (PList [PNum 1])) by (dflt_cases Hin ltac:(dflt HN)).
  assert (E4 : opt (assign s k d) "Dispersion" (PList [PList [PNum 0]; PList [PNum 0]]) = opt s "Dispersion" (PList [PList [PNum 0]; PList [PNum 0]])) by (dflt_cases Hin ltac:(dflt HN)).
  assert (E5 : plain (assign s k d) cam_plain = plain s cam_plain) by (dflt_cases Hin ltac:(dflt HN)).
  rewrite E1. destruct (req s "PixelScale"); [|reflexivity]. cbn [bind]. destruct (as_sol a0) as [psn|]; [|reflexivity]. cbn [bind]. rewrite E2.
  destruct (get_fov _ _ _ _ _ _ _ _); [|reflexivity]. cbn [bind]. destruct (expand_fov _ _ _); [|reflexivity]. cbn [bind]. cbv zeta. rewrite E3, E4, E5.
  destruct (len_val _); [|reflexivity]. cbn [bind]. destruct (disp_len _); [|reflexivity]. cbn [bind]. destruct (negb _); reflexivity.
Qed.
Lemma defaults_sci ar c d k v : In (k, v) (defaults "sources_science") -> lookup (sec c "sources_science") k = None ->
  has_sec d "sources_science" = has_sec c "sources_science" -> sec d "sources_science" = assign (sec c "sources_science") k v ->
  sec d "sources_LO" = sec c "sources_LO" -> science_stage ar d = science_stage ar c.
Proof.
  intros Hin HN H1 H2 H3. unfold science_stage, req_sec. rewrite H1, H2, H3. destruct (has_sec c "sources_science"); [|reflexivity]. cbn [bind].
  dflt_cases Hin ltac:(dflt HN).
Qed.

