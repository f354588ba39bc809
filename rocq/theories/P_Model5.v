(** C127: the residual spectrum is symmetric about the origin, except for the aliasing. *)
From Coq Require Import Reals List Arith ZArith Bool String Lia Lra.
From Flocq Require Import Core.Raux.
From Verif Require Import Base_Py Base_Sum M_Tools L_Tools M_Freq L_Freq M_Atmo S_Atmo L_Atmo M_Sensor M_Model S_Model L_Model L_Model2 P_Model P_Model2 S_Sym.
From Coquelicot Require Import Complex.
Import ListNotations.
Open Scope R_scope.

Section Sym.
  Variable y : fsys.
  Variables i j i' j' : nat.
  Hypothesis Hi : opposite (y_res y) i i'.
  Hypothesis Hj : opposite (y_res y) j j'.
  Let y' := flip_offset y.
  Lemma opp_z n a a' : opposite n a a' -> (Z.of_nat a' - Z.of_nat n / 2 = - (Z.of_nat a - Z.of_nat n / 2))%Z.
  Proof. unfold opposite. intros H. assert (Z.of_nat n / 2 = Z.of_nat (n / 2))%Z by (rewrite Nat2Z.inj_div; reflexivity). lia. Qed.
  Lemma sym_kx : kxAO y' i' j' = - kxAO y i j.
  Proof. unfold kxAO, freq_x. cbn. rewrite (opp_z _ _ _ Hi), opp_IZR. ring. Qed.
  Lemma sym_ky : kyAO y' i' j' = - kyAO y i j.
  Proof. unfold kyAO, freq_y. cbn. rewrite (opp_z _ _ _ Hj), opp_IZR. ring. Qed.
  Lemma sym_kx_t : kxAO y' j' i' = - kxAO y j i.
  Proof. unfold kxAO, freq_x. cbn. rewrite (opp_z _ _ _ Hj), opp_IZR. ring. Qed.
  Lemma sym_k2 : k2AO y' i' j' = k2AO y i j.
  Proof. unfold k2AO. rewrite sym_kx, sym_ky. ring. Qed.
  Lemma sym_centre : centre y' i' j' = centre y i j.
  Proof. unfold centre, opposite in *. cbn [y' flip_offset y_res]. destruct (Nat.eqb_spec i (y_res y / 2)), (Nat.eqb_spec j (y_res y / 2)), (Nat.eqb_spec i' (y_res y / 2)), (Nat.eqb_spec j' (y_res y / 2)); cbn; lia || reflexivity. Qed.
  Lemma sym_piston : pistonAO y' i' j' = pistonAO y i j.
  Proof. unfold pistonAO. rewrite sym_centre, sym_k2. reflexivity. Qed.
  Lemma msk_opp c k a b : mskIn c k (- a) (- b) = mskIn c k a b.
  Proof. unfold mskIn. rewrite !Rabs_Ropp. replace ((- a) ^ 2 + (- b) ^ 2) with (a ^ 2 + b ^ 2) by ring. reflexivity. Qed.
  Lemma sym_mask : maskAO y' i' j' = maskAO y i j.
  Proof. unfold maskAO. rewrite sym_kx, sym_ky, msk_opp. reflexivity. Qed.
  Lemma sym_Wphi : Wphi y' i' j' = Wphi y i j.
  Proof. unfold Wphi. rewrite sym_k2. reflexivity. Qed.
  Lemma sinc_opp x : sinc (- x) = sinc x.
  Proof.
    unfold sinc. destruct (Req_EM_T x 0) as [ ->|N]; [destruct (Req_EM_T (- 0) 0) as [|M]; [reflexivity|exfalso; apply M; ring]|].
    destruct (Req_EM_T (- x) 0) as [M|M]; [exfalso; apply N; lra|]. replace (PI * - x) with (- (PI * x)) by ring. rewrite sin_neg. field. split; [exact N|apply PI_neq0].
  Qed.
  Lemma cis_opp t : cis (- t) = Cconj (cis t).
  Proof. unfold cis, Cconj. cbn [fst snd]. rewrite cos_neg, sin_neg. reflexivity. Qed.
  Lemma imag_opp x : imag (- x) = Cconj (imag x).
  Proof. reflexivity. Qed.
  Lemma conj_mult a b : Cconj (Cmult a b) = Cmult (Cconj a) (Cconj b).
  Proof. unfold Cconj, Cmult. cbn. f_equal; ring. Qed.
  Lemma conj_R x : Cconj (RtoC x) = RtoC x.
  Proof. unfold Cconj, RtoC. cbn. f_equal. ring. Qed.
  Lemma conj_plus a b : Cconj (Cplus a b) = Cplus (Cconj a) (Cconj b).
  Proof. unfold Cconj, Cplus. cbn. f_equal; ring. Qed.
  Lemma conj_minus a b : Cconj (Cminus a b) = Cminus (Cconj a) (Cconj b).
  Proof. unfold Cconj, Cminus, Cplus, Copp. cbn. f_equal; ring. Qed.
  Lemma conj_div a b : Cconj (Cdiv a b) = Cdiv (Cconj a) (Cconj b).
  Proof.
    unfold Cdiv. rewrite conj_mult. f_equal. unfold Cconj, Cinv. cbn [fst snd]. replace ((- snd b) ^ 2) with (snd b ^ 2) by ring. f_equal. unfold Rdiv. ring.
  Qed.
  Lemma mod_conj a : Cmod (Cconj a) = Cmod a.
  Proof. unfold Cmod, Cconj. cbn [fst snd]. f_equal. ring. Qed.
  Lemma conj_conj a : Cconj (Cconj a) = a.
  Proof. destruct a. unfold Cconj. cbn. f_equal. ring. Qed.
  Lemma clsum_conj l : clsum (map Cconj l) = Cconj (clsum l).
  Proof. induction l as [|a l IH]; cbn [map clsum fold_right]; [rewrite conj_R; reflexivity|]. change (Cplus (Cconj a) (clsum (map Cconj l)) = Cconj (Cplus a (clsum l))). rewrite IH, conj_plus. reflexivity. Qed.

  Definition rc {A} (f : A -> A) (r : result A) : result A := match r with Ok a => Ok (f a) | Err e => Err e end.
  Lemma rsign_opp x : rsign (- x) = - rsign x.
  Proof. unfold rsign. destruct (Rlt_dec (- x) 0), (Rlt_dec x 0), (Rlt_dec 0 (- x)), (Rlt_dec 0 x); try lra. Qed.
  Lemma Sx_opp a b a' b' : kxAO y' a' b' = - kxAO y a b -> Sx y' a' b' = rc Cconj (Sx y a b).
  Proof.
    intros E. unfold Sx. cbn [y' flip_offset y_type y_dsub y_nL y_mod]. fold y'. rewrite E. destruct (_ =? _)%string.
    - cbn [rc]. f_equal. rewrite <- imag_opp. f_equal. ring.
    - destruct (_ =? _)%string; [|reflexivity]. destruct (rdiv 1 _) as [a0|]; [|reflexivity]. cbn [bind]. destruct (rdiv a0 _) as [b0|]; [|reflexivity]. cbn [bind]. rewrite Rabs_Ropp.
      destruct (Rlt_dec _ _); cbn [rc]; [rewrite rsign_opp; reflexivity|]. unfold rdiv. destruct (Req_EM_T _ 0); [reflexivity|]. cbn [bind rc]. f_equal. rewrite <- imag_opp. f_equal.
      replace (- kxAO y a b / (b0 * y_mod y)) with (- (kxAO y a b / (b0 * y_mod y))) by (unfold Rdiv; ring). rewrite asin_opp. ring.
  Qed.
  Lemma sym_Sy : Sy y' i' j' = rc Cconj (Sy y i j).
  Proof.
    unfold Sy. cbn [y' flip_offset y_type y_dsub]. fold y'. destruct (_ =? _)%string; [|apply Sx_opp; exact sym_kx_t].
    cbn [rc]. f_equal. rewrite <- imag_opp, sym_ky. f_equal. ring.
  Qed.
  Lemma sym_Av : Av y' i' j' = Cconj (Av y i j).
  Proof.
    unfold Av. cbn [y' flip_offset y_type y_dsub y_bin]. fold y'. rewrite sym_kx, sym_ky, sym_kx_t. destruct (_ =? _)%string.
    - rewrite conj_mult, conj_R, <- cis_opp. rewrite !Ropp_mult_distr_r_reverse, !sinc_opp. f_equal. f_equal. ring.
    - rewrite conj_R, !Ropp_mult_distr_r_reverse, !sinc_opp. reflexivity.
  Qed.
  Lemma sym_SxAv : SxAv y' i' j' = rc Cconj (SxAv y i j).
  Proof. unfold SxAv. rewrite (Sx_opp i j i' j' sym_kx), sym_Av. destruct (Sx y i j); cbn [bind rc]; [rewrite conj_mult|]; reflexivity. Qed.
  Lemma sym_SyAv : SyAv y' i' j' = rc Cconj (SyAv y i j).
  Proof. unfold SyAv. rewrite sym_Sy, sym_Av. destruct (Sy y i j); cbn [bind rc]; [rewrite conj_mult|]; reflexivity. Qed.
  Definition conj2 (p : C * C) : C * C := (Cconj (fst p), Cconj (snd p)).
  Lemma cdivr_conj c r : cdivr (Cconj c) r = rc Cconj (cdivr c r).
  Proof. unfold cdivr. destruct (Req_EM_T r 0); [reflexivity|]. cbn [rc]. f_equal. unfold Cconj. cbn. f_equal. unfold Rdiv. ring. Qed.
  Lemma sym_recon MV : recon y' MV i' j' = rc conj2 (recon y MV i j).
  Proof.
    unfold recon. rewrite sym_SxAv, sym_SyAv, sym_Wphi, sym_centre. change (y_atm y') with (y_atm y). change (y_gswvl y') with (y_gswvl y). change (Wn y') with (Wn y).
    match goal with |- (if _ then match ?a with _ => _ end else _) = rc _ (if _ then match ?b with _ => _ end else _) => assert (E : a = rc conj2 b) end.
    { destruct (SxAv y i j) as [sx|]; [|reflexivity]. cbn [bind rc]. destruct (SyAv y i j) as [sy|]; [|reflexivity]. cbn [bind rc]. destruct (rdiv (a_wvl _) _); [|reflexivity]. cbn [bind]. destruct (Wphi y i j); [|reflexivity]. cbn [bind]. destruct (Wn y); [|reflexivity]. cbn [bind].
      destruct (rdiv (MV * _) _) as [m|]; [|reflexivity]. cbn [bind]. cbv zeta. rewrite !mod_conj. rewrite !(cdivr_conj (Cconj _)). destruct (cdivr (Cconj sx) _); [|reflexivity]. cbn [bind rc]. destruct (cdivr (Cconj sy) _); [|reflexivity]. reflexivity. }
    rewrite E. destruct (centre y i j); [|reflexivity]. match goal with |- match rc conj2 ?r with _ => _ end = _ => destruct r as [p|[]] end; cbn [rc]; try reflexivity; unfold conj2; cbn [fst snd]; rewrite !conj_R; reflexivity.
  Qed.
  Lemma sym_filterF MV : filterF y' MV i' j' = rc Cconj (filterF y MV i j).
  Proof.
    unfold filterF. rewrite sym_recon, sym_SxAv, sym_SyAv. destruct (recon y MV i j) as [r|]; [|reflexivity]. cbn [bind rc]. destruct (SxAv y i j) as [sx|]; [|reflexivity]. cbn [bind rc]. destruct (SyAv y i j) as [sy|]; [|reflexivity]. cbn [bind rc conj2 fst snd]. rewrite <- !conj_mult, <- conj_plus. reflexivity.
  Qed.
  Lemma sym_zarg l th : zarg y' l th i' j' = - zarg y l th i j.
  Proof. unfold zarg. rewrite sym_kx, sym_ky. cbn [y' flip_offset y_rate]. ring. Qed.
End Sym.

(** ** powers of unit numbers *)
Lemma princ_cong t : exists m : Z, princ t = t - 2 * PI * IZR m.
Proof. eexists. reflexivity. Qed.
Lemma cis_period t (m : Z) : cis (t + 2 * PI * IZR m) = cis t.
Proof.
  unfold cis. replace (t + 2 * PI * IZR m) with (t + 2 * IZR m * PI) by ring.
  assert (P : forall (k : nat) x, cos (x + 2 * INR k * PI) = cos x /\ sin (x + 2 * INR k * PI) = sin x) by (intros; split; [apply cos_period|apply sin_period]).
  destruct (Z_le_gt_dec 0 m) as [H|H].
  - destruct (P (Z.to_nat m) t) as [A B]. rewrite INR_IZR_INZ, Z2Nat.id in A, B by exact H. rewrite A, B. reflexivity.
  - destruct (P (Z.to_nat (- m)) (t + 2 * IZR m * PI)) as [A B]. rewrite INR_IZR_INZ, Z2Nat.id, opp_IZR in A, B by lia. replace (t + 2 * IZR m * PI + 2 * - IZR m * PI) with t in A, B by ring. rewrite A, B. reflexivity.
Qed.
Lemma zpow_int t (m : Z) : zpow t (IZR m) = cis (IZR m * t).
Proof.
  unfold zpow. destruct (princ_cong t) as (q & ->). replace (IZR m * (t - 2 * PI * IZR q)) with (IZR m * t + 2 * PI * IZR (- (m * q))) by (rewrite opp_IZR, mult_IZR; ring). apply cis_period.
Qed.
Lemma princ_opp t : cis t <> (-1, 0) -> princ (- t) = - princ t.
Proof.
  intros N. unfold princ. assert (HP := PI_RGT_0). set (u := t / (2 * PI)). replace (- t / (2 * PI)) with (- u) by (unfold u, Rdiv; ring).
  assert (Et : t = 2 * PI * u) by (unfold u; field; lra).
  assert (Hu : u - / 2 <> IZR (Zceil (u - / 2))).
  { intros E. apply N. replace t with (PI + 2 * PI * IZR (Zceil (u - / 2))) by (rewrite <- E, Et; field). rewrite cis_period. unfold cis. rewrite cos_PI, sin_PI. reflexivity. }
  assert (A := Zceil_ub (u - / 2)). assert (Bd := Zceil_lb (u - / 2)).
  assert (E : Zceil (- u - / 2) = (- Zceil (u - / 2))%Z).
  { apply Zceil_imp. rewrite minus_IZR, opp_IZR. split; lra. }
  rewrite E, opp_IZR. ring.
Qed.
Lemma zpow_opp t p : (exists m : Z, p = IZR m) \/ cis t <> (-1, 0) -> zpow (- t) p = Cconj (zpow t p).
Proof.
  intros [(m & ->)|N].
  - rewrite !zpow_int. rewrite <- cis_opp. f_equal. ring.
  - unfold zpow. rewrite (princ_opp t N), <- cis_opp. f_equal. ring.
Qed.
Lemma guard_conj x : guard (Cconj x) = Cconj (guard x).
Proof. unfold guard. rewrite mod_conj. destruct (Rlt_dec _ _); [rewrite conj_R|]; reflexivity. Qed.
Lemma hInt_opp g t : hInt g (- t) = Cconj (hInt g t).
Proof. unfold hInt. rewrite conj_div, conj_R, <- guard_conj, conj_minus, conj_R, zpow_opp by (left; exists (-1)%Z; reflexivity). reflexivity. Qed.
Lemma atf_opp g d t : (exists m : Z, d = IZR m) \/ cis t <> (-1, 0) -> atfInt g d (- t) = Cconj (atfInt g d t).
Proof.
  intros H. assert (Z : zpow (- t) (- d) = Cconj (zpow t (- d))) by (apply zpow_opp; destruct H as [(m & ->)|H]; [left; exists (- m)%Z; rewrite opp_IZR; reflexivity|right; exact H]).
  unfold atfInt, rtfInt. rewrite hInt_opp, Z, !conj_mult, conj_div, <- guard_conj, conj_plus, conj_mult, !conj_R. reflexivity.
Qed.
Section Sym2.
  Variable y : fsys.
  Variables i j i' j' : nat.
  Hypothesis Hi : opposite (y_res y) i i'.
  Hypothesis Hj : opposite (y_res y) j j'.
  Variable nTh : nat.
  Hypothesis NB : no_branch y nTh i j.
  Let y' := flip_offset y.
  Lemma sym_atf l th : In l (y_layers y) -> In th (thetas nTh) -> atfInt (y_gain y) (y_delay y) (zarg y' l th i' j') = Cconj (atfInt (y_gain y) (y_delay y) (zarg y l th i j)).
  Proof. intros Hl Ht. unfold y'. rewrite (sym_zarg y i j i' j' Hi Hj). apply atf_opp. destruct NB as [H|H]; [left; exact H|right; apply H; assumption]. Qed.
  Lemma sym_h1 : h1 y' nTh i' j' = Cconj (h1 y nTh i j).
  Proof.
    unfold h1. change (y_layers y') with (y_layers y). change (y_gain y') with (y_gain y). change (y_delay y') with (y_delay y). rewrite <- clsum_conj, map_map. f_equal. apply map_ext_in. intros l Hl.
    rewrite conj_mult, conj_R. f_equal. rewrite <- clsum_conj, map_map. f_equal. apply map_ext_in. intros th Ht. apply sym_atf; assumption.
  Qed.
  Lemma sym_h2 : h2 y' nTh i' j' = h2 y nTh i j.
  Proof.
    unfold h2. change (y_layers y') with (y_layers y). change (y_gain y') with (y_gain y). change (y_delay y') with (y_delay y). f_equal. apply map_ext_in. intros l Hl. f_equal. f_equal. apply map_ext_in. intros th Ht. rewrite sym_atf by assumption. rewrite mod_conj. reflexivity.
  Qed.
  Lemma sym_A tx ty : aniso_A y' tx ty i' j' = Cconj (aniso_A y tx ty i j).
  Proof.
    unfold aniso_A. destruct (if Req_EM_T tx 0 then _ else _); [rewrite conj_R; reflexivity|]. change (y_layers y') with (y_layers y). rewrite <- clsum_conj, map_map. f_equal. apply map_ext. intros l. rewrite conj_mult, conj_R, <- cis_opp. f_equal. f_equal.
    unfold y'. rewrite (sym_kx y i j i' j' Hi), (sym_ky y i j i' j' Hj). ring.
  Qed.
End Sym2.
Lemma sym_Watm y i j i' j' : opposite (y_res y) i i' -> opposite (y_res y) j j' -> Watm (flip_offset y) i' j' = Watm y i j.
Proof. intros Hi Hj. unfold Watm. rewrite (sym_Wphi y i j i' j' Hi Hj), (sym_piston y i j i' j' Hi Hj). reflexivity. Qed.
Lemma fst_conj c : fst (Cconj c) = fst c.
Proof. reflexivity. Qed.

(** C127: at opposite pixels (that is, at opposite frequencies) the noise, reconstruction, servo-lag, spatio-temporal,
    anisoplanatism, chromatic and fitting spectra of a system with one guide star are the same, for every sensor, reconstructor,
    turbulence profile, wind and direction of the source; the tiny offset of the frequency arrays is reversed along. The
    temporal ones need a whole number of frames of delay, or no layer exactly at half the frame rate. *)
Theorem C127_symmetry : forall y MV nTh nF tx ty i j i' j', opposite (y_res y) i i' -> opposite (y_res y) j j' ->
  let y' := flip_offset y in
  (kxAO y' i' j' = - kxAO y i j /\ kyAO y' i' j' = - kyAO y i j) /\
  noisePSD y' MV nTh nF i' j' = noisePSD y MV nTh nF i j /\
  reconstructionPSD y' MV i' j' = reconstructionPSD y MV i j /\
  anisoplanatismPSD y' tx ty i' j' = anisoplanatismPSD y tx ty i j /\
  (forall n1 n2, chromatismPSD y' n1 n2 i' j' = chromatismPSD y n1 n2 i j) /\
  (forall zen theta az arg arg', cos (arg' i' j' - az) = - cos (arg i j - az) -> differentialRefractionPSD y' zen theta az arg' i' j' = differentialRefractionPSD y zen theta az arg i j) /\
  (forall kx ky, fittingPSD y' (- kx) (- ky) = fittingPSD y kx ky) /\
  (no_branch y nTh i j -> servoLagPSD y' MV nTh nF i' j' = servoLagPSD y MV nTh nF i j /\ spatioTemporalPSD y' MV nTh nF tx ty i' j' = spatioTemporalPSD y MV nTh nF tx ty i j).
Proof.
  intros y MV nTh nF tx ty i j i' j' Hi Hj y'. pose proof (sym_kx y i j i' j' Hi) as EX. pose proof (sym_ky y i j i' j' Hj) as EY. pose proof (sym_recon y i j i' j' Hi Hj MV) as ER. pose proof (sym_mask y i j i' j' Hi Hj) as EM. pose proof (sym_piston y i j i' j' Hi Hj) as EP. pose proof (sym_Wphi y i j i' j' Hi Hj) as EW. pose proof (sym_filterF y i j i' j' Hi Hj MV) as EF. pose proof (sym_Watm y i j i' j' Hi Hj) as EWa. pose proof (sym_k2 y i j i' j' Hi Hj) as E2.
  fold y' in EX, EY, ER, EM, EP, EW, EF, EWa, E2.
  split; [split; assumption|]. split; [|split; [|split; [|split; [|split; [|split]]]]].
  - unfold noisePSD. change (y_noise y') with (y_noise y). destruct (mean (y_noise y)) as [m|]; [|reflexivity]. cbn [bind]. destruct (pyindex _ 0) as [v0|]; [|reflexivity]. cbn [bind]. destruct (Rlt_dec 0 v0); [|reflexivity]. rewrite ER. destruct (recon y MV i j) as [rr|]; [|reflexivity]. cbn [bind rc].
    unfold controller. change (y_gain y') with (y_gain y). change (y_rate y') with (y_rate y). destruct (Req_EM_T (y_gain y) 0); [reflexivity|]. destruct (Req_EM_T (y_rate y) 0); [reflexivity|]. destruct (Rlt_dec (y_rate y) 0); [reflexivity|]. cbn [bind].
    unfold conj2. cbn [fst snd]. rewrite <- !conj_mult, <- conj_plus, mod_conj, EM, EP. reflexivity.
  - unfold reconstructionPSD. rewrite EF, EW, EM, EP. destruct (filterF y MV i j) as [f|]; [|reflexivity]. cbn [bind rc]. rewrite <- (conj_R 1), <- conj_minus, mod_conj, conj_R. reflexivity.
  - unfold anisoplanatismPSD. rewrite EWa, EX, EY, EM. destruct (Watm y i j); [|reflexivity]. cbn [bind]. destruct (if Req_EM_T tx 0 then _ else _); [reflexivity|]. f_equal. f_equal. f_equal. f_equal. apply map_ext. intros l. f_equal. f_equal.
    replace (2 * PI * l_h l * (- kxAO y i j * ty + - kyAO y i j * tx)) with (- (2 * PI * l_h l * (kxAO y i j * ty + kyAO y i j * tx))) by ring. apply cos_neg.
  - intros n1 n2. unfold chromatismPSD. rewrite EWa. reflexivity.
  - intros zen theta az arg arg' Ha. unfold differentialRefractionPSD. rewrite EWa, EM, E2. destruct (Watm y i j); [|reflexivity]. cbn [bind]. destruct (Req_EM_T zen 0); [reflexivity|]. f_equal. f_equal. f_equal. f_equal. apply map_ext. intros l. f_equal. f_equal. rewrite Ha.
    rewrite <- (cos_neg (2 * PI * l_h l * sqrt (k2AO y i j) * tan theta * cos (arg i j - az))). f_equal. ring.
  - intros kx ky. unfold fittingPSD, mskOut. rewrite !Rabs_Ropp. replace ((- kx) ^ 2 + (- ky) ^ 2) with (kx ^ 2 + ky ^ 2) by ring. reflexivity.
  - intros NB. pose proof (sym_h1 y i j i' j' Hi Hj nTh NB) as E1. pose proof (sym_h2 y i j i' j' Hi Hj nTh NB) as E3. pose proof (sym_A y i j i' j' Hi Hj tx ty) as EA. fold y' in E1, E3, EA.
    assert (EC : forall r, controller y nTh nF = r -> controller y' nTh nF = match r with Ok (Some (a, b, g)) => Ok (Some (h1 y' nTh, h2 y' nTh, g)) | x => x end).
    { intros r <-. unfold controller. change (y_gain y') with (y_gain y). change (y_rate y') with (y_rate y). destruct (Req_EM_T (y_gain y) 0); [reflexivity|]. destruct (Req_EM_T (y_rate y) 0); [reflexivity|]. destruct (Rlt_dec (y_rate y) 0); [reflexivity|]. reflexivity. }
    assert (EO : forall a b g, controller y nTh nF = Ok (Some (a, b, g)) -> a = h1 y nTh /\ b = h2 y nTh).
    { intros a b g. unfold controller. destruct (Req_EM_T (y_gain y) 0); [discriminate|]. destruct (Req_EM_T (y_rate y) 0); [discriminate|]. destruct (Rlt_dec (y_rate y) 0); [discriminate|]. intros H. injection H as <- <- _. split; reflexivity. }
    assert (M1 : forall f, Cmod (Cminus (RtoC 1) (Cconj f)) = Cmod (Cminus (RtoC 1) f)) by (intros f; rewrite <- (conj_R 1), <- conj_minus, mod_conj, conj_R; reflexivity).
    split.
    + unfold servoLagPSD. rewrite EF, EWa, EM. destruct (filterF y MV i j) as [f|]; [|reflexivity]. cbn [bind rc]. destruct (Watm y i j) as [w|]; [|reflexivity]. cbn [bind]. rewrite (EC _ eq_refl). destruct (controller y nTh nF) as [[[[a b] g]|]|] eqn:Ec; cbn [bind]; [| |reflexivity].
      * destruct (EO _ _ _ eq_refl) as [-> ->]. rewrite E1, E3, mod_conj, <- conj_mult, fst_conj. reflexivity.
      * rewrite M1. reflexivity.
    + unfold spatioTemporalPSD. rewrite EF, EWa, EM. destruct (Watm y i j) as [w|]; [|reflexivity]. cbn [bind]. destruct (filterF y MV i j) as [f|]; [|reflexivity]. cbn [bind rc]. rewrite (EC _ eq_refl). destruct (controller y nTh nF) as [[[[a b] g]|]|] eqn:Ec; cbn [bind]; [| |reflexivity].
      * destruct (EO _ _ _ eq_refl) as [-> ->]. rewrite E1, E3, EA, mod_conj, <- !conj_mult, fst_conj. reflexivity.
      * rewrite M1. reflexivity.
Qed.

Print Assumptions C127_symmetry.
