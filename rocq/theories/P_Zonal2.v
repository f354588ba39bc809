(** C113: spatial spectrum of the residual phase (psfrUtils.compute_psd_from_slopes) and pseudo open-loop slopes (getOLslopes). *)
From Coq Require Import Reals List Arith ZArith Lia Lra Bool ZifyBool ZifyNat.
From Verif Require Import Base_Py Base_Sum Base_DFT M_Image M_Fourier M_Tools L_Fourier L_Fourier2 M_Atmo L_Psf L_Model3 M_Psf M_Psfr L_Psfr M_Zonal.
From Coquelicot Require Import Complex.
Import ListNotations.
Open Scope R_scope.

(** Specification: the phase of a frame at pixel (i, j), in radians *)
Definition phase_at (wvl : R) (modes : img) (n : nat) (frame : list R) (i j : nat) : R :=
  2 * PI / wvl * rsum (cols modes) (fun l => px modes (i * n + j) l * nth l frame 0).
Definition frame_mean (F : list R -> R) (frames : list (list R)) : R := lsum (map F frames) / INR (length frames).

Lemma power2_cross n m a k l : power2 n m a k l = re_cross n m a a k l.
Proof. unfold power2, re_cross. set (z := dft2 _ _ _ _ _). destruct z as [x y]. unfold Cmod. cbn [fst snd Cconj Cmult]. rewrite pow2_sqrt; [ring|]. pose proof (pow2_ge_0 x). pose proof (pow2_ge_0 y). lra. Qed.
Lemma re_ifft_0 n m x : (0 < n)%nat -> (0 < m)%nat -> re_ifft n m x 0 0 = rsum n (fun k => rsum m (fun l => x k l)) / (INR n * INR m).
Proof.
  intros Hn Hm. unfold re_ifft, idft2.
  rewrite (csum_ext n _ (fun k => RtoC (rsum m (fun l => x k l)))).
  - rewrite csum_RtoC. cbn [Cmult RtoC fst snd]. unfold Rdiv. ring.
  - intros k _. rewrite <- csum_RtoC. apply csum_ext. intros l _. change (Z.of_nat 0) with 0%Z. rewrite !Z.mul_0_l. cbn [Z.opp]. rewrite !W_0. apply C_eq; cbn; ring.
Qed.
Lemma parseval n m a : (0 < n)%nat -> (0 < m)%nat ->
  rsum n (fun k => rsum m (fun l => power2 n m a k l)) = INR n * INR m * rsum n (fun i => rsum m (fun j => a i j ^ 2)).
Proof.
  intros Hn Hm. pose proof (re_cross_val n m a a 0 0 Hn Hm) as H. rewrite re_ifft_0 in H by assumption.
  assert (X : xcorr n m a a 0 0 = rsum n (fun i => rsum m (fun j => a i j ^ 2))).
  { unfold xcorr. apply rsum_ext. intros i Hi. apply rsum_ext. intros j Hj. rewrite ?Nat.add_0_l, ?Nat.add_0_r, !Nat.mod_small by assumption. ring. }
  rewrite X in H. assert (Hn' : INR n <> 0) by (apply not_0_INR; lia). assert (Hm' : INR m <> 0) by (apply not_0_INR; lia).
  rewrite (rsum_ext n _ (fun k => rsum m (fun l => re_cross n m a a k l))) by (intros k _; apply rsum_ext; intros l _; apply power2_cross).
  apply Rmult_eq_reg_r with (/ (INR n * INR m)); [|apply Rinv_neq_0_compat, Rmult_integral_contrapositive_currified; assumption].
  unfold Rdiv in H. rewrite H. field. split; assumption.
Qed.
Lemma power2_nonneg n m a k l : 0 <= power2 n m a k l. Proof. unfold power2. apply pow2_ge_0. Qed.
Lemma power2_0 n m a : power2 n m a 0 0 = rsum n (fun i => rsum m (fun j => a i j)) ^ 2.
Proof.
  unfold power2, dft2. rewrite (csum_ext n _ (fun k => RtoC (rsum m (fun l => a k l)))).
  - rewrite csum_RtoC, Cmod_R. apply pow2_abs.
  - intros k _. rewrite <- csum_RtoC. apply csum_ext. intros l _. change (Z.of_nat 0) with 0%Z. rewrite !Z.mul_0_l, !W_0. apply C_eq; cbn; ring.
Qed.
(** sums over a padded square *)
Lemma pad_sum2 n r (F : R -> R) (f : nat -> nat -> R) : F 0 = 0 ->
  rsum (n + 2 * r) (fun i => rsum (n + 2 * r) (fun j => F (padf 0 n n r r f i j))) = rsum n (fun i => rsum n (fun j => F (f i j))).
Proof.
  intros F0. replace (n + 2 * r)%nat with (r + (n + r))%nat by lia.
  assert (R1 : forall g : nat -> R, (forall i, (i < r \/ r + n <= i)%nat -> g i = 0) -> rsum (r + (n + r)) g = rsum n (fun i => g (r + i)%nat)).
  { intros g Hg. rewrite !rsum_app. rewrite (rsum_zero r g) by (intros; apply Hg; lia). rewrite (rsum_zero r (fun i => g (r + (n + i))%nat)) by (intros; apply Hg; lia). ring. }
  rewrite R1.
  - apply rsum_ext. intros i Hi. rewrite R1.
    + apply rsum_ext. intros j Hj. unfold padf. replace (_ && _)%bool with true by lia. replace (r + i - r)%nat with i by lia. replace (r + j - r)%nat with j by lia. reflexivity.
    + intros j Hj. unfold padf. replace (_ && _)%bool with false by lia. exact F0.
  - intros i Hi. apply rsum_zero. intros j _. unfold padf. replace (_ && _)%bool with false by lia. exact F0.
Qed.

(** C113: the spectrum. An n x n phase gives a spectrum of side 2n (2n-1 when n is odd); it is non-negative, its sum is the number of its pixels times the
    mean over the frames of the sum of the squared phases (Parseval), and its central value is the mean squared sum of the phase. *)
Theorem C113_spectrum : forall wvl modes frames n, wvl <> 0 -> (0 < n)%nat -> rows modes = (n * n)%nat -> frames <> [] -> (forall f, In f frames -> length f = cols modes) ->
  exists psd N, compute_psd_from_slopes wvl modes frames = Ok psd /\ N = (if Nat.even n then 2 * n else 2 * n - 1)%nat /\ rows psd = N /\ cols psd = N /\
    (forall i j, 0 <= px psd i j) /\
    img_sum psd = INR N * INR N * frame_mean (fun f => rsum n (fun i => rsum n (fun j => phase_at wvl modes n f i j ^ 2))) frames /\
    px psd (N / 2) (N / 2) = frame_mean (fun f => rsum n (fun i => rsum n (fun j => phase_at wvl modes n f i j)) ^ 2) frames.
Proof.
  intros wvl modes frames n Hw Hn Hr Hf Hl. unfold compute_psd_from_slopes. rewrite Hr. rewrite Nat.sqrt_square. cbv zeta.
  destruct (Req_EM_T wvl 0) as [|_]; [contradiction|].
  assert (FB : forallb (fun f => length f =? cols modes)%nat frames = true) by (apply forallb_forall; intros f Hin; apply Nat.eqb_eq, Hl, Hin).
  rewrite FB, Nat.eqb_refl. cbn [negb].
  set (r := margin n 2 1). set (N := (n + 2 * r)%nat). set (pad := fun f => mkImg N N (padf 0 n n r r (px (frame_phase wvl modes n f)))).
  assert (ER : r = (n / 2)%nat). { unfold r, margin. replace ((2 - 1) * Z.of_nat n)%Z with (Z.of_nat n) by lia. rewrite Z.quot_div_nonneg by lia. change (2 * 1)%Z with (Z.of_nat 2). rewrite <- Nat2Z.inj_div, Nat2Z.id. reflexivity. }
  assert (EN : N = (if Nat.even n then 2 * n else 2 * n - 1)%nat).
  { unfold N. rewrite ER. pose proof (Nat.div_mod n 2 ltac:(lia)). destruct (Nat.even n) eqn:E.
    - apply Nat.even_spec in E. destruct E as [q ->]. rewrite Nat.mul_comm, Nat.div_mul by lia. lia.
    - assert (O : Nat.odd n = true) by (unfold Nat.odd; rewrite E; reflexivity). apply Nat.odd_spec in O. destruct O as [q ->]. replace ((2 * q + 1) / 2)%nat with q by (rewrite Nat.add_comm, Nat.mul_comm, Nat.div_add by lia; reflexivity). lia. }
  assert (EM : M_Psf.mapM (fun f => enlargeSupport (frame_phase wvl modes n f) 2 1) frames = Ok (map pad frames)).
  { clear Hf FB Hl. induction frames as [|f l IH]; [reflexivity|]. cbn [M_Psf.mapM map]. rewrite (enlarge_sq (frame_phase wvl modes n f) n 2 1) by (cbn; lia). cbn [bind]. rewrite IH. reflexivity. }
  rewrite EM. cbn [bind]. clear EM FB. assert (HL0 : (0 < length frames)%nat) by (destruct frames; [congruence|cbn; lia]). clear Hf. rename frames into L.
  destruct (map pad L) as [|p0 PL] eqn:EPL; [destruct L; [cbn in HL0; lia|discriminate]|].
  assert (EP0 : rows p0 = N) by (destruct L; [discriminate|cbn [map] in EPL; injection EPL as <- _; reflexivity]).
  rewrite EP0, <- EPL, map_length. clear EP0 EPL p0 PL.
  assert (HN0 : (0 < N)%nat) by (unfold N; lia).
  assert (HL : INR (length L) <> 0) by (apply not_0_INR; lia).
  eexists. exists N. split; [reflexivity|]. split; [exact EN|]. cbn [rows cols px]. split; [reflexivity|]. split; [reflexivity|].
  split; [|split].
  - intros i j. unfold Rdiv. apply Rmult_le_pos; [|left; apply Rinv_0_lt_compat, lt_0_INR; lia].
    assert (NN : forall l : list R, (forall x, In x l -> 0 <= x) -> 0 <= lsum l) by (induction l as [|y l IH]; intros H; unfold lsum in *; cbn [fold_right]; [lra|]; assert (0 <= y) by (apply H; now left); assert (0 <= fold_right Rplus 0 l) by (apply IH; intros; apply H; now right); lra).
    apply NN. intros x Hx. apply in_map_iff in Hx. destruct Hx as (q & <- & _). apply power2_nonneg.
  - unfold img_sum. cbn [rows cols px]. unfold frame_mean.
    rewrite (rsum_ext N _ (fun i => rsum N (fun j => lsum (map (fun q => power2 N N (px q) (shift_ix N i) (shift_ix N j)) (map pad L))) / INR (length L))) by (intros; apply rsum_div).
    rewrite rsum_div.
    assert (EQ : rsum N (fun i => rsum N (fun j => lsum (map (fun q => power2 N N (px q) (shift_ix N i) (shift_ix N j)) (map pad L)))) =
                 INR N * INR N * lsum (map (fun f => rsum n (fun i => rsum n (fun j => phase_at wvl modes n f i j ^ 2))) L)).
    { rewrite (rsum_shift N (fun a => rsum N (fun j => lsum (map (fun q => power2 N N (px q) a (shift_ix N j)) (map pad L)))) HN0).
      rewrite (rsum_ext N _ (fun i => rsum N (fun j => lsum (map (fun q => power2 N N (px q) i j) (map pad L))))).
      2:{ intros i _. apply (rsum_shift N (fun b => lsum (map (fun q => power2 N N (px q) i b) (map pad L))) HN0). }
      generalize L. intros L0. clear - HN0 Hn. induction L0 as [|x l IH].
      - cbn. unfold lsum. cbn. rewrite Rmult_0_r. apply rsum_zero. intros. apply rsum_zero. reflexivity.
      - rewrite (rsum_ext N _ (fun i => rsum N (fun j => power2 N N (px (pad x)) i j) + rsum N (fun j => lsum (map (fun q => power2 N N (px q) i j) (map pad l))))).
        2:{ intros i _. rewrite <- rsum_plus. reflexivity. }
        rewrite rsum_plus, IH, parseval by exact HN0. cbn [map]. unfold lsum at 2. cbn [fold_right]. fold (lsum (map (fun f => rsum n (fun i => rsum n (fun j => phase_at wvl modes n f i j ^ 2))) l)).
        rewrite <- Rmult_plus_distr_l. do 2 f_equal. unfold pad, N. cbn [px]. rewrite (pad_sum2 n r (fun z => z ^ 2)) by ring. reflexivity. }
    rewrite EQ. unfold Rdiv. ring.
  - rewrite !shift_half by exact HN0. unfold frame_mean. f_equal. f_equal. rewrite map_map. apply map_ext. intros f. rewrite power2_0. unfold pad, N. cbn [px].
    rewrite (pad_sum2 n r (fun z => z)) by ring. reflexivity.
Qed.
Print Assumptions C113_spectrum.

(** C113: refusals: a basis whose number of rows is not a square, a frame of another length; no frame gives no number. *)
Theorem C113_refused : forall wvl modes frames, wvl <> 0 ->
  ((forall n, rows modes <> (n * n)%nat) -> (forall f, In f frames -> length f = cols modes) -> compute_psd_from_slopes wvl modes frames = Err ValueError) /\
  ((exists f, In f frames /\ length f <> cols modes) -> compute_psd_from_slopes wvl modes frames = Err ValueError) /\
  (forall n, rows modes = (n * n)%nat -> compute_psd_from_slopes wvl modes [] = Err NonFinite).
Proof.
  intros wvl modes frames Hw. unfold compute_psd_from_slopes. cbv zeta. destruct (Req_EM_T wvl 0) as [|_]; [contradiction|]. split; [|split].
  - intros H Hl. assert (FB : forallb (fun f => length f =? cols modes)%nat frames = true) by (apply forallb_forall; intros f Hin; apply Nat.eqb_eq, Hl, Hin).
    rewrite FB. cbn [negb]. destruct (Nat.eqb_spec (rows modes) (Nat.sqrt (rows modes) * Nat.sqrt (rows modes))) as [E|_]; [destruct (H _ E)|reflexivity].
  - intros (f & Hf & Hl). assert (FB : forallb (fun f => length f =? cols modes)%nat frames = false).
    { apply not_true_iff_false. intros T. rewrite forallb_forall in T. specialize (T f Hf). apply Nat.eqb_eq in T. contradiction. }
    rewrite FB. reflexivity.
  - intros n E. cbn [forallb negb]. rewrite E, Nat.sqrt_square, Nat.eqb_refl. reflexivity.
Qed.
Print Assumptions C113_refused.
Example ex_spectrum : exists psd, compute_psd_from_slopes 2 (mkImg 4 1 (fun i _ => INR i)) [[1]; [-1]] = Ok psd /\ img_sum psd = 16 * (PI ^ 2 * 14).
Proof.
  destruct (C113_spectrum 2 (mkImg 4 1 (fun i _ => INR i)) [[1]; [-1]] 2) as (psd & N & H1 & H2 & _ & _ & _ & H3 & _); [lra|lia|reflexivity|discriminate|intros f [<-|[<-|[]]]; reflexivity|].
  exists psd. split; [exact H1|]. rewrite H3, H2. unfold frame_mean, phase_at, lsum. cbn. field.
Qed.

(** ** pseudo open-loop slopes *)
(** Finding: np.roll(u,(-2,2)) without an axis adds the two shifts: the first term is not shifted at all, the second one by one frame backwards
    (cyclically): the slopes are s_t + MI (dt u_t + (1-dt) u_{t-1}). *)
Theorem C113_open_loop_refuted : forall s u MI dt o, getOLslopes s u MI dt = Ok o ->
  length o = length s /\ forall t, (t < length s)%nat ->
    nth t o 0 = nth t s 0 + MI * (dt * nth t u 0 + (1 - dt) * nth (if (t =? 0)%nat then length u - 1 else t - 1) u 0).
Proof.
  intros s u MI dt o. unfold getOLslopes. destruct (Nat.eqb_spec (length s) (length u)) as [E|]; cbn [negb]; [|discriminate]. intros H. apply Ok_inj in H. subst o.
  assert (RL : forall (l : list R) k, length (roll l k 0) = length l) by (intros; unfold roll; rewrite map_length, seq_length; reflexivity).
  assert (RN : forall (l : list R) k i, (i < length l)%nat -> nth i (roll l k 0) 0 = nth (Z.to_nat ((Z.of_nat i - k) mod Z.of_nat (length l))) l 0).
  { intros l k i Hi. unfold roll. rewrite (nth_indep _ 0 ((fun i => nth (Z.to_nat ((Z.of_nat i - k) mod Z.of_nat (length l))) l 0) 0%nat)) by (rewrite map_length, seq_length; exact Hi).
    rewrite (map_nth (fun i => nth (Z.to_nat ((Z.of_nat i - k) mod Z.of_nat (length l))) l 0)), seq_nth by exact Hi. reflexivity. }
  assert (R2 : forall k1 k2 i, (i < length u)%nat -> nth i (roll2 u k1 k2 0) 0 = nth (Z.to_nat ((Z.of_nat i - (k1 + k2)) mod Z.of_nat (length u))) u 0).
  { intros k1 k2 i Hi. unfold roll2. rewrite RN by (rewrite RL; exact Hi). rewrite RL. assert (B := Z.mod_pos_bound (Z.of_nat i - k2) (Z.of_nat (length u)) ltac:(lia)).
    rewrite RN by lia. rewrite Z2Nat.id by lia. rewrite Zminus_mod_idemp_l. do 3 f_equal. lia. }
  assert (LL : length (roll2 u (-2) 2 0) = length u) by (unfold roll2; rewrite !RL; reflexivity).
  assert (LL' : length (roll2 u (-1) 2 0) = length u) by (unfold roll2; rewrite !RL; reflexivity).
  split; [rewrite map_length, !combine_length, LL, LL'; lia|]. intros t Ht.
  rewrite (nth_indep _ 0 ((fun x : R * (R * R) => fst x + MI * (dt * fst (snd x) + (1 - dt) * snd (snd x))) (0, (0, 0)))) by (rewrite map_length, !combine_length, LL, LL'; lia).
  rewrite (map_nth (fun x : R * (R * R) => fst x + MI * (dt * fst (snd x) + (1 - dt) * snd (snd x)))).
  rewrite combine_nth by (rewrite combine_length, LL, LL'; lia). rewrite combine_nth by lia. cbn [fst snd]. rewrite !R2 by lia.
  assert (E1 : Z.to_nat ((Z.of_nat t - (-2 + 2)) mod Z.of_nat (length u)) = t) by (rewrite Z.mod_small by lia; lia).
  assert (E2 : Z.to_nat ((Z.of_nat t - (-1 + 2)) mod Z.of_nat (length u)) = (if (t =? 0)%nat then length u - 1 else t - 1)%nat).
  { destruct (Nat.eqb_spec t 0) as [->|Hz].
    - replace (Z.of_nat 0 - (-1 + 2))%Z with (-1)%Z by lia. rewrite <- (Z_mod_plus_full (-1) 1), Z.mod_small by lia. lia.
    - rewrite Z.mod_small by lia. lia. }
  rewrite E1, E2. reflexivity.
Qed.
Print Assumptions C113_open_loop_refuted.
Example ex_ol : getOLslopes [0; 0; 0] [1; 2; 3] 1 1 <> Err ValueError. Proof. discriminate. Qed.
