(** Lemmas on the modal structure function of psfrUtils.modes2Otf. *)
From Coq Require Import Reals List Arith ZArith Bool Lia Lra Psatz FunctionalExtensionality.
From Verif Require Import Base_Py Base_Sum Base_DFT M_Image M_Fourier M_Tools M_Atmo M_Zernike2 M_Model M_Model2 M_Psf M_Psfr S_Psfr L_Fourier L_Fourier2 L_Model3.
From Coquelicot Require Import Complex.
Import ListNotations.
Open Scope R_scope.

Lemma idft2_plus n m x y u v : idft2 n m (fun k l => Cplus (x k l) (y k l)) u v = Cplus (idft2 n m x u v) (idft2 n m y u v).
Proof.
  unfold idft2. rewrite <- Cmult_plus_distr_l. f_equal. rewrite <- csum_plus. apply csum_ext. intros k _. rewrite <- csum_plus. apply csum_ext. intros l _. ring.
Qed.
Lemma idft2_scal n m c x u v : idft2 n m (fun k l => Cmult c (x k l)) u v = Cmult c (idft2 n m x u v).
Proof.
  unfold idft2. rewrite (csum_ext n _ (fun k => Cmult c (csum m (fun l => Cmult (x k l) (Cmult (W n (- (Z.of_nat u * Z.of_nat k))) (W m (- (Z.of_nat v * Z.of_nat l)))))))).
  - rewrite csum_scal. ring.
  - intros k _. rewrite <- csum_scal. apply csum_ext. intros l _. ring.
Qed.
Lemma re_ifft_ext n m x y u v : (forall k l, (k < n)%nat -> (l < m)%nat -> x k l = y k l) -> re_ifft n m x u v = re_ifft n m y u v.
Proof. intros H. unfold re_ifft. f_equal. apply idft2_ext. intros i j Hi Hj. now rewrite H. Qed.
Lemma re_ifft_plus n m x y u v : re_ifft n m (fun k l => x k l + y k l) u v = re_ifft n m x u v + re_ifft n m y u v.
Proof. unfold re_ifft. rewrite <- (idft2_ext n m (fun k l => Cplus (RtoC (x k l)) (RtoC (y k l)))) by (intros; now rewrite RtoC_plus). now rewrite idft2_plus. Qed.
Lemma re_ifft_scal n m c x u v : re_ifft n m (fun k l => c * x k l) u v = c * re_ifft n m x u v.
Proof. unfold re_ifft. rewrite <- (idft2_ext n m (fun k l => Cmult (RtoC c) (RtoC (x k l)))) by (intros; now rewrite RtoC_mult). rewrite idft2_scal. cbn. ring. Qed.
Lemma re_ifft_minus n m x y u v : re_ifft n m (fun k l => x k l - y k l) u v = re_ifft n m x u v - re_ifft n m y u v.
Proof. rewrite (re_ifft_ext n m _ (fun k l => x k l + -1 * y k l)) by (intros; ring). rewrite re_ifft_plus, re_ifft_scal. ring. Qed.
Lemma re_ifft_lsum {A} n m (f : A -> nat -> nat -> R) (xs : list A) u v : re_ifft n m (fun k l => lsum (map (fun a => f a k l) xs)) u v = lsum (map (fun a => re_ifft n m (f a) u v) xs).
Proof.
  induction xs as [|a xs IH]; cbn [map lsum fold_right].
  - rewrite (re_ifft_ext n m _ (fun k l => 0 * 0)) by (intros; ring). rewrite (re_ifft_scal n m 0 (fun _ _ => 0)). ring.
  - fold (lsum (map (fun a => re_ifft n m (f a) u v) xs)). rewrite <- IH, <- re_ifft_plus. reflexivity.
Qed.
(** cyclic correlation *)
Definition xcorr (n m : nat) (a b : nat -> nat -> R) (u v : nat) : R :=
  rsum n (fun c => rsum m (fun d => a ((u + c) mod n)%nat ((v + d) mod m)%nat * b c d)).
Lemma ccorr_xcorr n m a b u v : ccorr n m (fun i j => RtoC (a i j)) (fun i j => RtoC (b i j)) u v = RtoC (xcorr n m a b u v).
Proof. unfold ccorr, xcorr. rewrite <- csum_RtoC. apply csum_ext; intros c _. rewrite <- csum_RtoC. apply csum_ext; intros d _. rewrite Cconj_RtoC, RtoC_mult. reflexivity. Qed.
Lemma re_cross_val n m a b u v : (0 < n)%nat -> (0 < m)%nat -> re_ifft n m (re_cross n m a b) u v = (xcorr n m a b u v + xcorr n m b a u v) / 2.
Proof.
  intros Hn Hm. unfold re_ifft. set (A := dft2 n m (fun i j => RtoC (a i j))). set (B := dft2 n m (fun i j => RtoC (b i j))).
  rewrite (idft2_ext n m _ (fun k l => Cmult (RtoC (/ 2)) (Cplus (Cmult (A k l) (Cconj (B k l))) (Cmult (B k l) (Cconj (A k l)))))).
  - rewrite idft2_scal, idft2_plus. unfold A, B. rewrite !correl_thm by assumption. rewrite !ccorr_xcorr. cbn. field.
  - intros k l _ _. unfold re_cross. fold A B. destruct (A k l) as (x, y), (B k l) as (z, w). unfold Cmult, Cplus, Cconj, RtoC. cbn [fst snd]. apply C_eq; cbn [fst snd]; field.
Qed.
Lemma xcorr_ext n m a b a' b' u v : (0 < n)%nat -> (0 < m)%nat -> (forall i j, (i < n)%nat -> (j < m)%nat -> a i j = a' i j) -> (forall i j, (i < n)%nat -> (j < m)%nat -> b i j = b' i j) -> xcorr n m a b u v = xcorr n m a' b' u v.
Proof. intros Hn Hm Ha Hb. unfold xcorr. apply rsum_ext. intros c Hc. apply rsum_ext. intros d Hd. rewrite Ha, Hb; try assumption; try reflexivity; apply Nat.mod_upper_bound; lia. Qed.
Lemma otf_G_val P i j : (0 < rows P)%nat -> (0 < cols P)%nat -> px (otf_G P) i j = xcorr (rows P) (cols P) (px P) (px P) (shift_ix (rows P) i) (shift_ix (cols P) j).
Proof. intros Hn Hm. unfold otf_G. cbn [px]. rewrite re_cross_val by assumption. field. Qed.
(** ** Vii of one mode *)
Lemma vii_val n m (P g : nat -> nat -> R) u v : (0 < n)%nat -> (0 < m)%nat -> (forall i j, P i j * P i j = P i j) ->
  let M i j := g i j * P i j in
  2 * re_ifft n m (fun k l => re_cross n m (fun i j => M i j ^ 2) P k l - re_cross n m M M k l) u v =
  rsum n (fun c => rsum m (fun d => P ((u + c) mod n)%nat ((v + d) mod m)%nat * P c d * (g ((u + c) mod n)%nat ((v + d) mod m)%nat - g c d) ^ 2)).
Proof.
  intros Hn Hm HP M. rewrite re_ifft_minus, !re_cross_val by assumption. unfold xcorr.
  match goal with |- 2 * ((?a + ?b) / 2 - (?c + ?c) / 2) = _ => replace (2 * ((a + b) / 2 - (c + c) / 2)) with (a + b + (- 2) * c) by field end.
  rewrite <- rsum_scal, <- !rsum_plus. apply rsum_ext. intros c _. rewrite <- rsum_scal, <- !rsum_plus. apply rsum_ext. intros d _. unfold M.
  generalize (HP ((u + c) mod n)%nat ((v + d) mod m)%nat) (HP c d). generalize (P ((u + c) mod n)%nat ((v + d) mod m)%nat) (P c d) (g ((u + c) mod n)%nat ((v + d) mod m)%nat) (g c d). intros p p' x y E E'.
  replace ((x * p) ^ 2 * p') with (x ^ 2 * (p * p) * p') by ring. replace (p * (y * p') ^ 2) with (p * y ^ 2 * (p' * p')) by ring. rewrite E, E'. ring.
Qed.
(** ** from the padded, cyclic sums to the pairs of pupil pixels *)
Lemma padf_zext n r f i j : padf 0 n n r r f i j = zext n f (Z.of_nat i - Z.of_nat r) (Z.of_nat j - Z.of_nat r).
Proof.
  unfold padf, zext. destruct (_ && _)%bool eqn:E.
  - replace ((0 <=? _)%Z && _ && _ && _)%bool with true by lia. f_equal; lia.
  - replace ((0 <=? _)%Z && _ && _ && _)%bool with false by lia. reflexivity.
Qed.
Lemma zext_out n f a b : (a < 0 \/ Z.of_nat n <= a \/ b < 0 \/ Z.of_nat n <= b)%Z -> zext n f a b = 0.
Proof. intros H. unfold zext. replace (_ && _ && _ && _)%bool with false by lia. reflexivity. Qed.
Lemma shift_disp N i r n c : (N = n + 2 * r)%nat -> (i < N)%nat -> (c < N)%nat -> (0 < N)%nat -> (Z.abs (Z.of_nat i - Z.of_nat (N / 2)) <= 2 * Z.of_nat r)%Z -> (r <= c < r + n)%nat ->
  let s := (Z.of_nat i - Z.of_nat (N / 2))%Z in let z := (Z.of_nat c - Z.of_nat r)%Z in
  let y := (Z.of_nat ((shift_ix N i + c) mod N) - Z.of_nat r)%Z in
  (y = z + s)%Z \/ ((y < 0 \/ Z.of_nat n <= y)%Z /\ (z + s < 0 \/ Z.of_nat n <= z + s)%Z).
Proof.
  intros EN Hi Hc HN Hs Hw s z y. unfold y, shift_ix. rewrite Nat.add_mod_idemp_l by lia.
  assert (N2 : (N / 2 <= N)%nat) by (apply Nat.div_le_upper_bound; lia). set (h := (N / 2)%nat) in *.
  assert (E : Z.of_nat ((i + (N - h) + c) mod N) = ((z + s + Z.of_nat r) mod Z.of_nat N)%Z).
  { rewrite Nat2Z.inj_mod. rewrite <- (Z.mod_add (z + s + Z.of_nat r) 1 (Z.of_nat N)) by lia. f_equal. unfold z, s. lia. }
  rewrite E. set (w := (z + s + Z.of_nat r)%Z) in *. clear E.
  assert (B : (- Z.of_nat r <= w < Z.of_nat N + Z.of_nat r)%Z) by (unfold w, z; lia).
  destruct (Z_lt_dec w 0) as [L|L].
  - right. replace (w mod Z.of_nat N)%Z with (w + Z.of_nat N)%Z. 2:{ rewrite <- (Z.mod_add w 1) by lia. rewrite Z.mod_small; lia. } unfold w in *. lia.
  - destruct (Z_lt_dec w (Z.of_nat N)) as [L2|L2].
    + left. rewrite Z.mod_small by lia. unfold w. lia.
    + right. replace (w mod Z.of_nat N)%Z with (w - Z.of_nat N)%Z. 2:{ rewrite <- (Z.mod_add w (-1)) by lia. rewrite Z.mod_small; lia. } unfold w in *. lia.
Qed.
(** the sum over the cyclic pairs of padded arrays of a quantity weighted by the pupil *)
Lemma pairs_pad n r (P : nat -> nat -> R) (h : Z -> Z -> Z -> Z -> R) i j :
  let N := (n + 2 * r)%nat in (i < N)%nat -> (j < N)%nat ->
  (Z.abs (Z.of_nat i - Z.of_nat (N / 2)) <= 2 * Z.of_nat r)%Z -> (Z.abs (Z.of_nat j - Z.of_nat (N / 2)) <= 2 * Z.of_nat r)%Z ->
  let u := shift_ix N i in let v := shift_ix N j in
  let s := (Z.of_nat i - Z.of_nat (N / 2))%Z in let t := (Z.of_nat j - Z.of_nat (N / 2))%Z in
  rsum N (fun c => rsum N (fun d => padf 0 n n r r P ((u + c) mod N) ((v + d) mod N) * padf 0 n n r r P c d *
    h (Z.of_nat ((u + c) mod N) - Z.of_nat r)%Z (Z.of_nat ((v + d) mod N) - Z.of_nat r)%Z (Z.of_nat c - Z.of_nat r)%Z (Z.of_nat d - Z.of_nat r)%Z)) =
  pair_sum n P s t (fun a b => h (a + s)%Z (b + t)%Z a b).
Proof.
  intros N Hi Hj Hs Ht u v s t. unfold pair_sum. rewrite (rsum_window N r n).
  - apply rsum_ext. intros a Ha. rewrite (rsum_window N r n).
    + apply rsum_ext. intros b Hb. rewrite !padf_zext.
      replace (Z.of_nat (r + a) - Z.of_nat r)%Z with (Z.of_nat a) by lia. replace (Z.of_nat (r + b) - Z.of_nat r)%Z with (Z.of_nat b) by lia.
      replace (zext n P (Z.of_nat a) (Z.of_nat b)) with (P a b). 2:{ unfold zext. replace (_ && _ && _ && _)%bool with true by lia. now rewrite !Nat2Z.id. }
      destruct (shift_disp N i r n (r + a) eq_refl Hi ltac:(lia) ltac:(lia) Hs ltac:(lia)) as [E1|(O1 & O1')].
      2:{ cbv zeta in O1, O1'. fold u in O1. fold s in O1'. rewrite (zext_out n P (Z.of_nat ((u + (r + a)) mod N) - Z.of_nat r)) by lia. rewrite (zext_out n P (Z.of_nat a + s)) by lia. ring. }
      destruct (shift_disp N j r n (r + b) eq_refl Hj ltac:(lia) ltac:(lia) Ht ltac:(lia)) as [E2|(O2 & O2')].
      2:{ cbv zeta in O2, O2'. fold v in O2. fold t in O2'. rewrite (zext_out n P (Z.of_nat ((u + (r + a)) mod N) - Z.of_nat r)) by lia. rewrite (zext_out n P (Z.of_nat a + s)) by lia. ring. }
      cbv zeta in E1, E2. fold u s in E1. fold v t in E2. rewrite E1, E2.
      replace (Z.of_nat (r + a) - Z.of_nat r)%Z with (Z.of_nat a) by lia. replace (Z.of_nat (r + b) - Z.of_nat r)%Z with (Z.of_nat b) by lia. reflexivity.
    + unfold N. lia.
    + intros d Hd Ho. rewrite (padf_zext n r P (r + a)). rewrite (zext_out n P (Z.of_nat (r + a) - Z.of_nat r)) by lia. ring.
  - unfold N. lia.
  - intros c Hc Ho. apply rsum_zero. intros d Hd. rewrite (padf_zext n r P c). rewrite (zext_out n P (Z.of_nat c - Z.of_nat r)) by lia. ring.
Qed.
Lemma lsum_combine_seq {B} (F : R * B -> R) (g : nat -> B) ss : forall k0,
  lsum (map F (combine ss (map g (seq k0 (length ss))))) = rsum (length ss) (fun k => F (nth k ss 0, g (k0 + k)%nat)).
Proof.
  induction ss as [|s ss IH]; intros k0; cbn [length seq map combine lsum fold_right]; [reflexivity|]. rewrite rsum_S_l. cbn [nth]. rewrite Nat.add_0_r. f_equal. fold (lsum (map F (combine ss (map g (seq (S k0) (length ss)))))). rewrite IH. apply rsum_ext. intros k _. do 2 f_equal. f_equal. lia.
Qed.
(** covariance actually used by the code: V diag(ss) V^T *)
Definition eff_cov (ss : list R) (V : img) (l l' : nat) : R := rsum (length ss) (fun k => nth k ss 0 * px V l k * px V l' k).
Definition mode_of (modes : img) (npup l i j : nat) : R := px modes (i * npup + j) l.
Lemma zext_mode modes V npup k a b : zext npup (px (mode_img modes V npup k)) a b = rsum (cols modes) (fun l => zext npup (mode_of modes npup l) a b * px V l k).
Proof.
  unfold zext. destruct (_ && _)%bool; [reflexivity|]. symmetry. apply rsum_zero. intros l _. ring.
Qed.
Lemma rsum_sq n (f : nat -> R) : rsum n f ^ 2 = rsum n (fun l => rsum n (fun l' => f l * f l')).
Proof. rewrite (rsum_ext n (fun l => rsum n (fun l' => f l * f l')) (fun l => rsum n f * f l)) by (intros l _; rewrite rsum_scal; ring). rewrite rsum_scal. ring. Qed.
Lemma quad_eff modes V npup ss s t a b :
  rsum (length ss) (fun k => nth k ss 0 * (zext npup (px (mode_img modes V npup k)) (a + s) (b + t) - zext npup (px (mode_img modes V npup k)) a b) ^ 2) =
  diff_variance npup (cols modes) (mode_of modes npup) (eff_cov ss V) s t a b.
Proof.
  unfold diff_variance. cbv zeta. set (d := fun l => zext npup (mode_of modes npup l) (a + s) (b + t) - zext npup (mode_of modes npup l) a b).
  rewrite (rsum_ext (length ss) _ (fun k => rsum (cols modes) (fun l => rsum (cols modes) (fun l' => nth k ss 0 * (px V l k * px V l' k) * d l * d l')))).
  - rewrite rsum_swap. apply rsum_ext. intros l _. rewrite rsum_swap. apply rsum_ext. intros l' _. unfold eff_cov. fold (d l) (d l'). rewrite Rmult_assoc, <- rsum_scal_r. apply rsum_ext. intros k _. ring.
  - intros k _. rewrite !zext_mode, <- rsum_minus, rsum_sq, <- rsum_scal. apply rsum_ext. intros l _. rewrite <- rsum_scal. apply rsum_ext. intros l' _. unfold d. ring.
Qed.
Lemma pair_sum_rsum n P s t K (w : nat -> Z -> Z -> R) : rsum K (fun k => pair_sum n P s t (w k)) = pair_sum n P s t (fun a b => rsum K (fun k => w k a b)).
Proof.
  unfold pair_sum. rewrite rsum_swap. apply rsum_ext. intros a _. rewrite rsum_swap. apply rsum_ext. intros b _. rewrite rsum_scal. reflexivity.
Qed.
Lemma pair_sum_ext n P s t w w' : (forall a b, w a b = w' a b) -> pair_sum n P s t w = pair_sum n P s t w'.
Proof. intros H. unfold pair_sum. apply rsum_ext. intros a _. apply rsum_ext. intros b _. now rewrite H. Qed.
Lemma pair_sum_scal n P s t c w : pair_sum n P s t (fun a b => c * w a b) = c * pair_sum n P s t w.
Proof. unfold pair_sum. rewrite <- rsum_scal. apply rsum_ext. intros a _. rewrite <- rsum_scal. apply rsum_ext. intros b _. ring. Qed.
(** width of the margin added by enlargeSupport *)
Definition margin (n : nat) (p q : Z) : nat := Z.to_nat (Z.quot ((p - q) * Z.of_nat n) (2 * q)).
Lemma enlarge_sq (a : img) n p q : (0 < q)%Z -> (q <= p)%Z -> rows a = n -> cols a = n ->
  enlargeSupport a p q = Ok (mkImg (n + 2 * margin n p q) (n + 2 * margin n p q) (padf 0 n n (margin n p q) (margin n p q) (px a))).
Proof.
  intros Hq Hp <- Ec. unfold enlargeSupport, margin. rewrite Ec.
  assert (H1 : (0 <= Z.quot ((p - q) * Z.of_nat (rows a)) (2 * q))%Z) by (apply Z.quot_pos; [apply Z.mul_nonneg_nonneg|]; lia).
  set (u := Z.quot _ _) in *. clearbody u. unfold pad2. destruct (Z.ltb_spec u 0); [lia|]. cbn [orb]. rewrite Ec. reflexivity.
Qed.
Definition binary (n : nat) (f : nat -> nat -> R) : Prop := forall i j, (i < n)%nat -> (j < n)%nat -> f i j = 0 \/ f i j = 1.
Lemma padf_idem n r f i j : binary n f -> padf 0 n n r r f i j * padf 0 n n r r f i j = padf 0 n n r r f i j.
Proof. intros H. unfold padf. destruct (_ && _)%bool eqn:E; [|ring]. destruct (H (i - r)%nat (j - r)%nat) as [ ->| ->]; try lia; ring. Qed.
Lemma masked_val modes V npup k pupil p q : (0 < q)%Z -> (q <= p)%Z -> rows pupil = npup -> cols pupil = npup ->
  let r := margin npup p q in let N := (npup + 2 * r)%nat in
  masked_mode (mode_img modes V npup k) (mkImg N N (padf 0 npup npup r r (px pupil))) p q =
  Ok (mkImg N N (fun i j => padf 0 npup npup r r (px (mode_img modes V npup k)) i j * padf 0 npup npup r r (px pupil) i j)).
Proof.
  intros Hq Hp Er Ec r N. unfold masked_mode. rewrite (enlarge_sq (mode_img modes V npup k) npup p q Hq Hp eq_refl eq_refl). cbn [bind rows cols px]. fold r. fold N. rewrite !Nat.eqb_refl. reflexivity.
Qed.
Lemma vii_dphi_val svd Cmm modes pupil npup p q gmax : (0 < q)%Z -> (q <= p)%Z -> rows pupil = npup -> cols pupil = npup -> (0 < npup)%nat -> binary npup (px pupil) ->
  let ss := fst (svd Cmm) in let V := snd (svd Cmm) in
  rows modes = (npup * npup)%nat -> cols modes = rows V -> cols V = length ss ->
  let r := margin npup p q in let N := (npup + 2 * r)%nat in
  let P := mkImg N N (padf 0 npup npup r r (px pupil)) in
  exists d, vii_dphi svd Cmm modes P (otf_G P) gmax p q = Ok d /\ rows d = N /\ cols d = N /\
    forall i j, (i < N)%nat -> (j < N)%nat ->
    let s := (Z.of_nat i - Z.of_nat (N / 2))%Z in let t := (Z.of_nat j - Z.of_nat (N / 2))%Z in
    (Z.abs s <= 2 * Z.of_nat r)%Z -> (Z.abs t <= 2 * Z.of_nat r)%Z ->
    px (otf_G P) i j = overlap npup (px pupil) s t /\
    px d i j = if Rlt_dec (/ 10 ^ 7) (overlap npup (px pupil) s t / gmax) then pupil_sf npup (cols modes) (px pupil) (mode_of modes npup) (eff_cov ss V) s t else 0.
Proof.
  intros Hq Hp Er Ec Hn Hb ss V Hr HcV HV r N P. unfold vii_dphi. fold ss. fold V. cbv zeta. rewrite Hr, Nat.sqrt_square, <- HcV, HV, !Nat.eqb_refl. cbn [andb negb].
  set (g := fun k => mkImg N N (fun i j => padf 0 npup npup r r (px (mode_img modes V npup k)) i j * px P i j)).
  assert (EM : forall l, mapM (fun k => masked_mode (mode_img modes V npup k) P p q) l = Ok (map g l)).
  { induction l as [|k l IH]; [reflexivity|]. cbn [mapM map]. pose proof (masked_val modes V npup k pupil p q Hq Hp Er Ec) as E. cbv zeta in E. fold r in E. fold N in E. fold P in E. rewrite E. cbn [bind]. rewrite IH. reflexivity. }
  rewrite EM. cbn [bind]. eexists. split; [reflexivity|]. split; [reflexivity|]. split; [reflexivity|].
  intros i j Hi Hj. set (s := (Z.of_nat i - Z.of_nat (N / 2))%Z). set (t := (Z.of_nat j - Z.of_nat (N / 2))%Z). intros Hs Ht.
  assert (GV : px (otf_G P) i j = overlap npup (px pupil) s t).
  { rewrite otf_G_val by (cbn; lia). unfold xcorr. change (rows P) with N. change (cols P) with N. change (px P) with (padf 0 npup npup r r (px pupil)).
    unfold overlap. pose proof (pairs_pad npup r (px pupil) (fun _ _ _ _ => 1) i j) as H. cbv zeta in H. fold N in H. fold s in H. fold t in H. rewrite <- H by assumption.
    apply rsum_ext. intros c _. apply rsum_ext. intros d _. ring. }
  split; [exact GV|]. cbn [px]. unfold den_of. rewrite GV. destruct (Rlt_dec _ _); [|ring].
  change (rows P) with N. change (cols P) with N. rewrite re_ifft_scal, re_ifft_lsum, lsum_combine_seq. cbn [fst snd].
  unfold pupil_sf. rewrite (Rmult_comm (/ _)). unfold Rdiv. f_equal.
  rewrite <- rsum_scal.
  rewrite <- (pair_sum_ext npup (px pupil) s t _ _ (fun a b => quad_eff modes V npup ss s t a b)).
  rewrite <- (pair_sum_rsum npup (px pupil) s t (length ss) (fun k a b => nth k ss 0 * (zext npup (px (mode_img modes V npup k)) (a + s) (b + t) - zext npup (px (mode_img modes V npup k)) a b) ^ 2)).
  apply rsum_ext. intros k _. rewrite pair_sum_scal. unfold vii_term. rewrite re_ifft_scal. change (rows P) with N. change (cols P) with N. rewrite <- Rmult_assoc, (Rmult_comm 2), Rmult_assoc. f_equal.
  pose proof (vii_val N N (px P) (padf 0 npup npup r r (px (mode_img modes V npup k))) (shift_ix N i) (shift_ix N j) ltac:(lia) ltac:(lia) (fun a b => padf_idem npup r (px pupil) a b Hb)) as H. cbv zeta in H. cbn [g px]. unfold g. cbn [px]. rewrite Nat.add_0_l. rewrite H. clear H.
  pose proof (pairs_pad npup r (px pupil) (fun a b c d => (zext npup (px (mode_img modes V npup k)) a b - zext npup (px (mode_img modes V npup k)) c d) ^ 2) i j) as H. cbv zeta in H. fold N in H. fold s t in H. rewrite <- H by assumption.
  apply rsum_ext. intros c _. apply rsum_ext. intros d _. change (px P) with (padf 0 npup npup r r (px pupil)). rewrite !padf_zext. reflexivity.
Qed.
