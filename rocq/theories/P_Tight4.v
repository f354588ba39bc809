(** Complements found by mutation testing: C80 (static term of the breakdown), C71 (lists of different List.lengths), C109 (static coefficients of an image). *)
From Coq Require Import Reals List Arith ZArith Bool Lia Lra String Ascii.
From Verif Require Import Base_Py Base_Sum M_Image S_Image M_Tools S_Tools L_Tools L_Tools2 M_Model2 M_Psf M_Psfr M_Grid M_Gen M_Atmo L_Config2 M_PsfrRun.
Import ListNotations.
Open Scope R_scope.

(** C80: the static term of the breakdown is the standard deviation of the static map over its pixels: its square is the mean of the squared deviations
    from the mean (a uniform phase does not count); it is zero for a null map. *)
Theorem C80_static_term : forall b w, psfr_breakdown b = Ok w ->
  let n := INR (List.length (b_ncpa b)) in let mean := total (b_ncpa b) / n in
  0 <= w_ncpa w /\ w_ncpa w ^ 2 * n = total (map (fun x => (x - mean) ^ 2) (b_ncpa b)).
Proof.
  intros b w H. unfold psfr_breakdown in H. bnext H ncpa Ecp. bnext H fa Efa. bnext H nt Ent. bnext H sv Esv. bnext H tj Ett. bnext H pix Epx. bnext H an Ean.
  apply Ok_inj in H. subst w. cbn [w_ncpa]. cbv zeta. clear - Ecp. set (l := b_ncpa b) in *. clearbody l.
  assert (T : forall m : list R, total m = lsum m) by (intros; induction m as [|x m IH]; [reflexivity|unfold total, lsum in *; cbn; now rewrite IH]).
  rewrite !T. destruct (existsb _ l) eqn:E.
  - unfold rstd, rmean in Ecp. unfold rdiv in Ecp. destruct (Req_EM_T (INR (List.length l)) 0) as [|N]; [discriminate|]. cbn [bind] in Ecp.
    rewrite map_length in Ecp. destruct (Req_EM_T (INR (List.length l)) 0) as [|_]; [contradiction|]. cbn [bind] in Ecp.
    unfold rsqrt in Ecp. match type of Ecp with (if Rlt_dec ?v 0 then _ else _) = _ => set (q := v) in * end.
    destruct (Rlt_dec q 0); [discriminate|]. apply Ok_inj in Ecp. subst ncpa. split; [apply sqrt_pos|]. rewrite pow2_sqrt by lra. unfold q. unfold Rdiv at 1. rewrite Rmult_assoc, Rinv_l by exact N. rewrite Rmult_1_r. reflexivity.
  - apply Ok_inj in Ecp. subst ncpa. split; [lra|].
    assert (Z : forall x, In x l -> x = 0).
    { intros x Hx. destruct (Req_EM_T x 0) as [|Nx]; [assumption|]. exfalso.
      assert (Q : existsb (fun x => if Req_EM_T x 0 then false else true) l = true) by (apply existsb_exists; exists x; split; [assumption|]; destruct (Req_EM_T x 0); [contradiction|reflexivity]).
      congruence. }
    assert (S0 : lsum l = 0). { clear E. induction l as [|x r IH]; [reflexivity|]. unfold lsum in *. cbn. rewrite (Z x) by now left. rewrite IH; [ring|]. intros y Hy. apply Z. now right. }
    assert (S1 : lsum (map (fun x => (x - lsum l / INR (List.length l)) ^ 2) l) = 0).
    { rewrite S0. unfold Rdiv. rewrite Rmult_0_l. clear E S0.
      assert (G : forall m, (forall x, In x m -> x = 0) -> lsum (map (fun x => (x - 0) ^ 2) m) = 0).
      { induction m as [|x r IH]; intros Zm; [reflexivity|]. unfold lsum in *. cbn [map fold_right]. rewrite (Zm x) by now left. rewrite IH; [ring|]. intros y Hy. apply Zm. now right. }
      now apply G. }
    transitivity 0; [ring|symmetry; exact S1].
Qed.
(** C71: as many positions and fit errors as PSFs, and a number of PSFs that is a multiple of the number per segment, or the call is refused *)
Theorem C71_lengths : forall argsort n psfs coo outs mse nMax nNeigh l, interpolate_psfs_in_fov argsort n psfs coo outs mse nMax nNeigh = Ok l ->
  List.length coo = List.length psfs /\ List.length mse = List.length psfs /\ (List.length psfs mod nMax = 0)%nat /\ nMax <> 0%nat /\ List.length l = List.length outs.
Proof.
  intros argsort n psfs coo outs mse nMax nNeigh l H. unfold interpolate_psfs_in_fov in H. destruct (Nat.eqb_spec nMax 0) as [|N]; [discriminate|]. cbv zeta in H.
  match type of H with (if negb ?b then _ else _) = _ => destruct b eqn:E; [cbn [negb] in H|discriminate] end.
  apply andb_prop in E. destruct E as [E E3]. apply andb_prop in E. destruct E as [E1 E2]. apply Nat.eqb_eq in E1, E2, E3.
  bnext H w Ew. split; [assumption|]. split; [assumption|]. split; [rewrite <- E1, Nat.mul_comm; now apply Nat.mod_mul|]. split; [assumption|].
  clear - H. revert l H. induction outs as [|o r IH]; intros l H; cbn in H; [apply Ok_inj in H; now subst|]. bnext H x Ex. bnext H s Es. apply Ok_inj in H. subst. cbn. f_equal. now apply IH.
Qed.
(** C109: the static coefficients of an image are, mode by mode, those of PSF j (and column k) *)
Theorem C109_static_coefficients : forall v j k m, 
  match v with
  | StatNone => stat_at v j k = []
  | StatVec nm f => List.length (stat_at v j k) = nm /\ ((m < nm)%nat -> nth m (stat_at v j k) 0 = f m j)
  | StatTab nm f => List.length (stat_at v j k) = nm /\ ((m < nm)%nat -> nth m (stat_at v j k) 0 = f m j k)
  end.
Proof.
  intros [|nm f|nm f] j k m; [reflexivity| |]; cbn [stat_at]; rewrite map_length, seq_length; (split; [reflexivity|]); intros Hm;
    [rewrite (nth_indep _ 0 (f 0%nat j))|rewrite (nth_indep _ 0 (f 0%nat j k))]; rewrite ?map_length, ?seq_length; try assumption.
  - rewrite (map_nth (fun m => f m j)), seq_nth by assumption. reflexivity.
  - rewrite (map_nth (fun m => f m j k)), seq_nth by assumption. reflexivity.
Qed.
(** C131: capitals: the twenty-six small letters become the capital of the same rank, every other character is kept *)
Definition small_letters : string := "abcdefghijklmnopqrstuvwxyz".
Definition capital_letters : string := "ABCDEFGHIJKLMNOPQRSTUVWXYZ".
Theorem C131_capitals : forall s k c, String.get k s = Some c ->
  (forall i, String.get i small_letters = Some c -> String.get k (upper s) = String.get i capital_letters) /\
  ((forall i, String.get i small_letters <> Some c) -> String.get k (upper s) = Some c).
Proof.
  assert (G : forall s k, String.get k (upper s) = option_map up (String.get k s)) by (induction s as [|a r IH]; intros [|k]; cbn; auto).
  intros s k c E. rewrite G, E. cbn [option_map]. clear E G. split.
  - intros i Hi. do 26 (destruct i as [|i]; [cbn in Hi; injection Hi as <-; reflexivity|]). cbn in Hi. discriminate.
  - intros N. f_equal. unfold up. destruct (andb _ _) eqn:B; [|reflexivity]. exfalso. apply andb_prop in B. destruct B as [B1 B2]. apply Nat.leb_le in B1, B2.
    apply (N (nat_of_ascii c - 97)%nat). rewrite <- (ascii_nat_embedding c) at 2. set (n := nat_of_ascii c) in *. clearbody n.
    remember (n - 97)%nat as d. assert (n = (97 + d)%nat) by lia. subst n. assert (d < 26)%nat by lia. clear - H.
    do 26 (destruct d as [|d]; [reflexivity|]). lia.
Qed.

Print Assumptions C80_static_term.
Print Assumptions C71_lengths.
Print Assumptions C109_static_coefficients.
Print Assumptions C131_capitals.
