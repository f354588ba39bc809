(** Complements found by mutation testing: C28 (low-order number), C81 (shapes of the anisoplanatism), C92 (reference segment). *)
From Coq Require Import Reals List Arith ZArith Bool Lia Lra.
From Flocq Require Import Core.Raux Core.Generic_fmt Core.Round_NE.
From Verif Require Import Base_Py Base_Sum Base_DFT M_Image S_Image M_Fourier S_Fourier M_Tools S_Tools L_Tools L_Tools2 M_Freq L_Freq M_Atmo M_Sensor M_Model S_Model L_Model L_Model2 M_Model2 S_Model2 L_Model3 P_Model3 P_Breakdown M_Psf M_Psfao L_Psfao M_Pupil.
From Coquelicot Require Import Complex.
Import ListNotations.
Open Scope R_scope.

(** C28: with one number the low-order extra spectrum (the same for every star) integrates to that wavefront error, is
    nonnegative, follows the power law at the selected frequencies and vanishes at the others. *)
Theorem C28_low_order_number : forall j1 D e kmin kmax rad2nm fov x zens n fk res, (forall i j, (i < n)%nat -> (j < n)%nat -> 0 < fk i j) ->
  extraErrorLoPSD j1 D e kmin kmax rad2nm fov (LoNum x) zens n fk = Ok res ->
  exists g, res = LoOne g /\ gsum n (grid_at g) * rad2nm ^ 2 = x ^ 2 /\
  exists al, 0 <= al /\ forall i j, (i < n)%nat -> (j < n)%nat ->
    (selected kmin kmax (fk i j) -> grid_at g i j = al * (Rpower (fk i j) e * pistonFilter j1 D (fk i j))) /\
    (~ selected kmin kmax (fk i j) -> grid_at g i j = 0).
Proof.
  intros j1 D e kmin kmax rad2nm fov x zens n fk res Hk H. unfold extraErrorLoPSD in H.
  destruct (grid_res n (fun i j => extra_raw j1 D e kmin kmax (fk i j))) as [g0|] eqn:Eg; [|discriminate]. cbn [bind] in H.
  destruct (Req_EM_T (lsum2 g0) 0) as [|NS] eqn:E1; [discriminate|]. destruct (Req_EM_T rad2nm 0) as [|NR] eqn:E2; [discriminate|]. apply Ok_inj in H. subst res. eexists. split; [reflexivity|].
  assert (HE : extraErrorPSD j1 D e kmin kmax x rad2nm n fk = Ok (map (map (fun v => v * (1 / lsum2 g0) * x ^ 2 * (1 / rad2nm ^ 2))) g0)) by (unfold extraErrorPSD; rewrite Eg; cbn [bind]; rewrite E1, E2; f_equal; apply map_ext; intros r; apply map_ext; intros v; unfold Rdiv; ring).
  destruct (C28_extra_error j1 D e kmin kmax x rad2nm n fk _ Hk HE) as (S1 & al & A0 & _ & V). split; [exact S1|]. exists al. split; [exact A0|exact V].
Qed.

(** C81: with a profile of as many layers as the angular structure functions, the evaluation is accepted exactly when the
    profile and the set of planes each have one element or as many as the side of the spectrum; the planes are then
    contracted over pixels instead of layers. *)
Theorem C81_profile_shapes : forall psd D samp nSrc c planes, (0 < rows psd)%nat -> (0 < cols psd)%nat -> S_Fourier.nonneg psd -> D * samp <> 0 ->
  ((exists l, psfao_sf psd D samp nSrc (Some (length c, planes)) (Some c) = Ok l) <->
   (length c = rows psd \/ length c = 1%nat) /\ (length planes = rows psd \/ length planes = 1%nat)).
Proof.
  intros psd D samp nSrc c planes Hr Hc Hn HD. destruct (psfao_sf0_val psd D samp Hr Hc Hn HD) as (s & E & Rs & Cs & V).
  unfold psfao_sf. rewrite E. cbn [bind]. rewrite Nat.eqb_refl, Rs. cbv zeta.
  destruct (Nat.eqb_spec (length c) (rows psd)), (Nat.eqb_spec (length c) 1), (Nat.eqb_spec (length planes) (rows psd)), (Nat.eqb_spec (length planes) 1); cbn [orb negb];
  (split; [intros (l & H); try discriminate; split; auto|intros [H1 H2]; try (exfalso; tauto); eauto]).
Qed.

(** C92: the segment whose neighbourhood is used to fill the gaps is the first one lit at the four corners and at the four
    mid-sides of its footprint in the pupil; the first segment if there is none. *)
Definition lit_border (t : carr) : Prop :=
  let md := Z.to_nat (ZnearestE (INR (ccols t) / 2)) in let a := (crows t - 1)%nat in let b := (ccols t - 1)%nat in
  forall i j, In (i, j) [(0%nat, 0%nat); (0%nat, b); (a, 0%nat); (a, b); (0%nat, md); (md, 0%nat); (a, md); (md, b)] -> fst (cpx t i j) <> 0.
Definition footprint (ratio c : R) (m : carr) (s : segm) : carr := let q := pos_seg ratio c s in cslice m (r0 q) (r1 q) (c0 q) (c1 q).
Lemma surrounded_spec t b : surrounded t = Ok b -> (b = true <-> lit_border t).
Proof.
  unfold surrounded, lit_border. cbv zeta. destruct (_ || _)%bool; [discriminate|]. intros H. apply Ok_inj in H. subst b.
  assert (T : forall z : C, truthy z = true <-> fst z <> 0) by (intros z; unfold truthy; destruct (Req_EM_T (fst z) 0); split; intros; try discriminate; try contradiction; auto).
  rewrite !andb_true_iff, !T. split.
  - intros [[[[[[[A B] C] D] E] F] G] H] i j I. cbn [In] in I. repeat (destruct I as [I|I]; [injection I as <- <-; assumption|]). destruct I.
  - intros H. repeat split; apply H; cbn; tauto.
Qed.
Theorem C92_reference : forall ratio c m l k, find_best ratio c m l 0 = Ok k ->
  (exists s, nth_error l k = Some s /\ lit_border (footprint ratio c m s) /\ forall i s', (i < k)%nat -> nth_error l i = Some s' -> ~ lit_border (footprint ratio c m s')) \/
  (k = 0%nat /\ forall i s', nth_error l i = Some s' -> ~ lit_border (footprint ratio c m s')).
Proof.
  intros ratio c m l k. assert (G : forall l j, find_best ratio c m l j = Ok k ->
    (exists k' s, k = (j + k')%nat /\ nth_error l k' = Some s /\ lit_border (footprint ratio c m s) /\ forall i s', (i < k')%nat -> nth_error l i = Some s' -> ~ lit_border (footprint ratio c m s')) \/
    (k = 0%nat /\ forall i s', nth_error l i = Some s' -> ~ lit_border (footprint ratio c m s'))).
  { clear l. intros l. induction l as [|s l0 IH]; intros j H; cbn [find_best] in H.
    - apply Ok_inj in H. right. split; [congruence|]. intros [|i] s' E; discriminate.
    - fold (footprint ratio c m s) in H. cbv zeta in H. fold (footprint ratio c m s) in H. change (cslice m _ _ _ _) with (footprint ratio c m s) in H.
      destruct (surrounded (footprint ratio c m s)) as [f|] eqn:Es; [|discriminate]. cbn [bind] in H. pose proof (surrounded_spec _ _ Es) as S1. destruct f.
      + apply Ok_inj in H. left. exists 0%nat, s. split; [lia|]. split; [reflexivity|]. split; [apply S1; reflexivity|]. intros; lia.
      + assert (NL : ~ lit_border (footprint ratio c m s)) by (intros L; apply S1 in L; discriminate).
        destruct (IH (S j) H) as [(k' & s' & -> & N & L & F)|[-> F]].
        * left. exists (S k'), s'. split; [lia|]. split; [exact N|]. split; [exact L|]. intros [|i] s2 Hi E; [injection E as <-; exact NL|]. apply (F i); [lia|exact E].
        * right. split; [reflexivity|]. intros [|i] s2 E; [injection E as <-; exact NL|]. exact (F i s2 E). }
  intros H. destruct (G l 0%nat H) as [(k' & s & -> & R)|R]; [left; exists s; exact R|right; exact R].
Qed.

Print Assumptions C28_low_order_number.
Print Assumptions C81_profile_shapes.
Print Assumptions C92_reference.
