(** Property C24, continued: cut-off frequencies of the mirrors and number of
    aliasing orders. *)
From Coq Require Import Reals List Arith ZArith Lia Lra Psatz.
From Flocq Require Import Core.Raux.
From Verif Require Import Base_Py M_Freq L_Freq.
Import ListNotations.
Open Scope R_scope.

(** Without external cut-offs, or as soon as one of them is zero, mirror i has
    cut-off 1/(2 pitch_i); otherwise the external ones are used. *)
Theorem C24_cutoffs : forall pitch,
  (forall kcExt, (match kcExt with None => True | Some l => In 0 l end) ->
     length (cutoffs kcExt pitch) = length pitch /\
     forall i p, nth_error pitch i = Some p -> p <> 0 -> exists k, nth_error (cutoffs kcExt pitch) i = Some k /\ 2 * k * p = 1) /\
  (forall l, ~ In 0 l -> cutoffs (Some l) pitch = l).
Proof.
  intros pitch. split.
  - intros kc H. assert (E : cutoffs kc pitch = map (fun p => 1 / (2 * p)) pitch).
    { destruct kc as [l|]; [|reflexivity]. cbn [cutoffs].
      assert (F : forallb (fun x => if Req_EM_T x 0 then false else true) l = false).
      { induction l as [|x l IH]; [destruct H|]. cbn [forallb]. destruct H as [ ->|H]; [now destruct (Req_EM_T 0 0)|]. rewrite (IH H). now destruct (Req_EM_T x 0). }
      now rewrite F. }
    rewrite E, map_length. split; [reflexivity|]. intros i p Hp Np. exists (1 / (2 * p)). split; [rewrite nth_error_map, Hp; reflexivity|]. field. exact Np.
  - intros l H. cbn [cutoffs].
    assert (F : forallb (fun x => if Req_EM_T x 0 then false else true) l = true).
    { induction l as [|x l IH]; [reflexivity|]. cbn [forallb]. cbn [In] in H. destruct (Req_EM_T x 0) as [E|N]; [exfalso; apply H; now left|]. apply IH. tauto. }
    now rewrite F.
Qed.
Print Assumptions C24_cutoffs.
Example C24_cutoffs_ex : nth_error (cutoffs None [1 / 4; 1 / 2]) 1 = Some (1 / (2 * (1 / 2))) /\ cutoffs (Some [3; 5]) [1 / 4; 1 / 2] = [3; 5].
Proof. split; [reflexivity|]. apply (proj2 (C24_cutoffs _)). cbn. intros [H|[H|[]]]; lra. Qed.

(** The number of aliasing orders: 2 up to four times the corrected area, then
    as many as half the ratio of the grid to the area (rounded up), at most 4. *)
Theorem C24_nTimes_value : forall n r, (0 < r)%Z ->
  ((n <= 4 * r)%Z -> nTimes n r = 2%Z) /\ ((4 * r < n <= 6 * r)%Z -> nTimes n r = 3%Z) /\ ((6 * r < n)%Z -> nTimes n r = 4%Z).
Proof.
  intros n r Hr. unfold nTimes. apply IZR_lt in Hr as Pr.
  assert (E : IZR n / IZR r / 2 = IZR n / (2 * IZR r)) by (field; lra). rewrite E.
  assert (U : forall m, (n <= 2 * m * r)%Z -> (Zceil (IZR n / (2 * IZR r)) <= m)%Z).
  { intros m H. apply Zceil_glb. apply IZR_le in H. rewrite !mult_IZR in H. apply Rmult_le_reg_r with (2 * IZR r); [lra|].
    unfold Rdiv. rewrite Rmult_assoc, Rinv_l by lra. lra. }
  assert (L : forall m, (2 * m * r < n)%Z -> (m < Zceil (IZR n / (2 * IZR r)))%Z).
  { intros m H. apply lt_IZR. apply Rlt_le_trans with (IZR n / (2 * IZR r)); [|apply Zceil_ub]. apply IZR_lt in H. rewrite !mult_IZR in H.
    apply Rmult_lt_reg_r with (2 * IZR r); [lra|]. unfold Rdiv. rewrite Rmult_assoc, Rinv_l by lra. lra. }
  repeat split; intros H.
  - specialize (U 2%Z). lia.
  - pose proof (U 3%Z). pose proof (L 2%Z). lia.
  - pose proof (L 3%Z). lia.
Qed.
Print Assumptions C24_nTimes_value.
Example C24_nTimes_ex : nTimes 100 40 = 2%Z /\ nTimes 200 40 = 3%Z /\ nTimes 1000 40 = 4%Z.
Proof. repeat split; [apply (C24_nTimes_value 100 40)|apply (C24_nTimes_value 200 40)|apply (C24_nTimes_value 1000 40)]; lia. Qed.
