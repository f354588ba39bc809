(** C141: in the composed computation the result of a science source does not depend on the other science sources. *)
From Coq Require Import Reals List Arith ZArith Lia Lra Bool.
From Verif Require Import Base_Py Base_Sum M_Image M_Source M_Fourier M_Atmo M_Sensor M_Tools M_Psf M_Freq M_Model M_Model2 M_Call M_Driver M_Chain L_Sensor L_Model3 L_Freq L_Psf L_Psf2 L_Psf3 L_Tools2 P_Source P_Call P_Chain P_Chain2.
Import ListNotations.
Open Scope R_scope.

(** The same system with other science sources. *)
Definition with_src (g : source) (x : scao) : scao :=
  mkScao (x_ao x) (x_D x) (x_zenith x) (x_extraNm x) g (x_pitch x) (x_circle x) (x_loop x) (x_modul x) (x_bin x)
    (x_nPix x) (x_ps x) (x_nBin x) (x_bw x) (x_spot x) (x_trans x) (x_dispx x) (x_dispy x).
(** A list of science sources: one zenith angle and one azimuth per source. *)
Definition source_ok (g : source) : Prop := List.length (so_zen g) = so_nSrc g /\ List.length (so_az g) = so_nSrc g.
(** Source s of g and source t of g' are in the same direction. *)
Definition same_direction (g : source) (s : nat) (g' : source) (t : nat) : Prop :=
  exists z a, nth_error (so_zen g) s = Some z /\ nth_error (so_az g) s = Some a /\ nth_error (so_zen g') t = Some z /\ nth_error (so_az g') t = Some a.

Lemma dir_same g s g' t ds ds' dg : source_ok g -> source_ok g' -> same_direction g s g' t -> direction g = Ok ds -> direction g' = Ok ds' -> dir_diff ds dg s = dir_diff ds' dg t.
Proof.
  intros [Lz La] [Lz' La'] (z & a & Z1 & A1 & Z2 & A2) D D'.
  destruct (direction_val g Lz La) as (xs & ys & E & Lx & Ly & F). destruct (direction_val g' Lz' La') as (xs' & ys' & E' & Lx' & Ly' & F').
  rewrite E in D. apply Ok_inj in D. subst ds. rewrite E' in D'. apply Ok_inj in D'. subst ds'.
  destruct (F _ _ _ Z1 A1) as (x & y & X & Y & P & Q). destruct (F' _ _ _ Z2 A2) as (x' & y' & X' & Y' & P' & Q').
  assert (x' = x) by congruence. assert (y' = y) by congruence. subst x' y'. unfold dir_diff. cbn [fst snd].
  assert (PI1 : forall (l : list R) i v, nth_error l i = Some v -> pyindex l (Z.of_nat i) = Ok v).
  { intros l i v Hv. assert (i < List.length l)%nat by (apply nth_error_Some; congruence). unfold pyindex. cbv zeta. destruct (Z.ltb_spec (Z.of_nat i) 0); [lia|].
    destruct (Z.ltb_spec (Z.of_nat i) 0); [lia|]. destruct (Z.leb_spec (Z.of_nat (List.length l)) (Z.of_nat i)); [lia|]. cbn [orb]. rewrite Nat2Z.id, Hv. reflexivity. }
  rewrite (PI1 _ _ _ X), (PI1 _ _ _ Y), (PI1 _ _ _ X'), (PI1 _ _ _ Y'). rewrite P, Q. reflexivity.
Qed.
Lemma az_same g s g' t : same_direction g s g' t -> pyindex (so_az g) (Z.of_nat s) = pyindex (so_az g') (Z.of_nat t).
Proof.
  intros (z & a & Z1 & A1 & Z2 & A2).
  assert (PI1 : forall (l : list R) i v, nth_error l i = Some v -> pyindex l (Z.of_nat i) = Ok v).
  { intros l i v Hv. assert (i < List.length l)%nat by (apply nth_error_Some; congruence). unfold pyindex. cbv zeta. destruct (Z.ltb_spec (Z.of_nat i) 0); [lia|].
    destruct (Z.ltb_spec (Z.of_nat i) 0); [lia|]. destruct (Z.leb_spec (Z.of_nat (List.length l)) (Z.of_nat i)); [lia|]. cbn [orb]. rewrite Nat2Z.id, Hv. reflexivity. }
  rewrite (PI1 _ _ _ A1), (PI1 _ _ _ A2). reflexivity.
Qed.

Lemma parts_same x g g' MV n nT y dr p p' s t : source_ok g -> source_ok g' -> same_direction g s g' t -> (s < so_nSrc g)%nat -> (t < so_nSrc g')%nat ->
  parts_of (with_src g x) MV n nT y dr = Ok p -> parts_of (with_src g' x) MV n nT y dr = Ok p' ->
  p_noise p s = p_noise p' t /\ p_alias p = p_alias p' /\ p_diff p s = p_diff p' t /\ p_chrom p s = p_chrom p' t /\ p_st p s = p_st p' t /\ p_fit p = p_fit p' /\
  p_extra p = p_extra p' /\ p_cone p = p_cone p' /\ p_mcao p = p_mcao p' /\ p_vib p = p_vib p' /\ p_tilt p = p_tilt p'.
Proof.
  intros G G' SD Hs Ht H H'. unfold parts_of in H, H'. cbv zeta in H, H'. cbn [with_src x_src x_zenith] in H, H'.
  apply bindOk in H. destruct H as (no & E1 & H). apply bindOk in H'. destruct H' as (no' & E1' & H'). rewrite E1 in E1'. apply Ok_inj in E1'. subst no'.
  apply bindOk in H. destruct H as (al & E2 & H). apply bindOk in H'. destruct H' as (al' & E2' & H'). rewrite E2 in E2'. apply Ok_inj in E2'. subst al'.
  apply bindOk in H. destruct H as (di & E3 & H). apply bindOk in H'. destruct H' as (di' & E3' & H').
  apply bindOk in H. destruct H as (ch & E4 & H). apply bindOk in H'. destruct H' as (ch' & E4' & H'). rewrite E4 in E4'. apply Ok_inj in E4'. subst ch'.
  apply bindOk in H. destruct H as (ds & E5 & H). apply bindOk in H'. destruct H' as (ds' & E5' & H').
  apply bindOk in H. destruct H as (dg & E6 & H). apply bindOk in H'. destruct H' as (dg' & E6' & H'). rewrite E6 in E6'. apply Ok_inj in E6'. subst dg'.
  apply bindOk in H. destruct H as (st & E7 & H). apply bindOk in H'. destruct H' as (st' & E7' & H').
  apply bindOk in H. destruct H as (fi & E8 & H). apply bindOk in H'. destruct H' as (fi' & E8' & H'). rewrite E8 in E8'. apply Ok_inj in E8'. subst fi'.
  apply Ok_inj in H, H'. subst p p'. cbn [p_noise p_alias p_diff p_chrom p_st p_fit p_extra p_cone p_mcao p_vib p_tilt].
  assert (D : nth s di [] = nth t di' []).
  { destruct (src_map_inv _ _ _ E3) as [_ X]. destruct (src_map_inv _ _ _ E3') as [_ X']. specialize (X s Hs). specialize (X' t Ht). cbv beta in X, X'.
    rewrite (az_same _ _ _ _ SD) in X. rewrite X in X'. apply Ok_inj in X'. exact X'. }
  assert (S : nth s st [] = nth t st' []).
  { destruct (src_map_inv _ _ _ E7) as [_ X]. destruct (src_map_inv _ _ _ E7') as [_ X']. specialize (X s Hs). specialize (X' t Ht). cbv beta in X, X'.
    rewrite (dir_same _ _ _ _ _ _ dg G G' SD E5 E5') in X. rewrite X in X'. apply Ok_inj in X'. exact X'. }
  unfold at_src. rewrite D, S. repeat split; reflexivity.
Qed.

Lemma grid_res_ext n f g : (forall i j, f i j = g i j) -> grid_res n f = grid_res n g.
Proof.
  intros E. unfold grid_res. assert (M : forall (A B : Type) (u v : A -> result B) l, (forall a, u a = v a) -> mapM u l = mapM v l).
  { intros A B u v l Q. induction l as [|a l IH]; [reflexivity|]. cbn. rewrite Q, IH. reflexivity. }
  apply M. intros i. apply M. intros j. apply E.
Qed.

(** C141: two runs of the same system with different science sources at the same wavelengths: the two runs sample the same wavelengths and
    frequencies, and two sources in the same direction have the same power spectrum and the same structure function. *)
Theorem C141_source_alone : forall w op tp x g g' r r' s t, source_ok g -> source_ok g' -> so_wvl g = so_wvl g' ->
  chain w op tp (with_src g x) = Ok r -> chain w op tp (with_src g' x) = Ok r' -> same_direction g s g' t ->
  r_wvl r = r_wvl r' /\ r_n r = r_n r' /\ r_res r = r_res r' /\ r_ao r = r_ao r' /\
  exists P S, nth_error (r_psd r) s = Some P /\ nth_error (r_psd r') t = Some P /\ nth_error (r_sf r) s = Some S /\ nth_error (r_sf r') t = Some S.
Proof.
  intros w op tp x g g' r r' s t G G' EW H H' SD.
  destruct (chain_inv _ _ _ _ _ H) as (fd & kcMax & res & dr & y & p & cf & st & Q0 & Q1 & Q2 & Q3 & Q4 & Q5 & Q6 & Q7 & Q8 & Q9 & Q10 & Q11 & Q12).
  destruct (chain_inv _ _ _ _ _ H') as (fd' & kcMax' & res' & dr' & y' & p' & cf' & st' & P0 & P1 & P2 & P3 & P4 & P5 & P6 & P7 & P8 & P9 & P10 & P11 & P12).
  clear H H' Q9 P9. cbn [with_src x_src x_nBin x_bw x_ps x_D x_nPix x_pitch x_ao] in *.
  assert (Hs : (s < so_nSrc g)%nat) by (destruct SD as (z & a & Z1 & _), G as [G _]; rewrite <- G; apply nth_error_Some; congruence).
  assert (Ht : (t < so_nSrc g')%nat) by (destruct SD as (z & a & _ & _ & Z1 & _), G' as [G' _]; rewrite <- G'; apply nth_error_Some; congruence).
  rewrite <- EW, Q0 in P0. apply Ok_inj in P0. subst fd'. rewrite Q1 in P1. apply Ok_inj in P1. subst kcMax'. rewrite Q2 in P2. apply Ok_inj in P2. subst res'.
  assert (En : r_n r = r_n r') by congruence. assert (Er : r_res r = r_res r') by congruence. rewrite <- En, <- Er in *.
  rewrite Q3 in P3. apply Ok_inj in P3. injection P3 as EA ED. subst dr'. rewrite <- EA in *.
  change (fsys_of w (with_src g x)) with (fsys_of w x) in *. change (fsys_of w (with_src g' x)) with (fsys_of w x) in *. rewrite Q4 in P4. apply Ok_inj in P4. subst y'.
  destruct (parts_same _ _ _ _ _ _ _ _ _ _ _ _ G G' SD Hs Ht Q5 P5) as (N1 & N2 & N3 & N4 & N5 & N6 & N7 & N8 & N9 & N10 & N11).
  unfold cfg_of in Q6, P6. apply bindOk in Q6. destruct Q6 as (dk & Edk & Q6). rewrite Edk in P6. cbn [bind] in P6. apply Ok_inj in Q6, P6. cbn [with_src x_src x_extraNm] in Q6, P6.
  assert (EP : forall a b, powerSpectrumDensity cf p s a b = powerSpectrumDensity cf' p' t a b).
  { intros a b. subst cf cf'. unfold powerSpectrumDensity, psd_norm, psd_extra, psd_filtered, psd_mcao, psd_cone, psd_area, embed, inArea, isMcaoCone, isSLAO, nLO_.
    cbn [k_n k_r k_src k_nGs k_h k_addMcao k_wfe k_tiltOn k_wind k_extra k_ngsPos k_nLO k_loSum k_dk k_rad2nm andb negb Nat.eqb Nat.ltb Nat.leb].
    destruct (negb (embed_ok _ _)); [reflexivity|]. cbn [bind]. cbn [k_src k_wfe k_n k_r]. rewrite N1, N2, N3, N4, N5, N6, N7, N8. reflexivity. }
  destruct (src_map_inv _ _ _ Q7) as [L X]. destruct (src_map_inv _ _ _ P7) as [L' X']. specialize (X s Hs). specialize (X' t Ht). cbv beta in X, X'.
  rewrite (grid_res_ext _ _ (fun a b => powerSpectrumDensity cf' p' t a b) EP) in X. rewrite X in X'. apply Ok_inj in X'.
  split; [congruence|]. split; [first [exact En|reflexivity]|]. split; [first [exact Er|reflexivity]|]. split; [first [exact EA|reflexivity]|].
  assert (A1 : nth_error (r_psd r) s = Some (nth s (r_psd r) [])) by (apply nth_error_nth'; lia). assert (A2 : nth_error (r_psd r') t = Some (nth t (r_psd r') [])) by (apply nth_error_nth'; lia).
  destruct (mapMt_inv _ _ _ Q8) as [_ I]. destruct (mapMt_inv _ _ _ P8) as [_ I']. destruct (I _ _ A1) as (S & B1 & F1). destruct (I' _ _ A2) as (S' & B2 & F2).
  rewrite <- X' in F2. rewrite F1 in F2. apply Ok_inj in F2. subst S'.
  exists (nth s (r_psd r) []), S. split; [exact A1|]. split; [rewrite X'; exact A2|]. split; [exact B1|exact B2].
Qed.
Print Assumptions C141_source_alone.

(** The PSF stage: the image and the Strehl ratio of a source depend on its structure function only. *)
Lemma psf_star f f' add stored out out' st st' s t sf a b c : fourier_labels f -> fourier_labels f' ->
  i_spot (fm_inst f) = [a; b; c] -> i_spot (fm_inst f') = [a; b; c] -> i_trans (fm_inst f) = i_trans (fm_inst f') -> i_dispx (fm_inst f) = i_dispx (fm_inst f') -> i_dispy (fm_inst f) = i_dispy (fm_inst f') ->
  fm_n f = fm_n f' -> fm_kRef f = fm_kRef f' -> fm_fov f = fm_fov f' -> fm_nyq f = fm_nyq f' -> fm_base f = fm_base f' -> fm_static f = fm_static f' -> fm_dl f = fm_dl f' ->
  nth_error (fm_sfs f) s = Some sf -> nth_error (fm_sfs f') t = Some sf ->
  point_spread_function f add stored [] None = Ok (out, st) -> point_spread_function f' add stored [] None = Ok (out', st') ->
  List.length out = List.length out' /\
  forall j imgs srs imgs' srs', nth_error out j = Some (imgs, srs) -> nth_error out' j = Some (imgs', srs') ->
  exists im sr, nth_error imgs s = Some im /\ nth_error imgs' t = Some im /\ nth_error srs s = Some sr /\ nth_error srs' t = Some sr.
Proof.
  intros (La & Ld & Lj & Lw & Lt & Lx & Ly & Ls) (La' & Ld' & Lj' & Lw' & Lt' & Lx' & Ly' & Ls') Sp Sp' Tr Dx Dy En Ek Ef Eq Eb Est Edl N1 N2 H H'.
  destruct (psf_parts _ _ _ _ _ _ _ H) as (so & jit & Es & _ & Ej & _ & Eo). destruct (psf_parts _ _ _ _ _ _ _ H') as (so' & jit' & Es' & _ & Ej' & _ & Eo'). clear H H'.
  destruct (sort_defaults (fm_inst f) [] 0%nat None None) as (u & Eu & F1 & F2 & F3 & F4 & F5 & F6 & _).
  { unfold sort_atm. rewrite La. reflexivity. } { cbn. lia. } { congruence. } { congruence. } { congruence. }
  rewrite Es in Eu. apply Ok_inj in Eu. subst u.
  destruct (sort_defaults (fm_inst f') [] 0%nat None None) as (u & Eu & G1 & G2 & G3 & G4 & G5 & G6 & _).
  { unfold sort_atm. rewrite La'. reflexivity. } { cbn. lia. } { congruence. } { congruence. } { congruence. }
  rewrite Es' in Eu. apply Ok_inj in Eu. subst u.
  rewrite (F6 Lj) in Ej by (cbn; lia). rewrite (G6 Lj') in Ej' by (cbn; lia). rewrite Sp in Ej. rewrite Sp' in Ej'. cbn [jitter_of] in Ej, Ej'. apply Ok_inj in Ej. apply Ok_inj in Ej'. subst jit jit'.
  rewrite F5 in Eo. rewrite G5 in Eo'. unfold npx_of in Eo, Eo'. rewrite F1, F2, F3, F4, Ls in Eo. rewrite G1, G2, G3, G4, Ls' in Eo'.
  unfold chans_of, refresh in Eo, Eo'. rewrite <- En, <- Ek, <- Ef, <- Eq, <- Eb, <- Est, <- Edl, <- Tr, <- Dx, <- Dy, Lw', <- Eb in Eo'. rewrite Lw in Eo.
  set (ch := map _ (indexed 0 (fm_base f))) in Eo. change (map _ (indexed 0 (fm_base f))) with ch in Eo'.
  assert (Hs : (s < List.length (fm_sfs f))%nat) by (apply nth_error_Some; congruence). assert (Ht : (t < List.length (fm_sfs f'))%nat) by (apply nth_error_Some; congruence).
  destruct (psf4D_inv _ _ _ _ _ _ _ _ _ _ _ _ Eo) as [L I]. destruct (psf4D_inv _ _ _ _ _ _ _ _ _ _ _ _ Eo') as [L' I']. split; [congruence|].
  intros j imgs srs imgs' srs' O1 O2. assert (Hj : (j < List.length ch)%nat) by (rewrite <- L; apply nth_error_Some; congruence).
  destruct (nth_error ch j) as [cj|] eqn:Ec; [|apply nth_error_None in Ec; lia].
  destruct (I j cj Ec) as (y & i1 & s1 & Ey & Q1 & _ & _ & V). rewrite O1 in Q1. injection Q1 as <- <-. injection Ey as <-.
  destruct (I' j cj Ec) as (y & i1 & s1 & Ey & Q1 & _ & _ & V'). rewrite O2 in Q1. injection Q1 as <- <-. injection Ey as <-.
  destruct (V s sf N1) as (ph & p & q & q' & r0 & Fc & P1 & P2 & P3 & P4 & P5 & P6 & P7 & P8). destruct (V' t sf N2) as (ph' & p' & q2 & q2' & r0' & Fc' & R1 & R2 & R3 & R4 & R5 & R6 & R7 & R8).
  cbn [x_F x_dx x_dy x_bkg] in *. unfold shifted4 in P1, R1. cbn [x_F x_dx x_dy x_bkg] in P1, R1.
  assert (AN : forall (l : list R) n, (0 < n)%nat -> mat_any (repeat l n) = any_nonzero l).
  { intros l n Hn. unfold mat_any. destruct n as [|n]; [lia|]. clear Hn. cbn [repeat existsb]. destruct (any_nonzero l) eqn:El; [reflexivity|]. cbn [orb]. induction n as [|n IHn]; [reflexivity|]. cbn [repeat existsb]. rewrite El. exact IHn. }
  assert (RN : forall (l : list R) n k, (k < n)%nat -> nth_error (repeat l n) k = Some l) by (intros l n k Hk; apply nth_error_repeat; exact Hk).
  rewrite !AN in P1, R1 by lia.
  assert (EP : ph' = ph).
  { destruct (any_nonzero (i_dispx (fm_inst f)) || any_nonzero (i_dispy (fm_inst f)))%bool; [|congruence]. destruct P1 as (d & D1 & ->), R1 as (d' & D2 & ->). f_equal; f_equal.
    all: unfold shifts4 in D1, D2; cbn [x_dx x_dy] in D1, D2; destruct (1 <? List.length ch)%nat; [rewrite !RN in D1, D2 by lia; rewrite D1 in D2; apply Ok_inj in D2; congruence|].
    all: destruct (List.length (fm_sfs f)) as [|[|m]]; [lia| |cbn in D1; destruct (i_dispx (fm_inst f)) as [|? [|? ?]]; discriminate].
    all: destruct (List.length (fm_sfs f')) as [|[|m]]; [lia| |cbn in D2; destruct (i_dispx (fm_inst f)) as [|? [|? ?]]; discriminate].
    all: cbn in D1, D2; rewrite D1 in D2; apply Ok_inj in D2; congruence. }
  subst ph'. rewrite P2 in R2. apply Ok_inj in R2. subst p'. rewrite P7 in R7. apply Ok_inj in R7. subst r0'.
  assert (Hb : (j < List.length (fm_base f))%nat). { subst ch. rewrite map_length, indexed_length in Hj. exact Hj. }
  destruct (nth_error (i_trans (fm_inst f)) j) as [tr|] eqn:Et; [|apply nth_error_None in Et; lia].
  rewrite (column_repeat _ _ _ _ Et) in P3. rewrite (column_repeat _ _ _ _ Et) in R3. apply Ok_inj in P3, R3. subst Fc Fc'. rewrite per_repeat in P4 by lia. rewrite per_repeat in R4 by lia.
  rewrite P4 in R4. apply Ok_inj in R4. subst q2. rewrite P5 in R5. apply Ok_inj in R5. subst q2'.
  eexists. exists r0. split; [exact P6|]. split; [exact R6|]. split; [exact P8|exact R8].
Qed.

(** C141: with as many channels as transmittance and dispersion values, the images and the Strehl ratios of the two sources are the same too. *)
Theorem C141_images : forall w op tp x g g' r r' s t, source_ok g -> source_ok g' -> so_wvl g = so_wvl g' ->
  chain w op tp (with_src g x) = Ok r -> chain w op tp (with_src g' x) = Ok r' -> same_direction g s g' t ->
  camera_ok x (List.length (r_wvl r)) -> 0 < x_ps x -> 0 < x_D x -> (forall v, In v (r_wvl r) -> 0 < v) ->
  List.length (r_psf r) = List.length (r_psf r') /\
  forall j imgs srs imgs' srs', nth_error (r_psf r) j = Some (imgs, srs) -> nth_error (r_psf r') j = Some (imgs', srs') ->
  exists im sr, nth_error imgs s = Some im /\ nth_error imgs' t = Some im /\ nth_error srs s = Some sr /\ nth_error srs' t = Some sr.
Proof.
  intros w op tp x g g' r r' s t G G' EW H H' SD [Ct Cx Cy (a & b & c & Esp & _)] Pps PD WP.
  destruct (C141_source_alone w op tp x g g' r r' s t G G' EW H H' SD) as (Ew & En & _ & _ & P & S & _ & _ & S1 & S2).
  destruct (chain_inv _ _ _ _ _ H) as (fd & kcMax & res & dr & y & p & cf & st & Q0 & _ & _ & _ & _ & _ & _ & Q7 & Q8 & Q9 & Q10 & Q11 & Q12).
  destruct (chain_inv _ _ _ _ _ H') as (fd' & kcMax' & res' & dr' & y' & p' & cf' & st' & P0 & _ & _ & _ & _ & _ & _ & P7 & P8 & P9 & P10 & P11 & P12).
  clear H H'. cbn [with_src x_src x_nBin x_bw x_ps x_D x_nPix] in *. rewrite <- EW, Q0 in P0. apply Ok_inj in P0. subst fd'.
  rewrite Q10 in WP. destruct (fdomain_spec _ _ _ _ _ _ _ _ _ Q0 Pps PD WP) as (_ & _ & Lk & Lsm & _).
  assert (LB : List.length (base_of x fd) = List.length (r_wvl r)) by (unfold base_of; rewrite map_length, !combine_length, Lk, Lsm, Q10; lia).
  destruct (mapMt_inv _ _ _ Q8) as [M1 _]. destruct (mapMt_inv _ _ _ P8) as [M2 _]. destruct (src_map_inv _ _ _ Q7) as [M3 _]. destruct (src_map_inv _ _ _ P7) as [M4 _].
  change (base_of (with_src g x) fd) with (base_of x fd) in *. change (base_of (with_src g' x) fd) with (base_of x fd) in *.
  eapply (psf_star _ _ _ _ _ _ _ _ s t (px S) a b c); [ .. |exact Q9|exact P9]; try reflexivity; try exact Esp; try exact En.
  - unfold fourier_labels. cbn [fm_inst fm_base fm_sfs inst_of with_src x_src x_trans x_dispx x_dispy i_atm i_dphi i_jit i_wvl i_trans i_dispx i_dispy i_star]. rewrite LB, map_length. repeat split; congruence.
  - unfold fourier_labels. cbn [fm_inst fm_base fm_sfs inst_of with_src x_src x_trans x_dispx x_dispy i_atm i_dphi i_jit i_wvl i_trans i_dispx i_dispy i_star]. rewrite LB, map_length. repeat split; congruence.
  - cbn [fm_sfs]. rewrite nth_error_map, S1. reflexivity.
  - cbn [fm_sfs]. rewrite nth_error_map, S2. reflexivity.
Qed.
Print Assumptions C141_images.

(** The hypotheses of C141 hold for the system of C138_nonvacuous with its three sources and with its second source alone. *)
Definition ex_alone : source := mkSource [ex_lam; ex_lam; ex_lam] [10] [45] [0] 1 1.
Example C141_nonvacuous : source_ok (x_src ex_x) /\ source_ok ex_alone /\ so_wvl (x_src ex_x) = so_wvl ex_alone /\ same_direction (x_src ex_x) 1 ex_alone 0 /\
  camera_ok ex_x 1 /\ (exists r, chain ex_world (mkOptions 0 false false) ex_tp (with_src (x_src ex_x) ex_x) = Ok r /\ r_wvl r = [ex_lam]) /\
  (exists r, chain ex_world (mkOptions 0 false false) ex_tp (with_src ex_alone ex_x) = Ok r /\ r_wvl r = [ex_lam]).
Proof.
  destruct C138_nonvacuous as (PH & SM & CO & OO & r & H & W & _).
  split; [split; reflexivity|]. split; [split; reflexivity|]. split; [reflexivity|]. split; [exists 10, 45; repeat split; reflexivity|].
  split; [exact CO|]. split; [exists r; split; [exact H|exact W]|].
  assert (PH' : physical ex_world (mkOptions 0 false false) (with_src ex_alone ex_x)) by (destruct PH; split; assumption).
  assert (SM' : sampled ex_world (with_src ex_alone ex_x) ex_lam (1 / 2)).
  { destruct SM as [S1 S2 S3 S4 S5 S6 S7 S8 S9 S10 S11 S12 [S13 S14] S15]. split; try assumption. split; [split; reflexivity|exact S14]. }
  assert (CO' : camera_ok (with_src ex_alone ex_x) 1) by (destruct CO; split; assumption).
  assert (EO : over (with_src ex_alone ex_x) ex_lam = 1%Z) by exact ex_over.
  destruct (C138_defined ex_world 0 false ex_tp (with_src ex_alone ex_x) ex_lam (1 / 2) PH' SM' CO') as (r' & E & Ew & _); rewrite ?EO in *; cbn [with_src ex_x x_nPix] in *; try reflexivity; try exact OO.
  - cbn. lra.
  - cbn [ex_tp tp_dl]. unfold img_sum. cbn [rows cols px]. rewrite (rsum_ext 32 _ (fun _ => INR 32)). { rewrite rsum_const. apply Rmult_integral_contrapositive; split; apply not_0_INR; lia. } intros i _. rewrite rsum_const. ring.
  - exists r'. split; [exact E|exact Ew].
Qed.
