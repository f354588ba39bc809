(** Specification vocabulary for tomography. *)
From Coq Require Import Reals List Arith ZArith Bool.
From Verif Require Import Base_Py Base_Sum M_Tools M_Freq M_Atmo M_Sensor M_Model S_Model M_Tomo.
From Coquelicot Require Import Complex.
Import ListNotations.
Open Scope R_scope.

(** What sensor [g] measures, at one spatial frequency, of a phase of amplitude 1 in the
    layer at altitude [h]: the gradient 2 i pi |k|, the averaging over the sub-aperture
    and the shift of the footprint of the guide star at that altitude. *)
Definition sees (s : gstar) (kx ky h : R) : C :=
  Cmult (Cmult (0, 2 * PI * sqrt (kx ^ 2 + ky ^ 2)) (RtoC (sinc (g_d s * kx) * sinc (g_d s * ky))))
        (cis (2 * PI * h * (kx * g_x s + ky * g_y s))).
(** Mean square error on the combination sum_l p_l phi_l of the layers when it is
    estimated by sum_g q_g s_g from the measurements s_g = sum_l sees(g,l) phi_l + n_g:
    layers uncorrelated of variances c_l, noise of covariance N (real). *)
Definition est_error (nl ng : nat) (c : nat -> R) (G : nat -> nat -> C) (N : nat -> nat -> R) (p q : nat -> C) : R :=
  rsum nl (fun l => c l * cnorm2 (Cminus (csum ng (fun g => Cmult (q g) (G g l))) (p l))) +
  rsum ng (fun a => rsum ng (fun b => N a b * (fst (q a) * fst (q b) + snd (q a) * snd (q b)))).
(** Variance of the same combination of the layers. *)
Definition prior_var (nl : nat) (c : nat -> R) (p : nat -> C) : R := rsum nl (fun l => c l * cnorm2 (p l)).
(** The noise covariance of the reconstructor. *)
Definition noise_cov (t : tomo) (a b : nat) : R :=
  if (length (t_noise t) =? nGs t)%nat then (if (a =? b)%nat then nth a (t_noise t) 0 else 0) else nth 0 (t_noise t) 0.
(** numpy.linalg: a solution of A X = B when there is one; a generalised inverse. *)
Definition solves (solve : nat -> nat -> mat -> mat -> option mat) : Prop := forall n m A B X, solve n m A B = Some X ->
  forall a b, (a < n)%nat -> (b < m)%nat -> csum n (fun k => Cmult (A a k) (X k b)) = B a b.
Definition gen_inverse (pinv : nat -> mat -> mat) : Prop := forall n A a b, (a < n)%nat -> (b < n)%nat ->
  csum n (fun k => Cmult (csum n (fun r => Cmult (A a r) (pinv n A r k))) (A k b)) = A a b.
(** A meaningful tomographic system: weights of the layers and noise variances
    non-negative, one noise variance per guide star or a single one, and the modelled
    atmosphere has the weights of the true one when it has as many layers. *)
Definition valid_tomo (t : tomo) : Prop :=
  valid_sys (t_y t) /\ (forall l, In l (t_lay t) -> 0 <= tl_w l) /\ (forall m, In m (t_mod t) -> 0 <= fst m) /\
  (forall v, In v (t_noise t) -> 0 <= v) /\ t_noise t <> [] /\ (length (t_noise t) = nGs t \/ length (t_noise t) = 1%nat) /\
  (nLmod t = nL t -> map fst (t_mod t) = map tl_w (t_lay t)).
(** Effect of mirror [m] (altitude, cut-off) on the phase seen in direction (bx, by). *)
Definition mirror_sees (m : mirror) (kx ky bx by' : R) : C :=
  if Rle_dec (sqrt (kx ^ 2 + ky ^ 2)) (d_kc m) then cis (2 * PI * d_h m * (bx * kx + by' * ky)) else RtoC 0.
(** Time average of what sensor [s] measures of a moving layer during [T] seconds, at the
    middle of the exposure. *)
Definition sees_moving (s : gstar) (l : tlay) (kx ky T : R) : C :=
  let f := cos (tl_dir l * PI / 180) * kx + sin (tl_dir l * PI / 180) * ky in
  Cmult (RtoC (sinc (T * g_clock s * tl_v l * f))) (sees s kx ky (tl_h l)).
(** What remains, in direction (bx, by), of layer [l] after the mirrors have received the
    commands [W] applied to the measurements; the correction applies after a delay of
    [lag] seconds, during which the layer moves. *)
Definition left_over (t : tomo) (W : nat -> nat -> C) (kx ky bx by' T lag : R) (l : tlay) : C :=
  let f := cos (tl_dir l * PI / 180) * kx + sin (tl_dir l * PI / 180) * ky in
  Cminus (cis (2 * PI * (tl_h l * (bx * kx + by' * ky) - lag * tl_v l * f)))
    (csum (nDm t) (fun m => Cmult (mirror_sees (dm_ t m) kx ky bx by') (csum (nGs t) (fun g => Cmult (W m g) (sees_moving (gs_ t g) l kx ky T))))).
(** Combination of the measurements that the mirrors put in direction (bx, by). *)
Definition commands (t : tomo) (W : nat -> nat -> C) (kx ky bx by' : R) (g : nat) : C :=
  csum (nDm t) (fun m => Cmult (mirror_sees (dm_ t m) kx ky bx by') (W m g)).
(** Variance of a combination of the noises. *)
Definition noise_var (t : tomo) (q : nat -> C) : R :=
  rsum (nGs t) (fun a => rsum (nGs t) (fun b => noise_cov t a b * (fst (q a) * fst (q b) + snd (q a) * snd (q b)))).
(** Phase, in the direction of optimisation [o], of mirrors with commands [x], and of the
    layers with amplitudes [f]. *)
Definition mirrors_in (t : tomo) (o : odir) (i j : nat) (x : nat -> C) : C :=
  csum (nDm t) (fun m => Cmult (mirror_sees (dm_ t m) (kxAO (t_y t) i j) (kyAO (t_y t) i j) (o_x o) (o_y o)) (x m)).
Definition layers_in (t : tomo) (o : odir) (i j : nat) (f : nat -> C) : C :=
  csum (nLmod t) (fun l => Cmult (cis (2 * PI * snd (mod_ t l) * (o_x o * kxAO (t_y t) i j + o_y o * kyAO (t_y t) i j))) (f l)).
(** Commands given by the projector to the mirrors for layers of amplitudes [f]. *)
Definition projected (t : tomo) (P : nat -> nat -> C) (f : nat -> C) (m : nat) : C := csum (nLmod t) (fun l => Cmult (P m l) (f l)).
