(** Specification vocabulary for the Fourier model. *)
From Coq Require Import Reals List Arith ZArith String.
From Verif Require Import Base_Py M_Tools S_Tools M_Freq M_Atmo S_Atmo M_Sensor M_Model.
From Coquelicot Require Import Complex.
Import ListNotations.
Open Scope R_scope.

(** A physically meaningful system: positive cut-off, r0, wavelengths and finite
    outer scale, non-negative layer weights and noise variances. *)
Definition valid_sys (y : fsys) : Prop :=
  0 < y_kcMax y /\ special_pos (y_sp y) /\ 0 < a_r0 (y_atm y) /\ 0 < a_wvl (y_atm y) /\ 0 < y_gswvl y /\
  (exists L, 0 < L /\ a_L0 (y_atm y) = LNum (Fin L)) /\
  (forall l, In l (y_layers y) -> 0 <= l_w l) /\ y_noise y <> [] /\ (forall v, In v (y_noise y) -> 0 <= v).
(** Sum of the layer weights. *)
Definition weight_sum (y : fsys) : R := total (map l_w (y_layers y)).
(** Squared modulus of a complex number. *)
Definition cnorm2 (c : C) : R := fst c ^ 2 + snd c ^ 2.
(** Mean square error of an arbitrary linear reconstruction (rx, ry) of the phase
    from the two measurements sx*phi, sy*phi: phase of variance W, noise of
    variance N on each measurement. *)
Definition mse (sx sy rx ry : C) (W N : R) : R :=
  cnorm2 (Cminus (RtoC 1) (Cplus (Cmult rx sx) (Cmult ry sy))) * W + N * (cnorm2 rx + cnorm2 ry).
(** The same system with another list of layers. *)
Definition with_layers (y : fsys) (ls : list lay) : fsys :=
  mkSys (y_res y) (y_step y) (y_off y) (y_kcMax y) (y_circle y) (y_D y) (y_j1 y) (y_sp y) (y_atm y) ls
    (y_type y) (y_dsub y) (y_nL y) (y_mod y) (y_bin y) (y_clock y) (y_noise y) (y_gswvl y) (y_gain y) (y_rate y) (y_delay y).
(** Two descriptions of the same turbulence: the layers are the same up to order,
    splitting of a layer into several at the same altitude and wind, and layers of
    null weight. *)
Inductive same_turbulence : list lay -> list lay -> Prop :=
| st_refl l : same_turbulence l l
| st_swap a b l : same_turbulence (a :: b :: l) (b :: a :: l)
| st_cons a l l' : same_turbulence l l' -> same_turbulence (a :: l) (a :: l')
| st_split w w' h vx vy l : same_turbulence (mkLay (w + w') h vx vy :: l) (mkLay w h vx vy :: mkLay w' h vx vy :: l)
| st_null h vx vy l : same_turbulence l (mkLay 0 h vx vy :: l)
| st_sym l l' : same_turbulence l l' -> same_turbulence l' l
| st_trans l l' l'' : same_turbulence l l' -> same_turbulence l' l'' -> same_turbulence l l''.
