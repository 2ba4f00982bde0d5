(** Free-gas scattering in the terms of mechanics. *)
From Coq Require Import Reals.
From Verif Require Import Model.Num Spec.Vec Spec.ContinuousSpec.
Local Open Scope R_scope.

(** The neutron mass in the code's units. *)
Definition m_n : R := 1045354912280858 / 10 ^ 33.

(** Speed of a neutron of energy [E]. *)
Definition speed (E : R) : R := sqrt (2 * E / m_n).

(** Inverse of the most probable speed of a nucleus of mass [awr] at temperature [T]. *)
Definition inverse_speed (awr T : R) : R := sqrt (awr * m_n / (2 * k_B * T)).

(** Velocity of the centre of mass of a neutron and a nucleus [awr] times as heavy. *)
Definition centre_of_mass (awr : R) (v w : vec) : vec :=
  vscale (/ (1 + awr)) (vadd v (vscale awr w)).

(** An elastic collision: neutron velocity [v] and nucleus velocity [w] before,
    [v'] and [w'] after, with cosine [mu_cm] in the centre-of-mass frame. *)
Record elastic (awr : R) (v w v' w' : vec) (mu_cm : R) : Prop := mkElastic {
  el_momentum : vadd v (vscale awr w) = vadd v' (vscale awr w');
  el_energy : dot v v + awr * dot w w = dot v' v' + awr * dot w' w';
  el_speed : dist v' (centre_of_mass awr v w) = dist v (centre_of_mass awr v w);
  el_cosine : dot (vsub v (centre_of_mass awr v w)) (vsub v' (centre_of_mass awr v w))
              = mu_cm * (dist v (centre_of_mass awr v w) * dist v (centre_of_mass awr v w))
}.

(** The reduced target speed sampled from uniform numbers, for a neutron of
    reduced speed [y]. *)
Definition target_speed (y xi1 xi2 test xi3 : R) : R :=
  if Rlt_dec test (2 / (sqrt PI * y + 2)) then sqrt (- ln (xi1 * xi2))
  else sqrt (- ln xi1 - ln xi2 * (cos (PI * xi3 / 2) * cos (PI * xi3 / 2))).

(** Reduced relative speed over the sum of the reduced speeds. *)
Definition acceptance (x y mu : R) : R := sqrt (x * x + y * y - 2 * x * y * mu) / (x + y).
