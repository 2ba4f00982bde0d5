(** Thermal scattering data in the terms of a reader of the input files. *)
From Coq Require Import List Reals NArith.
From Verif Require Import Model.Num Model.Outcome Model.Types Model.Tables Spec.BinsSpec
  Spec.SumSpec Spec.TablesSpec Spec.ContinuousSpec.
Import ListNotations.
Local Open Scope R_scope.

(** A data set with the given axes that holds the number [f is] at indices [is]. *)
Definition array (ds : dataset XRa) (axes : list (list R)) (f : list N -> R) : Prop :=
  ds_axes ds = map (map Fin) axes
  /\ forall is, in_shape (shape_of axes) is -> ds_at ds is = Ok (Fin (f is) : num XRa).

(** The indices 0 .. n-1. *)
Definition indices (n : nat) : list N := map N.of_nat (seq 0 n).

(** The tables of the total cross section have energies [Es] and temperatures [Ts],
    and their expansion adds up to [V i j] at the i-th energy and j-th temperature. *)
Definition cross_section_grid (t : thermal XRa) (Es Ts : list R) (V : nat -> nat -> R) : Prop :=
  exists orders orders' orders'' s e x,
    length orders' = length orders /\ length orders'' = length orders
    /\ (N.of_nat (length Es) < 2 ^ 64)%N /\ (N.of_nat (length Ts) < 2 ^ 64)%N
    /\ array (th_xs_S t) [orders] s
    /\ array (th_xs_E t) [Es; orders'] e
    /\ array (th_xs_T t) [Ts; orders''] x
    /\ forall i j, V i j = Rsum (map (fun o => s [o] * e [N.of_nat i; o] * x [N.of_nat j; o])
                                   (indices (length orders))).

(** [y] is obtained from the values [f i] at the points of the axis [l] by linear
    interpolation between neighbours and by the nearest value outside. *)
Inductive interpolated (l : list R) (f : nat -> R) (x : R) : R -> Prop :=
  | in_below : l <> [] -> x < nth 0 l 0 -> interpolated l f x (f O)
  | in_between i : (S i < length l)%nat -> nth i l 0 <= x < nth (S i) l 0 ->
      interpolated l f x (chord (nth i l 0) (f i) (nth (S i) l 0) (f (S i)) x)
  | in_above : l <> [] -> last l 0 <= x -> interpolated l f x (f (length l - 1)%nat).

(** The documented choice of grid point for [x] between neighbours [lo] and [hi]:
    the probability of the upper one. *)
Definition upper_probability (lo hi x : R) : R := (x - lo) / (hi - lo).

(** The grid value [hi] of beta is out of reach, beyond the highest tabulated beta or
    below that which takes all of the neutron's energy [E]. *)
Definition snapped (t : thermal XRa) (b E T hi : R) : Prop :=
  (0 < b /\ nleb XRa (th_beta_cutoff t) (Fin hi) = true) \/ (b < 0 /\ E < hi * k_B * T).

(** Kinematic limits of the momentum transfer for a neutron of energy [E] that
    leaves with energy [E']. *)
Definition alpha_min (awr T E E' : R) : R := (sqrt E - sqrt E') ^ 2 / (awr * k_B * T).
Definition alpha_max (awr T E E' : R) : R := (sqrt E + sqrt E') ^ 2 / (awr * k_B * T).

(** Scattering cosine that belongs to a momentum transfer. *)
Definition thermal_cosine (awr T E E' alpha : R) : R :=
  (E + E' - alpha * awr * k_B * T) / (2 * sqrt (E * E')).

(** A partition of the tables of sampled values: cumulative probabilities [Fs], its
    part [grid] of the grid of energies or betas and temperatures [Ts]. The expansion
    adds up to [W i k j] at the i-th probability, k-th grid point and j-th temperature. *)
Definition partition_table (pa : partition XRa) (Fs grid Ts : list R)
    (W : nat -> nat -> nat -> R) : Prop :=
  exists orders orders' orders'' c s g,
    length orders' = length orders /\ length orders'' = length orders
    /\ (N.of_nat (length Ts) < 2 ^ 64)%N /\ (N.of_nat (length Fs) < 2 ^ 64)%N
    /\ array (pa_cdf pa) [Fs; orders'] c
    /\ array (pa_singular pa) [orders] s
    /\ array (pa_grid pa) [grid; Ts; orders''] g
    /\ forall i k j, (i < length Fs)%nat -> (k < length grid)%nat -> (j < length Ts)%nat ->
       W i k j = Rsum (map (fun o => s [o] * c [N.of_nat i; o] * g [N.of_nat k; N.of_nat j; o])
                           (indices (length orders))).

(** Such a partition with increasing temperatures. *)
Definition sound_partition (pa : partition XRa) (grid Ts : list R) : Prop :=
  (exists Fs W, partition_table pa Fs grid Ts W) /\ increasing Ts /\ Ts <> [].

(** Number of grid points up to and including each partition. *)
Fixpoint ends_of (n : N) (grids : list (list R)) : list N :=
  match grids with
  | [] => []
  | g :: t => (n + N.of_nat (length g))%N :: ends_of (n + N.of_nat (length g)) t
  end.

(** Partitions whose grids, put one after the other, are an increasing grid. *)
Record sound_partitions (ps : list (partition XRa)) (grid : list (num XRa)) (ends : list N)
    (grids : list (list R)) : Prop := mkSoundParts {
  sp_each : Forall2 (fun pa g => exists Ts, sound_partition pa g Ts) ps grids;
  sp_grid : grid = map Fin (concat grids);
  sp_ends : ends = ends_of 0 grids;
  sp_increasing : increasing (concat grids);
  sp_size : (N.of_nat (length (concat grids)) < 2 ^ 64)%N;
  sp_count : (N.of_nat (length ps) < 2 ^ 64)%N
}.

(** The partitions [ps], one after the other, hold the whole grid [whole]: the i-th of
    its points is a point [local] of the grid of a partition [pa], where [i] counts the
    points of the partitions before it. *)
Definition holds_point {A : Arith} (ps : list (partition A)) (whole : list (num A))
    (i : nat) (pa : partition A) (local : nat) : Prop :=
  exists before after earlier axis,
    ps = (before ++ pa :: after)%list
    /\ Forall2 (fun x a => ds_axis (pa_grid x) 0 = Ok a) before earlier
    /\ ds_axis (pa_grid pa) 0 = Ok axis
    /\ i = (length (concat earlier) + local)%nat /\ (local < length axis)%nat
    /\ nth_error whole i = nth_error axis local.

(** A distribution given by points: [xs] and [ys] completed by a first and a last point,
    joined by straight lines. *)
Definition joined (xs ys : list R) (x y : R) : Prop :=
  exists j, (S j < length xs)%nat /\ nth j xs 0 <= x < nth (S j) xs 0
    /\ y = chord (nth j xs 0) (nth j ys 0) (nth (S j) xs 0) (nth (S j) ys 0) x.

(** The values of a partition at the k-th point of its grid and a temperature between
    the tabulated ones. *)
Definition values_at (W : nat -> nat -> nat -> R) (Fs Ts : list R) (k : nat) (T : R)
    (vs : list R) : Prop :=
  length vs = length Fs
  /\ forall i, (i < length Fs)%nat -> interpolated Ts (W i k) T (nth i vs 0).
