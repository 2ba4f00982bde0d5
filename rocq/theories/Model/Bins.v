(** Bin structures: src/Bins.cpp, src/Bins.hpp. *)
From Coq Require Import Bool String List ZArith NArith.
From Verif Require Import Model.Num Model.Outcome Model.Rng Model.Xml Model.Std Model.Point
  Model.Surface Model.Types.
Import ListNotations.
Local Open Scope string_scope.
Local Open Scope bool_scope.
Local Open Scope num_scope.

(** Concrete bins with the values their constructors store. *)
Inductive bins (A : Arith) : Type :=
  | NoBins
  | LinspaceBins (n_bins : N) (lower_bound upper_bound bin_width : num A)
  | LogspaceBins (n_bins : N) (base log_lower log_upper log_bin_width : num A)
  | BoundaryBins (boundaries : list (num A)).
Arguments NoBins {A}.
Arguments LinspaceBins {A} n_bins lower_bound upper_bound bin_width.
Arguments LogspaceBins {A} n_bins base log_lower log_upper log_bin_width.
Arguments BoundaryBins {A} boundaries.

Section Bins.
  Context {A : Arith}.

  (** LinspaceBins constructor, Bins.cpp:57-68. [bins] is the attribute. *)
  Definition make_linspace (path : string) (nb : N) (lo hi : num A) : outcome (bins A) :=
    let n_bins := wrap64 (nb + 2) in
    if hi <=? lo then Throw (path ++ ": max must be strictly greater than min")
    else Ok (LinspaceBins n_bins lo hi ((hi - lo) / nofN (sub64 n_bins 2))).

  (** LogspaceBins constructor, Bins.cpp:96-108 *)
  Definition make_logspace (path : string) (nb : N) (base lo hi : num A) : outcome (bins A) :=
    let n_bins := wrap64 (nb + 2) in
    if hi <=? lo then Throw (path ++ ": max must be strictly greater than min")
    else Ok (LogspaceBins n_bins base lo hi ((hi - lo) / nofN (sub64 n_bins 2))).

  (** The loop of the BoundaryBins constructor, Bins.cpp:144-152 *)
  Fixpoint check_boundaries (show : num A -> string) (path : string) (prev : num A)
      (l : list (num A)) : outcome (list (num A)) :=
    match l with
    | [] => Ok []
    | b :: t =>
        if b <=? prev then
          Throw (path ++ ": nonincreasing elements found: " ++ show prev ++ " " ++ show b)
        else bind (check_boundaries show path b t) (fun r => Ok (b :: r))
    end.

  (** BoundaryBins constructor, Bins.cpp:138-154 *)
  Definition make_boundaries (show : num A -> string) (path : string) (l : list (num A))
      : outcome (bins A) :=
    bind (check_boundaries show path (- ninf A) l) (fun r => Ok (BoundaryBins r)).

  (** size: Bins.cpp:47, 70, 110, 156 *)
  Definition bins_size (b : bins A) : N :=
    match b with
    | NoBins => 1
    | LinspaceBins n _ _ _ => n
    | LogspaceBins n _ _ _ _ => n
    | BoundaryBins l => N.of_nat (length l) + 1
    end%N.

  (** [std::upper_bound] over a vector. *)
  Definition upper_bound (v : num A) (l : list (num A)) : outcome nat :=
    upper_bound_gen (fun i => match nth_error l i with
                              | Some x => Ok (v <? x)
                              | None => UB
                              end) (length l).

  (** The float-to-size_t conversion of a returned index; undefined behaviour
      when out of range. *)
  Definition to_index (x : num A) : outcome N :=
    match ntoN A x with Some n => Ok n | None => UB end.

  (** GetIndex: Bins.cpp:49, 72-82, 112-123, 158-162 *)
  Definition bins_index (b : bins A) (v : num A) : outcome N :=
    match b with
    | NoBins => Ok 0%N
    | LinspaceBins n lo hi w =>
        if v <? lo then Ok 0%N
        else if v >=? hi then Ok (sub64 n 1)
        else to_index ((v - lo) / w + #1)
    | LogspaceBins n base lo hi w =>
        let log_v := nlog A v / nlog A base in
        if log_v <? lo then Ok 0%N
        else if log_v >=? hi then Ok (sub64 n 1)
        else to_index ((log_v - lo) / w + #1)
    | BoundaryBins l => bind (upper_bound v l) (fun i => Ok (N.of_nat i))
    end.

  (** The boundaries printed by to_string, Bins.cpp:84-90, 125-132, 164-170
      (numbers only, not their formatting). *)
  Definition bins_boundaries (b : bins A) : list (num A) :=
    match b with
    | NoBins => []
    | LinspaceBins n lo _ w =>
        map (fun i => lo + nofZ A (Z.of_nat i) * w) (seq 0 (N.to_nat (n - 1)))
    | LogspaceBins n base lo _ w =>
        map (fun i => npow A base (lo + nofZ A (Z.of_nat i) * w)) (seq 0 (N.to_nat (n - 1)))
    | BoundaryBins l => l
    end.

  (** Bins::Create, Bins.cpp:20-39. An unknown name returns a null pointer after
      the (disabled) assert and dereferencing it is undefined. *)
  Definition bins_create (X : Ext A) (n : node) : outcome (bins A) :=
    let ty := n_name n in
    if String.eqb ty "" then Ok NoBins
    else if String.eqb ty "linspace" then
      make_linspace (n_path n) (as_ullong X (n_attr n "bins"))
        (as_double X (n_attr n "min")) (as_double X (n_attr n "max"))
    else if String.eqb ty "logspace" then
      make_logspace (n_path n) (as_ullong X (n_attr n "bins"))
        (as_double_def X (n_attr n "base") (#10))
        (as_double X (n_attr n "min")) (as_double X (n_attr n "max"))
    else if String.eqb ty "boundaries" then
      make_boundaries (show_real X) (n_path n) (to_reals X (n_text n))
    else UB.

  (** ParticleBins, src/Bins.hpp:100-170: members. *)
  Record particle_bins : Type := mkPBins {
    pb_direction : option (point A);
    pb_cosine : bins A;
    pb_energy : bins A;
    pb_stride : N                       (* strides[0]; strides[1] is 1 *)
  }.

  (** ComputeStrides for two bins, Bins.hpp:151-166: the stride of a bin is
      the product of the sizes of those after it. *)
  Definition make_pbins (d : option (point A)) (c e : bins A) : particle_bins :=
    mkPBins d c e (bins_size e).

  (** ParticleBins constructor, Bins.cpp:176-190; noexcept. *)
  Definition pbins_create (X : Ext A) (n : node) : outcome particle_bins :=
    let cosine_node := n_child n "cosine" in
    let direction :=
      if is_null cosine_node then None
      else Some (dir_xyz (as_double X (n_attr cosine_node "u"))
                         (as_double X (n_attr cosine_node "v"))
                         (as_double X (n_attr cosine_node "w"))) in
    noexcept
      (bind (bins_create X (n_first_child cosine_node)) (fun c =>
       bind (bins_create X (n_first_child (n_child n "energy"))) (fun e =>
       Ok (make_pbins direction c e)))).

  (** ParticleBins::size, Bins.cpp:192-194 *)
  Definition pbins_size (b : particle_bins) : N :=
    wrap64 (bins_size (pb_cosine b) * pb_stride b).

  (** VisitEnergy, Bins.hpp:146-149: a group is converted to Real. *)
  Definition visit_energy (e : energy A) : num A :=
    match e with ContinuousE x => x | Group g => nofN g end.

  (** ParticleBins::GetIndex, Bins.cpp:196-204, on a particle's direction and
      energy. *)
  Definition pbins_index (b : particle_bins) (dir : point A) (en : energy A) : outcome N :=
    bind (match pb_direction b with
          | Some d => bins_index (pb_cosine b) (pdot d dir)
          | None => Ok 0%N
          end) (fun c_i =>
    bind (bins_index (pb_energy b) (visit_energy en)) (fun e_i =>
    Ok (wrap64 (pb_stride b * c_i + e_i)))).
End Bins.
Arguments particle_bins A : clear implicits.
