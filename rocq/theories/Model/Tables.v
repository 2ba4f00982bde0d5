(** Interpolating tables and data files: src/ContinuousMap.hpp,
    src/HDF5DataSet.hpp. *)
From Coq Require Import Bool String List ZArith NArith.
From Verif Require Import Model.Num Model.Outcome Model.Rng Model.Xml Model.Std Model.Point
  Model.Surface Model.Types.
Import ListNotations.
Local Open Scope string_scope.
Local Open Scope bool_scope.
Local Open Scope num_scope.
Local Open Scope outcome_scope.

Section Tables.
  Context {A : Arith}.

  (** ContinuousMap::at, ContinuousMap.hpp:20-56, for [d] levels of nesting: the
      nested case and the base case have the same shape, the value of level 0
      being the stored Real. An empty map dereferences [prev(end)]. The number of
      keys is checked by the C++ compiler; a mismatch here is reported as UB. *)
  Fixpoint cm_at (d : nat) : cmap A d -> list (num A) -> outcome (num A) :=
    match d return cmap A d -> list (num A) -> outcome (num A) with
    | O => fun v ks => match ks with [] => Ok v | _ => UB end
    | S d' => fun m ks =>
        match ks with
        | [] => UB
        | k :: inner =>
            match map_upper None k m with
            | (None, None) => UB
            | (Some (_, v), None) => cm_at d' v inner
            | (None, Some (_, v)) => cm_at d' v inner
            | (Some (k_lo, m_lo), Some (k_hi, m_hi)) =>
                let! v_hi := cm_at d' m_hi inner in
                let! v_lo := cm_at d' m_lo inner in
                Ok (v_lo + (v_hi - v_lo) / (k_hi - k_lo) * (k - k_lo))
            end
        end
    end.

  (** One level, which is all the transport code uses. *)
  Definition cm1_at (m : cmap A 1) (k : num A) : outcome (num A) := cm_at 1 m [k].

  (** CDF::Sample, ContinuousMap.hpp:92-95: dereferences [upper_bound]. *)
  Definition cdf_sample {V} (G : Rng A) (m : list (num A * V)) (s : rst G)
      : outcome (V * rst G) :=
    let (u, s') := runif G s in
    match map_upper None u m with
    | (_, Some (_, v)) => Ok (v, s')
    | (_, None) => UB
    end.

  (** ComputeAxisStrides, HDF5DataSet.hpp:132-148. [partial_sum] with
      [multiplies]; products are not reduced modulo 2^64. *)
  Fixpoint partial_products (acc : N) (l : list N) : list N :=
    match l with
    | [] => []
    | x :: t => (acc * x)%N :: partial_products (acc * x)%N t
    end.
  Definition axis_strides (axes : list (list (num A))) : list N :=
    let sizes := (map (fun a => N.of_nat (length a)) (tl axes) ++ [1%N])%list in
    rev (partial_products 1 (rev sizes)).

  Definition make_dataset (axes : list (list (num A))) (values : list (num A)) : dataset A :=
    mkDataset axes values (axis_strides axes).

  (** Constructor, HDF5DataSet.hpp:41-44 with ReadPandasAxis 87-116 and
      ReadPandasValues 118-130. The HDF5 library is [h5_file]. *)
  Definition dataset_load (X : Ext A) (d : nat) (path : string) : outcome (dataset A) :=
    match h5_file X path with
    | None => Throw ("File not found: " ++ path)
    | Some (axes, values) =>
        if Nat.eqb (length axes) d then Ok (make_dataset axes values)
        else Throw (path ++ ": Expected " ++ show_N (N.of_nat d) ++
                    " dimensions, but got " ++ show_N (N.of_nat (length axes)))
    end.

  (** at_from_base, HDF5DataSet.hpp:151-167. *)
  Fixpoint at_from_base (ds : dataset A) (base level : N) (indices : list N)
      : outcome (num A) :=
    match indices with
    | [] => UB
    | index :: inner =>
        let! axis := vec_at (ds_axes ds) level in
        if (N.of_nat (length axis) <=? index)%N then
          Throw ("Out-of-range (level, index): (" ++ show_N level ++ ", " ++
                 show_N index ++ ")")
        else
          match inner with
          | [] => vec_at (ds_values ds) (base + index)%N
          | _ =>
              let! stride := vec_at (ds_strides ds) level in
              at_from_base ds (base + index * stride)%N (level + 1)%N inner
          end
    end.

  (** at, HDF5DataSet.hpp:72-77; the number of indices is a static_assert. *)
  Definition ds_at (ds : dataset A) (indices : list N) : outcome (num A) :=
    if Nat.eqb (length indices) (length (ds_axes ds)) then at_from_base ds 0 0 indices
    else UB.

  (** GetAxis, HDF5DataSet.hpp:79-81: noexcept. *)
  Definition ds_axis (ds : dataset A) (level : N) : outcome (list (num A)) :=
    noexcept (vec_at (ds_axes ds) level).

  (** ToContinuousMap, HDF5DataSet.hpp:49-63. [d] levels remain and [outer] are
      the indices fixed so far; the loop over [index] inserts with
      [operator[]]. *)
  Fixpoint to_cmap (ds : dataset A) (d : nat) (outer : list N) : outcome (cmap A d) :=
    match d return outcome (cmap A d) with
    | O => ds_at ds outer
    | S d' =>
        let! keys := ds_axis ds (N.of_nat (length outer)) in
        (fix loop (i : N) (ks : list (num A)) (acc : list (num A * cmap A d'))
             : outcome (list (num A * cmap A d')) :=
           match ks with
           | [] => Ok acc
           | k :: t =>
               let! v := to_cmap ds d' (outer ++ [i])%list in
               loop (i + 1)%N t (map_set k v acc)
           end) 0%N keys []
    end.

  Definition ds_to_map (ds : dataset A) : outcome (cmap A (length (ds_axes ds))) :=
    to_cmap ds (length (ds_axes ds)) [].

  (** [HDF5DataSet<1>{path}.ToContinuousMap()] *)
  Definition load_map1 (X : Ext A) (path : string) : outcome (cmap A 1) :=
    let! ds := dataset_load X 1 path in
    to_cmap ds 1 [].
End Tables.
