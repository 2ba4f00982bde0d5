(** Multigroup data written in binary64 and their exact values. *)
From Coq Require Import Bool String List Reals ZArith NArith SpecFloat.
From Verif Require Import Model.Num Model.Outcome Model.Xml Model.Types Model.Rng Model.Point
  Model.Particle Spec.SumSpec Spec.DoubleSpec Spec.MultigroupSpec.
Import ListNotations.
Local Open Scope string_scope.
Local Open Scope R_scope.

Section Doubles.
  Context {L : Libm} (X : Ext (F64 L)) (n : node).

  (** The matrix [c] at outgoing group [h], incoming group [g]; the sum of column [g], and
      of its entries above row [h]. All exact. *)
  Definition weight64 (c : node) (h g : N) : R :=
    value (matrix_entry X c (written_groups X n) h g).
  Definition column_sum64 (c : node) (g : N) : R :=
    Rsum (map (fun h => weight64 c h g) (groups (written_groups X n))).
  Definition column_below64 (c : node) (h g : N) : R :=
    Rsum (map (fun h' => weight64 c h' g) (groups (h - 1))).

  (** The exact cross section of a reaction at incoming group [g]; zero if not listed. *)
  Definition sigma64 (r : reaction) (g : N) : R :=
    match r with
    | Rcapture => if is_null (n_child n "capture") then 0
                  else value (vector_entry X (n_child n "capture") g)
    | Rscatter => if is_null (scatter_node n) then 0 else column_sum64 (scatter_node n) g
    | Rfission => if is_null (fission_node n) then 0
                  else value (vector_entry X (n_child (fission_node n) "xs") g)
    end.

  (** Non-negative doubles, none larger than [most]. *)
  Definition doubles_up_to (most : R) (c : node) : Prop :=
    List.Forall (fun x : spec_float => is_double x /\ finite x /\ 0 <= value x <= most) (numbers X c).

  (** Non-negative data throughout; a fission element has its parts; average yields are
      at most 2^16 and there are at most 2^16 groups. *)
  Record sensible_doubles : Prop := mkSensible64 {
    s64_data : forall c, In c [n_child n "capture"; scatter_node n; n_child (fission_node n) "xs";
                               chi_node n] -> c <> None -> doubles_up_to (powerRZ 2 900) c;
    s64_fission : fission_node n <> None -> nubar_node n <> None /\ chi_node n <> None;
    s64_yield : nubar_node n <> None -> doubles_up_to (powerRZ 2 16) (nubar_node n);
    s64_groups : (written_groups X n <= 65536)%N
  }.
End Doubles.

(** One part in 2^34. *)
Definition slack : R := powerRZ 2 (-34).

(** A neutron of group [h] born where [parent] collided. *)
Record begun_at {A : Arith} {G : Rng A} (parent child : particle A G) (h : N) : Prop := mkBegun {
  bg_position : p_position child = p_position parent;
  bg_cell : p_cell child = p_cell parent;
  bg_energy : p_energy child = Group h;
  bg_type : p_type child = neutron;
  bg_alive : is_alive child = true;
  bg_drawn : exists s, p_direction child = fst (dir_isotropic G s)
             /\ p_rng child = rseed G (fst (rraw G (snd (dir_isotropic G s))))
}.
