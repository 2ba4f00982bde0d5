(** Multigroup data as written in an input document. *)
From Coq Require Import Bool String List Reals NArith.
From Verif Require Import Model.Num Model.Outcome Model.Xml Model.Types Spec.SumSpec.
Import ListNotations.
Local Open Scope string_scope.

Section Written.
  Context {A : Arith} (X : Ext A).

  (** The number of groups G: attribute [groups] of minimc/nuclides/multigroup in
      the document that [n] belongs to. *)
  Definition written_groups (n : node) : N :=
    as_uint X (n_attr (n_child (n_child (n_child (n_root n) "minimc") "nuclides")
                               "multigroup") "groups").

  (** The numbers written in an element. *)
  Definition numbers (c : node) : list (num A) := to_reals X (n_text c).

  (** Entry of a list with one number per group; groups count from 1. *)
  Definition vector_entry (c : node) (g : N) : num A :=
    nth (N.to_nat (g - 1)) (numbers c) (nofZ A 0).

  (** Entry of a matrix written row by row: row [h] is the outgoing group, column
      [g] the incoming group. *)
  Definition matrix_entry (c : node) (G h g : N) : num A :=
    nth (N.to_nat (G * (h - 1) + (g - 1))) (numbers c) (nofZ A 0).

  (** Groups 1, ..., G. *)
  Definition groups (G : N) : list N := map N.of_nat (seq 1 (N.to_nat G)).

  (** Sum from left to right, starting at zero. *)
  Definition sum_left (l : list (num A)) : num A := fold_left (nadd A) l (nofZ A 0).

  Definition present {V} (n : node) (v : V) : option V := if is_null n then None else Some v.

  (** The cross section written for a reaction at incoming group [g], if the
      particle node lists that reaction. *)
  Definition written_xs (n : node) (r : reaction) (g : N) : option (num A) :=
    match r with
    | Rcapture => present (n_child n "capture") (vector_entry (n_child n "capture") g)
    | Rscatter =>
        present (n_child n "scatter")
          (sum_left (map (fun h => matrix_entry (n_child n "scatter") (written_groups n) h g)
                         (groups (written_groups n))))
    | Rfission =>
        present (n_child n "fission") (vector_entry (n_child (n_child n "fission") "xs") g)
    end.

  Definition somes {V} (l : list (option V)) : list V :=
    flat_map (fun o => match o with Some v => [v] | None => [] end) l.
End Written.

Definition real_of (x : xr) : R := match x with Fin r => r | _ => 0%R end.

Section Real.
  Context (X : Ext XRa) (n : node).

  (** Cross section of a reaction at incoming group [g]; zero if not listed. *)
  Definition sigma (r : reaction) (g : N) : R :=
    match written_xs X n r g with Some x => real_of x | None => 0%R end.

  (** The matrix [c] at outgoing group [h], incoming group [g]. *)
  Definition weight (c : node) (h g : N) : R :=
    real_of (matrix_entry X c (written_groups X n) h g).
  (** Sum of column [g], and of its entries above row [h]. *)
  Definition column_sum (c : node) (g : N) : R :=
    Rsum (map (fun h => weight c h g) (groups (written_groups X n))).
  Definition column_below (c : node) (h g : N) : R :=
    Rsum (map (fun h' => weight c h' g) (groups (h - 1))).

  (** Every number written in an element is a non-negative real. *)
  Definition nonneg_numbers (c : node) : Prop :=
    Forall (fun x => exists r, x = Fin r /\ (0 <= r)%R) (numbers X c).

  Definition scatter_node : node := n_child n "scatter".
  Definition fission_node : node := n_child n "fission".
  Definition nubar_node : node := n_child fission_node "nubar".
  Definition chi_node : node := n_child fission_node "chi".

  (** Non-negative data throughout; a fission element has its three parts; average
      yields are far below 2^64. *)
  Record sensible_data : Prop := mkSensible {
    sd_nonneg : forall c, In c [n_child n "capture"; scatter_node; n_child fission_node "xs";
                                nubar_node; chi_node] -> c <> None -> nonneg_numbers c;
    sd_fission : fission_node <> None -> nubar_node <> None /\ chi_node <> None;
    sd_yield : Forall (fun x => (real_of x < IZR (2 ^ 63))%R) (numbers X nubar_node);
    sd_groups : (written_groups X n < 2 ^ 64)%N
  }.
End Real.

From Verif Require Import Model.Rng Model.Point Model.Particle Spec.DirectionSpec.

(** A secondary neutron born where its parent collided. Its direction is an
    isotropic one, and its own generator is seeded with the raw number drawn from the
    parent's generator right after that direction. *)
Record born_at {G : Rng XRa} (parent child : particle XRa G) : Prop := mkBorn {
  bn_position : p_position child = p_position parent;
  bn_cell : p_cell child = p_cell parent;
  bn_direction : unit_point (p_direction child);
  bn_drawn : exists s, p_direction child = fst (dir_isotropic G s)
             /\ p_rng child = rseed G (fst (rraw G (snd (dir_isotropic G s))));
  bn_type : p_type child = neutron;
  bn_alive : is_alive child = true;
  bn_event : p_event child = birth;
  bn_secondaries : p_secondaries child = []
}.

(** Nothing but energy, direction, generator, event and secondaries differ. *)
Record same_place {A : Arith} {G : Rng A} (p q : particle A G) : Prop := mkSame {
  sp_position : p_position q = p_position p;
  sp_cell : p_cell q = p_cell p;
  sp_type : p_type q = p_type p;
  sp_surface : p_surface q = p_surface p;
  sp_indirect : p_indirect q = p_indirect p
}.
