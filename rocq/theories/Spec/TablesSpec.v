(** Tables of real numbers and multi-dimensional arrays, as a reader of the input
    files sees them. *)
From Coq Require Import List Reals NArith.
From Verif Require Import Model.Num Model.Types.
Import ListNotations.
Local Open Scope R_scope.

(** A table of (key, value) pairs as the program stores it. *)
Definition table (l : list (R * R)) : cmap XRa 1 :=
  map (fun e => (Fin (fst e), Fin (snd e))) l.

(** [(k0,v0)] and [(k1,v1)] are neighbours in the table. *)
Definition neighbours (l : list (R * R)) (k0 v0 k1 v1 : R) : Prop :=
  exists pre post, l = pre ++ (k0, v0) :: (k1, v1) :: post.

(** The point at [k] of the straight line through two points. *)
Definition chord (k0 v0 k1 v1 k : R) : R := v0 + (v1 - v0) * ((k - k0) / (k1 - k0)).

(** Nested tables: [d] levels of keys above a number. *)
Fixpoint nested (d : nat) : Type :=
  match d with O => R | S d' => list (R * nested d') end.

Fixpoint stored_table (d : nat) : nested d -> cmap XRa d :=
  match d return nested d -> cmap XRa d with
  | O => Fin
  | S d' => fun m => map (fun e => (Fin (fst e), stored_table d' (snd e))) m
  end.

From Verif Require Import Spec.BinsSpec.

(** Every level has at least one key and its keys increase. *)
Fixpoint well_formed (d : nat) : nested d -> Prop :=
  match d return nested d -> Prop with
  | O => fun _ => True
  | S d' => fun m =>
      m <> [] /\ increasing (map fst m) /\ forall e, In e m -> well_formed d' (snd e)
  end.

(** The number stored under a sequence of keys. *)
Fixpoint stored_at (d : nat) : nested d -> list R -> R -> Prop :=
  match d return nested d -> list R -> R -> Prop with
  | O => fun x ks v => ks = [] /\ x = v
  | S d' => fun m ks v => exists k m' ks', ks = k :: ks' /\ In (k, m') m /\ stored_at d' m' ks' v
  end.

(** Arrays of shape [n1 x ... x nD]. *)
Fixpoint volume (shape : list N) : N :=
  match shape with [] => 1%N | n :: t => (n * volume t)%N end.

(** Every index is below the length of its axis. *)
Definition in_shape (shape is : list N) : Prop := Forall2 N.lt is shape.

(** Row-major order: the last index moves fastest. *)
Fixpoint row_major (shape is : list N) : N :=
  match shape, is with
  | _ :: ns, i :: js => (i * volume ns + row_major ns js)%N
  | _, _ => 0%N
  end.

Definition shape_of {X} (axes : list (list X)) : list N :=
  map (fun a => N.of_nat (length a)) axes.
