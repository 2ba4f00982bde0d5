(** Which random numbers a choice uses: calls of the generator, one after another. *)
From Coq Require Import List Reals ZArith NArith.
From Verif Require Import Model.Num Model.Rng Model.Xml Model.Point Model.Types Model.Particle
  Spec.MultigroupSpec.
Import ListNotations.

(** A uniform number, or a raw one. *)
Inductive call : Type := Uniform | Raw.
Definition after_call {A} (G : Rng A) (c : call) (s : rst G) : rst G :=
  match c with Uniform => snd (runif G s) | Raw => snd (rraw G s) end.
Fixpoint after_calls {A} (G : Rng A) (l : list call) (s : rst G) : rst G :=
  match l with [] => s | c :: l' => after_calls G l' (after_call G c s) end.

(** Raw numbers the generator of the program is asked for by some calls. *)
Definition raws (l : list call) : N :=
  fold_right (fun c n => match c with Uniform => 2 + n | Raw => 1 + n end)%N 0%N l.

(** Secondaries made one after another, from state [s] of the parent's generator to
    state [s']: the first number chooses the group, the next two the direction, and the
    child's own generator is seeded with a raw number. *)
Inductive born_from {G : Rng XRa} (X : Ext XRa) (n : node) (g : N)
    : rst G -> list (particle XRa G) -> rst G -> Prop :=
  | Born_none s : born_from X n g s [] s
  | Born_one s c v h rest s' :
      fst (runif G s) = Fin v ->
      p_energy c = Group h -> In h (groups (written_groups X n)) ->
      (column_below X n (chi_node n) h g <= v * column_sum X n (chi_node n) g
       < column_below X n (chi_node n) h g + weight X n (chi_node n) h g)%R ->
      p_direction c = fst (dir_isotropic G (after_calls G [Uniform] s)) ->
      p_rng c = rseed G (fst (rraw G (after_calls G [Uniform; Uniform; Uniform] s))) ->
      born_from X n g (after_calls G [Uniform; Uniform; Uniform; Raw] s) rest s' ->
      born_from X n g s (c :: rest) s'.
