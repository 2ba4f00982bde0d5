(** Particles: src/Particle.cpp. Functions that touch materials are in
    Material.v and Perturbation.v. *)
From Coq Require Import Bool String List ZArith NArith.
From Verif Require Import Model.Num Model.Outcome Model.Rng Model.Xml Model.Std Model.Point
  Model.Surface Model.Types.
Import ListNotations.
Local Open Scope string_scope.
Local Open Scope bool_scope.
Local Open Scope num_scope.
Local Open Scope outcome_scope.

(** Particle::ToType, Particle.cpp:21-32: an unknown name gives the first
    enumerator, neutron, once the assert is compiled out. *)
Definition to_type (name : string) : ptype :=
  if String.eqb name "neutron" then neutron
  else if String.eqb name "photon" then photon
  else neutron.

Section Particle.
  Context {A : Arith} {G : Rng A}.
  Notation particle := (particle A G).
  Implicit Types p : particle.

  (** Constructor, Particle.cpp:36-40, with the default member values of
      Particle.hpp:104-131. *)
  Definition new_particle (pos dir : point A) (e : energy A) (t : ptype) (seed : Z)
      (c : option (cell A)) : particle :=
    mkParticle [] [] pos dir e c (rseed G seed) t birth None.

  (** Assignments to single members. *)
  Definition set_indirect p x : particle :=
    mkParticle x (p_secondaries p) (p_position p) (p_direction p) (p_energy p) (p_cell p)
      (p_rng p) (p_type p) (p_event p) (p_surface p).
  Definition set_secondaries p x : particle :=
    mkParticle (p_indirect p) x (p_position p) (p_direction p) (p_energy p) (p_cell p)
      (p_rng p) (p_type p) (p_event p) (p_surface p).
  Definition set_position p x : particle :=
    mkParticle (p_indirect p) (p_secondaries p) x (p_direction p) (p_energy p) (p_cell p)
      (p_rng p) (p_type p) (p_event p) (p_surface p).
  Definition set_direction p x : particle :=
    mkParticle (p_indirect p) (p_secondaries p) (p_position p) x (p_energy p) (p_cell p)
      (p_rng p) (p_type p) (p_event p) (p_surface p).
  Definition set_energy p x : particle :=
    mkParticle (p_indirect p) (p_secondaries p) (p_position p) (p_direction p) x (p_cell p)
      (p_rng p) (p_type p) (p_event p) (p_surface p).
  (** SetCell, Particle.cpp:94 *)
  Definition set_cell p (c : cell A) : particle :=
    mkParticle (p_indirect p) (p_secondaries p) (p_position p) (p_direction p) (p_energy p)
      (Some c) (p_rng p) (p_type p) (p_event p) (p_surface p).
  Definition set_rng p x : particle :=
    mkParticle (p_indirect p) (p_secondaries p) (p_position p) (p_direction p) (p_energy p)
      (p_cell p) x (p_type p) (p_event p) (p_surface p).
  Definition set_event p x : particle :=
    mkParticle (p_indirect p) (p_secondaries p) (p_position p) (p_direction p) (p_energy p)
      (p_cell p) (p_rng p) (p_type p) x (p_surface p).
  Definition set_surface p x : particle :=
    mkParticle (p_indirect p) (p_secondaries p) (p_position p) (p_direction p) (p_energy p)
      (p_cell p) (p_rng p) (p_type p) (p_event p) x.

  (** Sample, Particle.cpp:106-108, and every other
      [std::uniform_real_distribution{}(p.rng)]. *)
  Definition p_unif p : num A * particle :=
    let (u, s) := runif G (p_rng p) in (u, set_rng p s).

  (** GetCell, Particle.cpp:87-92 *)
  Definition get_cell p : outcome (cell A) :=
    match p_cell p with
    | Some c => Ok c
    | None => Throw "Particle does not belong to a Cell"
    end.

  (** [std::get<ContinuousEnergy>] and [std::get<Group>] *)
  Definition get_continuous (e : energy A) : outcome (num A) :=
    match e with ContinuousE x => Ok x | Group _ => Throw "bad_variant_access" end.
  Definition get_group (e : energy A) : outcome N :=
    match e with Group g => Ok g | ContinuousE _ => Throw "bad_variant_access" end.

  (** SetDirectionIsotropic, Particle.cpp:79 *)
  Definition set_direction_isotropic p : particle :=
    let (d, s) := dir_isotropic G (p_rng p) in set_direction (set_rng p s) d.

  (** Particle::Scatter, Particle.cpp:55-64. Perturbation::Scatter returns 0
      (Perturbation.cpp:80-83). *)
  Definition p_scatter p (mu : num A) (e : energy A) : particle :=
    let p1 := set_indirect p (map (fun x => (fst x, snd x + #0)) (p_indirect p)) in
    let (u, p2) := p_unif p1 in
    let phi := #2 * c_pi * u in
    set_energy (set_direction p2 (dir_rotate (p_direction p2) mu phi)) e.

  (** BankSecondaries, Particle.cpp:96-100: the seed is a raw output of the
      parent's generator, the type is always neutron. *)
  Definition bank_secondary p (d : point A) (e : energy A) : particle :=
    let (seed, s) := rraw G (p_rng p) in
    let child := new_particle (p_position p) d e neutron seed (p_cell p) in
    set_secondaries (set_rng p s) (p_secondaries p ++ [child])%list.

  (** IsAlive, Particle.cpp:126-129 *)
  Definition is_alive p : bool :=
    match p_event p with capture | leak | fission => false | _ => true end.

  (** GetIndirectEffect, Particle.cpp:66-69: [map::at] in a noexcept function. *)
  Definition get_indirect p (id : nat) : outcome (num A) :=
    match find (fun x => Nat.eqb (pt_id (fst x)) id) (p_indirect p) with
    | Some x => Ok (snd x)
    | None => Terminate
    end.
End Particle.
