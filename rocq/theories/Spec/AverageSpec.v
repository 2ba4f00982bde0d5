(** Independent draws from finitely many possibilities. *)
From Coq Require Import List Reals.
From Verif Require Import Spec.SumSpec.
Import ListNotations.
Local Open Scope R_scope.

Section Draws.
  Context {H : Type} (D : list (H * R)).

  (** What may be drawn, each with its probability. *)
  Definition distribution : Prop :=
    (forall h p, In (h, p) D -> 0 <= p) /\ Rsum (map snd D) = 1.

  (** A sequence of [n] of them. *)
  Definition drawn (n : nat) (hs : list H) : Prop :=
    length hs = n /\ forall h, In h hs -> exists p, In (h, p) D.

  (** The expected value of a function of one draw, its variance, and the expected value of
      a function of [n] independent draws. *)
  Definition expected (x : H -> R) : R := Rsum (map (fun hp => snd hp * x (fst hp)) D).
  Definition spread (x : H -> R) : R := expected (fun h => (x h - expected x) * (x h - expected x)).
  Fixpoint expect (n : nat) (f : list H -> R) : R :=
    match n with
    | O => f []
    | S n' => expected (fun h => expect n' (fun hs => f (h :: hs)))
    end.

  (** The probability of an event of [n] independent draws. *)
  Definition probability (n : nat) (E : list H -> bool) : R :=
    expect n (fun hs => if E hs then 1 else 0).

  (** Of [n] draws a mean and a deviation are shown. The mean is right on the average; the
      average of its squared error is the variance of one draw over [n], which the squared
      deviation gives on the average up to one part in [n]; and the mean is seldom far off. *)
  Definition estimates (n : nat) (x : H -> R) (shown : list H -> R -> R -> Prop) : Prop :=
    exists average deviation : list H -> R,
    (forall hs, drawn n hs -> shown hs (average hs) (deviation hs))
    /\ expect n average = expected x
    /\ expect n (fun hs => (average hs - expected x) * (average hs - expected x)) = spread x / INR n
    /\ expect n (fun hs => deviation hs * deviation hs) = (1 - / INR n) * (spread x / INR n)
    /\ forall far, 0 < far ->
       probability n (fun hs => if Rle_dec far (Rabs (average hs - expected x)) then true else false)
       <= spread x / INR n / (far * far).
End Draws.
