(** Files, crashes, and the layout of the output file. *)
From Coq Require Import Bool String Ascii List NArith ZArith.
From Verif Require Import Model.Num Model.Outcome Model.Xml Model.Types Model.Bins
  Model.Estimator Model.Program.
Import ListNotations.
Local Open Scope string_scope.

(** ** Files *)

(** The contents of the files that exist. *)
Definition files : Type := string -> option string.
Definition written (fs : files) (path content : string) : files :=
  fun q => if String.eqb q path then Some content else fs q.
Definition done_effect (fs : files) (e : effect) : files :=
  match e with
  | Truncated p => written fs p ""
  | Appended p text =>
      written fs p ((match fs p with Some old => old | None => "" end) ++ text)
  end.
Definition after (fs : files) (effects : list effect) : files :=
  fold_left done_effect effects fs.

(** [u] is how [s] starts. *)
Definition starts (u s : string) : Prop := exists rest, s = u ++ rest.

(** What a crash can leave: some effects have happened, and perhaps a part of the next
    piece of text has been written. *)
Inductive crashed (fs : files) (effects : list effect) : files -> Prop :=
  | crashed_between before later :
      effects = (before ++ later)%list -> crashed fs effects (after fs before)
  | crashed_within before p text part later :
      effects = (before ++ Appended p text :: later)%list -> starts part text ->
      crashed fs effects (after fs (before ++ [Appended p part])%list).

(** ** Lines *)

(** The pieces of a text between line feeds. *)
Fixpoint lines_from (current s : string) : list string :=
  match s with
  | EmptyString => [current]
  | String c t =>
      if Ascii.eqb c (ascii_of_nat 10) then current :: lines_from "" t
      else lines_from (current ++ String c "") t
  end.
Definition lines (s : string) : list string := lines_from "" s.
Definition one_line (s : string) : Prop := lines s = [s].

Section Report.
  Context {A : Arith} (sci : num A -> string).

  Definition row (l : list (num A)) : string :=
    String.concat "" (map (fun x => sci x ++ ", ") l).
  Definition underline (c : ascii) (n : nat) : string := string_of_list_ascii (repeat c n).

  Definition title (name : string) : list string :=
    [name; underline "=" (String.length name); ""].
  Definition bins_row (b : bins A) : string :=
    match b with NoBins => "none" | _ => row (bins_boundaries b) end.
  Definition bins_lines (b : particle_bins A) : list string :=
    ["cosine"; "------"; bins_row (pb_cosine b); ""; "energy"; "------"; bins_row (pb_energy b); ""].
  (** The sums divided by the weight, and the deviations of those means. *)
  Definition score_lines (s : scorable A) (w : num A) : list string :=
    ["mean"; "----"; row (map (fun x => ndiv A x w) (sc_scores s)); "";
     "std dev"; "-------";
     row (map (fun i => let x := nth i (sc_scores s) (nofZ A 0%Z) in
                        let x2 := nth i (sc_squares s) (nofZ A 0%Z) in
                        ndiv A (nsqrt A (nsub A x2 (ndiv A (nmul A x x) w))) w)
              (seq 0 (length (sc_scores s)))); ""].
  Definition sensitivity_lines (w : num A) (sn : sensitivity A) : list string :=
    (title (sc_name (sn_scorable sn)) ++ score_lines (sn_scorable sn) w ++ [""])%list.
  Definition estimator_lines (w : num A) (e : estimator A) : list string :=
    ([""] ++ title (sc_name (es_scorable e)) ++ bins_lines (sc_bins (es_scorable e))
     ++ score_lines (es_scorable e) w ++ flat_map (sensitivity_lines w) (es_sens e) ++ [""])%list.

  (** The number of histories, then the estimators in their order. *)
  Definition report (batch : N) (r : estimator_set A) : list string :=
    show_N batch :: flat_map (estimator_lines (ss_weight r)) (ss_estimators r).

  Definition one_line_names (r : estimator_set A) : Prop :=
    forall e, In e (ss_estimators r) -> one_line (sc_name (es_scorable e))
    /\ forall sn, In sn (es_sens e) -> one_line (sc_name (sn_scorable sn)).
  (** Every sum of scores comes with a sum of squares. *)
  Definition paired (r : estimator_set A) : Prop :=
    forall e, In e (ss_estimators r) ->
    length (sc_scores (es_scorable e)) = length (sc_squares (es_scorable e))
    /\ forall sn, In sn (es_sens e) ->
       length (sc_scores (sn_scorable sn)) = length (sc_squares (sn_scorable sn)).
End Report.

(** ** The layout that the document asks for *)
Section Layout.
  Context {A : Arith} (X : Ext A).
  Definition named (n : node) : string := as_string (n_attr n "name").

  (** As many sums, and sums of squares, as there are bins. *)
  Definition shaped (name : string) (b : particle_bins A) (s : scorable A) : Prop :=
    sc_name s = name /\ sc_bins s = b
    /\ length (sc_scores s) = N.to_nat (pbins_size b)
    /\ length (sc_squares s) = N.to_nat (pbins_size b).
  Definition shaped_estimator (n : node) (e : estimator A) : Prop :=
    exists b, pbins_create X (n_child n "bins") = Ok b
    /\ shaped (named n) b (es_scorable e)
    /\ Forall2 (fun c sn => shaped (named n ++ "::" ++ named c) b (sn_scorable sn))
               (n_children (n_child n "sensitivities")) (es_sens e).
  (** The estimators of the document in its order, normalised by [weight]. *)
  Definition laid_out (root : node) (weight : num A) (r : estimator_set A) : Prop :=
    ss_weight r = weight
    /\ Forall2 shaped_estimator (n_children (n_child root "estimators")) (ss_estimators r).
End Layout.
(** No name in the document has a line feed. *)
Definition plain_names (root : node) : Prop :=
  forall e, In e (n_children (n_child root "estimators")) -> one_line (named e)
  /\ forall n, In n (n_children (n_child e "sensitivities")) -> one_line (named n).

(** ** Names *)
Definition without (c : ascii) (s : string) : Prop := ~ In c (list_ascii_of_string s).
(** A directory, written with its final slash, or nothing. *)
Definition directory (s : string) : Prop := s = "" \/ exists d, s = d ++ "/".
