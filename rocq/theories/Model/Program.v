(** The program: src/minimc.cpp, src/XMLDocument.cpp, Driver::Create, and the text of
    the output file (to_string in src/Bins.cpp, src/Scorable.cpp, src/Estimator.cpp and
    src/Sensitivity.cpp). *)
From Coq Require Import Bool String Ascii List ZArith NArith.
From Verif Require Import Model.Num Model.Outcome Model.Rng Model.Xml Model.Std Model.Point
  Model.Surface Model.Types Model.Bins Model.Field Model.Tables Model.Particle
  Model.Multigroup Model.Continuous Model.Material Model.World Model.Perturbation
  Model.Estimator Model.Transport Model.Driver Model.Schema.
Import ListNotations.
Local Open Scope string_scope.
Local Open Scope bool_scope.
Local Open Scope outcome_scope.

(** A line feed. *)
Definition newline : string := String (ascii_of_nat 10) "".

(** [std::string(n, c)] *)
Fixpoint repeated (n : nat) (c : string) : string :=
  match n with O => "" | S n' => c ++ repeated n' c end.

Section Text.
  Context {A : Arith}.
  (** [sstream << std::scientific << x]: six digits after the point. *)
  Variable sci : num A -> string.

  Definition comma_list (l : list (num A)) : string :=
    fold_left (fun acc x => acc ++ sci x ++ ", ") l "".

  (** to_string: Bins.cpp:51, 84-90, 125-132, 164-170 *)
  Definition bins_text (b : bins A) : string :=
    match b with NoBins => "none" | _ => comma_list (bins_boundaries b) end.

  (** ParticleBins::to_string, Bins.cpp:206-211 *)
  Definition pbins_text (b : particle_bins A) : string :=
    "cosine" ++ newline ++ "------" ++ newline ++ bins_text (pb_cosine b) ++ newline ++ newline
    ++ "energy" ++ newline ++ "------" ++ newline ++ bins_text (pb_energy b) ++ newline ++ newline.

  (** GetScoreAsString, Scorable.cpp:51-70 *)
  Definition scores_text (s : scorable A) (w : num A) : string :=
    "mean" ++ newline ++ "----" ++ newline ++ comma_list (sc_means s w) ++ newline ++ newline
    ++ "std dev" ++ newline ++ "-------" ++ newline ++ comma_list (sc_stddevs s w)
    ++ newline ++ newline.

  (** The title and the line below it, Estimator.cpp:50 and Sensitivity.cpp:26 *)
  Definition title_text (name : string) : string :=
    name ++ newline ++ repeated (String.length name) "=" ++ newline ++ newline.

  (** Sensitivity::to_string, Sensitivity.cpp:25-28 *)
  Definition sensitivity_text (sn : sensitivity A) (w : num A) : string :=
    title_text (sc_name (sn_scorable sn)) ++ scores_text (sn_scorable sn) w ++ newline.

  (** Estimator::to_string, Estimator.cpp:48-57 *)
  Definition estimator_text (e : estimator A) (w : num A) : string :=
    fold_left (fun acc sn => acc ++ sensitivity_text sn w) (es_sens e)
      (title_text (sc_name (es_scorable e)) ++ pbins_text (sc_bins (es_scorable e))
       ++ scores_text (es_scorable e) w).

  (** EstimatorSet::to_string, Estimator.cpp:207-213 *)
  Definition set_text (ss : estimator_set A) : string :=
    fold_left (fun acc e => acc ++ newline ++ estimator_text e (ss_weight ss) ++ newline)
              (ss_estimators ss) "".
End Text.

(** ** Paths *)

(** The part of a path up to its last slash, and the file name after it. *)
Fixpoint split_path (p : string) : string * string :=
  match p with
  | EmptyString => ("", "")
  | String c t =>
      let (dir, file) := split_path t in
      if Ascii.eqb c "/" then (String c dir, file)
      else match dir with
           | EmptyString => ("", String c file)
           | _ => (String c dir, file)
           end
  end.

(** The part of a file name before its last dot, if it has one. *)
Fixpoint before_dot (file : string) : option string :=
  match file with
  | EmptyString => None
  | String c t =>
      match before_dot t with
      | Some stem => Some (String c stem)
      | None => if Ascii.eqb c "." then Some "" else None
      end
  end.

(** [std::filesystem::path::stem]: a leading dot does not start an extension, and ".."
    has none. *)
Definition stem (file : string) : string :=
  if String.eqb file ".." then file
  else match before_dot file with
       | None | Some "" => file
       | Some s => s
       end.

(** [replace_extension(".out")], minimc.cpp:18, for POSIX paths *)
Definition out_path (p : string) : string :=
  let (dir, file) := split_path p in dir ++ stem file ++ ".out".

(** ** Running the program *)

(** What the program finds: the lexical rules of Xerces, the conversions of the
    libraries, the well-formed documents that the files hold (None: Xerces or pugixml
    report an error), the formatting of numbers and the paths that can be opened for
    writing. *)
Record Env (A : Arith) : Type := mkEnv {
  env_lexical : Lexical;
  env_ext : Ext A;
  env_document : string -> option xml;
  env_sci : num A -> string;
  env_writable : string -> bool
}.
Arguments mkEnv {A}. Arguments env_lexical {A}. Arguments env_ext {A}. Arguments env_document {A}.
Arguments env_sci {A}. Arguments env_writable {A}.

Section Program.
  Context {A : Arith} {G : Rng A}.
  Variable V : Env A.

  (** XMLDocument, XMLDocument.cpp:14-15 and 57-90, and [root], XMLDocument.hpp:30: any
      warning or error is thrown; the messages are those of the libraries. *)
  Definition open_document (path : string) : outcome node :=
    match env_document V path with
    | None => Throw "not a document"
    | Some e =>
        if valid_document (env_lexical V) e then Ok (Some (mkH e [Elem "" [] [e] ""]))
        else Throw "not valid"
    end.

  (** The two kinds of driver; a KEigenvalue with its Driver base. *)
  Inductive problem : Type :=
    | FixedProblem (dr : @driver A)
    | KEigenProblem (dr : @driver A) (ke : @keigen A G).
  Definition problem_driver (pb : problem) : @driver A :=
    match pb with FixedProblem dr | KEigenProblem dr _ => dr end.

  (** Driver::Create, Driver.cpp:18-35, given the root: an unknown type gives a null
      pointer, which main dereferences. *)
  Definition create_problem (root : node) : outcome problem :=
    let ty := n_name (n_first_child (n_child root "problemtype")) in
    if String.eqb ty "fixedsource" then
      let! dr := fixed_source_create (env_ext V) root in Ok (FixedProblem dr)
    else if String.eqb ty "keigenvalue" then
      let! dr := driver_create (env_ext V) root
        (n_child (n_child (n_child root "problemtype") "keigenvalue") "initialsource") in
      let! ke := keigen_create (env_ext V) root in
      Ok (KEigenProblem dr ke)
    else UB.

  (** Solve under a schedule of the workers, with the counter at 0. *)
  Definition solve (pb : problem) (fuel : nat) (schedule : list nat)
      : outcome (estimator_set A) :=
    match pb with
    | FixedProblem dr =>
        solver_result dr (run_schedule (G := G) dr fuel (solver_start dr 0) schedule)
    | KEigenProblem _ ke => Ok (ke_solve ke)
    end.

  (** What main does to files. *)
  Inductive effect : Type :=
    | Truncated (path : string)
    | Appended (path text : string).

  (** main, minimc.cpp:10-26: the effects on files, in order, and how it ends. An
      exception that leaves main ends the program with its message. A file that cannot
      be opened is not noticed: writing to it does nothing. [arguments] are those after
      the program's name. *)
  Definition main (arguments : list string) (fuel : nat) (schedule : list nat)
      : list effect * outcome unit :=
    match arguments with
    | [path] =>
        match (let! root := open_document path in create_problem root) with
        | Ok pb =>
            let out := out_path path in
            let writes l := if env_writable V out then l else [] in
            match solve pb fuel schedule with
            | Ok result =>
                (writes [Truncated out;
                         Appended out (show_N (dr_batchsize (problem_driver pb)) ++ newline);
                         Appended out (set_text (env_sci V) result)], Ok tt)
            | o => (writes [Truncated out], let! _ := o in Ok tt)
            end
        | o => ([], let! _ := o in Ok tt)
        end
    | _ => ([], Throw "MiniMC accepts exactly one argument")
    end.
End Program.
