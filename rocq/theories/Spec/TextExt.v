(** A concrete reading of input text, used only by examples: decimal numbers,
    words separated by blanks, and a finite set of data files. *)
From Coq Require Import Bool String Ascii List ZArith NArith.
From Verif Require Import Model.Num Model.Outcome Model.Xml.
Import ListNotations.
Local Open Scope string_scope.

Definition digit (c : ascii) : option Z :=
  let n := N_of_ascii c in
  if ((48 <=? n) && (n <=? 57))%N then Some (Z.of_N n - 48)%Z else None.

(** Mantissa and decimal exponent of the digits read so far. *)
Fixpoint digits (s : string) (m e : Z) (point : bool) : option (Z * Z) :=
  match s with
  | EmptyString => Some (m, e)
  | String c t =>
      match digit c with
      | Some d => digits t (10 * m + d)%Z (if point then e - 1 else e)%Z point
      | None =>
          if Ascii.eqb c "." then if point then None else digits t m e true else None
      end
  end.
Definition parse_dec (s : string) : option (Z * Z) :=
  match s with
  | EmptyString => None
  | String c t =>
      if Ascii.eqb c "-" then
        match digits t 0 0 false with Some (m, e) => Some (- m, e)%Z | None => None end
      else digits s 0 0 false
  end.

Fixpoint words_acc (s cur : string) : list string :=
  match s with
  | EmptyString => if String.eqb cur "" then [] else [cur]
  | String c t =>
      if (Ascii.eqb c " " || Ascii.eqb c "010")%bool then
        (if String.eqb cur "" then [] else [cur]) ++ words_acc t ""
      else words_acc t (cur ++ String c "")
  end%list.
Definition words (s : string) : list string := words_acc s "".

Definition parse_N (s : string) : option N :=
  match parse_dec s with
  | Some (m, 0%Z) => if (m <? 0)%Z then None else Some (Z.to_N m)
  | _ => None
  end.

Definition text_ext (A : Arith)
    (files : list (string * (list (list (num A)) * list (num A)))) : Ext A :=
  let real s := match parse_dec s with Some (m, e) => ndec A m e | None => nofZ A 0 end in
  {| to_double := real;
     to_ullong := fun s => match parse_N s with Some n => n | None => 0%N end;
     to_uint := fun s => match parse_N s with Some n => n | None => 0%N end;
     to_reals := fun s => map real (words s);
     to_words := words;
     stoi := fun s => match parse_dec s with
                      | Some (m, _) => Ok m | None => Throw "stoi" end;
     stoul := fun s => match parse_N s with Some n => Ok n | None => Throw "stoul" end;
     stoull := fun s => match parse_N s with Some n => Ok n | None => Throw "stoull" end;
     stod := fun s => match parse_dec s with
                      | Some (m, e) => Ok (ndec A m e) | None => Throw "stod" end;
     show_real := fun _ => "";
     surface_address := N.of_nat; nuclide_address := N.of_nat;
     h5_file := fun p => match find (fun f => String.eqb (fst f) p) files with
                         | Some f => Some (snd f) | None => None end |}.

(** The document node above a [minimc] element, and the handle of that element. *)
Definition document (children : list xml) : node :=
  let root := Elem "minimc" [] children "" in
  Some (mkH root [Elem "" [] [root] ""]).
(** A handle of an element without ancestors. *)
Definition lone (e : xml) : node := Some (mkH e []).

Definition leaf (name : string) (attrs : list (string * string)) : xml := Elem name attrs [] "".
Definition group (name : string) (children : list xml) : xml := Elem name [] children "".
Definition text_node (name text : string) : xml := Elem name [] [] text.
