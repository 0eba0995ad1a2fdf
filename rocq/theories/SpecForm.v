(** Specification: texts given by templates with named places, and nesting of parentheses. *)
From Coq Require Import Ascii.
From Verif Require Import Base.
Local Open Scope string_scope.

Fixpoint look (args : list (string * string)) (name : string) : string :=
  match args with
  | []%list => ""
  | ((n, v) :: r)%list => if String.eqb n name then v else look r name
  end.

(** [fill args None t]: the template [t] with every {name} replaced; [Some n]: inside braces, [n] read so far *)
Fixpoint fill (args : list (string * string)) (st : option string) (t : string) : string :=
  match t, st with
  | "", _ => ""
  | String "{" r, None => fill args (Some "") r
  | String c r, None => String c (fill args None r)
  | String "}" r, Some n => look args n ++ fill args None r
  | String c r, Some n => fill args (Some (n ++ String c "")) r
  end.
Definition template (t : string) (args : list (string * string)) : string := fill args None t.

(** Texts whose parentheses are closed in order *)
Inductive nested : string -> Prop :=
| nested_nil : nested ""
| nested_char c s : c <> "("%char -> c <> ")"%char -> nested s -> nested (String c s)
| nested_pair s t : nested s -> nested t -> nested ("(" ++ s ++ ")" ++ t).

Fixpoint count (c : ascii) (s : string) : nat :=
  match s with "" => 0 | String d r => if Ascii.eqb c d then S (count c r) else count c r end.

(** The name is followed by the values in parentheses *)
Definition tuple_text (name : string) (values : list string) (s : string) : Prop :=
  s = name ++ "(" ++ String.concat ", " values ++ ")" /\ count "(" name = 0%nat /\ count ")" name = 0%nat.
