(** * Text: the Python string operations used by the modelled code.

    Python [str] is Coq [string] (characters are 8 bit; the strings the modelled code
    builds itself are ASCII). *)
From Coq Require Import ZArith List Bool String Ascii.
From Coq Require Import Decimal DecimalString DecimalZ.
Import ListNotations.
Local Open Scope string_scope.

(** Python [str(n)] for an int. *)
Definition str_of_Z (z : Z) : string := NilZero.string_of_int (Z.to_int z).

(** Python [int(s)], restricted to an optional sign and decimal digits (Python also
    accepts surrounding white space, '+' and '_'); [None] is ValueError. *)
Definition Z_of_str (s : string) : option Z := option_map Z.of_int (NilZero.int_of_string s).

(** Python [sep.join(l)]. *)
Fixpoint join (sep : string) (l : list string) : string :=
  match l with
  | [] => ""
  | [x] => x
  | x :: t => x ++ sep ++ join sep t
  end.

(** Splitting at every occurrence of one character (Python [s.split(c)]). *)
Fixpoint split (c : ascii) (s : string) : list string :=
  match s with
  | EmptyString => [""]
  | String a t =>
    if Ascii.eqb a c then "" :: split c t
    else match split c t with
         | x :: r => String a x :: r
         | [] => [String a ""]          (* not reached: [split] is never empty *)
         end
  end.

Fixpoint has_char (c : ascii) (s : string) : bool :=
  match s with EmptyString => false | String a t => Ascii.eqb a c || has_char c t end.
