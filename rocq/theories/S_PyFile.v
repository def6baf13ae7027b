(** Programs in files. *)
From Coq Require Import String Ascii List.
Import ListNotations.
Open Scope string_scope.

Definition nl : string := String (ascii_of_nat 10) EmptyString.
Definition part (s t : string) : Prop := exists a b, t = a ++ s ++ b.
Definition single_line (s : string) : Prop := ~ part nl s.
Definition joined (l : list string) : string := fold_right append EmptyString l.

(** the lines of a text: all but the last end with a newline, none has another one, none is empty *)
Inductive lines_of : string -> list string -> Prop :=
| li_none : lines_of "" []
| li_last s : s <> "" -> single_line s -> lines_of s [s]
| li_more s t ls : single_line s -> lines_of t ls -> lines_of (s ++ nl ++ t) ((s ++ nl) :: ls).

(** the program that makes the lines of a file the body of a function and calls it *)
Definition in_function (ls : list string) : string :=
  joined (["def _temp_func():" ++ nl] ++ map (fun l => "    " ++ l) ls ++
          [nl; "    return(locals())" ++ nl; "_temp_out = _temp_func()" ++ nl; "del(_temp_func)" ++ nl]).

Definition quotes : string := String (ascii_of_nat 34) (String (ascii_of_nat 34) (String (ascii_of_nat 34) EmptyString)).
