(** utide/utilities.py: Bunch.from_pyfile. *)
From Coq Require Import Ascii.
From Verif Require Import M_Base M_Bunch.
Open Scope string_scope.

(** the lines of a text file, each with its newline; [for line in f], utide/utilities.py:113.  The text is that after Python's
    translation of line endings. *)
Fixpoint file_lines (s : string) : list string :=
  match s with
  | EmptyString => []
  | String a r =>
      if Ascii.eqb a (Ascii.ascii_of_nat 10) then String a EmptyString :: file_lines r
      else match file_lines r with
           | [] => [String a EmptyString]
           | l :: ls => String a l :: ls
           end
  end.

(** utide/utilities.py:111-121: the text given to [compile] *)
Definition code_text (text : string) : string :=
  "def _temp_func():" ++ newline ++
  String.concat EmptyString (map (fun line => "    " ++ line) (file_lines text)) ++
  newline ++ "    return(locals())" ++ newline ++ "_temp_out = _temp_func()" ++ newline ++ "del(_temp_func)" ++ newline.

(** utide/utilities.py:102-125 (from_pyfile).  [file] is what opening and reading the file gives; [run] compiles and executes a program
    and gives the variable [_temp_out].  Result: the contents of self afterwards, and the exception if one was raised. *)
Definition from_pyfile {V} (run : string -> res (dict V)) (self : dict V) (file : res string) : dict V * res unit :=
  match file with
  | Err e => (self, Err e)
  | Ok text => match run (code_text text) with
               | Err e => (self, Err e)
               | Ok d => (dupdate self d, Ok tt)
               end
  end.
