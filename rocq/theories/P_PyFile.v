(** C114: variables read from a Python file. *)
From Coq Require Import Ascii.
From Verif Require Import M_Base M_Bunch M_PyFile S_Dict S_PyFile L_PyFile.
Open Scope string_scope.

(** what the lines of a text are is no matter of choice *)
Theorem C114_lines : forall text, exists ls, lines_of text ls /\ forall ls', lines_of text ls' -> ls' = ls.
Proof. exact lines_unique. Qed.
Print Assumptions C114_lines.

(** from_pyfile runs the lines of the file as the body of a function; the variables it leaves are added to the Bunch, replacing
    items of the same name, and no other item changes *)
Theorem C114_variables : forall V (run : string -> res (dict V)) self text ls d,
  unique_keys self -> unique_keys d -> lines_of text ls -> run (in_function ls) = Ok d ->
  exists b, from_pyfile run self (Ok text) = (b, Ok tt) /\ unique_keys b /\ forall k v, entry b k v <-> given [self; d] k v.
Proof. exact @file_read. Qed.
Print Assumptions C114_variables.

(** if the program fails the Bunch is as before *)
Theorem C114_failure : forall V (run : string -> res (dict V)) self text ls e,
  lines_of text ls -> run (in_function ls) = Err e -> from_pyfile run self (Ok text) = (self, Err e).
Proof. exact @file_fails. Qed.
Print Assumptions C114_failure.

(** the same if the file cannot be read, and whenever from_pyfile raises *)
Theorem C114_unchanged : forall V (run : string -> res (dict V)) self file,
  (forall e, file = Err e -> from_pyfile run self file = (self, Err e)) /\ forall b e, from_pyfile run self file = (b, Err e) -> b = self.
Proof. exact @file_unchanged. Qed.
Print Assumptions C114_unchanged.

(** every piece of the file that stays within a line is in the program as it is ... *)
Theorem C114_pieces : forall text s, single_line s -> part s text -> part s (code_text text).
Proof. exact kept_pieces. Qed.
Print Assumptions C114_pieces.

(** ... but a string in triple quotes that spans lines is changed: the second line gets four blanks more *)
Theorem C114_multiline_refuted : exists text s s',
  part (quotes ++ s ++ quotes) text /\ ~ part quotes s /\ ~ part (quotes ++ s ++ quotes) (code_text text) /\
  part (quotes ++ s' ++ quotes) (code_text text) /\ ~ part (quotes ++ s' ++ quotes) text.
Proof. exact multiline. Qed.
Print Assumptions C114_multiline_refuted.

(** x = 1 and y = 2 (ex_text), with an interpreter that knows only that program *)
Example C114_example : file_lines ex_text = ["x = 1" ++ nl; "y = 2"] /\
  from_pyfile ex_run [("y", 5%nat); ("z", 3%nat)] (Ok ex_text) = ([("y", 2%nat); ("z", 3%nat); ("x", 1%nat)], Ok tt) /\
  from_pyfile ex_run [("y", 5%nat)] (Ok "x = 1") = ([("y", 5%nat)], Err NameError).
Proof. repeat split; vm_compute; reflexivity. Qed.
Example C114_example_lines : lines_of ex_text ["x = 1" ++ nl; "y = 2"] /\ ex_run (in_function ["x = 1" ++ nl; "y = 2"]) = Ok [("x", 1%nat); ("y", 2%nat)] /\
  single_line "y = 2" /\ part "y = 2" ex_text.
Proof.
  assert (S1 : single_line "x = 1") by (intros P; apply part_dec in P; vm_compute in P; discriminate P).
  assert (S2 : single_line "y = 2") by (intros P; apply part_dec in P; vm_compute in P; discriminate P).
  split; [|split; [|split]].
  - apply (li_more "x = 1" "y = 2" ["y = 2"]); [exact S1|]. constructor; [discriminate|exact S2].
  - vm_compute; reflexivity.
  - exact S2.
  - exists ("x = 1" ++ nl), "". vm_compute. reflexivity.
Qed.
