(** Properties C83-C85: loading .mat and .npz files, listing them, cleaning their strings. *)
From Coq Require Import Ascii Lia Sorted.
From Verif Require Import M_Base M_Bunch M_Tables M_Const M_Load S_Dict S_Load L_Load L_Load2 L_Load3.
Open Scope nat_scope.
Open Scope string_scope.

(** C83.  All top-level names that do not begin with two underscores are there, in the order of the file; every value
    of the file is found under the same path of names; [converted] says what it has become. *)
Theorem C83_contents : forall mat npz fname masked xx out,
  file_contents mat npz fname xx -> unique_keys xx -> (forall k v, entry xx k v -> well_formed v) ->
  loadbunch mat npz fname masked = Ok out ->
  keys out = filter (fun k => negb (String.prefix "__" k)) (keys xx) /\
  forall k v, entry xx k v -> ~ hidden k -> exists w, entry out k w /\
    forall p r, file_at v p r -> exists q, bunch_at w p q /\ converted masked r q.
Proof. exact load_contents. Qed.
Print Assumptions C83_contents.

Theorem C83_succeeds : forall mat npz fname masked xx,
  file_contents mat npz fname xx -> unique_keys xx -> (forall k v, entry xx k v -> well_formed v) ->
  (forall k v p r, entry xx k v -> ~ hidden k -> file_at v p r -> is_text r \/ is_array r) ->
  exists out, loadbunch mat npz fname masked = Ok out.
Proof. exact load_succeeds. Qed.
Print Assumptions C83_succeeds.

(** The only errors: an unknown extension (ValueError), an error of the reader, or something that is neither text
    nor array among the values (AttributeError). *)
Theorem C83_errors : forall mat npz fname masked e,
  (forall xx, file_contents mat npz fname xx -> unique_keys xx /\ forall k v, entry xx k v -> well_formed v) ->
  loadbunch mat npz fname masked = Err e ->
  ((forall base, fname <> base ++ ".mat" /\ fname <> base ++ ".npz") /\ e = ValueError) \/
  ((exists base, fname = base ++ ".mat") /\ mat fname = Err e) \/ ((exists base, fname = base ++ ".npz") /\ npz fname = Err e) \/
  (e = AttributeError /\ exists xx k v p r, file_contents mat npz fname xx /\ entry xx k v /\ ~ hidden k /\ file_at v p r /\ ~ is_text r /\ ~ is_array r).
Proof. exact load_fails. Qed.
Print Assumptions C83_errors.

Definition c83_file : dict pobj :=
  [("__version__", OStr "1.0");
   ("coef", OVoid [1; 1] [[("A", OArr KFloat [1; 3] [ONum (Fin 2%R); ONum NaN; ONum (Fin 5%R)] None);
                           ("aux", OVoid [1; 1] [[("lat", OArr KFloat [1; 1] [ONum (Fin 45%R)] None)]])]])].
Example C83_example : loadbunch (fun _ => Ok c83_file) (fun _ => Err ValueError) "c.mat" true =
  Ok [("coef", ODict true [("A", OArr KFloat [3] [ONum (Fin 2%R); ONum NaN; ONum (Fin 5%R)] (Some [false; true; false]));
                           ("aux", ODict true [("lat", ONum (Fin 45%R))])])].
Proof. reflexivity. Qed.
Example C83_example_hypotheses : file_contents (fun _ => Ok c83_file) (fun _ => Err ValueError) "c.mat" c83_file /\ unique_keys c83_file /\
  forall k v, entry c83_file k v -> well_formed v.
Proof.
  split; [left; exists "c"; auto|]. split.
  - unfold unique_keys. cbn. repeat constructor; cbn; intuition discriminate.
  - intros k v [H|[H|[]]]; injection H as <- <-; intros p r F.
    + inversion F; subst. exact I.
    + inversion F as [|k v x p' r' Hi F']; subst.
      * cbn. split; [reflexivity|]. repeat constructor; cbn; intuition discriminate.
      * destruct Hi as [Hi|[Hi|[]]]; injection Hi as <- <-.
        { inversion F'; subst. reflexivity. }
        { inversion F' as [|k v x p2 r2 Hi2 F2]; subst.
          - cbn. split; [reflexivity|]. repeat constructor; cbn; intuition discriminate.
          - destruct Hi2 as [Hi2|[]]; injection Hi2 as <- <-. inversion F2; subst. reflexivity. }
Qed.

(** C84.  showmatbunch prints one line for every value that is not a Bunch, sorted by dotted path; the columns are aligned as long as
    the paths are shorter than 40 characters.  [rows]: path, value and text of each line. *)
Theorem C84_lines : forall tx b, tree_ok (ODict true b) -> forall text, showmatbunch tx b = Ok text ->
  exists rows lines w, NoDup (map (fun e => fst (fst e)) rows) /\
    (forall p v s, In (p, v, s) rows <-> leaf b p v /\ shown tx v s) /\
    StronglySorted (fun e e' => str_before (dotted (fst (fst e))) (dotted (fst (fst e'))) /\
      (dotted (fst (fst e)) = dotted (fst (fst e')) -> str_before (snd e) (snd e'))) rows /\
    column_width 40 (map (fun e => "." ++ dotted (fst (fst e))) rows) w /\
    Forall2 (fun e line => line_of w (dotted (fst (fst e))) (snd e) line) rows lines /\ text = String.concat "" lines.
Proof. exact show_lemma. Qed.
Print Assumptions C84_lines.
(** Nothing to list is an error (ValueError), and the only one. *)
Theorem C84_nothing : forall tx b, (forall p v, ~ leaf b p v) <-> showmatbunch tx b = Err ValueError.
Proof. exact show_err. Qed.
Print Assumptions C84_nothing.
Theorem C84_errors : forall tx b e, showmatbunch tx b = Err e -> e = ValueError.
Proof. exact show_errors. Qed.
Print Assumptions C84_errors.

Definition c84_tx : texts := {| tx_item := fun _ => "float 1.0"; tx_array := fun _ => "shape (3,), dtype float64" |}.
Definition c84_b : dict pobj := [("b", ODict true [("y", ONum (Fin 1%R)); ("x", OStr "text")]); ("a", OArr KFloat [3] [] None)].
Example C84_example : showmatbunch c84_tx c84_b =
  Ok ("a    : ndarray, shape (3,), dtype float64" ++ newline ++ "b.x  : text" ++ newline ++ "b.y  : float 1.0" ++ newline).
Proof. reflexivity. Qed.
Example C84_example_tree : tree_ok (ODict true c84_b).
Proof.
  intros p items H. inversion H as [|k v it p' r Hi F]; subst.
  - unfold unique_keys. cbn. repeat constructor; cbn; intuition discriminate.
  - destruct Hi as [Hi|[Hi|[]]]; injection Hi as <- <-; inversion F as [|k2 v2 it2 p2 r2 Hi2 F2]; subst.
    + unfold unique_keys. cbn. repeat constructor; cbn; intuition discriminate.
    + destruct Hi2 as [Hi2|[Hi2|[]]]; injection Hi2 as <- <-; inversion F2.
Qed.
Example C84_example_nothing : showmatbunch c84_tx [("a", ODict true [])] = Err ValueError. Proof. reflexivity. Qed.
(** Two values may be printed under the same name. *)
Example C84_example_ambiguous : showmatbunch c84_tx [("a.b", OStr "one"); ("a", ODict true [("b", OStr "two")])] =
  Ok ("a.b  : one" ++ newline ++ "a.b  : two" ++ newline).
Proof. reflexivity. Qed.

(** C85.  One-dimensional string arrays become object arrays of their strings without trailing white space; boxed strings in
    one-dimensional object arrays are taken out of their boxes; dictionaries become Bunches with the same keys in the same order, recursively; everything
    else is left alone. *)
Theorem C85_cleaned : forall b out, dicts_ok (ODict false b) -> convert_unicode_arrays b = Ok out -> cleaned (ODict false b) (ODict true out).
Proof. exact clean_lemma. Qed.
Print Assumptions C85_cleaned.
Theorem C85_errors : forall b,
  ((exists e, convert_unicode_arrays b = Err e) <-> exists p d m, dict_at (ODict false b) p (OArr KObj [] d m)) /\
  forall e, convert_unicode_arrays b = Err e -> e = TypeError.
Proof. exact clean_errors. Qed.
Print Assumptions C85_errors.
(** Cleaning twice is cleaning once. *)
Theorem C85_idempotent : forall b out, dicts_ok (ODict false b) -> texts_ok (ODict false b) -> convert_unicode_arrays b = Ok out ->
  convert_unicode_arrays out = Ok out.
Proof. exact clean_idem. Qed.
Print Assumptions C85_idempotent.
(** The constituent names and the numerical tables of the package, as loaded from its data file. *)
Theorem C85_constants : forall mat npz xx d out out', npz "ut_constants.npz" = Ok xx -> unique_keys xx -> entry xx "const" (OArr KObj [] [d] None) ->
  forall items, d = ODict true items -> unique_keys items -> entry items "name" (OArr KText [146] (map OStr const_name_raw) None) ->
  loadbunch mat npz "ut_constants.npz" false = Ok out -> convert_unicode_arrays out = Ok out' ->
  exists items', entry out' "const" (ODict true items') /\ keys items' = keys items /\
    entry items' "name" (OArr KObj [146] (map OStr const_name) None) /\
    forall k sh data m, entry items k (OArr KFloat sh data m) -> entry items' k (OArr KFloat sh data m).
Proof. exact constants_loaded. Qed.
Print Assumptions C85_constants.

Definition c85_b : dict pobj :=
  [("name", OArr KText [2] [OStr "M2  "; OStr " S2"] None); ("cells", OArr KObj [1] [OArr KText [1] [OStr "K1 "] None] None);
   ("sub", ODict false [("n", ONum (Fin 3%R))])].
Example C85_example : convert_unicode_arrays c85_b =
  Ok [("name", OArr KObj [2] [OStr "M2"; OStr " S2"] None); ("cells", OArr KObj [1] [OStr "K1 "] None); ("sub", ODict true [("n", ONum (Fin 3%R))])].
Proof. reflexivity. Qed.
Example C85_example_hypotheses : dicts_ok (ODict false c85_b) /\ texts_ok (ODict false c85_b).
Proof.
  split.
  - intros p y items H. inversion H as [|z k v it p' r Hi F]; subst.
    + unfold unique_keys. cbn. repeat constructor; cbn; intuition discriminate.
    + destruct Hi as [Hi|[Hi|[Hi|[]]]]; injection Hi as <- <-; inversion F as [|z2 k2 v2 it2 p2 r2 Hi2 F2]; subst.
      * unfold unique_keys. cbn. repeat constructor; cbn; intuition discriminate.
      * destruct Hi2 as [Hi2|[]]; injection Hi2 as <- <-; inversion F2.
  - cbn. repeat split; repeat constructor; eexists; reflexivity.
Qed.
Example C85_example_error : convert_unicode_arrays [("a", OArr KObj [] [ONum (Fin 3%R)] None)] = Err TypeError. Proof. reflexivity. Qed.
Example C85_example_constants : exists mat npz xx items out out', npz "ut_constants.npz" = Ok xx /\ unique_keys xx /\ entry xx "const" (OArr KObj [] [ODict true items] None) /\
  unique_keys items /\ entry items "name" (OArr KText [146] (map OStr const_name_raw) None) /\
  loadbunch mat npz "ut_constants.npz" false = Ok out /\ convert_unicode_arrays out = Ok out'.
Proof.
  exists (fun _ => Err ValueError). set (items := [("name", OArr KText [146] (map OStr const_name_raw) None)]). set (xx := [("const", OArr KObj [] [ODict true items] None)]).
  exists (fun _ => Ok xx), xx, items. do 2 eexists.
  split; [reflexivity|]. split; [unfold unique_keys; cbn; repeat constructor; cbn; intuition discriminate|]. split; [now left|].
  split; [unfold unique_keys; cbn; repeat constructor; cbn; intuition discriminate|]. split; [now left|]. split; reflexivity.
Qed.

(** "or to a single string if there is only one": an array of one string becomes an array. *)
Theorem C85_single_string_refuted : exists b out w, entry b "name" (OArr KText [1] [OStr "M2"] None) /\
  convert_unicode_arrays b = Ok out /\ entry out "name" w /\ ~ is_text w.
Proof. exact single_lemma. Qed.
Print Assumptions C85_single_string_refuted.
(** "The strings have trailing whitespace removed": not those of object arrays. *)
Theorem C85_white_space_refuted : exists b out s, entry b "name" (OArr KObj [1] [OArr KText [1] [OStr s] None] None) /\
  convert_unicode_arrays b = Ok out /\ entry out "name" (OArr KObj [1] [OStr s] None) /\ ~ stripped s s.
Proof. exact white_lemma. Qed.
Print Assumptions C85_white_space_refuted.
