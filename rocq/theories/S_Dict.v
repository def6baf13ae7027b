(** Specification vocabulary for dictionaries and printing, independent of the model's helpers. *)
From Coq Require Import String Ascii List Arith.
Import ListNotations.

(** A Python dict: an association list without repeated keys. *)
Definition keys {V} (d : list (string * V)) : list string := map fst d.
Definition unique_keys {V} (d : list (string * V)) : Prop := NoDup (keys d).
Definition entry {V} (d : list (string * V)) (k : string) (v : V) : Prop := In (k, v) d.

(** In a sequence of dictionaries applied one after the other, the last one that has key k
    supplies the value. *)
Definition given {V} (ds : list (list (string * V))) (k : string) (v : V) : Prop :=
  exists before d after, ds = before ++ d :: after /\ entry d k v /\
    forall d', In d' after -> ~ In k (keys d').
Definition not_given {V} (ds : list (list (string * V))) (k : string) : Prop :=
  forall d, In d ds -> ~ In k (keys d).

Definition without {V} (k : string) (d : list (string * V)) : list (string * V) :=
  filter (fun kv => negb (String.eqb (fst kv) k)) d.

(** Lexicographic order of strings by character code. *)
Inductive str_before : string -> string -> Prop :=
| sb_nil s : str_before EmptyString s
| sb_lt c d a b : (nat_of_ascii c < nat_of_ascii d) -> str_before (String c a) (String d b)
| sb_eq c a b : str_before a b -> str_before (String c a) (String c b).

(** A string of blanks. *)
Inductive blanks : string -> Prop :=
| bl_nil : blanks EmptyString
| bl_cons s : blanks s -> blanks (String " " s).

(** The width of a column of texts: that of the longest text, but no more than [limit]. *)
Definition column_width (limit : nat) (texts : list string) (w : nat) : Prop :=
  (w <= limit)%nat /\
  (w = limit \/ forall t, In t texts -> (String.length t <= w)%nat) /\
  exists t, In t texts /\ (w <= String.length t)%nat.

(** Public method names of Python's dict. *)
Definition dict_method_names : list string :=
  ["clear"; "copy"; "fromkeys"; "get"; "items"; "keys"; "pop"; "popitem"; "setdefault";
   "update"; "values"]%string.

(** Names defined by the class Bunch itself (the property t_mpl aside). *)
Definition bunch_names : list string :=
  ["str_fmt"; "formatted"; "from_pyfile"; "update_values"; "update_None"; "_check_strict"]%string.
