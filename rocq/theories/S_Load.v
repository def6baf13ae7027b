(** Specification vocabulary for loaded files: paths, values, listings, stripped strings. *)
From Coq Require Import String Ascii List Arith DecimalString.
From Verif Require Import M_Base M_Load S_Dict.
Import ListNotations.
Open Scope nat_scope.

(** value found by following field names through the structures of a file; a structure is a 1 by 1 record array *)
Inductive file_at : pobj -> list string -> pobj -> Prop :=
| fa_here o : file_at o [] o
| fa_field k v x p r : In (k, v) x -> file_at v p r -> file_at (OVoid [1; 1] [x]) (k :: p) r.
(** value found by following keys through nested Bunches *)
Inductive bunch_at : pobj -> list string -> pobj -> Prop :=
| ba_here o : bunch_at o [] o
| ba_item k v items p r : In (k, v) items -> bunch_at v p r -> bunch_at (ODict true items) (k :: p) r.

Definition product (shape : list nat) : nat := fold_right Nat.mul 1 shape.
(** arrays hold as many elements as their shape says, field names of a record differ *)
Definition well_formed (o : pobj) : Prop := forall p r, file_at o p r ->
  match r with
  | OArr _ shape data _ => length data = product shape
  | OVoid shape recs => length recs = product shape /\ Forall unique_keys recs
  | _ => True
  end.
Definition is_array (o : pobj) : Prop := match o with OArr _ _ _ _ | OVoid _ _ => True | _ => False end.
Definition is_text (o : pobj) : Prop := exists s, o = OStr s.
Definition is_struct (o : pobj) : Prop := exists x, o = OVoid [1; 1] [x].
Definition finite_number (o : pobj) : Prop := match o with ONum (PInf | NInf | NaN) => False | _ => True end.

(** what becomes of a value that is not a structure: text is kept, an array of one element becomes that element,
    other arrays lose their dimensions of length one and keep their elements; a float array is masked where it is
    not finite, if masking is asked for and something is to be masked *)
Inductive loaded (masked : bool) : pobj -> pobj -> Prop :=
| ld_text s : loaded masked (OStr s) (OStr s)
| ld_item k shape x m : Forall (eq 1) shape -> loaded masked (OArr k shape [x] m) x
| ld_record shape x : Forall (eq 1) shape -> loaded masked (OVoid shape [x]) (OTuple (map snd x))
| ld_records shape recs : ~ Forall (eq 1) shape -> loaded masked (OVoid shape recs) (OVoid (remove Nat.eq_dec 1 shape) recs)
| ld_plain k shape data m : ~ Forall (eq 1) shape -> masked = false \/ k <> KFloat \/ Forall finite_number data ->
    loaded masked (OArr k shape data m) (OArr k (remove Nat.eq_dec 1 shape) data None)
| ld_masked shape data m ms : ~ Forall (eq 1) shape -> masked = true -> ~ Forall finite_number data ->
    Forall2 (fun x b => b = false <-> finite_number x) data ms ->
    loaded masked (OArr KFloat shape data m) (OArr KFloat (remove Nat.eq_dec 1 shape) data (Some ms)).

(** a structure becomes a Bunch with the same field names in the same order, anything else is loaded as above *)
Definition converted (m : bool) (r q : pobj) : Prop :=
  (exists x items, r = OVoid [1; 1] [x] /\ q = ODict true items /\ keys items = keys x) \/ (~ is_struct r /\ loaded m r q).

(** contents of a file by its extension *)
Definition file_contents (mat npz : string -> res (dict pobj)) (fname : string) (xx : dict pobj) : Prop :=
  (exists base, fname = (base ++ ".mat")%string /\ mat fname = Ok xx) \/
  (exists base, fname = (base ++ ".npz")%string /\ npz fname = Ok xx).
Definition hidden (k : string) : Prop := exists rest, k = ("__" ++ rest)%string.

(** ** Listings *)
Definition is_bunch (o : pobj) : Prop := exists items, o = ODict true items.
(** nested Bunches are dictionaries: keys differ *)
Definition tree_ok (o : pobj) : Prop := forall p items, bunch_at o p (ODict true items) -> unique_keys items.
Definition leaf (b : dict pobj) (p : list string) (v : pobj) : Prop := bunch_at (ODict true b) p v /\ ~ is_bunch v.
Definition dotted (p : list string) : string := String.concat "." p.
Definition count_text (n : nat) : string := NilZero.string_of_uint (Nat.to_uint n).
(** the text that describes a value *)
Inductive shown (tx : texts) : pobj -> string -> Prop :=
| sh_short s : String.length s < 50 -> shown tx (OStr s) s
| sh_long s : 50 <= String.length s -> shown tx (OStr s) ("string, " ++ count_text (String.length s) ++ " characters")
| sh_masked k sh d m : shown tx (OArr k sh d (Some m)) ("masked array, " ++ tx_array tx (OArr k sh d (Some m)))
| sh_array k sh d : shown tx (OArr k sh d None) ("ndarray, " ++ tx_array tx (OArr k sh d None))
| sh_records sh r : shown tx (OVoid sh r) ("ndarray, " ++ tx_array tx (OVoid sh r))
| sh_other v : ~ is_text v -> ~ is_array v -> shown tx v (tx_item tx v).
(** one line: name padded to the width, value *)
Definition line_of (w : nat) (name text line : string) : Prop :=
  exists pad, blanks pad /\ String.length pad = w - String.length name /\
    line = (name ++ pad ++ " : " ++ text ++ String (ascii_of_nat 10) EmptyString)%string.

(** ** Strings *)
(** white space: tab to carriage return, the separators 28 to 31, blank, next line, no-break space *)
Definition white_space (c : ascii) : Prop :=
  In (nat_of_ascii c) [9; 10; 11; 12; 13; 28; 29; 30; 31; 32; 133; 160].
Inductive all_white : string -> Prop :=
| aw_nil : all_white EmptyString
| aw_cons c s : white_space c -> all_white s -> all_white (String c s).
(** t is s without trailing white space *)
Definition stripped (s t : string) : Prop :=
  (exists ws, s = (t ++ ws)%string /\ all_white ws) /\ forall a c, t = (a ++ String c EmptyString)%string -> ~ white_space c.
(** element of an object array: a string array of one element becomes that element *)
Inductive unboxed : pobj -> pobj -> Prop :=
| ub_text shape s m : Forall (eq 1) shape -> unboxed (OArr KText shape [s] m) s
| ub_other x : (forall shape s m, x = OArr KText shape [s] m -> ~ Forall (eq 1) shape) -> unboxed x x.
(** element of a string array *)
Inductive stripped_obj : pobj -> pobj -> Prop :=
| so_text s t : stripped s t -> stripped_obj (OStr s) (OStr t)
| so_other x : ~ is_text x -> stripped_obj x x.
Definition left_alone (v : pobj) : Prop :=
  match v with ODict _ _ | OArr KObj _ _ _ | OArr KText [_] _ _ => False | _ => True end.
Inductive cleaned : pobj -> pobj -> Prop :=
| cl_text n data data' m : Forall2 stripped_obj data data' -> cleaned (OArr KText [n] data m) (OArr KObj [n] data' None)
| cl_object n data data' m : Forall2 unboxed data data' -> cleaned (OArr KObj [n] data m) (OArr KObj [n] data' None)
| cl_table a b shape data m : cleaned (OArr KObj (a :: b :: shape) data m) (OArr KObj (a :: b :: shape) data None)
| cl_dict y items items' : Forall2 (fun e e' => fst e = fst e' /\ cleaned (snd e) (snd e')) items items' ->
    cleaned (ODict y items) (ODict true items')
| cl_other v : left_alone v -> cleaned v v.
(** values reached through dictionaries of either kind *)
Inductive dict_at : pobj -> list string -> pobj -> Prop :=
| da_here o : dict_at o [] o
| da_item y k v items p r : In (k, v) items -> dict_at v p r -> dict_at (ODict y items) (k :: p) r.
Definition dicts_ok (o : pobj) : Prop := forall p y items, dict_at o p (ODict y items) -> unique_keys items.
(** elements of string arrays are strings *)
Fixpoint texts_ok (v : pobj) : Prop :=
  match v with
  | OArr KText _ d _ => Forall is_text d
  | OArr KObj _ d _ => (fix all (l : list pobj) : Prop := match l with [] => True | x :: l' => texts_ok x /\ all l' end) d
  | ODict _ items => (fix all (l : list (string * pobj)) : Prop := match l with [] => True | (_, x) :: l' => texts_ok x /\ all l' end) items
  | _ => True
  end.
