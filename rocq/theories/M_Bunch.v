(** utide/utilities.py: class Bunch. *)
From Coq Require Import Ascii.
From Verif Require Import M_Base.
Open Scope R_scope.

(** utide/utilities.py:46-55 (__init__): positional dicts first, then keywords. *)
Definition bunch_init {V} (args : list (dict V)) (kwargs : dict V) : dict V :=
  dupdate (fold_left dupdate args []) kwargs.

(** utide/utilities.py:160-168 (_check_strict): is there a key of [kw] not in [self]? *)
Definition bad_keys {V} (self kw : dict V) : list string :=
  filter (fun k => negb (dmem self k)) (dkeys kw).
Definition check_strict {V} (self : dict V) (strict : bool) (kw : dict V) : res unit :=
  if strict then match bad_keys self kw with [] => Ok tt | _ => Err KeyError end else Ok tt.

(** [kw.pop("strict", False)]; utide/utilities.py:137,151 *)
Definition pop_strict (kw : dict pyval) : bool * dict pyval :=
  (match dget kw "strict" with Some v => truthy v | None => false end, ddel kw "strict").

(** utide/utilities.py:127-144 (update_values).  Result: the contents of self afterwards, and the
    exception if one was raised. *)
Definition update_values (self : dict pyval) (args : list (dict pyval)) (kw : dict pyval)
  : dict pyval * res unit :=
  let (strict, kw) := pop_strict kw in
  let newkw := dupdate (fold_left dupdate args []) kw in
  match check_strict self strict newkw with
  | Err e => (self, Err e)
  | Ok _ => (dupdate self (filter (fun kv => dmem self (fst kv)) newkw), Ok tt)
  end.

(** utide/utilities.py:146-158 (update_None) *)
Definition update_None (self : dict pyval) (args : list (dict pyval)) (kw : dict pyval)
  : dict pyval * res unit :=
  let (strict, kw) := pop_strict kw in
  let newkw := dupdate (fold_left dupdate args []) kw in
  match check_strict self strict newkw with
  | Err e => (self, Err e)
  | Ok _ => (dupdate self (filter (fun kv => match dget self (fst kv) with
                                             | Some v => is_none v | None => false end) newkw), Ok tt)
  end.

(** Names found on the class before [__getattr__] is consulted: the public methods of [dict] and
    the methods of Bunch (utide/utilities.py:44-168).  Double-underscore names, which live on the
    class too, are not modelled. *)
Definition class_attrs : list string :=
  ["clear"; "copy"; "fromkeys"; "get"; "items"; "keys"; "pop"; "popitem"; "setdefault"; "update";
   "values"; "str_fmt"; "formatted"; "from_pyfile"; "update_values"; "update_None"; "_check_strict"]%string.

Inductive attr (V : Type) := AItem (v : V) | AMethod (name : string).
Arguments AItem {V} v.
Arguments AMethod {V} name.

(** Attribute read: class attributes win; the property t_mpl (utide/utilities.py:170-177) reads the
    item and lets KeyError escape; otherwise __getattr__ (utide/utilities.py:57-61). *)
Definition bunch_getattr {V} (self : dict V) (name : string) : res (attr V) :=
  if existsb (String.eqb name) class_attrs then Ok (AMethod name)
  else if String.eqb name "t_mpl" then
    match dget self name with Some v => Ok (AItem v) | None => Err KeyError end
  else match dget self name with Some v => Ok (AItem v) | None => Err AttributeError end.

(** utide/utilities.py:63-64 (__setattr__) *)
Definition bunch_setattr {V} (self : dict V) (name : string) (v : V) : dict V := dset self name v.

(** ** Printing: utide/utilities.py:66-100 (formatted with the default format, types=False). *)

(** strings compare as Python does (code points) *)
Fixpoint str_le (a b : string) : bool :=
  match a, b with
  | EmptyString, _ => true
  | String _ _, EmptyString => false
  | String c a', String d b' =>
      let x := Ascii.nat_of_ascii c in let y := Ascii.nat_of_ascii d in
      if Nat.ltb x y then true else if Nat.ltb y x then false else str_le a' b'
  end.

(** [items.sort()]: keys are distinct, so values are never compared. *)
Fixpoint insert_item {V} (kv : string * V) (l : list (string * V)) : list (string * V) :=
  match l with
  | [] => [kv]
  | kv' :: l' => if str_le (fst kv) (fst kv') then kv :: l else kv' :: insert_item kv l'
  end.
Definition sort_items {V} (l : list (string * V)) : list (string * V) := fold_right insert_item [] l.

Fixpoint spaces (n : nat) : string :=
  match n with O => EmptyString | S n' => String " "%char (spaces n') end.
(** format spec [<n] and [>n]: pad to at least n characters *)
Definition ljust (n : nat) (s : string) : string := (s ++ spaces (n - String.length s))%string.
Definition rjust (n : nat) (s : string) : string := (spaces (n - String.length s) ++ s)%string.

Definition newline : string := String (Ascii.ascii_of_nat 10) EmptyString.

(** [max] of a list of lengths: ValueError on an empty sequence. *)
Definition nmax (l : list nat) : res nat :=
  match l with [] => Err ValueError | x :: xs => Ok (fold_left Nat.max xs x) end.

Definition formatted {V} (vstr : V -> string) (self : dict V) : res string :=
  let items := sort_items self in
  do km <- nmax (map (fun kv => String.length (fst kv)) items);
  do vm <- nmax (map (fun kv => String.length (vstr (snd kv))) items);
  let klen := Nat.min 20 km in
  let vlen := Nat.min 40 vm in
  Ok (String.concat EmptyString
        (map (fun kv => (ljust klen (fst kv) ++ " : " ++ rjust vlen (vstr (snd kv)) ++ newline)%string)
             items)).
