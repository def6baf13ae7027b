(** utide/utilities.py:180-331: reading .mat and .npz files into nested Bunches, listing their contents,
    and the clean-up of string arrays; utide/_ut_constants.py:7-14. *)
From Coq Require Import Ascii DecimalString.
From Verif Require Import M_Base M_Bunch.
Open Scope R_scope.

(** dtype.kind of an array: 'f', 'U', 'O', anything else but 'V' *)
Inductive akind := KFloat | KText | KObj | KOther.

(** Python objects that occur in loaded files.  [OArr k shape data mask]: an ndarray, elements in C order; [mask] is
    there for a masked array.  [OVoid shape recs]: an array of records (dtype.kind 'V'), each record a list of fields.
    [ODict true] is a Bunch, [ODict false] a plain dict.  [OOther cls txt]: any other object, with its type name and str(). *)
Inductive pobj :=
| ONum (x : xr)
| OStr (s : string)
| OArr (k : akind) (shape : list nat) (data : list pobj) (mask : option (list bool))
| OVoid (shape : list nat) (recs : list (list (string * pobj)))
| ODict (bunch : bool) (items : list (string * pobj))
| OTuple (l : list pobj)
| OOther (cls txt : string).

(** arr.size *)
Definition asize (shape : list nat) : nat := fold_right Nat.mul 1%nat shape.
(** ndarray.squeeze(): drop the dimensions of length one *)
Definition squeeze (shape : list nat) : list nat := filter (fun n => negb (Nat.eqb n 1)) shape.

(** np.ma.masked_invalid: NaN and infinities *)
Definition invalid (o : pobj) : bool :=
  match o with ONum (Fin _) => false | ONum _ => true | _ => false end.

(** utide/utilities.py:186-206 (_crunch).  Objects that are not arrays have no attribute size.
    A record array with one element gives that record as a tuple. *)
Definition crunch (masked : bool) (o : pobj) : res pobj :=
  match o with
  | OArr k shape data mask =>
      if Nat.eqb (asize shape) 1 then match data with x :: _ => Ok x | [] => Err IndexError end
      else if masked && match k with KFloat => true | _ => false end then
        let m := map invalid data in
        if existsb (fun b => b) m then Ok (OArr k (squeeze shape) data (Some m))
        else Ok (OArr k (squeeze shape) data None)
      else Ok (OArr k (squeeze shape) data None)
  | OVoid shape recs =>
      if Nat.eqb (asize shape) 1 then match recs with r :: _ => Ok (OTuple (map snd r)) | [] => Err IndexError end
      else Ok (OVoid (squeeze shape) recs)
  | _ => Err AttributeError
  end.

(** utide/utilities.py:209-230 (_structured_to_bunch): [arr.dtype] of an object that is neither a string nor an array
    raises AttributeError. *)
Fixpoint structured_to_bunch (masked : bool) (o : pobj) : res pobj :=
  match o with
  | OStr s => Ok (OStr s)
  | OVoid [1; 1]%nat [x] =>
      do b <- (fix fields (l : list (string * pobj)) (acc : dict pobj) : res (dict pobj) :=
                 match l with
                 | [] => Ok acc
                 | (name, v) :: l' => do w <- structured_to_bunch masked v; fields l' (dset acc name w)
                 end) x [];
      Ok (ODict true b)
  | _ => crunch masked o
  end.

(** str.endswith, str.startswith *)
Fixpoint prefix_of (p s : string) : bool :=
  match p, s with
  | EmptyString, _ => true
  | String a p', String b s' => Ascii.eqb a b && prefix_of p' s'
  | String _ _, EmptyString => false
  end.
Fixpoint ends_with (s suffix : string) : bool :=
  String.eqb s suffix || match s with EmptyString => false | String _ s' => ends_with s' suffix end.

(** utide/utilities.py:281-298 (loadbunch).  [mat] and [npz] stand for scipy.io.loadmat and numpy.load: the contents
    of a file, or the exception raised. *)
Definition loadbunch (mat npz : string -> res (dict pobj)) (fname : string) (masked : bool) : res (dict pobj) :=
  do xx <- (if ends_with fname ".mat" then mat fname
            else if ends_with fname ".npz" then npz fname else Err ValueError);
  (fix top (l : dict pobj) (out : dict pobj) : res (dict pobj) :=
     match l with
     | [] => Ok out
     | (k, v) :: l' => do w <- structured_to_bunch masked v; top l' (dset out k w)
     end) (filter (fun kv => negb (prefix_of "__" (fst kv))) xx) [].

(** ** Listing: utide/utilities.py:233-278 *)

(** Texts that Python's formatting supplies: str of a number, of a tuple, of a shape; names of dtypes are part of the last two. *)
Record texts := {
  tx_item : pobj -> string;       (* f"{type(v).__name__} {v}" *)
  tx_array : pobj -> string       (* f"shape {v.shape}, dtype {v.dtype}" *)
}.
(** f"{slen:d}" *)
Definition decimal (n : nat) : string := NilZero.string_of_uint (Nat.to_uint n).

(** utide/utilities.py:244-258: the text shown for one value *)
Definition entry_text (tx : texts) (v : pobj) : string :=
  match v with
  | OStr s => if Nat.ltb (String.length s) 50 then s else ("string, " ++ decimal (String.length s) ++ " characters")%string
  | OArr _ _ _ (Some _) => ("masked array, " ++ tx_array tx v)%string
  | OArr _ _ _ None | OVoid _ _ => ("ndarray, " ++ tx_array tx v)%string
  | _ => tx_item tx v
  end.

(** list.sort() on pairs of strings *)
Definition pair_le (a b : string * string) : bool :=
  if String.eqb (fst a) (fst b) then str_le (snd a) (snd b) else str_le (fst a) (fst b).
Fixpoint insert_pair (x : string * string) (l : list (string * string)) : list (string * string) :=
  match l with [] => [x] | y :: l' => if pair_le x y then x :: l else y :: insert_pair x l' end.
Definition sort_pairs (l : list (string * string)) : list (string * string) := fold_right insert_pair [] l.

(** utide/utilities.py:233-259 (_showmatbunch): the list [elements] is shared and sorted after every level *)
Fixpoint show_items (tx : texts) (v : pobj) (origin : string) (elements : list (string * string)) : list (string * string) :=
  match v with
  | ODict true items =>
      sort_pairs
        ((fix go (l : list (string * pobj)) (el : list (string * string)) : list (string * string) :=
            match l with
            | [] => el
            | (k, w) :: l' => go l' (show_items tx w (origin ++ "." ++ k)%string el)
            end) items elements)
  | _ => (elements ++ [(origin, entry_text tx v)])%list
  end.
Definition showmatbunch_list (tx : texts) (b : dict pobj) : list (string * string) :=
  show_items tx (ODict true b) EmptyString [].

(** [n[1:]] *)
Definition drop1 (s : string) : string := match s with EmptyString => EmptyString | String _ s' => s' end.
(** utide/utilities.py:262-278 (showmatbunch) of loaded contents *)
Definition showmatbunch (tx : texts) (b : dict pobj) : res string :=
  let elist := showmatbunch_list tx b in
  do m <- nmax (map (fun e => String.length (fst e)) elist);
  let namelen := Nat.min 40 m in
  Ok (String.concat EmptyString (map (fun e => (ljust namelen (drop1 (fst e)) ++ " : " ++ snd e ++ newline)%string) elist)).

(** ** Clean-up of strings: utide/utilities.py:301-331 *)

(** str.isspace for one character (code points below 256) *)
Definition is_space (c : ascii) : bool :=
  let n := Ascii.nat_of_ascii c in
  (Nat.leb 9 n && Nat.leb n 13) || (Nat.leb 28 n && Nat.leb n 32) || Nat.eqb n 133 || Nat.eqb n 160.
(** str.rstrip() *)
Fixpoint py_rstrip (s : string) : string :=
  match s with
  | EmptyString => EmptyString
  | String c s' =>
      match py_rstrip s' with
      | EmptyString => if is_space c then EmptyString else String c EmptyString
      | r => String c r
      end
  end.
Definition strip_obj (o : pobj) : pobj := match o with OStr s => OStr (py_rstrip s) | _ => o end.

(** utide/utilities.py:312-320: one element of an object array *)
Definition unbox (x : pobj) : pobj :=
  match x with
  | OArr KText shape [s] _ => if Nat.eqb (asize shape) 1 then s else x
  | _ => x
  end.

(** utide/utilities.py:301-331 (convert_unicode_arrays).  Iterating over an array without dimensions raises TypeError;
    the elements met in an array of two or more dimensions are its rows, which are copied.
    A mask of an object or string array is not carried over (such arrays are not masked by loadbunch). *)
Fixpoint convert_value (val : pobj) : res pobj :=
  match val with
  | OArr KObj shape data _ =>
      match shape with
      | [] => Err TypeError
      | [_] => Ok (OArr KObj shape (map unbox data) None)
      | _ => Ok (OArr KObj shape data None)
      end
  | OArr KText [n] data _ => Ok (OArr KObj [n] (map strip_obj data) None)
  | ODict _ items =>
      do b <- (fix go (l : list (string * pobj)) (out : dict pobj) : res (dict pobj) :=
                 match l with
                 | [] => Ok out
                 | (k, w) :: l' => do x <- convert_value w; go l' (dset out k x)
                 end) items [];
      Ok (ODict true b)
  | _ => Ok val
  end.
Definition convert_unicode_arrays (b : dict pobj) : res (dict pobj) :=
  do r <- convert_value (ODict false b);
  match r with ODict _ items => Ok items | _ => Err TypeError end.
