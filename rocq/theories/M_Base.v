(** Shared vocabulary of the model: exceptions as values, Python option values,
    dictionaries, and the extended reals used for values that may be NaN or infinite. *)
From Coq Require Export Reals ZArith Bool Arith String.
From Coquelicot Require Export Coquelicot.
From Coq Require Export List.
Export ListNotations.
Open Scope R_scope.

(** ** Exceptions as values *)

(** Python exception classes raised in /repo/utide/*.py (the message is not modelled). *)
Inductive exn :=
| ValueError | KeyError | TypeError | AttributeError | IndexError
| NotImplementedError | LinAlgError | NameError.

Inductive res (A : Type) : Type := Ok (a : A) | Err (e : exn).
Arguments Ok {A} a.
Arguments Err {A} e.

Definition bind {A B} (x : res A) (f : A -> res B) : res B :=
  match x with Ok a => f a | Err e => Err e end.
Notation "'do' x <- e1 ; e2" := (bind e1 (fun x => e2))
  (at level 200, x pattern, e1 at level 100, e2 at level 200).

Fixpoint mapM {A B} (f : A -> res B) (l : list A) : res (list B) :=
  match l with
  | [] => Ok []
  | x :: xs => do y <- f x; do ys <- mapM f xs; Ok (y :: ys)
  end.

(** numpy datetime64 units that occur for dates and times (datetime.datetime has unit [UUs]). *)
Inductive tunit := UDay | UHour | UMin | USec | UMs | UUs | UNs.

(** ** Python values that appear as option values (utide/_solve.py:16-31 and user input).
    Numbers are exact reals.  [PDict true d] is a [Bunch], [PDict false d] a plain dict.
    [PDate u n] is a date or date-time: n units u after 1970-01-01T00:00. *)
Inductive pyval :=
| PNone
| PBool (b : bool)
| PNum (x : R)
| PStr (s : string)
| PDate (u : tunit) (n : Z)
| PSeq (l : list pyval)
| PDict (is_bunch : bool) (d : list (string * pyval)).

(** Python truth value. *)
Definition truthy (v : pyval) : bool :=
  match v with
  | PNone => false
  | PBool b => b
  | PNum x => if Req_EM_T x 0 then false else true
  | PStr s => negb (String.eqb s EmptyString)
  | PDate _ _ => true
  | PSeq l => match l with [] => false | _ => true end
  | PDict _ d => match d with [] => false | _ => true end
  end.

(** [v == "literal"] for a string literal. *)
Definition eq_str (v : pyval) (s : string) : bool :=
  match v with PStr s' => String.eqb s' s | _ => false end.

Definition is_none (v : pyval) : bool := match v with PNone => true | _ => false end.

(** ** Dictionaries: association lists in insertion order (Python dict). *)
Section Dict.
Context {V : Type}.
Definition dict := list (string * V).

Fixpoint dget (d : dict) (k : string) : option V :=
  match d with
  | [] => None
  | (k', v) :: d' => if String.eqb k k' then Some v else dget d' k
  end.

(** [d[k] = v]: overwrite in place or append. *)
Fixpoint dset (d : dict) (k : string) (v : V) : dict :=
  match d with
  | [] => [(k, v)]
  | (k', v') :: d' => if String.eqb k k' then (k', v) :: d' else (k', v') :: dset d' k v
  end.

Definition dmem (d : dict) (k : string) : bool :=
  match dget d k with Some _ => true | None => false end.

(** [d.update(d2)] *)
Definition dupdate (d d2 : dict) : dict :=
  fold_left (fun acc kv => dset acc (fst kv) (snd kv)) d2 d.

(** [d.pop(k, default)]: removal part. *)
Definition ddel (d : dict) (k : string) : dict :=
  filter (fun kv => negb (String.eqb k (fst kv))) d.

Definition dkeys (d : dict) : list string := map fst d.
End Dict.
Arguments dict V : clear implicits.

(** ** Lists *)

(** [np.compress(mask, l)] / boolean indexing. *)
Fixpoint compress {A} (mask : list bool) (l : list A) : list A :=
  match mask, l with
  | b :: mask', x :: l' => if b then x :: compress mask' l' else compress mask' l'
  | _, _ => []
  end.

(** Fancy indexing [l[ind]] with an index list; an index out of range is IndexError. *)
Definition take_idx {A} (l : list A) (ind : list nat) : res (list A) :=
  mapM (fun i => match nth_error l i with Some x => Ok x | None => Err IndexError end) ind.

(** [l[i] = v] for an in-range [i]; out of range leaves the list unchanged
    (never used out of range; see the table integrity theorems). *)
Fixpoint list_set {A} (l : list A) (i : nat) (v : A) : list A :=
  match l, i with
  | [], _ => []
  | _ :: l', O => v :: l'
  | x :: l', S i' => x :: list_set l' i' v
  end.

(** [list.index]-like search: position of the first element satisfying [p]. *)
Fixpoint find_index {A} (p : A -> bool) (l : list A) : option nat :=
  match l with
  | [] => None
  | x :: l' => if p x then Some O else option_map S (find_index p l')
  end.

(** [enumerate] *)
Definition enumerate {A} (l : list A) : list (nat * A) := combine (seq 0 (length l)) l.

(** ** Sums *)
Definition rsum (l : list R) : R := fold_right Rplus 0 l.
Definition csum (l : list C) : C := fold_right Cplus (RtoC 0) l.

(** Products of vectors: [np.dot] of two 1-D arrays (plain, no conjugation). *)
Definition rdot (a b : list R) : R := rsum (map (fun p => fst p * snd p) (combine a b)).
Definition cdot (a b : list C) : C := csum (map (fun p => Cmult (fst p) (snd p)) (combine a b)).
(** [np.dot] of a matrix (list of rows) and a vector. *)
Definition cmatvec (B : list (list C)) (m : list C) : list C := map (fun row => cdot row m) B.

(** ** Extended values: a finite real, an infinity, or NaN (IEEE special values without rounding,
    zeros unsigned). *)
Inductive xr := Fin (r : R) | PInf | NInf | NaN.

Definition xneg (x : xr) : xr :=
  match x with Fin a => Fin (- a) | PInf => NInf | NInf => PInf | NaN => NaN end.

Definition xadd (x y : xr) : xr :=
  match x, y with
  | NaN, _ | _, NaN => NaN
  | Fin a, Fin b => Fin (a + b)
  | PInf, NInf | NInf, PInf => NaN
  | PInf, _ | _, PInf => PInf
  | NInf, _ | _, NInf => NInf
  end.
Definition xsub (x y : xr) : xr := xadd x (xneg y).

(** sign of a real as an infinity, NaN for 0 (used for inf*x and x/0) *)
Definition sgn_inf (a : R) : xr :=
  if Rlt_dec 0 a then PInf else if Rlt_dec a 0 then NInf else NaN.

Definition xmul (x y : xr) : xr :=
  match x, y with
  | NaN, _ | _, NaN => NaN
  | Fin a, Fin b => Fin (a * b)
  | PInf, Fin a | Fin a, PInf => sgn_inf a
  | NInf, Fin a | Fin a, NInf => sgn_inf (- a)
  | PInf, PInf | NInf, NInf => PInf
  | PInf, NInf | NInf, PInf => NInf
  end.

(** Division; the divisor zero counts as +0. *)
Definition xdiv (x y : xr) : xr :=
  match x, y with
  | NaN, _ | _, NaN => NaN
  | Fin a, Fin b => if Req_EM_T b 0 then sgn_inf a else Fin (a / b)
  | Fin _, (PInf | NInf) => Fin 0
  | PInf, Fin b => if Rle_dec 0 b then PInf else NInf
  | NInf, Fin b => if Rle_dec 0 b then NInf else PInf
  | (PInf | NInf), (PInf | NInf) => NaN
  end.

Definition xsqrt (x : xr) : xr :=
  match x with
  | Fin a => if Rlt_dec a 0 then NaN else Fin (sqrt a)
  | PInf => PInf
  | NInf | NaN => NaN
  end.

Definition xabs (x : xr) : xr :=
  match x with Fin a => Fin (Rabs a) | PInf | NInf => PInf | NaN => NaN end.

Definition xsq (x : xr) : xr := xmul x x.

(** [x >= y]: false when either side is NaN. *)
Definition xge (x y : xr) : bool :=
  match x, y with
  | NaN, _ | _, NaN => false
  | Fin a, Fin b => if Rle_dec b a then true else false
  | PInf, _ => true
  | _, NInf => true
  | _, _ => false
  end.
Definition xlt (x y : xr) : bool :=
  match x, y with NaN, _ | _, NaN => false | _, _ => negb (xge x y) end.

Definition xsum (l : list xr) : xr := fold_right xadd (Fin 0) l.

(** [np.isfinite]-style view used by [np.ma.masked_invalid]: None when not finite. *)
Definition finite (x : xr) : option R := match x with Fin a => Some a | _ => None end.

(** ** Real arithmetic helpers *)

(** Python/numpy [x % m] for m > 0 (floored modulo, exact arithmetic). *)
Definition pymod (x m : R) : R := x - m * IZR (Int_part (x / m)).

(** C [fmod(x, 1)] (truncated modulo; result has the sign of x). *)
Definition rtrunc (x : R) : Z := if Rle_dec 0 x then Int_part x else (- Int_part (- x))%Z.
Definition fmod1 (x : R) : R := x - IZR (rtrunc x).

(** [np.exp(1j * x)] *)
Definition cis (x : R) : C := (cos x, sin x).

(** [np.angle(z)] in radians: atan2(imag, real), with angle(0) = 0. *)
Definition angle (z : C) : R :=
  let (x, y) := z in
  if Rlt_dec 0 x then atan (y / x)
  else if Rlt_dec x 0 then (if Rle_dec 0 y then atan (y / x) + PI else atan (y / x) - PI)
  else if Rlt_dec 0 y then PI / 2
  else if Rlt_dec y 0 then - (PI / 2)
  else 0.
(** [np.angle(z, deg=True)] *)
Definition angle_deg (z : C) : R := angle z * (180 / PI).
