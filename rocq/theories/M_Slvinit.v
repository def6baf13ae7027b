(** utide/_solve.py:465-562 (_slvinit): argument checks, removal of invalid samples, even-spacing
    decision, record length and reference time. *)
From Verif Require Import M_Base M_Time.
Open Scope R_scope.

(** An array argument: a plain Python sequence (no .shape), or an ndarray with its shape, its
    (flattened) contents and the mask of a masked array ([] when not masked). *)
Inductive pyarr (A : Type) :=
| PyList (data : A)
| NdArr (shape : list nat) (data : A) (mask : list bool).
Arguments PyList {A} data.
Arguments NdArr {A} shape data mask.

Definition arr_shape {A} (a : pyarr A) : res (list nat) :=
  match a with PyList _ => Err AttributeError | NdArr s _ _ => Ok s end.
Definition arr_data {A} (a : pyarr A) : A :=
  match a with PyList d => d | NdArr _ d _ => d end.
Definition arr_mask {A} (a : pyarr A) : list bool :=
  match a with PyList _ => [] | NdArr _ _ m => m end.

Definition shape_eqb (a b : list nat) : bool := if list_eq_dec Nat.eq_dec a b then true else false.

(** utide/_solve.py:466-475 *)
Definition check_args {T U} (t : pyarr T) (u : pyarr U) (v : option (pyarr U)) (lat : option R)
  : res unit :=
  match lat with
  | None => Err ValueError
  | Some _ =>
      do st <- arr_shape t;
      do su <- arr_shape u;
      if negb (shape_eqb st su) || negb (Nat.eqb (length st) 1) || negb (Nat.eqb (length su) 1)
      then Err ValueError
      else match v with
      | None => Ok tt
      | Some v => do sv <- arr_shape v;
                  if negb (shape_eqb sv su) then Err ValueError else Ok tt
      end
  end.

(** [np.ma.masked_invalid(a)] for an array with an optional mask; None = masked. *)
Fixpoint masked_invalid (d : list xr) (mask : list bool) : list (option R) :=
  match d with
  | [] => []
  | x :: d' => (if hd false mask then None else finite x) :: masked_invalid d' (tl mask)
  end.

Definition is_good {A} (c : option A) : bool := match c with Some _ => true | None => false end.
(** [np.ma.is_masked] *)
Definition is_masked {A} (l : list (option A)) : bool := existsb (fun c => negb (is_good c)) l.
(** [~np.ma.getmaskarray(a)] *)
Definition goodmask {A} (l : list (option A)) : list bool := map is_good l.
(** [.filled()]: numpy's default fill value for floats is 1e20 *)
Definition filled (l : list (option R)) : list R :=
  map (fun c => match c with Some x => x | None => 10 ^ 20 end) l.
(** [.compressed()] *)
Fixpoint somes {A} (l : list (option A)) : list A :=
  match l with [] => [] | Some x :: l' => x :: somes l' | None :: l' => somes l' end.

(** utide/_solve.py:482-510: from masked tin, uin, vin to tin, t, u, v *)
Definition clean (tin uin : list (option R)) (vin : option (list (option R)))
  : list R * list R * list R * option (list R) :=
  let good := goodmask tin in
  let uin := if is_masked tin then compress good uin else uin in
  let vin := if is_masked tin then option_map (compress good) vin else vin in
  let tin := somes tin in
  if is_masked uin || match vin with Some v => is_masked v | None => false end then
    let good := match vin with
                | Some v => map (fun p => andb (fst p) (snd p)) (combine (goodmask v) (goodmask uin))
                | None => goodmask uin
                end in
    (tin, compress good tin, filled (compress good uin),
     option_map (fun v => filled (compress good v)) vin)
  else (tin, tin, filled uin, option_map filled vin).

(** ** Even spacing (utide/_solve.py:515-528) *)
Fixpoint diffs (l : list R) : list R :=
  match l with
  | x :: ((y :: _) as l') => (y - x) :: diffs l'
  | _ => []
  end.

Definition mean (l : list R) : R := rsum l / INR (length l).
(** [np.var]; NaN (here None) of an empty array *)
Definition var (l : list R) : option R :=
  match l with
  | [] => None
  | _ => let m := mean l in Some (mean (map (fun x => (x - m) * (x - m)) l))
  end.
(** [np.unique] as a set of distinct values (order is irrelevant for the variance) *)
Definition uniqueR (l : list R) : list R := nodup Req_EM_T l.

(** [np.finfo(np.float64).eps] *)
Definition eps : R := / 2 ^ 52.

Definition equi_of (tin : list R) : bool :=
  match var (uniqueR (diffs tin)) with
  | Some s => if Rlt_dec s eps then true else false
  | None => false
  end.

(** [np.ptp]; ValueError on an empty array *)
Definition rmax (l : list R) (d : R) : R := fold_left Rmax l d.
Definition rmin (l : list R) (d : R) : R := fold_left Rmin l d.
Definition ptp (l : list R) : res R :=
  match l with [] => Err ValueError | x :: l' => Ok (rmax l' x - rmin l' x) end.

(** [lor * n / (n - 1)] *)
Definition elor_of (lor : R) (n : nat) : xr := xdiv (Fin (lor * INR n)) (Fin (INR n - 1)).
(** [0.5 * (t[0] + t[-1])] of a non-empty array *)
Definition midpoint (l : list R) : R := / 2 * (hd 0 l + last l 0).

Record slv := {
  si_tin : list R;
  si_t : list R;
  si_u : list R;
  si_v : option (list R);
  si_tref : R;
  si_lor : R;
  si_elor : xr;
  si_equi : bool
}.

(** utide/_solve.py:465-528, given the normalised times *)
Definition slv_core (tin uin : list (option R)) (vin : option (list (option R))) : res slv :=
  let '(tin, t, u, v) := clean tin uin vin in
  if equi_of tin then
    do lor <- ptp tin;
    Ok {| si_tin := tin; si_t := t; si_u := u; si_v := v; si_tref := midpoint tin;
          si_lor := lor; si_elor := elor_of lor (length tin); si_equi := true |}
  else
    do lor <- ptp t;
    Ok {| si_tin := tin; si_t := t; si_u := u; si_v := v; si_tref := midpoint t;
          si_lor := lor; si_elor := elor_of lor (length t); si_equi := false |}.

(** utide/_solve.py:465-528.  [np.asarray] at utide/_time_conversion.py:64 drops the mask of a
    masked time array, hence the empty mask for the times. *)
Definition slvinit (parse : string -> option Z) (t : pyarr tarray) (u : pyarr (list xr))
    (v : option (pyarr (list xr))) (lat : option R) (epoch : pyval) : res slv :=
  do _ <- check_args t u v lat;
  do tn <- normalize_time parse (arr_data t) epoch;
  slv_core (masked_invalid tn []) (masked_invalid (arr_data u) (arr_mask u))
           (option_map (fun v => masked_invalid (arr_data v) (arr_mask v)) v).
