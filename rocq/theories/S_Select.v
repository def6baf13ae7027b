(** Specification vocabulary for constituent selection. *)
From Coq Require Import QArith Qreals.
From Verif Require Import M_Base M_Tables M_Const M_Options M_Harmonics M_Select.
Open Scope R_scope.
Open Scope string_scope.

(** n is the i-th constituent of the table, with tabulated frequency f and separation d (cycles/hour) *)
Definition tabulated (i : nat) (n : string) (f d : R) : Prop :=
  nth_error const_name i = Some n /\ nth_error freqR i = Some f /\ nth_error dfR i = Some d.

(** i is the table position of the larger constituent that the i-th one is compared with *)
Definition compared_with (i k : nat) : Prop := nth_error const_ikmpr i = Some (Some (S k)).

(** the table rows, as (name, separation), that pass the resolution criterion *)
Definition passing (minres : R) : list (string * R) :=
  filter (fun p => if Rle_dec minres (snd p) then true else false) (combine const_name dfR).

(** One inference request: inferred name, its reference, complex ratios of the counter-clockwise and
    clockwise parts. *)
Definition request := (string * string * C * C)%type.
Definition turn (deg : R) : C := cis (deg * PI / 180).

(** the request at position j of an inference object: scalar data use one ratio and offset (the
    clockwise ratio is the conjugate), vector data use a second half for the clockwise part *)
Definition request_at (inf : infer_r) (twodim : bool) (j : nat) (q : request) : Prop :=
  exists i r a o, nth_error (inf_inferred inf) j = Some i /\ nth_error (inf_reference inf) j = Some r /\
    nth_error (inf_amp inf) j = Some a /\ nth_error (inf_off inf) j = Some o /\
    if twodim then
      exists a2 o2, nth_error (inf_amp inf) (j + length (inf_inferred inf)) = Some a2 /\
        nth_error (inf_off inf) (j + length (inf_inferred inf)) = Some o2 /\
        q = (i, r, Cmult (RtoC a) (turn o), Cmult (RtoC a2) (turn (- o2)))
    else q = (i, r, Cmult (RtoC a) (turn o), Cmult (RtoC a) (turn (- o))).

(** lengths as checked by solve *)
Definition infer_shape (inf : infer_r) (twodim : bool) : Prop :=
  let n := length (inf_inferred inf) in
  length (inf_reference inf) = n /\
  let m := if twodim then (2 * n)%nat else n in length (inf_amp inf) = m /\ length (inf_off inf) = m.

(** the requests as stored in one reference structure of the selection *)
Definition stored (r : refstruct) : list request :=
  map (fun q => (fst (fst q), r_name r, snd (fst q), snd q))
      (combine (combine (r_Iname r) (r_Rp r)) (r_Rm r)).


(** names, table positions and frequencies (linearised at tref) that belong together *)
Definition lin_aligned (tref : R) (names : list string) (lind : list nat) (frq : list R) : Prop :=
  map (fun i => nth_error const_name i) lind = map Some names /\
  frq = map (fun i => nth i (linearized_freqs tref) 0) lind.


(** distinct names in the order of their first occurrence *)
Fixpoint distinct (l : list string) : list string :=
  match l with [] => [] | x :: l' => x :: remove string_dec x (distinct l') end.
(** the names inferred from reference r, in input order *)
Definition inferred_from (inf : infer_r) (r : string) : list string :=
  map fst (filter (fun p => if string_dec (snd p) r then true else false)
                  (combine (inf_inferred inf) (inf_reference inf))).
(** names that take no part in the inference *)
Definition others (inf : infer_r) (names : list string) : list string :=
  filter (fun n => if in_dec string_dec n (inf_inferred inf ++ inf_reference inf) then false else true) names.
(** the names asked for: an explicit list, or the passing ones *)
Definition requested (minres : R) (inc : pyval) (names : list string) : Prop :=
  inc = PSeq (map PStr names) \/ (inc = PStr "auto" /\ names = map fst (passing minres)).
