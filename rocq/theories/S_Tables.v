(** Specification vocabulary for the constituent tables. *)
From Coq Require Import QArith Qreals.
From Verif Require Import M_Base M_Tables M_Const.
Open Scope R_scope.

(** constituent number k is a shallow-water constituent: the table lists rows for it *)
Definition is_shallow (k : nat) : Prop := exists i, nth_error const_ishallow k = Some (Some i).
(** constituent number k is a primary constituent: it has Doodson numbers *)
Definition is_primary (k : nat) : Prop := exists d, nth_error const_doodson k = Some (Some d).

(** row r of the shallow-water table says: constituent k contains c times constituent j (0-based) *)
Definition shallow_row (r k j : nat) (c : Q) : Prop :=
  nth_error shallow_iconst r = Some (S k) /\ nth_error shallow_iname r = Some (S j) /\
  nth_error shallow_coef r = Some c.

(** number of constituents *)
Definition n_constits : nat := 146.

(** the rows of constituent k, in table order *)
Definition rows_of (k : nat) : list nat :=
  filter (fun r => Nat.eqb (nth r shallow_iconst 0%nat) (S k)) (seq 0 (length shallow_coef)).
(** constituent referred to by row r, and its multiplier *)
Definition row_parent (r : nat) : nat := (nth r shallow_iname 0 - 1)%nat.
Definition row_coef (r : nat) : R := Q2R (nth r shallow_coef 0%Q).
