(** Specification vocabulary for rounded angles. *)
From Coq Require Import Reals.
From Verif Require Import M_Float.
Open Scope R_scope.

(** y is x reduced to [0, b), exactly *)
Definition reduced (x b y : R) : Prop := 0 <= y < b /\ exists n : Z, x = y + IZR n * b.
(** the library's arctan2 at small positive angles: a positive binary64 value at most twice y/x *)
Definition arctan2_rough (at2 : R -> R -> R) : Prop := forall y x, is64 y -> is64 x -> 0 < x -> x <= 2 ^ 1000 * y -> y <= x ->
  is64 (at2 y x) /\ 0 < at2 y x <= 2 * (y / x).
