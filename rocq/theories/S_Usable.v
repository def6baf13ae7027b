(** Specification vocabulary for what reconstruct makes of the result of an analysis. *)
From Verif Require Import M_Base.

(** numbers exactly at the valid times, NaN elsewhere *)
Definition numbers_exactly (times values : list xr) : Prop :=
  length values = length times /\
  forall i x y, nth_error times i = Some x -> nth_error values i = Some y ->
    ((exists r, y = Fin r) <-> (exists r, x = Fin r)) /\ (y = NaN <-> ~ exists r, x = Fin r).
Definition only_nan (values : list xr) : Prop := Forall (fun y => y = NaN) values.
