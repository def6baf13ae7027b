(** Specification vocabulary for rounded times. *)
From Flocq Require Import Core.
From Verif Require Import M_Base M_Time S_Time.
Open Scope R_scope.

(** y stands for the day number x with an error of at most e days, if x lies in the years 1 to 9999 (the days 1 to 3652059) *)
Definition near (e : R) (x y : xr) : Prop :=
  match x with Fin r => exists s, y = Fin s /\ (0 <= r <= 4000000 -> Rabs (s - r) <= e) | _ => y = x end.
(** the epoch, if there is one, is in these years *)
Definition usual_epoch (parse : string -> option Z) (e : pyval) : Prop := forall off, epoch_value parse e off -> 0 <= off <= 4000000.
