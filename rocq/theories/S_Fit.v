(** What is assumed of the external least-squares routine. *)
From Verif Require Import M_Base M_Lib M_Time M_Slvinit S_Slv.
Open Scope R_scope.

(** numpy.linalg.lstsq returns one coefficient per column *)
Definition lstsq_shape (L : lib) : Prop :=
  forall B x rc m r k s, l_lstsq L B x rc = Ok (m, r, k, s) -> forall row, In row B -> length m = length row.

(** an ndarray holds as many elements as its shape says (1-D arrays only) *)
Definition sized {A} (len : A -> nat) (a : pyarr A) : Prop := forall n d m, a = NdArr [n] d m -> len d = n.
Definition arrays_ok (t : pyarr tarray) (u : pyarr (list xr)) (v : option (pyarr (list xr))) : Prop :=
  sized time_len t /\ sized (@length xr) u /\ match v with Some v => sized (@length xr) v | None => True end.
