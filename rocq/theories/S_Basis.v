(** The basis function of one constituent at one time. *)
From Verif Require Import M_Base M_Harmonics.
Open Scope R_scope.

(** nodal amplitude factor, nodal phase correction and astronomical argument (cycles) of constituent
    number i at time x; None when not finite *)
Definition F_at (g : ngflgs) (tref lat x : R) (i : nat) : option R :=
  if NodsatNone g then Some 1 else nth i (F_col (if NodsatLint g then tref else x) lat) None.
Definition U_at (g : ngflgs) (tref lat x : R) (i : nat) : option R :=
  if NodsatNone g then Some 0 else nth i (U_col (if NodsatLint g then tref else x) lat) None.
Definition V_at (g : ngflgs) (tref x : R) (i : nat) : option R :=
  let lin := 24 * (x - tref) * nth i (linearized_freqs tref) 0 in
  if GwchNone g then Some lin
  else if GwchLint g then match nth i (V_col tref) None with Some v => Some (v + lin) | None => None end
  else nth i (V_col x) None.

(** F * exp (2 i pi (U + V)) *)
Definition wave (f u v : option R) : option C :=
  match f, u, v with
  | Some f, Some u, Some v => Some (f * cos (2 * PI * (u + v)), f * sin (2 * PI * (u + v)))
  | _, _, _ => None
  end.
Definition basis_at (g : ngflgs) (tref lat x : R) (i : nat) : option C :=
  wave (F_at g tref lat x i) (U_at g tref lat x i) (V_at g tref x i).
