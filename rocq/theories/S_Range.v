(** Specification vocabulary for the size, the period and the smoothness of what reconstruct predicts. *)
From Verif Require Import M_Base M_Lib M_Options M_Time M_Harmonics M_Select M_Diag M_Solve M_Recon S_Basis S_Order S_Recon.
Open Scope R_scope.
Open Scope string_scope.

(** reconstruct, called with the one time x, returns the value z (u + iv, or h for scalars) *)
Definition gives (L : lib) (c : coef) (k : constit_arg) (mS mP x : R) (z : C) : Prop :=
  exists o, reconstruct L (TNum [Fin x]) 1 c (PStr "python") k mS mP = Ok o /\
    if o_twodim (c_opt c) then ro_series o = Vector [Fin (fst z)] [Fin (snd z)]
    else ro_series o = Scalar [Fin (fst z)] /\ snd z = 0.
(** mean and trend at time x *)
Definition undisturbed (c : coef) (x : R) (b : C) : Prop :=
  if o_twodim (c_opt c) then background c (c_umean c) (c_uslope c) x = Some (fst b) /\ background c (c_vmean c) (c_vslope c) x = Some (snd b)
  else background c (c_mean c) (c_slope c) x = Some (fst b) /\ snd b = 0.
(** the tidal part of what reconstruct returns for time x *)
Definition predicts (L : lib) (c : coef) (k : constit_arg) (mS mP x : R) (z : C) : Prop :=
  exists b, undisturbed c x b /\ gives L c k mS mP x (Cplus b z).

(** amplitude, or semi-major axis, of a constituent *)
Definition amplitude (c : coef) (r : crow) : R :=
  match (if o_twodim (c_opt c) then w_Lsmaj r else w_A r) with Some (Some a) => a | _ => 0 end.
Definition frequency (r : crow) : R := match w_frq r with Some f => f | None => 0 end.
(** its nodal factor at time x *)
Definition factor (c : coef) (x : R) (r : crow) : R :=
  match w_lind r with
  | Some i => match F_at (flags_of (c_opt c)) (c_reftime c) (c_lat c) x i with Some f => f | None => 0 end
  | None => 0
  end.
(** the constituents that take part *)
Definition included (c : coef) (k : constit_arg) (mS mP : R) : list crow := filter (chosen c k mS mP) (rows c).
Definition total_of (f : crow -> R) (l : list crow) : R := fold_right Rplus 0 (map f l).

(** nodal corrections are off or taken at the reference time, and so are the phases *)
Definition steady (o : optr) : Prop :=
  (o_nodsatnone o = true \/ o_nodsatlint o = true) /\ (o_gwchnone o = true \/ o_gwchlint o = true).
