(** Specification vocabulary for what reconstruct returns. *)
From Verif Require Import M_Base M_Lib M_Options M_Time M_Select M_Diag M_Solve M_Recon S_Recon S_Model.
Open Scope R_scope.
Open Scope string_scope.

(** reconstruct, called with c, the times ts and all constituents, returns the values zs (u + iv, or h for scalars) *)
Definition returns (L : lib) (c : coef) (ts : list R) (zs : list C) : Prop :=
  exists o, reconstruct L (TNum (map Fin ts)) 1 c (PStr "python") CNone 0 0 = Ok o /\
    if o_twodim (c_opt c) then ro_series o = Vector (map (fun z => Fin (fst z)) zs) (map (fun z => Fin (snd z)) zs)
    else ro_series o = Scalar (map (fun z => Fin (fst z)) zs) /\ forall z, In z zs -> snd z = 0.

(** whatever the times and the kind of time, reconstruct with all constituents returns the same for both *)
Definition predict_alike (c c' : coef) : Prop :=
  forall L t nd e, reconstruct L t nd c e CNone 0 0 = reconstruct L t nd c' e CNone 0 0.

(** sum of squared differences of samples and values *)
Definition distance2 (sm : list (R * C)) (zs : list C) : R := norm2 (csub (map snd sm) zs).
(** samples less values *)
Definition less (sm : list (R * C)) (zs : list C) : list (R * C) := combine (map fst sm) (csub (map snd sm) zs).
