(** Specification vocabulary for the analyses with sample weights whose intervals can be computed. *)
From Verif Require Import M_Base.
Open Scope R_scope.

(** the times of the samples with positive weight *)
Definition heeded (w : list R) (sm : list (R * C)) : list R :=
  flat_map (fun p => if Rlt_dec 0 (fst p) then [fst (snd p)] else []) (combine w sm).
