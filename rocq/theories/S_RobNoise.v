(** Specification vocabulary for the intervals of an analysis with sample weights and coloured noise. *)
From Verif Require Import M_Base M_Lib.
Open Scope R_scope.

(** the residuals times the sample weights *)
Definition weighted (w : list R) (rs : list C) : list C := map (fun q => Cmult (RtoC (fst q)) (snd q)) (combine w rs).
