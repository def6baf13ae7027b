(** Specification vocabulary for scaled and shifted data. *)
From Verif Require Import M_Base M_Lib.
Open Scope R_scope.

(** k * x + d, element by element *)
Definition affine (k : R) (x d : list C) : list C := map (fun p => Cplus (Cmult (RtoC k) (fst p)) (snd p)) (combine x d).
