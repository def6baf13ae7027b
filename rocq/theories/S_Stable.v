(** Specification vocabulary for changes in the data and for chance. *)
From Coq Require Import Permutation.
From Verif Require Import M_Base M_Lib M_Options M_Time M_Slvinit M_Select M_Diag M_Solve M_Recon S_Dict S_Options S_Order S_Slv S_Recon S_Model S_Output.
Open Scope R_scope.
Open Scope string_scope.

(** real inner product of two complex numbers (plane vectors) *)
Definition inner (a b : C) : R := fst a * fst b + snd a * snd b.

(** only the sample number j differs, by delta *)
Definition one_changed (sm sm' : list (R * C)) (j : nat) (delta : C) : Prop :=
  map fst sm' = map fst sm /\ (j < length sm)%nat /\
  forall i, (i < length sm)%nat -> nth i (map snd sm') (RtoC 0) = if Nat.eqb i j then Cplus (nth i (map snd sm) (RtoC 0)) delta else nth i (map snd sm) (RtoC 0).

(** the same routines but for the random numbers: f instead of numpy.random.multivariate_normal *)
Definition with_mvn (L : lib) (f : nat -> list R -> rmat -> nat -> res rmat) : lib :=
  {| l_parse := l_parse L; l_lstsq := l_lstsq L; l_pinv := l_pinv L; l_inv := l_inv L; l_svd := l_svd L; l_eigvals := l_eigvals L;
     l_is_PD := l_is_PD L; l_spacing := l_spacing L; l_mvn := f; l_lomb := l_lomb L; l_argsort := l_argsort L |}.
