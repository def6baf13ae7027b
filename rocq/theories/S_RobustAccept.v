(** Specification vocabulary for the robust analyses that give a result. *)
From Coq Require Import Permutation.
From Verif Require Import M_Base M_Lib M_Options M_Diag M_Solve S_Dict S_Options S_Recon S_Model S_Robust S_Accept.
Open Scope R_scope.
Open Scope string_scope.

(** numpy.linalg.lstsq(a, b, rcond) on a matrix with independent columns and more rows than columns gives a solution
    together with its sum of squares *)
Definition lstsq_sums (L : lib) (rcond : pyval) : Prop := forall n B x, (n < length B)%nat -> length x = length B ->
  (forall row, In row B -> length row = n) -> full_rank n B -> exists m r k s, l_lstsq L B x rcond = Ok (m, [r], k, s).
(** for other matrices the sum of squares is missing *)
Definition lstsq_no_sums (L : lib) : Prop := forall B x rcond m r k s, l_lstsq L B x rcond = Ok (m, r, k, s) ->
  (length B <= length m)%nat -> r = [].
(** numpy.linalg.pinv of a matrix with independent columns *)
Definition pinv_exact (L : lib) : Prop := forall n X, X <> [] -> (forall row, In row X -> length row = n) -> full_rank n X ->
  exists P, l_pinv L X = Ok P /\ length P = n /\ projection (mat_mul X P) (length X).

(** every sample can be spared: the others still tell the coefficients apart *)
Definition spare (c : coef) (sm : list (R * C)) : Prop :=
  forall a s b, sm = (a ++ s :: b)%list -> identifiable c (map fst (a ++ b)).
(** no coefficients for these constituents meet more than half of the samples exactly *)
Definition scattered (c : coef) (sm : list (R * C)) : Prop :=
  forall c1 met rest, rival c c1 -> Permutation sm (met ++ rest) ->
    Forall (fun s => yields c1 (fst s) (snd s)) met -> (length met <= length rest)%nat.

(** the same options but for the method, the intervals and the order of the constituents *)
Definition options_but_method (opts opts' : dict pyval) : Prop :=
  forall k x, k <> "method" -> k <> "robust_kw" -> k <> "conf_int" -> k <> "order_constit" -> k <> "white" -> (setting opts k x <-> setting opts' k x).
