(** Specification vocabulary for the keywords of the robust fit and for a robust analysis of a record. *)
From Coq Require Import String.
From Verif Require Import M_Base M_Lib M_Diag M_Options M_Solve S_Dict S_Options S_Model S_Robust.
Open Scope R_scope.

(** the keywords of robustfit and the values used for those not given (utide/robustfit.py:122-130) *)
Definition robust_documented : list (string * pyval) :=
  [("weight_function", PStr "bisquare"); ("tune", PNone); ("rcond", PNum 1); ("tol", PNum 0.001); ("maxit", PNum 50)]%string.
Definition kw_setting (d : list (string * pyval)) (k : string) (v : pyval) : Prop :=
  entry d k v \/ (~ In k (keys d) /\ entry robust_documented k v).

(** values that serve as numbers: True counts as 1 and False as 0 *)
Inductive number : pyval -> R -> Prop :=
| nb_num x : number (PNum x) x
| nb_true : number (PBool true) 1
| nb_false : number (PBool false) 0.

(** robust_kw = d selects weight function name, tuning constant tune (None: the default of the weight
    function), the rcond of the least-squares routine, tolerance and largest number of passes *)
Record robust_settings (d : list (string * pyval)) (name : string) (tune : option R) (rcond : pyval) (tol : R) (maxit : nat) : Prop := {
  rs_known : incl (keys d) (keys robust_documented);
  rs_name : kw_setting d "weight_function" (PStr name);
  rs_tune : match tune with None => kw_setting d "tune" PNone | Some x => exists v, kw_setting d "tune" v /\ number v x end;
  rs_rcond : kw_setting d "rcond" rcond;
  rs_tol : exists v, kw_setting d "tol" v /\ number v tol;
  rs_maxit : exists v, kw_setting d "maxit" v /\ number v (INR maxit) }.

(** for a scalar series only the real part of a modelled value counts *)
Definition seen (o : optr) (z : C) : C := if o_twodim o then z else RtoC (fst z).

(** X is a model matrix for the analysis c of the samples sm: one row per sample, all of one length; the values
    reconstructed from any rival of c are X times some coefficients *)
Record model_matrix (c : coef) (sm : list (R * C)) (X : cmat) : Prop := {
  mm_rows : length X = length sm;
  mm_cols : exists n, (0 < n)%nat /\ Forall (fun row => length row = n) X;
  mm_rivals : forall c', rival c c' -> exists b, (forall row, In row X -> length row = length b) /\
    Forall2 (fun s row => yields c' (fst s) (cdot row b)) sm X }.
