(** Specification vocabulary for the calls of solve that give a result. *)
From Coq Require Import Permutation.
From Verif Require Import M_Base M_Lib M_Tables M_Const M_Options M_Time M_Slvinit M_Select M_Diag M_Solve S_Dict S_Options S_Order S_Slv S_Recon S_Model S_Errors S_Perm S_Noise.
Open Scope R_scope.
Open Scope string_scope.

(** numpy.linalg.lstsq gives a solution for every finite matrix with at least one row and as many values as rows *)
Definition lstsq_returns (L : lib) : Prop := forall B x rc, B <> [] -> length x = length B ->
  (forall r r', In r B -> In r' B -> length r = length r') -> exists q, l_lstsq L B x rc = Ok q.

(** numpy.linalg.inv inverts every square matrix that maps nothing but zero to zero *)
Definition full_rank (n : nat) (M : cmat) : Prop :=
  forall d, length d = n -> (forall row, In row M -> cdot row d = RtoC 0) -> forall z, In z d -> z = RtoC 0.
Definition inv_returns (L : lib) : Prop := forall n M, csquare n M -> full_rank n M -> exists X, l_inv L M = Ok X.

(** documented options with values of the documented kind, constituents of the table, at least one valid sample *)
Record documented_input (L : lib) (t : pyarr tarray) (u : pyarr (list xr)) (v : option (pyarr (list xr)))
    (opts : dict pyval) (sm : list (R * C)) : Prop := {
  dc_keys : unique_keys opts;
  dc_known : forall k, In k (keys opts) -> In k (keys documented);
  dc_infer : setting opts "infer" PNone;
  dc_rayleigh : exists r, setting opts "Rayleigh_min" (PNum r);
  dc_order : forall x cf, setting opts "order_constit" x -> setting opts "conf_int" cf ->
    sorted_order x /\ (x = PStr "SNR" -> cf <> PStr "none");
  dc_constit : setting opts "constit" (PStr "auto") \/
    exists names, (forall n, In n names -> In n const_name) /\ setting opts "constit" (PSeq (map PStr names));
  dc_samples : exists e, setting opts "epoch" e /\ samples (l_parse L) e t u v sm;
  dc_some : sm <> [] }.
(** the same, with ordinary least squares *)
Record documented_call (L : lib) (t : pyarr tarray) (u : pyarr (list xr)) (v : option (pyarr (list xr)))
    (opts : dict pyval) (sm : list (R * C)) : Prop := {
  dc_input :> documented_input L t u v opts sm;
  dc_method : setting opts "method" (PStr "ols") }.

(** the model can be evaluated: a latitude off the equator for nodal corrections, two different times for a trend,
    and at least one constituent if anything is to be corrected *)
Record evaluable (la : R) (opts : dict pyval) (sm : list (R * C)) : Prop := {
  ev_latitude : forall x, setting opts "nodal" x -> ~ falsy x -> 0 < Rabs la <= 90;
  ev_times : forall x, setting opts "trend" x -> ~ falsy x -> exists s s', In s sm /\ In s' sm /\ fst s <> fst s';
  ev_constit : setting opts "constit" (PSeq []) ->
    setting opts "phase" (PStr "raw") /\ forall x, setting opts "nodal" x -> falsy x }.

(** times in increasing order, at least four samples, no two neighbours more than 100 days apart *)
Definition orderly (L : lib) (opts : dict pyval) (t : pyarr tarray) (sm : list (R * C)) : Prop :=
  exists l, times_of L opts t l /\ increasing l /\ (4 <= length sm)%nat /\
    forall d, In d (steps (map fst sm)) -> d <= 100.

(** the same options but for the intervals and the order of the constituents *)
Definition options_but_intervals (opts opts' : dict pyval) : Prop :=
  forall k x, k <> "conf_int" -> k <> "order_constit" -> k <> "white" -> (setting opts k x <-> setting opts' k x).
