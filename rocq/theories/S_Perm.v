(** Specification vocabulary for the order of the samples. *)
From Coq Require Import Permutation.
From Verif Require Import M_Base M_Lib M_Options M_Time M_Slvinit M_Select M_Diag M_Solve S_Dict S_Options S_Order S_Slv S_Recon S_Model.
Open Scope R_scope.
Open Scope string_scope.

(** the valid times (days, python or proleptic day numbers) of the time argument *)
Definition times_of (L : lib) (opts : dict pyval) (t : pyarr tarray) (l : list R) : Prop :=
  exists e xs, setting opts "epoch" e /\ normalize_time (l_parse L) (arr_data t) e = Ok xs /\ l = valid_times xs.

(** the same samples and the same valid times, in another order *)
Definition reordered (L : lib) (opts : dict pyval) (t t' : pyarr tarray) (sm sm' : list (R * C)) : Prop :=
  Permutation sm sm' /\ exists l l', times_of L opts t l /\ times_of L opts t' l' /\ Permutation l l'.

(** nothing but fitted samples in the record *)
Definition complete (L : lib) (opts : dict pyval) (t : pyarr tarray) (sm : list (R * C)) : Prop := times_of L opts t (map fst sm).

(** the same constituents with the same rotary components, mean, trend and reconstruction at any time *)
Definition same_fit (c c' : coef) : Prop :=
  Permutation (c_name c) (c_name c') /\
  (forall r r', In r (rows c) -> In r' (rows c') -> w_name r = w_name r' -> exists p, rotary r = Some p /\ rotary r' = Some p) /\
  (forall z, mean_is c z <-> mean_is c' z) /\
  (o_notrend (c_opt c) = false -> forall z, slope_is c z <-> slope_is c' z) /\
  (forall x, recon_u c x = recon_u c' x /\ (o_twodim (c_opt c) = true -> recon_v c x = recon_v c' x)).
