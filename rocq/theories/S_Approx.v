(** Approximate inference beside an analysis without inference. *)
From Coq Require Import Permutation.
From Verif Require Import M_Base M_Options M_Diag M_Solve M_Recon S_Order S_Recon S_Model.
Open Scope R_scope.

(** c' was made without inference, with the same corrections, trend, kind of data, reference time and latitude, for the constituents of c
    that were not inferred *)
Record without_inference (c c' : coef) : Prop := {
  wi_infer : o_infer (c_opt c') = None;
  wi_flags : flags_of (c_opt c') = flags_of (c_opt c);
  wi_notrend : o_notrend (c_opt c') = o_notrend (c_opt c);
  wi_twodim : o_twodim (c_opt c') = o_twodim (c_opt c);
  wi_reftime : c_reftime c' = c_reftime c;
  wi_lat : c_lat c' = c_lat c;
  wi_names : Permutation (not_inferred c) (c_name c') }.

(** c' has the complex amplitudes of c for its constituents, the same mean and the same trend; what reconstruct gives for c' it gives for
    those constituents of c *)
Definition same_not_inferred (c c' : coef) : Prop :=
  (forall r r', In r (rows c) -> In r' (rows c') -> w_name r = w_name r' -> exists p, rotary r = Some p /\ rotary r' = Some p) /\
  (forall z, mean_is c z <-> mean_is c' z) /\
  (o_notrend (c_opt c) = false -> forall z, slope_is c z <-> slope_is c' z) /\
  (forall x z, yields c' x z -> yields_only c (not_inferred c) x z).

(** the same complex amplitudes for the constituents that are not inferred, the same mean and the same trend *)
Definition same_besides_inferred (c1 c2 : coef) : Prop :=
  (forall n r1 r2, In n (not_inferred c1) -> In r1 (rows c1) -> In r2 (rows c2) -> w_name r1 = Some n -> w_name r2 = Some n ->
    exists p, rotary r1 = Some p /\ rotary r2 = Some p) /\
  (forall z, mean_is c1 z <-> mean_is c2 z) /\
  (o_notrend (c_opt c1) = false -> forall z, slope_is c1 z <-> slope_is c2 z).
