(** Specification vocabulary for models of which one contains the other. *)
From Verif Require Import M_Base M_Lib M_Options M_Time M_Slvinit M_Select M_Diag M_Solve S_Dict S_Options S_Order S_Recon S_Model S_Choice.
Open Scope R_scope.
Open Scope string_scope.

(** the model of c' has the constituents of c and perhaps others, and the trend if c has it; all else is the same, nothing is inferred *)
Record wider (c c' : coef) : Prop := {
  wd_flags : flags_of (c_opt c') = flags_of (c_opt c);
  wd_twodim : o_twodim (c_opt c') = o_twodim (c_opt c);
  wd_reftime : c_reftime c' = c_reftime c;
  wd_lat : c_lat c' = c_lat c;
  wd_infer : o_infer (c_opt c) = None /\ o_infer (c_opt c') = None;
  wd_trend : o_notrend (c_opt c') = true -> o_notrend (c_opt c) = true;
  wd_names : incl (c_name c) (c_name c') }.

(** c' says the same as c: the same constituents, mean and trend where c has them, nothing in the others *)
Definition nothing_more (c c' : coef) : Prop :=
  (forall r r', In r (rows c) -> In r' (rows c') -> w_name r = w_name r' -> exists p, rotary r = Some p /\ rotary r' = Some p) /\
  (forall r' n, In r' (rows c') -> w_name r' = Some n -> ~ In n (c_name c) -> rotary r' = Some (RtoC 0, RtoC 0)) /\
  (forall z, mean_is c z <-> mean_is c' z) /\
  (o_notrend (c_opt c') = false ->
     if o_notrend (c_opt c) then slope_is c' (RtoC 0) else forall z, slope_is c z <-> slope_is c' z) /\
  (forall x z, yields c' x z -> yields c x z).
