(** C112: intervals of an analysis with inference. *)
From Coq Require Import Permutation.
From Verif Require Import M_Base M_Lib M_Tables M_Const M_Options M_Time M_Slvinit M_Harmonics M_Select M_Ellipse
  M_Robust M_Period M_Conf M_Diag M_Solve M_Recon S_Dict S_Options S_Order S_Select S_Fit S_Recon S_Model S_Errors S_Perm S_Period S_Noise S_Accept S_WeightAccept S_InferAccept S_InferLinear
  L_Example L_Exact L_Example23 L_InferLinear L_Example31.
Open Scope R_scope.
Open Scope string_scope.

(** exact inference, scalar data or the same ratios for both senses of rotation: where the analysis without intervals gives a result whose
    model the samples of positive weight tell apart, the analysis with linearised intervals gives a result too *)
Theorem C112_linear : forall L t u v la opts opts0 sm c0 I Rf w,
  analysis L t u v (Some la) opts0 sm c0 -> inference_input L t u v opts sm I Rf false -> options_but_intervals opts opts0 ->
  (o_twodim (c_opt c0) = false \/ exists inf, o_infer (c_opt c0) = Some inf /\ same_both_ways inf) ->
  NoDup (c_name c0) -> inv_returns L -> setting opts "conf_int" (PStr "linear") ->
  c_weights c0 = map Fin w -> identifiable c0 (heeded w sm) ->
  ((exists x, setting opts "white" x /\ ~ falsy x) \/ (lomb_contract L /\ orderly L opts t sm)) ->
  exists c, solve L t u v (Some la) opts = Ok c.
Proof. exact accept_infer_linear. Qed.
Print Assumptions C112_linear.

(** and only then: an analysis with linearised intervals and exact inference gives a result only if those samples tell its model apart *)
Theorem C112_needed : forall L t u v la opts sm c w inf,
  analysis L t u v (Some la) opts sm c -> inv_exact L -> o_infer (c_opt c) = Some inf -> inf_approx inf = false ->
  setting opts "conf_int" (PStr "linear") -> c_weights c = map Fin w -> identifiable c (heeded w sm).
Proof. exact infer_needed. Qed.
Print Assumptions C112_needed.

(** S2 inferred from M2, half as large, at the days 0, 1, 2, 4 *)
Example C112_example : exists L t u opts opts0 sm c0 c inf w,
  analysis L t u None (Some 45) opts0 sm c0 /\ inference_input L t u None opts sm ["S2"] ["M2"] false /\ options_but_intervals opts opts0 /\
  o_twodim (c_opt c0) = false /\ NoDup (c_name c0) /\ inv_returns L /\ inv_exact L /\ setting opts "conf_int" (PStr "linear") /\
  c_weights c0 = map Fin w /\ identifiable c0 (heeded w sm) /\ (exists x, setting opts "white" x /\ ~ falsy x) /\
  analysis L t u None (Some 45) opts sm c /\ o_infer (c_opt c) = Some inf /\ inf_approx inf = false /\ c_weights c = map Fin w /\ sm <> [].
Proof. exact ir_example. Qed.
