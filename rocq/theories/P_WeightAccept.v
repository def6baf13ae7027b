(** C108: when the intervals of an analysis with sample weights can be computed. *)
From Coq Require Import Lia Lra.
From Verif Require Import M_Base M_Lib M_Tables M_Options M_Time M_Slvinit M_Select M_Ellipse M_Robust M_Period M_Conf M_Diag M_Solve
  S_Dict S_Options S_Order S_Slv S_Fit S_Model S_Errors S_Period S_Noise S_Robust S_RobustKw S_Accept S_RobustAccept S_WeightAccept
  L_Example L_Robust6 L_Example25 L_Exact L_RobustAccept L_RobustAccept2 L_WeightAccept L_WeightAccept2 L_Example28.
Open Scope R_scope.
Open Scope string_scope.

(** C108.  Take any analysis c0, ordinary or robust, whose sample weights are numbers and whose samples of positive weight
    tell the coefficients apart.  The same call with linearised intervals gives a result, when the noise is taken as white
    or else the times increase, there are at least four samples and no gap exceeds 100 days. *)
Theorem C108_linear : forall L t u v la opts opts0 sm c0 w,
  analysis L t u v (Some la) opts0 sm c0 -> documented_input L t u v opts sm -> options_but_intervals opts opts0 -> evaluable la opts sm ->
  NoDup (c_name c0) -> inv_returns L -> setting opts "conf_int" (PStr "linear") -> c_weights c0 = map Fin w -> identifiable c0 (heeded w sm) ->
  ((exists x, setting opts "white" x /\ ~ falsy x) \/ (lomb_contract L /\ orderly L opts t sm)) ->
  exists c, solve L t u v (Some la) opts = Ok c.
Proof. exact accept_weighted. Qed.
Print Assumptions C108_linear.

(** Conversely, in an analysis with intervals of either kind the samples of positive weight tell the coefficients apart. *)
Theorem C108_needed : forall L t u v la opts sm c w, analysis L t u v (Some la) opts sm c -> inv_exact L -> setting opts "infer" PNone ->
  setting opts "conf_int" (PStr "linear") \/ setting opts "conf_int" (PStr "MC") -> c_weights c = map Fin w ->
  identifiable c (heeded w sm).
Proof. exact heeded_needed. Qed.
Print Assumptions C108_needed.

(** Under the conditions of C103 and with the weight functions that never vanish every sample gets a positive weight ... *)
Theorem C108_positive : forall L t u v la opts opts0 sm c0 cf c kw d name tune rcond tol maxit tn,
  analysis L t u v (Some la) opts0 sm c0 -> documented_input L t u v opts sm -> options_but_method opts opts0 -> NoDup (c_name c0) ->
  (forall rc, lstsq_sums L rc) -> pinv_exact L -> evaluable la opts sm -> setting opts "conf_int" cf -> In cf [PStr "linear"; PStr "MC"; PStr "none"] ->
  (exists x, setting opts "method" x /\ x <> PStr "ols") ->
  spare c0 sm -> scattered c0 sm -> setting opts "robust_kw" (PDict kw d) -> unique_keys d ->
  robust_settings d name tune rcond tol maxit -> In name ["cauchy"; "fair"; "ols"; "welsch"] -> tuning name tune tn -> tn <> 0 -> (1 <= maxit)%nat ->
  solve L t u v (Some la) opts = Ok c -> exists w, c_weights c = map Fin w /\ length w = length sm /\ Forall (fun a => 0 < a) w.
Proof. exact robust_positive. Qed.
Print Assumptions C108_positive.

(** ... and the robust analysis with linearised intervals gives a result. *)
Theorem C108_robust : forall L t u v la opts opts0 sm c0,
  analysis L t u v (Some la) opts0 sm c0 -> documented_input L t u v opts sm -> options_but_method opts opts0 -> NoDup (c_name c0) ->
  (forall rc, lstsq_sums L rc) -> pinv_exact L -> inv_returns L -> evaluable la opts sm -> setting opts "conf_int" (PStr "linear") ->
  (exists x, setting opts "method" x /\ x <> PStr "ols") ->
  ((exists x, setting opts "white" x /\ ~ falsy x) \/ (lomb_contract L /\ orderly L opts t sm)) ->
  forall kw d name tune rcond tol maxit tn,
  spare c0 sm -> scattered c0 sm -> setting opts "robust_kw" (PDict kw d) -> unique_keys d ->
  robust_settings d name tune rcond tol maxit -> In name ["cauchy"; "fair"; "ols"; "welsch"] -> tuning name tune tn -> tn <> 0 -> (1 <= maxit)%nat ->
  exists c, solve L t u v (Some la) opts = Ok c.
Proof. exact accept_robust_linear. Qed.
Print Assumptions C108_robust.

(** the values -1 -1 1 1 at the days 0 1 2 4, the mean alone, Cauchy weights, white noise: the hypotheses of C108_robust
    and C108_positive *)
Example C108_robust_example : exists c0, analysis exactL ex_t up None (Some 45) (rb_opts [] []) smp c0 /\
  documented_input exactL ex_t up None rl_opts smp /\ options_but_method rl_opts (rb_opts [] []) /\ NoDup (c_name c0) /\
  (forall rc, lstsq_sums exactL rc) /\ pinv_exact exactL /\ inv_returns exactL /\ inv_exact exactL /\ evaluable 45 rl_opts smp /\
  setting rl_opts "conf_int" (PStr "linear") /\ setting rl_opts "infer" PNone /\ setting rl_opts "method" (PStr "robust") /\ (exists x, setting rl_opts "white" x /\ ~ falsy x) /\
  spare c0 smp /\ scattered c0 smp /\ setting rl_opts "robust_kw" (PDict false [("weight_function", PStr "cauchy")]) /\
  unique_keys [("weight_function", PStr "cauchy")] /\ robust_settings [("weight_function", PStr "cauchy")] "cauchy" None (PNum 1) 0.001 50 /\
  tuning "cauchy" None 2.385.
Proof.
  destruct (rb_ols [] up smp no_names smp_samples smp_some) as [c0 A]. cbn [map] in A. assert (M0 : In [] methods) by now left. exists c0. split; [exact A|].
  split; [exact rl_input|]. split; [exact (rl_same [] (or_introl eq_refl))|]. split; [rewrite (rb_mean _ _ M0 A); constructor|].
  split; [exact exact_sums|]. split; [exact exact_pinv|]. split; [exact exact_inv_returns|]. split; [exact exact_inv|]. split; [exact rl_eval|].
  split; [rset|]. split; [rset|]. split; [rset|]. split; [exact rl_white|].
  split; [exact (rb_spare _ _ M0 A)|]. split; [exact (rb_scattered _ _ M0 A)|]. split; [rset|]. split; [unique_tac|]. split; [exact default_settings|reflexivity].
Qed.
(** so there is an analysis with intervals, and one without to which C108_linear applies *)
Example C108_linear_example : exists c c0 w, analysis exactL ex_t up None (Some 45) rl_opts smp c /\ setting rl_opts "conf_int" (PStr "linear") /\
  analysis exactL ex_t up None (Some 45) (rb_opts rob []) smp c0 /\ options_but_intervals rl_opts (rb_opts rob []) /\ NoDup (c_name c0) /\
  c_weights c0 = map Fin w /\ identifiable c0 (heeded w smp) /\ exists w', c_weights c = map Fin w'.
Proof.
  destruct C108_robust_example as (c1 & A & DI & SB & ND & LS & PV & IR & _ & EV & CF & _ & SM & WH & SP & SC & SK & UD & RS & TU).
  assert (RM : exists x, setting rl_opts "method" x /\ x <> PStr "ols") by (exists (PStr "robust"); split; [exact SM|discriminate]).
  assert (RM' : exists x, setting (rb_opts rob []) "method" x /\ x <> PStr "ols") by (exists (PStr "robust"); split; [rset|discriminate]).
  assert (IN : In "cauchy" ["cauchy"; "fair"; "ols"; "welsch"]) by now left.
  assert (T0 : 2.385 <> 0) by lra. assert (M1 : (1 <= 50)%nat) by lia.
  destruct (C108_robust exactL ex_t up None 45 rl_opts (rb_opts [] []) smp c1 A DI SB ND LS PV IR EV CF RM (or_introl WH)
    false [("weight_function", PStr "cauchy")] "cauchy" None (PNum 1) 0.001 50%nat 2.385 SP SC SK UD RS IN TU T0 M1) as [c Hc].
  assert (DI0 := rb_input [] up smp no_names smp_samples smp_some rob rob_in). assert (SB0 := rb_same [] rob rob_in). assert (EV0 := rb_eval [] smp rob rob_in). cbn [map] in DI0, SB0, EV0.
  assert (CF0 : setting (rb_opts rob []) "conf_int" (PStr "none")) by rset.
  assert (SK0 : setting (rb_opts rob []) "robust_kw" (PDict false [("weight_function", PStr "cauchy")])) by rset.
  destruct (accept_robust exactL ex_t up None 45 (rb_opts rob []) (rb_opts [] []) smp c1 A DI0 SB0 ND LS PV EV0 CF0 RM'
    false [("weight_function", PStr "cauchy")] "cauchy" None (PNum 1) 0.001 50%nat 2.385 SP SC SK0 UD RS IN TU T0 M1) as [c0 Hc0].
  destruct (C108_positive exactL ex_t up None 45 rl_opts (rb_opts [] []) smp c1 (PStr "linear") c
    false [("weight_function", PStr "cauchy")] "cauchy" None (PNum 1) 0.001 50%nat 2.385 A DI SB ND LS PV EV CF (or_introl eq_refl) RM SP SC SK UD RS IN TU T0 M1 Hc) as (w' & W' & _).
  destruct (C108_positive exactL ex_t up None 45 (rb_opts rob []) (rb_opts [] []) smp c1 (PStr "none") c0
    false [("weight_function", PStr "cauchy")] "cauchy" None (PNum 1) 0.001 50%nat 2.385 A DI0 SB0 ND LS PV EV0 CF0 (or_intror (or_intror (or_introl eq_refl))) RM' SP SC SK0 UD RS IN TU T0 M1 Hc0) as (w & W & LW & PW).
  assert (A0 := rb_analysis [] up smp smp_samples smp_some rob c0 rob_in Hc0). cbn [map] in A0.
  exists c, c0, w. split; [exact (rl_analysis c Hc)|]. split; [exact CF|]. split; [exact A0|]. split; [exact rl_method|].
  split; [rewrite (rb_mean _ _ rob_in A0); constructor|]. split; [exact W|]. split; [|now exists w'].
  intros c2 Rv Z. assert (ID : identifiable c0 (map fst smp)) by (eapply spare_all; [exact A0|exact DI0|exact EV0|exact (rb_spare _ _ rob_in A0)]). apply (ID c2 Rv). intros x Hx. apply Z. now apply heeded_all.
Qed.
