(** C103: when a robust analysis gives a result. *)
From Coq Require Import Lia Lra Permutation.
From Verif Require Import M_Base M_Lib M_Tables M_Const M_Options M_Time M_Slvinit M_Harmonics M_Select M_Ellipse
  M_Robust M_Period M_Conf M_Diag M_Solve S_Dict S_Options S_Slv S_Order S_Fit S_Recon S_Model S_Conf S_Period S_Errors S_Robust S_RobustKw S_Accept S_RobustAccept
  L_OptSolve L_Example L_Robust6 L_Example17 L_RobustAccept2 L_RobustAccept3 L_Example25 L_Exact.
Open Scope R_scope.
Open Scope string_scope.

(** C103.  Take any analysis c0 of the samples without repeated constituents.  A robust analysis with the same options,
    one of the weight functions that never vanish and without confidence intervals gives a result, provided that every
    sample can be spared and that no coefficients meet more than half of the samples exactly. *)
Theorem C103_accepted : forall L t u v la opts opts0 sm c0,
  analysis L t u v (Some la) opts0 sm c0 -> documented_input L t u v opts sm -> options_but_method opts opts0 -> NoDup (c_name c0) ->
  (forall rc, lstsq_sums L rc) -> pinv_exact L -> evaluable la opts sm -> setting opts "conf_int" (PStr "none") ->
  (exists x, setting opts "method" x /\ x <> PStr "ols") -> forall kw d name tune rcond tol maxit tn,
  spare c0 sm -> scattered c0 sm -> setting opts "robust_kw" (PDict kw d) -> unique_keys d ->
  robust_settings d name tune rcond tol maxit -> In name ["cauchy"; "fair"; "ols"; "welsch"] -> tuning name tune tn -> tn <> 0 -> (1 <= maxit)%nat ->
  exists c, solve L t u v (Some la) opts = Ok c.
Proof. exact accept_robust. Qed.
Print Assumptions C103_accepted.

(** With a single pass, or with constant weights, it is enough that the samples tell the coefficients apart and outnumber
    them; any of the weight functions will do. *)
Theorem C103_one_pass : forall L t u v la opts opts0 sm c0,
  analysis L t u v (Some la) opts0 sm c0 -> documented_input L t u v opts sm -> options_but_method opts opts0 -> NoDup (c_name c0) ->
  (forall rc, lstsq_sums L rc) -> pinv_exact L -> evaluable la opts sm -> setting opts "conf_int" (PStr "none") ->
  (exists x, setting opts "method" x /\ x <> PStr "ols") -> forall kw d name tune rcond tol maxit tn,
  identifiable c0 (map fst sm) -> (2 * length (c_name c0) + 1 + (if o_notrend (c_opt c0) then 0 else 1) < length sm)%nat ->
  setting opts "robust_kw" (PDict kw d) -> unique_keys d -> robust_settings d name tune rcond tol maxit -> tuning name tune tn ->
  weight_formula name <> None -> (maxit = 1%nat \/ name = "ols" /\ (1 <= maxit)%nat) ->
  exists c, solve L t u v (Some la) opts = Ok c.
Proof. exact accept_simple. Qed.
Print Assumptions C103_one_pass.

(** Conversely a robust analysis that gave a result had more samples than coefficients ... *)
Theorem C103_more_samples : forall L t u v lat opts sm c, analysis L t u v lat opts sm c -> o_method (c_opt c) <> PStr "ols" ->
  o_infer (c_opt c) = None -> lstsq_no_sums L ->
  (2 * length (c_name c) + 1 + (if o_notrend (c_opt c) then 0 else 1) < length sm)%nat.
Proof. exact robust_more. Qed.
Print Assumptions C103_more_samples.

(** ... its samples tell the coefficients apart ... *)
Theorem C103_identifiable : forall L t u v lat opts sm c, analysis L t u v lat opts sm c -> o_method (c_opt c) <> PStr "ols" ->
  approximate (c_opt c) = false -> (forall rc, lstsq_contract L rc) -> identifiable c (map fst sm).
Proof. exact robust_identifies. Qed.
Print Assumptions C103_identifiable.

(** ... and, when it could make more than one pass with a weight function that looks at the residuals, no coefficients
    meet all the samples exactly: a record without any noise has no robust analysis. *)
Theorem C103_noise : forall L t u v lat opts sm c kw d name tune rcond tol maxit c1, analysis L t u v lat opts sm c ->
  approximate (c_opt c) = false -> (forall rc, lstsq_contract L rc) -> (exists x, setting opts "method" x /\ x <> PStr "ols") ->
  setting opts "robust_kw" (PDict kw d) -> unique_keys d -> robust_settings d name tune rcond tol maxit ->
  In name ["bisquare"; "cauchy"; "fair"; "welsch"] -> (2 <= maxit)%nat -> rival c c1 -> ~ Forall (fun s => yields c1 (fst s) (snd s)) sm.
Proof. exact robust_inexact. Qed.
Print Assumptions C103_noise.

(** ** the assumptions about the library hold together *)
Example C103_library : lstsq_shape exactL /\ lstsq_returns exactL /\ lstsq_minimises exactL /\ (forall rc, lstsq_contract exactL rc) /\
  (forall rc, lstsq_sums exactL rc) /\ lstsq_no_sums exactL /\ pinv_exact exactL /\ inv_exact exactL /\ inv_returns exactL /\
  svd_exact exactL 2 /\ lomb_contract exactL /\ mvn_shape exactL /\ argsort_perm exactL /\ argsort_sorts exactL.
Proof.
  exact (conj exact_shape (conj exact_returns (conj exact_minimises (conj exact_contract (conj exact_sums (conj exact_no_sums (conj exact_pinv
    (conj exact_inv (conj exact_inv_returns (conj exact_svd (conj exact_lomb (conj exact_mvn (conj exact_perm exact_sorts))))))))))))).
Qed.

(** the values -1 -1 1 1 at the days 0 1 2 4, the mean alone, default settings of the robust method *)
Example C103_accepted_example : exists c0, analysis exactL ex_t up None (Some 45) (rb_opts [] []) smp c0 /\
  documented_input exactL ex_t up None (rb_opts rob []) smp /\ options_but_method (rb_opts rob []) (rb_opts [] []) /\ NoDup (c_name c0) /\
  evaluable 45 (rb_opts rob []) smp /\ setting (rb_opts rob []) "conf_int" (PStr "none") /\ setting (rb_opts rob []) "method" (PStr "robust") /\
  spare c0 smp /\ scattered c0 smp /\ setting (rb_opts rob []) "robust_kw" (PDict false [("weight_function", PStr "cauchy")]) /\
  unique_keys [("weight_function", PStr "cauchy")] /\ robust_settings [("weight_function", PStr "cauchy")] "cauchy" None (PNum 1) 0.001 50 /\
  tuning "cauchy" None 2.385.
Proof.
  destruct (rb_ols [] up smp no_names smp_samples smp_some) as [c0 A]. cbn [map] in A. assert (M0 : In [] methods) by now left. exists c0. split; [exact A|].
  split; [exact (rb_input [] up smp no_names smp_samples smp_some rob rob_in)|]. split; [exact (rb_same [] rob rob_in)|].
  split; [rewrite (rb_mean _ _ M0 A); constructor|]. split; [exact (rb_eval [] smp rob rob_in)|]. split; [rset|]. split; [rset|].
  split; [exact (rb_spare _ _ M0 A)|]. split; [exact (rb_scattered _ _ M0 A)|]. split; [rset|]. split; [unique_tac|]. split; [exact default_settings|reflexivity].
Qed.
(** so there is a robust analysis, to which the converse theorems apply *)
Example C103_result_example : exists c, analysis exactL ex_t up None (Some 45) (rb_opts rob []) smp c /\ o_method (c_opt c) <> PStr "ols" /\
  o_infer (c_opt c) = None /\ approximate (c_opt c) = false /\ rival c c.
Proof.
  destruct C103_accepted_example as (c0 & A & DI & SB & ND & EV & CF & SM & SP & SC & SK & UD & RS & TU).
  assert (RM : exists x, setting (rb_opts rob []) "method" x /\ x <> PStr "ols") by (exists (PStr "robust"); split; [exact SM|discriminate]).
  assert (IN : In "cauchy" ["cauchy"; "fair"; "ols"; "welsch"]) by now left.
  assert (T0 : 2.385 <> 0) by lra. assert (M1 : (1 <= 50)%nat) by lia.
  destruct (C103_accepted exactL ex_t up None 45 (rb_opts rob []) (rb_opts [] []) smp c0 A DI SB ND exact_sums exact_pinv EV CF RM
    false [("weight_function", PStr "cauchy")] "cauchy" None (PNum 1) 0.001 50%nat 2.385 SP SC SK UD RS IN TU T0 M1) as [c Hc].
  assert (AN := rb_analysis [] up smp smp_samples smp_some rob c rob_in Hc). exists c. split; [exact AN|].
  destruct (rb_facts [] _ _ _ _ rob_in AN) as (_ & _ & _ & I & _). split.
  - rewrite (set_method _ _ _ _ _ _ (an_keys _ _ _ _ _ _ _ _ AN) _ Hc _ SM). discriminate.
  - split; [exact I|]. split; [unfold approximate; now rewrite I|]. exact (self_rival _ _ _ _ _ _ _ _ AN I).
Qed.
(** M2 at the same days with one pass of Talwar's method *)
Example C103_one_pass_example : exists c0, analysis exactL ex_t up None (Some 45) (rb_opts [] [PStr "M2"]) smp c0 /\
  documented_input exactL ex_t up None (rb_opts rob1 [PStr "M2"]) smp /\ options_but_method (rb_opts rob1 [PStr "M2"]) (rb_opts [] [PStr "M2"]) /\ NoDup (c_name c0) /\
  evaluable 45 (rb_opts rob1 [PStr "M2"]) smp /\ setting (rb_opts rob1 [PStr "M2"]) "conf_int" (PStr "none") /\ setting (rb_opts rob1 [PStr "M2"]) "method" (PStr "robust") /\
  identifiable c0 (map fst smp) /\ (2 * length (c_name c0) + 1 + (if o_notrend (c_opt c0) then 0 else 1) < length smp)%nat /\
  setting (rb_opts rob1 [PStr "M2"]) "robust_kw" (PDict false [("weight_function", PStr "talwar"); ("maxit", PNum 1)]) /\
  unique_keys [("weight_function", PStr "talwar"); ("maxit", PNum 1)] /\
  robust_settings [("weight_function", PStr "talwar"); ("maxit", PNum 1)] "talwar" None (PNum 1) 0.001 1 /\ tuning "talwar" None 2.795 /\ weight_formula "talwar" <> None.
Proof.
  destruct (rb_ols ["M2"] up smp m2_names smp_samples smp_some) as [c0 A]. assert (M0 : In [] methods) by now left. exists c0. split; [exact A|].
  split; [exact (rb_input ["M2"] up smp m2_names smp_samples smp_some rob1 rob1_in)|]. split; [exact (rb_same ["M2"] rob1 rob1_in)|].
  destruct (rb_m2 _ _ M0 A) as [NM ID]. destruct (rb_facts ["M2"] _ _ _ _ M0 A) as (_ & _ & NT & _).
  split; [rewrite NM; repeat constructor; cbn; tauto|]. split; [exact (rb_eval ["M2"] smp rob1 rob1_in)|]. split; [rset|]. split; [rset|].
  split; [exact ID|]. split; [rewrite NM, NT; cbn; lia|]. split; [rset|]. split; [unique_tac|]. split; [exact single_settings|]. split; [reflexivity|]. discriminate.
Qed.
