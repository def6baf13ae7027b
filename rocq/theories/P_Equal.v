(** Property C97: robust analyses that agree with ordinary ones. *)
From Coq Require Import List String Reals Lia Lra Permutation.
From Coquelicot Require Import Coquelicot.
From Verif Require Import M_Base M_Lib M_Options M_Time M_Slvinit M_Select M_Ellipse M_Robust M_Period M_Conf M_Diag M_Solve M_Recon
  S_Dict S_Options S_Slv S_Order S_Fit S_Recon S_Model S_Perm S_Choice S_Robust S_RobustKw S_Equal
  L_SolveInv L_Example L_Example3 L_Robust3 L_Robust5 L_Equal L_Example21.
Import ListNotations.
Open Scope R_scope.
Open Scope string_scope.

(** C97.  When the weights that a robust analysis ends with are 0 for some samples and one other number for the rest, it has the
    constituents, rotary components, mean, trend and reconstruction of an ordinary least squares analysis, with the same model,
    of the samples that were kept - unless robustfit used up maxit passes ... *)
Theorem C97_discarded : forall L t u v lat opts sm c w k L' t' u' v' lat' opts' sm' c',
  analysis L t u v lat opts sm c -> approximate (c_opt c) = false -> (forall rc, lstsq_contract L rc) -> o_method (c_opt c) <> PStr "ols" ->
  c_weights c = map Fin w -> k <> 0 -> Forall (fun a => a = 0 \/ a = k) w ->
  analysis L' t' u' v' lat' opts' sm' c' -> same_model c c' -> Permutation (kept sm w) sm' ->
  lstsq_minimises L' -> o_method (c_opt c') = PStr "ols" -> identifiable c' (map fst sm') -> NoDup (c_name c') ->
  same_fit c c' \/
  (exists q d n X r, o_robust_kw (c_opt c) = PDict q d /\ kw_nat (kget d "maxit" (PNum 50)) = Ok n /\
     robustfit_kw L X (map snd sm) (PDict q d) = Ok r /\ c_weights c = rf_w r /\ rf_iterations r = n).
Proof. exact top_kept. Qed.
Print Assumptions C97_discarded.

(** ... in particular, with equal weights, of all samples. *)
Theorem C97_equal_weights : forall L t u v lat opts sm c k L' t' u' v' lat' opts' sm' c',
  analysis L t u v lat opts sm c -> approximate (c_opt c) = false -> (forall rc, lstsq_contract L rc) -> o_method (c_opt c) <> PStr "ols" ->
  c_weights c = map (fun _ => Fin k) sm -> k <> 0 ->
  analysis L' t' u' v' lat' opts' sm' c' -> same_model c c' -> Permutation sm sm' ->
  lstsq_minimises L' -> o_method (c_opt c') = PStr "ols" -> identifiable c' (map fst sm') -> NoDup (c_name c') ->
  same_fit c c' \/
  (exists q d n X r, o_robust_kw (c_opt c) = PDict q d /\ kw_nat (kget d "maxit" (PNum 50)) = Ok n /\
     robustfit_kw L X (map snd sm) (PDict q d) = Ok r /\ c_weights c = rf_w r /\ rf_iterations r = n).
Proof. exact top_equal. Qed.
Print Assumptions C97_equal_weights.

(** A robust analysis with the weight function 'ols' gives, however many passes it makes, everything that the ordinary analysis
    gives - coefficients, weights, intervals, diagnostics, order; only the options recorded in the result differ. *)
Theorem C97_ols_weights : forall L t u v lat opts opts' sm sm' c c' q d,
  analysis L t u v lat opts sm c -> analysis L t u v lat opts' sm' c' -> agree opts opts' all_but_method ->
  approximate (c_opt c) = false -> (forall rc, lstsq_contract L rc) -> o_method (c_opt c) <> PStr "ols" -> o_method (c_opt c') = PStr "ols" ->
  setting opts "robust_kw" (PDict q d) -> unique_keys d -> kw_setting d "weight_function" (PStr "ols") ->
  identifiable c (map fst sm) -> NoDup (c_name c) -> c = with_options (c_opt c) c'.
Proof. exact top_unit. Qed.
Print Assumptions C97_ols_weights.

(** the mean of 0, 0, 8, 1 at the days 0 1 2 4 with Talwar weights, which discard the third sample, and of the other three *)
Example C97_discarded_example : exists L t u v lat opts sm c w k L' t' u' v' lat' opts' sm' c',
  analysis L t u v lat opts sm c /\ approximate (c_opt c) = false /\ (forall rc, lstsq_contract L rc) /\ o_method (c_opt c) <> PStr "ols" /\
  c_weights c = map Fin w /\ k <> 0 /\ Forall (fun a => a = 0 \/ a = k) w /\ In 0 w /\
  analysis L' t' u' v' lat' opts' sm' c' /\ same_model c c' /\ Permutation (kept sm w) sm' /\
  lstsq_minimises L' /\ o_method (c_opt c') = PStr "ols" /\ identifiable c' (map fst sm') /\ NoDup (c_name c') /\ c_mean c = Some (1 / 3).
Proof.
  destruct kept_runs as (c & k & A1 & A2 & A3 & A4 & A5 & A6 & A7 & A8 & A9 & A10 & A11).
  exists colL, ex_t, um, None, (Some 45), (one_opts (PStr "robust") talwar_kw), smm, c, keptm, 1.
  exists colL, t3, u3, None, (Some 45), (one_opts (PStr "ols") talwar_kw), sm3, k.
  split; [exact A1|]. split; [exact A6|]. split; [apply col_contract|]. split; [exact A7|]. split; [exact A4|]. split; [lra|].
  split. { unfold keptm. repeat (apply Forall_cons; [first [left; reflexivity | right; reflexivity]|]). apply Forall_nil. }
  split. { unfold keptm. cbn. tauto. }
  split; [exact A2|]. split; [exact A3|]. split; [rewrite A5; apply Permutation_refl|]. split; [apply col_minimises|]. auto.
Qed.
(** the same samples with the weight function 'ols' and with the method 'ols' *)
Example C97_ols_weights_example : exists L t u v lat opts opts' sm c c' q d,
  analysis L t u v lat opts sm c /\ analysis L t u v lat opts' sm c' /\ agree opts opts' all_but_method /\
  approximate (c_opt c) = false /\ (forall rc, lstsq_contract L rc) /\ o_method (c_opt c) <> PStr "ols" /\ o_method (c_opt c') = PStr "ols" /\
  setting opts "robust_kw" (PDict q d) /\ unique_keys d /\ kw_setting d "weight_function" (PStr "ols") /\
  identifiable c (map fst sm) /\ NoDup (c_name c).
Proof.
  destruct unit_runs as (c & k & A1 & A2 & A3 & A4 & A5 & A6 & A7 & A8).
  exists colL, ex_t, um, None, (Some 45), (one_opts (PStr "robust") ols_kw), (one_opts (PStr "ols") ols_kw), smm, c, k, false, [("weight_function", PStr "ols")].
  split; [exact A1|]. split; [exact A2|]. split; [exact A3|]. split; [exact A4|]. split; [apply col_contract|]. split; [exact A5|]. split; [exact A6|].
  split; [left; cbn; tauto|]. split; [repeat constructor; cbn; tauto|]. split; [left; cbn; tauto|]. auto.
Qed.
