(** Properties C36, C37, C38, C92, C94, C95 and C98 in terms of what reconstruct returns. *)
From Coq Require Import List String Reals Lia Lra Permutation.
From Coquelicot Require Import Coquelicot.
From Verif Require Import M_Base M_Lib M_Options M_Time M_Slvinit M_Select M_Ellipse M_Robust M_Period M_Conf M_Diag M_Solve M_Recon
  S_Dict S_Options S_Slv S_Order S_Fit S_Recon S_Model S_Perm S_Super S_Choice S_Output
  L_SolveInv L_Output P_Model P_Super P_Fill P_Choice P_Perm L_Model15 L_Example L_Example3 L_Robust3 L_Robust5 L_Example21 L_Fill L_Example22.
Import ListNotations.
Open Scope R_scope.
Open Scope string_scope.

(** C36.  What reconstruct returns for the result at the times of the samples is at least as near to the samples as what it
    returns for any rival coefficients *)
Theorem C36_output : forall L t u v lat opts sm c c', analysis L t u v lat opts sm c -> approximate (c_opt c) = false ->
  lstsq_minimises L -> o_method (c_opt c) = PStr "ols" -> rival c c' ->
  forall L1, exists zs zs', returns L1 c (map fst sm) zs /\ returns L1 c' (map fst sm) zs' /\ distance2 sm zs <= distance2 sm zs'.
Proof. exact out_least. Qed.
Print Assumptions C36_output.

(** C37.  If the samples are what reconstruct returns for c0, it returns them for the result of their analysis too ... *)
Theorem C37_output : forall L t u v lat opts sm c c0, analysis L t u v lat opts sm c -> approximate (c_opt c) = false ->
  lstsq_minimises L -> o_method (c_opt c) = PStr "ols" -> rival c c0 ->
  forall L1 L2, returns L1 c0 (map fst sm) (map snd sm) -> returns L2 c (map fst sm) (map snd sm).
Proof. exact out_reproduced. Qed.
Print Assumptions C37_output.

(** ... and, when the times tell the coefficients apart, it returns the same for both whatever the times and their epoch *)
Theorem C37_predictions : forall L t u v lat opts sm c c0, analysis L t u v lat opts sm c -> approximate (c_opt c) = false ->
  lstsq_minimises L -> o_method (c_opt c) = PStr "ols" -> rival c c0 ->
  forall L1, returns L1 c0 (map fst sm) (map snd sm) -> identifiable c (map fst sm) -> NoDup (c_name c) -> predict_alike c c0.
Proof. exact out_recovered. Qed.
Print Assumptions C37_predictions.

Example C37_output_example : exists L t u lat opts sm c, analysis L t u None lat opts sm c /\ approximate (c_opt c) = false /\
  lstsq_minimises L /\ o_method (c_opt c) = PStr "ols" /\ rival c c /\ returns L c (map fst sm) (map snd sm) /\ identifiable c (map fst sm) /\ NoDup (c_name c).
Proof.
  destruct C37_example as (c & A1 & A2 & A3 & A4 & A5 & A6 & A7 & A8). do 7 eexists. split; [exact A1|]. repeat (split; [assumption|]).
  split; [apply returns_yields; [apply A5|apply forall_pairs; exact A6]|]. split; assumption.
Qed.

(** C38.  The samples less what reconstruct returns for the result are uncorrelated with a constant, with the trend and with
    the oscillations of the constituents *)
Theorem C38_output : forall L t u v lat opts sm c, analysis L t u v lat opts sm c -> approximate (c_opt c) = false ->
  lstsq_minimises L -> o_method (c_opt c) = PStr "ols" -> forall L1, exists zs, returns L1 c (map fst sm) zs /\
  let rs := csub (map snd sm) zs in
  uncorrelated (fun _ => 1) sm rs /\ (o_notrend (c_opt c) = false -> uncorrelated (fun x => x - c_reftime c) sm rs) /\
  (o_infer (c_opt c) = None -> forall i, In i (c_lind c) -> uncorrelated (wave_cos c i) sm rs /\ uncorrelated (wave_sin c i) sm rs).
Proof. exact out_uncorrelated. Qed.
Print Assumptions C38_output.

(** C92.  What reconstruct returns for the result of the sum of two series is the sum of what it returns for their results, at
    any times; ... *)
Theorem C92_sum_output : forall L t ua va ub vb uc vc lat opts sa sb sc a b c,
  analysis L t ua va lat opts sa a -> analysis L t ub vb lat opts sb b -> analysis L t uc vc lat opts sc c -> is2d va = is2d vc -> is2d vb = is2d vc ->
  summed sa sb sc -> approximate (c_opt c) = false -> lstsq_minimises L -> o_method (c_opt c) = PStr "ols" ->
  identifiable c (map fst sc) -> NoDup (c_name c) ->
  forall L1 L2 L3 ts za zb, returns L1 a ts za -> returns L2 b ts zb -> returns L3 c ts (map (fun p => Cplus (fst p) (snd p)) (combine za zb)).
Proof. exact out_sum. Qed.
Print Assumptions C92_sum_output.

(** ... likewise for a tide b, given by what reconstruct returns for it, added to the data; ... *)
Theorem C92_tide_output : forall L t ua va uc vc lat opts sa sb sc a b c,
  analysis L t ua va lat opts sa a -> analysis L t uc vc lat opts sc c -> is2d va = is2d vc -> rival c b ->
  (exists L1, returns L1 b (map fst sb) (map snd sb)) ->
  summed sa sb sc -> approximate (c_opt c) = false -> lstsq_minimises L -> o_method (c_opt c) = PStr "ols" ->
  identifiable c (map fst sc) -> NoDup (c_name c) ->
  forall L1 L2 L3 ts za zb, returns L1 a ts za -> returns L2 b ts zb -> returns L3 c ts (map (fun p => Cplus (fst p) (snd p)) (combine za zb)).
Proof. exact out_tide. Qed.
Print Assumptions C92_tide_output.

(** ... and the data less what reconstruct returns for their result, analysed again, give no tide, no mean and no trend *)
Theorem C92_residuals_output : forall L t u v u' v' lat opts sm c c' zs,
  analysis L t u v lat opts sm c -> (exists L1, returns L1 c (map fst sm) zs) -> analysis L t u' v' lat opts (less sm zs) c' -> is2d v = is2d v' ->
  approximate (c_opt c) = false -> lstsq_minimises L -> o_method (c_opt c) = PStr "ols" ->
  identifiable c (map fst sm) -> NoDup (c_name c) -> Permutation (c_name c') (c_name c) /\ silent c'.
Proof. exact out_again. Qed.
Print Assumptions C92_residuals_output.

(** currents with noise, less what reconstruct returns *)
Example C92_output_example : exists L t u v u' v' lat opts sm st c c' zs,
  analysis L t u v lat opts sm c /\ returns L c (map fst sm) zs /\ analysis L t u' v' lat opts (less sm zs) c' /\ is2d v = is2d v' /\
  rival c c /\ returns L c (map fst st) (map snd st) /\ summed (less sm zs) st sm /\ approximate (c_opt c) = false /\ lstsq_minimises L /\ o_method (c_opt c) = PStr "ols" /\
  identifiable c (map fst sm) /\ NoDup (c_name c) /\ nth 1 (map snd (less sm zs)) (RtoC 0) <> RtoC 0.
Proof.
  destruct C92_residuals_example as (L & t & u & v & u' & v' & lat & opts & sm & sm' & st & c & c' & A1 & A2 & A3 & A4 & A5 & A6 & A7 & A8 & A9 & A10 & A11 & A12 & A13 & A14).
  destruct (residuals_out _ _ _ A8) as (zs & Z & E).
  assert (F : less sm zs = sm').
  { unfold less. rewrite <- E, <- A7. clear. induction sm' as [|[a b] l IH]; [reflexivity|]. cbn [map combine fst snd]. now rewrite IH. }
  exists L, t, u, v, u', v', lat, opts, sm, st, c, c', zs. rewrite F. split; [exact A1|]. split; [apply returns_yields; [apply A4|exact Z]|]. split; [exact A2|].
  split; [exact A3|]. split; [exact A4|]. split; [apply returns_yields; [apply A4|apply forall_pairs; exact A5]|]. auto 10.
Qed.

(** C94.  The order of the samples does not matter for what reconstruct returns *)
Theorem C94_output : forall L t u v t' u' v' lat opts sm sm' c c',
  analysis L t u v lat opts sm c -> analysis L t' u' v' lat opts sm' c' -> is2d v' = is2d v ->
  reordered L opts t t' sm sm' -> c_reftime c' = c_reftime c -> o_equi (c_opt c') = o_equi (c_opt c) \/ complete L opts t sm ->
  lstsq_minimises L -> o_method (c_opt c) = PStr "ols" -> approximate (c_opt c) = false -> identifiable c (map fst sm) -> NoDup (c_name c) ->
  predict_alike c c'.
Proof. exact out_order. Qed.
Print Assumptions C94_output.

(** C95.  reconstruct returns the same for two analyses of the same samples with the same model *)
Theorem C95_output : forall L t u v lat opts sm c L' t' u' v' lat' opts' sm' c',
  analysis L t u v lat opts sm c -> analysis L' t' u' v' lat' opts' sm' c' -> same_model c c' -> Permutation sm sm' ->
  approximate (c_opt c) = false -> lstsq_minimises L -> lstsq_minimises L' ->
  o_method (c_opt c) = PStr "ols" -> o_method (c_opt c') = PStr "ols" ->
  identifiable c (map fst sm) -> NoDup (c_name c) -> predict_alike c c'.
Proof. exact out_choice. Qed.
Print Assumptions C95_output.

(** C98.  Filling gaps with what reconstruct returns for the result, and analysing again, changes neither the fit nor what
    reconstruct returns; ... *)
Theorem C98_filled_output : forall L t u v lat opts sm c ts zs L' t' u' v' lat' opts' sm' c',
  analysis L t u v lat opts sm c -> lstsq_minimises L -> o_method (c_opt c) = PStr "ols" ->
  analysis L' t' u' v' lat' opts' sm' c' -> lstsq_minimises L' -> o_method (c_opt c') = PStr "ols" -> same_model c c' ->
  (exists L1, returns L1 c ts zs) -> Permutation sm' (sm ++ combine ts zs) -> approximate (c_opt c') = false ->
  identifiable c' (map fst sm') -> NoDup (c_name c') -> same_fit c c' /\ predict_alike c c'.
Proof. exact out_filled. Qed.
Print Assumptions C98_filled_output.

(** ... nor does leaving out samples that are what reconstruct returns *)
Theorem C98_thinned_output : forall L t u v lat opts sm c ts zs L' t' u' v' lat' opts' sm' c',
  analysis L t u v lat opts sm c -> lstsq_minimises L -> o_method (c_opt c) = PStr "ols" ->
  analysis L' t' u' v' lat' opts' sm' c' -> lstsq_minimises L' -> o_method (c_opt c') = PStr "ols" -> same_model c c' ->
  (exists L1, returns L1 c ts zs) -> Permutation sm (sm' ++ combine ts zs) -> approximate (c_opt c') = false ->
  identifiable c' (map fst sm') -> NoDup (c_name c') -> same_fit c c' /\ predict_alike c c'.
Proof. exact out_thinned. Qed.
Print Assumptions C98_thinned_output.

(** a gap at time 2, filled with the 1/3 that reconstruct returns *)
Example C98_output_example : exists c c', analysis colL t3 u3 None (Some 45) ols_opts sm3 c /\ lstsq_minimises colL /\ o_method (c_opt c) = PStr "ols" /\
  analysis colL ex_t u4 None (Some 45) ols_opts sm4 c' /\ o_method (c_opt c') = PStr "ols" /\ same_model c c' /\
  returns colL c [2] [RtoC (1 / 3)] /\ Permutation sm4 (sm3 ++ combine [2] [RtoC (1 / 3)]) /\ approximate (c_opt c') = false /\
  identifiable c' (map fst sm4) /\ NoDup (c_name c').
Proof.
  destruct C98_filled_example as (c & c' & A1 & A2 & A3 & A4 & A5 & A6 & A7 & A8 & A9 & A10 & A11 & _). exists c, c'.
  repeat (split; [assumption|]). split; [|auto]. apply returns_yields; [eapply analysis_wf; eauto|]. inversion A7; subst. constructor; [assumption|constructor].
Qed.
