(** Properties C93, C96 and C97 in terms of what reconstruct returns. *)
From Coq Require Import List String Reals Lia Lra Permutation.
From Coquelicot Require Import Coquelicot.
From Verif Require Import M_Base M_Lib M_Options M_Time M_Slvinit M_Select M_Ellipse M_Robust M_Period M_Conf M_Diag M_Solve M_Recon
  S_Dict S_Options S_Slv S_Order S_Fit S_Recon S_Model S_Perm S_Super S_Choice S_Robust S_RobustKw S_Equal S_Turn S_Output
  L_SolveInv L_Recon3 L_Model15 L_Affine2 L_Output L_Output2 P_Super P_Turn P_Equal.
Import ListNotations.
Open Scope R_scope.
Open Scope string_scope.

(** C93.  reconstruct returns for the eastward and the northward series, analysed alone, the components of what it returns for
    the vector analysis, whatever the times *)
Theorem C93_output : forall L t u v lat opts sm a b c,
  analysis L t u (Some v) lat opts sm c -> analysis L t u None lat opts (east sm) a -> analysis L t v None lat opts (north sm) b ->
  lstsq_minimises L -> setting opts "method" (PStr "ols") -> setting opts "infer" PNone -> identifiable c (map fst sm) -> NoDup (c_name c) ->
  forall L1 ts nd e o, reconstruct L1 ts nd c e CNone 0 0 = Ok o -> exists oa ob us vs,
    reconstruct L1 ts nd a e CNone 0 0 = Ok oa /\ reconstruct L1 ts nd b e CNone 0 0 = Ok ob /\
    ro_series o = Vector us vs /\ ro_series oa = Scalar us /\ ro_series ob = Scalar vs.
Proof. exact out_components. Qed.
Print Assumptions C93_output.

Example C93_output_example : exists L t u v lat opts sm a b c,
  analysis L t u (Some v) lat opts sm c /\ analysis L t u None lat opts (east sm) a /\ analysis L t v None lat opts (north sm) b /\
  lstsq_minimises L /\ setting opts "method" (PStr "ols") /\ setting opts "infer" PNone /\ identifiable c (map fst sm) /\ NoDup (c_name c) /\
  exists ts o, reconstruct L ts 1 c (PStr "python") CNone 0 0 = Ok o.
Proof.
  destruct C93_example as (L & t & u & v & lat & opts & sm & a & b & c & A1 & A2 & A3 & A4 & A5 & A6 & A7 & A8 & _).
  exists L, t, u, v, lat, opts, sm, a, b, c. repeat (split; [assumption|]). exists (TNum [Fin 730000]). rewrite (reconstruct_eq); [eexists; reflexivity|].
  eapply analysis_wf; eauto.
Qed.

(** C96.  For turned or mirrored data reconstruct returns the turned or mirrored vectors *)
Theorem C96_turned_output : forall L t u v lat opts sm c L' t' u' v' lat' opts' sm' c' phi,
  analysis L t u v lat opts sm c -> analysis L' t' u' v' lat' opts' sm' c' -> same_model c c' -> is2d v = true -> values_by (turn phi) sm sm' ->
  approximate (c_opt c) = false -> lstsq_minimises L -> lstsq_minimises L' -> o_method (c_opt c) = PStr "ols" -> o_method (c_opt c') = PStr "ols" ->
  identifiable c' (map fst sm') -> NoDup (c_name c) -> forall L1 ts zs, returns L1 c ts zs -> returns L1 c' ts (map (turn phi) zs).
Proof. exact out_turned. Qed.
Print Assumptions C96_turned_output.

Theorem C96_mirrored_output : forall L t u v lat opts sm c L' t' u' v' lat' opts' sm' c' phi,
  analysis L t u v lat opts sm c -> analysis L' t' u' v' lat' opts' sm' c' -> same_model c c' -> is2d v = true -> values_by (mirror phi) sm sm' ->
  o_infer (c_opt c) = None -> lstsq_minimises L -> lstsq_minimises L' -> o_method (c_opt c) = PStr "ols" -> o_method (c_opt c') = PStr "ols" ->
  identifiable c' (map fst sm') -> NoDup (c_name c) -> forall L1 ts zs, returns L1 c ts zs -> returns L1 c' ts (map (mirror phi) zs).
Proof. exact out_mirrored. Qed.
Print Assumptions C96_mirrored_output.

Example C96_output_example : exists L t u v lat opts sm c L' t' u' v' lat' opts' sm' c',
  analysis L t u v lat opts sm c /\ analysis L' t' u' v' lat' opts' sm' c' /\ same_model c c' /\ is2d v = true /\ values_by (turn 30) sm sm' /\
  approximate (c_opt c) = false /\ lstsq_minimises L /\ lstsq_minimises L' /\ o_method (c_opt c) = PStr "ols" /\ o_method (c_opt c') = PStr "ols" /\
  identifiable c' (map fst sm') /\ NoDup (c_name c) /\ exists zs, returns L c (map fst sm) zs.
Proof.
  destruct C96_turned_example as (L & t & u & v & lat & opts & sm & c & L' & t' & u' & v' & lat' & opts' & sm' & c' & A1 & A2 & A3 & A4 & A5 & A6 & A7 & A8 & A9 & A10 & A11 & A12).
  do 16 eexists. split; [exact A1|]. split; [exact A2|]. split; [exact A3|]. split; [exact A4|]. repeat (split; [eassumption|]).
  destruct (out_uncorrelated _ _ _ _ _ _ _ _ A1 A6 A7 A9 L) as (zs & Z & _). eauto.
Qed.

(** C97.  When the weights are 0 for some samples and one other number for the rest, reconstruct returns what it returns for an
    ordinary analysis of the samples that were kept ... *)
Theorem C97_output : forall L t u v lat opts sm c w k L' t' u' v' lat' opts' sm' c',
  analysis L t u v lat opts sm c -> approximate (c_opt c) = false -> (forall rc, lstsq_contract L rc) -> o_method (c_opt c) <> PStr "ols" ->
  c_weights c = map Fin w -> k <> 0 -> Forall (fun a => a = 0 \/ a = k) w ->
  analysis L' t' u' v' lat' opts' sm' c' -> same_model c c' -> Permutation (kept sm w) sm' ->
  lstsq_minimises L' -> o_method (c_opt c') = PStr "ols" -> identifiable c' (map fst sm') -> NoDup (c_name c') ->
  predict_alike c c' \/
  (exists q d n X r, o_robust_kw (c_opt c) = PDict q d /\ kw_nat (kget d "maxit" (PNum 50)) = Ok n /\
     robustfit_kw L X (map snd sm) (PDict q d) = Ok r /\ c_weights c = rf_w r /\ rf_iterations r = n).
Proof. exact out_kept. Qed.
Print Assumptions C97_output.

(** ... and with the weight function 'ols' reconstruct returns the same as for the ordinary analysis, whatever the constituents,
    thresholds and times *)
Theorem C97_ols_output : forall L t u v lat opts opts' sm sm' c c' q d,
  analysis L t u v lat opts sm c -> analysis L t u v lat opts' sm' c' -> agree opts opts' all_but_method ->
  approximate (c_opt c) = false -> (forall rc, lstsq_contract L rc) -> o_method (c_opt c) <> PStr "ols" -> o_method (c_opt c') = PStr "ols" ->
  setting opts "robust_kw" (PDict q d) -> unique_keys d -> kw_setting d "weight_function" (PStr "ols") ->
  identifiable c (map fst sm) -> NoDup (c_name c) -> forall L1 ts nd e k mS mP, reconstruct L1 ts nd c e k mS mP = reconstruct L1 ts nd c' e k mS mP.
Proof. exact out_unit. Qed.
Print Assumptions C97_ols_output.
(** the cases of C97_discarded_example and C97_ols_weights_example (P_Equal.v) meet these hypotheses *)
