(** C113: approximate inference leaves the other constituents alone. *)
From Coq Require Import Permutation.
From Verif Require Import M_Base M_Lib M_Tables M_Const M_Options M_Time M_Slvinit M_Harmonics M_Select M_Ellipse
  M_Robust M_Period M_Conf M_Diag M_Solve M_Recon S_Dict S_Options S_Order S_Select S_Fit S_Recon S_Model S_Perm S_Approx
  L_Example L_Exact L_Example23 L_Approx L_Example32.
Open Scope R_scope.
Open Scope string_scope.

(** with approximate inference and ordinary least squares, the constituents that are not inferred, the mean and the trend are what the
    analysis of the same samples for those constituents without inference finds *)
Theorem C113_approximate : forall L t u v lat opts sm c inf L' t' u' v' lat' opts' sm' c',
  analysis L t u v lat opts sm c -> analysis L' t' u' v' lat' opts' sm' c' -> without_inference c c' -> Permutation sm sm' ->
  o_infer (c_opt c) = Some inf -> inf_approx inf = true ->
  lstsq_minimises L -> lstsq_minimises L' -> o_method (c_opt c) = PStr "ols" -> o_method (c_opt c') = PStr "ols" ->
  NoDup (c_name c) -> identifiable c' (map fst sm') ->
  same_not_inferred c c'.
Proof. exact approx_plain. Qed.
Print Assumptions C113_approximate.

(** and an inferred constituent is the prescribed multiple of what the analysis without inference finds for its reference *)
Theorem C113_inferred : forall L t u v lat opts sm c inf L' t' u' v' lat' opts' sm' c' j i r rp rm,
  analysis L t u v lat opts sm c -> analysis L' t' u' v' lat' opts' sm' c' -> without_inference c c' -> Permutation sm sm' ->
  o_infer (c_opt c) = Some inf -> inf_approx inf = true ->
  lstsq_minimises L -> lstsq_minimises L' -> o_method (c_opt c) = PStr "ols" -> o_method (c_opt c') = PStr "ols" ->
  NoDup (c_name c) -> identifiable c' (map fst sm') ->
  request_at inf (o_twodim (c_opt c)) j (i, r, rp, rm) ->
  exists a b, In a (rows c) /\ In b (rows c') /\ w_name a = Some i /\ w_name b = Some r /\ multiple rp rm a b.
Proof. exact approx_inferred. Qed.
Print Assumptions C113_inferred.

(** M2 with S2 inferred from it approximately, and M2 alone, at the days 0, 1, 2, 4 *)
Example C113_example : exists L t u opts opts' sm c c' inf,
  analysis L t u None (Some 45) opts sm c /\ analysis L t u None (Some 45) opts' sm c' /\ without_inference c c' /\
  o_infer (c_opt c) = Some inf /\ inf_approx inf = true /\ inf_inferred inf = ["S2"] /\ lstsq_minimises L /\
  o_method (c_opt c) = PStr "ols" /\ o_method (c_opt c') = PStr "ols" /\ NoDup (c_name c) /\ identifiable c' (map fst sm) /\
  Permutation (c_name c) ["M2"; "S2"] /\ Permutation (c_name c') ["M2"] /\
  exists rp rm, request_at inf (o_twodim (c_opt c)) 0 ("S2", "M2", rp, rm).
Proof. exact ap_example. Qed.

(** so the ratios and phase differences given for approximate inference have no influence on the other constituents, the mean and the
    trend *)
Theorem C113_ratios : forall L1 t1 u1 v1 lat1 opts1 sm1 c1 inf1 L2 t2 u2 v2 lat2 opts2 sm2 c2 inf2 L t u v lat opts sm c,
  analysis L1 t1 u1 v1 lat1 opts1 sm1 c1 -> analysis L2 t2 u2 v2 lat2 opts2 sm2 c2 -> analysis L t u v lat opts sm c ->
  without_inference c1 c -> without_inference c2 c -> Permutation sm1 sm -> Permutation sm2 sm ->
  o_infer (c_opt c1) = Some inf1 -> inf_approx inf1 = true -> o_infer (c_opt c2) = Some inf2 -> inf_approx inf2 = true ->
  lstsq_minimises L1 -> lstsq_minimises L2 -> lstsq_minimises L ->
  o_method (c_opt c1) = PStr "ols" -> o_method (c_opt c2) = PStr "ols" -> o_method (c_opt c) = PStr "ols" ->
  NoDup (c_name c1) -> NoDup (c_name c2) -> identifiable c (map fst sm) ->
  same_besides_inferred c1 c2.
Proof. exact approx_ratios. Qed.
Print Assumptions C113_ratios.

(** S2 inferred approximately from M2 with the amplitude ratios 1/2 and 3 *)
Example C113_ratios_example : exists L t u opts1 opts2 opts sm c1 c2 c inf1 inf2,
  analysis L t u None (Some 45) opts1 sm c1 /\ analysis L t u None (Some 45) opts2 sm c2 /\ analysis L t u None (Some 45) opts sm c /\
  without_inference c1 c /\ without_inference c2 c /\ o_infer (c_opt c1) = Some inf1 /\ inf_approx inf1 = true /\ o_infer (c_opt c2) = Some inf2 /\ inf_approx inf2 = true /\
  lstsq_minimises L /\ o_method (c_opt c1) = PStr "ols" /\ o_method (c_opt c2) = PStr "ols" /\ o_method (c_opt c) = PStr "ols" /\
  NoDup (c_name c1) /\ NoDup (c_name c2) /\ identifiable c (map fst sm) /\ inf_amp inf1 <> inf_amp inf2.
Proof. exact ap_example2. Qed.
