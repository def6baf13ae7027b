(** Property C94: the order of the samples. *)
From Coq Require Import List String Reals Lia Lra Permutation.
From Coquelicot Require Import Coquelicot.
From Verif Require Import M_Base M_Lib M_Options M_Time M_Slvinit M_Select M_Ellipse M_Robust M_Period M_Conf M_Diag M_Solve M_Recon
  S_Dict S_Options S_Slv S_Order S_Fit S_Recon S_Model S_Perm L_SolveInv L_Example3 L_Example4 L_Example18 L_Perm.
Import ListNotations.
Open Scope R_scope.
Open Scope string_scope.

(** C94.  The same samples in another order, with the same reference time: the same constituents, rotary components,
    mean, trend and reconstruction ... *)
Theorem C94_coefficients : forall L t u v t' u' v' lat opts sm sm' c c',
  analysis L t u v lat opts sm c -> analysis L t' u' v' lat opts sm' c' -> is2d v' = is2d v ->
  reordered L opts t t' sm sm' -> c_reftime c' = c_reftime c -> o_equi (c_opt c') = o_equi (c_opt c) \/ complete L opts t sm ->
  lstsq_minimises L -> o_method (c_opt c) = PStr "ols" -> approximate (c_opt c) = false -> identifiable c (map fst sm) -> NoDup (c_name c) ->
  same_fit c c'.
Proof. exact top_order. Qed.
Print Assumptions C94_coefficients.

(** ... and the same whole result, intervals and diagnostics included, without intervals or with white noise ... *)
Theorem C94_whole : forall L t u v t' u' v' lat opts sm sm' c c',
  analysis L t u v lat opts sm c -> analysis L t' u' v' lat opts sm' c' -> is2d v' = is2d v ->
  reordered L opts t t' sm sm' -> c_reftime c' = c_reftime c -> o_equi (c_opt c') = o_equi (c_opt c) ->
  lstsq_minimises L -> o_method (c_opt c) = PStr "ols" -> approximate (c_opt c) = false -> identifiable c (map fst sm) -> NoDup (c_name c) ->
  o_conf_int (c_opt c) = false \/ o_white (c_opt c) = true -> c' = c.
Proof. exact top_same. Qed.
Print Assumptions C94_whole.

(** ... and the reference time of a record without invalid samples is settled by its first and last entries *)
Theorem C94_reference_time : forall L t u v lat opts sm c a b mid,
  analysis L t u v lat opts sm c -> complete L opts t sm -> map fst sm = ((a :: mid) ++ [b])%list -> c_reftime c = (a + b) / 2.
Proof. exact top_ends. Qed.
Print Assumptions C94_reference_time.

(** an M2 tide at the days 0 1 2 4 and at the days 0 2 1 4, with linearised intervals for white noise *)
Example C94_example : exists L t u v t' u' v' lat opts sm sm' c c',
  analysis L t u v lat opts sm c /\ analysis L t' u' v' lat opts sm' c' /\ is2d v' = is2d v /\ sm <> sm' /\
  reordered L opts t t' sm sm' /\ c_reftime c' = c_reftime c /\ o_equi (c_opt c') = o_equi (c_opt c) /\ complete L opts t sm /\
  lstsq_minimises L /\ o_method (c_opt c) = PStr "ols" /\ approximate (c_opt c) = false /\ identifiable c (map fst sm) /\ NoDup (c_name c) /\
  o_conf_int (c_opt c) = true /\ o_white (c_opt c) = true /\ map fst sm = ((0 :: [1; 2]) ++ [4])%list.
Proof.
  destruct (swapped_runs (2, 1) 3) as (k & k' & A1 & A2 & A3 & A4 & A5 & A6 & A7 & A8 & A9 & A10).
  exists (tryL [mm (2, 1) 3]), t_a, (u_a (2, 1) 3), None, t_b, (u_b (2, 1) 3), None, (Some 45), (q_opts true), (sm_a (2, 1) 3), (sm_b (2, 1) 3), k, k'.
  split; [exact A1|]. split; [exact A2|]. split; [reflexivity|].
  split. { intros E. apply (f_equal (map fst)) in E. injection E. intros. lra. }
  split; [apply swapped|]. split; [exact A3|]. split; [exact A4|]. split; [apply all_given|]. split; [apply try_minimises|].
  repeat (split; [assumption|]). reflexivity.
Qed.

(** The order does matter when it moves the first or the last sample: a level rising by one unit per day, analysed with a
    trend at the days 0 1 2 4 and with the last two samples exchanged, is reported with mean 2 and with mean 1. *)
Theorem C94_any_order_refuted : ~ (forall L t u v t' u' v' lat opts sm sm' c c',
  analysis L t u v lat opts sm c -> analysis L t' u' v' lat opts sm' c' -> is2d v' = is2d v ->
  reordered L opts t t' sm sm' -> complete L opts t sm ->
  lstsq_minimises L -> o_method (c_opt c) = PStr "ols" -> approximate (c_opt c) = false -> identifiable c (map fst sm) -> NoDup (c_name c) ->
  forall z, mean_is c z -> mean_is c' z).
Proof. exact any_order. Qed.
Print Assumptions C94_any_order_refuted.
