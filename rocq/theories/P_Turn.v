(** Property C96: current data in turned, mirrored or exchanged axes. *)
From Coq Require Import List String Reals Lia Lra Permutation.
From Coquelicot Require Import Coquelicot.
From Verif Require Import M_Base M_Lib M_Options M_Time M_Slvinit M_Select M_Ellipse M_Robust M_Period M_Conf M_Diag M_Solve M_Recon
  S_Dict S_Options S_Slv S_Order S_Fit S_Ellipse S_Recon S_Model S_Choice S_Turn L_SolveInv L_Example L_Example3 L_Example4 L_Example20 L_Turn.
Import ListNotations.
Open Scope R_scope.
Open Scope string_scope.

(** C96.  Vectors turned by phi degrees: the axes and the phase lags of every constituent stay (the lag up to the 180 degrees that
    belong to a half turn of the orientation), the orientations turn by phi, mean, trend and reconstruction are turned ... *)
Theorem C96_turned : forall L t u v lat opts sm c L' t' u' v' lat' opts' sm' c' phi,
  analysis L t u v lat opts sm c -> analysis L' t' u' v' lat' opts' sm' c' -> same_model c c' -> is2d v = true -> values_by (turn phi) sm sm' ->
  approximate (c_opt c) = false -> lstsq_minimises L -> lstsq_minimises L' -> o_method (c_opt c) = PStr "ols" -> o_method (c_opt c') = PStr "ols" ->
  identifiable c' (map fst sm') -> NoDup (c_name c) -> result_by (turn phi) 1 phi c c'.
Proof. exact top_turned. Qed.
Print Assumptions C96_turned.

(** ... mirrored vectors: the same with the other sense of rotation (sign of the minor axis) and orientation phi - theta ... *)
Theorem C96_mirrored : forall L t u v lat opts sm c L' t' u' v' lat' opts' sm' c' phi,
  analysis L t u v lat opts sm c -> analysis L' t' u' v' lat' opts' sm' c' -> same_model c c' -> is2d v = true -> values_by (mirror phi) sm sm' ->
  o_infer (c_opt c) = None -> lstsq_minimises L -> lstsq_minimises L' -> o_method (c_opt c) = PStr "ols" -> o_method (c_opt c') = PStr "ols" ->
  identifiable c' (map fst sm') -> NoDup (c_name c) -> result_by (mirror phi) (-1) phi c c'.
Proof. exact top_mirrored. Qed.
Print Assumptions C96_mirrored.

(** ... which covers exchanged components and components of the opposite sign *)
Theorem C96_exchange : forall z, mirror 90 z = (snd z, fst z) /\ mirror 0 z = (fst z, - snd z) /\ mirror 180 z = (- fst z, snd z).
Proof. exact (fun z => conj (mirror_90 z) (conj (mirror_0 z) (mirror_180 z))). Qed.
Print Assumptions C96_exchange.

(** an elliptic M2 current on a mean current, turned by 30 degrees *)
Example C96_turned_example : exists L t u v lat opts sm c L' t' u' v' lat' opts' sm' c',
  analysis L t u v lat opts sm c /\ analysis L' t' u' v' lat' opts' sm' c' /\ same_model c c' /\ is2d v = true /\ values_by (turn 30) sm sm' /\
  approximate (c_opt c) = false /\ lstsq_minimises L /\ lstsq_minimises L' /\ o_method (c_opt c) = PStr "ols" /\ o_method (c_opt c') = PStr "ols" /\
  identifiable c' (map fst sm') /\ NoDup (c_name c).
Proof.
  set (m := (((2, 1), (0, 1), (3, -1)) : C * C * C)).
  set (m' := ((Cmult (cis (rad 30)) (2, 1), Cmult (cis (rad 30)) (0, 1), Cmult (cis (rad 30)) (3, -1)) : C * C * C)).
  destruct (flow_pair m m') as (c & c' & A1 & A2 & A3 & A4 & A5 & A6 & A7 & A8 & A9).
  exists (tryL [flow m]), ex_t, (flow_u m), (flow_v m), (Some 45), off_opts, (flow_sm m), c, (tryL [flow m']), ex_t, (flow_u m'), (flow_v m'), (Some 45), off_opts, (flow_sm m'), c'.
  split; [exact A1|]. split; [exact A2|]. split; [exact A3|]. split; [reflexivity|]. split; [apply flow_values; intros x; apply flow_turn|].
  split; [exact A5|]. split; [apply try_minimises|]. split; [apply try_minimises|]. auto.
Qed.
(** the same with exchanged components *)
Example C96_mirrored_example : exists L t u v lat opts sm c L' t' u' v' lat' opts' sm' c',
  analysis L t u v lat opts sm c /\ analysis L' t' u' v' lat' opts' sm' c' /\ same_model c c' /\ is2d v = true /\ values_by (mirror 90) sm sm' /\
  o_infer (c_opt c) = None /\ lstsq_minimises L /\ lstsq_minimises L' /\ o_method (c_opt c) = PStr "ols" /\ o_method (c_opt c') = PStr "ols" /\
  identifiable c' (map fst sm') /\ NoDup (c_name c).
Proof.
  set (m := (((2, 1), (0, 1), (3, -1)) : C * C * C)).
  set (m' := ((Cmult (cis (rad 90)) (Cconj (0, 1)), Cmult (cis (rad 90)) (Cconj (2, 1)), Cmult (cis (rad 90)) (Cconj (3, -1))) : C * C * C)).
  destruct (flow_pair m m') as (c & c' & A1 & A2 & A3 & A4 & A5 & A6 & A7 & A8 & A9).
  exists (tryL [flow m]), ex_t, (flow_u m), (flow_v m), (Some 45), off_opts, (flow_sm m), c, (tryL [flow m']), ex_t, (flow_u m'), (flow_v m'), (Some 45), off_opts, (flow_sm m'), c'.
  split; [exact A1|]. split; [exact A2|]. split; [exact A3|]. split; [reflexivity|]. split; [apply flow_values; intros x; apply flow_mirror|].
  split; [exact A4|]. split; [apply try_minimises|]. split; [apply try_minimises|]. auto.
Qed.
