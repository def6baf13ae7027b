(** Property C95: what does not change the fit. *)
From Coq Require Import List String Reals Lia Lra Permutation.
From Coquelicot Require Import Coquelicot.
From Verif Require Import M_Base M_Lib M_Options M_Time M_Slvinit M_Select M_Ellipse M_Robust M_Period M_Conf M_Diag M_Solve M_Recon
  S_Dict S_Options S_Slv S_Order S_Fit S_Recon S_Model S_Perm S_Choice L_SolveInv L_Example L_Example3 L_Example4 L_Example5 L_Example18 L_Example19 L_Choice.
Import ListNotations.
Open Scope R_scope.
Open Scope string_scope.

(** C95.  The coefficients of an ordinary least squares analysis of identifiable data are the only ones that leave the
    smallest misfit: any other set of coefficients of the same model that leaves no larger one has the same constituents,
    rotary components, mean, trend and reconstruction ... *)
Theorem C95_only_minimum : forall L t u v lat opts sm c c' d d',
  analysis L t u v lat opts sm c -> approximate (c_opt c) = false -> lstsq_minimises L -> o_method (c_opt c) = PStr "ols" ->
  identifiable c (map fst sm) -> NoDup (c_name c) ->
  rival c c' -> misfit c sm d -> misfit c' sm d' -> d' <= d -> same_fit c c'.
Proof. exact top_unique. Qed.
Print Assumptions C95_only_minimum.

(** ... so that two analyses of the same samples with the same model agree, whatever the least squares routine, the arrays, the
    order of the samples, and the way the constituents were chosen ... *)
Theorem C95_choice : forall L t u v lat opts sm c L' t' u' v' lat' opts' sm' c',
  analysis L t u v lat opts sm c -> analysis L' t' u' v' lat' opts' sm' c' -> same_model c c' -> Permutation sm sm' ->
  approximate (c_opt c) = false -> lstsq_minimises L -> lstsq_minimises L' ->
  o_method (c_opt c) = PStr "ols" -> o_method (c_opt c') = PStr "ols" ->
  identifiable c (map fst sm) -> NoDup (c_name c) -> same_fit c c'.
Proof. exact top_choice. Qed.
Print Assumptions C95_choice.

(** (equal options, number of components, latitude, reference time and constituents are the same model) *)
Theorem C95_same_model : forall L t u v lat opts sm c L' t' u' v' opts' sm' c',
  analysis L t u v lat opts sm c -> analysis L' t' u' v' lat opts' sm' c' ->
  agree opts opts' ["nodal"; "phase"; "trend"; "infer"] -> is2d v' = is2d v -> c_reftime c' = c_reftime c -> Permutation (c_name c) (c_name c') ->
  same_model c c'.
Proof. exact agree_model. Qed.
Print Assumptions C95_same_model.

(** ... and, for every method and all data, the options outside [fit_options] (intervals, noise, diagnostics, ordering, ...) change
    nothing but the intervals, the diagnostics and the order of the constituents *)
Theorem C95_options : forall L t u v lat opts opts' sm sm' c c',
  analysis L t u v lat opts sm c -> analysis L t u v lat opts' sm' c' -> agree opts opts' fit_options -> same_but_intervals c c'.
Proof. exact top_options. Qed.
Print Assumptions C95_options.

(** Without nodal corrections the latitude changes nothing, errors, intervals and predictions included, and the same
    holds, with any options, for two latitudes on one side of the equator and not more than five degrees from it. *)
Theorem C95_latitude : forall L t u v la la' opts, unique_keys opts ->
  setting opts "nodal" (PBool false) \/ near_equator la la' ->
  solve L t u v (Some la') opts = with_lat_in la' (solve L t u v (Some la) opts) /\
  forall c, solve L t u v (Some la) opts = Ok c -> forall L' t' n e ct snr pe,
    reconstruct L' t' n (with_lat la' c) e ct snr pe = reconstruct L' t' n c e ct snr pe.
Proof. exact top_latitude. Qed.
Print Assumptions C95_latitude.

(** an M2 tide at the days 0 1 2 4, M2 found by automatic selection and no intervals; and the same samples in another order,
    M2 named, with intervals *)
Example C95_choice_example : exists L t u v lat opts sm c L' t' u' v' lat' opts' sm' c',
  analysis L t u v lat opts sm c /\ analysis L' t' u' v' lat' opts' sm' c' /\ same_model c c' /\ Permutation sm sm' /\ sm <> sm' /\
  setting opts "constit" (PStr "auto") /\ setting opts' "constit" (PSeq [PStr "M2"]) /\
  approximate (c_opt c) = false /\ lstsq_minimises L /\ lstsq_minimises L' /\
  o_method (c_opt c) = PStr "ols" /\ o_method (c_opt c') = PStr "ols" /\ identifiable c (map fst sm) /\ NoDup (c_name c).
Proof.
  destruct (choice_runs (2, 1) 3) as (c & k & A1 & A2 & A3 & A4 & A5 & A6 & A7 & A8 & A9).
  exists (tryL [mm (2, 1) 3]), ex_t, (m2_u (2, 1) 3), None, (Some 45), auto_opts, (m2_sm (2, 1) 3), c.
  exists (tryL [mm (2, 1) 3]), t_b, (u_b (2, 1) 3), None, (Some 45), (q_opts true), (sm_b (2, 1) 3), k.
  split; [exact A1|]. split; [exact A2|]. split; [exact A4|]. split; [exact A3|].
  split. { intros E. apply (f_equal (map fst)) in E. injection E. intros. lra. }
  split. { right. split; [cbn; intros K; repeat (destruct K as [K|K]; [discriminate|]); exact K|cbn; tauto]. }
  split; [left; cbn; tauto|]. split; [exact A7|]. split; [apply try_minimises|]. split; [apply try_minimises|]. auto.
Qed.
(** the same samples without intervals and with intervals *)
Example C95_options_example : exists L t u v lat opts opts' sm sm' c c',
  analysis L t u v lat opts sm c /\ analysis L t u v lat opts' sm' c' /\ agree opts opts' fit_options /\
  setting opts "conf_int" (PStr "none") /\ setting opts' "conf_int" (PStr "linear").
Proof.
  destruct (options_runs (2, 1) 3) as (c & k & A1 & A2 & A3).
  exists (tryL [mm (2, 1) 3]), t_a, (u_a (2, 1) 3), None, (Some 45), off_opts, (q_opts true), (m2_sm (2, 1) 3), (sm_a (2, 1) 3), c, k.
  split; [exact A1|]. split; [exact A2|]. split; [exact A3|]. split; left; cbn; tauto.
Qed.
(** a run without nodal corrections, whose latitude 45 can be replaced by -30 *)
Example C95_latitude_example : exists L t u c, solve L t u None (Some 45) off_opts = Ok c /\ solve L t u None (Some (-30)) off_opts = Ok (with_lat (-30) c) /\
  unique_keys off_opts /\ setting off_opts "nodal" (PBool false) /\ near_equator 1 (9 / 2).
Proof.
  destruct (options_runs (2, 1) 3) as (c & k & [_ _ U _ _ _ A1] & _).
  exists (tryL [mm (2, 1) 3]), t_a, (u_a (2, 1) 3), c. split; [exact A1|].
  assert (S : setting off_opts "nodal" (PBool false)) by (left; cbn; tauto).
  split. { destruct (top_latitude (tryL [mm (2, 1) 3]) t_a (u_a (2, 1) 3) None 45 (-30) off_opts U (or_introl S)) as [E _]. rewrite E, A1. reflexivity. }
  split; [exact U|]. split; [exact S|]. left. lra.
Qed.
