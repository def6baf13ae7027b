(** Properties C09-C14: options of solve. *)
From Verif Require Import M_Base M_Lib M_Bunch M_Options M_Time M_Slvinit M_Diag M_Solve
  S_Dict S_Options L_Options L_SolveInv L_OptSolve.
Open Scope R_scope.
Open Scope string_scope.

(** C09.  Unknown keywords are rejected with KeyError (and "strict", which collides with an internal
    keyword, with TypeError); nothing else raises KeyError during option processing. *)
Theorem C09_unknown_option_rejected : forall L t u v lat opts, unique_keys opts ->
  ~ In "strict" (keys opts) -> (exists k, In k (keys opts) /\ ~ In k (keys documented)) ->
  solve L t u v lat opts = Err KeyError.
Proof. intros; now apply solve_unknown_lemma. Qed.
Print Assumptions C09_unknown_option_rejected.

Theorem C09_KeyError_iff_unknown : forall opts twodim, unique_keys opts -> ~ In "strict" (keys opts) ->
  (process_opts opts twodim = Err KeyError <->
   exists k, In k (keys opts) /\ ~ In k (keys documented)).
Proof. exact process_KeyError_lemma. Qed.
Print Assumptions C09_KeyError_iff_unknown.

Theorem C09_strict_rejected : forall L t u v lat opts,
  In "strict" (keys opts) -> solve L t u v lat opts = Err TypeError.
Proof. intros; now apply solve_strict_lemma. Qed.
Print Assumptions C09_strict_rejected.

Theorem C09_accepted_options_are_documented : forall L t u v lat opts c, unique_keys opts ->
  solve L t u v lat opts = Ok c -> forall k, In k (keys opts) -> In k (keys documented).
Proof. intros L t u v lat opts c Hu Hc. exact (solve_documented L t u v lat opts Hu c Hc). Qed.
Print Assumptions C09_accepted_options_are_documented.

(** Given keywords override the documented default; the others keep it ([setting]); the result
    carries exactly these values. *)
Theorem C09_settings_take_effect : forall L t u v lat opts c, unique_keys opts ->
  solve L t u v lat opts = Ok c ->
  (forall x, setting opts "constit" x -> o_cnstit (c_opt c) = x) /\
  (forall x, setting opts "trend" x -> (o_notrend (c_opt c) = true <-> falsy x)) /\
  (forall x, setting opts "white" x -> (o_white (c_opt c) = false <-> falsy x)) /\
  (forall x, setting opts "Rayleigh_min" (PNum x) -> o_rmin (c_opt c) = x) /\
  (forall x, setting opts "method" x -> o_method (c_opt c) = x) /\
  (forall x, setting opts "robust_kw" x -> o_robust_kw (c_opt c) = x) /\
  (forall x, setting opts "epoch" x -> o_epoch (c_opt c) = x) /\
  o_twodim (c_opt c) = (match v with Some _ => true | None => false end).
Proof.
  intros L t u v lat opts c Hu Hc.
  exact (conj (set_constit L t u v lat opts Hu c Hc) (conj (set_trend L t u v lat opts Hu c Hc)
    (conj (set_white L t u v lat opts Hu c Hc) (conj (set_rmin L t u v lat opts Hu c Hc)
    (conj (set_method L t u v lat opts Hu c Hc) (conj (set_robust_kw L t u v lat opts Hu c Hc)
    (conj (set_epoch L t u v lat opts Hu c Hc) (set_twodim L t u v lat opts Hu c Hc)))))))).
Qed.
Print Assumptions C09_settings_take_effect.

(** The number of Monte-Carlo realisations is 200 whatever MC_n says (documented: not implemented). *)
Theorem C09_MC_n_is_ignored : forall L t u v lat opts c, unique_keys opts ->
  solve L t u v lat opts = Ok c -> o_nrlzn (c_opt c) = 200%nat.
Proof. intros L t u v lat opts c Hu Hc. exact (set_nrlzn L t u v lat opts Hu c Hc). Qed.
Print Assumptions C09_MC_n_is_ignored.

Example C09_example_unknown :
  process_opts [("trend", PBool false); ("constitt", PStr "auto")] true = Err KeyError.
Proof. reflexivity. Qed.
Example C09_example_accepted : exists compat,
  process_opts [("trend", PBool false); ("constit", PSeq [PStr "M2"])] true = Ok compat /\
  dget compat "notrend" = Some (PBool true) /\ dget compat "cnstit" = Some (PSeq [PStr "M2"]) /\
  dget compat "conf_int" = Some (PBool true).
Proof. eexists. split; [reflexivity|]. repeat split. Qed.

(** C10.  Correction modes; at most one flag of each pair is set. *)
Theorem C10_correction_modes : forall L t u v lat opts c, unique_keys opts ->
  solve L t u v lat opts = Ok c ->
  (forall x, setting opts "nodal" x ->
     (o_nodsatlint (c_opt c) = true <-> x = PStr "linear_time") /\
     (o_nodsatnone (c_opt c) = true <-> falsy x)) /\
  (forall x, setting opts "phase" x ->
     (o_gwchlint (c_opt c) = true <-> x = PStr "linear_time") /\
     (o_gwchnone (c_opt c) = true <-> x = PStr "raw")).
Proof.
  intros L t u v lat opts c Hu Hc.
  exact (conj (set_nodal L t u v lat opts Hu c Hc) (set_phase L t u v lat opts Hu c Hc)).
Qed.
Print Assumptions C10_correction_modes.

Example C10_example : exists compat o,
  process_opts [("nodal", PStr "linear_time"); ("phase", PStr "raw")] false = Ok compat /\
  read_opt (slv_opts false true compat) = Ok o /\
  o_nodsatlint o = true /\ o_gwchnone o = true /\ o_gwchlint o = false.
Proof. do 2 eexists. split; [reflexivity|]. split; [reflexivity|]. repeat split. Qed.

(** C11. *)
Theorem C11_conf_int_values : forall L t u v lat opts c x, unique_keys opts ->
  solve L t u v lat opts = Ok c -> setting opts "conf_int" x ->
  (x = PStr "linear" \/ x = PStr "MC" \/ x = PStr "none") /\
  (o_conf_int (c_opt c) = true <-> x <> PStr "none") /\
  (o_nodiagn (c_opt c) = true <-> x = PStr "none") /\
  (o_linci (c_opt c) = true <-> x = PStr "linear").
Proof. intros L t u v lat opts c x Hu Hc. exact (set_conf L t u v lat opts Hu c Hc x). Qed.
Print Assumptions C11_conf_int_values.

Theorem C11_bad_conf_int_rejected : forall L t u v lat opts x, unique_keys opts ->
  setting opts "conf_int" x -> x <> PStr "linear" -> x <> PStr "MC" -> x <> PStr "none" ->
  (exists e, solve L t u v lat opts = Err e) /\
  ((forall k, In k (keys opts) -> In k (keys documented)) -> setting opts "infer" PNone ->
   solve L t u v lat opts = Err ValueError).
Proof. intros; now apply conf_reject_lemma with (x := x). Qed.
Print Assumptions C11_bad_conf_int_rejected.

Theorem C11_none_has_no_intervals : forall L t u v lat opts c, unique_keys opts ->
  solve L t u v lat opts = Ok c -> setting opts "conf_int" (PStr "none") ->
  c_g_ci c = None /\ c_A_ci c = None /\ c_Lsmaj_ci c = None /\ c_Lsmin_ci c = None /\
  c_theta_ci c = None /\ c_SNR c = None /\ c_diagn c = None.
Proof. intros L t u v lat opts c Hu Hc. exact (conf_none_fields L t u v lat opts Hu c Hc). Qed.
Print Assumptions C11_none_has_no_intervals.

Theorem C11_otherwise_has_intervals : forall L t u v lat opts c x, unique_keys opts ->
  solve L t u v lat opts = Ok c -> setting opts "conf_int" x -> x <> PStr "none" ->
  c_g_ci c <> None /\ c_SNR c <> None /\ c_PE c <> None /\ c_diagn c <> None /\
  (v = None -> c_A_ci c <> None) /\
  (v <> None -> c_Lsmaj_ci c <> None /\ c_Lsmin_ci c <> None /\ c_theta_ci c <> None).
Proof. intros L t u v lat opts c x Hu Hc. exact (conf_given_fields L t u v lat opts Hu c Hc x). Qed.
Print Assumptions C11_otherwise_has_intervals.

Example C11_example : process_opts [("conf_int", PStr "linearr")] false = Err ValueError.
Proof. reflexivity. Qed.
Example C11_example_None : process_opts [("conf_int", PNone)] false = Err ValueError.
Proof. reflexivity. Qed.

(** C12.  [order_ok] is the documented set of values. *)
Theorem C12_order_constit_values : forall opts twodim, unique_keys opts ->
  (forall k, In k (keys opts) -> In k (keys documented)) -> setting opts "infer" PNone ->
  forall x cf, setting opts "order_constit" x -> setting opts "conf_int" cf ->
  (cf = PStr "linear" \/ cf = PStr "MC" \/ cf = PStr "none") ->
  (order_ok x cf -> exists compat, process_opts opts twodim = Ok compat /\
      dget compat "ordercnstit" = Some (match x with PNone => PStr "PE" | _ => x end)) /\
  (~ order_ok x cf -> process_opts opts twodim = Err ValueError).
Proof. exact process_infer_none. Qed.
Print Assumptions C12_order_constit_values.

Example C12_example_bad :
  process_opts [("order_constit", PStr "SNR"); ("conf_int", PStr "none")] false = Err ValueError.
Proof. reflexivity. Qed.
Example C12_example_good : exists compat,
  process_opts [("order_constit", PSeq [PStr "M2"; PStr "S2"])] false = Ok compat.
Proof. eexists. reflexivity. Qed.

(** C13. *)
Theorem C13_infer_accepted_iff : forall d twodim r, unique_keys d ->
  (validate_infer (PDict true d) twodim = Ok r <->
   infer_lengths_ok d twodim /\ r = PDict true (validated d)).
Proof. exact validate_infer_ok_iff. Qed.
Print Assumptions C13_infer_accepted_iff.

Theorem C13_only_approximate_is_added : forall d, unique_keys d ->
  unique_keys (validated d) /\
  (forall k v, In k (keys d) -> (entry (validated d) k v <-> entry d k v)) /\
  (forall k v, ~ In k (keys d) -> (entry (validated d) k v <-> k = "approximate" /\ v = PBool false)).
Proof. exact validated_frame. Qed.
Print Assumptions C13_only_approximate_is_added.

Theorem C13_wrong_lengths : forall d (twodim : bool) a b c e na nb nc ne, unique_keys d ->
  entry d "inferred_names" a -> entry d "reference_names" b ->
  entry d "amp_ratios" c -> entry d "phase_offsets" e ->
  has_length a na -> has_length b nb -> has_length c nc -> has_length e ne ->
  (let m := if twodim then (2 * na)%nat else na in ~ (nb = na /\ nc = m /\ ne = m)) ->
  validate_infer (PDict true d) twodim = Err ValueError.
Proof. exact validate_infer_bad_lengths. Qed.
Print Assumptions C13_wrong_lengths.

Theorem C13_solve_used_a_wellformed_infer : forall L t u v lat opts c b d,
  unique_keys opts -> unique_keys d ->
  solve L t u v lat opts = Ok c -> setting opts "infer" (PDict b d) ->
  b = true /\ infer_lengths_ok d (match v with Some _ => true | None => false end).
Proof. exact solve_infer_lemma. Qed.
Print Assumptions C13_solve_used_a_wellformed_infer.

(** Missing keys are never accepted, but the documented ValueError is not what is raised ... *)
Theorem C13_missing_keys_never_accepted : forall b d twodim k,
  In k required_keys -> ~ In k (keys d) -> forall r, validate_infer (PDict b d) twodim <> Ok r.
Proof. exact validate_infer_missing_never. Qed.
Print Assumptions C13_missing_keys_never_accepted.

Theorem C13_missing_keys_ValueError_refuted : forall b d twodim,
  (forall k, In k (keys d) -> In k required_keys) -> (exists k, In k required_keys /\ ~ In k (keys d)) ->
  validate_infer (PDict b d) twodim = Err TypeError.
Proof. exact validate_infer_missing_only. Qed.
Print Assumptions C13_missing_keys_ValueError_refuted.

(** ... and a plain dict, documented as acceptable, never is. *)
Theorem C13_plain_dict_refuted : forall d twodim, infer_lengths_ok d twodim ->
  validate_infer (PDict false d) twodim = Err AttributeError.
Proof. exact validate_infer_plain_complete. Qed.
Print Assumptions C13_plain_dict_refuted.

Definition C13_good : list (string * pyval) :=
  [("inferred_names", PSeq [PStr "P1"]); ("reference_names", PSeq [PStr "K1"]);
   ("amp_ratios", PSeq [PNum (1/3)]); ("phase_offsets", PSeq [PNum 0])].
Example C13_example_good : validate_infer (PDict true C13_good) false =
  Ok (PDict true (C13_good ++ [("approximate", PBool false)])%list).
Proof. reflexivity. Qed.
Example C13_example_lengths : infer_lengths_ok C13_good false.
Proof.
  exists (PSeq [PStr "P1"]), (PSeq [PStr "K1"]), (PSeq [PNum (1/3)]), (PSeq [PNum 0]), 1%nat.
  unfold entry, has_length, C13_good. simpl. repeat split; eauto 8.
Qed.
Example C13_example_vector : validate_infer (PDict true C13_good) true = Err ValueError.
Proof. reflexivity. Qed.
Example C13_example_missing : validate_infer (PDict true (tl C13_good)) false = Err TypeError.
Proof. reflexivity. Qed.

(** C14.  Any method other than 'ols' gives the same (robust) result; 'ols' weights are all 1. *)
Theorem C14_every_other_method_is_robust : forall L t u v lat opts c x y, unique_keys opts ->
  setting opts "method" x -> x <> PStr "ols" -> y <> PStr "ols" ->
  solve L t u v lat opts = Ok c ->
  solve L t u v lat (dset opts "method" y) = Ok (with_opt c (with_method (c_opt c) y)).
Proof. exact method_lemma. Qed.
Print Assumptions C14_every_other_method_is_robust.

Theorem C14_ols_weights_are_one : forall L t u v lat opts c, unique_keys opts ->
  setting opts "method" (PStr "ols") -> solve L t u v lat opts = Ok c ->
  forall w, In w (c_weights c) -> w = Fin 1.
Proof. exact ols_weights. Qed.
Print Assumptions C14_ols_weights_are_one.

Example C14_example_misspelt : exists compat o,
  process_opts [("method", PStr "olss")] false = Ok compat /\
  read_opt (slv_opts false true compat) = Ok o /\ o_method o = PStr "olss".
Proof. do 2 eexists. split; [reflexivity|]. split; reflexivity. Qed.
