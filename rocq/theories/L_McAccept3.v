(** The calls of L_McAccept with the same options but for the kind of intervals. *)
From Verif Require Import M_Base M_Lib M_Tables M_Options M_Time M_Slvinit M_Select M_Ellipse M_Robust M_Period M_Conf M_Diag M_Solve
  S_Dict S_Options S_Order S_Slv S_Fit S_Model S_Conf S_Errors S_Perm S_Period S_Accept S_McAccept L_SolveInv L_McAccept L_McAccept2.
Open Scope R_scope.
Open Scope string_scope.

Lemma accept_any L t u v la opts opts0 sm c0 :
  analysis L t u v (Some la) opts0 sm c0 -> documented_input L t u v opts sm -> options_but_kind opts opts0 -> evaluable la opts sm ->
  setting opts "conf_int" (PStr "MC") -> setting opts0 "conf_int" (PStr "linear") -> mvn_returns L -> mvn_shape L ->
  (forall r, In r (rows c0) -> measured r) ->
  ((exists x, setting opts "white" x /\ ~ falsy x) \/ (v = None /\ svd_returns L /\ eigvals_returns L)) ->
  exists c, solve L t u v (Some la) opts = Ok c.
Proof.
  intros AN DI OK EV MC LIN VR VS ME H.
  apply (accept_mc L t u v la opts opts0 sm c0 AN DI (fun k x h1 h2 _ => OK k x h1 h2) EV MC LIN); auto; [intros x; apply OK; discriminate|].
  destruct H as [H|(H1 & H2 & H3)]; auto.
Qed.
Lemma accept_back L t u v la opts opts0 sm c0 :
  analysis L t u v (Some la) opts0 sm c0 -> documented_input L t u v opts sm -> options_but_kind opts opts0 -> evaluable la opts sm ->
  setting opts "conf_int" (PStr "linear") -> setting opts0 "conf_int" (PStr "MC") ->
  exists c, solve L t u v (Some la) opts = Ok c.
Proof.
  intros AN DI OK EV LIN MC.
  apply (accept_lin L t u v la opts opts0 sm c0 AN DI (fun k x h1 h2 _ => OK k x h1 h2) EV LIN MC). intros x; apply OK; discriminate.
Qed.
Lemma mc_residuals L t u v la opts sm c qu qv : analysis L t u v (Some la) opts sm c -> lstsq_minimises L -> inv_exact L ->
  setting opts "method" (PStr "ols") -> setting opts "infer" PNone -> setting opts "conf_int" (PStr "MC") -> (forall x, setting opts "white" x -> falsy x) ->
  (params c < length sm)%nat -> c_name c <> [] -> noise_variance fst c sm qu -> noise_variance snd c sm qv ->
  qu <> 0 /\ (v <> None -> qv <> 0).
Proof.
  intros AN LM IX ME IN MC WH PN NE NU NV. destruct (mc_noise _ _ _ _ _ _ _ _ _ _ AN LM IX ME IN MC WH PN NE NU NV) as [H1 H2].
  split; [exact H1|]. intros H. apply H2. destruct v; [reflexivity|congruence].
Qed.
