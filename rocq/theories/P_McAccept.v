(** C107: which calls of solve with Monte-Carlo intervals give a result. *)
From Coq Require Import Lia Lra.
From Verif Require Import M_Base M_Lib M_Tables M_Options M_Time M_Slvinit M_Select M_Ellipse M_Robust M_Period M_Conf M_Diag M_Solve
  S_Dict S_Options S_Order S_Slv S_Fit S_Model S_Conf S_Errors S_Perm S_Period S_Accept S_McAccept
  L_Base L_Options L_OptSolve L_Example L_Example7 L_Example9 L_Example10 L_Example23 L_McAccept L_McAccept2 L_McAccept3 L_Example27.
Open Scope R_scope.
Open Scope string_scope.

(** C107.  An analysis with linearised intervals whose half-widths of amplitude or major axis are all numbers: the
    same call with Monte-Carlo intervals gives a result as well - scalar data with any noise, or vector data with
    white noise; ordinary or robust. *)
Theorem C107_intervals : forall L t u v la opts opts0 sm c0,
  analysis L t u v (Some la) opts0 sm c0 -> documented_input L t u v opts sm -> options_but_kind opts opts0 -> evaluable la opts sm ->
  setting opts "conf_int" (PStr "MC") -> setting opts0 "conf_int" (PStr "linear") -> mvn_returns L -> mvn_shape L ->
  (forall r, In r (rows c0) -> measured r) ->
  ((exists x, setting opts "white" x /\ ~ falsy x) \/ (v = None /\ svd_returns L /\ eigvals_returns L)) ->
  exists c, solve L t u v (Some la) opts = Ok c.
Proof. exact accept_any. Qed.
Print Assumptions C107_intervals.

(** Vector data with coloured noise and ordinary least squares: if in addition the residuals of u are not all zero. *)
Theorem C107_vector : forall L t u v la opts opts0 sm c0 q,
  analysis L t u v (Some la) opts0 sm c0 -> documented_call L t u v opts sm -> options_but_kind opts opts0 -> evaluable la opts sm ->
  setting opts "conf_int" (PStr "MC") -> setting opts0 "conf_int" (PStr "linear") ->
  mvn_returns L -> mvn_shape L -> svd_returns L -> eigvals_returns L -> lomb_contract L -> lstsq_minimises L -> inv_exact L ->
  (params c0 < length sm)%nat -> (forall r, In r (rows c0) -> measured r) -> noise_variance fst c0 sm q -> q <> 0 ->
  exists c, solve L t u v (Some la) opts = Ok c.
Proof. exact accept_vector. Qed.
Print Assumptions C107_vector.

(** White noise and ordinary least squares, judged from an analysis without intervals: the model is identifiable and
    there are more samples than parameters. *)
Theorem C107_white : forall L t u v la opts opts0 sm c0 x,
  analysis L t u v (Some la) opts0 sm c0 -> documented_call L t u v opts sm -> options_but_intervals opts opts0 -> evaluable la opts sm ->
  identifiable c0 (map fst sm) -> NoDup (c_name c0) -> inv_returns L -> mvn_returns L -> mvn_shape L -> (params c0 < length sm)%nat ->
  setting opts "conf_int" (PStr "MC") -> setting opts "white" x -> ~ falsy x ->
  exists c, solve L t u v (Some la) opts = Ok c.
Proof. exact accept_white. Qed.
Print Assumptions C107_white.

(** Conversely, linearised intervals are computed whenever Monte-Carlo ones are. *)
Theorem C107_linear : forall L t u v la opts opts0 sm c0,
  analysis L t u v (Some la) opts0 sm c0 -> documented_input L t u v opts sm -> options_but_kind opts opts0 -> evaluable la opts sm ->
  setting opts "conf_int" (PStr "linear") -> setting opts0 "conf_int" (PStr "MC") ->
  exists c, solve L t u v (Some la) opts = Ok c.
Proof. exact accept_back. Qed.
Print Assumptions C107_linear.

(** Monte-Carlo intervals need a number of samples other than the number of parameters, and weights that are numbers:
    with exactly as many samples as parameters no call gives a result. *)
Theorem C107_spare : forall L t u v la opts sm c, analysis L t u v (Some la) opts sm c ->
  setting opts "conf_int" (PStr "MC") -> setting opts "infer" PNone -> c_name c <> [] ->
  params c <> length sm /\ exists w, c_weights c = map Fin w.
Proof. exact mc_spare. Qed.
Print Assumptions C107_spare.

(** With coloured noise and ordinary least squares they need residuals: data that the model reproduces exactly (in u,
    or in v) give no result. *)
Theorem C107_noise : forall L t u v la opts sm c qu qv, analysis L t u v (Some la) opts sm c -> lstsq_minimises L -> inv_exact L ->
  setting opts "method" (PStr "ols") -> setting opts "infer" PNone -> setting opts "conf_int" (PStr "MC") -> (forall x, setting opts "white" x -> falsy x) ->
  (params c < length sm)%nat -> c_name c <> [] -> noise_variance fst c sm qu -> noise_variance snd c sm qv ->
  qu <> 0 /\ (v <> None -> qv <> 0).
Proof. exact mc_residuals. Qed.
Print Assumptions C107_noise.

(** four hourly values, M2 and a mean, coloured noise: scalar and vector *)
Example C107_intervals_example : exists L t u opts opts0 sm c0,
  analysis L t u None (Some 45) opts0 sm c0 /\ documented_input L t u None opts sm /\ options_but_kind opts opts0 /\ evaluable 45 opts sm /\
  setting opts "conf_int" (PStr "MC") /\ setting opts0 "conf_int" (PStr "linear") /\ mvn_returns L /\ mvn_shape L /\
  (forall r, In r (rows c0) -> measured r) /\ svd_returns L /\ eigvals_returns L /\ rows c0 <> [].
Proof.
  destruct h_scalar as (k & q & AN & PN & ME & NQ & QZ & NE). do 3 eexists. exists (hour_opts true), (hour_opts false). do 2 eexists. split; [exact AN|].
  split; [apply dc_input, (h_call false); [intros _; cbn; auto|cbn; lra|discriminate]|]. split; [apply (h_kind true)|]. split; [apply h_eval|]. split; [set_tac|]. split; [set_tac|].
  split; [apply h_mvn_returns|]. split; [apply hour_mvn|]. split; [exact ME|]. split; [apply h_svd_returns|]. split; [apply h_eigvals_returns|]. exact NE.
Qed.
Example C107_vector_example : exists L t u v opts opts0 sm c0 q,
  analysis L t u (Some v) (Some 45) opts0 sm c0 /\ documented_call L t u (Some v) opts sm /\ options_but_kind opts opts0 /\ evaluable 45 opts sm /\
  setting opts "conf_int" (PStr "MC") /\ setting opts0 "conf_int" (PStr "linear") /\
  mvn_returns L /\ mvn_shape L /\ svd_returns L /\ eigvals_returns L /\ lomb_contract L /\ lstsq_minimises L /\ inv_exact L /\
  (params c0 < length sm)%nat /\ (forall r, In r (rows c0) -> measured r) /\ noise_variance fst c0 sm q /\ q <> 0 /\ setting opts "white" (PBool false).
Proof.
  destruct h_vector as (k & q & AN & PN & ME & NQ & QZ). do 4 eexists. exists (hour_opts true), (hour_opts false). do 3 eexists. split; [exact AN|].
  split; [apply (h_call true); [discriminate|cbn; lra|cbn; lra]|]. split; [apply (h_kind true)|]. split; [apply h_eval|]. split; [set_tac|]. split; [set_tac|].
  split; [apply h_mvn_returns|]. split; [apply hour_mvn|]. split; [apply h_svd_returns|]. split; [apply h_eigvals_returns|]. split; [apply h_lomb|].
  split; [apply h_minimises|]. split; [apply hour_inv|]. split; [exact PN|]. split; [exact ME|]. split; [exact NQ|]. split; [exact QZ|set_tac].
Qed.
(** M2 at four days, white noise *)
Example C107_white_example : exists L t u opts opts0 sm c0 x,
  analysis L t u None (Some 45) opts0 sm c0 /\ documented_call L t u None opts sm /\ options_but_intervals opts opts0 /\ evaluable 45 opts sm /\
  identifiable c0 (map fst sm) /\ NoDup (c_name c0) /\ inv_returns L /\ mvn_returns L /\ mvn_shape L /\ (params c0 < length sm)%nat /\
  setting opts "conf_int" (PStr "MC") /\ setting opts "white" x /\ ~ falsy x.
Proof.
  destruct ac_run4 as (c & A & I & N & PC). exists retL, ex_t, ac_u, wh_opts, (ac_opts "none"), ac_sm, c, (PBool true).
  split; [exact A|]. split; [exact wh_call|]. split; [exact wh_same|]. split; [exact wh_eval|]. split; [exact I|]. split; [exact N|]. split; [exact ret_inv|].
  split; [exact ret_mvn_returns|]. split; [exact ret_mvn|]. split; [rewrite PC; cbn; lia|]. split; [set_tac|]. split; [set_tac|]. rewrite <- truthy_falsy. discriminate.
Qed.
(** Monte-Carlo intervals that were computed: more samples than parameters, residuals of u and v not zero *)
Example C107_computed_example : exists L t u v opts opts0 sm c,
  analysis L t u (Some v) (Some 45) opts0 sm c /\ documented_input L t u (Some v) opts sm /\ options_but_kind opts opts0 /\ evaluable 45 opts sm /\
  setting opts "conf_int" (PStr "linear") /\ setting opts0 "conf_int" (PStr "MC") /\
  lstsq_minimises L /\ inv_exact L /\ setting opts0 "method" (PStr "ols") /\ setting opts0 "infer" PNone /\ (forall x, setting opts0 "white" x -> falsy x) /\
  (params c < length sm)%nat /\ c_name c <> [].
Proof.
  destruct (h_run true true (1, 2) (2, 1) (1, 0) (5, 6)) as (c & AN & E1 & E2 & E3 & E4 & E5 & _); [discriminate|cbn; lra|cbn; lra|].
  do 4 eexists. exists (hour_opts false), (hour_opts true). do 2 eexists. split; [exact AN|].
  split; [apply dc_input, (h_call true); [discriminate|cbn; lra|cbn; lra]|]. split; [apply (h_kind false)|]. split; [apply h_eval|]. split; [set_tac|]. split; [set_tac|].
  split; [apply h_minimises|]. split; [apply hour_inv|]. split; [set_tac|]. split; [set_tac|]. split.
  { intros x H. assert (E : setting (hour_opts true) "white" (PBool false)) by set_tac. rewrite (fun K => h_unique _ _ _ _ K H E) by (cbn; tauto). apply truthy_falsy. reflexivity. }
  split; [unfold params; rewrite E5, E3; cbn; lia|]. rewrite E5. discriminate.
Qed.
