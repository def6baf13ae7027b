(** C100: which input is accepted. *)
From Coq Require Import Lia Lra Permutation.
From Verif Require Import M_Base M_Lib M_Tables M_Const M_Options M_Time M_Slvinit M_Harmonics M_Select M_Ellipse
  M_Robust M_Period M_Conf M_Diag M_Solve S_Dict S_Options S_Slv S_Order S_Basis S_Tables S_Harm S_Fit S_Recon S_Model S_Errors S_Perm S_Period S_Noise S_Accept
  L_OptSolve L_Example L_Recon4 L_Accept L_Accept2 L_Accept3 L_Example23.
Open Scope R_scope.
Open Scope string_scope.

(** C100.  Without confidence intervals every call with documented options, constituents of the table, at least one
    valid sample and a model that can be evaluated gives a result, however few or ill-spaced the samples are. *)
Theorem C100_no_intervals : forall L t u v la opts sm, lstsq_shape L -> lstsq_returns L -> argsort_perm L ->
  documented_call L t u v opts sm -> evaluable la opts sm -> setting opts "conf_int" (PStr "none") ->
  exists c, solve L t u v (Some la) opts = Ok c.
Proof. exact accept_none. Qed.
Print Assumptions C100_no_intervals.

(** With linearised intervals so does every call whose samples tell the coefficients apart, when the noise is taken as
    white or else the times increase, there are at least four samples and no gap exceeds 100 days. *)
Theorem C100_linear_intervals : forall L t u v la opts opts0 sm c0,
  analysis L t u v (Some la) opts0 sm c0 -> documented_call L t u v opts sm -> options_but_intervals opts opts0 ->
  identifiable c0 (map fst sm) -> NoDup (c_name c0) -> inv_returns L -> lstsq_shape L -> lstsq_returns L -> evaluable la opts sm ->
  setting opts "conf_int" (PStr "linear") ->
  ((exists x, setting opts "white" x /\ ~ falsy x) \/ (lomb_contract L /\ orderly L opts t sm)) ->
  exists c, solve L t u v (Some la) opts = Ok c.
Proof. exact accept_linear. Qed.
Print Assumptions C100_linear_intervals.

(** A trend cannot be fitted to samples at one time ... *)
Theorem C100_one_time : forall L t u v la opts sm c l, documented_call L t u v opts sm ->
  times_of L opts t l -> (forall a b, In a l -> In b l -> a = b) ->
  (exists x, setting opts "trend" x /\ ~ falsy x) -> solve L t u v (Some la) opts <> Ok c.
Proof. exact one_time. Qed.
Print Assumptions C100_one_time.

(** ... there is no result at the equator with nodal corrections for a constituent that has satellites of the diurnal
    kind (a division by the sine of the latitude) ... *)
Theorem C100_equator : forall L t u v opts sm c names n k, documented_call L t u v opts sm ->
  setting opts "constit" (PSeq (map PStr names)) -> In n names -> constit_index n = Ok k -> is_primary k -> diurnal_satellite k ->
  (exists x, setting opts "nodal" x /\ ~ falsy x) -> solve L t u v (Some 0) opts <> Ok c.
Proof. exact equator. Qed.
Print Assumptions C100_equator.

(** ... and the mean alone can only be fitted when both corrections are switched off. *)
Theorem C100_no_constituents : forall L t u v la opts sm c, documented_call L t u v opts sm -> setting opts "constit" (PSeq []) ->
  (exists x, setting opts "nodal" x /\ ~ falsy x) \/ (exists x, setting opts "phase" x /\ x <> PStr "raw") ->
  solve L t u v (Some la) opts <> Ok c.
Proof. exact no_constituents. Qed.
Print Assumptions C100_no_constituents.

(** M2 at the days 0 1 2 4 *)
Example C100_no_intervals_example : exists L t u opts sm, lstsq_shape L /\ lstsq_returns L /\ argsort_perm L /\
  documented_call L t u None opts sm /\ evaluable 45 opts sm /\ setting opts "conf_int" (PStr "none").
Proof.
  exists retL, ex_t, ac_u, (ac_opts "none"), ac_sm. split; [exact ret_shape|]. split; [exact ret_returns|]. split; [exact ret_perm|].
  split; [apply ac_call; auto|]. split; [apply ac_eval|]. set_tac.
Qed.
Example C100_linear_intervals_example : exists L t u opts opts0 sm c0,
  analysis L t u None (Some 45) opts0 sm c0 /\ documented_call L t u None opts sm /\ options_but_intervals opts opts0 /\
  identifiable c0 (map fst sm) /\ NoDup (c_name c0) /\ inv_returns L /\ lstsq_shape L /\ lstsq_returns L /\ evaluable 45 opts sm /\
  setting opts "conf_int" (PStr "linear") /\ setting opts "white" (PBool false) /\ lomb_contract L /\ orderly L opts t sm.
Proof.
  destruct ac_run as (c & A & I & N). exists retL, ex_t, ac_u, (ac_opts "linear"), (ac_opts "none"), ac_sm, c.
  split; [exact A|]. split; [apply ac_call; auto|]. split; [exact ac_same|]. split; [exact I|]. split; [exact N|]. split; [exact ret_inv|].
  split; [exact ret_shape|]. split; [exact ret_returns|]. split; [apply ac_eval|]. split; [set_tac|]. split; [set_tac|]. split; [exact ret_lomb|apply ac_orderly].
Qed.
(** two values at one time, with the default trend *)
Example C100_one_time_example : exists L t u opts sm l, documented_call L t u None opts sm /\ times_of L opts t l /\
  (forall a b, In a l -> In b l -> a = b) /\ exists x, setting opts "trend" x /\ ~ falsy x.
Proof.
  exists retL, t_one, u_one, (df_opts ["K1"]), [(1, RtoC 0); (1, RtoC 5)], [1; 1]. split; [apply df_call; [|exact one_samples|discriminate]|].
  { intros n [<-|[]]. vm_compute. tauto. }
  split; [exists (PStr "python"), [Fin 1; Fin 1]; split; [set_tac|]; split; reflexivity|]. split.
  - intros a b Ha Hb. cbn in Ha, Hb. destruct Ha as [<-|[<-|[]]], Hb as [<-|[<-|[]]]; reflexivity.
  - exists (PBool true). split; [set_tac|]. rewrite <- truthy_falsy. discriminate.
Qed.
(** K1 with the default nodal corrections *)
Example C100_equator_example : exists L t u opts sm names n k, documented_call L t u None opts sm /\
  setting opts "constit" (PSeq (map PStr names)) /\ In n names /\ constit_index n = Ok k /\ is_primary k /\ diurnal_satellite k /\
  exists x, setting opts "nodal" x /\ ~ falsy x.
Proof.
  exists retL, ex_t, ac_u, (df_opts ["K1"]), ac_sm, ["K1"], "K1", 20%nat. split; [apply df_call; [|exact ac_samples|discriminate]|].
  { intros n [<-|[]]. vm_compute. tauto. }
  split; [set_tac|]. split; [now left|]. split; [exact K1_index|]. split; [apply K1_diurnal|]. split; [apply K1_diurnal|].
  exists (PBool true). split; [set_tac|]. rewrite <- truthy_falsy. discriminate.
Qed.
(** no constituents and the default corrections *)
Example C100_no_constituents_example : exists L t u opts sm, documented_call L t u None opts sm /\ setting opts "constit" (PSeq []) /\
  (exists x, setting opts "nodal" x /\ ~ falsy x) /\ exists x, setting opts "phase" x /\ x <> PStr "raw".
Proof.
  exists retL, ex_t, ac_u, (df_opts []), ac_sm. split; [apply df_call; [intros n []|exact ac_samples|discriminate]|]. split; [set_tac|]. split.
  - exists (PBool true). split; [set_tac|]. rewrite <- truthy_falsy. discriminate.
  - exists (PStr "Greenwich"). split; [set_tac|discriminate].
Qed.
