(** C110: when an analysis with inference gives a result. *)
From Coq Require Import Lia Lra Permutation.
From Verif Require Import M_Base M_Lib M_Tables M_Const M_Options M_Time M_Slvinit M_Harmonics M_Select M_Ellipse
  M_Robust M_Period M_Conf M_Diag M_Solve S_Dict S_Options S_Slv S_Order S_Basis S_Tables S_Harm S_Fit S_Recon S_Model S_Errors S_Perm S_Noise S_Nodal S_Accept S_InferAccept
  L_OptSolve L_Example L_Example23 L_Example29 L_InferAccept3 L_InferAccept4 L_InferAccept5.
Open Scope R_scope.
Open Scope string_scope.

(** C110.  Without confidence intervals every call with documented options, a complete inference object, constituents of
    the table, at least one valid sample and a model that can be evaluated gives a result, provided that a further
    constituent takes no part in the inference or both corrections are off; approximate inference needs distinct references,
    exact inference references whose nodal correction does not vanish. *)
Theorem C110_accepted : forall L t u v la opts sm inferred references ap, lstsq_shape L -> lstsq_returns L -> argsort_perm L ->
  inference_call L t u v opts sm inferred references ap -> evaluable la opts sm ->
  uncorrected opts \/ bystander L t u v la opts (inferred ++ references) ->
  (if ap then NoDup references else (forall x, setting opts "nodal" x -> falsy x) \/ Forall (lasting la) references) ->
  setting opts "conf_int" (PStr "none") -> exists c, solve L t u v (Some la) opts = Ok c.
Proof. exact accept_asked. Qed.
Print Assumptions C110_accepted.

(** The correction vanishes for none of the constituents of the table, at any latitude other than the equator, with the
    possible exceptions of NO1, OO1, UPS1 and M7. *)
Theorem C110_references : forall la n, In n const_name -> ~ In n ["NO1"; "OO1"; "UPS1"; "M7"] -> 0 < Rabs la <= 90 -> lasting la n.
Proof. exact table_lasting. Qed.
Print Assumptions C110_references.

(** If every constituent asked for takes part in the inference there is no result with either correction on. *)
Theorem C110_nobody_else : forall L t u v la opts sm inferred references ap names c,
  inference_call L t u v opts sm inferred references ap -> setting opts "constit" (PSeq (map PStr names)) ->
  (forall n, In n names -> In n inferred \/ In n references) ->
  (exists x, setting opts "nodal" x /\ ~ falsy x) \/ (exists x, setting opts "phase" x /\ x <> PStr "raw") ->
  solve L t u v (Some la) opts <> Ok c.
Proof. exact nobody_else. Qed.
Print Assumptions C110_nobody_else.

(** Nor is there one when a name in the inference is not in the table. *)
Theorem C110_unknown_names : forall L t u v la opts c d inferred references n,
  unique_keys opts -> setting opts "infer" (PDict true d) -> unique_keys d ->
  entry d "inferred_names" (PSeq (map PStr inferred)) -> entry d "reference_names" (PSeq (map PStr references)) ->
  In n inferred \/ In n references -> ~ In n const_name -> solve L t u v (Some la) opts <> Ok c.
Proof. exact unknown_part. Qed.
Print Assumptions C110_unknown_names.

(** S2 inferred from M2 beside K1, with the default corrections, exactly and approximately *)
Example C110_accepted_example : forall ap, exists L t u opts sm inferred references, lstsq_shape L /\ lstsq_returns L /\ argsort_perm L /\
  inference_call L t u None opts sm inferred references ap /\ evaluable 45 opts sm /\
  bystander L t u None 45 opts (inferred ++ references) /\ NoDup references /\ Forall (lasting 45) references /\
  setting opts "conf_int" (PStr "none") /\ exists x, setting opts "nodal" x /\ ~ falsy x.
Proof.
  intros ap. exists retL, ex_t, ac_u, (ia_opts ap ["M2"; "K1"]), ac_sm, ["S2"], ["M2"].
  split; [exact ret_shape|]. split; [exact ret_returns|]. split; [exact ret_perm|].
  split; [apply ia_call; intros n [<-|[<-|[]]]; vm_compute; tauto|]. split; [apply ia_eval; discriminate|].
  split; [left; exists ["M2"; "K1"], "K1"; split; [set_tac|]; split; [cbn; tauto|cbn; intros [E|[E|[]]]; discriminate]|].
  split; [repeat constructor; cbn; tauto|].
  split; [constructor; [|constructor]; apply table_lasting; [vm_compute; tauto|cbn; intros [E|[E|[E|[E|[]]]]]; discriminate|rewrite Rabs_pos_eq by lra; lra]|].
  split; [set_tac|]. exists (PBool true). split; [set_tac|]. rewrite <- truthy_falsy. discriminate.
Qed.
(** the same with M2 alone *)
Example C110_nobody_else_example : exists L t u opts sm inferred references names,
  inference_call L t u None opts sm inferred references false /\ setting opts "constit" (PSeq (map PStr names)) /\
  (forall n, In n names -> In n inferred \/ In n references) /\ names <> [] /\
  (exists x, setting opts "nodal" x /\ ~ falsy x) /\ exists x, setting opts "phase" x /\ x <> PStr "raw".
Proof.
  exists retL, ex_t, ac_u, (ia_opts false ["M2"]), ac_sm, ["S2"], ["M2"], ["M2"].
  split; [apply ia_call; intros n [<-|[]]; vm_compute; tauto|]. split; [set_tac|].
  split; [intros n [<-|[]]; right; now left|]. split; [discriminate|]. split.
  - exists (PBool true). split; [set_tac|]. rewrite <- truthy_falsy. discriminate.
  - exists (PStr "Greenwich"). split; [set_tac|discriminate].
Qed.
Example C110_unknown_names_example : exists opts d inferred references,
  unique_keys opts /\ setting opts "infer" (PDict true d) /\ unique_keys d /\ entry d "inferred_names" (PSeq (map PStr inferred)) /\
  entry d "reference_names" (PSeq (map PStr references)) /\ In "S" inferred /\ ~ In "S" const_name.
Proof.
  exists [("infer", PDict true [("inferred_names", PSeq [PStr "S"]); ("reference_names", PSeq [PStr "M2"])])],
    [("inferred_names", PSeq [PStr "S"]); ("reference_names", PSeq [PStr "M2"])], ["S"], ["M2"].
  split; [unique_tac|]. split; [set_tac|]. split; [unique_tac|]. split; [cbn; tauto|]. split; [cbn; tauto|]. split; [now left|].
  intros H. assert (E : forallb (fun x => negb (String.eqb x "S")) const_name = true) by (vm_compute; reflexivity);
    assert (Q := proj1 (forallb_forall _ _) E "S" H); discriminate Q.
Qed.
