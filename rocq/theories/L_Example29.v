(** S2 inferred from M2 at four days, with the default corrections. *)
From Coq Require Import Lia Lra Permutation.
From Verif Require Import M_Base M_Lib M_Tables M_Const M_Options M_Time M_Slvinit M_Harmonics M_Select M_Ellipse
  M_Robust M_Period M_Conf M_Diag M_Solve S_Dict S_Options S_Slv S_Order S_Select S_Fit S_Recon S_Model S_Errors S_Perm S_Noise S_Accept S_InferAccept
  L_Base L_Options L_SolveInv L_OptSolve L_Slv L_Example L_Example14 L_Accept L_Example23 L_InferAccept5.
Open Scope R_scope.
Open Scope string_scope.

Definition ia_infer (ap : bool) : dict pyval :=
  [("inferred_names", PSeq [PStr "S2"]); ("reference_names", PSeq [PStr "M2"]); ("amp_ratios", PSeq [PNum (/ 2)]);
   ("phase_offsets", PSeq [PNum 0]); ("approximate", PBool ap)].
Definition ia_opts (ap : bool) (names : list string) : dict pyval :=
  [("infer", PDict true (ia_infer ap)); ("conf_int", PStr "none"); ("constit", PSeq (map PStr names)); ("epoch", PStr "python")].
Lemma ia_keys ap names : unique_keys (ia_opts ap names).
Proof. unfold ia_opts. unique_tac. Qed.
Lemma ia_unique ap names k x y : In k (keys documented) -> setting (ia_opts ap names) k x -> setting (ia_opts ap names) k y -> x = y.
Proof. apply setting_unique. apply ia_keys. Qed.
Lemma ia_call ap names : (forall n, In n names -> In n const_name) -> inference_call retL ex_t ac_u None (ia_opts ap names) ac_sm ["S2"] ["M2"] ap.
Proof.
  intros HN. constructor.
  - apply ia_keys.
  - intros k Hk. cbn in Hk. cbn. tauto.
  - constructor.
    + exists (ia_infer ap), [/ 2], [0]. split; [set_tac|]. split; [unfold ia_infer; unique_tac|].
      split; [cbn; tauto|]. split; [cbn; tauto|]. split; [cbn; tauto|]. split; [cbn; tauto|]. split; [reflexivity|]. split; [reflexivity|].
      destruct ap.
      * exists (PBool true). split; [cbn; tauto|]. rewrite <- truthy_falsy. discriminate.
      * intros x Hx. unfold entry, ia_infer in Hx. cbn [In] in Hx. repeat (destruct Hx as [Hx|Hx]; [try discriminate Hx|]); [|destruct Hx].
        injection Hx as <-. apply truthy_falsy. reflexivity.
    + reflexivity.
    + intros n [[<-|[]]|[<-|[]]]; vm_compute; tauto.
  - exists 1. set_tac.
  - intros x y H _. assert (E : setting (ia_opts ap names) "order_constit" PNone) by set_tac.
    rewrite (fun K => ia_unique _ _ _ _ _ K H E) by (cbn; tauto). split; [left; reflexivity|discriminate].
  - right. exists names. split; [exact HN|set_tac].
  - exists (PStr "python"). split; [set_tac|exact ac_samples].
  - discriminate.
  - set_tac.
Qed.
Lemma ia_eval ap names : names <> [] -> evaluable 45 (ia_opts ap names) ac_sm.
Proof.
  intros NE. constructor.
  - intros x H N. rewrite Rabs_pos_eq by lra. lra.
  - intros x H N. assert (E : map fst ac_sm = ext) by reflexivity.
    assert (A : In 0 (map fst ac_sm)) by (rewrite E; cbn; tauto). assert (B : In 1 (map fst ac_sm)) by (rewrite E; cbn; tauto).
    apply in_map_iff in A, B. destruct A as (s & A1 & A2), B as (s' & B1 & B2). exists s, s'. split; [exact A2|]. split; [exact B2|]. rewrite A1, B1. lra.
  - intros H. exfalso. assert (E : setting (ia_opts ap names) "constit" (PSeq (map PStr names))) by set_tac.
    assert (K := fun K => ia_unique _ _ _ _ _ K H E). specialize (K ltac:(cbn; tauto)). destruct names; [congruence|discriminate K].
Qed.
