(** M2 and S2 at the equator, with the default corrections. *)
From Coq Require Import Lia Lra Permutation.
From Verif Require Import M_Base M_Lib M_Tables M_Const M_Options M_Time M_Slvinit M_Harmonics M_Select M_Ellipse
  M_Robust M_Period M_Conf M_Diag M_Solve M_Recon S_Dict S_Options S_Slv S_Order S_Select S_Fit S_Recon S_Model S_Errors S_Perm S_Noise S_Accept S_Equator
  L_Base L_Options L_SolveInv L_OptSolve L_Slv L_SelOrder L_Example L_Example5 L_Example23 L_Accept L_Accept2 L_Equator3.
Open Scope R_scope.
Open Scope string_scope.

Definition e0_names := ["M2"; "S2"].
Definition e0_opts : dict pyval := df_opts e0_names.
Lemma e0_keys : unique_keys e0_opts.
Proof. unfold e0_opts, df_opts. unique_tac. Qed.
Lemma e0_call : documented_call retL ex_t ac_u None e0_opts ac_sm.
Proof. apply df_call; [|exact ac_samples|discriminate]. intros n [<-|[<-|[]]]; vm_compute; tauto. Qed.
Lemma e0_nodal : exists x, setting e0_opts "nodal" x /\ ~ falsy x.
Proof. exists (PBool true). split; [unfold e0_opts, df_opts; set_tac|]. rewrite <- truthy_falsy. discriminate. Qed.
Lemma two_times : exists s s', In s ac_sm /\ In s' ac_sm /\ fst s <> fst s'.
Proof.
  assert (E : map fst ac_sm = ext) by reflexivity.
  assert (A : In 0 (map fst ac_sm)) by (rewrite E; cbn; tauto). assert (B : In 1 (map fst ac_sm)) by (rewrite E; cbn; tauto).
  apply in_map_iff in A, B. destruct A as (s & A1 & A2), B as (s' & B1 & B2). exists s, s'. split; [exact A2|]. split; [exact B2|]. rewrite A1, B1. lra.
Qed.
Lemma e0_calm : forall n, In n e0_names -> ~ In n restless.
Proof.
  intros n Hn C. assert (X : existsb (fun x => existsb (String.eqb x) restless) e0_names = true).
  { apply existsb_exists. exists n. split; [exact Hn|]. apply existsb_exists. exists n. split; [exact C|apply String.eqb_refl]. }
  vm_compute in X. discriminate.
Qed.
Lemma e0_run : exists c, analysis retL ex_t ac_u None (Some 0) e0_opts ac_sm c /\ approximate (c_opt c) = false /\ o_nodsatnone (c_opt c) = false.
Proof.
  assert (X : exists c, solve retL ex_t ac_u None (Some 0) e0_opts = Ok c).
  { apply (equator_names retL ex_t ac_u None e0_opts ac_sm e0_names ret_shape ret_returns ret_perm e0_call).
    - unfold e0_opts, df_opts. set_tac.
    - discriminate.
    - exact e0_nodal.
    - intros _ _ _. exact two_times.
    - unfold e0_opts, df_opts. set_tac.
    - exact e0_calm. }
  destruct X as [c Hc]. exists c. assert (U := e0_keys). split; [|].
  - constructor; [exact ret_shape|exact ret_perm|exact U| |exists (PStr "python"); split; [unfold e0_opts, df_opts; set_tac|exact ac_samples]|discriminate|exact Hc].
    intros x H. assert (E : setting e0_opts "order_constit" PNone) by (unfold e0_opts, df_opts; set_tac).
    rewrite (fun K => setting_unique _ _ _ _ U K H E) by (cbn; tauto). left; reflexivity.
  - destruct (run_options _ _ _ _ _ _ _ U Hc) as (k0 & q0 & K1 & K2).
    destruct (used_options e0_opts _ _ U k0 _ K1 K2) as
     (_ & _ & U1 & Ue & _ & U2 & U3 & U4 & U5 & U6 & Ul & U7 & _ & U8 & Ur & U9 & U10 & Uk & Up & _ & (inf & U11 & U12) & U13 & _).
    cbn in U11. injection U11 as <-. injection U12 as U12. split; [apply approximate_none; now symmetry|]. rewrite U7. reflexivity.
Qed.
