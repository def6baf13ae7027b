(** The robust analysis of the values -1 -1 1 1 with linearised intervals and white noise. *)
From Coq Require Import Lia Lra Permutation.
From Verif Require Import M_Base M_Lib M_Tables M_Const M_Options M_Time M_Slvinit M_Harmonics M_Select M_Ellipse
  M_Robust M_Period M_Conf M_Diag M_Solve M_Recon S_Dict S_Options S_Slv S_Order S_Basis S_Select S_Fit S_Ellipse S_Recon S_Model S_Errors S_Perm S_Robust S_RobustKw S_Accept S_RobustAccept S_WeightAccept
  L_Base L_Options L_SolveInv L_OptSolve L_Example L_Robust6 L_Accept L_RobustAccept L_RobustAccept2 L_Example23 L_Example25 L_Exact L_WeightAccept L_WeightAccept2.
Open Scope R_scope.
Open Scope string_scope.

Definition rl_opts : dict pyval :=
  [("method", PStr "robust"); ("conf_int", PStr "linear"); ("white", PBool true); ("constit", PSeq []); ("nodal", PBool false); ("phase", PStr "raw"); ("trend", PBool false); ("epoch", PStr "python")].
Lemma rl_keys : unique_keys rl_opts. Proof. unfold rl_opts. unique_tac. Qed.
Lemma rl_unique k x y : In k (keys documented) -> setting rl_opts k x -> setting rl_opts k y -> x = y.
Proof. apply setting_unique. exact rl_keys. Qed.
Lemma rl_input : documented_input exactL ex_t up None rl_opts smp.
Proof.
  constructor.
  - exact rl_keys.
  - intros k Hk. cbn in Hk. cbn. tauto.
  - rset.
  - exists 1. rset.
  - intros x y H _. assert (E : setting rl_opts "order_constit" PNone) by rset.
    rewrite (fun K => rl_unique _ _ _ K H E) by (cbn; tauto). split; [left; reflexivity|discriminate].
  - right. exists []. split; [intros n []|]. rset.
  - exists (PStr "python"). split; [rset|exact smp_samples].
  - exact smp_some.
Qed.
Lemma rl_eval : evaluable 45 rl_opts smp.
Proof.
  constructor.
  - intros x H N. exfalso. apply N. assert (E : setting rl_opts "nodal" (PBool false)) by rset.
    rewrite (fun K => rl_unique _ _ _ K H E) by (cbn; tauto). apply truthy_falsy. reflexivity.
  - intros x H N. exfalso. apply N. assert (E : setting rl_opts "trend" (PBool false)) by rset.
    rewrite (fun K => rl_unique _ _ _ K H E) by (cbn; tauto). apply truthy_falsy. reflexivity.
  - intros _. split; [rset|]. intros x H. assert (E : setting rl_opts "nodal" (PBool false)) by rset.
    rewrite (fun K => rl_unique _ _ _ K H E) by (cbn; tauto). apply truthy_falsy. reflexivity.
Qed.
Lemma rl_same m : In m [[]; rob] -> options_but_method rl_opts (rb_opts m []).
Proof.
  intros M k x K1 K2 K3 K4 K5. unfold setting, entry. destruct M as [<-|[<-|[]]]; cbn [rl_opts rb_opts rob app In keys map fst].
  - split; (intros [H|H]; [left|right]); intuition congruence.
  - split; (intros [H|H]; [left|right]); intuition congruence.
Qed.
Lemma rl_method : options_but_intervals rl_opts (rb_opts rob []).
Proof.
  intros k x K1 K2 K3. unfold setting, entry. cbn [rl_opts rb_opts rob app In keys map fst]. split; (intros [H|H]; [left|right]); intuition congruence.
Qed.
Lemma rl_white : exists x, setting rl_opts "white" x /\ ~ falsy x.
Proof. exists (PBool true). split; [rset|]. intros F. apply truthy_falsy in F. discriminate. Qed.
Lemma rl_analysis c : solve exactL ex_t up None (Some 45) rl_opts = Ok c -> analysis exactL ex_t up None (Some 45) rl_opts smp c.
Proof.
  intros Hc. constructor.
  - exact exact_shape.
  - exact exact_perm.
  - exact rl_keys.
  - intros x H. assert (E : setting rl_opts "order_constit" PNone) by rset. rewrite (fun K => rl_unique _ _ _ K H E) by (cbn; tauto). left; reflexivity.
  - exists (PStr "python"). split; [rset|exact smp_samples].
  - exact smp_some.
  - exact Hc.
Qed.
