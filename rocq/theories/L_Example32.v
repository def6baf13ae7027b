(** M2 with S2 inferred approximately, and M2 alone. *)
From Coq Require Import Lia Lra Permutation.
From Coquelicot Require Import Coquelicot.
From Verif Require Import M_Base M_Lib M_Tables M_Const M_Options M_Time M_Slvinit M_Harmonics M_Select M_Ellipse
  M_Robust M_Period M_Conf M_Diag M_Solve M_Recon S_Dict S_Options S_Slv S_Order S_Harm S_Basis S_Tables S_Select S_Fit S_Recon S_Model S_Errors S_Perm S_Noise S_Accept S_WeightAccept S_InferAccept S_InferLinear S_Approx
  L_Base L_Options L_SolveInv L_OptSolve L_Slv L_Tables L_Harm L_Select L_Fit L_Align L_SelOrder L_Order2 L_Basis L_Core L_Model L_Model2 L_Model3 L_Model5 L_Model6 L_Model7 L_Model8 L_Model11 L_Model13 L_Perm
  L_Example L_Example4 L_Example5 L_Example6 L_Example13 L_Example14 L_Accept L_Accept2 L_Accept3 L_RobustAccept3 L_Example23 L_InferAccept3 L_Example29 L_Exact L_Approx.
Open Scope R_scope.
Open Scope string_scope.

Definition ap_infer (a : R) : dict pyval :=
  [("inferred_names", PSeq [PStr "S2"]); ("reference_names", PSeq [PStr "M2"]); ("amp_ratios", PSeq [PNum a]);
   ("phase_offsets", PSeq [PNum 0]); ("approximate", PBool true)].
Definition ap_inf (a : R) : infer_r :=
  {| inf_inferred := ["S2"]; inf_reference := ["M2"]; inf_amp := [a]; inf_off := [0]; inf_approx := true |}.
Lemma ap_select m a : exists s, ut_cnstitsel ex_tref m (PSeq [PStr "M2"]) (Some (ap_inf a)) = Ok s /\ s_name s = ["M2"; "S2"].
Proof.
  assert (F47 := freq_at 47 ltac:(lia)). assert (F56 := freq_at 56 ltac:(lia)).
  unfold ut_cnstitsel, initial_lind. cbv zeta. revert F47 F56. generalize (linearized_freqs ex_tref) as fr. intros fr F47 F56.
  cbn [eq_str as_names mapM bind]. rewrite M2_index. cbn [bind ap_inf inf_inferred inf_reference app mapM]. rewrite S2_index, M2_index.
  cbn [bind filter existsb Nat.eqb orb negb take_idx mapM length]. unfold take_idx. cbn [mapM bind].
  change (first_occ ["M2"]) with ["M2"]. cbn [mapM]. unfold one_ref. rewrite M2_index. cbn [bind]. rewrite F47. cbn [bind inf_reference ap_inf].
  change (map fst (filter (fun p : nat * string => String.eqb "M2" (snd p)) (enumerate ["M2"]))) with [0%nat]. cbn [mapM].
  unfold one_inferred. cbn [inf_amp inf_off inf_inferred ap_inf length Nat.ltb Nat.leb].
  change (seq_get [a] 0) with (Ok a). change (seq_get [0] 0) with (Ok 0). change (seq_get ["S2"] 0) with (Ok "S2"). cbn [bind].
  rewrite S2_index. cbn [bind]. rewrite F56. cbn [bind]. eexists. split; reflexivity.
Qed.

Definition ap_opts (a : R) : dict pyval :=
  [("infer", PDict true (ap_infer a)); ("conf_int", PStr "none"); ("constit", PSeq [PStr "M2"]); ("nodal", PBool false); ("phase", PStr "raw");
   ("trend", PBool false); ("epoch", PStr "python")].
Lemma ap_keys a : unique_keys (ap_opts a).
Proof. unfold ap_opts. unique_tac. Qed.
Lemma ap_unique a k x y : In k (keys documented) -> setting (ap_opts a) k x -> setting (ap_opts a) k y -> x = y.
Proof. apply setting_unique. apply ap_keys. Qed.
Lemma ap_call a : inference_call exactL ex_t ac_u None (ap_opts a) ac_sm ["S2"] ["M2"] true.
Proof.
  constructor.
  - apply ap_keys.
  - intros k Hk. cbn in Hk. cbn. tauto.
  - constructor.
    + exists (ap_infer a), [a], [0]. split; [set_tac|]. split; [unfold ap_infer; unique_tac|].
      split; [cbn; tauto|]. split; [cbn; tauto|]. split; [cbn; tauto|]. split; [cbn; tauto|]. split; [reflexivity|]. split; [reflexivity|].
      exists (PBool true). split; [cbn; tauto|]. rewrite <- truthy_falsy. discriminate.
    + reflexivity.
    + intros n [[<-|[]]|[<-|[]]]; vm_compute; tauto.
  - exists 1. set_tac.
  - intros x y H _. assert (E : setting (ap_opts a) "order_constit" PNone) by set_tac.
    rewrite (fun K => ap_unique _ _ _ _ K H E) by (cbn; tauto). split; [left; reflexivity|discriminate].
  - right. exists ["M2"]. split; [|set_tac]. intros n [<-|[]]. vm_compute. tauto.
  - exists (PStr "python"). split; [set_tac|exact ac_samples].
  - discriminate.
  - set_tac.
Qed.
Lemma ap_eval a : evaluable 45 (ap_opts a) ac_sm.
Proof.
  constructor.
  - intros x H N. rewrite Rabs_pos_eq by lra. lra.
  - intros x H N. assert (E : map fst ac_sm = ext) by reflexivity.
    assert (A : In 0 (map fst ac_sm)) by (rewrite E; cbn; tauto). assert (B : In 1 (map fst ac_sm)) by (rewrite E; cbn; tauto).
    apply in_map_iff in A, B. destruct A as (s & A1 & A2), B as (s' & B1 & B2). exists s, s'. split; [exact A2|]. split; [exact B2|]. rewrite A1, B1. lra.
  - intros H. exfalso. assert (E : setting (ap_opts a) "constit" (PSeq [PStr "M2"])) by set_tac.
    assert (K := fun K => ap_unique _ _ _ _ K H E). specialize (K ltac:(cbn; tauto)). discriminate K.
Qed.
Lemma ap_run a : exists c, analysis exactL ex_t ac_u None (Some 45) (ap_opts a) ac_sm c.
Proof.
  destruct (accept_asked exactL ex_t ac_u None 45 (ap_opts a) ac_sm ["S2"] ["M2"] true exact_shape exact_returns exact_perm (ap_call a) (ap_eval a)) as [c H].
  - left. split; [set_tac|]. intros x H. assert (E : setting (ap_opts a) "nodal" (PBool false)) by set_tac.
    rewrite (fun K => ap_unique _ _ _ _ K H E) by (cbn; tauto). apply truthy_falsy. reflexivity.
  - repeat constructor; cbn; tauto.
  - set_tac.
  - exists c. constructor.
    + exact exact_shape.
    + exact exact_perm.
    + apply ap_keys.
    + intros x Hx. assert (E : setting (ap_opts a) "order_constit" PNone) by set_tac. rewrite (fun K => ap_unique _ _ _ _ K Hx E) by (cbn; tauto). left; reflexivity.
    + exists (PStr "python"). split; [set_tac|exact ac_samples].
    + discriminate.
    + exact H.
Qed.
Lemma pl_run : exists c, analysis exactL ex_t ac_u None (Some 45) (ac_opts "none") ac_sm c.
Proof.
  assert (DC : documented_call exactL ex_t ac_u None (ac_opts "none") ac_sm) by
    (destruct (ac_call "none" (or_introl eq_refl)) as [[] ?]; constructor; [constructor|]; assumption).
  destruct (accept_none exactL ex_t ac_u None 45 (ac_opts "none") ac_sm exact_shape exact_returns exact_perm DC (ac_eval _) ltac:(set_tac)) as [c H].
  exists c. constructor.
  - exact exact_shape.
  - exact exact_perm.
  - apply ac_keys.
  - intros x Hx. assert (E : setting (ac_opts "none") "order_constit" PNone) by set_tac. rewrite (fun K => ac_unique _ _ _ _ K Hx E) by (cbn; tauto). left; reflexivity.
  - exists (PStr "python"). split; [set_tac|exact ac_samples].
  - discriminate.
  - exact H.
Qed.
Lemma ap_facts a c : analysis exactL ex_t ac_u None (Some 45) (ap_opts a) ac_sm c ->
  o_infer (c_opt c) = Some (ap_inf a) /\ flags_of (c_opt c) = {| NodsatLint := false; NodsatNone := true; GwchLint := false; GwchNone := true |} /\ o_notrend (c_opt c) = true /\
  o_twodim (c_opt c) = false /\ c_reftime c = ex_tref /\ c_lat c = 45 /\ o_method (c_opt c) = PStr "ols" /\ Permutation (c_name c) ["M2"; "S2"].
Proof.
  intros AN. assert (Hc := an_solve _ _ _ _ _ _ _ _ AN). destruct (analysis_run _ _ _ _ _ _ _ _ AN) as (NB & si & la & s & B & x & m & W & BH & S1 & S2 & _).
  assert (U := ap_keys a).
  destruct (run_options _ _ _ _ _ _ _ U Hc) as (k0 & q0 & K1 & K2).
  destruct (used_options (ap_opts a) _ _ U k0 _ K1 K2) as
   (_ & _ & U1 & Ue & _ & U2 & U3 & U4 & U5 & U6 & Ul & U7 & Ug & U8 & Ur & U9 & U10 & Uk & Up & _ & (inf & U11 & U12) & U13 & _).
  cbn in U1, U5, U6, Ul, U7, Ug, U8, Up, U11, U10. injection U11 as <-. cbn in U12. injection U12 as U12. symmetry in U12. change (o_infer (c_opt c) = Some (ap_inf a)) in U12.
  assert (SL := bh_slv _ _ _ _ _ _ _ _ _ _ _ _ _ _ BH). rewrite Up in SL.
  destruct (ex_slv [47%nat] ac_m false) as (si' & E1 & E2 & E3 & E4 & E5 & E6).
  assert (si' = si) by (unfold ac_u in SL; cbn [l_parse exactL] in SL; rewrite E1 in SL; now apply Ok_inj in SL). subst si'.
  assert (SE := bh_sel _ _ _ _ _ _ _ _ _ _ _ _ _ _ BH). rewrite U5, U12, E3 in SE. destruct (ap_select (xdiv (Fin (o_rmin (c_opt c))) (Fin (24 * si_lor si))) a) as (s' & SE' & NS). rewrite SE' in SE. apply Ok_inj in SE. subst s'.
  assert (El := bh_lat _ _ _ _ _ _ _ _ _ _ _ _ _ _ BH). injection El as <-.
  assert (NM := run_names _ _ _ _ _ _ _ _ _ _ _ _ _ _ BH (an_sorted _ _ _ _ _ _ _ _ AN)). rewrite NS in NM.
  split; [exact U12|]. split; [unfold flags_of; rewrite Ul, U7, Ug, U8; reflexivity|]. split; [exact U6|]. split; [exact U1|].
  split; [rewrite (bh_tref _ _ _ _ _ _ _ _ _ _ _ _ _ _ BH); exact E3|]. split; [apply BH|]. split; [exact U10|]. exact NM.
Qed.
Lemma pl_facts c : analysis exactL ex_t ac_u None (Some 45) (ac_opts "none") ac_sm c ->
  o_infer (c_opt c) = None /\ flags_of (c_opt c) = {| NodsatLint := false; NodsatNone := true; GwchLint := false; GwchNone := true |} /\ o_notrend (c_opt c) = true /\
  o_twodim (c_opt c) = false /\ c_reftime c = ex_tref /\ c_lat c = 45 /\ o_method (c_opt c) = PStr "ols" /\ Permutation (c_name c) ["M2"] /\ identifiable c (map fst ac_sm).
Proof.
  intros AN. assert (Hc := an_solve _ _ _ _ _ _ _ _ AN). destruct (analysis_run _ _ _ _ _ _ _ _ AN) as (_ & si & la & s & B & x & m & W & BH & S1 & _ & _).
  assert (U := ac_keys "none").
  destruct (run_options _ _ _ _ _ _ _ U Hc) as (k0 & q0 & K1 & K2).
  destruct (used_options (ac_opts "none") _ _ U k0 _ K1 K2) as
   (_ & _ & U1 & Ue & _ & U2 & U3 & U4 & U5 & U6 & Ul & U7 & Ug & U8 & Ur & U9 & U10 & Uk & Up & _ & (inf & U11 & U12) & U13 & _).
  cbn in U1, U5, U6, Ul, U7, Ug, U8, Up, U11, U10. injection U11 as <-. injection U12 as U12. symmetry in U12.
  assert (SL := bh_slv _ _ _ _ _ _ _ _ _ _ _ _ _ _ BH). rewrite Up in SL.
  destruct (ex_slv [47%nat] ac_m false) as (si' & E1 & _ & E3 & _).
  assert (si' = si) by (unfold ac_u in SL; cbn [l_parse exactL] in SL; rewrite E1 in SL; now apply Ok_inj in SL). subst si'.
  assert (SE := bh_sel _ _ _ _ _ _ _ _ _ _ _ _ _ _ BH). rewrite U5, U12, E3, m2_select in SE. apply Ok_inj in SE. subst s.
  assert (El := bh_lat _ _ _ _ _ _ _ _ _ _ _ _ _ _ BH). injection El as <-.
  assert (HS := an_sorted _ _ _ _ _ _ _ _ AN).
  assert (NP := run_names _ _ _ _ _ _ _ _ _ _ _ _ _ _ BH HS). assert (NM := NP). apply Permutation_sym, Permutation_length_1_inv in NM.
  assert (LI : c_lind c = [47%nat]).
  { assert (TR := bh_tri _ _ _ _ _ _ _ _ _ _ _ _ _ _ BH HS). apply (Permutation_map (fun z => snd (fst z))) in TR.
    assert (WF := bh_wf _ _ _ _ _ _ _ _ _ _ _ _ _ _ BH). rewrite <- !(map_map fst snd) in TR. rewrite triples_fst in TR by assumption.
    rewrite combine_snd in TR by (symmetry; apply WF).
    assert (PM := bh_pm _ _ _ _ _ _ _ _ _ _ _ _ _ _ BH). revert TR PM. generalize (all_pm m m2_sel). intros pm TR PM. destruct pm as [|p [|]]; try discriminate PM.
    cbn [m2_sel ex_sel s_name s_lind combine map fst snd] in TR. now apply Permutation_sym, Permutation_length_1_inv in TR. }
  assert (RT : c_reftime c = ex_tref) by (rewrite (bh_tref _ _ _ _ _ _ _ _ _ _ _ _ _ _ BH); exact E3).
  split; [exact U12|]. split; [unfold flags_of; rewrite Ul, U7, Ug, U8; reflexivity|]. split; [exact U6|]. split; [exact U1|].
  split; [exact RT|]. split; [apply BH|]. split; [exact U10|]. split; [exact NP|]. change (map fst ac_sm) with ext. apply c_identifiable; auto.
Qed.
Lemma ap_without a c c' : analysis exactL ex_t ac_u None (Some 45) (ap_opts a) ac_sm c -> analysis exactL ex_t ac_u None (Some 45) (ac_opts "none") ac_sm c' -> without_inference c c'.
Proof.
  intros A A'. destruct (ap_facts _ _ A) as (F1 & F2 & F3 & F4 & F5 & F6 & F7 & F8). destruct (pl_facts _ A') as (G1 & G2 & G3 & G4 & G5 & G6 & G7 & G8 & G9).
  constructor; try congruence. rewrite G8. unfold not_inferred. rewrite F1.
  assert (P := filter_perm (fun n : string => if in_dec string_dec n (inf_inferred (ap_inf a)) then false else true) _ _ F8). exact P.
Qed.
Lemma ap_nodup a c : analysis exactL ex_t ac_u None (Some 45) (ap_opts a) ac_sm c -> NoDup (c_name c).
Proof. intros A. eapply Permutation_NoDup; [apply Permutation_sym; apply (ap_facts _ _ A)|]. repeat constructor; cbn; intuition discriminate. Qed.
Lemma ap_example : exists L t u opts opts' sm c c' inf,
  analysis L t u None (Some 45) opts sm c /\ analysis L t u None (Some 45) opts' sm c' /\ without_inference c c' /\
  o_infer (c_opt c) = Some inf /\ inf_approx inf = true /\ inf_inferred inf = ["S2"] /\ lstsq_minimises L /\
  o_method (c_opt c) = PStr "ols" /\ o_method (c_opt c') = PStr "ols" /\ NoDup (c_name c) /\ identifiable c' (map fst sm) /\
  Permutation (c_name c) ["M2"; "S2"] /\ Permutation (c_name c') ["M2"] /\
  exists rp rm, request_at inf (o_twodim (c_opt c)) 0 ("S2", "M2", rp, rm).
Proof.
  destruct (ap_run (/ 2)) as [c A], pl_run as [c' A']. destruct (ap_facts _ _ A) as (F1 & F2 & F3 & F4 & F5 & F6 & F7 & F8). destruct (pl_facts _ A') as (G1 & G2 & G3 & G4 & G5 & G6 & G7 & G8 & G9).
  exists exactL, ex_t, ac_u, (ap_opts (/ 2)), (ac_opts "none"), ac_sm, c, c', (ap_inf (/ 2)).
  split; [exact A|]. split; [exact A'|]. split; [now apply (ap_without (/ 2))|].
  split; [exact F1|]. split; [reflexivity|]. split; [reflexivity|]. split; [exact exact_minimises|]. split; [exact F7|]. split; [exact G7|].
  split; [exact (ap_nodup _ _ A)|]. split; [exact G9|]. split; [exact F8|]. split; [exact G8|].
  rewrite F4. do 2 eexists. exists "S2", "M2". do 2 eexists. do 4 (split; [reflexivity|]). reflexivity.
Qed.
Lemma ap_example2 : exists L t u opts1 opts2 opts sm c1 c2 c inf1 inf2,
  analysis L t u None (Some 45) opts1 sm c1 /\ analysis L t u None (Some 45) opts2 sm c2 /\ analysis L t u None (Some 45) opts sm c /\
  without_inference c1 c /\ without_inference c2 c /\ o_infer (c_opt c1) = Some inf1 /\ inf_approx inf1 = true /\ o_infer (c_opt c2) = Some inf2 /\ inf_approx inf2 = true /\
  lstsq_minimises L /\ o_method (c_opt c1) = PStr "ols" /\ o_method (c_opt c2) = PStr "ols" /\ o_method (c_opt c) = PStr "ols" /\
  NoDup (c_name c1) /\ NoDup (c_name c2) /\ identifiable c (map fst sm) /\ inf_amp inf1 <> inf_amp inf2.
Proof.
  destruct (ap_run (/ 2)) as [c1 A1], (ap_run 3) as [c2 A2], pl_run as [c A]. destruct (ap_facts _ _ A1) as (F1 & _ & _ & _ & _ & _ & F7 & _). destruct (ap_facts _ _ A2) as (H1 & _ & _ & _ & _ & _ & H7 & _).
  destruct (pl_facts _ A) as (_ & _ & _ & _ & _ & _ & G7 & _ & G9).
  exists exactL, ex_t, ac_u, (ap_opts (/ 2)), (ap_opts 3), (ac_opts "none"), ac_sm, c1, c2, c, (ap_inf (/ 2)), (ap_inf 3).
  split; [exact A1|]. split; [exact A2|]. split; [exact A|]. split; [now apply (ap_without (/ 2))|]. split; [now apply (ap_without 3)|].
  split; [exact F1|]. split; [reflexivity|]. split; [exact H1|]. split; [reflexivity|]. split; [exact exact_minimises|].
  split; [exact F7|]. split; [exact H7|]. split; [exact G7|]. split; [exact (ap_nodup _ _ A1)|]. split; [exact (ap_nodup _ _ A2)|]. split; [exact G9|].
  cbn [inf_amp ap_inf]. intros E. injection E as E. lra.
Qed.
