(** S2 inferred from M2 at four days, without corrections: the whole model can be told apart. *)
From Coq Require Import Lia Lra Permutation.
From Coquelicot Require Import Coquelicot.
From Verif Require Import M_Base M_Lib M_Tables M_Const M_Options M_Time M_Slvinit M_Harmonics M_Select M_Ellipse
  M_Robust M_Period M_Conf M_Diag M_Solve M_Recon S_Dict S_Options S_Slv S_Order S_Harm S_Basis S_Tables S_Select S_Fit S_Recon S_Model S_Errors S_Perm S_Noise S_Accept S_WeightAccept S_InferAccept S_InferLinear
  L_Base L_Options L_SolveInv L_OptSolve L_Slv L_Tables L_Harm L_Select L_Fit L_Align L_SelOrder L_Order2 L_Basis L_Core L_Model L_Model2 L_Model3 L_Model6 L_Model4 L_Model5 L_Model7 L_Model8 L_Model4 L_Model11 L_Perm
  L_Example L_Example4 L_Example5 L_Example6 L_Example13 L_Example14 L_Accept L_Accept2 L_RobustAccept3 L_Example23 L_InferAccept3 L_Example29 L_Exact L_WeightAccept L_InferLinear.
Open Scope R_scope.
Open Scope string_scope.

Lemma S2_freq : ex_f 56 = 1 / 12.
Proof.
  assert (P : is_primary 56) by (eexists; vm_compute; reflexivity).
  unfold ex_f. rewrite (lin_primary ex_tref 56 [2; 2; -2; 0; 0; 0]%Z P) by (vm_compute; reflexivity).
  unfold doodson_sum. cbn [seq map fold_right nth]. rewrite ader_eq. cbv zeta. cbn [nth]. field.
Qed.
Lemma cis_turns k : cis (IZR k * (2 * PI)) = RtoC 1.
Proof.
  unfold cis. apply injective_projections; cbn [fst snd RtoC].
  - destruct (Z_le_gt_dec 0 k) as [H|H].
    + rewrite <- (Z2Nat.id k H), <- INR_IZR_INZ. rewrite <- (Rplus_0_l (_ * _)). replace (0 + INR (Z.to_nat k) * (2 * PI)) with (0 + 2 * INR (Z.to_nat k) * PI) by ring. rewrite cos_period. apply cos_0.
    + rewrite <- cos_neg. replace (- (IZR k * (2 * PI))) with (0 + 2 * INR (Z.to_nat (- k)) * PI); [rewrite cos_period; apply cos_0|].
      rewrite INR_IZR_INZ, Z2Nat.id, opp_IZR by lia. ring.
  - apply sin_eq_0_1. exists (2 * k)%Z. rewrite mult_IZR. ring.
Qed.
Lemma S2_wave x : In x ext -> ex_e x 56 = RtoC 1.
Proof.
  intros H. unfold ex_e, ex_wave. rewrite S2_freq. unfold ex_tref. rewrite Cmult_1_l.
  assert (Q : exists k, 0 + 24 * (x - / 2 * (0 + 4)) * (1 / 12) = IZR k).
  { cbn in H. destruct H as [<-|[<-|[<-|[<-|[]]]]]; [exists (-4)%Z|exists (-2)%Z|exists 0%Z|exists 4%Z]; field. }
  destruct Q as [k ->]. apply cis_turns.
Qed.

Definition ir_opts (cf : string) (wh : bool) : dict pyval :=
  [("infer", PDict true (ia_infer false)); ("conf_int", PStr cf); ("constit", PSeq [PStr "M2"]); ("nodal", PBool false); ("phase", PStr "raw");
   ("trend", PBool false); ("white", PBool wh); ("epoch", PStr "python")].
Lemma ir_keys cf wh : unique_keys (ir_opts cf wh).
Proof. unfold ir_opts. unique_tac. Qed.
Lemma ir_unique cf wh k x y : In k (keys documented) -> setting (ir_opts cf wh) k x -> setting (ir_opts cf wh) k y -> x = y.
Proof. apply setting_unique. apply ir_keys. Qed.
Lemma ir_asks cf wh : asks (ir_opts cf wh) false ["S2"] ["M2"] false.
Proof.
  constructor.
  - exists (ia_infer false), [/ 2], [0]. split; [set_tac|]. split; [unfold ia_infer; unique_tac|].
    split; [cbn; tauto|]. split; [cbn; tauto|]. split; [cbn; tauto|]. split; [cbn; tauto|]. split; [reflexivity|]. split; [reflexivity|].
    intros x Hx. unfold entry, ia_infer in Hx. cbn [In] in Hx. repeat (destruct Hx as [Hx|Hx]; [try discriminate Hx|]); [|destruct Hx].
    injection Hx as <-. apply truthy_falsy. reflexivity.
  - reflexivity.
  - intros n [[<-|[]]|[<-|[]]]; vm_compute; tauto.
Qed.
Lemma ir_order cf wh x cf' : setting (ir_opts cf wh) "order_constit" x -> setting (ir_opts cf wh) "conf_int" cf' ->
  sorted_order x /\ (x = PStr "SNR" -> cf' <> PStr "none").
Proof.
  intros H _. assert (E : setting (ir_opts cf wh) "order_constit" PNone) by set_tac.
  rewrite (fun K => ir_unique _ _ _ _ _ K H E) by (cbn; tauto). split; [left; reflexivity|discriminate].
Qed.
Lemma ir_known cf wh k : In k (keys (ir_opts cf wh)) -> In k (keys documented).
Proof. intros Hk. cbn in Hk. cbn. tauto. Qed.
Lemma ir_call wh : inference_call exactL ex_t ac_u None (ir_opts "none" wh) ac_sm ["S2"] ["M2"] false.
Proof.
  constructor.
  - apply ir_keys.
  - apply ir_known.
  - apply ir_asks.
  - exists 1. set_tac.
  - apply ir_order.
  - right. exists ["M2"]. split; [|set_tac]. intros n [<-|[]]. vm_compute. tauto.
  - exists (PStr "python"). split; [set_tac|exact ac_samples].
  - discriminate.
  - set_tac.
Qed.
Lemma ir_input cf wh : inference_input exactL ex_t ac_u None (ir_opts cf wh) ac_sm ["S2"] ["M2"] false.
Proof.
  constructor.
  - apply ir_keys.
  - apply ir_known.
  - apply ir_asks.
  - exists 1. set_tac.
  - apply ir_order.
  - exists (PStr "python"). split; [set_tac|exact ac_samples].
Qed.
Lemma ir_eval cf wh : evaluable 45 (ir_opts cf wh) ac_sm.
Proof.
  constructor.
  - intros x H N. rewrite Rabs_pos_eq by lra. lra.
  - intros x H N. assert (E : map fst ac_sm = ext) by reflexivity.
    assert (A : In 0 (map fst ac_sm)) by (rewrite E; cbn; tauto). assert (B : In 1 (map fst ac_sm)) by (rewrite E; cbn; tauto).
    apply in_map_iff in A, B. destruct A as (s & A1 & A2), B as (s' & B1 & B2). exists s, s'. split; [exact A2|]. split; [exact B2|]. rewrite A1, B1. lra.
  - intros H. exfalso. assert (E : setting (ir_opts cf wh) "constit" (PSeq [PStr "M2"])) by set_tac.
    assert (K := fun K => ir_unique _ _ _ _ _ K H E). specialize (K ltac:(cbn; tauto)). discriminate K.
Qed.
Lemma ir_analysis cf wh c : solve exactL ex_t ac_u None (Some 45) (ir_opts cf wh) = Ok c -> analysis exactL ex_t ac_u None (Some 45) (ir_opts cf wh) ac_sm c.
Proof.
  intros Hc. constructor.
  - exact exact_shape.
  - exact exact_perm.
  - apply ir_keys.
  - intros x H. assert (E : setting (ir_opts cf wh) "order_constit" PNone) by set_tac. rewrite (fun K => ir_unique _ _ _ _ _ K H E) by (cbn; tauto). left; reflexivity.
  - exists (PStr "python"). split; [set_tac|exact ac_samples].
  - discriminate.
  - exact Hc.
Qed.
Lemma heeded_ones (sm : list (R * C)) : heeded (map (fun _ => 1) sm) sm = map fst sm.
Proof. unfold heeded. induction sm as [|p l IH]; [reflexivity|]. cbn. destruct (Rlt_dec 0 1) as [_|N]; [|lra]. cbn. now rewrite IH. Qed.

Lemma ir_facts cf wh c : (cf = "none" \/ cf = "linear") -> analysis exactL ex_t ac_u None (Some 45) (ir_opts cf wh) ac_sm c ->
  o_twodim (c_opt c) = false /\ (exists inf, o_infer (c_opt c) = Some inf /\ inf_approx inf = false) /\ NoDup (c_name c) /\
  c_weights c = map Fin (map (fun _ => 1) ac_sm) /\ identifiable c (map fst ac_sm).
Proof.
  intros HC AN. assert (Hc := an_solve _ _ _ _ _ _ _ _ AN). destruct (analysis_run _ _ _ _ _ _ _ _ AN) as (NB & si & la & s & B & x & m & W & BH & S1 & S2 & _).
  assert (U := ir_keys cf wh).
  destruct (run_options _ _ _ _ _ _ _ U Hc) as (k0 & q0 & K1 & K2).
  destruct (used_options (ir_opts cf wh) _ _ U k0 _ K1 K2) as
   (_ & _ & U1 & Ue & _ & U2 & U3 & U4 & U5 & U6 & Ul & U7 & Ug & U8 & Ur & U9 & U10 & Uk & Up & _ & (inf & U11 & U12) & U13 & _).
  cbn in U5, U6, U7, U8, Up, U11, U10. injection U11 as <-. cbn in U12. injection U12 as U12. symmetry in U12. change (o_infer (c_opt c) = Some (m2_inf false)) in U12.
  assert (SL := bh_slv _ _ _ _ _ _ _ _ _ _ _ _ _ _ BH). rewrite Up in SL.
  destruct (ex_slv [47%nat] ac_m false) as (si' & E1 & E2 & E3 & E4 & E5 & E6).
  assert (si' = si) by (unfold ac_u in SL; cbn [l_parse exactL] in SL; rewrite E1 in SL; now apply Ok_inj in SL). subst si'.
  assert (SE := bh_sel _ _ _ _ _ _ _ _ _ _ _ _ _ _ BH). rewrite U5, U12, E3, inf_select in SE. apply Ok_inj in SE. subst s.
  assert (El := bh_lat _ _ _ _ _ _ _ _ _ _ _ _ _ _ BH). injection El as <-.
  assert (HS := an_sorted _ _ _ _ _ _ _ _ AN).
  assert (NM := run_names _ _ _ _ _ _ _ _ _ _ _ _ _ _ BH HS).
  assert (F := bh_fit _ _ _ _ _ _ _ _ _ _ _ _ _ _ BH). unfold fit in F. rewrite E2, E3, E6, (inf_basis false) in F by assumption. cbn [bind] in F. rewrite finite_some, U10 in F.
  cbn [eq_str] in F. change (String.eqb "ols" "ols") with true in F. cbv iota in F.
  destruct (l_lstsq exactL (inf_B false) (raw_data (si_u si) (si_v si)) PNone) as [[[[m' r'] k'] s']|] eqn:LS; [|discriminate F]. cbn [bind] in F. apply Ok_inj in F. injection F as F1 F2 F3 F4.
  assert (NA : approximate (c_opt c) = false) by (unfold approximate; now rewrite U12).
  split; [|split; [|split; [|split]]].
  - rewrite (bh_tw _ _ _ _ _ _ _ _ _ _ _ _ _ _ BH). reflexivity.
  - exists (m2_inf false). split; [exact U12|reflexivity].
  - eapply Permutation_NoDup; [apply Permutation_sym; exact NM|]. repeat constructor; cbn; intuition discriminate.
  - rewrite (bh_wt _ _ _ _ _ _ _ _ _ _ _ _ _ _ BH), <- F4. reflexivity.
  - intros c1 Rv Z. change (map fst ac_sm) with ext in Z.
    destruct (rival_yields _ _ _ _ _ _ _ _ _ _ _ _ _ _ BH HS NA c1 Rv) as (q & M & Y).
    apply (vector_silent _ _ _ c1 q Rv M).
    assert (GR := good_rows _ _ _ _ _ _ _ _ _ _ _ _ _ _ BH). rewrite E2, <- F1 in GR.
    assert (GX : forall x, In x ext -> good_row (si_tref si) (si_lor si) 45 (c_opt c) inf_sel x (inf_row false x)).
    { clear - GR. unfold inf_B in GR. induction ext as [|y l IH]; [intros x []|]. cbn [map] in GR. inversion GR; subst. intros x [<-|Hx]; auto. }
    assert (LQ := mt_len _ _ _ _ _ M). unfold ncoef in LQ. rewrite U6 in LQ. change (length q = 3)%nat in LQ.
    destruct q as [|a [|b [|d [|]]]]; try discriminate LQ.
    assert (TW : o_twodim (c_opt c1) = false) by (rewrite (rv_opt _ _ Rv), (bh_tw _ _ _ _ _ _ _ _ _ _ _ _ _ _ BH); reflexivity).
    assert (EQ : forall x, In x ext -> cdot (inf_row false x) [a; b; d] = RtoC 0).
    { intros y Hx. destruct (Y y _ (GX y Hx)) as [Y1 Y2]. rewrite TW in Y2. destruct (Z y Hx) as [Z1 _]. rewrite Z1 in Y1. injection Y1 as Y1.
      apply injective_projections; [symmetry; exact Y1|exact Y2]. }
    destruct (three_zero a b (Cplus d (Cmult (RtoC (/ 2)) (Cplus a b)))) as (A0 & B0 & D0).
    { intros y Hx. rewrite <- (EQ y Hx), <- ex_e_val. unfold inf_row, inf_p, et. rewrite (S2_wave y Hx), half_val. generalize (ex_e y 47). intros [e f].
      destruct a as [a1 a2], b as [b1 b2], d as [d1 d2]. unfold cdot, csum, RtoC. apply injective_projections; cbn; field. }
    subst a b. assert (d = RtoC 0) by (rewrite <- D0; destruct d; apply injective_projections; cbn; ring). subst d.
    intros z [<-|[<-|[<-|[]]]]; reflexivity.
Qed.
Lemma ir_same wh : options_but_intervals (ir_opts "linear" wh) (ir_opts "none" wh).
Proof.
  intros k x K1 _ _. unfold setting. cbn [ir_opts In keys map fst].
  split; (intros [H|H]; [left|right]); [destruct H as [H|[H|H]]; [now left|congruence|now right; right]|exact H|destruct H as [H|[H|H]]; [now left|congruence|now right; right]|exact H].
Qed.
Lemma ir_both : exists c0 c, analysis exactL ex_t ac_u None (Some 45) (ir_opts "none" true) ac_sm c0 /\ analysis exactL ex_t ac_u None (Some 45) (ir_opts "linear" true) ac_sm c.
Proof.
  destruct (accept_asked exactL ex_t ac_u None 45 (ir_opts "none" true) ac_sm ["S2"] ["M2"] false exact_shape exact_returns exact_perm (ir_call true) (ir_eval _ _)) as [c0 H0].
  - left. split; [set_tac|]. intros x H. assert (E : setting (ir_opts "none" true) "nodal" (PBool false)) by set_tac.
    rewrite (fun K => ir_unique _ _ _ _ _ K H E) by (cbn; tauto). apply truthy_falsy. reflexivity.
  - left. intros x H. assert (E : setting (ir_opts "none" true) "nodal" (PBool false)) by set_tac.
    rewrite (fun K => ir_unique _ _ _ _ _ K H E) by (cbn; tauto). apply truthy_falsy. reflexivity.
  - set_tac.
  - apply ir_analysis in H0. exists c0. destruct (ir_facts _ _ _ (or_introl eq_refl) H0) as (F1 & F2 & F3 & F4 & F5).
    destruct (accept_infer_linear exactL ex_t ac_u None 45 (ir_opts "linear" true) (ir_opts "none" true) ac_sm c0 ["S2"] ["M2"] (map (fun _ => 1) ac_sm) H0 (ir_input _ _)) as [c H].
    + apply ir_same.
    + now left.
    + exact F3.
    + exact exact_inv_returns.
    + set_tac.
    + exact F4.
    + rewrite heeded_ones. exact F5.
    + left. exists (PBool true). split; [set_tac|]. rewrite <- truthy_falsy. discriminate.
    + exists c. split; [exact H0|]. now apply ir_analysis.
Qed.
Lemma ir_example : exists L t u opts opts0 sm c0 c inf w,
  analysis L t u None (Some 45) opts0 sm c0 /\ inference_input L t u None opts sm ["S2"] ["M2"] false /\ options_but_intervals opts opts0 /\
  o_twodim (c_opt c0) = false /\ NoDup (c_name c0) /\ inv_returns L /\ inv_exact L /\ setting opts "conf_int" (PStr "linear") /\
  c_weights c0 = map Fin w /\ identifiable c0 (heeded w sm) /\ (exists x, setting opts "white" x /\ ~ falsy x) /\
  analysis L t u None (Some 45) opts sm c /\ o_infer (c_opt c) = Some inf /\ inf_approx inf = false /\ c_weights c = map Fin w /\ sm <> [].
Proof.
  destruct ir_both as (c0 & c & A0 & A). destruct (ir_facts _ _ _ (or_introl eq_refl) A0) as (F1 & F2 & F3 & F4 & F5).
  destruct (ir_facts _ _ _ (or_intror eq_refl) A) as (_ & (inf & G1 & G2) & _ & G4 & _).
  exists exactL, ex_t, ac_u, (ir_opts "linear" true), (ir_opts "none" true), ac_sm, c0, c, inf, (map (fun _ => 1) ac_sm).
  rewrite heeded_ones. split; [exact A0|]. split; [apply ir_input|]. split; [apply ir_same|]. split; [exact F1|]. split; [exact F3|]. split; [exact exact_inv_returns|].
  split; [exact exact_inv|]. split; [set_tac|]. split; [exact F4|]. split; [exact F5|].
  split; [exists (PBool true); split; [set_tac|]; rewrite <- truthy_falsy; discriminate|]. split; [exact A|]. split; [exact G1|]. split; [exact G2|]. split; [exact G4|]. discriminate.
Qed.
