(** Ordinary least squares and Monte-Carlo intervals. *)
From Coq Require Import Lia Lra Permutation.
From Verif Require Import M_Base M_Bunch M_Lib M_Tables M_Const M_Options M_Time M_Slvinit M_Harmonics M_Select M_Ellipse
  M_Robust M_Period M_Conf M_Diag M_Solve M_Recon S_Dict S_Options S_Order S_Basis S_Select S_Fit S_Ellipse S_Slv S_Recon S_Model S_Conf S_Errors S_Perm S_Period S_Noise S_Accept S_McAccept
  L_Base L_Options L_SolveInv L_OptSolve L_Slv L_Slv2 L_Tables L_Order L_Select L_Fit L_Align L_SelOrder L_Order2 L_Basis L_Harm L_Harm2 L_Harm3 L_Angle L_Ellipse L_Recon L_Recon2 L_Recon3 L_Recon4 L_Core
  L_Ellipse2 L_Model L_Lsq L_Model2 L_Model3 L_Model4 L_Model5 L_Model6 L_Model7 L_Model8 L_Model9 L_Model10 L_Model11 L_Model12
  L_Conf L_Conf2 L_Conf3 L_Conf4 L_Gauss L_Errors L_Errors2 L_Errors3 L_Errors4 L_Errors5 L_Super L_Period L_Noise L_Noise2 L_Perm L_Example L_Accept L_Accept2 L_Choice L_Errors6 L_Model15 L_Mc L_McAccept.
Open Scope R_scope.
Open Scope R_scope.
Open Scope string_scope.

Lemma ols_weights L t u v lat opts c si la s B xraw m W : behind L t u v lat opts c si la s B xraw m W -> o_method (c_opt c) = PStr "ols" -> W = map (fun _ => Fin 1) (si_t si).
Proof.
  intros BH OLS. assert (F := bh_fit _ _ _ _ _ _ _ _ _ _ _ _ _ _ BH). unfold fit in F. inv_bind F. destruct (finite_mat a); [|discriminate].
  rewrite OLS in F. cbn [eq_str] in F. rewrite String.eqb_refl in F. inv_bind F. destruct a0 as [[[m' r'] k] sg]. apply Ok_inj in F. now injection F as _ _ _ <-.
Qed.

(** the variances of one constituent, whatever intervals are asked for *)
Lemma run_trace L t u v la opts sm c si s B m W gm k : analysis L t u v (Some la) opts sm c -> lstsq_minimises L -> inv_exact L ->
  setting opts "method" (PStr "ols") -> setting opts "infer" PNone -> (params c < length sm)%nat ->
  behind L t u v (Some la) opts c si la s B (map snd sm) m W ->
  gammas L B (ncoef (c_opt c) s) W (map snd sm) (model_fit (o_twodim (c_opt c)) B m) = Ok (Some gm) ->
  let nc := length (conf_input (o_twodim (c_opt c)) m s) in (k < nc)%nat ->
  exists x y qu qv, 0 < x /\ 0 < y /\ noise_variance fst c sm qu /\ noise_variance snd c sm qv /\
    varXu (block true gm nc k) (block true gm nc k) = x * qu /\ varYu (block false gm nc k) (block false gm nc k) = y * qu /\
    varXv (block false gm nc k) (block false gm nc k) = x * qv /\ varYv (block true gm nc k) (block true gm nc k) = y * qv.
Proof.
  intros AN LM IX ME IN PN BH HG nc Hk. assert (HU := an_keys _ _ _ _ _ _ _ _ AN). assert (HS := an_sorted _ _ _ _ _ _ _ _ AN).
  apply setting_val in ME, IN; try (exact HU || (cbn; tauto)).
  destruct (run_options _ _ _ _ _ _ _ HU (an_solve _ _ _ _ _ _ _ _ AN)) as (compat & equi & P1 & P4).
  destruct (used_options opts (is2d v) equi HU compat _ P1 P4) as
    (_ & _ & Etw & _ & _ & Eci & Elin & _ & _ & _ & _ & _ & _ & _ & _ & Ewh & Eme & _ & Ep1 & Ep2 & (inf & V1 & V2) & _).
  rewrite ME in Eme. rewrite IN in V1. cbn [validate_infer] in V1. apply Ok_inj in V1. subst inf. cbn [read_infer] in V2. apply Ok_inj in V2. symmetry in V2.
  assert (NI := V2). assert (OLS := Eme).
  destruct (analysis_run _ _ _ _ _ _ _ _ AN) as (_ & si' & la' & s' & B' & xraw' & m' & W' & BH' & S1 & S2 & S3).
  assert (si' = si). { assert (Q := bh_slv _ _ _ _ _ _ _ _ _ _ _ _ _ _ BH'). rewrite (bh_slv _ _ _ _ _ _ _ _ _ _ _ _ _ _ BH) in Q. apply Ok_inj in Q. congruence. } subst si'.
  assert (EW := ols_weights _ _ _ _ _ _ _ _ _ _ _ _ _ _ BH OLS). rewrite S1, map_map in EW.
  assert (S2' : map snd sm = map snd sm) by reflexivity.
  destruct (run_counts _ _ _ _ _ _ _ _ _ _ _ _ _ _ BH HS NI) as (R0 & RnR & RnNR & RNR & RN & Rname & RP & Rc).
  set (xraw := map snd sm) in *.
  assert (Hpar : INR (length xraw) - INR (ncoef (c_opt c) s) = INR (length sm) - INR (params c)).
  { unfold xraw. rewrite map_length. f_equal. f_equal. unfold params, ncoef. rewrite Rc, RnNR, RnR. destruct (o_notrend (c_opt c)); lia. }
  assert (Hdof : 0 < INR (length sm) - INR (params c)) by (apply lt_INR in PN; lra).
  unfold gammas in HG. rewrite EW, ones_W in HG. cbv zeta in HG. rewrite Hpar in HG. inv_bind HG. rename a into iC. rename Ha into HiC. inv_bind HG. rename a into iP. rename Ha into HiP.
  destruct (Req_EM_T (INR (length sm) - INR (params c)) 0) as [Z|_]; [lra|]. apply Ok_inj in HG. apply (f_equal (fun o => match o with Some g => g | None => gm end)) in HG.
  rewrite RN in *.
  assert (BL := B_len _ _ _ _ _ _ _ _ _ _ _ _ _ _ BH sm S1).
  match type of HiC with l_inv L (gram _ _ _ ?n) = _ => set (NN := n) in * end.
  assert (HX : inv_of NN (fun a a' => Sm (length sm) (fun k => Cmult (Cconj (bf B k a)) (bf B k a'))) (cent iC)).
  { destruct (IX NN _ _ (gram_square _ _ _ _) HiC) as [I1 I2].
    eapply product_inv; [exact I1|exact I2| |reflexivity]. intros a a' Ha Ha'. change centry_at with cent.
    rewrite gram_entry; auto; [|unfold cconj_mat; now rewrite map_length|unfold cconj_mat; rewrite map_length; auto].
    unfold cconj_mat at 1. rewrite map_length, BL. apply Sm_ext. intros j _. now rewrite bf_conj. }
  assert (HY : inv_of NN (fun a a' => Sm (length sm) (fun k => Cmult (bf B k a) (bf B k a'))) (cent iP)).
  { destruct (IX NN _ _ (gram_square _ _ _ _) HiP) as [I1 I2].
    eapply product_inv; [exact I1|exact I2| |reflexivity]. intros a a' Ha Ha'. change centry_at with cent.
    rewrite gram_entry; auto. now rewrite BL. }
  set (rs := rs c B m sm). set (dof := INR (length sm) - INR (params c)) in *.
  set (qu := rsum (map (fun r => fst r ^ 2) rs) / dof). set (qv := rsum (map (fun r => snd r ^ 2) rs) / dof).
  assert (NA := NA0 c NI).
  assert (RSD := own_residuals _ _ _ _ _ _ _ _ _ _ _ _ _ _ BH HS NA sm S1).
  assert (Lin : nc = length (s_lind s)).
  { unfold nc, conf_input. rewrite map_length. assert (Lpm := bh_pm _ _ _ _ _ _ _ _ _ _ _ _ _ _ BH). unfold all_pm in Lpm. rewrite R0 in Lpm. cbn [map inferred_coefs combine List.concat] in Lpm. now rewrite app_nil_r in Lpm. }
  rewrite Lin in *. clear nc Lin.
  set (wX := wgt c s B sm iC k true). set (wY := wgt c s B sm iC k false).
  assert (V := run_variance _ _ _ _ _ _ _ _ _ _ _ _ _ _ BH HS NA LM OLS sm S1 S2' S3).
  assert (Eo : map (fun _ : C => 1) xraw = map (fun _ => 1) sm) by (unfold xraw; rewrite map_map; reflexivity). rewrite Eo in V.
  assert (PS := pseudo _ _ _ _ _ _ _ _ _ _ _ _ _ _ BH HS NI sm S1 S2' S3 LM OLS iC HX).
  rewrite V in HG. rewrite PS in HG. set (f := Cdiv _ (RtoC dof)) in HG. fold rs in HG, V, PS.
  assert (Ef : fst f = qu - qv).
  { unfold f. assert (PR := pseudo_re _ _ _ _ _ _ _ _ _ _ _ _ _ _ BH sm S1). fold rs in PR.
    set (Z := Sm _ _) in *. transitivity (fst Z / dof).
    - unfold Cdiv, Cinv, Cmult, RtoC. cbn [fst snd]. field. lra.
    - rewrite PR. unfold qu, qv. field. lra. }
  assert (Ev : rsum (map (fun r => fst r ^ 2 + snd r ^ 2) rs) / dof = qu + qv).
  { unfold rs. rewrite sum_sq. fold rs. unfold qu, qv. field. lra. }
  rewrite Ev in HG.
  destruct (run_vars _ _ _ _ _ _ _ _ _ _ _ _ _ _ BH HS NI sm S1 iC iP HX HY k Hk (qu + qv) f _ _ eq_refl eq_refl) as (VX & VY & VXv & VYv).
  fold wX wY in VX, VY, VXv, VYv. rewrite Ef in VX, VY, VXv, VYv.
  replace ((qu + qv + (qu - qv)) / 2) with qu in VX, VY by field. replace ((qu + qv - (qu - qv)) / 2) with qv in VXv, VYv by field.
  rewrite HG in VX, VY, VXv, VYv.
  assert (IL : In (nth k (s_lind s) 0%nat) (c_lind c)) by (apply (Permutation_in _ (Permutation_sym RP)), nth_In, Hk).
  assert (BX : best_unbiased c sm (nth k (s_lind s) 0%nat) true wX) by (eapply wgt_best; eauto).
  assert (BY : best_unbiased c sm (nth k (s_lind s) 0%nat) false wY) by (eapply wgt_best; eauto).
  exists (squares wX), (squares wY), qu, qv. split; [exact (unbiased_squares _ _ _ _ _ IL (proj1 BX))|]. split; [exact (unbiased_squares _ _ _ _ _ IL (proj1 BY))|].
  split; [exists rs; auto|]. split; [exists rs; auto|]. auto.
Qed.

Lemma accept_vector L t u v la opts opts0 sm c0 q : analysis L t u v (Some la) opts0 sm c0 -> documented_call L t u v opts sm -> options_but_kind opts opts0 -> evaluable la opts sm ->
  setting opts "conf_int" (PStr "MC") -> setting opts0 "conf_int" (PStr "linear") -> mvn_returns L -> mvn_shape L -> svd_returns L -> eigvals_returns L -> lomb_contract L ->
  lstsq_minimises L -> inv_exact L -> (params c0 < length sm)%nat -> (forall r, In r (rows c0) -> measured r) -> noise_variance fst c0 sm q -> q <> 0 ->
  exists c, solve L t u v (Some la) opts = Ok c.
Proof.
  intros AN DC OK EV MC LIN VR VS SR ER LC LM IX PN ME NV NZ.
  apply (accept_mc L t u v la opts opts0 sm c0 AN DC (fun k x h1 h2 _ => OK k x h1 h2) EV MC LIN); auto; [intros x; apply OK; discriminate|].
  right. split; [exact SR|]. split; [exact ER|]. right. split; [exact LC|]. intros si s B m W BH gm k HG nc Hk.
  assert (M0 : setting opts0 "method" (PStr "ols")) by (apply (OK "method"); try discriminate; apply DC).
  assert (I0 : setting opts0 "infer" PNone) by (apply (OK "infer"); try discriminate; apply DC).
  destruct (run_trace _ _ _ _ _ _ _ _ _ _ _ _ _ _ _ AN LM IX M0 I0 PN BH HG Hk) as (x & y & qu & qv & X & Y & NU & _ & VX & VY & _). fold nc in VX, VY. rewrite VX, VY.
  rewrite (noise_unique _ _ _ _ _ NU NV). intros E. assert ((x + y) * q = 0) by lra. apply Rmult_integral in H. destruct H; [lra|contradiction].
Qed.
Lemma accept_white L t u v la opts opts0 sm c0 x : analysis L t u v (Some la) opts0 sm c0 -> documented_call L t u v opts sm -> options_but_intervals opts opts0 -> evaluable la opts sm ->
  identifiable c0 (map fst sm) -> NoDup (c_name c0) -> inv_returns L -> mvn_returns L -> mvn_shape L -> (params c0 < length sm)%nat ->
  setting opts "conf_int" (PStr "MC") -> setting opts "white" x -> ~ falsy x -> exists c, solve L t u v (Some la) opts = Ok c.
Proof.
  intros AN DC OK EV ID ND IR VR VS PN MC WX WF.
  destruct (same_fit L t u v la opts opts0 sm c0 AN DC OK EV MC) as (compat & si & o & s & B & m & W & F & BH & FL & NT & TW & NI & EQ & NR & _).
  assert (HU := an_keys _ _ _ _ _ _ _ _ AN).
  assert (M0 : setting opts0 "method" (PStr "ols")) by (apply (OK "method"); try discriminate; apply DC).
  apply setting_val in M0; [|exact HU|cbn; tauto].
  destruct (run_options _ _ _ _ _ _ _ HU (an_solve _ _ _ _ _ _ _ _ AN)) as (compat0 & equi & P1 & P4).
  destruct (used_options opts0 (is2d v) equi HU compat0 _ P1 P4) as
    (_ & _ & Etw & _ & _ & Eci & Elin & _ & _ & _ & _ & _ & _ & _ & _ & Ewh & Eme & _). rewrite M0 in Eme.
  assert (EW := ols_weights _ _ _ _ _ _ _ _ _ _ _ _ _ _ BH Eme). rewrite (fi_t _ _ _ _ _ _ _ _ _ _ _ _ _ _ _ F) in EW. subst W.
  destruct (two_runs L t u v la opts opts0 sm c0 AN DC OK ID ND _ _ _ _ _ _ _ F) as [R1 R2].
  assert (NI' := fi_infer _ _ _ _ _ _ _ _ _ _ _ _ _ _ _ F).
  destruct (run_counts _ _ _ _ _ _ _ _ _ _ _ _ _ _ BH (an_sorted _ _ _ _ _ _ _ _ AN) NI) as (R0 & RnR & RnNR & RNR & RN & Rname & RP & Rc).
  assert (GM : exists gm, gammas L B (ncoef o s) (map (fun _ => Fin 1) (map fst sm)) (map snd sm) (model_fit (o_twodim o) B m) = Ok (Some gm)).
  { unfold gammas. rewrite ones_W. destruct (IR _ _ (gram_square _ _ _ _) R1) as [iC ->]. cbn [bind]. destruct (IR _ _ (gram_square _ _ _ _) R2) as [iP ->]. cbn [bind].
    destruct (Req_EM_T _ 0) as [Z|_]; [|eauto]. exfalso. rewrite map_length in Z. assert (K : INR (length sm) = INR (ncoef o s)) by lra. apply INR_eq in K.
    unfold params in PN. unfold ncoef in K. rewrite <- NT in K. rewrite Rc in PN. rewrite RnNR, RnR in K. destruct (o_notrend (c_opt c0)); lia. }
  destruct GM as [gm GM].
  assert (WT := fi_white _ _ _ _ _ _ _ _ _ _ _ _ _ _ _ F _ WX). destruct (truthy x) eqn:T; [|exfalso; apply WF; now apply truthy_falsy].
  assert (EM : o_linci o = false) by (rewrite (fi_lin _ _ _ _ _ _ _ _ _ _ _ _ _ _ _ F); reflexivity).
  assert (CI : exists cis, confidence L o s (si_tin si) (si_t si) (resid_parts (o_twodim o) (map (fun _ => Fin 1) (map fst sm)) (map snd sm) (model_fit (o_twodim o) B m))
     (si_elor si) (map snd sm) (model_fit (o_twodim o) B m) (map (fun _ => Fin 1) (map fst sm)) B (ncoef o s) (conf_input (o_twodim o) m s) = Ok cis).
  { unfold confidence. rewrite WT. cbn [bind]. rewrite GM. cbn [bind].
    match goal with |- exists cis, bind (mapM_idx ?f 0 ?l) _ = _ => destruct (mapM_idx_ok f l) with (i := 0%nat) as [ys ->] end; [|rewrite NI'; cbn [bind]; eauto].
    intros k y. apply one_white; auto. rewrite NR. lia. }
  destruct CI as [cs CI].
  eapply finish; [exact (an_perm _ _ _ _ _ _ _ _ AN)|exact F|]. unfold ci_stage. rewrite (fi_ci _ _ _ _ _ _ _ _ _ _ _ _ _ _ _ F). cbn [eq_str String.eqb Ascii.eqb Bool.eqb negb].
  unfold ncoef in CI. rewrite CI. cbn [bind]. reflexivity.
Qed.

(** ** what is needed *)
Lemma mc_spare L t u v la opts sm c : analysis L t u v (Some la) opts sm c -> setting opts "conf_int" (PStr "MC") -> setting opts "infer" PNone -> c_name c <> [] ->
  params c <> length sm /\ exists w, c_weights c = map Fin w.
Proof.
  intros AN MC IN NE. destruct (mc_run _ _ _ _ _ _ _ _ AN MC IN NE) as (si & s & B & m & W & p & gm & w & Xu & Yu & Xv & Yv & g & th & nc & BH & HG & EL & HC).
  assert (HU := an_keys _ _ _ _ _ _ _ _ AN).
  assert (NI : o_infer (c_opt c) = None).
  { apply setting_val in IN; [|exact HU|cbn; tauto]. destruct (bh_inf _ _ _ _ _ _ _ _ _ _ _ _ _ _ BH) as (inf & I1 & I2). rewrite IN in I1. cbn [validate_infer is_none orb] in I1. injection I1 as <-. now injection I2. }
  destruct (run_counts _ _ _ _ _ _ _ _ _ _ _ _ _ _ BH (an_sorted _ _ _ _ _ _ _ _ AN) NI) as (R0 & RnR & RnNR & RNR & RN & Rname & RP & Rc).
  unfold gammas in HG. destruct (all_finite W) as [w'|] eqn:EW; [|discriminate]. split.
  - intros E. inv_bind HG. inv_bind HG. destruct (Req_EM_T _ 0) as [_|N]; [discriminate|]. apply N. rewrite map_length, <- E.
    unfold params, ncoef. rewrite Rc, RnNR, RnR. replace (2 * length (s_lind s) + 1 + (if o_notrend (c_opt c) then 0 else 1))%nat with (2 * length (s_lind s) + 2 * 0 + (if o_notrend (c_opt c) then 1 else 2))%nat by (destruct (o_notrend (c_opt c)); lia).
    replace (2 * (length (s_lind s) + 0) + 1 + (if o_notrend (c_opt c) then 0 else 1))%nat with (2 * length (s_lind s) + 2 * 0 + (if o_notrend (c_opt c) then 1 else 2))%nat by (destruct (o_notrend (c_opt c)); lia). lra.
  - exists w'. rewrite (bh_wt _ _ _ _ _ _ _ _ _ _ _ _ _ _ BH). now apply all_finite_map.
Qed.
Lemma mc_noise L t u v la opts sm c qu qv : analysis L t u v (Some la) opts sm c -> lstsq_minimises L -> inv_exact L -> setting opts "method" (PStr "ols") -> setting opts "infer" PNone ->
  setting opts "conf_int" (PStr "MC") -> (forall x, setting opts "white" x -> falsy x) -> (params c < length sm)%nat -> c_name c <> [] ->
  noise_variance fst c sm qu -> noise_variance snd c sm qv -> qu <> 0 /\ (is2d v = true -> qv <> 0).
Proof.
  intros AN LM IX ME IN MC WH PN NE NU NV.
  destruct (run_conf _ _ _ _ _ _ _ _ false AN LM IX ME IN MC PN) as (si & frq & p & _ & _ & NB & ROW).
  assert (HU := an_keys _ _ _ _ _ _ _ _ AN).
  destruct (rows c) as [|r0 rr] eqn:ER; [exfalso; destruct (c_name c) eqn:E; [congruence|]; unfold rows in ER; rewrite E in ER; discriminate|].
  assert (IR : In r0 (rows c)) by (rewrite ER; now left). assert (IR' := IR). rewrite <- ER in ROW.
  unfold rows in IR'. apply in_map_iff in IR'. destruct IR' as (j & Ej & Hj). apply in_seq in Hj.
  assert (WF2 := analysis_wf _ _ _ _ _ _ _ _ AN). destruct (wf_aligned _ WF2) as (_ & A2 & _).
  destruct (nth_error (c_lind c) j) as [i|] eqn:Ei; [|apply nth_error_None in Ei; lia].
  assert (Hl : w_lind r0 = Some i) by (rewrite <- Ej; exact Ei).
  destruct (ROW r0 i IR Hl) as (k & wX & wY & qu' & qv' & quv & gm & nc & w & g & th & _ & _ & _ & Q1 & Q2 & _ & _ & _ & (VX & VY & VXv & VYv) & _ & EL & CO & _).
  rewrite (noise_unique _ _ _ _ _ Q1 NU) in *. rewrite (noise_unique _ _ _ _ _ Q2 NV) in *.
  assert (Np : p <> None).
  { unfold noise_behind in NB. destruct (o_white (c_opt c)) eqn:EW; [|destruct NB as (? & ? & _ & _ & ->); discriminate]. exfalso.
    destruct (run_options _ _ _ _ _ _ _ HU (an_solve _ _ _ _ _ _ _ _ AN)) as (compat0 & equi & P1 & P4).
    destruct (used_options opts (is2d v) equi HU compat0 _ P1 P4) as (_ & _ & Etw & _ & _ & Eci & Elin & _ & _ & _ & _ & _ & _ & _ & _ & Ewh & _).
    assert (SW : setting opts "white" (opt_value opts "white")) by (apply setting_value; [exact HU|cbn; tauto]). apply WH, truthy_falsy in SW. congruence. }
  destruct (one_zero _ _ _ _ _ _ _ _ _ _ _ _ _ EL Np CO) as [Z1 Z2]. rewrite VX, VY in Z1. split; [intros ->; apply Z1; ring|].
  intros T. assert (TW : o_twodim (c_opt c) = true).
  { destruct (run_options _ _ _ _ _ _ _ HU (an_solve _ _ _ _ _ _ _ _ AN)) as (compat0 & equi & P1 & P4).
    destruct (used_options opts (is2d v) equi HU compat0 _ P1 P4) as (_ & _ & Etw & _). congruence. }
  specialize (Z2 TW). rewrite VXv, VYv in Z2. intros ->. apply Z2. ring.
Qed.
