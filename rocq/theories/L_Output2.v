(** Components, turned axes and robust analyses: the output of reconstruct. *)
From Coq Require Import Lia Lra Permutation.
From Verif Require Import M_Base M_Bunch M_Lib M_Tables M_Const M_Options M_Time M_Slvinit M_Harmonics M_Select M_Ellipse
  M_Robust M_Period M_Conf M_Diag M_Solve M_Recon S_Dict S_Options S_Order S_Fit S_Slv S_Recon S_Model S_Perm S_Super S_Choice S_Robust S_RobustKw S_Equal S_Turn S_Output L_SolveInv
  L_Base L_Options L_SelOrder L_Angle L_Model5 L_Recon L_Recon2 L_Recon3 L_Model L_Model2 L_Model3 L_Model10 L_Model11 L_Model16 L_Affine2 L_Super3 L_Super4 L_Choice L_Perm L_Fill L_Model15 L_Model12 L_Turn L_Equal L_Output.
Open Scope R_scope.
Open Scope string_scope.

Lemma an_twodim L t u v lat opts sm c : analysis L t u v lat opts sm c -> o_twodim (c_opt c) = is2d v.
Proof. intros AN. destruct (analysis_run _ _ _ _ _ _ _ _ AN) as (_ & si & la & s & B & xraw & m & W & BH & _). apply BH. Qed.

Lemma out_components L t u v lat opts sm a b c :
  analysis L t u (Some v) lat opts sm c -> analysis L t u None lat opts (east sm) a -> analysis L t v None lat opts (north sm) b ->
  lstsq_minimises L -> setting opts "method" (PStr "ols") -> setting opts "infer" PNone -> identifiable c (map fst sm) -> NoDup (c_name c) ->
  forall L1 ts nd e o, reconstruct L1 ts nd c e CNone 0 0 = Ok o -> exists oa ob us vs,
    reconstruct L1 ts nd a e CNone 0 0 = Ok oa /\ reconstruct L1 ts nd b e CNone 0 0 = Ok ob /\
    ro_series o = Vector us vs /\ ro_series oa = Scalar us /\ ro_series ob = Scalar vs.
Proof.
  intros AN ANa ANb LM ME IN ID ND L1 ts nd e o H.
  destruct (top_components _ _ _ _ _ _ _ _ _ _ AN ANa ANb LM ME IN ID ND) as (_ & _ & _ & _ & _ & _ & E).
  rewrite reconstruct_eq in H by (eapply analysis_wf; eauto). rewrite !reconstruct_eq by (eapply analysis_wf; eauto).
  destruct (Nat.ltb 1 nd); [discriminate|]. destruct (normalize_time (l_parse L1) ts e) as [tn|]; [|discriminate]. cbn [bind] in *. injection H as <-.
  unfold outcome. rewrite (an_twodim _ _ _ _ _ _ _ _ AN), (an_twodim _ _ _ _ _ _ _ _ ANa), (an_twodim _ _ _ _ _ _ _ _ ANb). cbn [is2d].
  do 4 eexists. split; [reflexivity|]. split; [reflexivity|]. cbn [ro_series]. split; [reflexivity|].
  split; f_equal; unfold placed; apply map_ext; intros [x|]; auto; symmetry; apply E.
Qed.

Lemma by_out f sg phi c c' : well_formed c -> well_formed c' -> result_by f sg phi c c' -> forall L1 ts zs, returns L1 c ts zs -> returns L1 c' ts (map f zs).
Proof.
  intros W W' (_ & _ & _ & _ & H) L1 ts zs K. apply returns_yields in K; [|exact W]. apply returns_yields; [exact W'|].
  induction K; cbn [map]; constructor; auto. now apply H.
Qed.
Lemma out_turned L t u v lat opts sm c L' t' u' v' lat' opts' sm' c' phi :
  analysis L t u v lat opts sm c -> analysis L' t' u' v' lat' opts' sm' c' -> same_model c c' -> is2d v = true -> values_by (turn phi) sm sm' ->
  approximate (c_opt c) = false -> lstsq_minimises L -> lstsq_minimises L' -> o_method (c_opt c) = PStr "ols" -> o_method (c_opt c') = PStr "ols" ->
  identifiable c' (map fst sm') -> NoDup (c_name c) -> forall L1 ts zs, returns L1 c ts zs -> returns L1 c' ts (map (turn phi) zs).
Proof. intros AN AN'. intros. eapply by_out; [eapply analysis_wf, AN|eapply analysis_wf, AN'| |eassumption]. eapply top_turned; eauto. Qed.
Lemma out_mirrored L t u v lat opts sm c L' t' u' v' lat' opts' sm' c' phi :
  analysis L t u v lat opts sm c -> analysis L' t' u' v' lat' opts' sm' c' -> same_model c c' -> is2d v = true -> values_by (mirror phi) sm sm' ->
  o_infer (c_opt c) = None -> lstsq_minimises L -> lstsq_minimises L' -> o_method (c_opt c) = PStr "ols" -> o_method (c_opt c') = PStr "ols" ->
  identifiable c' (map fst sm') -> NoDup (c_name c) -> forall L1 ts zs, returns L1 c ts zs -> returns L1 c' ts (map (mirror phi) zs).
Proof. intros AN AN'. intros. eapply by_out; [eapply analysis_wf, AN|eapply analysis_wf, AN'| |eassumption]. eapply top_mirrored; eauto. Qed.

Lemma out_kept L t u v lat opts sm c w k L' t' u' v' lat' opts' sm' c' :
  analysis L t u v lat opts sm c -> approximate (c_opt c) = false -> (forall rc, lstsq_contract L rc) -> o_method (c_opt c) <> PStr "ols" ->
  c_weights c = map Fin w -> k <> 0 -> Forall (fun a => a = 0 \/ a = k) w ->
  analysis L' t' u' v' lat' opts' sm' c' -> same_model c c' -> Permutation (kept sm w) sm' ->
  lstsq_minimises L' -> o_method (c_opt c') = PStr "ols" -> identifiable c' (map fst sm') -> NoDup (c_name c') ->
  predict_alike c c' \/
  (exists q d n X r, o_robust_kw (c_opt c) = PDict q d /\ kw_nat (kget d "maxit" (PNum 50)) = Ok n /\
     robustfit_kw L X (map snd sm) (PDict q d) = Ok r /\ c_weights c = rf_w r /\ rf_iterations r = n).
Proof.
  intros AN NA LC ME EW K0 FW AN' SM P LM OLS ID ND.
  destruct (top_kept _ _ _ _ _ _ _ _ _ _ _ _ _ _ _ _ _ _ AN NA LC ME EW K0 FW AN' SM P LM OLS ID ND) as [F|F]; [left|now right].
  eapply fit_alike; eauto. apply SM.
Qed.
Lemma out_unit L t u v lat opts opts' sm sm' c c' q d :
  analysis L t u v lat opts sm c -> analysis L t u v lat opts' sm' c' -> agree opts opts' all_but_method ->
  approximate (c_opt c) = false -> (forall rc, lstsq_contract L rc) -> o_method (c_opt c) <> PStr "ols" -> o_method (c_opt c') = PStr "ols" ->
  setting opts "robust_kw" (PDict q d) -> unique_keys d -> kw_setting d "weight_function" (PStr "ols") ->
  identifiable c (map fst sm) -> NoDup (c_name c) -> forall L1 ts nd e k mS mP, reconstruct L1 ts nd c e k mS mP = reconstruct L1 ts nd c' e k mS mP.
Proof.
  intros AN AN' AG NA LC M1 M2 KW UK WF ID ND. assert (E := top_unit _ _ _ _ _ _ _ _ _ _ _ _ _ AN AN' AG NA LC M1 M2 KW UK WF ID ND).
  destruct (solve_opt _ _ _ _ _ _ _ (an_solve _ _ _ _ _ _ _ _ AN)) as (compat & sx & O1 & O2 & O3).
  destruct (solve_opt _ _ _ _ _ _ _ (an_solve _ _ _ _ _ _ _ _ AN')) as (compat' & sx' & O1' & O2' & O3').
  assert (HU := an_keys _ _ _ _ _ _ _ _ AN). assert (HU' := an_keys _ _ _ _ _ _ _ _ AN').
  destruct (used_options opts (is2d v) _ HU _ _ O1 O3) as (_ & _ & T & _ & _ & _ & _ & N & _ & NT & F1 & F2 & F3 & F4 & _).
  destruct (used_options opts' (is2d v) _ HU' _ _ O1' O3') as (_ & _ & T' & _ & _ & _ & _ & N' & _ & NT' & F1' & F2' & F3' & F4' & _).
  assert (V : forall k, In k all_but_method -> opt_value opts k = opt_value opts' k).
  { intros k Hk. destruct (AG k Hk) as (x & S1 & S2). assert (In k (keys documented)) by (cbn in Hk |- *; tauto).
    rewrite (setting_val _ k _ HU H S1). now rewrite (setting_val _ k _ HU' H S2). }
  assert (E1 : o_twodim (c_opt c) = o_twodim (c_opt c')) by congruence.
  assert (E2 : o_nodiagn (c_opt c) = o_nodiagn (c_opt c')) by (rewrite N, N', V; [reflexivity|cbn; tauto]).
  assert (E3 : o_notrend (c_opt c) = o_notrend (c_opt c')) by (rewrite NT, NT', V; [reflexivity|cbn; tauto]).
  assert (E4 : flags_of (c_opt c) = flags_of (c_opt c')).
  { unfold flags_of. rewrite F1, F1', F2, F2', F3, F3', F4, F4', (V "nodal"), (V "phase"); [reflexivity|cbn; tauto..]. }
  intros L1 ts nd e k mS mP. rewrite E. revert E1 E2 E3 E4. generalize (c_opt c). intros o E1 E2 E3 E4.
  unfold reconstruct, reconstruct_core, rec_select, rec_pm.
  cbn [with_options c_opt c_name c_frq c_lind c_reftime c_lat c_g c_A c_Lsmaj c_Lsmin c_theta c_mean c_slope c_umean c_vmean c_uslope c_vslope c_A_ci c_Lsmaj_ci c_Lsmin_ci].
  rewrite E1, E2, E3, E4. reflexivity.
Qed.
