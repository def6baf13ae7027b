(** What depends on random numbers. *)
From Coq Require Import Lia Lra Permutation.
From Verif Require Import M_Base M_Bunch M_Lib M_Tables M_Const M_Options M_Time M_Slvinit M_Harmonics M_Select M_Ellipse
  M_Robust M_Period M_Conf M_Diag M_Solve M_Recon S_Dict S_Options S_Order S_Basis S_Select S_Fit S_Ellipse S_Slv S_Recon S_Model S_Perm S_Choice S_Output S_Stable
  L_Base L_Tables L_Options L_SolveInv L_OptSolve L_Slv L_Slv2 L_Order L_Select L_Fit L_Align L_SelOrder L_Basis L_Angle L_Ellipse L_Recon L_Recon2 L_Recon3 L_Core
  L_Ellipse2 L_Model L_Lsq L_Model2 L_Model3 L_Model4 L_Model5 L_Model6 L_Model7 L_Model8 L_Model9 L_Model10 L_Model11 L_Model12 L_Model15
  L_Units2 L_Super L_Super2 L_Super3 L_Perm L_Carry L_Choice L_Output.
Open Scope R_scope.
Open Scope string_scope.

Lemma mapM_ext {A D} (f g : nat -> A -> res D) l : (forall i x, f i x = g i x) -> forall i, mapM_idx f i l = mapM_idx g i l.
Proof. intros H. induction l as [|x l IH]; intros i; cbn [mapM_idx]; [reflexivity|]. rewrite H. destruct (g i x); cbn [bind]; [|reflexivity]. now rewrite IH. Qed.
Lemma confidence_mvn L f o s tin t e elor xraw xmod W B nm xs : o_linci o = true ->
  confidence (with_mvn L f) o s tin t e elor xraw xmod W B nm xs = confidence L o s tin t e elor xraw xmod W B nm xs.
Proof.
  intros H. unfold confidence.
  change (band_averaged_psd_by_constit (with_mvn L f)) with (band_averaged_psd_by_constit L). change (gammas (with_mvn L f)) with (gammas L).
  apply (f_equal2 (fun a (b : _ -> _) => bind a b) eq_refl). apply FunctionalExtensionality.functional_extensionality. intros p.
  apply (f_equal2 (fun a (b : _ -> _) => bind a b) eq_refl). apply FunctionalExtensionality.functional_extensionality. intros gam. cbn zeta.
  rewrite (mapM_ext (fun c x => conf_one (with_mvn L f) o gam p (length xs) c (x_Xu x) (x_Yu x) (x_Xv x) (x_Yv x) (x_g x) (x_theta x))
                    (fun c x => conf_one L o gam p (length xs) c (x_Xu x) (x_Yu x) (x_Xv x) (x_Yv x) (x_g x) (x_theta x))); [reflexivity|].
  intros i x. unfold conf_one. rewrite H. reflexivity.
Qed.
Lemma loop_mvn L f X y rcond tol wf rfac fuel : forall i w old, rf_loop (with_mvn L f) X y rcond tol wf rfac fuel i w old = rf_loop L X y rcond tol wf rfac fuel i w old.
Proof.
  induction fuel as [|fuel IH]; intros i w old; [reflexivity|]. cbn [rf_loop]. change (wsolve (with_mvn L f)) with (wsolve L). destruct (wsolve L X y rcond w) as [ls|]; [|reflexivity].
  cbn [bind]. cbn zeta. destruct old as [o|].
  - destruct (xlt _ _); [reflexivity|]. destruct (xlt _ _); [reflexivity|]. destruct (wf _); [|reflexivity]. cbn [bind]. apply IH.
  - destruct (wf _); [|reflexivity]. cbn [bind]. apply IH.
Qed.
Lemma robustfit_mvn L f X y wf tune rcond tol maxit : robustfit (with_mvn L f) X y wf tune rcond tol maxit = robustfit L X y wf tune rcond tol maxit.
Proof.
  unfold robustfit. change (leverage (with_mvn L f)) with (leverage L). change (wsolve (with_mvn L f)) with (wsolve L).
  destruct (match tune with Some t => Ok t | None => _ end) as [tn|]; [|reflexivity]. cbn [bind]. destruct (wfunc wf) as [w|]; [|reflexivity]. cbn [bind].
  destruct (leverage L X) as [lev|]; [|reflexivity]. cbn [bind]. cbn zeta. destruct (match maxit with O => Err NameError | _ => _ end) as [fi|]; [|reflexivity]. cbn [bind].
  now rewrite loop_mvn.
Qed.
Lemma fit_mvn L f t u v tref lor lat o s : fit (with_mvn L f) t u v tref lor lat o s = fit L t u v tref lor lat o s.
Proof.
  unfold fit. destruct (basis t tref lor lat o s) as [Bo|]; [|reflexivity]. cbn [bind]. cbn zeta. destruct (finite_mat Bo) as [B|]; [|reflexivity].
  destruct (eq_str (o_method o) "ols"); [reflexivity|]. unfold robustfit_kw. destruct (o_robust_kw o); try reflexivity. destruct (negb _); [reflexivity|].
  destruct (match kget d "weight_function" _ with PStr s => Ok s | _ => _ end) as [wf|]; [|reflexivity]. cbn [bind]. destruct (match kget d "tune" _ with PNone => Ok None | _ => _ end) as [tn|]; [|reflexivity]. cbn [bind].
  destruct (kw_num _) as [tl|]; [|reflexivity]. cbn [bind]. destruct (kw_nat _) as [mx|]; [|reflexivity]. cbn [bind]. now rewrite robustfit_mvn.
Qed.
Lemma solve_mvn L f t u v lat opts x : unique_keys opts -> setting opts "conf_int" x -> x <> PStr "MC" ->
  solve (with_mvn L f) t u v lat opts = solve L t u v lat opts.
Proof.
  intros Hu Hx N. apply setting_val in Hx; [|assumption|cbn; tauto]. unfold solve. destruct (process_opts opts _) as [compat|] eqn:E; [|reflexivity]. cbn [bind]. unfold solv1.
  change (l_parse (with_mvn L f)) with (l_parse L). destruct (slvinit _ _ _ _ _ _) as [si|]; [|reflexivity]. cbn [bind]. destruct lat as [la|]; [|reflexivity]. cbn [bind].
  destruct (read_opt _) as [o|] eqn:E2; [|reflexivity]. cbn [bind].
  destruct (used_options opts _ (si_equi si) Hu compat o E E2) as (_ & _ & _ & _ & U1 & U2 & U3 & _).
  destruct (ut_cnstitsel _ _ _ _) as [s|]; [|reflexivity]. cbn [bind].
  rewrite fit_mvn. destruct (fit _ _ _ _ _ _ _ _ _) as [[[[B xraw] m] W]|]; [|reflexivity]. cbn [bind]. cbn zeta.
  change (diagn_of (with_mvn L f)) with (diagn_of L). change (reorder (with_mvn L f)) with (reorder L).
  destruct (o_conf_int o) eqn:Ec; [|reflexivity]. rewrite confidence_mvn; [reflexivity|].
  rewrite U3. subst x. symmetry in U2. apply Bool.negb_true_iff in U2. rewrite U2, Bool.orb_false_r, Bool.orb_true_iff, !eq_str_iff in U1. rewrite eq_str_iff. tauto.
Qed.

Lemma chance_options L f t u v lat opts opts' sm sm' c c' : analysis L t u v lat opts sm c -> analysis (with_mvn L f) t u v lat opts' sm' c' -> agree opts opts' fit_options ->
  same_but_intervals c c'.
Proof.
  intros AN AN' AG. assert (HU := an_keys _ _ _ _ _ _ _ _ AN). assert (HU' := an_keys _ _ _ _ _ _ _ _ AN').
  destruct (analysis_run _ _ _ _ _ _ _ _ AN) as (_ & si & la & s & B & xraw & m & W & BH & _).
  destruct (analysis_run _ _ _ _ _ _ _ _ AN') as (_ & si' & la' & s' & B' & xraw' & m' & W' & BH' & _).
  destruct (solve_opt _ _ _ _ _ _ _ (an_solve _ _ _ _ _ _ _ _ AN)) as (compat & sx & O1 & O2 & O3).
  destruct (solve_opt _ _ _ _ _ _ _ (an_solve _ _ _ _ _ _ _ _ AN')) as (compat' & sx' & O1' & O2' & O3').
  destruct (used_options opts (is2d v) (si_equi sx) HU compat _ O1 O3) as
      (_ & _ & Tw & _ & _ & _ & _ & _ & U1 & U2 & U3 & U4 & U5 & U6 & U7 & _ & U8 & U8b & U9 & _ & (i & V1 & V2) & _).
  destruct (used_options opts' (is2d v) (si_equi sx') HU' compat' _ O1' O3') as
      (_ & _ & Tw' & _ & _ & _ & _ & _ & U1' & U2' & U3' & U4' & U5' & U6' & U7' & _ & U8' & U8b' & U9' & _ & (i' & V1' & V2') & _).
  assert (VV : forall k, In k fit_options -> opt_value opts' k = opt_value opts k).
  { intros k Hk. eapply agree_val; eauto. clear - Hk. cbn in Hk |- *. intuition (subst; auto 20). }
  rewrite (VV "constit") in U1' by (cbn; auto 10). rewrite (VV "trend") in U2' by (cbn; auto 10). rewrite (VV "nodal") in U3', U4' by (cbn; auto 10).
  rewrite (VV "phase") in U5', U6' by (cbn; auto 10). rewrite (VV "Rayleigh_min") in U7' by (cbn; auto 10). rewrite (VV "method") in U8' by (cbn; auto 10).
  rewrite (VV "robust_kw") in U8b' by (cbn; auto 10). rewrite (VV "epoch") in U9' by (cbn; auto 10). rewrite (VV "infer") in V1' by (cbn; auto 10). clear VV.
  assert (EI : o_infer (c_opt c') = o_infer (c_opt c)).
  { rewrite V1 in V1'. apply Ok_inj in V1'. subst i'. rewrite V2 in V2'. apply Ok_inj in V2'. now symmetry. }
  assert (EF : flags_of (c_opt c') = flags_of (c_opt c)) by (unfold flags_of; congruence).
  assert (EN : o_notrend (c_opt c') = o_notrend (c_opt c)) by congruence.
  assert (ET : o_twodim (c_opt c') = o_twodim (c_opt c)) by congruence.
  assert (si' = si).
  { assert (Q := bh_slv _ _ _ _ _ _ _ _ _ _ _ _ _ _ BH). assert (Q' := bh_slv _ _ _ _ _ _ _ _ _ _ _ _ _ _ BH'). change (l_parse (with_mvn L f)) with (l_parse L) in Q'. rewrite U9', <- U9, Q in Q'. apply Ok_inj in Q'. congruence. }
  subst si'. assert (la' = la) by (assert (Q := bh_lat _ _ _ _ _ _ _ _ _ _ _ _ _ _ BH); assert (Q0 := bh_lat _ _ _ _ _ _ _ _ _ _ _ _ _ _ BH'); congruence). subst la'.
  assert (s' = s).
  { assert (X := bh_sel _ _ _ _ _ _ _ _ _ _ _ _ _ _ BH). assert (X' := bh_sel _ _ _ _ _ _ _ _ _ _ _ _ _ _ BH').
    assert (ER : o_rmin (c_opt c') = o_rmin (c_opt c)) by (rewrite U7 in U7'; apply Ok_inj in U7'; congruence).
    rewrite EI, ER, U1', <- U1, X in X'. apply Ok_inj in X'. congruence. }
  subst s'.
  assert (FE : m' = m /\ W' = W).
  { assert (X := bh_fit _ _ _ _ _ _ _ _ _ _ _ _ _ _ BH). assert (X' := bh_fit _ _ _ _ _ _ _ _ _ _ _ _ _ _ BH').
    rewrite fit_mvn in X'. rewrite (fit_opts _ _ _ _ _ _ _ (c_opt c) (c_opt c')) in X' by congruence. rewrite X in X'. apply Ok_inj in X'. split; congruence. }
  destruct FE as [-> ->].
  destruct (run_bare _ _ _ _ _ _ _ _ _ _ _ _ _ _ _ AN BH) as (R1 & SB). destruct (run_bare _ _ _ _ _ _ _ _ _ _ _ _ _ _ _ AN' BH') as (R1' & SB').
  rewrite (bare_core _ _ _ (c_opt c) (c_opt c') _ _ _ ET) in R1'.
  assert (RP : Permutation (map bare (rows c)) (map bare (rows c'))) by (rewrite R1; now apply Permutation_sym).
  assert (Wf := bh_wf _ _ _ _ _ _ _ _ _ _ _ _ _ _ BH). assert (Wf' := bh_wf _ _ _ _ _ _ _ _ _ _ _ _ _ _ BH').
  assert (C1 : c_mean c' = c_mean c) by (rewrite (sb_mean _ _ SB), (sb_mean _ _ SB'); cbn [coef_core c_mean]; now rewrite ET, EN).
  assert (C2 : c_slope c' = c_slope c) by (rewrite (sb_slope _ _ SB), (sb_slope _ _ SB'); cbn [coef_core c_slope]; now rewrite ET, EN).
  assert (C3 : c_umean c' = c_umean c) by (rewrite (sb_umean _ _ SB), (sb_umean _ _ SB'); cbn [coef_core c_umean]; now rewrite ET, EN).
  assert (C4 : c_vmean c' = c_vmean c) by (rewrite (sb_vmean _ _ SB), (sb_vmean _ _ SB'); cbn [coef_core c_vmean]; now rewrite ET, EN).
  assert (C5 : c_uslope c' = c_uslope c) by (rewrite (sb_uslope _ _ SB), (sb_uslope _ _ SB'); cbn [coef_core c_uslope]; now rewrite ET, EN).
  assert (C6 : c_vslope c' = c_vslope c) by (rewrite (sb_vslope _ _ SB), (sb_vslope _ _ SB'); cbn [coef_core c_vslope]; now rewrite ET, EN).
  assert (C7 : c_reftime c' = c_reftime c) by (now rewrite (sb_reftime _ _ SB), (sb_reftime _ _ SB')).
  assert (C8 : c_lat c' = c_lat c) by (now rewrite (sb_lat _ _ SB), (sb_lat _ _ SB')).
  constructor; auto.
  - now rewrite (sb_weights _ _ SB), (sb_weights _ _ SB').
  - rewrite (sb_nNR _ _ SB), (sb_nNR _ _ SB'), (sb_nR _ _ SB), (sb_nR _ _ SB'), (sb_nI _ _ SB), (sb_nI _ _ SB'). auto.
  - intros x. destruct (recon_valC c x Wf) as (A1 & A2 & _), (recon_valC c' x Wf') as (A3 & A4 & _).
    assert (V : valC c' x = valC c x).
    { apply val_same; auto; [apply Permutation_sym, triples_bare; auto|unfold mnC; now rewrite ET, C1, C3, C4|intros _; unfold slC; now rewrite ET, C2, C5, C6]. }
    split; [now rewrite A1, A3, V|]. intros T. rewrite A2, A4, V by congruence. reflexivity.
Qed.
Lemma chance_alike L f t u v lat opts opts' sm sm' c c' : analysis L t u v lat opts sm c -> analysis (with_mvn L f) t u v lat opts' sm' c' -> agree opts opts' fit_options ->
  predict_alike c c'.
Proof.
  intros AN AN' AG. assert (S := chance_options _ _ _ _ _ _ _ _ _ _ _ _ AN AN' AG).
  apply alike; eauto using analysis_wf.
  - destruct (analysis_run _ _ _ _ _ _ _ _ AN) as (_ & si & la & s & B & xraw & m & W & BH & _). destruct (analysis_run _ _ _ _ _ _ _ _ AN') as (_ & si' & la' & s' & B' & xraw' & m' & W' & BH' & _).
    now rewrite (bh_tw _ _ _ _ _ _ _ _ _ _ _ _ _ _ BH), (bh_tw _ _ _ _ _ _ _ _ _ _ _ _ _ _ BH').
  - intros x. destruct (sbi_recon _ _ S x) as [H1 H2]. split; [now symmetry|]. intros T. symmetry. auto.
Qed.
Lemma recon_lib L L' t nd c e k mS mP : l_parse L' = l_parse L -> reconstruct L' t nd c e k mS mP = reconstruct L t nd c e k mS mP.
Proof. intros H. unfold reconstruct. now rewrite H. Qed.
