(** Analyses that must agree although they were set up differently. *)
From Coq Require Import Lia Lra Permutation.
From Verif Require Import M_Base M_Bunch M_Lib M_Tables M_Const M_Options M_Time M_Slvinit M_Harmonics M_Select M_Ellipse
  M_Robust M_Period M_Conf M_Diag M_Solve M_Recon S_Dict S_Options S_Order S_Basis S_Select S_Fit S_Ellipse S_Slv S_Recon S_Model S_Perm S_Choice
  L_Base L_Tables L_Options L_SolveInv L_OptSolve L_Slv L_Slv2 L_Order L_Select L_Fit L_Align L_SelOrder L_Basis L_Angle L_Ellipse L_Recon L_Recon2 L_Recon3 L_Core
  L_Ellipse2 L_Model L_Lsq L_Model2 L_Model3 L_Model4 L_Model5 L_Model6 L_Model7 L_Model8 L_Model9 L_Model10 L_Model11 L_Model12 L_Model15
  L_Units2 L_Super L_Super2 L_Super3 L_Perm L_Carry.
Open Scope R_scope.
Open Scope string_scope.

(** ** the same coefficients *)
Lemma triple_of c r : well_formed c -> In r (rows c) -> exists n l p, In (n, l, p) (triples c) /\ w_name r = Some n /\ w_lind r = Some l /\ rotary r = Some p.
Proof.
  intros W H. apply (in_map triple) in H. rewrite triples_rows in H by assumption. apply in_map_iff in H.
  destruct H as ([[n l] p] & E & Ht). exists n, l, p. unfold triple in E. cbn [fst snd] in E. injection E as E1 E2 E3. auto.
Qed.
Lemma nodup_triple c a b : well_formed c -> NoDup (c_name c) -> In a (triples c) -> In b (triples c) -> fst (fst a) = fst (fst b) -> a = b.
Proof.
  intros W ND Ha Hb E. assert (N : NoDup (map (fun t => fst (fst t)) (triples c))) by now rewrite triples_names.
  revert N Ha Hb. generalize (triples c). clear - E. induction l as [|h l IH]; intros N Ha Hb; [destruct Ha|]. cbn [map] in N. apply NoDup_cons_iff in N. destruct N as [N1 N2].
  destruct Ha as [->|Ha], Hb as [->|Hb]; auto.
  - destruct N1. rewrite E. now apply (in_map (fun t => fst (fst t))).
  - destruct N1. rewrite <- E. now apply (in_map (fun t => fst (fst t))).
Qed.
Lemma same_fit_from c c' : well_formed c -> well_formed c' -> NoDup (c_name c) -> o_twodim (c_opt c') = o_twodim (c_opt c) -> o_notrend (c_opt c') = o_notrend (c_opt c) ->
  Permutation (triples c) (triples c') -> mnC c = mnC c' -> (o_notrend (c_opt c) = false -> slC c = slC c') -> (forall x, valC c x = valC c' x) -> same_fit c c'.
Proof.
  intros Wf Wf' ND ET EN P H2 H3 H4. split; [|split; [|split; [|split]]].
  - rewrite <- (triples_names c Wf), <- (triples_names c' Wf'). now apply Permutation_map.
  - intros r r' Hr Hr' E. destruct (triple_of c r Wf Hr) as (n & l & p & T1 & T2 & T3 & T4). destruct (triple_of c' r' Wf' Hr') as (n' & l' & p' & T1' & T2' & T3' & T4').
    rewrite T2, T2' in E. apply Some_eq2 in E. subst n'. apply (Permutation_in _ (Permutation_sym P)) in T1'.
    assert (X := nodup_triple c _ _ Wf ND T1 T1' eq_refl). injection X as _ ->. eauto.
  - intros z. split; intros H.
    + apply mnC_mean; auto. rewrite ET, <- H2. now apply (mean_mnC _ _ Wf) in H.
    + apply mnC_mean; auto. rewrite H2, <- ET. now apply (mean_mnC _ _ Wf') in H.
  - intros N z. split; intros H.
    + apply slC_slope; auto; [congruence|]. rewrite ET, <- (H3 N). now apply (slope_slC _ _ Wf) in H.
    + apply slC_slope; auto. rewrite (H3 N), <- ET. now apply (slope_slC _ _ Wf') in H.
  - intros x. destruct (recon_valC c x Wf) as (U1 & U2 & _), (recon_valC c' x Wf') as (U3 & U4 & _).
    split; [now rewrite U1, U3, H4|]. intros T. rewrite (U2 T), U4, H4 by congruence. reflexivity.
Qed.

(** ** the minimum is reached once only *)
Lemma top_unique L t u v lat opts sm c c0 d d0 : analysis L t u v lat opts sm c -> approximate (c_opt c) = false -> lstsq_minimises L -> o_method (c_opt c) = PStr "ols" ->
  identifiable c (map fst sm) -> NoDup (c_name c) -> rival c c0 -> misfit c sm d -> misfit c0 sm d0 -> d0 <= d -> same_fit c c0.
Proof.
  intros AN NA LM OLS ID ND RV Md Md0 LE. destruct (rival_same _ _ _ _ _ _ _ _ _ _ _ AN NA LM OLS ID ND RV Md Md0 LE) as (H1 & H2 & H3 & H4).
  apply same_fit_from; auto; [eapply analysis_wf; eauto|apply RV|now rewrite (rv_opt _ _ RV)|now rewrite (rv_opt _ _ RV)].
Qed.

(** ** how the constituents were chosen *)
Lemma id_motion : motion (fun z => z) (fun p => p).
Proof. constructor; auto. Qed.
Lemma id_keeps c : keeps (fun z => z) (fun p => p) c.
Proof. split; [intros _; split; auto|]. right. intros. reflexivity. Qed.
Lemma upon_id l : map (upon (fun p => p)) l = l.
Proof. rewrite <- (map_id l) at 2. apply map_ext. intros [a b]. reflexivity. Qed.
Lemma moved_id sm : moved (fun z => z) sm = sm.
Proof. unfold moved. rewrite <- (map_id sm) at 2. apply map_ext. intros [a b]. reflexivity. Qed.

Lemma top_choice L t u v lat opts sm c L' t' u' v' lat' opts' sm' c' :
  analysis L t u v lat opts sm c -> analysis L' t' u' v' lat' opts' sm' c' -> same_model c c' -> Permutation sm sm' ->
  approximate (c_opt c) = false -> lstsq_minimises L -> lstsq_minimises L' -> o_method (c_opt c) = PStr "ols" -> o_method (c_opt c') = PStr "ols" ->
  identifiable c (map fst sm) -> NoDup (c_name c) -> same_fit c c'.
Proof.
  intros AN AN' SM PS NA LM LM' OLS OLS' ID ND.
  destruct (carry _ _ _ _ _ _ _ _ _ _ _ _ _ _ _ _ _ _ _ _ AN' AN (same_model_sym _ _ SM) id_motion id_motion (id_keeps c') (id_keeps c) (fun z => eq_refl)
      ltac:(rewrite moved_id; now apply Permutation_sym) NA LM' LM OLS' OLS ID ND) as (H1 & H2 & H3 & H4).
  rewrite upon_id in H1. apply same_fit_from; auto; try (eapply analysis_wf; eauto); [apply SM|apply SM|]. intros x. rewrite H4. destruct (valC c' x); reflexivity.
Qed.

(** ** options that do not enter the fit *)
Lemma fit_opts L t u v tref lor la o o' s : flags_of o' = flags_of o -> o_infer o' = o_infer o -> o_notrend o' = o_notrend o -> o_method o' = o_method o -> o_robust_kw o' = o_robust_kw o ->
  fit L t u v tref lor la o' s = fit L t u v tref lor la o s.
Proof. intros E1 E2 E3 E4 E5. unfold fit, basis. now rewrite E1, E2, E3, E4, E5. Qed.

Lemma bare_from k c : from_core k c -> map bare (rows c) = map bare (rows k).
Proof.
  intros [F1 F2 F3 F4 F5 F6 F7 F8 _]. unfold rows. rewrite !map_map, F1. apply map_ext. intros i. unfold bare, crow_of. cbn [w_name w_frq w_lind w_g w_A w_Lsmaj w_Lsmin w_theta].
  now rewrite F1, F2, F3, F4, F5, F6, F7, F8.
Qed.
Lemma bare_core tref lor la o o' s m W : o_twodim o' = o_twodim o ->
  map bare (rows (coef_core tref lor la o' s m W)) = map bare (rows (coef_core tref lor la o s m W)).
Proof.
  intros E. unfold rows. rewrite !map_map. apply map_ext. intros i. unfold bare, crow_of, coef_core. rewrite E. reflexivity.
Qed.

Lemma run_bare L t u v lat opts sm c si la s B xraw m W : analysis L t u v lat opts sm c -> behind L t u v lat opts c si la s B xraw m W ->
  let k := coef_core (si_tref si) (si_lor si) la (c_opt c) s m W in
  Permutation (map bare (rows c)) (map bare (rows k)) /\ same_base k c.
Proof.
  intros AN BH k. subst k. destruct (run_stages _ _ _ _ _ _ _ _ _ _ _ _ _ _ _ AN BH) as (c1 & c2 & P1 & P2 & P3).
  assert (F := diag_stage_core _ _ _ _ _ (ci_stage_core _ _ _ _ _ _ _ _ _ _ P1) P2).
  split; [|eapply solve_base; eauto]. rewrite <- (bare_from _ _ F). apply Permutation_map.
  assert (Hx := validate_sorting _ _ _ (an_sorted _ _ _ _ _ _ _ _ AN) (bh_order _ _ _ _ _ _ _ _ _ _ _ _ _ _ BH)).
  assert (A : aligned c2).
  { assert (HU := an_keys _ _ _ _ _ _ _ _ AN). destruct (an_samples _ _ _ _ _ _ _ _ AN) as (e & _ & SM). assert (AO := samples_arrays _ _ _ _ _ _ SM).
    destruct (analysis_run _ _ _ _ _ _ _ _ AN) as (HW & _).
    destruct (solve_natural _ _ _ _ _ _ _ (an_solve _ _ _ _ _ _ _ _ AN)) as (cN & N & Eo & Er).
    assert (SB := reorder_base _ _ _ _ P3). assert (SBN := reorder_base _ _ _ _ Er).
    destruct (solve_inv _ _ _ _ _ _ _ (an_solve _ _ _ _ _ _ _ _ AN)) as
      [(compat & si' & la' & o & s' & B' & xraw' & m' & W' & c1' & c2' & Q1 & Q2 & Q3 & Q4 & Q5 & Q6 & Q7 & Q8 & Q9)].
    assert (Ho : c_opt c = o) by (rewrite (sb_opt _ _ (solve_base _ _ _ _ _ _ _ _ _ _ _ _ Q7 Q8 Q9)); reflexivity). subst o.
    destruct (used_options opts (is2d v) (si_equi si') HU compat _ Q1 Q4) as
      (_ & _ & _ & _ & _ & _ & _ & _ & _ & _ & _ & _ & _ & _ & _ & _ & _ & _ & Ep1 & Ep2 & _).
    assert (Q2' := Q2). rewrite Ep2, <- Ep1, (bh_slv _ _ _ _ _ _ _ _ _ _ _ _ _ _ BH) in Q2'. apply Ok_inj in Q2'. subst si'.
    assert (NT : natural L t u v lat opts c2).
    { assert (Ho2 : c_opt c2 = c_opt c) by (now rewrite (sb_opt _ _ SB)).
      constructor. rewrite Ho2. exists compat, si, la, s, B, xraw, m, W, c1. repeat (split; [first [eassumption|apply BH]|]). exact P2. }
    assert (HW2 : c_weights c2 <> []) by (rewrite <- (sb_weights _ _ SB); exact HW).
    destruct (natural_aligned _ _ _ _ _ _ _ (an_shape _ _ _ _ _ _ _ _ AN) AO NT HW2) as (A & _). exact A. }
  exact (proj1 (reorder_rows _ _ _ _ (an_perm _ _ _ _ _ _ _ _ AN) A Hx P3)).
Qed.

Lemma triples_bare c c' : well_formed c -> well_formed c' -> Permutation (map bare (rows c)) (map bare (rows c')) -> Permutation (triples c) (triples c').
Proof.
  intros W W' P. apply (Permutation_map triple) in P. rewrite !map_map in P.
  assert (E : forall r, triple (bare r) = triple r) by reflexivity.
  rewrite !(map_ext (fun x => triple (bare x)) triple E), !triples_rows in P by assumption.
  apply (Permutation_map (fun t : option string * option nat * option (C * C) =>
    (match fst (fst t) with Some x => x | None => EmptyString end, match snd (fst t) with Some x => x | None => 0%nat end,
     match snd t with Some x => x | None => (RtoC 0, RtoC 0) end))) in P.
  rewrite !map_map in P. cbn [fst snd] in P.
  rewrite !(map_ext (fun x : string * nat * (C * C) => (fst (fst x), snd (fst x), snd x)) (fun x => x)) in P by (intros [[? ?] ?]; reflexivity).
  now rewrite !map_id in P.
Qed.

Lemma agree_val opts opts' ks k : unique_keys opts -> unique_keys opts' -> In k (keys documented) -> In k ks -> agree opts opts' ks -> opt_value opts' k = opt_value opts k.
Proof. intros U U' D I A. destruct (A k I) as (x & S & S'). now rewrite (setting_val _ _ _ U D S), (setting_val _ _ _ U' D S'). Qed.

Lemma agree_model L t u v lat opts sm c L' t' u' v' opts' sm' c' : analysis L t u v lat opts sm c -> analysis L' t' u' v' lat opts' sm' c' ->
  agree opts opts' ["nodal"; "phase"; "trend"; "infer"] -> is2d v' = is2d v -> c_reftime c' = c_reftime c -> Permutation (c_name c) (c_name c') -> same_model c c'.
Proof.
  intros AN AN' AG ED ER EP. assert (HU := an_keys _ _ _ _ _ _ _ _ AN). assert (HU' := an_keys _ _ _ _ _ _ _ _ AN').
  destruct (analysis_run _ _ _ _ _ _ _ _ AN) as (_ & si & la & s & B & xraw & m & W & BH & _).
  destruct (analysis_run _ _ _ _ _ _ _ _ AN') as (_ & si' & la' & s' & B' & xraw' & m' & W' & BH' & _).
  destruct (solve_opt _ _ _ _ _ _ _ (an_solve _ _ _ _ _ _ _ _ AN)) as (compat & sx & O1 & O2 & O3).
  destruct (solve_opt _ _ _ _ _ _ _ (an_solve _ _ _ _ _ _ _ _ AN')) as (compat' & sx' & O1' & O2' & O3').
  destruct (used_options opts (is2d v) (si_equi sx) HU compat _ O1 O3) as
      (_ & _ & Tw & _ & _ & _ & _ & _ & U1 & U2 & U3 & U4 & U5 & U6 & U7 & _ & U8 & U8b & U9 & _ & (i & V1 & V2) & _).
  destruct (used_options opts' (is2d v') (si_equi sx') HU' compat' _ O1' O3') as
      (_ & _ & Tw' & _ & _ & _ & _ & _ & U1' & U2' & U3' & U4' & U5' & U6' & U7' & _ & U8' & U8b' & U9' & _ & (i' & V1' & V2') & _).
  assert (VV : forall k, In k ["nodal"; "phase"; "trend"; "infer"] -> opt_value opts' k = opt_value opts k).
  { intros k Hk. eapply agree_val; eauto. clear - Hk. cbn in Hk |- *. intuition (subst; auto 20). }
  rewrite (VV "trend") in U2' by (cbn; auto 10). rewrite (VV "nodal") in U3', U4' by (cbn; auto 10).
  rewrite (VV "phase") in U5', U6' by (cbn; auto 10). rewrite (VV "infer") in V1' by (cbn; auto 10). clear VV.
  constructor; auto; try congruence.
  - unfold flags_of. congruence.
  - rewrite (bh_la _ _ _ _ _ _ _ _ _ _ _ _ _ _ BH), (bh_la _ _ _ _ _ _ _ _ _ _ _ _ _ _ BH').
    assert (Q := bh_lat _ _ _ _ _ _ _ _ _ _ _ _ _ _ BH). assert (Q' := bh_lat _ _ _ _ _ _ _ _ _ _ _ _ _ _ BH'). congruence.
Qed.
Lemma top_options L t u v lat opts opts' sm sm' c c' : analysis L t u v lat opts sm c -> analysis L t u v lat opts' sm' c' -> agree opts opts' fit_options ->
  same_but_intervals c c'.
Proof.
  intros AN AN' AG. assert (HU := an_keys _ _ _ _ _ _ _ _ AN). assert (HU' := an_keys _ _ _ _ _ _ _ _ AN').
  destruct (analysis_run _ _ _ _ _ _ _ _ AN) as (_ & si & la & s & B & xraw & m & W & BH & _).
  destruct (analysis_run _ _ _ _ _ _ _ _ AN') as (_ & si' & la' & s' & B' & xraw' & m' & W' & BH' & _).
  destruct (solve_opt _ _ _ _ _ _ _ (an_solve _ _ _ _ _ _ _ _ AN)) as (compat & sx & O1 & O2 & O3).
  destruct (solve_opt _ _ _ _ _ _ _ (an_solve _ _ _ _ _ _ _ _ AN')) as (compat' & sx' & O1' & O2' & O3').
  destruct (used_options opts (is2d v) (si_equi sx) HU compat _ O1 O3) as
      (_ & _ & Tw & _ & _ & _ & _ & _ & U1 & U2 & U3 & U4 & U5 & U6 & U7 & _ & U8 & U8b & U9 & _ & (i & V1 & V2) & _).
  destruct (used_options opts' (is2d v) (si_equi sx') HU' compat' _ O1' O3') as
      (_ & _ & Tw' & _ & _ & _ & _ & _ & U1' & U2' & U3' & U4' & U5' & U6' & U7' & _ & U8' & U8b' & U9' & _ & (i' & V1' & V2') & _).
  assert (VV : forall k, In k fit_options -> opt_value opts' k = opt_value opts k).
  { intros k Hk. eapply agree_val; eauto. clear - Hk. cbn in Hk |- *. intuition (subst; auto 20). }
  rewrite (VV "constit") in U1' by (cbn; auto 10). rewrite (VV "trend") in U2' by (cbn; auto 10). rewrite (VV "nodal") in U3', U4' by (cbn; auto 10).
  rewrite (VV "phase") in U5', U6' by (cbn; auto 10). rewrite (VV "Rayleigh_min") in U7' by (cbn; auto 10). rewrite (VV "method") in U8' by (cbn; auto 10).
  rewrite (VV "robust_kw") in U8b' by (cbn; auto 10). rewrite (VV "epoch") in U9' by (cbn; auto 10). rewrite (VV "infer") in V1' by (cbn; auto 10). clear VV.
  assert (EI : o_infer (c_opt c') = o_infer (c_opt c)).
  { rewrite V1 in V1'. apply Ok_inj in V1'. subst i'. rewrite V2 in V2'. apply Ok_inj in V2'. now symmetry. }
  assert (EF : flags_of (c_opt c') = flags_of (c_opt c)) by (unfold flags_of; congruence).
  assert (EN : o_notrend (c_opt c') = o_notrend (c_opt c)) by congruence.
  assert (ET : o_twodim (c_opt c') = o_twodim (c_opt c)) by congruence.
  assert (si' = si).
  { assert (Q := bh_slv _ _ _ _ _ _ _ _ _ _ _ _ _ _ BH). assert (Q' := bh_slv _ _ _ _ _ _ _ _ _ _ _ _ _ _ BH'). rewrite U9', <- U9, Q in Q'. apply Ok_inj in Q'. congruence. }
  subst si'. assert (la' = la) by (assert (Q := bh_lat _ _ _ _ _ _ _ _ _ _ _ _ _ _ BH); assert (Q0 := bh_lat _ _ _ _ _ _ _ _ _ _ _ _ _ _ BH'); congruence). subst la'.
  assert (s' = s).
  { assert (X := bh_sel _ _ _ _ _ _ _ _ _ _ _ _ _ _ BH). assert (X' := bh_sel _ _ _ _ _ _ _ _ _ _ _ _ _ _ BH').
    assert (ER : o_rmin (c_opt c') = o_rmin (c_opt c)) by (rewrite U7 in U7'; apply Ok_inj in U7'; congruence).
    rewrite EI, ER, U1', <- U1, X in X'. apply Ok_inj in X'. congruence. }
  subst s'.
  assert (FE : m' = m /\ W' = W).
  { assert (X := bh_fit _ _ _ _ _ _ _ _ _ _ _ _ _ _ BH). assert (X' := bh_fit _ _ _ _ _ _ _ _ _ _ _ _ _ _ BH').
    rewrite (fit_opts _ _ _ _ _ _ _ (c_opt c) (c_opt c')) in X' by congruence. rewrite X in X'. apply Ok_inj in X'. split; congruence. }
  destruct FE as [-> ->].
  destruct (run_bare _ _ _ _ _ _ _ _ _ _ _ _ _ _ _ AN BH) as (R1 & SB). destruct (run_bare _ _ _ _ _ _ _ _ _ _ _ _ _ _ _ AN' BH') as (R1' & SB').
  rewrite (bare_core _ _ _ (c_opt c) (c_opt c') _ _ _ ET) in R1'.
  assert (RP : Permutation (map bare (rows c)) (map bare (rows c'))) by (rewrite R1; now apply Permutation_sym).
  assert (Wf := bh_wf _ _ _ _ _ _ _ _ _ _ _ _ _ _ BH). assert (Wf' := bh_wf _ _ _ _ _ _ _ _ _ _ _ _ _ _ BH').
  assert (C1 : c_mean c' = c_mean c) by (rewrite (sb_mean _ _ SB), (sb_mean _ _ SB'); cbn [coef_core c_mean]; now rewrite ET, EN).
  assert (C2 : c_slope c' = c_slope c) by (rewrite (sb_slope _ _ SB), (sb_slope _ _ SB'); cbn [coef_core c_slope]; now rewrite ET, EN).
  assert (C3 : c_umean c' = c_umean c) by (rewrite (sb_umean _ _ SB), (sb_umean _ _ SB'); cbn [coef_core c_umean]; now rewrite ET, EN).
  assert (C4 : c_vmean c' = c_vmean c) by (rewrite (sb_vmean _ _ SB), (sb_vmean _ _ SB'); cbn [coef_core c_vmean]; now rewrite ET, EN).
  assert (C5 : c_uslope c' = c_uslope c) by (rewrite (sb_uslope _ _ SB), (sb_uslope _ _ SB'); cbn [coef_core c_uslope]; now rewrite ET, EN).
  assert (C6 : c_vslope c' = c_vslope c) by (rewrite (sb_vslope _ _ SB), (sb_vslope _ _ SB'); cbn [coef_core c_vslope]; now rewrite ET, EN).
  assert (C7 : c_reftime c' = c_reftime c) by (now rewrite (sb_reftime _ _ SB), (sb_reftime _ _ SB')).
  assert (C8 : c_lat c' = c_lat c) by (now rewrite (sb_lat _ _ SB), (sb_lat _ _ SB')).
  constructor; auto.
  - now rewrite (sb_weights _ _ SB), (sb_weights _ _ SB').
  - rewrite (sb_nNR _ _ SB), (sb_nNR _ _ SB'), (sb_nR _ _ SB), (sb_nR _ _ SB'), (sb_nI _ _ SB), (sb_nI _ _ SB'). auto.
  - intros x. destruct (recon_valC c x Wf) as (A1 & A2 & _), (recon_valC c' x Wf') as (A3 & A4 & _).
    assert (V : valC c' x = valC c x).
    { apply val_same; auto; [apply Permutation_sym, triples_bare; auto|unfold mnC; now rewrite ET, C1, C3, C4|intros _; unfold slC; now rewrite ET, C2, C5, C6]. }
    split; [now rewrite A1, A3, V|]. intros T. rewrite A2, A4, V by congruence. reflexivity.
Qed.

(** ** the latitude *)
Lemma F_lat x la la' : slat la = slat la' -> F_col x la = F_col x la' /\ U_col x la = U_col x la'.
Proof.
  intros E. assert (E1 : sat_rr la = sat_rr la') by (unfold sat_rr, latfac; rewrite E; reflexivity).
  assert (E2 : sat_F x la = sat_F x la') by (unfold sat_F, sat_mat; rewrite E1; reflexivity).
  unfold F_col, U_col. rewrite E2. split; reflexivity.
Qed.
Lemma FUV_lat t tref lind la la' g : NodsatNone g = true \/ slat la = slat la' -> FUV t tref lind la g = FUV t tref lind la' g.
Proof.
  intros H. unfold FUV. cbv zeta.
  match goal with |- (let '(F, U) := _ in (F, U, ?w)) = _ => generalize w end. intros w.
  destruct H as [H|H]; [rewrite H; reflexivity|].
  assert (E3 : forall l, map (fun x => pick lind (F_col x la)) l = map (fun x => pick lind (F_col x la')) l) by (intros l; apply map_ext; intros x; now rewrite (proj1 (F_lat x _ _ H))).
  assert (E4 : forall l, map (fun x => pick lind (U_col x la)) l = map (fun x => pick lind (U_col x la')) l) by (intros l; apply map_ext; intros x; now rewrite (proj2 (F_lat x _ _ H))).
  rewrite E3, E4. generalize (map (fun x => pick lind (F_col x la')) (if NodsatLint g then [tref] else t)), (map (fun x => pick lind (U_col x la')) (if NodsatLint g then [tref] else t)).
  intros. destruct (NodsatNone g); reflexivity.
Qed.
Lemma ut_E_lat t tref frq lind la la' g : NodsatNone g = true \/ slat la = slat la' -> ut_E t tref frq lind la g = ut_E t tref frq lind la' g.
Proof. intros H. unfold ut_E. now rewrite (FUV_lat t tref lind la la' g H). Qed.
Opaque ut_E.
Lemma fit_lat L t u v tref lor la la' o s : o_nodsatnone o = true \/ slat la = slat la' -> fit L t u v tref lor la o s = fit L t u v tref lor la' o s.
Proof.
  intros H. assert (E := fun t tref frq lind => ut_E_lat t tref frq lind la la' (flags_of o) H).
  assert (EB : basis t tref lor la o s = basis t tref lor la' o s).
  { unfold basis. rewrite E. destruct (bad_empty_index (flags_of o) s); [reflexivity|].
    destruct (o_infer o) as [inf|]; [|reflexivity].
    assert (ER : forall r, ref_columns t tref la (flags_of o) (inf_approx inf) r = ref_columns t tref la' (flags_of o) (inf_approx inf) r).
    { intros r. unfold ref_columns. cbv zeta. rewrite (E t tref [r_frq r] [r_lind r]), (E t tref (r_Ifrq r) (r_Ilind r)). reflexivity. }
    assert (EM : mapM (ref_columns t tref la (flags_of o) (inf_approx inf)) (s_R s) = mapM (ref_columns t tref la' (flags_of o) (inf_approx inf)) (s_R s)).
    { clear - ER. induction (s_R s) as [|r l IH]; cbn [mapM]; [reflexivity|]. rewrite ER, IH. reflexivity. }
    now rewrite EM. }
  unfold fit. now rewrite EB.
Qed.
Lemma order_lat la L c ord : reorder L (with_lat la c) ord = with_lat_in la (reorder L c ord).
Proof.
  assert (A : forall c ind, apply_order (with_lat la c) ind = with_lat_in la (apply_order c ind)).
  { intros q ind. unfold apply_order. cbn [with_lat c_name c_frq c_lind c_reftime c_lat c_opt c_nNR c_nR c_nI c_weights c_g c_A c_Lsmaj c_Lsmin c_theta c_mean c_slope c_umean c_vmean c_uslope c_vslope c_g_ci c_A_ci c_Lsmaj_ci c_Lsmin_ci c_theta_ci c_PE c_SNR c_diagn].
    repeat match goal with |- bind ?x _ = _ => destruct x; cbn [bind with_lat_in]; [|reflexivity] end. reflexivity. }
  unfold reorder. cbn [with_lat c_PE c_SNR c_frq c_name c_diagn].
  destruct (eq_str ord "PE").
  - destruct (c_PE c) as [pe|] eqn:EP; cbn [bind with_lat c_PE].
    + rewrite EP. cbn [key bind fst snd]. apply A.
    + change (PE_of (with_lat la c)) with (PE_of c). destruct (PE_of c) as [pe|]; cbn [bind with_lat_in]; [|reflexivity]. cbn [set_diag c_PE key bind fst snd].
      exact (A (set_diag c (Some pe) (c_SNR c) (c_diagn c)) (rev (l_argsort L pe))).
  - destruct (eq_str ord "frequency"); [cbn [bind fst snd]; apply A|]. destruct (eq_str ord "SNR").
    + destruct (key (c_SNR c)); cbn [bind with_lat_in fst snd]; [apply A|reflexivity].
    + destruct (order_names ord); cbn [bind with_lat_in]; [|reflexivity]. destruct (mapM (name_index (c_name c)) a); cbn [bind with_lat_in fst snd]; [apply A|reflexivity].
Qed.
Lemma solve_lat L t u v la la' opts : unique_keys opts -> opt_value opts "nodal" = PBool false \/ slat la = slat la' ->
  solve L t u v (Some la') opts = with_lat_in la' (solve L t u v (Some la) opts).
Proof.
  intros HU H. unfold solve. fold (is2d v). destruct (process_opts opts (is2d v)) as [compat|] eqn:P1; cbn [bind with_lat_in]; [|reflexivity].
  unfold solv1. fold (is2d v). change (slvinit (l_parse L) t u v (Some la') (oget compat "epoch")) with (slvinit (l_parse L) t u v (Some la) (oget compat "epoch")).
  destruct (slvinit (l_parse L) t u v (Some la) (oget compat "epoch")) as [si|]; cbn [bind with_lat_in]; [|reflexivity].
  destruct (read_opt (slv_opts (is2d v) (si_equi si) compat)) as [o|] eqn:P4; cbn [bind with_lat_in]; [|reflexivity].
  destruct (ut_cnstitsel (si_tref si) (xdiv (Fin (o_rmin o)) (Fin (24 * si_lor si))) (o_cnstit o) (o_infer o)) as [s|]; cbn [bind with_lat_in]; [|reflexivity].
  assert (HL : o_nodsatnone o = true \/ slat la = slat la').
  { destruct H as [H|H]; [left|now right]. destruct (used_options opts (is2d v) (si_equi si) HU compat o P1 P4) as (_ & _ & _ & _ & _ & _ & _ & _ & _ & _ & _ & U4 & _).
    rewrite U4, H. reflexivity. }
  rewrite (fit_lat _ _ _ _ _ _ la la' _ _ HL).
  destruct (fit L (si_t si) (si_u si) (si_v si) (si_tref si) (si_lor si) la' o s) as [[[[B xraw] m] W]|]; cbn [bind with_lat_in]; [|reflexivity].
  change (coef_core (si_tref si) (si_lor si) la' o s m W) with (with_lat la' (coef_core (si_tref si) (si_lor si) la o s m W)).
  generalize (coef_core (si_tref si) (si_lor si) la o s m W). intros k.
  assert (G : forall c1, (do c <- (if o_nodiagn o then Ok (with_lat la' c1) else do d <- diagn_of L (with_lat la' c1); do pe <- PE_of (with_lat la' c1); do snr <- SNR_of (with_lat la' c1); Ok (set_diag (with_lat la' c1) (Some pe) (Some snr) (Some d)));
     reorder L c (o_ordercnstit o)) = with_lat_in la' (do c <- (if o_nodiagn o then Ok c1 else do d <- diagn_of L c1; do pe <- PE_of c1; do snr <- SNR_of c1; Ok (set_diag c1 (Some pe) (Some snr) (Some d)));
     reorder L c (o_ordercnstit o))).
  { intros c1. change (diagn_of L (with_lat la' c1)) with (diagn_of L c1). change (PE_of (with_lat la' c1)) with (PE_of c1). change (SNR_of (with_lat la' c1)) with (SNR_of c1).
    destruct (o_nodiagn o); cbn [bind]; [apply order_lat|].
    destruct (diagn_of L c1) as [d|]; cbn [bind with_lat_in]; [|reflexivity]. destruct (PE_of c1) as [pe|]; cbn [bind with_lat_in]; [|reflexivity].
    destruct (SNR_of c1) as [snr|]; cbn [bind with_lat_in]; [|reflexivity]. exact (order_lat la' L (set_diag c1 (Some pe) (Some snr) (Some d)) (o_ordercnstit o)). }
  destruct (o_conf_int o); [|cbn [bind]; apply G].
  match goal with |- context [confidence ?a1 ?a2 ?a3 ?a4 ?a5 ?a6 ?a7 ?a8 ?a9 ?b1 ?b2 ?b3 ?b4] => destruct (confidence a1 a2 a3 a4 a5 a6 a7 a8 a9 b1 b2 b3 b4) as [cis|]; cbn [bind with_lat_in]; [|reflexivity] end.
  exact (G (set_ci k (o_twodim o) cis)).
Qed.
Lemma recon_lat L t n c la e ct snr pe : o_nodsatnone (c_opt c) = true \/ slat (c_lat c) = slat la ->
  reconstruct L t n (with_lat la c) e ct snr pe = reconstruct L t n c e ct snr pe.
Proof.
  intros H. unfold reconstruct. destruct (Nat.ltb 1 n); [reflexivity|]. destruct (normalize_time (l_parse L) t e) as [tn|]; cbn [bind]; [|reflexivity].
  assert (E : forall good tt, reconstruct_core tt good (with_lat la c) ct snr pe = reconstruct_core tt good c ct snr pe).
  { intros good tt. unfold reconstruct_core. change (rec_select (with_lat la c) ct snr pe) with (rec_select c ct snr pe).
    destruct (rec_select c ct snr pe) as [mask|]; cbn [bind]; [|reflexivity]. change (rec_pm (with_lat la c) mask) with (rec_pm c mask).
    destruct (rec_pm c mask) as [pm|]; cbn [bind]; [|reflexivity].
    cbn [with_lat c_name c_frq c_lind c_reftime c_lat c_opt c_mean c_slope c_umean c_vmean c_uslope c_vslope].
    rewrite (ut_E_lat tt (c_reftime c) (compress mask (c_frq c)) (compress mask (c_lind c)) la (c_lat c) (flags_of (c_opt c))); [reflexivity|].
    destruct H as [H|H]; [left; exact H|right; now symmetry]. }
  now rewrite E.
Qed.
Lemma eff_north la : 0 < la <= 5 -> eff_lat la = 5.
Proof. intros H. unfold eff_lat, rsign. rewrite Rabs_right by lra. repeat (destruct Rlt_dec; try lra). Qed.
Lemma eff_south la : -5 <= la < 0 -> eff_lat la = -5.
Proof. intros H. unfold eff_lat, rsign. rewrite Rabs_left by lra. repeat (destruct Rlt_dec; try lra). Qed.
Lemma slat_near la la' : near_equator la la' -> slat la = slat la'.
Proof. intros [[H H']|[H H']]; unfold slat; [rewrite !eff_north by assumption|rewrite !eff_south by assumption]; reflexivity. Qed.
Lemma solve_lat_opt L t u v la opts c : unique_keys opts -> solve L t u v (Some la) opts = Ok c ->
  c_lat c = la /\ (opt_value opts "nodal" = PBool false -> o_nodsatnone (c_opt c) = true).
Proof.
  intros HU H. destruct (solve_inv _ _ _ _ _ _ _ H) as [(compat & si & la0 & o & s & B & xraw & m & W & c1 & c2 & Q1 & Q2 & Q3 & Q4 & Q5 & Q6 & Q7 & Q8 & Q9)].
  assert (SB := solve_base _ _ _ _ _ _ _ _ _ _ _ _ Q7 Q8 Q9). split.
  - rewrite (sb_lat _ _ SB). cbn [coef_core c_lat]. now apply Some_eq2 in Q3.
  - intros N. rewrite (sb_opt _ _ SB). cbn [coef_core c_opt].
    destruct (used_options opts (is2d v) (si_equi si) HU compat o Q1 Q4) as (_ & _ & _ & _ & _ & _ & _ & _ & _ & _ & _ & U4 & _).
    rewrite U4, N. reflexivity.
Qed.
Lemma top_latitude L t u v la la' opts : unique_keys opts -> setting opts "nodal" (PBool false) \/ near_equator la la' ->
  solve L t u v (Some la') opts = with_lat_in la' (solve L t u v (Some la) opts) /\
  forall c, solve L t u v (Some la) opts = Ok c -> forall L' t' n e ct snr pe,
    reconstruct L' t' n (with_lat la' c) e ct snr pe = reconstruct L' t' n c e ct snr pe.
Proof.
  intros HU H.
  assert (H' : opt_value opts "nodal" = PBool false \/ slat la = slat la').
  { destruct H as [H|H]; [left|right; now apply slat_near]. eapply setting_val; eauto. cbn. auto 20. }
  split; [now apply solve_lat|]. intros c Hc. destruct (solve_lat_opt _ _ _ _ _ _ _ HU Hc) as [E N]. intros. apply recon_lat.
  destruct H' as [H'|H']; [left; auto|right; now rewrite E].
Qed.
