(** The fitted model, least squares and inference, for complete calls of solve. *)
From Coq Require Import Lia Lra Permutation.
From Verif Require Import M_Base M_Bunch M_Lib M_Tables M_Const M_Options M_Time M_Slvinit M_Harmonics M_Select M_Ellipse
  M_Robust M_Period M_Conf M_Diag M_Solve M_Recon S_Dict S_Options S_Order S_Basis S_Select S_Fit S_Ellipse S_Slv S_Recon S_Model
  L_Base L_Options L_SolveInv L_OptSolve L_Slv L_Slv2 L_Order L_Select L_Fit L_Align L_SelOrder L_Basis L_Angle L_Ellipse L_Recon L_Recon2 L_Recon3 L_Core
  L_Ellipse2 L_Model L_Lsq L_Model2 L_Model3 L_Model4 L_Model5 L_Model6 L_Model7 L_Model8 L_Model9 L_Model10.
Open Scope R_scope.
Open Scope string_scope.

Lemma an_sorted L t u v lat opts sm c : analysis L t u v lat opts sm c -> sorted_order (opt_value opts "order_constit").
Proof. intros [HL HP HU HS SM NE HC]. apply HS. apply setting_value; [assumption|cbn; tauto]. Qed.

Lemma analysis_run L t u v lat opts sm c : analysis L t u v lat opts sm c ->
  c_weights c <> [] /\ exists si la s B xraw m W, behind L t u v lat opts c si la s B xraw m W /\
    si_t si = map fst sm /\ xraw = map snd sm /\ (o_twodim (c_opt c) = false -> forall x, In x sm -> snd (snd x) = 0).
Proof.
  intros [HL HP HU HS (e & Ee & SM) NE HC]. apply setting_val in Ee; [|assumption|cbn; tauto]. subst e. assert (AO := samples_arrays _ _ _ _ _ _ SM).
  assert (HW : c_weights c <> []).
  { destruct (solve_inv _ _ _ _ _ _ _ HC) as [(compat & si & la & o & s & B & xraw & m & W & c1 & c2 & P1 & P2 & -> & P4 & P5 & P6 & P7 & P8 & P9)].
    assert (SB := solve_base _ _ _ _ _ _ _ _ _ _ _ _ P7 P8 P9).
    rewrite (sb_weights _ _ SB). cbn [coef_core c_weights].
    destruct (used_options opts (is2d v) (si_equi si) HU compat o P1 P4) as
      (_ & _ & _ & Eq & _ & _ & _ & _ & _ & _ & _ & _ & _ & _ & _ & _ & _ & _ & Ep1 & Ep2 & _).
    rewrite Ep2 in P2. destruct (samples_slv _ _ _ _ _ _ _ _ SM P2) as (E1 & _).
    destruct (fit_len _ _ _ _ _ _ _ _ _ _ _ _ _ HL (sel_lens_ok _ _ _ _ _ P5) (infer_none_R _ _ _ _ _ P5) (slv_data _ _ _ _ _ _ _ AO P2) P6) as (_ & F1 & _).
    rewrite E1, map_length in F1. intros ->. destruct sm; [congruence|discriminate]. }
  split; auto. destruct (solve_behind _ _ _ _ _ _ _ HL HP AO HU HC HW) as (si & la & s & B & xraw & m & W & BH).
  exists si, la, s, B, xraw, m, W. split; auto.
  assert (Ep : o_epoch (c_opt c) = opt_value opts "epoch").
  { destruct (solve_inv _ _ _ _ _ _ _ HC) as [(compat & si' & la' & o & s' & B' & xraw' & m' & W' & c1 & c2 & P1 & P2 & El & P4 & P5 & P6 & P7 & P8 & P9)].
    assert (SB := solve_base _ _ _ _ _ _ _ _ _ _ _ _ P7 P8 P9). rewrite (sb_opt _ _ SB). cbn [coef_core c_opt].
    destruct (used_options opts (is2d v) (si_equi si') HU compat o P1 P4) as
      (_ & _ & _ & Eq & _ & _ & _ & _ & _ & _ & _ & _ & _ & _ & _ & _ & _ & _ & Ep1 & Ep2 & _). exact Ep1. }
  assert (SL := bh_slv _ _ _ _ _ _ _ _ _ _ _ _ _ _ BH). rewrite Ep in SL. destruct (samples_slv _ _ _ _ _ _ _ _ SM SL) as (E1 & E2 & E3).
  destruct (run_rows _ _ _ _ _ _ _ _ _ _ _ _ _ _ BH) as (_ & E4 & _). split; [exact E1|]. split; [congruence|].
  rewrite (bh_tw _ _ _ _ _ _ _ _ _ _ _ _ _ _ BH). exact E3.
Qed.

(** ** C35 *)
Lemma top_model L t u v lat opts sm c : analysis L t u v lat opts sm c -> approximate (c_opt c) = false ->
  exists si la s B xraw m W, lat = Some la /\ slvinit (l_parse L) t u v lat (o_epoch (c_opt c)) = Ok si /\
    ut_cnstitsel (si_tref si) (xdiv (Fin (o_rmin (c_opt c))) (Fin (24 * si_lor si))) (o_cnstit (c_opt c)) (o_infer (c_opt c)) = Ok s /\
    fit L (si_t si) (si_u si) (si_v si) (si_tref si) (si_lor si) la (c_opt c) s = Ok (B, xraw, m, W) /\
    Forall2 (fun x z => yields c (fst x) z) sm (model_fit (o_twodim (c_opt c)) B m).
Proof.
  intros AN NA. destruct (analysis_run _ _ _ _ _ _ _ _ AN) as (_ & si & la & s & B & xraw & m & W & BH & S1 & S2 & S3).
  exists si, la, s, B, xraw, m, W. split; [apply BH|]. split; [apply BH|]. split; [apply BH|]. split; [apply BH|].
  assert (F := paired _ _ _ _ _ _ _ _ _ _ _ _ _ _ BH sm S1).
  assert (OY := own_yields _ _ _ _ _ _ _ _ _ _ _ _ _ _ BH (an_sorted _ _ _ _ _ _ _ _ AN) NA).
  replace (model_fit (o_twodim (c_opt c)) B m) with (map (fun row => vis1 (o_twodim (c_opt c)) (cdot row m)) B).
  2: { unfold model_fit, cmatvec, vis1. destruct (o_twodim (c_opt c)); [reflexivity|]. now rewrite map_map. }
  clear - F OY. induction F as [|x row l B' G F IH]; cbn [map]; constructor; auto.
Qed.

(** ** C36 *)
Lemma top_optimal L t u v lat opts sm c c' : analysis L t u v lat opts sm c -> approximate (c_opt c) = false ->
  lstsq_minimises L -> o_method (c_opt c) = PStr "ols" -> rival c c' ->
  exists d d', misfit c sm d /\ misfit c' sm d' /\ d <= d'.
Proof.
  intros AN NA LM OLS RV. destruct (analysis_run _ _ _ _ _ _ _ _ AN) as (_ & si & la & s & B & xraw & m & W & BH & S1 & S2 & S3).
  eapply run_optimal; eauto. eapply an_sorted; eauto.
Qed.

(** ** C37 *)
Lemma top_exact L t u v lat opts sm c c0 : analysis L t u v lat opts sm c -> approximate (c_opt c) = false ->
  lstsq_minimises L -> o_method (c_opt c) = PStr "ols" -> rival c c0 ->
  Forall (fun x => yields c0 (fst x) (snd x)) sm -> Forall (fun x => yields c (fst x) (snd x)) sm.
Proof.
  intros AN NA LM OLS RV. destruct (analysis_run _ _ _ _ _ _ _ _ AN) as (_ & si & la & s & B & xraw & m & W & BH & S1 & S2 & S3).
  intros H. eapply run_exact; eauto. eapply an_sorted; eauto.
Qed.

Lemma nodup_triples (a b : list (string * nat * (C * C))) T : map fst a = map fst b -> NoDup (map (fun t => fst (fst t)) a) ->
  Permutation a T -> Permutation b T -> a = b.
Proof.
  intros E N P Q. assert (PQ : Permutation a b) by (rewrite P; now rewrite Q). clear P Q T.
  assert (ND : forall x y, In x a -> In y a -> fst (fst x) = fst (fst y) -> x = y).
  { clear E PQ. induction a as [|h a IH]; [intros x y []|]. cbn [map] in N. apply NoDup_cons_iff in N. destruct N as [N1 N2].
    intros x y [<-|Hx] [<-|Hy] Hn; auto.
    - destruct N1. rewrite Hn. now apply (in_map (fun t => fst (fst t))).
    - destruct N1. rewrite <- Hn. now apply (in_map (fun t => fst (fst t))). }
  assert (I : forall y, In y b -> In y a) by (intros y Hy; eapply Permutation_in; [apply Permutation_sym, PQ|exact Hy]).
  assert (G : forall l k, map fst l = map fst k -> (forall y, In y k -> In y a) -> (forall y, In y l -> In y a) -> l = k).
  { clear - ND. induction l as [|x l IH]; intros [|y k] El Hk Hl; try discriminate; auto. cbn [map] in El. injection El as E1 E2. f_equal.
    - apply ND; [apply Hl; now left|apply Hk; now left|now rewrite E1].
    - apply IH; auto; intros z Hz; [apply Hk|apply Hl]; now right. }
  apply G; auto.
Qed.

Lemma recon_same c c0 x : well_formed c -> well_formed c0 -> c_name c0 = c_name c -> c_lind c0 = c_lind c -> c_reftime c0 = c_reftime c ->
  c_lat c0 = c_lat c -> c_opt c0 = c_opt c -> pms c0 = pms c -> mnC c0 = mnC c -> (o_notrend (c_opt c) = false -> slC c0 = slC c) ->
  recon_u c0 x = recon_u c x /\ (o_twodim (c_opt c) = true -> recon_v c0 x = recon_v c x).
Proof.
  intros W W0 E1 E2 E3 E4 E5 E6 E7 E8.
  assert (T : tides c0 x (rows c0) = tides c x (rows c)).
  { unfold rows. rewrite <- (fit_row_tides c x) by (auto; intros i Hi; apply in_seq in Hi; lia).
    rewrite <- (fit_row_tides c0 x) by (auto; intros i Hi; apply in_seq in Hi; lia).
    rewrite E2, E3, E4, E5, E1. unfold pms in E6. rewrite E1 in E6. now rewrite E6. }
  unfold recon_u, recon_v, value_u, value_v. rewrite !all_chosen, T, E5. unfold mnC, slC in *. rewrite E5 in *. unfold background. rewrite E5, E3.
  destruct (o_twodim (c_opt c)) eqn:D.
  - destruct (wf_2d _ W D) as (_ & _ & _ & (um & Hu) & (vm & Hv) & Hs & _). rewrite <- E5 in D.
    destruct (wf_2d _ W0 D) as (_ & _ & _ & (um0 & Hu0) & (vm0 & Hv0) & Hs0 & _). rewrite Hu, Hv, Hu0, Hv0 in *. cbn [od] in *.
    injection E7 as -> ->. destruct (o_notrend (c_opt c)) eqn:N; [split; reflexivity|].
    destruct (Hs eq_refl) as ((us & Hus) & (vs & Hvs)). rewrite E5 in Hs0. destruct (Hs0 N) as ((us0 & Hus0) & (vs0 & Hvs0)).
    specialize (E8 eq_refl). rewrite Hus, Hvs, Hus0, Hvs0 in *. cbn [od] in *. injection E8 as -> ->. split; reflexivity.
  - destruct (wf_1d _ W D) as (_ & _ & (mn & Hm) & Hs & _). rewrite <- E5 in D.
    destruct (wf_1d _ W0 D) as (_ & _ & (mn0 & Hm0) & Hs0 & _). rewrite Hm, Hm0 in *. cbn [od] in *. injection E7 as ->.
    split; [|discriminate]. destruct (o_notrend (c_opt c)) eqn:N; [reflexivity|].
    destruct (Hs eq_refl) as (sl & Hsl). rewrite E5 in Hs0. destruct (Hs0 N) as (sl0 & Hsl0). specialize (E8 eq_refl).
    rewrite Hsl, Hsl0 in *. cbn [od] in *. injection E8 as ->. reflexivity.
Qed.

Lemma mean_mnC c z : well_formed c -> mean_is c z -> vis1 (o_twodim (c_opt c)) z = mnC c.
Proof.
  intros W. unfold mean_is, mnC, vis1. destruct (o_twodim (c_opt c)).
  - intros [-> ->]. destruct z; reflexivity.
  - intros ->. reflexivity.
Qed.
Lemma mnC_mean c z : well_formed c -> vis1 (o_twodim (c_opt c)) z = mnC c -> mean_is c z.
Proof.
  intros W. unfold mean_is, mnC, vis1. destruct (o_twodim (c_opt c)) eqn:D.
  - destruct (wf_2d _ W D) as (_ & _ & _ & (um & ->) & (vm & ->) & _). intros ->. cbn. auto.
  - destruct (wf_1d _ W D) as (_ & _ & (mn & ->) & _). intros E. injection E as ->. reflexivity.
Qed.
Lemma slope_slC c z : well_formed c -> slope_is c z -> vis1 (o_twodim (c_opt c)) z = slC c.
Proof.
  intros W. unfold slope_is, slC, vis1. destruct (o_twodim (c_opt c)).
  - intros [-> ->]. destruct z; reflexivity.
  - intros ->. reflexivity.
Qed.
Lemma slC_slope c z : well_formed c -> o_notrend (c_opt c) = false -> vis1 (o_twodim (c_opt c)) z = slC c -> slope_is c z.
Proof.
  intros W N. unfold slope_is, slC, vis1. destruct (o_twodim (c_opt c)) eqn:D.
  - destruct (wf_2d _ W D) as (_ & _ & _ & _ & _ & H & _). destruct (H N) as ((us & ->) & (vs & ->)). intros ->. cbn. auto.
  - destruct (wf_1d _ W D) as (_ & _ & _ & H & _). destruct (H N) as (sl & ->). intros E. injection E as ->. reflexivity.
Qed.

Lemma turned_id l : map (turned (RtoC 1)) l = l.
Proof.
  induction l as [|[nm [p q]] l IH]; [reflexivity|]. cbn [map]. rewrite IH. f_equal.
  unfold turned. cbn [fst snd]. f_equal. f_equal; ring.
Qed.

Lemma top_recover L t u v lat opts sm c c0 : analysis L t u v lat opts sm c -> approximate (c_opt c) = false ->
  lstsq_minimises L -> o_method (c_opt c) = PStr "ols" -> rival c c0 ->
  Forall (fun x => yields c0 (fst x) (snd x)) sm -> identifiable c (map fst sm) -> NoDup (c_name c) ->
  (forall x, recon_u c x = recon_u c0 x /\ (o_twodim (c_opt c) = true -> recon_v c x = recon_v c0 x)) /\
  (forall z, mean_is c0 z -> mean_is c z) /\
  (o_notrend (c_opt c) = false -> forall z, slope_is c0 z -> slope_is c z) /\
  (forall r0, In r0 (rows c0) -> row_ranges r0 -> exists r, In r (rows c) /\ row_like 1 eq r0 r).
Proof.
  intros AN NA LM OLS RV H ID ND. destruct (analysis_run _ _ _ _ _ _ _ _ AN) as (_ & si & la & s & B & xraw & m & W & BH & S1 & S2 & S3).
  destruct (run_recover _ _ _ _ _ _ _ _ _ _ _ _ _ _ BH (an_sorted _ _ _ _ _ _ _ _ AN) NA LM OLS sm S1 S2 S3 c0 RV H ID ND) as (k & M & M0).
  assert (Wf := bh_wf _ _ _ _ _ _ _ _ _ _ _ _ _ _ BH). assert (W0 := rv_wf _ _ RV).
  assert (ET : triples c = triples c0).
  { apply (nodup_triples _ _ (combine (combine (s_name s) (s_lind s)) (all_pm k s))); [|
      |exact (mt_tri _ _ _ _ _ M)|exact (mt_tri _ _ _ _ _ M0)].
    - rewrite !triples_fst by assumption. now rewrite (rv_name _ _ RV), (rv_lind _ _ RV).
    - rewrite <- (map_map fst fst), triples_fst by assumption. rewrite combine_fst; [assumption|].
      assert (A := wf_aligned _ Wf). destruct A as (_ & A & _). now rewrite A. }
  assert (EP : pms c0 = pms c).
  { assert (P1 := triples_pairs _ Wf). assert (P2 := triples_pairs _ W0). rewrite ET, P2 in P1.
    apply (f_equal (map snd)) in P1. assert (Al : forall q, well_formed q -> length (c_lind q) = length (pms q)).
    { intros q Wq. assert (A := wf_aligned _ Wq). destruct A as (_ & A & _). unfold pms. now rewrite map_length, seq_length. }
    rewrite !combine_snd in P1 by now apply Al. exact P1. }
  assert (EM : mnC c0 = mnC c) by (rewrite (mt_mn _ _ _ _ _ M), (mt_mn _ _ _ _ _ M0); reflexivity).
  assert (ES : o_notrend (c_opt c) = false -> slC c0 = slC c).
  { intros N. assert (T : negb (o_notrend (c_opt c)) = true) by now rewrite N. rewrite (mt_sl _ _ _ _ _ M T), (mt_sl _ _ _ _ _ M0 T). reflexivity. }
  split; [|split; [|split]].
  - intros x. destruct (recon_same c c0 x Wf W0 (rv_name _ _ RV) (rv_lind _ _ RV) (rv_reftime _ _ RV) (rv_lat _ _ RV) (rv_opt _ _ RV) EP EM ES) as [H1 H2].
    split; [now rewrite H1|]. intros D. now rewrite H2.
  - intros z Hz. apply mnC_mean; auto. rewrite <- EM, <- (rv_opt _ _ RV). now apply mean_mnC.
  - intros N z Hz. apply slC_slope; auto. rewrite <- ES, <- (rv_opt _ _ RV) by assumption. now apply slope_slC.
  - intros r0 Hr Rg. destruct (rows_turned (RtoC 1) c0 c r0 W0 Wf) as (r & p & q & Q1 & Q2 & Q3 & Q4 & Q5); auto.
    { rewrite ET. rewrite turned_id. apply Permutation_refl. }
    exists r. split; auto. eapply row_scaled; eauto; [lra|eapply solve_ranges; [apply AN|exact Q1]|].
    rewrite (rows_Lsmaj c0 r0 W0 Hr), (rows_Lsmaj c r Wf Q1), (rv_opt _ _ RV). tauto.
Qed.

(** ** C40 *)
Lemma top_ties L t u v lat opts sm c : analysis L t u v lat opts sm c -> NoDup (c_name c) ->
  ties c /\ forall inf j i r rp rm, o_infer (c_opt c) = Some inf -> request_at inf (o_twodim (c_opt c)) j (i, r, rp, rm) ->
    exists a b, In a (rows c) /\ In b (rows c) /\ w_name a = Some i /\ w_name b = Some r /\ multiple rp rm a b.
Proof.
  intros AN ND. destruct (analysis_run _ _ _ _ _ _ _ _ AN) as (_ & si & la & s & B & xraw & m & W & BH & S1 & S2 & S3).
  assert (HS := an_sorted _ _ _ _ _ _ _ _ AN). assert (Wf := bh_wf _ _ _ _ _ _ _ _ _ _ _ _ _ _ BH).
  destruct (mvis _ _ _ _ _ _ _ _ _ _ _ _ _ _ BH m (bh_len _ _ _ _ _ _ _ _ _ _ _ _ _ _ BH)) as (k & K1 & K2 & _).
  assert (P := bh_tri _ _ _ _ _ _ _ _ _ _ _ _ _ _ BH HS). rewrite <- K2 in P.
  assert (SL := run_lens _ _ _ _ _ _ _ _ _ _ _ _ _ _ BH).
  assert (LP := all_pm_run _ _ _ _ _ _ _ _ _ _ _ _ _ _ BH k K1).
  assert (PN : Permutation (c_name c) (s_name s)).
  { apply (Permutation_map fst) in P. rewrite triples_fst in P by assumption.
    rewrite combine_fst in P by (rewrite combine_length, LP, (ln_lind _ SL); lia).
    apply (Permutation_map fst) in P. rewrite combine_fst in P by (assert (A := wf_aligned _ Wf); destruct A as (_ & A & _); now rewrite A).
    rewrite combine_fst in P by now rewrite (ln_lind _ SL). exact P. }
  assert (TI : ties c) by (eapply vector_ties; eauto; eapply Permutation_NoDup; eauto).
  split; auto. intros inf j i r rp rm Ei Hq. assert (Hin := run_request _ _ _ _ _ _ _ _ _ _ _ _ _ _ BH inf j _ Ei Hq).
  assert (RN : forall n, In n (s_name s) -> exists a, In a (rows c) /\ w_name a = Some n).
  { intros n Hn. apply (Permutation_in _ (Permutation_sym PN)) in Hn. apply In_nth_error in Hn. destruct Hn as (q & Hq').
    exists (crow_of c q). split; [|exact Hq']. apply in_map. apply in_seq. split; [lia|]. apply nth_error_Some. cbn. congruence. }
  assert (IN : In i (s_name s) /\ In r (s_name s)).
  { rewrite (ln_name _ SL). apply in_flat_map in Hin. destruct Hin as (R' & HR & Hs). unfold stored in Hs. apply in_map_iff in Hs.
    destruct Hs as ([[x1 x2] x3] & E & Hc). cbn [fst snd] in E. injection E as <- <- _ _.
    apply in_combine_l in Hc. apply in_combine_l in Hc. split.
    - apply in_or_app; right. apply in_or_app; right. apply in_flat_map. eauto.
    - apply in_or_app; right. apply in_or_app; left. now apply in_map. }
  destruct IN as [I1 I2]. destruct (RN _ I1) as (a & A1 & A2), (RN _ I2) as (b & B1 & B2). exists a, b. repeat split; auto.
  unfold ties in TI. rewrite Ei in TI. eapply TI; eauto.
Qed.

Lemma top_inferred L t u v lat opts sm c inf j i r a o : analysis L t u v lat opts sm c -> NoDup (c_name c) ->
  o_twodim (c_opt c) = false -> o_infer (c_opt c) = Some inf ->
  nth_error (inf_inferred inf) j = Some i -> nth_error (inf_reference inf) j = Some r ->
  nth_error (inf_amp inf) j = Some a -> nth_error (inf_off inf) j = Some o ->
  exists wi wr Ai gi Ar gr, In wi (rows c) /\ In wr (rows c) /\ w_name wi = Some i /\ w_name wr = Some r /\
    w_A wi = Some (Some Ai) /\ w_g wi = Some gi /\ w_A wr = Some (Some Ar) /\ w_g wr = Some gr /\
    Ai = Rabs a * Ar /\ (0 < a -> Ar <> 0 -> same_angle 360 gi (gr - o)) /\ (a < 0 -> Ar <> 0 -> same_angle 360 gi (gr - o + 180)).
Proof.
  intros AN ND D Ei H1 H2 H3 H4. destruct (top_ties _ _ _ _ _ _ _ _ AN ND) as [_ T].
  assert (RQ : request_at inf (o_twodim (c_opt c)) j (i, r, Cmult (RtoC a) (turn o), Cmult (RtoC a) (turn (- o)))).
  { rewrite D. exists i, r, a, o. repeat split; auto. }
  destruct (T _ _ _ _ _ _ Ei RQ) as (wi & wr & I1 & I2 & I3 & I4 & (p & q & M1 & M2)).
  destruct (analysis_run _ _ _ _ _ _ _ _ AN) as (_ & si & la & s & B & xraw & m & W & BH & _).
  assert (Wf := bh_wf _ _ _ _ _ _ _ _ _ _ _ _ _ _ BH).
  assert (R1 := solve_ranges _ _ _ _ _ _ _ wi (an_solve _ _ _ _ _ _ _ _ AN) I1). assert (R2 := solve_ranges _ _ _ _ _ _ _ wr (an_solve _ _ _ _ _ _ _ _ AN) I2).
  assert (N1 := proj2 (rows_Lsmaj c wi Wf I1) D). assert (N2 := proj2 (rows_Lsmaj c wr Wf I2) D).
  assert (Q1 := rotary_shape _ _ M1). rewrite N2 in Q1. destruct Q1 as (Ar & gr & _ & X1 & X2).
  assert (Q2 := rotary_shape _ _ M2). rewrite N1 in Q2. destruct Q2 as (Ai & gi & _ & Y1 & Y2).
  destruct R1 as (_ & RA1 & _). destruct R2 as (_ & RA2 & _). specialize (RA1 _ Y1). specialize (RA2 _ X1).
  unfold rotary in M1, M2. rewrite N2, X1, X2 in M1. rewrite N1, Y1, Y2 in M2. apply some_pair in M1, M2. destruct M1 as [<- _], M2 as [M2 _].
  exists wi, wr, Ai, gi, Ar, gr. repeat (split; [assumption|]).
  assert (TT : Cmult (turn o) (cis (rad (- gr))) = cis (rad (- (gr - o)))).
  { unfold turn. rewrite <- cis_add. f_equal. unfold rad. field. }
  destruct (Rtotal_order a 0) as [Ha|[Ha|Ha]].
  - destruct (scal_num (- a) Ar (gr - o + 180) Ai gi) as [E1 E2]; auto; [lra| |].
    { rewrite M2. replace (- (gr - o + 180)) with (- (gr - o) - 180) by ring. rewrite <- cis_half', <- TT. rewrite (RtoC_opp a). replace (RtoC (-1)) with (Copp (RtoC 1)) by (apply C_eq; cbn; ring). ring. }
    rewrite Rabs_left by assumption. split; [exact E1|]. split; [lra|]. intros _. exact E2.
  - subst a. rewrite Rabs_R0. split; [|split; lra]. apply (f_equal Cmod) in M2. rewrite mod_cis in M2 by lra.
    rewrite !Cmod_mult, Cmod_R, Rabs_R0 in M2. lra.
  - destruct (scal_num a Ar (gr - o) Ai gi) as [E1 E2]; auto.
    { rewrite M2, <- TT. ring. }
    rewrite Rabs_right by lra. split; [exact E1|]. split; [intros _; exact E2|lra].
Qed.
