(** Robust analyses of scaled and shifted data. *)
From Coq Require Import Lia Lra Permutation.
From Verif Require Import M_Base M_Bunch M_Lib M_Tables M_Const M_Options M_Time M_Slvinit M_Harmonics M_Select M_Ellipse
  M_Robust M_Period M_Conf M_Diag M_Solve M_Recon S_Dict S_Options S_Order S_Basis S_Select S_Fit S_Ellipse S_Slv S_Recon S_Model S_Robust S_RobustKw S_RobustEq
  L_Base L_Options L_SolveInv L_OptSolve L_Slv L_Slv2 L_Order L_Select L_Fit L_Align L_SelOrder L_Basis L_Angle L_Ellipse L_Recon L_Recon2 L_Recon3 L_Core
  L_Ellipse2 L_Model L_Lsq L_Model2 L_Model3 L_Model4 L_Model5 L_Model6 L_Model7 L_Model8 L_Model9 L_Model10 L_Model11 L_Model12 L_Model15
  L_Robust L_Robust4 L_RobustKw L_RobEq.
Open Scope R_scope.
Open Scope string_scope.

Lemma affine_csub k b x : length x = length b -> affine k b (csub x (map (Cmult (RtoC k)) b)) = x.
Proof.
  unfold csub. revert x. induction b as [|a b IH]; intros [|z x] H; try discriminate; [reflexivity|]. cbn [map combine fst snd]. rewrite affine_cons, IH by (cbn in H; lia). f_equal. ring.
Qed.
Lemma kw_moved L X y kw k d r r' : (forall rc, lstsq_contract L rc) -> length X = length y -> X <> [] ->
  (forall row, In row X -> length row = length d) -> k <> 0 ->
  robustfit_kw L X y kw = Ok r -> robustfit_kw L X (affine k y (cmatvec X d)) kw = Ok r' ->
  rf_b r' = affine k (rf_b r) d /\ rf_w r' = rf_w r.
Proof.
  intros LC LX NX HD K H H'. unfold robustfit_kw in H, H'. destruct kw as [| | | | | |kk dd]; try discriminate. destruct (negb _); [discriminate|].
  destruct (match kget dd "weight_function" _ with PStr s => _ | _ => _ end) as [wf|]; [|discriminate]. cbn [bind] in *.
  destruct (match kget dd "tune" PNone with PNone => _ | _ => _ end) as [tn|]; [|discriminate]. cbn [bind] in *.
  destruct (kw_num (kget dd "tol" _)) as [tol|]; [|discriminate]. cbn [bind] in *.
  destruct (kw_nat (kget dd "maxit" _)) as [mx|]; [|discriminate]. cbn [bind] in *.
  destruct (robust_moved _ _ _ _ _ _ _ _ _ _ _ _ (LC _) LX NX HD K H H') as (Q1 & _ & Q2 & _). auto.
Qed.
Lemma fit_robust L t u v tref lor lat o s B xraw m W : eq_str (o_method o) "ols" = false -> fit L t u v tref lor lat o s = Ok (B, xraw, m, W) ->
  exists r, robustfit_kw L B xraw (o_robust_kw o) = Ok r /\ rf_b r = m /\ rf_w r = W.
Proof.
  intros EM. unfold fit. intros F. inv_bind F. destruct (finite_mat a) as [B'|]; [|discriminate]. rewrite EM in F. inv_bind F. apply Ok_inj in F.
  assert (B' = B /\ raw_data u v = xraw /\ rf_b a0 = m /\ rf_w a0 = W) as (-> & <- & <- & <-) by (repeat split; congruence). exists a0. auto.
Qed.

Lemma top_raffine L t u v u' v' lat opts sm c c' kr be ga : kr <> 0 -> let al := RtoC kr in
  let sm' := map (fun x => (fst x, Cplus (Cplus (Cmult al (snd x)) be) (Cmult (RtoC (fst x - c_reftime c)) ga))) sm in
  analysis L t u v lat opts sm c -> analysis L t u' v' lat opts sm' c' -> is2d v = is2d v' ->
  approximate (c_opt c) = false -> (forall rc, lstsq_contract L rc) -> o_method (c_opt c) <> PStr "ols" ->
  (o_notrend (c_opt c) = true -> ga = RtoC 0) ->
  c_opt c' = c_opt c /\ c_reftime c' = c_reftime c /\ c_weights c' = c_weights c /\
  Permutation (triples c') (map (turned al) (triples c)) /\
  mnC c' = vis1 (o_twodim (c_opt c)) (Cplus (Cmult al (mnC c)) be) /\
  (o_notrend (c_opt c) = false -> slC c' = vis1 (o_twodim (c_opt c)) (Cplus (Cmult al (slC c)) ga)) /\
  well_formed c /\ well_formed c'.
Proof.
  intros Hk al sm' AN AN' D2 NA LC NO Hga.
  assert (Hal : o_twodim (c_opt c) = false -> snd al = 0) by (intros _; reflexivity).
  destruct (analysis_run _ _ _ _ _ _ _ _ AN) as (_ & si & la & s & B & xraw & m & W & BH & S1 & S2 & S3).
  destruct (analysis_run _ _ _ _ _ _ _ _ AN') as (_ & si' & la' & s' & B' & xraw' & m' & W' & BH' & S1' & S2' & S3').
  assert (HS := an_sorted _ _ _ _ _ _ _ _ AN).
  assert (Et : si_t si = si_t si').
  { rewrite S1, S1'. unfold sm'. rewrite map_map. reflexivity. }
  destruct (solve_opt _ _ _ _ _ _ _ (an_solve _ _ _ _ _ _ _ _ AN)) as (compat & sx & O1 & O2 & O3).
  destruct (solve_opt _ _ _ _ _ _ _ (an_solve _ _ _ _ _ _ _ _ AN')) as (compat' & sx' & O1' & O2' & O3').
  rewrite <- D2, O1 in O1'. apply Ok_inj in O1'. subst compat'.
  destruct (used_options opts (is2d v) (si_equi sx) (an_keys _ _ _ _ _ _ _ _ AN) compat _ O1 O3) as
      (_ & _ & _ & Eq & _ & _ & _ & _ & _ & _ & _ & _ & _ & _ & _ & _ & _ & _ & Ep1 & Ep2 & _).
  rewrite <- D2 in O3'.
  destruct (used_options opts (is2d v) (si_equi sx') (an_keys _ _ _ _ _ _ _ _ AN) compat _ O1 O3') as
      (_ & _ & _ & Eq' & _ & _ & _ & _ & _ & _ & _ & _ & _ & _ & _ & _ & _ & _ & Ep1' & Ep2' & _).
  assert (SI := bh_slv _ _ _ _ _ _ _ _ _ _ _ _ _ _ BH). assert (SI' := bh_slv _ _ _ _ _ _ _ _ _ _ _ _ _ _ BH').
  assert (sx = si) by (rewrite Ep2, <- Ep1, SI in O2; apply Ok_inj in O2; congruence).
  assert (sx' = si') by (rewrite Ep2', <- Ep1', SI' in O2'; apply Ok_inj in O2'; congruence). subst sx sx'.
  assert (Ee : o_epoch (c_opt c') = o_epoch (c_opt c)) by congruence. rewrite Ee in SI'.
  destruct (same_slv _ _ _ _ _ _ _ _ _ _ _ SI SI' Et) as (E1 & E2 & E3).
  assert (Eo : c_opt c' = c_opt c). { rewrite E3, O3 in O3'. apply Ok_inj in O3'. congruence. }
  assert (El : la' = la). { assert (X := bh_lat _ _ _ _ _ _ _ _ _ _ _ _ _ _ BH). assert (X' := bh_lat _ _ _ _ _ _ _ _ _ _ _ _ _ _ BH'). congruence. }
  assert (Es : s' = s).
  { assert (X := bh_sel _ _ _ _ _ _ _ _ _ _ _ _ _ _ BH). assert (X' := bh_sel _ _ _ _ _ _ _ _ _ _ _ _ _ _ BH').
    rewrite Eo, E1, E2, X in X'. apply Ok_inj in X'. congruence. }
  subst s' la'.
  destruct (run_rows _ _ _ _ _ _ _ _ _ _ _ _ _ _ BH) as (G & _ & _). destruct (run_rows _ _ _ _ _ _ _ _ _ _ _ _ _ _ BH') as (G' & _ & _).
  rewrite E1, E2, Eo, <- Et in G'.
  assert (EB : B' = B).
  { eapply forall2_det; [|exact G'|exact G]. intros x y z Hy Hz. unfold good_row in *. rewrite Hy in Hz. now apply somes_inj in Hz. }
  subst B'. clear G'.
  assert (Lm := bh_len _ _ _ _ _ _ _ _ _ _ _ _ _ _ BH). assert (Lm' := bh_len _ _ _ _ _ _ _ _ _ _ _ _ _ _ BH'). rewrite Eo in Lm'.
  assert (Eref : c_reftime c = si_tref si) by apply BH.
  set (tr := negb (o_notrend (c_opt c))).
  assert (Lm2 : length m = (2 * (s_nNR s + s_nR s) + 1 + (if tr then 1 else 0))%nat).
  { rewrite Lm. unfold ncoef, tr. destruct (o_notrend (c_opt c)); reflexivity. }
  destruct (affine_vec tr s al be (Cmult (RtoC (si_lor si)) ga) m Lm2) as (k & K1 & K2 & K3 & K4).
  assert (KR : forall x row, good_row (si_tref si) (si_lor si) la (c_opt c) s x row ->
    cdot row k = Cplus (Cplus (Cmult al (cdot row m)) be) (Cmult (RtoC (x - c_reftime c)) ga)).
  { intros x row Gx. destruct (run_row _ _ _ _ _ _ _ _ _ _ _ _ _ _ BH NA x row m Gx Lm) as (es & R1 & R2 & R3 & R4).
    destruct (run_row _ _ _ _ _ _ _ _ _ _ _ _ _ _ BH NA x row k Gx ltac:(congruence)) as (es' & R1' & _ & _ & R4').
    assert (es' = es) by (apply somes_inj; congruence). subst es'. fold tr in R3, R4, R4'. rewrite R4, R4', K2, K3, hsum_scal, Eref.
    destruct tr eqn:T.
    - rewrite (K4 eq_refl). assert (Hz := R3 eq_refl).
      assert (Q' : RtoC (si_lor si) <> RtoC 0) by (intros Hq; apply Hz; now apply RtoC_inj). field. exact Q'.
    - rewrite Hga by (unfold tr in T; now apply Bool.negb_false_iff in T). ring. }
  assert (EM : eq_str (o_method (c_opt c)) "ols" = false).
  { destruct (o_method (c_opt c)) as [| | |x| | |]; try reflexivity. cbn. apply String.eqb_neq. congruence. }
  assert (F := bh_fit _ _ _ _ _ _ _ _ _ _ _ _ _ _ BH). assert (F' := bh_fit _ _ _ _ _ _ _ _ _ _ _ _ _ _ BH'). rewrite Eo in F'.
  destruct (fit_robust _ _ _ _ _ _ _ _ _ _ _ _ _ EM F) as (rr & FR & <- & <-). destruct (fit_robust _ _ _ _ _ _ _ _ _ _ _ _ _ EM F') as (rr' & FR' & <- & <-).
  assert (LX : length B = length xraw) by (symmetry; eapply len_rows; eauto).
  assert (RL : forall row, In row B -> length row = ncoef (c_opt c) s).
  { destruct (fit_len _ _ _ _ _ _ _ _ _ _ _ _ _ (an_shape _ _ _ _ _ _ _ _ AN) (run_lens _ _ _ _ _ _ _ _ _ _ _ _ _ _ BH)
      (infer_none_R _ _ _ _ _ (bh_sel _ _ _ _ _ _ _ _ _ _ _ _ _ _ BH))
      (slv_data _ _ _ _ _ _ _ ltac:(destruct (an_samples _ _ _ _ _ _ _ _ AN) as (e & _ & SMP); eapply samples_arrays; exact SMP) (bh_slv _ _ _ _ _ _ _ _ _ _ _ _ _ _ BH)) F) as ((D1 & D3) & _). exact D3. }
  assert (NX : B <> []).
  { assert (Hne := bh_t _ _ _ _ _ _ _ _ _ _ _ _ _ _ BH). intros ->. inversion G as [Z|]. now rewrite <- Z in Hne. }
  set (dl := csub k (map (Cmult al) (rf_b rr))).
  assert (Ld : length dl = length (rf_b rr)) by (unfold dl, csub; rewrite map_length, combine_length, map_length; lia).
  assert (AK : affine kr (rf_b rr) dl = k) by (apply affine_csub; exact K1).
  assert (EX : xraw' = affine kr xraw (cmatvec B dl)).
  { assert (PR := paired _ _ _ _ _ _ _ _ _ _ _ _ _ _ BH sm S1). rewrite S2, S2'. unfold sm', cmatvec. clear - PR KR AK Ld. clearbody dl. rewrite <- AK in KR. clear AK. revert PR. generalize B. clear B.
    induction sm as [|x l IH]; intros B0 PR; inversion PR as [|x0 row l0 B1 Gx PR1]; subst; [reflexivity|]. cbn [map fst snd]. rewrite affine_cons. f_equal; [|now apply IH].
    assert (Q1 := KR _ _ Gx). rewrite cdot_affine in Q1 by exact Ld. fold al in Q1. set (z := cdot row (rf_b rr)) in *. set (w := cdot row dl) in *. clearbody z w.
    assert (Q2 : w = Cplus be (Cmult (RtoC (fst x - c_reftime c)) ga)).
    { transitivity (Cminus (Cplus (Cmult al z) w) (Cmult al z)); [ring|]. rewrite Q1. ring. }
    rewrite Q2. fold al. ring. }
  rewrite EX in FR'. destruct (kw_moved _ _ _ _ _ _ _ _ LC LX NX ltac:(intros row Hr; rewrite Ld, Lm; now apply RL) Hk FR FR') as (EK & EW).
  rewrite AK in EK. rewrite EK in BH'.
  assert (Wf := bh_wf _ _ _ _ _ _ _ _ _ _ _ _ _ _ BH). assert (Wf' := bh_wf _ _ _ _ _ _ _ _ _ _ _ _ _ _ BH').
  split; [exact Eo|]. split; [rewrite Eref, (bh_tref _ _ _ _ _ _ _ _ _ _ _ _ _ _ BH'); exact E1|].
  split; [rewrite (bh_wt _ _ _ _ _ _ _ _ _ _ _ _ _ _ BH), (bh_wt _ _ _ _ _ _ _ _ _ _ _ _ _ _ BH'); exact EW|].
  split.
  { assert (P := bh_tri _ _ _ _ _ _ _ _ _ _ _ _ _ _ BH HS). assert (P' := bh_tri _ _ _ _ _ _ _ _ _ _ _ _ _ _ BH' HS).
    apply (Permutation_map (turned al)) in P. rewrite P, P'. apply Permutation_refl'. rewrite Eo, K2.
    generalize (combine (s_name s) (s_lind s)) (all_pm (rf_b rr) s). clear - Hal. intros l l'. revert l.
    induction l' as [|[p q] l' IH]; intros [|x l]; cbn [map combine]; auto. f_equal; [|apply IH].
    cbn [fst snd]. rewrite visible_scal by assumption. reflexivity. }
  split; [|split; [|split; assumption]].
  - rewrite (bh_mn _ _ _ _ _ _ _ _ _ _ _ _ _ _ BH), (bh_mn _ _ _ _ _ _ _ _ _ _ _ _ _ _ BH'). cbv zeta. rewrite Eo.
    fold (vis1 (o_twodim (c_opt c)) (m_last (rf_b rr) (if o_notrend (c_opt c) then 1 else 2))).
    fold (vis1 (o_twodim (c_opt c)) (m_last k (if o_notrend (c_opt c) then 1 else 2))).
    rewrite <- vis1_affine by assumption. f_equal. unfold tr in K3. destruct (o_notrend (c_opt c)); exact K3.
  - intros N. assert (T : tr = true) by (unfold tr; now rewrite N).
    rewrite (bh_sl _ _ _ _ _ _ _ _ _ _ _ _ _ _ BH N), (bh_sl _ _ _ _ _ _ _ _ _ _ _ _ _ _ BH') by congruence. cbv zeta. rewrite Eo, E2.
    fold (vis1 (o_twodim (c_opt c)) (Cdiv (m_last (rf_b rr) 1) (RtoC (si_lor si)))).
    fold (vis1 (o_twodim (c_opt c)) (Cdiv (m_last k 1) (RtoC (si_lor si)))).
    rewrite <- vis1_affine by assumption. f_equal. rewrite (K4 T).
    assert (Hz := lor_nonzero _ _ _ _ _ _ _ _ _ _ _ _ _ _ BH NA T).
    assert (Q' : RtoC (si_lor si) <> RtoC 0) by (intros Hq; apply Hz; now apply RtoC_inj). field. exact Q'.
Qed.

Lemma rtop_linear L t u v u' v' lat opts sm c c' kr be ga : kr <> 0 -> let al := RtoC kr in
  let sm' := map (fun x => (fst x, Cplus (Cplus (Cmult al (snd x)) be) (Cmult (RtoC (fst x - c_reftime c)) ga))) sm in
  analysis L t u v lat opts sm c -> analysis L t u' v' lat opts sm' c' -> is2d v = is2d v' ->
  approximate (c_opt c) = false -> (forall rc, lstsq_contract L rc) -> o_method (c_opt c) <> PStr "ols" ->
 
  (o_notrend (c_opt c) = true -> ga = RtoC 0) ->
  c_weights c' = c_weights c /\ Permutation (c_name c') (c_name c) /\
  (forall r, In r (rows c) -> exists r', In r' (rows c') /\ w_name r' = w_name r /\ w_lind r' = w_lind r /\ multiple al al r' r) /\
  (forall z, mean_is c z -> mean_is c' (Cplus (Cmult al z) be)) /\
  (o_notrend (c_opt c) = false -> forall z, slope_is c z -> slope_is c' (Cplus (Cmult al z) ga)).
Proof.
  intros Hk0 al sm' AN AN' D2 NA LC NO Hga. assert (Hal : o_twodim (c_opt c) = false -> snd al = 0) by (intros _; reflexivity).
  destruct (top_raffine _ _ _ _ _ _ _ _ _ _ _ _ _ _ Hk0 AN AN' D2 NA LC NO Hga) as (E1 & E2 & EW & P & E3 & E4 & W & W').
  split; [exact EW|]. split.
  { apply (Permutation_map (fun x => fst (fst x))) in P. rewrite triples_names in P by assumption. rewrite map_map in P. cbn [turned fst] in P.
    now rewrite triples_names in P. }
  split.
  { intros r Hr. destruct (rows_turned al c c' r W W' P Hr) as (r' & p & q & R1 & R2 & R3 & R4 & R5). exists r'. repeat split; auto. exists p, q. auto. }
  split.
  { intros z Hz. apply mnC_mean; auto. rewrite E1, E3. apply (mean_mnC _ _ W) in Hz. rewrite <- Hz. now apply vis1_affine. }
  intros Hn z Hz. apply slC_slope; auto; [now rewrite E1|]. rewrite E1, (E4 Hn). apply (slope_slC _ _ W) in Hz. rewrite <- Hz. now apply vis1_affine.
Qed.


Lemma rtop_scaled L t u v u' v' lat opts sm c c' k be ga : 0 < k ->
  let sm' := map (fun x => (fst x, Cplus (Cplus (Cmult (RtoC k) (snd x)) be) (Cmult (RtoC (fst x - c_reftime c)) ga))) sm in
  analysis L t u v lat opts sm c -> analysis L t u' v' lat opts sm' c' -> is2d v = is2d v' ->
  approximate (c_opt c) = false -> (forall rc, lstsq_contract L rc) -> o_method (c_opt c) <> PStr "ols" ->
  (o_notrend (c_opt c) = true -> ga = RtoC 0) ->
  c_weights c' = c_weights c /\ Permutation (c_name c') (c_name c) /\
  (forall r, In r (rows c) -> exists r', In r' (rows c') /\ row_like k eq r r') /\
  (forall z, mean_is c z -> mean_is c' (Cplus (Cmult (RtoC k) z) be)) /\
  (o_notrend (c_opt c) = false -> forall z, slope_is c z -> slope_is c' (Cplus (Cmult (RtoC k) z) ga)).
Proof.
  intros Hk sm' AN AN' D2 NA LC NO Hga. assert (Hk0 : k <> 0) by lra.
  destruct (rtop_linear _ _ _ _ _ _ _ _ _ _ _ _ _ _ Hk0 AN AN' D2 NA LC NO Hga) as (EW & P & Rw & M & S).
  split; [exact EW|]. split; auto. split; auto. intros r Hr. destruct (Rw r Hr) as (r' & R1 & R2 & R3 & p & q & R4 & R5). exists r'. split; auto.
  destruct (top_raffine _ _ _ _ _ _ _ _ _ _ _ _ _ _ Hk0 AN AN' D2 NA LC NO Hga) as (E1 & _ & _ & _ & _ & _ & W & W').
  eapply row_scaled; eauto; try (eapply solve_ranges; [|eassumption]; [eapply an_solve; eauto]).
  rewrite (rows_Lsmaj c r W Hr), (rows_Lsmaj c' r' W' R1), E1. tauto.
Qed.


Lemma rtop_negated L t u v u' v' lat opts sm c c' :
  let sm' := map (fun x => (fst x, Copp (snd x))) sm in
  analysis L t u v lat opts sm c -> analysis L t u' v' lat opts sm' c' -> is2d v = is2d v' ->
  approximate (c_opt c) = false -> (forall rc, lstsq_contract L rc) -> o_method (c_opt c) <> PStr "ols" ->
 
  c_weights c' = c_weights c /\ Permutation (c_name c') (c_name c) /\
  (forall r, In r (rows c) -> exists r', In r' (rows c') /\ row_like 1 opposite r r') /\
  (forall z, mean_is c z -> mean_is c' (Copp z)) /\
  (o_notrend (c_opt c) = false -> forall z, slope_is c z -> slope_is c' (Copp z)).
Proof.
  intros sm' AN AN' D2 NA LC NO. assert (Hk0 : -1 <> 0) by lra.
  assert (E : sm' = map (fun x => (fst x, Cplus (Cplus (Cmult (RtoC (-1)) (snd x)) (RtoC 0)) (Cmult (RtoC (fst x - c_reftime c)) (RtoC 0)))) sm).
  { unfold sm'. apply map_ext. intros x. f_equal. apply C_eq; cbn; ring. }
  rewrite E in AN'. assert (Z : forall z, Cplus (Cmult (RtoC (-1)) z) (RtoC 0) = Copp z) by (intros; apply C_eq; cbn; ring).
  destruct (rtop_linear _ _ _ _ _ _ _ _ _ _ _ _ _ _ Hk0 AN AN' D2 NA LC NO (fun _ => eq_refl)) as (EW & P & Rw & M & S).
  split; [exact EW|]. split; auto. split.
  2: { split; [intros z Hz; specialize (M z Hz); now rewrite Z in M|intros Hn z Hz; specialize (S Hn z Hz); now rewrite Z in S]. }
  intros r Hr. destruct (Rw r Hr) as (r' & R1 & R2 & R3 & p & q & R4 & R5). exists r'. split; auto.
  destruct (top_raffine _ _ _ _ _ _ _ _ _ _ _ _ _ _ Hk0 AN AN' D2 NA LC NO (fun _ => eq_refl)) as (E1 & _ & _ & _ & _ & _ & W & W').
  eapply row_opposite; eauto; try (eapply solve_ranges; [|eassumption]; [eapply an_solve; eauto]).
  rewrite (rows_Lsmaj c r W Hr), (rows_Lsmaj c' r' W' R1), E1. tauto.
Qed.
