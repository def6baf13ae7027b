(** Residuals, linearity in the data. *)
From Coq Require Import Lia Lra Permutation.
From Verif Require Import M_Base M_Bunch M_Lib M_Tables M_Const M_Options M_Time M_Slvinit M_Harmonics M_Select M_Ellipse
  M_Robust M_Period M_Conf M_Diag M_Solve M_Recon S_Dict S_Options S_Order S_Basis S_Select S_Fit S_Ellipse S_Slv S_Recon S_Model
  L_Base L_Options L_SolveInv L_OptSolve L_Slv L_Slv2 L_Order L_Select L_Fit L_Align L_SelOrder L_Basis L_Angle L_Ellipse L_Recon L_Recon2 L_Recon3 L_Core
  L_Ellipse2 L_Model L_Lsq L_Model2 L_Model3 L_Model4 L_Model5 L_Model6 L_Model7 L_Model8 L_Model9 L_Model10 L_Model11.
Open Scope R_scope.
Open Scope string_scope.

(** ** C38 *)
Lemma top_residuals L t u v lat opts sm c : analysis L t u v lat opts sm c -> approximate (c_opt c) = false ->
  lstsq_minimises L -> o_method (c_opt c) = PStr "ols" ->
  exists rs, residuals c sm rs /\ uncorrelated (fun _ => 1) sm rs /\
    (o_notrend (c_opt c) = false -> uncorrelated (fun x => x - c_reftime c) sm rs) /\
    (o_infer (c_opt c) = None -> forall i, In i (c_lind c) -> uncorrelated (wave_cos c i) sm rs /\ uncorrelated (wave_sin c i) sm rs) /\
    (forall c', rival c c' -> exists zs, Forall2 (fun x z => yields c' (fst x) z) sm zs /\
       rsum (map (fun p => fst (fst p) * fst (snd p) + snd (fst p) * snd (snd p)) (combine rs zs)) = 0).
Proof.
  intros AN NA LM OLS. destruct (analysis_run _ _ _ _ _ _ _ _ AN) as (_ & si & la & s & B & xraw & m & W & BH & S1 & S2 & S3).
  assert (HS := an_sorted _ _ _ _ _ _ _ _ AN).
  exists (rs c B m sm). split; [eapply own_residuals; eauto|].
  assert (U : forall w d, length d = ncoef (c_opt c) s ->
    (forall x row, good_row (si_tref si) (si_lor si) la (c_opt c) s x row -> cdot row d = RtoC (w x)) -> uncorrelated w sm (rs c B m sm)).
  { intros w d H1 H2. eapply run_uncorrelated; eauto. }
  split.
  { destruct (mean_vec _ _ _ _ _ _ _ _ _ _ _ _ _ _ BH NA) as (d & D1 & D2). eapply U; eauto. }
  split.
  { intros N. destruct (trend_vec _ _ _ _ _ _ _ _ _ _ _ _ _ _ BH NA ltac:(now rewrite N)) as (d & D1 & D2).
    rewrite (bh_tref _ _ _ _ _ _ _ _ _ _ _ _ _ _ BH). eapply U; eauto. }
  split.
  { intros Ei i Hi. split.
    - destruct (wave_vec _ _ _ _ _ _ _ _ _ _ _ _ _ _ BH HS NA i (RtoC (1/2)) (RtoC (1/2)) Ei Hi) as (d & D1 & D2).
      apply (U _ d D1). intros x row G. destruct (D2 x row G) as (e & E1 & E2). unfold wave_cos. unfold e_of in E1. rewrite E1, E2.
      apply C_eq; cbn; field.
    - destruct (wave_vec _ _ _ _ _ _ _ _ _ _ _ _ _ _ BH HS NA i (0, -1/2) (0, 1/2) Ei Hi) as (d & D1 & D2).
      apply (U _ d D1). intros x row G. destruct (D2 x row G) as (e & E1 & E2). unfold wave_sin. unfold e_of in E1. rewrite E1, E2.
      apply C_eq; cbn; field. }
  intros c' RV. destruct (rival_yields _ _ _ _ _ _ _ _ _ _ _ _ _ _ BH HS NA c' RV) as (k & M & Y).
  assert (F := paired _ _ _ _ _ _ _ _ _ _ _ _ _ _ BH sm S1).
  assert (I := run_ip _ _ _ _ _ _ _ _ _ _ _ _ _ _ BH LM OLS sm S1 S2 k (mt_len _ _ _ _ _ M)).
  exists (map (fun row => cdot row k) B). split.
  { clear - F Y. induction F; cbn [map]; constructor; auto. }
  assert (E : forall l Bl, length l = length Bl -> (forall p, In p (combine l Bl) -> In p (combine sm B)) ->
    rsum (map (fun p : C * C => fst (fst p) * fst (snd p) + snd (fst p) * snd (snd p))
      (combine (map (fun p : R * C * list C => Cminus (snd (fst p)) (vis1 (o_twodim (c_opt c)) (cdot (snd p) m))) (combine l Bl)) (map (fun row => cdot row k) Bl))) =
    - rsum (map (fun p => fst (Cminus (cdot (snd p) m) (snd (fst p))) * fst (cdot (snd p) k) + snd (Cminus (cdot (snd p) m) (snd (fst p))) * snd (cdot (snd p) k)) (combine l Bl))).
  { clear I. assert (GP := good_pair _ _ _ _ _ _ _ _ _ _ _ _ _ _ BH sm S1). 
    assert (VZ : forall p, In p (combine sm B) -> o_twodim (c_opt c) = false -> snd (cdot (snd p) k) = 0).
    { intros p Hp D. destruct (Y _ _ (GP p Hp)) as [_ Y2]. rewrite (rv_opt _ _ RV), D in Y2. exact Y2. }
    induction l as [|x l IH]; intros [|r Bl] Hl Hp; try discriminate.
    - unfold rsum. cbn. ring.
    - cbn [combine map]. rewrite !rsum_cons. rewrite (IH Bl ltac:(now injection Hl) (fun p H => Hp p (or_intror H))).
      assert (VZ' := VZ _ (Hp _ (or_introl eq_refl))). cbn [fst snd] in *. clear IH.
      repeat match goal with |- context [rsum ?l] => generalize (rsum l); intros ? end. unfold vis1.
      destruct (o_twodim (c_opt c)).
      + unfold Cminus, Cplus, Copp. cbn [fst snd]. ring.
      + rewrite (VZ' eq_refl). unfold Cminus, Cplus, Copp, RtoC. cbn [fst snd]. ring. }
  etransitivity; [exact (E sm B (pairs_len _ _ _ _ _ _ _ _ _ _ _ _ _ _ BH sm S1) (fun p H => H))|]. rewrite I. ring.
Qed.

Lemma misfit_unique c sm d d' : misfit c sm d -> misfit c sm d' -> d = d'.
Proof.
  intros (z & Z1 & ->) (z' & Z2 & ->). do 2 f_equal. revert z' Z2. induction Z1 as [|x y l k H Z1 IH]; intros z' Z2; inversion Z2; subst; auto.
  f_equal; [eapply yields_unique; eauto|now apply IH].
Qed.

Lemma all_finite_ones {A} (l : list A) : all_finite (map (fun _ => Fin 1) l) = Some (map (fun _ => 1) l).
Proof. induction l as [|a l IH]; [reflexivity|]. cbn [map]. unfold all_finite in *. cbn [fold_right]. cbn in *. rewrite IH. reflexivity. Qed.

Lemma top_variance L t u v lat opts sm c d : analysis L t u v lat opts sm c -> approximate (c_opt c) = false ->
  lstsq_minimises L -> o_method (c_opt c) = PStr "ols" -> misfit c sm d ->
  exists si la s B xraw m W, lat = Some la /\ slvinit (l_parse L) t u v lat (o_epoch (c_opt c)) = Ok si /\
    ut_cnstitsel (si_tref si) (xdiv (Fin (o_rmin (c_opt c))) (Fin (24 * si_lor si))) (o_cnstit (c_opt c)) (o_infer (c_opt c)) = Ok s /\
    fit L (si_t si) (si_u si) (si_v si) (si_tref si) (si_lor si) la (c_opt c) s = Ok (B, xraw, m, W) /\
    forall nm gc gp, gammas L B nm W xraw (model_fit (o_twodim (c_opt c)) B m) = Ok (Some (gc, gp)) ->
      exists iC, l_inv L (gram (cconj_mat B) B (map (fun _ => 1) sm) nm) = Ok iC /\
        gc = map (map (fun z => Cmult z (RtoC (d / (INR (length sm) - INR nm))))) iC.
Proof.
  intros AN NA LM OLS MF. destruct (analysis_run _ _ _ _ _ _ _ _ AN) as (_ & si & la & s & B & xraw & m & W & BH & S1 & S2 & S3).
  assert (HS := an_sorted _ _ _ _ _ _ _ _ AN).
  exists si, la, s, B, xraw, m, W. split; [apply BH|]. split; [apply BH|]. split; [apply BH|]. split; [apply BH|].
  intros nm gc gp. assert (EW : W = map (fun _ => Fin 1) sm).
  { assert (F := bh_fit _ _ _ _ _ _ _ _ _ _ _ _ _ _ BH). unfold fit in F. inv_bind F. destruct (finite_mat a); [|discriminate].
    rewrite OLS in F. cbn [eq_str] in F. rewrite String.eqb_refl in F. inv_bind F. destruct a0 as [[[m' r] k] sg]. apply Ok_inj in F. injection F as _ _ _ <-.
    rewrite S1, map_map. reflexivity. }
  unfold gammas. rewrite EW, all_finite_ones. intros H. inv_bind H. inv_bind H.
  assert (V := run_variance _ _ _ _ _ _ _ _ _ _ _ _ _ _ BH HS NA LM OLS sm S1 S2 S3).
  assert (E1 : map (fun _ : C => 1) xraw = map (fun _ => 1) sm) by (rewrite S2, map_map; reflexivity). rewrite E1 in V.
  destruct (Req_EM_T _ 0) as [|N]; [discriminate|]. cbv zeta in H. rewrite V in H. apply Ok_inj in H. injection H as <- _.
  exists a. split; auto. apply map_ext. intros row. apply map_ext. intros z. do 3 f_equal.
  - assert (RS := own_residuals _ _ _ _ _ _ _ _ _ _ _ _ _ _ BH HS NA LM OLS sm S1 S2 S3) || assert (RS := own_residuals _ _ _ _ _ _ _ _ _ _ _ _ _ _ BH HS NA sm S1).
    apply (misfit_unique c sm); [|exact MF]. unfold residuals in RS.
    exists (map (fun p => Cminus (snd (fst p)) (snd p)) (combine sm (rs c B m sm))). split.
    + clear - RS. induction RS; cbn [combine map]; constructor; auto.
    + unfold norm2, csub. f_equal. clear - RS. induction RS as [|x r l k H RS IH]; [reflexivity|]. cbn [combine map fst snd]. f_equal; [|exact IH].
      unfold Cminus, Cplus, Copp. cbn [fst snd]. ring.
  - rewrite S2, map_length. reflexivity.
Qed.

(** ** C39 *)
Lemma forall2_det {A D} (P : A -> D -> Prop) l a b : (forall x y z, P x y -> P x z -> y = z) -> Forall2 P l a -> Forall2 P l b -> a = b.
Proof. intros H F. revert b. induction F as [|x y l k Hx F IH]; intros b G; inversion G; subst; auto. f_equal; eauto. Qed.

Lemma same_slv parse t u v u' v' lat lat' e si si' : slvinit parse t u v lat e = Ok si -> slvinit parse t u' v' lat' e = Ok si' ->
  si_t si = si_t si' -> si_tref si' = si_tref si /\ si_lor si' = si_lor si /\ si_equi si' = si_equi si.
Proof.
  unfold slvinit. intros H H' E. inv_bind H. inv_bind H. inv_bind H'. inv_bind H'. 
  assert (a0 = a2) by congruence. subst a2.
  match type of H with slv_core ?x ?y ?z = _ => destruct (clean x y z) as [[[T1 t1] u1] v1] eqn:C1; destruct (slv_core_fields _ _ _ _ _ _ _ _ C1 H) as (F1 & F2 & F3 & F4 & F5 & F6) end.
  match type of H' with slv_core ?x ?y ?z = _ => destruct (clean x y z) as [[[T2 t2] u2] v2] eqn:C2; destruct (slv_core_fields _ _ _ _ _ _ _ _ C2 H') as (G1 & G2 & G3 & G4 & G5 & G6) end.
  assert (ET : T1 = T2).
  { transitivity (somes (masked_invalid a0 [])); [|symmetry]; [clear - C1; rename C1 into K|clear - C2; rename C2 into K];
      unfold clean in K; cbv zeta in K;
      match type of K with (if ?b then _ else _) = _ => destruct b end; now injection K. }
  rewrite <- ET in *. rewrite <- F2 in F6. rewrite <- G2, <- E in G6. cbv zeta in F6, G6. destruct F6 as (F6 & F7 & _), G6 as (G6 & G7 & _).
  rewrite F6 in G6. apply Ok_inj in G6. repeat split; [rewrite F7; exact G7|symmetry; exact G6|rewrite F5; exact G5].
Qed.

Lemma affine_vec (tr : bool) s (al be sg : C) m : length m = (2 * (s_nNR s + s_nR s) + 1 + (if tr then 1 else 0))%nat ->
  exists k, length k = length m /\ all_pm k s = map (fun pq => (Cmult al (fst pq), Cmult al (snd pq))) (all_pm m s) /\
    m_last k (if tr then 2 else 1)%nat = Cplus (Cmult al (m_last m (if tr then 2 else 1)%nat)) be /\
    (tr = true -> m_last k 1 = Cplus (Cmult al (m_last m 1)) sg).
Proof.
  intros Hm. destruct (split_m tr _ _ m Hm) as (a & b & p & q & mn & sl & -> & La & Lb & Lp & Lq).
  exists (cat_m tr (map (Cmult al) a) (map (Cmult al) b) (map (Cmult al) p) (map (Cmult al) q) (Cplus (Cmult al mn) be) (Cplus (Cmult al sl) sg)).
  split; [rewrite !cat_m_len, !map_length; reflexivity|].
  destruct (cat_last tr a b p q mn sl) as [C1 C2].
  destruct (cat_last tr (map (Cmult al) a) (map (Cmult al) b) (map (Cmult al) p) (map (Cmult al) q) (Cplus (Cmult al mn) be) (Cplus (Cmult al sl) sg)) as [D1 D2].
  rewrite C1, D1. split; [|split; [reflexivity|intros T; rewrite (C2 T), (D2 T); reflexivity]].
  rewrite !cat_pm by (rewrite ?map_length; congruence). rewrite !inferred_scal, !combine_scal, !map_app. reflexivity.
Qed.

Lemma hsum_scal al es pq : hsum es (map (fun pq => (Cmult al (fst pq), Cmult al (snd pq))) pq) = Cmult al (hsum es pq).
Proof.
  revert pq. induction es as [|e es IH]; intros [|x pq]; cbn [map]; try (unfold hsum; cbn; ring).
  assert (E : forall y l, hsum (e :: es) (y :: l) = Cplus (Cplus (Cmult e (fst y)) (Cmult (Cconj e) (snd y))) (hsum es l)) by reflexivity.
  rewrite !E, IH. cbn [fst snd]. ring.
Qed.

Lemma visible_scal tw al p q : (tw = false -> snd al = 0) ->
  visible tw (Cmult al p, Cmult al q) = (Cmult al (fst (visible tw (p, q))), Cmult al (snd (visible tw (p, q)))).
Proof.
  intros H. unfold visible. destruct tw; [reflexivity|]. cbv zeta. specialize (H eq_refl). destruct al as [a b]. cbn [snd] in H. subst b.
  cbn [fst snd]. f_equal; apply C_eq; unfold Cplus, Cmult, Cconj, RtoC; cbn [fst snd]; ring.
Qed.
Lemma vis1_affine tw al z be : (tw = false -> snd al = 0) -> vis1 tw (Cplus (Cmult al z) be) = vis1 tw (Cplus (Cmult al (vis1 tw z)) be).
Proof. intros H. unfold vis1. destruct tw; [reflexivity|]. unfold Cplus, Cmult, RtoC. cbn [fst snd]. rewrite (H eq_refl). f_equal. ring. Qed.

Lemma top_affine L t u v u' v' lat opts sm c c' al be ga :
  let sm' := map (fun x => (fst x, Cplus (Cplus (Cmult al (snd x)) be) (Cmult (RtoC (fst x - c_reftime c)) ga))) sm in
  analysis L t u v lat opts sm c -> analysis L t u' v' lat opts sm' c' -> is2d v = is2d v' ->
  approximate (c_opt c) = false -> lstsq_minimises L -> o_method (c_opt c) = PStr "ols" ->
  identifiable c (map fst sm) -> NoDup (c_name c) ->
  (o_twodim (c_opt c) = false -> snd al = 0) -> (o_notrend (c_opt c) = true -> ga = RtoC 0) ->
  c_opt c' = c_opt c /\ c_reftime c' = c_reftime c /\
  Permutation (triples c') (map (turned al) (triples c)) /\
  mnC c' = vis1 (o_twodim (c_opt c)) (Cplus (Cmult al (mnC c)) be) /\
  (o_notrend (c_opt c) = false -> slC c' = vis1 (o_twodim (c_opt c)) (Cplus (Cmult al (slC c)) ga)) /\
  well_formed c /\ well_formed c'.
Proof.
  intros sm' AN AN' D2 NA LM OLS ID ND Hal Hga.
  destruct (analysis_run _ _ _ _ _ _ _ _ AN) as (_ & si & la & s & B & xraw & m & W & BH & S1 & S2 & S3).
  destruct (analysis_run _ _ _ _ _ _ _ _ AN') as (_ & si' & la' & s' & B' & xraw' & m' & W' & BH' & S1' & S2' & S3').
  assert (HS := an_sorted _ _ _ _ _ _ _ _ AN).
  assert (Et : si_t si = si_t si').
  { rewrite S1, S1'. unfold sm'. rewrite map_map. reflexivity. }
  destruct (solve_opt _ _ _ _ _ _ _ (an_solve _ _ _ _ _ _ _ _ AN)) as (compat & sx & O1 & O2 & O3).
  destruct (solve_opt _ _ _ _ _ _ _ (an_solve _ _ _ _ _ _ _ _ AN')) as (compat' & sx' & O1' & O2' & O3').
  rewrite <- D2, O1 in O1'. apply Ok_inj in O1'. subst compat'.
  destruct (used_options opts (is2d v) (si_equi sx) (an_keys _ _ _ _ _ _ _ _ AN) compat _ O1 O3) as
      (_ & _ & _ & Eq & _ & _ & _ & _ & _ & _ & _ & _ & _ & _ & _ & _ & _ & _ & Ep1 & Ep2 & _).
  rewrite <- D2 in O3'.
  destruct (used_options opts (is2d v) (si_equi sx') (an_keys _ _ _ _ _ _ _ _ AN) compat _ O1 O3') as
      (_ & _ & _ & Eq' & _ & _ & _ & _ & _ & _ & _ & _ & _ & _ & _ & _ & _ & _ & Ep1' & Ep2' & _).
  assert (SI := bh_slv _ _ _ _ _ _ _ _ _ _ _ _ _ _ BH). assert (SI' := bh_slv _ _ _ _ _ _ _ _ _ _ _ _ _ _ BH').
  assert (sx = si) by (rewrite Ep2, <- Ep1, SI in O2; apply Ok_inj in O2; congruence).
  assert (sx' = si') by (rewrite Ep2', <- Ep1', SI' in O2'; apply Ok_inj in O2'; congruence). subst sx sx'.
  assert (Ee : o_epoch (c_opt c') = o_epoch (c_opt c)) by congruence. rewrite Ee in SI'.
  destruct (same_slv _ _ _ _ _ _ _ _ _ _ _ SI SI' Et) as (E1 & E2 & E3).
  assert (Eo : c_opt c' = c_opt c). { rewrite E3, O3 in O3'. apply Ok_inj in O3'. congruence. }
  assert (El : la' = la). { assert (X := bh_lat _ _ _ _ _ _ _ _ _ _ _ _ _ _ BH). assert (X' := bh_lat _ _ _ _ _ _ _ _ _ _ _ _ _ _ BH'). congruence. }
  assert (Es : s' = s).
  { assert (X := bh_sel _ _ _ _ _ _ _ _ _ _ _ _ _ _ BH). assert (X' := bh_sel _ _ _ _ _ _ _ _ _ _ _ _ _ _ BH').
    rewrite Eo, E1, E2, X in X'. apply Ok_inj in X'. congruence. }
  subst s' la'.
  destruct (run_rows _ _ _ _ _ _ _ _ _ _ _ _ _ _ BH) as (G & _ & _). destruct (run_rows _ _ _ _ _ _ _ _ _ _ _ _ _ _ BH') as (G' & _ & _).
  rewrite E1, E2, Eo, <- Et in G'.
  assert (EB : B' = B).
  { eapply forall2_det; [|exact G'|exact G]. intros x y z Hy Hz. unfold good_row in *. rewrite Hy in Hz. now apply somes_inj in Hz. }
  subst B'. clear G'.
  assert (Lm := bh_len _ _ _ _ _ _ _ _ _ _ _ _ _ _ BH). assert (Lm' := bh_len _ _ _ _ _ _ _ _ _ _ _ _ _ _ BH'). rewrite Eo in Lm'.
  assert (Eref : c_reftime c = si_tref si) by apply BH.
  set (tr := negb (o_notrend (c_opt c))).
  assert (Lm2 : length m = (2 * (s_nNR s + s_nR s) + 1 + (if tr then 1 else 0))%nat).
  { rewrite Lm. unfold ncoef, tr. destruct (o_notrend (c_opt c)); reflexivity. }
  destruct (affine_vec tr s al be (Cmult (RtoC (si_lor si)) ga) m Lm2) as (k & K1 & K2 & K3 & K4).
  assert (KR : forall x row, good_row (si_tref si) (si_lor si) la (c_opt c) s x row ->
    cdot row k = Cplus (Cplus (Cmult al (cdot row m)) be) (Cmult (RtoC (x - c_reftime c)) ga)).
  { intros x row Gx. destruct (run_row _ _ _ _ _ _ _ _ _ _ _ _ _ _ BH NA x row m Gx Lm) as (es & R1 & R2 & R3 & R4).
    destruct (run_row _ _ _ _ _ _ _ _ _ _ _ _ _ _ BH NA x row k Gx ltac:(congruence)) as (es' & R1' & _ & _ & R4').
    assert (es' = es) by (apply somes_inj; congruence). subst es'. fold tr in R3, R4, R4'. rewrite R4, R4', K2, K3, hsum_scal, Eref.
    destruct tr eqn:T.
    - rewrite (K4 eq_refl). assert (Hz := R3 eq_refl).
      assert (Q' : RtoC (si_lor si) <> RtoC 0) by (intros Hq; apply Hz; now apply RtoC_inj). field. exact Q'.
    - rewrite Hga by (unfold tr in T; now apply Bool.negb_false_iff in T). ring. }
  assert (BST : best (sys B xraw') k).
  { apply orth_best. intros d Hd. assert (BO := best_orth _ _ (run_best _ _ _ _ _ _ _ _ _ _ _ _ _ _ BH LM OLS)).
    assert (F := paired _ _ _ _ _ _ _ _ _ _ _ _ _ _ BH sm S1).
    assert (O1d := BO d ltac:(congruence)). assert (O2d := BO (map (Cmult (Cconj al)) d) ltac:(rewrite map_length; congruence)).
    clear O1d. rewrite S2' . rewrite S2 in O2d. unfold sm'. unfold ip, sys in *. rewrite <- O2d. clear - F KR.
    induction F as [|x row l B' Gx F IH]; [reflexivity|]. cbn [map combine]. rewrite !rsum_cons, IH. f_equal.
    unfold resid. cbn [fst snd]. rewrite (KR _ _ Gx), cdot_scal. clear. generalize (cdot row m) (cdot row d). intros z w.
    destruct z as [z1 z2], w as [w1 w2], al as [a1 a2], be as [b1 b2], ga as [g1 g2], x as [x [y1 y2]].
    unfold Cminus, Cplus, Copp, Cmult, Cconj, RtoC. cbn [fst snd]. ring. }
  assert (BST' : best (sys B xraw') m') by (eapply run_best; eauto; congruence).
  assert (LX : length xraw' = length xraw) by (rewrite S2, S2'; unfold sm'; rewrite !map_length; reflexivity).
  assert (LR := len_rows _ _ _ _ _ _ _ _ _ _ _ _ _ _ BH sm S1 S2).
  assert (IND := run_independent _ _ _ _ _ _ _ _ _ _ _ _ _ _ BH HS NA (map fst sm) ltac:(intros; rewrite S1; tauto) ID ND LR).
  assert (EK : m' = k).
  { apply (best_unique (sys B xraw')); auto; [congruence|]. rewrite Lm'. intros d Hd Z. apply (IND d Hd). intros p Hp.
    unfold sys in *. destruct p as [row y]. cbn [fst]. assert (exists y', In (row, y') (combine B xraw')) as (y' & Hy').
    { apply in_combine_l in Hp. clear - Hp LX LR. rewrite <- LX in LR. revert LR Hp. generalize xraw'. induction B as [|r B' IH]; intros [|z l] E H; try discriminate; [destruct H..|].
      destruct H as [->|H]; [exists z; now left|]. destruct (IH l ltac:(now injection E) H) as (y' & Hy). exists y'. now right. }
    exact (Z _ Hy'). }
  subst m'. assert (Wf := bh_wf _ _ _ _ _ _ _ _ _ _ _ _ _ _ BH). assert (Wf' := bh_wf _ _ _ _ _ _ _ _ _ _ _ _ _ _ BH').
  split; [exact Eo|]. split; [rewrite Eref, (bh_tref _ _ _ _ _ _ _ _ _ _ _ _ _ _ BH'); exact E1|].
  split.
  { assert (P := bh_tri _ _ _ _ _ _ _ _ _ _ _ _ _ _ BH HS). assert (P' := bh_tri _ _ _ _ _ _ _ _ _ _ _ _ _ _ BH' HS).
    apply (Permutation_map (turned al)) in P. rewrite P, P'. apply Permutation_refl'. rewrite Eo, K2.
    generalize (combine (s_name s) (s_lind s)) (all_pm m s). clear - Hal. intros l l'. revert l.
    induction l' as [|[p q] l' IH]; intros [|x l]; cbn [map combine]; auto. f_equal; [|apply IH].
    cbn [fst snd]. rewrite visible_scal by assumption. reflexivity. }
  split; [|split; [|split; assumption]].
  - rewrite (bh_mn _ _ _ _ _ _ _ _ _ _ _ _ _ _ BH), (bh_mn _ _ _ _ _ _ _ _ _ _ _ _ _ _ BH'). cbv zeta. rewrite Eo.
    fold (vis1 (o_twodim (c_opt c)) (m_last m (if o_notrend (c_opt c) then 1 else 2))).
    fold (vis1 (o_twodim (c_opt c)) (m_last k (if o_notrend (c_opt c) then 1 else 2))).
    rewrite <- vis1_affine by assumption. f_equal. unfold tr in K3. destruct (o_notrend (c_opt c)); exact K3.
  - intros N. assert (T : tr = true) by (unfold tr; now rewrite N).
    rewrite (bh_sl _ _ _ _ _ _ _ _ _ _ _ _ _ _ BH N), (bh_sl _ _ _ _ _ _ _ _ _ _ _ _ _ _ BH') by congruence. cbv zeta. rewrite Eo, E2.
    fold (vis1 (o_twodim (c_opt c)) (Cdiv (m_last m 1) (RtoC (si_lor si)))).
    fold (vis1 (o_twodim (c_opt c)) (Cdiv (m_last k 1) (RtoC (si_lor si)))).
    rewrite <- vis1_affine by assumption. f_equal. rewrite (K4 T).
    assert (Hz := lor_nonzero _ _ _ _ _ _ _ _ _ _ _ _ _ _ BH NA T).
    assert (Q' : RtoC (si_lor si) <> RtoC 0) by (intros Hq; apply Hz; now apply RtoC_inj). field. exact Q'.
Qed.
