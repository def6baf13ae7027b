(** Sums of data, residuals analysed again, components of vector data. *)
From Coq Require Import Lia Lra Permutation.
From Verif Require Import M_Base M_Bunch M_Lib M_Tables M_Const M_Options M_Time M_Slvinit M_Harmonics M_Select M_Ellipse
  M_Robust M_Period M_Conf M_Diag M_Solve M_Recon S_Dict S_Options S_Order S_Basis S_Select S_Fit S_Ellipse S_Slv S_Recon S_Model S_Super
  L_Base L_Options L_SolveInv L_OptSolve L_Slv L_Slv2 L_Order L_Select L_Fit L_Align L_SelOrder L_Basis L_Angle L_Ellipse L_Recon L_Recon2 L_Recon3 L_Core
  L_Ellipse2 L_Model L_Lsq L_Model2 L_Model3 L_Model4 L_Model5 L_Model6 L_Model7 L_Model8 L_Model9 L_Model10 L_Model11 L_Model12 L_Model15 L_Super L_Super2.
Open Scope R_scope.
Open Scope string_scope.

Definition trof (c : coef) : bool := negb (o_notrend (c_opt c)).
Lemma tr_len c s : ncoef (c_opt c) s = (2 * (s_nNR s + s_nR s) + 1 + (if trof c then 1 else 0))%nat.
Proof. unfold ncoef, trof. destruct (o_notrend (c_opt c)); reflexivity. Qed.

(** ** the combination [al a + be b] for coefficient sets a, b and an analysis c of the combined data *)
Section Core.
Variables (L : lib) (t : pyarr tarray) (u : pyarr (list xr)) (v : option (pyarr (list xr))) (lat : option R) (opts : dict pyval) (sm : list (R * C)) (c : coef).
Variables (si : slv) (la : R) (s : sel) (B : list (list C)) (m : list C) (W : list xr).
Hypothesis BH : behind L t u v lat opts c si la s B (map snd sm) m W.
Hypothesis HS : sorted_order (opt_value opts "order_constit").
Hypothesis NA : approximate (c_opt c) = false.
Hypothesis LM : lstsq_minimises L.
Hypothesis OLS : o_method (c_opt c) = PStr "ols".
Hypothesis S1 : si_t si = map fst sm.
Hypothesis S3 : o_twodim (c_opt c) = false -> forall x, In x sm -> snd (snd x) = 0.
Hypothesis ID : identifiable c (map fst sm).
Hypothesis ND : NoDup (c_name c).
Variables (a b : coef) (ka kb ya yb : list C) (al be : C).
Hypotheses (Wa : well_formed a) (Wb : well_formed b).
Hypotheses (Ea : flags_of (c_opt a) = flags_of (c_opt c)) (Eb : flags_of (c_opt b) = flags_of (c_opt c)).
Hypotheses (Ra : c_reftime a = c_reftime c) (Rb : c_reftime b = c_reftime c) (La : c_lat a = c_lat c) (Lb : c_lat b = c_lat c).
Hypotheses (Na : o_notrend (c_opt a) = o_notrend (c_opt c)) (Nb : o_notrend (c_opt b) = o_notrend (c_opt c)).
Hypotheses (Ma : matches c si s a ka) (Mb : matches c si s b kb).
Hypotheses (Ya : length ya = length B) (Yb : length yb = length B) (Ba : best (sys B ya) ka) (Bb : best (sys B yb) kb).
Hypothesis D : map snd sm = lin2 al be ya yb.

Lemma core_matches : matches c si s c (lin2 al be ka kb).
Proof.
  destruct (own_best _ _ _ _ _ _ _ _ _ _ _ _ _ _ BH HS NA LM OLS S1 S3) as (k & M & Bk).
  assert (Lk : length kb = length ka) by (rewrite (mt_len _ _ _ _ _ Ma), (mt_len _ _ _ _ _ Mb); reflexivity).
  assert (k = lin2 al be ka kb) as <-; [|exact M].
  apply (best_unique (sys B (map snd sm))); auto.
  - rewrite D. now apply lin2_best.
  - rewrite lin2_len by exact Lk. rewrite (mt_len _ _ _ _ _ Ma), (mt_len _ _ _ _ _ M). reflexivity.
  - rewrite (mt_len _ _ _ _ _ M). eapply own_independent; eauto. rewrite D, lin2_len by congruence. exact Ya.
Qed.

Lemma core : (forall ra rb rc n, In ra (rows a) -> In rb (rows b) -> In rc (rows c) -> w_name ra = Some n -> w_name rb = Some n -> w_name rc = Some n ->
    exists p q, rotary ra = Some p /\ rotary rb = Some q /\ rotary rc = Some (pair2 al be p q) /\ w_lind ra = w_lind rc /\ w_lind rb = w_lind rc) /\
  mnC c = Cplus (Cmult al (mnC a)) (Cmult be (mnC b)) /\
  (o_notrend (c_opt c) = false -> slC c = Cplus (Cmult al (slC a)) (Cmult be (slC b))) /\
  (forall x, valC c x = match valC a x, valC b x with Some za, Some zb => Some (Cplus (Cmult al za) (Cmult be zb)) | _, _ => None end).
Proof.
  assert (Mc := core_matches). assert (Wc := bh_wf _ _ _ _ _ _ _ _ _ _ _ _ _ _ BH). assert (SL := run_lens _ _ _ _ _ _ _ _ _ _ _ _ _ _ BH).
  assert (Lk : length kb = length ka) by (rewrite (mt_len _ _ _ _ _ Ma), (mt_len _ _ _ _ _ Mb); reflexivity).
  assert (Lka := mt_len _ _ _ _ _ Ma). rewrite tr_len in Lka.
  assert (NN : o_notrend (c_opt c) = negb (trof c)) by (unfold trof; now destruct (o_notrend (c_opt c))).
  destruct (own_names _ _ _ _ _ _ _ _ _ _ _ _ _ _ BH HS ND) as (NS & _).
  destruct Ma as [_ A2 A3 A4], Mb as [_ B2 B3 B4], Mc as [_ C2 C3 C4]. fold (trof c) in *.
  split; [|split; [|split]].
  - intros ra rb rc n. eapply combined_row; eauto.
  - eapply combined_mean; eauto.
  - intros T. eapply combined_slope; eauto. unfold trof. now rewrite T.
  - intros x. eapply combined_val; eauto; congruence.
Qed.
End Core.

Lemma lin2_one x y : lin2 (RtoC 1) (RtoC 1) x y = map (fun p => Cplus (fst p) (snd p)) (combine x y).
Proof. unfold lin2. apply map_ext. intros p. ring. Qed.

Lemma same_infer L t u v u' v' lat opts sm sm' c c' : analysis L t u v lat opts sm c -> analysis L t u' v' lat opts sm' c' -> is2d v' = is2d v ->
  o_infer (c_opt c') = o_infer (c_opt c).
Proof.
  intros AN AN' E. destruct (solve_opt _ _ _ _ _ _ _ (an_solve _ _ _ _ _ _ _ _ AN)) as (compat & sx & O1 & O2 & O3).
  destruct (solve_opt _ _ _ _ _ _ _ (an_solve _ _ _ _ _ _ _ _ AN')) as (compat' & sx' & O1' & O2' & O3').
  destruct (used_options opts (is2d v) (si_equi sx) (an_keys _ _ _ _ _ _ _ _ AN) compat _ O1 O3) as
      (_ & _ & _ & _ & _ & _ & _ & _ & _ & _ & _ & _ & _ & _ & _ & _ & _ & _ & _ & _ & (i & V1 & V2) & _).
  destruct (used_options opts (is2d v') (si_equi sx') (an_keys _ _ _ _ _ _ _ _ AN) compat' _ O1' O3') as
      (_ & _ & _ & _ & _ & _ & _ & _ & _ & _ & _ & _ & _ & _ & _ & _ & _ & _ & _ & _ & (i' & V1' & V2') & _).
  rewrite E, V1 in V1'. apply Ok_inj in V1'. subst i'. rewrite V2 in V2'. apply Ok_inj in V2'. now symmetry.
Qed.
Lemma same_twodim L t u v u' v' lat opts sm sm' c c' : analysis L t u v lat opts sm c -> analysis L t u' v' lat opts sm' c' -> is2d v' = is2d v ->
  o_twodim (c_opt c') = o_twodim (c_opt c).
Proof.
  intros AN AN' E. destruct (analysis_run _ _ _ _ _ _ _ _ AN) as (_ & si & la & s & B & xraw & m & W & BH & _).
  destruct (analysis_run _ _ _ _ _ _ _ _ AN') as (_ & si' & la' & s' & B' & xraw' & m' & W' & BH' & _).
  rewrite (bh_tw _ _ _ _ _ _ _ _ _ _ _ _ _ _ BH), (bh_tw _ _ _ _ _ _ _ _ _ _ _ _ _ _ BH'). exact E.
Qed.

(** another analysis of the same times, seen from c *)
Lemma other L t u v u' v' lat opts sm sm' c c' : analysis L t u v lat opts sm c -> analysis L t u' v' lat opts sm' c' ->
  map fst sm' = map fst sm -> o_infer (c_opt c') = o_infer (c_opt c) -> lstsq_minimises L -> approximate (c_opt c) = false -> o_method (c_opt c) = PStr "ols" ->
  NoDup (c_name c) ->
  forall si la s B xraw m W, behind L t u v lat opts c si la s B xraw m W ->
  exists k, matches c si s c' k /\ best (sys B (map snd sm')) k /\ length (map snd sm') = length B /\ well_formed c' /\
    flags_of (c_opt c') = flags_of (c_opt c) /\ c_reftime c' = c_reftime c /\ c_lat c' = c_lat c /\ o_notrend (c_opt c') = o_notrend (c_opt c) /\
    Permutation (c_name c') (c_name c) /\
    (o_twodim (c_opt c') = false -> forall x, In x sm' -> snd (snd x) = 0).
Proof.
  intros AN AN' ES EI LM NA OLS ND si la s B xraw m W BH.
  destruct (coupled _ _ _ _ _ _ _ _ _ _ _ _ AN AN' ES EI) as (EF & EN & EM & si0 & si' & la0 & s0 & B0 & m0 & m' & W0 & W' & BH0 & BH' & T1 & T2 & E1 & E2 & X1 & X2).
  assert (si0 = si).
  { assert (Q := bh_slv _ _ _ _ _ _ _ _ _ _ _ _ _ _ BH). assert (Q0 := bh_slv _ _ _ _ _ _ _ _ _ _ _ _ _ _ BH0). rewrite Q in Q0. apply Ok_inj in Q0. congruence. }
  subst si0. assert (la0 = la) by (assert (Q := bh_lat _ _ _ _ _ _ _ _ _ _ _ _ _ _ BH); assert (Q0 := bh_lat _ _ _ _ _ _ _ _ _ _ _ _ _ _ BH0); congruence). subst la0.
  assert (s0 = s).
  { assert (Q := bh_sel _ _ _ _ _ _ _ _ _ _ _ _ _ _ BH). assert (Q0 := bh_sel _ _ _ _ _ _ _ _ _ _ _ _ _ _ BH0). rewrite Q in Q0. apply Ok_inj in Q0. congruence. }
  subst s0. assert (B0 = B).
  { assert (Q := bh_fit _ _ _ _ _ _ _ _ _ _ _ _ _ _ BH). assert (Q0 := bh_fit _ _ _ _ _ _ _ _ _ _ _ _ _ _ BH0). rewrite Q in Q0. apply Ok_inj in Q0.
    apply (f_equal (fun z => fst (fst (fst z)))) in Q0. cbn [fst] in Q0. congruence. }
  subst B0. assert (HS := an_sorted _ _ _ _ _ _ _ _ AN). assert (NA' : approximate (c_opt c') = false) by (unfold approximate in *; now rewrite EI).
  assert (T2' : si_t si' = map fst sm') by congruence.
  destruct (own_best _ _ _ _ _ _ _ _ _ _ _ _ _ _ BH' HS NA' LM (eq_trans EM OLS) T2' X2) as (k & M & Bk).
  exists k. split.
  { destruct M as [M1 M2 M3 M4]. rewrite EN in M3, M4. constructor; auto.
    - rewrite M1. unfold ncoef. now rewrite EN.
    - intros T. rewrite (M4 T), E2. reflexivity. }
  split; [exact Bk|]. split; [exact (len_rows _ _ _ _ _ _ _ _ _ _ _ _ _ _ BH' sm' T2' eq_refl)|].
  split; [apply BH'|]. split; [exact EF|].
  split; [now rewrite (bh_tref _ _ _ _ _ _ _ _ _ _ _ _ _ _ BH), (bh_tref _ _ _ _ _ _ _ _ _ _ _ _ _ _ BH')|].
  split; [now rewrite (bh_la _ _ _ _ _ _ _ _ _ _ _ _ _ _ BH), (bh_la _ _ _ _ _ _ _ _ _ _ _ _ _ _ BH')|].
  split; [exact EN|]. split; [|exact X2].
  destruct (own_names _ _ _ _ _ _ _ _ _ _ _ _ _ _ BH0 HS ND) as (ND' & P0).
  assert (P' : Permutation (c_name c') (s_name s)).
  { assert (SL := run_lens _ _ _ _ _ _ _ _ _ _ _ _ _ _ BH'). assert (WF := bh_wf _ _ _ _ _ _ _ _ _ _ _ _ _ _ BH').
    assert (A2 : length (c_lind c') = length (c_name c')) by apply WF.
    assert (TR := bh_tri _ _ _ _ _ _ _ _ _ _ _ _ _ _ BH' HS). apply (Permutation_map (fun x => fst (fst x))) in TR.
    rewrite <- !(map_map fst fst) in TR. rewrite triples_fst in TR by assumption.
    rewrite combine_fst in TR by congruence.
    rewrite combine_fst in TR by (rewrite map_length, (bh_pm _ _ _ _ _ _ _ _ _ _ _ _ _ _ BH'), combine_length, (ln_lind _ SL); lia).
    rewrite combine_fst in TR by (now rewrite (ln_lind _ SL)). exact TR. }
  rewrite P'. now apply Permutation_sym.
Qed.

Lemma Some_eq2 {A} (x y : A) : Some x = Some y -> x = y. Proof. congruence. Qed.

Lemma mean_vis c z : mean_is c z <-> mean_is c (vis1 (o_twodim (c_opt c)) z).
Proof. unfold mean_is, vis1. destruct (o_twodim (c_opt c)); tauto. Qed.
Lemma vis1_add tw z w : vis1 tw (Cplus z w) = Cplus (vis1 tw z) (vis1 tw w).
Proof. unfold vis1. destruct tw; [reflexivity|]. apply C_eq; cbn; ring. Qed.

Lemma sum_from_core a b c : well_formed a -> well_formed b -> well_formed c ->
  o_twodim (c_opt a) = o_twodim (c_opt c) -> o_twodim (c_opt b) = o_twodim (c_opt c) -> o_notrend (c_opt a) = o_notrend (c_opt c) -> o_notrend (c_opt b) = o_notrend (c_opt c) ->
  (forall ra rb rc n, In ra (rows a) -> In rb (rows b) -> In rc (rows c) -> w_name ra = Some n -> w_name rb = Some n -> w_name rc = Some n ->
    exists p q, rotary ra = Some p /\ rotary rb = Some q /\ rotary rc = Some (pair2 (RtoC 1) (RtoC 1) p q) /\ w_lind ra = w_lind rc /\ w_lind rb = w_lind rc) ->
  mnC c = Cplus (Cmult (RtoC 1) (mnC a)) (Cmult (RtoC 1) (mnC b)) ->
  (o_notrend (c_opt c) = false -> slC c = Cplus (Cmult (RtoC 1) (slC a)) (Cmult (RtoC 1) (slC b))) ->
  (forall x, valC c x = match valC a x, valC b x with Some za, Some zb => Some (Cplus (Cmult (RtoC 1) za) (Cmult (RtoC 1) zb)) | _, _ => None end) ->
  sum_of a b c.
Proof.
  intros Wa Wb Wc Da Db Na Nb H1 H2 H3 H4. split; [|split; [|split]].
  - intros ra rb rc Ha Hb Hc E1 E2. destruct (w_name_some _ _ Hc) as [n Hn]. rewrite Hn in E1, E2.
    destruct (H1 _ _ _ _ Ha Hb Hc E1 E2 Hn) as ([p q] & [p' q'] & R1 & R2 & R3 & _). exists p, q, p', q'. split; [exact R1|]. split; [exact R2|].
    rewrite R3. unfold pair2. cbn [fst snd]. do 2 f_equal; ring.
  - intros z z' Hz Hz'. apply mnC_mean; auto. apply (mean_mnC _ _ Wa) in Hz. apply (mean_mnC _ _ Wb) in Hz'. rewrite Da in Hz. rewrite Db in Hz'.
    rewrite vis1_add, Hz, Hz', H2. ring.
  - intros N z z' Hz Hz'. apply slC_slope; auto. apply (slope_slC _ _ Wa) in Hz. apply (slope_slC _ _ Wb) in Hz'. rewrite Da in Hz. rewrite Db in Hz'.
    rewrite vis1_add, Hz, Hz', (H3 N). ring.
  - intros x. destruct (recon_valC a x Wa) as (A1 & A2 & _), (recon_valC b x Wb) as (B1 & B2 & _), (recon_valC c x Wc) as (C1 & C2 & _).
    rewrite A1, B1, C1, H4. split.
    + destruct (valC a x), (valC b x); cbn [xfst xplus]; auto. f_equal. cbn. ring.
    + intros T. rewrite (C2 T), A2, B2, H4 by congruence. destruct (valC a x), (valC b x); cbn [xsnd xplus]; auto. f_equal. cbn. ring.
Qed.

Lemma top_sum L t ua va ub vb uc vc lat opts sa sb sc a b c :
  analysis L t ua va lat opts sa a -> analysis L t ub vb lat opts sb b -> analysis L t uc vc lat opts sc c -> is2d va = is2d vc -> is2d vb = is2d vc ->
  summed sa sb sc -> approximate (c_opt c) = false -> lstsq_minimises L -> o_method (c_opt c) = PStr "ols" ->
  identifiable c (map fst sc) -> NoDup (c_name c) ->
  Permutation (c_name a) (c_name c) /\ Permutation (c_name b) (c_name c) /\ sum_of a b c.
Proof.
  intros ANa ANb AN Da Db (Ta & Tb & D) NA LM OLS ID ND.
  destruct (analysis_run _ _ _ _ _ _ _ _ AN) as (_ & si & la & s & B & xraw & m & W & BH & S1 & S2 & S3). subst xraw.
  destruct (other _ _ _ _ _ _ _ _ _ _ _ _ AN ANa Ta (same_infer _ _ _ _ _ _ _ _ _ _ _ _ AN ANa Da) LM NA OLS ND _ _ _ _ _ _ _ BH) as (ka & Ma & Ba & Ya & Wa & Fa & Ra & La & Na & Pa & _).
  destruct (other _ _ _ _ _ _ _ _ _ _ _ _ AN ANb Tb (same_infer _ _ _ _ _ _ _ _ _ _ _ _ AN ANb Db) LM NA OLS ND _ _ _ _ _ _ _ BH) as (kb & Mb & Bb & Yb & Wb & Fb & Rb & Lb & Nb & Pb & _).
  split; [exact Pa|]. split; [exact Pb|].
  rewrite <- lin2_one in D.
  destruct (core _ _ _ _ _ _ _ _ _ _ _ _ _ _ BH (an_sorted _ _ _ _ _ _ _ _ AN) NA LM OLS S1 S3 ID ND a b ka kb _ _ (RtoC 1) (RtoC 1) Wa Wb Fa Fb Ra Rb La Lb Na Nb Ma Mb Ya Yb Ba Bb D)
    as (H1 & H2 & H3 & H4).
  apply sum_from_core; auto.
  - apply BH.
  - eapply same_twodim; eauto.
  - eapply same_twodim; eauto.
Qed.

(** a tide that the model can represent, added to the data, is added to the result *)
Lemma top_tide_added L t ua va uc vc lat opts sa sb sc a b c :
  analysis L t ua va lat opts sa a -> analysis L t uc vc lat opts sc c -> is2d va = is2d vc -> rival c b -> Forall (fun x => yields b (fst x) (snd x)) sb ->
  summed sa sb sc -> approximate (c_opt c) = false -> lstsq_minimises L -> o_method (c_opt c) = PStr "ols" ->
  identifiable c (map fst sc) -> NoDup (c_name c) ->
  Permutation (c_name a) (c_name c) /\ sum_of a b c.
Proof.
  intros ANa AN Da RV Yb' (Ta & Tb & D) NA LM OLS ID ND.
  destruct (analysis_run _ _ _ _ _ _ _ _ AN) as (_ & si & la & s & B & xraw & m & W & BH & S1 & S2 & S3). subst xraw.
  destruct (other _ _ _ _ _ _ _ _ _ _ _ _ AN ANa Ta (same_infer _ _ _ _ _ _ _ _ _ _ _ _ AN ANa Da) LM NA OLS ND _ _ _ _ _ _ _ BH) as (ka & Ma & Ba & Ya & Wa & Fa & Ra & La & Na & Pa & _).
  destruct (rival_yields _ _ _ _ _ _ _ _ _ _ _ _ _ _ BH (an_sorted _ _ _ _ _ _ _ _ AN) NA b RV) as (kb & Mb & YB).
  assert (P := paired _ _ _ _ _ _ _ _ _ _ _ _ _ _ BH sc S1).
  assert (EB : map snd sb = map (fun row => cdot row kb) B).
  { clear - Tb P YB Yb'. revert sb Tb Yb'. induction P as [|x row l B' G P IH]; intros [|y sb] Tb Yb'; try discriminate; [reflexivity|].
    cbn [map] in *. injection Tb as Tx Tb. apply Forall_cons_iff in Yb'. destruct Yb' as [Y1 Y2]. f_equal; [|now apply IH].
    rewrite Tx in Y1. exact (yields_unique _ _ _ _ Y1 (YB _ _ G)). }
  assert (Yb : length (map snd sb) = length B) by (rewrite EB; apply map_length).
  assert (Bb : best (sys B (map snd sb)) kb).
  { intros m' _. rewrite EB. replace (nrm (resid kb) (sys B (map (fun row => cdot row kb) B))) with 0; [apply nrm_nonneg|].
    symmetry. unfold nrm, sys, resid. clear. induction B as [|r B IH]; [reflexivity|]. cbn [map combine]. rewrite rsum_cons, IH. cbn [fst snd]. unfold Cminus, Cplus, Copp. cbn [fst snd]. ring. }
  split; [exact Pa|]. rewrite <- lin2_one in D. destruct RV as [Wb E1 E2 E3 E4 E5 E6].
  destruct (core _ _ _ _ _ _ _ _ _ _ _ _ _ _ BH (an_sorted _ _ _ _ _ _ _ _ AN) NA LM OLS S1 S3 ID ND a b ka kb _ _ (RtoC 1) (RtoC 1) Wa Wb Fa ltac:(now rewrite E5) Ra E3 La E4 Na ltac:(now rewrite E5) Ma Mb Ya Yb Ba Bb D)
    as (H1 & H2 & H3 & H4).
  apply sum_from_core; auto; try congruence.
  - apply BH.
  - eapply same_twodim; eauto.
Qed.

(** the residuals of an analysis, analysed again, give nothing *)
Lemma top_again L t u v u' v' lat opts sm sm' c c' :
  analysis L t u v lat opts sm c -> analysis L t u' v' lat opts sm' c' -> is2d v = is2d v' ->
  map fst sm' = map fst sm -> residuals c sm (map snd sm') -> approximate (c_opt c) = false -> lstsq_minimises L -> o_method (c_opt c) = PStr "ols" ->
  identifiable c (map fst sm) -> NoDup (c_name c) -> Permutation (c_name c') (c_name c) /\ silent c'.
Proof.
  intros AN AN' D2 TS RS NA LM OLS ID ND.
  destruct (analysis_run _ _ _ _ _ _ _ _ AN) as (_ & si & la & s & B & xraw & m & W & BH & S1 & S2 & S3). subst xraw.
  assert (HS := an_sorted _ _ _ _ _ _ _ _ AN).
  destruct (other _ _ _ _ _ _ _ _ _ _ _ _ AN AN' TS (same_infer _ _ _ _ _ _ _ _ _ _ _ _ AN AN' (eq_sym D2)) LM NA OLS ND _ _ _ _ _ _ _ BH) as (k' & M' & B' & Y' & W' & F' & R' & L' & N' & P' & _).
  split; [exact P'|].
  destruct (own_vector _ _ _ _ _ _ _ _ _ _ _ _ _ _ BH HS NA) as (k0 & M0 & RV & V & _).
  destruct (own_best _ _ _ _ _ _ _ _ _ _ _ _ _ _ BH HS NA LM OLS S1 S3) as (k & M & Bk).
  assert (OY : forall x row, good_row (si_tref si) (si_lor si) la (c_opt c) s x row -> yields c x (cdot row k)).
  { intros x row G. eapply matches_yields; eauto. apply BH. }
  assert (P := paired _ _ _ _ _ _ _ _ _ _ _ _ _ _ BH sm S1).
  assert (ED : map snd sm' = lin2 (RtoC 1) (RtoC (-1)) (map snd sm) (map (fun row => cdot row k) B)).
  { clear - RS P OY. unfold residuals in RS. revert RS. generalize (map snd sm'). induction P as [|x row l B' G P IH]; intros r RS; inversion RS as [|? y ? ? Y1 Y2]; subst; [reflexivity|].
    unfold lin2. cbn [map combine fst snd]. f_equal; [|now apply IH]. assert (E := yields_unique _ _ _ _ Y1 (OY _ _ G)). rewrite <- E. 
    replace (RtoC (-1)) with (Copp (RtoC 1)) by (apply C_eq; cbn; ring). ring. }
  assert (Bm : best (sys B (map (fun row => cdot row k) B)) k).
  { intros m' _. replace (nrm (resid k) (sys B (map (fun row => cdot row k) B))) with 0; [apply nrm_nonneg|].
    symmetry. unfold nrm, sys, resid. clear. induction B as [|r B IH]; [reflexivity|]. cbn [map combine]. rewrite rsum_cons, IH. cbn [fst snd]. unfold Cminus, Cplus, Copp. cbn [fst snd]. ring. }
  assert (LR := len_rows _ _ _ _ _ _ _ _ _ _ _ _ _ _ BH sm S1 eq_refl).
  assert (K : k' = lin2 (RtoC 1) (RtoC (-1)) k k).
  { apply (best_unique (sys B (map snd sm'))); auto.
    - rewrite ED. apply lin2_best; auto. apply map_length.
    - rewrite lin2_len by reflexivity. rewrite (mt_len _ _ _ _ _ M'), (mt_len _ _ _ _ _ M). reflexivity.
    - rewrite (mt_len _ _ _ _ _ M'). eapply own_independent; eauto. }
  assert (Lk := mt_len _ _ _ _ _ M). rewrite tr_len in Lk.
  destruct (lin2_vec (trof c) s (RtoC 1) (RtoC (-1)) k k Lk eq_refl) as (A1 & A2 & A3). rewrite <- K in A1, A2, A3.
  assert (Z : forall z, Cplus (Cmult (RtoC 1) z) (Cmult (RtoC (-1)) z) = RtoC 0) by (intros [x y]; apply C_eq; cbn; ring).
  rewrite Z in A2. split; [|split].
  - intros r Hr. apply (in_map triple) in Hr. rewrite triples_rows in Hr by assumption. apply in_map_iff in Hr.
    destruct Hr as ([[n l] pq] & E & Ht). unfold triple in E. cbn [fst snd] in E. injection E as E1 E2 E3. rewrite <- E3. f_equal.
    apply (Permutation_in _ (mt_tri _ _ _ _ _ M')) in Ht. apply in_combine_r in Ht. rewrite A1 in Ht. apply in_map_iff in Ht. destruct Ht as ([p q] & <- & Hp).
    assert (p = q) by (clear - Hp; induction (all_pm k s) as [|x l IH]; [destruct Hp|]; destruct Hp as [Hp|Hp]; [congruence|now apply IH]). subst q.
    cbn [fst snd]. unfold pair2. now rewrite !Z.
  - apply mnC_mean; auto. rewrite (mt_mn _ _ _ _ _ M'). fold (trof c). rewrite A2. unfold vis1. destruct (o_twodim (c_opt c')); reflexivity.
  - intros N. apply slC_slope; auto. assert (T : trof c = true) by (unfold trof; now rewrite <- N', N).
    rewrite (mt_sl _ _ _ _ _ M' T), (A3 T), Z. transitivity (RtoC 0); [unfold vis1; destruct (o_twodim (c_opt c')); reflexivity|]. unfold Cdiv. ring.
Qed.
