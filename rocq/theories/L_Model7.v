(** Coefficient sets from coefficient vectors; consequences of least squares. *)
From Coq Require Import Lia Lra Permutation.
From Verif Require Import M_Base M_Bunch M_Lib M_Tables M_Const M_Options M_Time M_Slvinit M_Harmonics M_Select M_Ellipse
  M_Robust M_Period M_Conf M_Diag M_Solve M_Recon S_Dict S_Options S_Order S_Basis S_Select S_Fit S_Ellipse S_Slv S_Recon S_Model
  L_Base L_Options L_SolveInv L_OptSolve L_Slv2 L_Order L_Select L_Fit L_Align L_SelOrder L_Basis L_Angle L_Ellipse L_Recon L_Recon2 L_Recon3 L_Core
  L_Model L_Lsq L_Model2 L_Model3 L_Model4 L_Model5 L_Model6.
Open Scope R_scope.
Open Scope string_scope.

(** the coefficient set with prescribed rotary components, mean and slope *)
Definition with_pms (c : coef) (Q : list (C * C)) (mn sl : C) : coef :=
  let tw := o_twodim (c_opt c) in
  let ep := map (fun p => ellipse_of tw (fst p) (snd p)) Q in
  {| c_name := c_name c; c_frq := c_frq c; c_lind := c_lind c; c_reftime := c_reftime c; c_lat := c_lat c; c_opt := c_opt c;
     c_nNR := c_nNR c; c_nR := c_nR c; c_nI := c_nI c; c_weights := c_weights c;
     c_g := map e_g ep; c_A := oif (negb tw) (map e_maj ep); c_Lsmaj := oif tw (map e_maj ep);
     c_Lsmin := oif tw (map e_min ep); c_theta := oif tw (map e_theta ep);
     c_mean := oif (negb tw) (fst mn); c_slope := oif (negb tw) (fst sl);
     c_umean := oif tw (fst mn); c_vmean := oif tw (snd mn); c_uslope := oif tw (fst sl); c_vslope := oif tw (snd sl);
     c_g_ci := c_g_ci c; c_A_ci := c_A_ci c; c_Lsmaj_ci := c_Lsmaj_ci c; c_Lsmin_ci := c_Lsmin_ci c; c_theta_ci := c_theta_ci c;
     c_PE := c_PE c; c_SNR := c_SNR c; c_diagn := c_diagn c |}.

Lemma oif_len {A} b (l : list A) n : length l = n -> len_ok n (oif b l).
Proof. intros H x E. destruct b; cbn in E; [|discriminate]. now injection E as <-. Qed.

Lemma with_pms_wf c Q mn sl : well_formed c -> length Q = length (c_name c) -> well_formed (with_pms c Q mn sl).
Proof.
  intros Wf HQ. destruct Wf as [A F W2 W1]. constructor; cbn [with_pms c_name c_frq c_lind c_reftime c_opt c_Lsmaj c_Lsmin c_theta c_umean c_vmean c_uslope c_vslope c_Lsmaj_ci c_Lsmin_ci c_A c_mean c_slope c_A_ci].
  - destruct A as (A1 & A2 & A3 & A4 & A5 & A6 & A7 & A8). unfold aligned.
    cbn [with_pms c_name c_frq c_lind c_g c_A c_Lsmaj c_Lsmin c_theta c_g_ci c_A_ci c_Lsmaj_ci c_Lsmin_ci c_theta_ci c_PE c_SNR].
    rewrite !map_length. repeat (split; [first [assumption|apply oif_len; now rewrite !map_length]|]). exact A8.
  - exact F.
  - intros T. destruct (W2 T) as (_ & _ & _ & _ & _ & _ & H). rewrite T. cbn [oif]. unfold present. repeat split; eauto; apply H; assumption.
  - intros T. destruct (W1 T) as (_ & _ & _ & _ & H). rewrite T. cbn [oif negb]. unfold present. repeat split; eauto.
Qed.
Lemma with_pms_pms c Q mn sl : length Q = length (c_name c) -> pms (with_pms c Q mn sl) = map (visible (o_twodim (c_opt c))) Q.
Proof.
  intros HQ. unfold pms. cbn [with_pms c_name]. rewrite <- HQ.
  rewrite <- (map_nth_seq (visible (o_twodim (c_opt c))) Q (RtoC 0, RtoC 0) (length Q) eq_refl).
  apply map_ext_in. intros i Hi. apply in_seq in Hi. unfold pm_of. cbn [with_pms c_Lsmaj c_Lsmin c_theta c_A c_g].
  assert (N : forall f : R * R * R * R -> R, nth i (map f (map (fun p => ellipse_of (o_twodim (c_opt c)) (fst p) (snd p)) Q)) 0 =
     f (ellipse_of (o_twodim (c_opt c)) (fst (nth i Q (RtoC 0, RtoC 0))) (snd (nth i Q (RtoC 0, RtoC 0))))).
  { intros f. rewrite map_map. rewrite (nth_indep _ 0 (f (ellipse_of (o_twodim (c_opt c)) (fst (RtoC 0, RtoC 0)) (snd (RtoC 0, RtoC 0))))) by (rewrite map_length; lia).
    apply (map_nth (fun p => f (ellipse_of (o_twodim (c_opt c)) (fst p) (snd p)))). }
  destruct (nth i Q (RtoC 0, RtoC 0)) as [p q]. cbn [fst snd] in N.
  destruct (o_twodim (c_opt c)); cbn [oif negb]; rewrite !N.
  - rewrite pm2_ellipse. reflexivity.
  - apply pm1_ellipse.
Qed.

Definition real_pairs (Q : list (C * C)) : Prop := forall pq, In pq Q -> snd pq = Cconj (fst pq).
Lemma visible_real Q : real_pairs Q -> map (visible false) Q = Q.
Proof.
  intros H. rewrite <- (map_id Q) at 2. apply map_ext_in. intros [p q] Hq. specialize (H _ Hq). cbn [fst snd] in H. subst q.
  unfold visible. cbv zeta. cbn [fst snd]. rewrite Cconj_conj. destruct p as [x y]. unfold Cmult, Cplus, Cconj, RtoC. cbn [fst snd].
  f_equal; f_equal; field.
Qed.
Lemma visible_pairs Q : real_pairs (map (visible false) Q).
Proof. intros pq H. apply in_map_iff in H. destruct H as ([p q] & <- & _). reflexivity. Qed.

Lemma vis_id tw Q : (tw = false -> real_pairs Q) -> map (visible tw) Q = Q.
Proof.
  destruct tw; intros H; [|apply visible_real; auto].
  transitivity (map (fun x : C * C => x) Q); [apply map_ext; reflexivity|apply map_id].
Qed.

(** data of a run *)
Lemma samples_arrays parse e t u v sm : samples parse e t u v sm -> arrays_ok t u v.
Proof.
  intros H. destruct H as [n t mt us um xs [H1 _] Hn Hx|n t mt us um vs vm xs [H1 _] [H2 _] Hn Hx]; unfold arrays_ok, sized.
  - split; [|split; auto].
    + intros n' d m E. injection E as <- <- _. apply normalize_length in Hn. unfold time_len. congruence.
    + intros n' d m E. now injection E as <- <- _.
  - split; [|split].
    + intros n' d m E. injection E as <- <- _. apply normalize_length in Hn. unfold time_len. congruence.
    + intros n' d m E. now injection E as <- <- _.
    + intros n' d m E. now injection E as <- <- _.
Qed.
Lemma samples_slv parse e t u v sm lat si : samples parse e t u v sm -> slvinit parse t u v lat e = Ok si ->
  si_t si = map fst sm /\ raw_data (si_u si) (si_v si) = map snd sm /\ (is2d v = false -> forall s, In s sm -> snd (snd s) = 0).
Proof.
  intros H S. destruct H as [n t mt us um xs H1 Hn Hx|n t mt us um vs vm xs H1 H2 Hn Hx].
  - destruct (fitted_scalar _ _ _ _ _ _ _ _ _ _ H1 Hn Hx S) as (E1 & E2 & E3 & _). rewrite E1, E2, E3. unfold raw_data.
    rewrite !map_map. repeat split. intros _ s Hs. apply in_map_iff in Hs. destruct Hs as (q & <- & _). reflexivity.
  - destruct (fitted_vector _ _ _ _ _ _ _ _ _ _ _ _ H1 H2 Hn Hx S) as (E1 & E2 & E3 & _). rewrite E1, E2, E3. unfold raw_data.
    rewrite !map_map. repeat split; [|discriminate]. apply combine_maps.
Qed.

Section Run.
Variables (L : lib) (t : pyarr tarray) (u : pyarr (list xr)) (v : option (pyarr (list xr))) (lat : option R) (opts : dict pyval) (c : coef).
Variables (si : slv) (la : R) (s : sel) (B : list (list C)) (xraw m : list C) (W : list xr).
Hypothesis BH : behind L t u v lat opts c si la s B xraw m W.
Hypothesis HS : sorted_order (opt_value opts "order_constit").
Hypothesis NA : approximate (c_opt c) = false.

Notation tw := (o_twodim (c_opt c)).
Notation tr := (negb (o_notrend (c_opt c))).
Notation matches := (matches c si s).
Notation good := (good_row (si_tref si) (si_lor si) la (c_opt c) s).

Definition real_vec (k : list C) : Prop := tw = false ->
  real_pairs (all_pm k s) /\ snd (m_last k (if tr then 2 else 1)%nat) = 0 /\ (tr = true -> snd (m_last k 1) = 0).

Lemma lor_nonzero : tr = true -> si_lor si <> 0.
Proof.
  intros Ht. destruct (run_rows _ _ _ _ _ _ _ _ _ _ _ _ _ _ BH) as (F & _).
  assert (Hne := bh_t _ _ _ _ _ _ _ _ _ _ _ _ _ _ BH). destruct F as [|x row]; [congruence|].
  destruct (run_row _ _ _ _ _ _ _ _ _ _ _ _ _ _ BH NA x row m H (bh_len _ _ _ _ _ _ _ _ _ _ _ _ _ _ BH)) as (es & _ & _ & Z & _).
  now apply Z.
Qed.

Lemma vector_rival k : length k = ncoef (c_opt c) s -> NoDup (c_name c) -> real_vec k -> exists c0, rival c c0 /\ matches c0 k.
Proof.
  intros Hk ND RV. assert (SL := run_lens _ _ _ _ _ _ _ _ _ _ _ _ _ _ BH). assert (WF := bh_wf _ _ _ _ _ _ _ _ _ _ _ _ _ _ BH).
  assert (LP := all_pm_run _ _ _ _ _ _ _ _ _ _ _ _ _ _ BH k Hk).
  assert (P : Permutation (map fst (triples c)) (combine (s_name s) (s_lind s))).
  { assert (TR := bh_tri _ _ _ _ _ _ _ _ _ _ _ _ _ _ BH HS). apply (Permutation_map fst) in TR.
    rewrite combine_fst in TR by (rewrite map_length, (bh_pm _ _ _ _ _ _ _ _ _ _ _ _ _ _ BH), combine_length, (ln_lind _ SL); lia). exact TR. }
  assert (LC : length (combine (s_name s) (s_lind s)) = length (all_pm k s)) by (rewrite LP, combine_length, (ln_lind _ SL); lia).
  rewrite <- (combine_fst (combine (s_name s) (s_lind s)) (all_pm k s) LC) in P.
  destruct (Permutation_map_inv _ _ P) as (T & ET & PT). rewrite triples_fst in ET by assumption.
  assert (A2 : length (c_lind c) = length (c_name c)) by apply WF.
  assert (LT : length (map snd T) = length (c_name c)).
  { rewrite map_length, <- (map_length fst T), <- ET, combine_length. lia. }
  set (Q := map snd T) in *. set (mn := m_last k (if tr then 2 else 1)%nat). set (sl := Cdiv (m_last k 1) (RtoC (si_lor si))).
  assert (RQ : tw = false -> real_pairs Q).
  { intros E. destruct (RV E) as (RP & _). intros pq Hq. apply RP. apply in_map_iff in Hq. destruct Hq as (x & <- & Hx).
    apply (Permutation_in _ (Permutation_sym PT)) in Hx. destruct x as [xx yy]. now apply in_combine_r in Hx. }
  assert (TQ : triples (with_pms c Q mn sl) = T).
  { unfold triples. rewrite with_pms_pms by assumption. rewrite vis_id by assumption. cbn [with_pms c_name c_lind].
    rewrite ET. apply combine_split. }
  assert (WQ := with_pms_wf c Q mn sl WF LT).
  assert (ND' : NoDup (s_name s)).
  { assert (TR := bh_tri _ _ _ _ _ _ _ _ _ _ _ _ _ _ BH HS). apply (Permutation_map (fun x => fst (fst x))) in TR.
    rewrite <- !(map_map fst fst) in TR. rewrite triples_fst in TR by assumption.
    rewrite combine_fst in TR by congruence.
    rewrite combine_fst in TR by (rewrite map_length, (bh_pm _ _ _ _ _ _ _ _ _ _ _ _ _ _ BH), combine_length, (ln_lind _ SL); lia).
    rewrite combine_fst in TR by (now rewrite (ln_lind _ SL)). eapply Permutation_NoDup; eauto. }
  assert (PQ : Permutation (triples (with_pms c Q mn sl)) (combine (combine (s_name s) (s_lind s)) (all_pm k s))).
  { rewrite TQ. now apply Permutation_sym. }
  exists (with_pms c Q mn sl). split.
  - constructor; try reflexivity; auto. eapply vector_ties; eauto.
  - constructor; auto.
    + unfold mnC. cbn [with_pms c_opt c_umean c_vmean c_mean]. destruct tw eqn:E; cbn [oif negb od]; [symmetry; apply surjective_pairing|].
      destruct (RV E) as (_ & R1 & _). apply C_eq; [reflexivity|symmetry; exact R1].
    + intros Ht. unfold slC. cbn [with_pms c_opt c_uslope c_vslope c_slope]. fold sl. destruct tw eqn:E; cbn [oif negb od]; [symmetry; apply surjective_pairing|].
      destruct (RV E) as (_ & _ & R1). assert (Z : snd sl = 0).
      { unfold sl. assert (Hz := lor_nonzero Ht). specialize (R1 Ht). revert R1. generalize (m_last k 1). intros [x y] R1. cbn in R1. subst y.
        cbn. field. exact Hz. }
      apply C_eq; [reflexivity|symmetry; exact Z].
Qed.

(** any vector has a visible part, which a coefficient set can carry *)
Lemma visible_part k : length k = ncoef (c_opt c) s -> exists k', length k' = ncoef (c_opt c) s /\ real_vec k' /\
  all_pm k' s = map (visible tw) (all_pm k s) /\
  m_last k' (if tr then 2 else 1)%nat = vis1 tw (m_last k (if tr then 2 else 1)%nat) /\
  (tr = true -> m_last k' 1 = vis1 tw (m_last k 1)) /\
  forall x row, good x row -> cdot row k' = vis1 tw (cdot row k).
Proof.
  intros Hk. destruct (mvis _ _ _ _ _ _ _ _ _ _ _ _ _ _ BH k Hk) as (k' & L' & P' & M' & S').
  exists k'. split; [exact L'|]. split.
  { intros E. rewrite P', M'. rewrite E in *. split; [apply visible_pairs|]. split; [reflexivity|]. intros T. now rewrite (S' T). }
  repeat (split; [assumption|]). intros x row G.
  destruct (run_row _ _ _ _ _ _ _ _ _ _ _ _ _ _ BH NA x row k G Hk) as (es & E1 & E2 & E3 & E4).
  destruct (run_row _ _ _ _ _ _ _ _ _ _ _ _ _ _ BH NA x row k' G L') as (es' & E1' & E2' & E3' & E4').
  assert (es' = es) by (apply somes_inj; congruence). subst es'. rewrite E4, E4', P', visible_sum, M'.
  destruct tr eqn:Et.
  - rewrite (S' eq_refl). unfold vis1. destruct tw; [reflexivity|].
    assert (Hz := E3 eq_refl). generalize (hsum es (all_pm k s)) (m_last k 2) (m_last k 1). intros [a1 a2] [b1 b2] [d1 d2].
    unfold Cplus, Cmult, Cdiv, Cinv, RtoC. cbn [fst snd]. f_equal; cbn; field; auto.
  - unfold vis1. destruct tw; [reflexivity|]. generalize (hsum es (all_pm k s)) (m_last k 1). intros [a1 a2] [b1 b2].
    unfold Cplus, RtoC. cbn [fst snd]. f_equal; ring.
Qed.

(** the vector behind the reported numbers *)
Lemma own_vector : exists k, matches c k /\ real_vec k /\ (forall x row, good x row -> cdot row k = vis1 tw (cdot row m)) /\
  all_pm k s = map (visible tw) (all_pm m s).
Proof.
  destruct (visible_part m (bh_len _ _ _ _ _ _ _ _ _ _ _ _ _ _ BH)) as (k & L' & R' & P' & M' & S' & V').
  exists k. split; [|auto]. constructor; auto.
  - rewrite P'. now apply BH.
  - rewrite M', (bh_mn _ _ _ _ _ _ _ _ _ _ _ _ _ _ BH). unfold vis1. cbv zeta. destruct (o_notrend (c_opt c)); reflexivity.
  - intros Ht. rewrite (S' Ht). rewrite (bh_sl _ _ _ _ _ _ _ _ _ _ _ _ _ _ BH) by now apply Bool.negb_true_iff. cbv zeta.
    unfold vis1. destruct tw; auto. assert (Hz := lor_nonzero Ht). destruct (m_last m 1) as [x y]. apply C_eq; cbn; field; auto.
Qed.

Lemma matches_yields c' k x row : well_formed c' -> c_opt c' = c_opt c -> c_reftime c' = c_reftime c -> c_lat c' = c_lat c ->
  matches c' k -> good x row -> yields c' x (cdot row k).
Proof.
  intros W1 W2 W3 W4 M G. destruct (matches_row _ _ _ _ _ _ _ _ _ _ _ _ _ _ BH NA c' k x row W1 W2 W3 W4 M G) as (R1 & R2 & R3).
  split; auto. rewrite W2. destruct tw eqn:E; auto.
Qed.
Lemma own_yields x row : good x row -> yields c x (vis1 tw (cdot row m)).
Proof.
  intros G. destruct own_vector as (k & M & _ & V & _). rewrite <- (V x row G). apply matches_yields; auto. apply BH.
Qed.
Lemma rival_yields c' : rival c c' -> exists k, matches c' k /\ forall x row, good x row -> yields c' x (cdot row k).
Proof.
  intros Rv. destruct (rival_vector _ _ _ _ _ _ _ _ _ _ _ _ _ _ BH HS NA c' Rv) as (k & M). exists k. split; auto.
  intros x row G. destruct Rv. now apply matches_yields.
Qed.
Lemma yields_unique c' x z z' : yields c' x z -> yields c' x z' -> z = z'.
Proof.
  intros [A1 A2] [B1 B2]. apply C_eq; [congruence|]. destruct (o_twodim (c_opt c')); congruence.
Qed.

(** a vector is determined by its rows *)
Lemma vector_zero k : length k = ncoef (c_opt c) s -> (forall pq, In pq (all_pm k s) -> pq = (RtoC 0, RtoC 0)) ->
  m_last k (if tr then 2 else 1)%nat = RtoC 0 -> (tr = true -> m_last k 1 = RtoC 0) -> forall z, In z k -> z = RtoC 0.
Proof.
  intros Hk HP HM HT. destruct (split_m tr (s_nNR s) (s_nR s) k) as (a & b & p & q & mn & sl & -> & La & Lb & Lp & Lq).
  { rewrite Hk. unfold ncoef. destruct (o_notrend (c_opt c)); reflexivity. }
  destruct (cat_last tr a b p q mn sl) as [C1 C2]. rewrite C1 in HM. rewrite cat_pm in HP by assumption.
  assert (G : forall (x y : list C), length x = length y -> (forall pq, In pq (combine x y) -> pq = (RtoC 0, RtoC 0)) ->
    forall z, In z x \/ In z y -> z = RtoC 0).
  { induction x as [|x0 x IH]; intros [|y0 y] Hl H z Hz; try discriminate; [destruct Hz as [[]|[]]|].
    assert (H0 := H _ (or_introl eq_refl)). injection H0 as -> ->.
    destruct Hz as [[<-|Hz]|[<-|Hz]]; auto; (eapply (IH y); [now injection Hl|intros; apply H; now right|]); auto. }
  assert (G1 := G a b ltac:(congruence) ltac:(intros pq Hq; apply HP; apply in_or_app; now left)).
  assert (G2 := G p q ltac:(congruence) ltac:(intros pq Hq; apply HP; apply in_or_app; right; apply in_or_app; now left)).
  intros z Hz. unfold cat_m in Hz. repeat (apply in_app_or in Hz; destruct Hz as [Hz|Hz]); auto.
  - destruct Hz as [<-|[]]. exact HM.
  - destruct tr eqn:Et; [|destruct Hz]. destruct Hz as [<-|[]]. rewrite <- (C2 eq_refl). now apply HT.
Qed.

Lemma silent_vector c0 k : well_formed c0 -> matches c0 k -> silent c0 -> c_opt c0 = c_opt c -> forall z, In z k -> z = RtoC 0.
Proof.
  intros Wf M (S1 & S2 & S3) Eo. apply vector_zero.
  - apply M.
  - intros pq Hq. assert (P := mt_tri _ _ _ _ _ M). assert (LP := all_pm_run _ _ _ _ _ _ _ _ _ _ _ _ _ _ BH k (mt_len _ _ _ _ _ M)).
    assert (SL := run_lens _ _ _ _ _ _ _ _ _ _ _ _ _ _ BH).
    assert (Hx : exists x, In (x, pq) (combine (combine (s_name s) (s_lind s)) (all_pm k s))).
    { assert (Hl : length (combine (s_name s) (s_lind s)) = length (all_pm k s)) by (rewrite LP, combine_length, (ln_lind _ SL); lia).
      revert Hl Hq. generalize (combine (s_name s) (s_lind s)) (all_pm k s). clear. intros l k. revert l.
      induction k as [|y k IH]; intros [|x l] Hl Hq; try discriminate; [destruct Hq|]. destruct Hq as [->|Hq]; [exists x; now left|].
      destruct (IH l ltac:(now injection Hl) Hq) as (w & Hw). exists w. now right. }
    destruct Hx as (x & Hx). apply (Permutation_in _ (Permutation_sym P)) in Hx. destruct (in_triples _ _ Wf Hx) as (r & R1 & _ & R3).
    rewrite (S1 r R1) in R3. cbn in R3. congruence.
  - rewrite <- (mt_mn _ _ _ _ _ M). unfold mean_is in S2. unfold mnC. destruct (o_twodim (c_opt c0)).
    + destruct S2 as [Ea Eb]. rewrite Ea, Eb. reflexivity.
    + rewrite S2. reflexivity.
  - intros Ht. assert (Hs := mt_sl _ _ _ _ _ M Ht). assert (Hz := lor_nonzero Ht). assert (Q' : RtoC (si_lor si) <> RtoC 0) by (intros Hq; apply Hz; now apply RtoC_inj).
    assert (Z : slC c0 = RtoC 0).
    { apply Bool.negb_true_iff in Ht. assert (S4 := S3 ltac:(congruence)). unfold slope_is in S4. unfold slC. destruct (o_twodim (c_opt c0)).
      + destruct S4 as [Ea Eb]. rewrite Ea, Eb. reflexivity.
      + rewrite S4. reflexivity. }
    rewrite Z in Hs. transitivity (Cmult (Cdiv (m_last k 1) (RtoC (si_lor si))) (RtoC (si_lor si))); [field; exact Q'|]. rewrite <- Hs. ring.
Qed.
End Run.
