(** Which calls of solve with a robust method give a result. *)
From Coq Require Import Lia Lra Permutation.
From Verif Require Import M_Base M_Bunch M_Lib M_Tables M_Const M_Options M_Time M_Slvinit M_Harmonics M_Select M_Ellipse
  M_Robust M_Period M_Conf M_Diag M_Solve M_Recon S_Dict S_Options S_Order S_Basis S_Select S_Fit S_Ellipse S_Slv S_Recon S_Model S_Robust S_RobustKw S_Errors S_Perm S_Period S_Noise S_Accept S_RobustAccept
  L_Base L_Options L_SolveInv L_OptSolve L_Slv L_Slv2 L_Tables L_Order L_Select L_Fit L_Align L_SelOrder L_Order2 L_Basis L_Harm L_Harm2 L_Harm3 L_Angle L_Ellipse L_Recon L_Recon2 L_Recon3 L_Recon4 L_Core
  L_Ellipse2 L_Model L_Lsq L_Model2 L_Model3 L_Model4 L_Model5 L_Model6 L_Model7 L_Model8 L_Model9 L_Model10 L_Model11 L_Errors L_Errors3 L_Noise2 L_Example L_Robust L_Robust2 L_RobustKw L_Accept L_Accept2 L_Sub L_RobustAccept.
Open Scope R_scope.
Open Scope string_scope.

(** raising the mean of a coefficient vector raises what every row gives *)
Section Mean.
Variables (L : lib) (t : pyarr tarray) (u : pyarr (list xr)) (v : option (pyarr (list xr))) (lat : option R) (opts : dict pyval) (c : coef).
Variables (si : slv) (la : R) (s : sel) (B : list (list C)) (xraw m : list C) (W : list xr).
Hypothesis BH : behind L t u v lat opts c si la s B xraw m W.
Hypothesis NA : approximate (c_opt c) = false.
Notation good := (good_row (si_tref si) (si_lor si) la (c_opt c) s).
Notation tr := (negb (o_notrend (c_opt c))).

Lemma raise_mean k w : length k = ncoef (c_opt c) s -> exists k', length k' = ncoef (c_opt c) s /\ forall x row, good x row -> cdot row k' = Cplus (cdot row k) w.
Proof.
  intros Hk. assert (Hk' : length k = (2 * (s_nNR s + s_nR s) + 1 + (if tr then 1 else 0))%nat) by (rewrite Hk; unfold ncoef; destruct (o_notrend (c_opt c)); reflexivity).
  destruct (split_m _ _ _ _ Hk') as (a & b & p & q & mn & sl & -> & La & Lb & Lp & Lq).
  assert (LK : length (cat_m tr a b p q (Cplus mn w) sl) = ncoef (c_opt c) s) by (rewrite <- Hk, !cat_m_len; reflexivity).
  exists (cat_m tr a b p q (Cplus mn w) sl). split; [exact LK|]. intros x row G.
  destruct (run_row _ _ _ _ _ _ _ _ _ _ _ _ _ _ BH NA x row _ G Hk) as (es & E1 & _ & _ & ->).
  destruct (run_row _ _ _ _ _ _ _ _ _ _ _ _ _ _ BH NA x row _ G LK) as (es' & E2 & _ & _ & ->).
  assert (es' = es) as -> by (apply somes_inj; congruence).
  rewrite !cat_pm by assumption. destruct (cat_last tr a b p q mn sl) as [-> Q1]. destruct (cat_last tr a b p q (Cplus mn w) sl) as [-> Q2].
  destruct tr; [rewrite (Q1 eq_refl), (Q2 eq_refl)|]; ring.
Qed.
End Mean.

(** the matrix of the robust run is the one of a run with other settings of the method *)
Lemma based_rows L t u v la opts sm cf compat si o s B : based L t u v la opts sm cf compat si o s B -> Forall2 (good_row (si_tref si) (si_lor si) la o s) (si_t si) B.
Proof.
  intros F. destruct (ba_basis _ _ _ _ _ _ _ _ _ _ _ _ _ F) as (Bo & B1 & B2). assert (SEL := ba_sel _ _ _ _ _ _ _ _ _ _ _ _ _ F).
  assert (SR : s_R s = []) by (eapply infer_none_R; [exact SEL|apply F]).
  apply (basis_rows _ _ _ _ _ _ _ (sel_lin_ok _ _ _ _ _ SEL) (fun _ => SR)) in B1. apply finite_mat_map in B2. rewrite B1 in B2. clear - B2.
  revert B B2. induction (si_t si) as [|x ts IH]; intros [|r B'] EB; cbn [map] in EB; try discriminate; constructor.
  - unfold good_row. now injection EB.
  - apply IH. now injection EB.
Qed.

Section Robust.
Variables (L : lib) (t : pyarr tarray) (u : pyarr (list xr)) (v : option (pyarr (list xr))) (la : R) (opts opts0 : dict pyval) (sm : list (R * C)) (c0 : coef).
Hypothesis AN0 : analysis L t u v (Some la) opts0 sm c0.
Hypothesis DC : documented_input L t u v opts sm.
Hypothesis SB : options_but_method opts opts0.
Hypothesis ND : NoDup (c_name c0).

Lemma same_opt k : In k (keys documented) -> k <> "method" -> k <> "robust_kw" -> k <> "conf_int" -> k <> "order_constit" -> k <> "white" -> opt_value opts0 k = opt_value opts k.
Proof.
  intros K N1 N2 N3 N4 N5. apply (setting_val opts0 k); [apply AN0|exact K|]. apply SB; auto. apply setting_value; [apply DC|exact K].
Qed.
Lemma linked cf compat si o s B : based L t u v la opts sm cf compat si o s B ->
  exists m0 W0, behind L t u v (Some la) opts0 c0 si la s B (map snd sm) m0 W0 /\ ncoef o s = ncoef (c_opt c0) s /\ approximate (c_opt c0) = false /\
    sorted_order (opt_value opts0 "order_constit") /\ si_t si = map fst sm /\ (o_twodim (c_opt c0) = false -> forall x, In x sm -> snd (snd x) = 0) /\
    o_infer (c_opt c0) = None.
Proof.
  intros F. assert (U0 := an_keys _ _ _ _ _ _ _ _ AN0). assert (U := dc_keys _ _ _ _ _ _ DC). assert (HS := an_sorted _ _ _ _ _ _ _ _ AN0).
  destruct (analysis_run _ _ _ _ _ _ _ _ AN0) as (_ & si0 & la0 & s0 & B0 & x0 & m0 & W0 & BH & S1 & S2 & S3). subst x0.
  assert (El := bh_lat _ _ _ _ _ _ _ _ _ _ _ _ _ _ BH). injection El as <-.
  destruct (run_options _ _ _ _ _ _ _ U0 (an_solve _ _ _ _ _ _ _ _ AN0)) as (k0 & q0 & K1 & K2).
  destruct (flags_used _ _ _ _ _ U0 K1 K2) as (A1 & A2 & A3 & A4 & A5 & _).
  destruct (flags_used _ _ _ _ _ U (ba_compat _ _ _ _ _ _ _ _ _ _ _ _ _ F) (ba_opt _ _ _ _ _ _ _ _ _ _ _ _ _ F)) as (B1 & B2 & B3 & B4 & B5 & B6). cbv zeta in *.
  assert (SV := same_opt).
  rewrite (SV "nodal"), (SV "phase") in A1 by (first [discriminate|cbn; tauto]). rewrite SV in A2, A3, A4, A5 by (first [discriminate|cbn; tauto]).
  assert (NI : o_infer (c_opt c0) = None).
  { destruct (bh_inf _ _ _ _ _ _ _ _ _ _ _ _ _ _ BH) as (inf & I1 & I2). rewrite same_opt in I1 by (first [discriminate|cbn; tauto]).
    rewrite (setting_val opts "infer" PNone U ltac:(cbn; tauto) (dc_infer _ _ _ _ _ _ DC)) in I1. cbn [validate_infer is_none orb] in I1. injection I1 as <-. now injection I2. }
  assert (NA : approximate (c_opt c0) = false) by (unfold approximate; now rewrite NI).
  assert (ES := bh_slv _ _ _ _ _ _ _ _ _ _ _ _ _ _ BH). rewrite A5, <- B6, (ba_slv _ _ _ _ _ _ _ _ _ _ _ _ _ F) in ES. apply Ok_inj in ES. subst si0.
  assert (ER : o_rmin (c_opt c0) = o_rmin o) by (rewrite B4 in A4; now apply Ok_inj in A4).
  assert (EC := bh_sel _ _ _ _ _ _ _ _ _ _ _ _ _ _ BH). assert (FS := ba_sel _ _ _ _ _ _ _ _ _ _ _ _ _ F).
  rewrite ER, A2, NI, <- B2 in EC. rewrite (ba_infer _ _ _ _ _ _ _ _ _ _ _ _ _ F), EC in FS. apply Ok_inj in FS. subst s0.
  assert (NT : o_notrend (c_opt c0) = o_notrend o) by (rewrite A3, B3; reflexivity). assert (FL : flags_of (c_opt c0) = flags_of o) by (rewrite A1, B1; reflexivity).
  assert (EN : ncoef o s = ncoef (c_opt c0) s) by (unfold ncoef; now rewrite NT).
  assert (G0 := proj1 (run_rows _ _ _ _ _ _ _ _ _ _ _ _ _ _ BH)). assert (G := based_rows _ _ _ _ _ _ _ _ _ _ _ _ _ F).
  assert (EB : B0 = B).
  { eapply good_unique; [|exact G]. clear - G0 NT NI FL F. induction G0; constructor; auto. eapply good_same; [| | |eassumption]; auto.
    rewrite NI. symmetry. apply F. }
  subst B0. exists m0, W0. auto 10.
Qed.

Hypothesis LSUM : forall rc, lstsq_sums L rc.
Hypothesis PINV : pinv_exact L.
Hypothesis EV : evaluable la opts sm.
Variable cf : pyval.
Hypothesis CV : cf = PStr "linear" \/ cf = PStr "MC" \/ cf = PStr "none".
Hypothesis CF : setting opts "conf_int" cf.
Hypothesis RM : exists x, setting opts "method" x /\ x <> PStr "ols".

Lemma robust_fitted kw d name tune rcond tol maxit compat si o s B r :
  setting opts "robust_kw" (PDict kw d) -> unique_keys d -> robust_settings d name tune rcond tol maxit ->
  based L t u v la opts sm cf compat si o s B ->
  robustfit L B (map snd sm) name tune rcond tol maxit = Ok r -> length (rf_b r) = ncoef o s ->
  fitted L t u v la opts sm cf compat si o s B (rf_b r) (rf_w r).
Proof.
  intros SK UD RS F RF LR. destruct RM as (x & SX & NX).
  assert (EX : eq_str x "ols" = false) by (destruct x; try reflexivity; cbn; destruct (String.eqb_spec s0 "ols"); congruence).
  destruct F. constructor; auto. destruct ba_basis as (Bo & B1 & B2). unfold fit. rewrite B1. cbn [bind]. rewrite B2, (ba_method x SX), EX.
  rewrite ba_raw, (ba_kw _ SK), (settings_kw _ _ _ _ _ _ _ _ _ _ UD RS), RF. reflexivity.
Qed.

Section Matrix.
Variables (compat : dict pyval) (si : slv) (o : optr) (s : sel) (B : list (list C)).
Hypothesis F : based L t u v la opts sm cf compat si o s B.
Notation n := (ncoef o s).

Lemma rows_sm : Forall2 (fun p row => good_row (si_tref si) (si_lor si) la (c_opt c0) s (fst p) row) sm B.
Proof.
  destruct (linked _ _ _ _ _ _ F) as (m0 & W0 & BH & EN & NA & HS & S1 & S3 & NI).
  assert (G := good_rows _ _ _ _ _ _ _ _ _ _ _ _ _ _ BH). rewrite S1 in G. clear - G. revert B G.
  induction sm as [|p l IH]; intros B G; inversion G; subst; constructor; auto.
Qed.
Lemma len_B : length B = length sm.
Proof. exact (proj1 (ba_dims _ _ _ _ _ _ _ _ _ _ _ _ _ F)). Qed.
Lemma rank_B : identifiable c0 (map fst sm) -> full_rank n B.
Proof.
  intros ID. destruct (linked _ _ _ _ _ _ F) as (m0 & W0 & BH & EN & NA & HS & S1 & S3 & NI).
  intros d Hd Z. apply (sub_independent _ _ _ _ _ _ _ _ _ _ _ _ _ _ BH HS NA (map fst sm) d); auto; [now rewrite S1|congruence|].
  intros x row Hx G. apply in_map_iff in Hx. destruct Hx as (p & <- & Hp). assert (R := rows_sm).
  assert (exists row', In row' B /\ good_row (si_tref si) (si_lor si) la (c_opt c0) s (fst p) row') as (row' & I & G').
  { clear - R Hp. induction R; [destruct Hp|]. destruct Hp as [<-|Hp]; [eexists; split; [left; reflexivity|assumption]|]. destruct (IHR Hp) as (r & ? & ?). exists r. split; [now right|assumption]. }
  assert (row = row') as -> by (apply somes_inj; unfold good_row in *; congruence). now apply Z.
Qed.

Lemma spare_B : spare c0 sm -> forall i d, (i < length B)%nat -> length d = n -> (forall k, (k < length B)%nat -> k <> i -> cdot (nth k B []) d = RtoC 0) -> forall z, In z d -> z = RtoC 0.
Proof.
  intros SP i d Hi Hd Z. destruct (linked _ _ _ _ _ _ F) as (m0 & W0 & BH & EN & NA & HS & S1 & S3 & NI).
  rewrite len_B in Hi. destruct (nth_split sm (0, RtoC 0) Hi) as (a & b & Es & La).
  assert (ID := SP _ _ _ Es). apply (sub_independent _ _ _ _ _ _ _ _ _ _ _ _ _ _ BH HS NA (map fst (a ++ b)) d); auto.
  - intros x Hx. rewrite S1, Es. apply in_map_iff in Hx. destruct Hx as (p & <- & Hp). apply in_map. apply in_app_or in Hp. apply in_or_app. cbn. tauto.
  - congruence.
  - intros x row Hx G. apply in_map_iff in Hx. destruct Hx as (p & <- & Hp).
    assert (exists k, (k < length sm)%nat /\ k <> i /\ nth k sm (0, RtoC 0) = p) as (k & K1 & K2 & K3).
    { rewrite Es. rewrite app_length. cbn [length]. apply in_app_or in Hp. destruct Hp as [Hp|Hp]; apply In_nth with (d := (0, RtoC 0)) in Hp; destruct Hp as (j & J1 & J2).
      - exists j. split; [lia|]. split; [lia|]. rewrite app_nth1; auto.
      - exists (length a + S j)%nat. split; [lia|]. split; [lia|]. rewrite app_nth2 by lia. replace (length a + S j - length a)%nat with (S j) by lia. exact J2. }
    assert (G' : good_row (si_tref si) (si_lor si) la (c_opt c0) s (fst p) (nth k B [])).
    { rewrite <- K3. assert (R := rows_sm). clear - R K1. revert k K1. induction R as [|q r l B' G R IH]; intros k K1; [cbn in K1; lia|]. destruct k; [exact G|]. apply IH. cbn in K1. lia. }
    assert (row = nth k B []) as -> by (apply somes_inj; unfold good_row in *; congruence). apply Z; [rewrite len_B|]; auto.
Qed.
Lemma more_B : spare c0 sm -> (n < length B)%nat.
Proof.
  intros SP. assert (LB := len_B). assert (SPB := spare_B SP O). assert (DB := proj2 (ba_dims _ _ _ _ _ _ _ _ _ _ _ _ _ F)).
  assert (K : B = [] \/ exists b0 B', B = b0 :: B') by (destruct B; eauto).
  destruct K as [E|(b0 & B' & E)]; rewrite E in LB, SPB, DB |- *.
  { exfalso. apply (an_some _ _ _ _ _ _ _ _ AN0). destruct sm; [reflexivity|discriminate]. }
  cbn [length]. apply Nat.lt_succ_r. apply rank_rows.
  - intros row Hr. apply DB. now right.
  - intros d Hd Z. apply (SPB d); auto; [cbn; lia|]. intros k Hk Nk. destruct k; [congruence|]. cbn [nth]. apply Z. apply nth_In. cbn in Hk. lia.
Qed.
Lemma scale_B : scattered c0 sm -> forall b, length b = n -> sigma_hat (misfits B (map snd sm) b) <> 0.
Proof.
  intros SC b Hb E0. destruct (linked _ _ _ _ _ _ F) as (m0 & W0 & BH & EN & NA & HS & S1 & S3 & NI).
  set (g := fun p : (R * C) * list C => Cminus (snd (fst p)) (cdot (snd p) b)).
  assert (EM : misfits B (map snd sm) b = map g (combine sm B)).
  { unfold misfits, csub, cmatvec. clear. generalize B. induction sm as [|p l IH]; intros [|r B']; cbn [map combine]; try reflexivity. f_equal. apply IH. }
  assert (NE : misfits B (map snd sm) b <> []).
  { intros E. apply (f_equal (@length C)) in E. rewrite misfits_n in E by (rewrite map_length; apply len_B). rewrite map_length in E. apply (an_some _ _ _ _ _ _ _ _ AN0). destruct sm; [reflexivity|discriminate]. }
  destruct (zero_scale_half _ NE E0) as (w & a & r & P & Fa & Lt).
  rewrite EM in P. apply Permutation_sym, Permutation_map_inv in P. destruct P as (l & E1 & P).
  destruct (raise_mean _ _ _ _ _ _ _ _ _ _ _ _ _ _ BH NA b w ltac:(congruence)) as (k & Lk & Hk).
  destruct (vector_seen _ _ _ _ _ _ _ _ _ _ _ _ _ _ BH HS NA k Lk ND) as (c1 & Rv & Y).
  assert (LL : length l = (length a + length r)%nat) by (rewrite <- app_length, E1, map_length; reflexivity).
  assert (EF : map fst (combine sm B) = sm) by (apply map_fst_combine; symmetry; apply len_B).
  assert (Pm : Permutation sm (map fst (firstn (length a) l) ++ map fst (skipn (length a) l))) by (rewrite <- map_app, firstn_skipn, <- EF at 1; now apply Permutation_map).
  assert (EA : a = map g (firstn (length a) l)).
  { rewrite <- firstn_map, <- E1. rewrite firstn_app, Nat.sub_diag, firstn_O, app_nil_r, firstn_all. reflexivity. }
  assert (MET : Forall (fun p => yields c1 (fst p) (snd p)) (map fst (firstn (length a) l))).
  { apply Forall_map. apply Forall_forall. intros p Hp. assert (Ip : In p (combine sm B)) by (eapply Permutation_in; [apply Permutation_sym; exact P|]; rewrite <- (firstn_skipn (length a) l); apply in_or_app; now left).
    assert (Gp : good_row (si_tref si) (si_lor si) la (c_opt c0) s (fst (fst p)) (snd p)).
    { assert (R := rows_sm). clear - R Ip. induction R; [destruct Ip|]. destruct Ip as [<-|Ip]; auto. }
    assert (Ep : g p = w). { rewrite EA in Fa. rewrite Forall_forall in Fa. apply Fa. now apply in_map. }
    assert (Y1 := Y _ _ Gp). rewrite (Hk _ _ Gp) in Y1. replace (Cplus (cdot (snd p) b) w) with (snd (fst p)) in Y1 by (rewrite <- Ep; unfold g; ring).
    replace (vis1 (o_twodim (c_opt c0)) (snd (fst p))) with (snd (fst p)) in Y1; [exact Y1|]. unfold vis1. destruct (o_twodim (c_opt c0)) eqn:ET; [reflexivity|].
    apply injective_projections; [reflexivity|]. cbn. apply S3; auto. destruct p. apply in_combine_l in Ip. exact Ip. }
  assert (C := SC c1 _ _ Rv Pm MET). rewrite !map_length, firstn_length, skipn_length in C. lia.
Qed.
End Matrix.

Lemma base_run : exists compat si o s B, based L t u v la opts sm cf compat si o s B.
Proof. apply run_base; auto. Qed.
Lemma spare_all : spare c0 sm -> identifiable c0 (map fst sm).
Proof.
  intros SP c1 Rv Z. destruct sm as [|p l] eqn:E; [exfalso; now apply (an_some _ _ _ _ _ _ _ _ AN0)|].
  apply (SP [] p l eq_refl c1 Rv). intros x Hx. apply Z. now right.
Qed.

Lemma fit_robust kw d name tune rcond tol maxit tn : spare c0 sm -> scattered c0 sm ->
  setting opts "robust_kw" (PDict kw d) -> unique_keys d -> robust_settings d name tune rcond tol maxit ->
  In name ["cauchy"; "fair"; "ols"; "welsch"] -> tuning name tune tn -> tn <> 0 -> (1 <= maxit)%nat ->
  exists compat si o s B m ws, based L t u v la opts sm cf compat si o s B /\ fitted L t u v la opts sm cf compat si o s B m (map Fin ws) /\ length ws = length sm /\ pos ws.
Proof.
  intros SP SC SK UD RS IN TU TN MX. destruct base_run as (compat & si & o & s & B & F).
  destruct (positive_ok L B (map snd sm) rcond (ncoef o s)) with (name := name) (tune := tune) (tol := tol) (maxit := maxit) (tn := tn) as (r & ws & R1 & R2 & R3 & R4 & R5); eauto.
  - rewrite map_length. eapply len_B; eauto.
  - apply (proj2 (ba_dims _ _ _ _ _ _ _ _ _ _ _ _ _ F)).
  - eapply more_B; eauto.
  - eapply rank_B; eauto. now apply spare_all.
  - apply AN0.
  - eapply spare_B; eauto.
  - eapply scale_B; eauto.
  - exists compat, si, o, s, B, (rf_b r), ws. rewrite map_length in R4. split; [exact F|]. split; [|auto]. rewrite <- R3. eapply robust_fitted; eauto.
Qed.
Lemma fit_simple kw d name tune rcond tol maxit tn : identifiable c0 (map fst sm) ->
  (2 * length (c_name c0) + 1 + (if o_notrend (c_opt c0) then 0 else 1) < length sm)%nat ->
  setting opts "robust_kw" (PDict kw d) -> unique_keys d -> robust_settings d name tune rcond tol maxit ->
  tuning name tune tn -> weight_formula name <> None -> (maxit = 1%nat \/ (name = "ols" /\ (1 <= maxit)%nat)) ->
  exists compat si o s B m W, based L t u v la opts sm cf compat si o s B /\ fitted L t u v la opts sm cf compat si o s B m W /\
    (name = "ols" -> exists ws, W = map Fin ws /\ length ws = length sm /\ pos ws).
Proof.
  intros ID CN SK UD RS TU WF MX. destruct base_run as (compat & si & o & s & B & F).
  destruct (linked _ _ _ _ _ _ F) as (m0 & W0 & BH & EN & NA & HS & S1 & S3 & NI).
  assert (RC := run_counts _ _ _ _ _ _ _ _ _ _ _ _ _ _ BH HS NI).
  assert (NB : (ncoef o s < length B)%nat). { rewrite EN, (proj1 (proj2 (proj2 (proj2 (proj2 RC))))), (len_B _ _ _ _ _ F), <- (proj2 (proj2 (proj2 (proj2 (proj2 (proj2 (proj2 RC))))))). destruct (o_notrend (c_opt c0)); cbn [negb]; lia. }
  assert (H1 : length B = length (map snd sm)) by (rewrite map_length; eapply len_B; eauto).
  assert (H2 := proj2 (ba_dims _ _ _ _ _ _ _ _ _ _ _ _ _ F)).
  assert (H3 : full_rank (ncoef o s) B) by (eapply rank_B; eauto).
  assert (H4 := an_shape _ _ _ _ _ _ _ _ AN0).
  destruct (string_dec name "ols") as [->|NE].
  - destruct (ols_ok L B (map snd sm) rcond (ncoef o s)) with (tune := tune) (tol := tol) (maxit := maxit) as (r & ws & R1 & R2 & R3 & R4 & R5); eauto; [destruct MX as [->|[_ MX]]; lia|].
    exists compat, si, o, s, B, (rf_b r), (rf_w r). split; [exact F|]. split; [eapply robust_fitted; eauto|]. intros _. exists ws. rewrite map_length in R4. auto.
  - destruct MX as [->|[-> MX]]; [|congruence].
    destruct (single_ok L B (map snd sm) rcond (ncoef o s)) with (name := name) (tune := tune) (tol := tol) (tn := tn) as (r & R1 & R2); eauto.
    exists compat, si, o, s, B, (rf_b r), (rf_w r). split; [exact F|]. split; [eapply robust_fitted; eauto|]. intros; congruence.
Qed.
End Robust.

Section None.
Variables (L : lib) (t : pyarr tarray) (u : pyarr (list xr)) (v : option (pyarr (list xr))) (la : R) (opts opts0 : dict pyval) (sm : list (R * C)) (c0 : coef).
Hypothesis AN0 : analysis L t u v (Some la) opts0 sm c0.
Hypothesis DC : documented_input L t u v opts sm.
Hypothesis SB : options_but_method opts opts0.
Hypothesis ND : NoDup (c_name c0).
Hypothesis LSUM : forall rc, lstsq_sums L rc.
Hypothesis PINV : pinv_exact L.
Hypothesis EV : evaluable la opts sm.
Hypothesis CF : setting opts "conf_int" (PStr "none").
Hypothesis RM : exists x, setting opts "method" x /\ x <> PStr "ols".
Lemma none_stage compat si o s B m W : fitted L t u v la opts sm (PStr "none") compat si o s B m W -> exists c, solve L t u v (Some la) opts = Ok c.
Proof. intros F. eapply finish; [apply AN0|exact F|]. unfold ci_stage. rewrite (fi_ci _ _ _ _ _ _ _ _ _ _ _ _ _ _ _ F). reflexivity. Qed.
Lemma accept_robust kw d name tune rcond tol maxit tn : spare c0 sm -> scattered c0 sm ->
  setting opts "robust_kw" (PDict kw d) -> unique_keys d -> robust_settings d name tune rcond tol maxit ->
  In name ["cauchy"; "fair"; "ols"; "welsch"] -> tuning name tune tn -> tn <> 0 -> (1 <= maxit)%nat ->
  exists c, solve L t u v (Some la) opts = Ok c.
Proof.
  intros. edestruct (fit_robust L t u v la opts opts0 sm c0 AN0 DC SB ND LSUM PINV EV (PStr "none") ltac:(auto) CF RM) as (compat & si & o & s & B & m & ws & _ & F & _); eauto.
  eapply none_stage; eauto.
Qed.
Lemma accept_simple kw d name tune rcond tol maxit tn : identifiable c0 (map fst sm) ->
  (2 * length (c_name c0) + 1 + (if o_notrend (c_opt c0) then 0 else 1) < length sm)%nat ->
  setting opts "robust_kw" (PDict kw d) -> unique_keys d -> robust_settings d name tune rcond tol maxit ->
  tuning name tune tn -> weight_formula name <> None -> (maxit = 1%nat \/ (name = "ols" /\ (1 <= maxit)%nat)) ->
  exists c, solve L t u v (Some la) opts = Ok c.
Proof.
  intros. edestruct (fit_simple L t u v la opts opts0 sm c0 AN0 DC SB ND LSUM PINV EV (PStr "none") ltac:(auto) CF RM) as (compat & si & o & s & B & m & ws & _ & F & _); eauto.
  eapply none_stage; eauto.
Qed.
End None.
