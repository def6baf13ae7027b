(** Which calls of solve with sample weights and linearised intervals give a result. *)
From Coq Require Import Lia Lra Permutation.
From Verif Require Import M_Base M_Bunch M_Lib M_Tables M_Const M_Options M_Time M_Slvinit M_Harmonics M_Select M_Ellipse
  M_Robust M_Period M_Conf M_Diag M_Solve M_Recon S_Dict S_Options S_Order S_Basis S_Select S_Fit S_Ellipse S_Slv S_Recon S_Model S_Robust S_RobustKw S_Errors S_Perm S_Period S_Noise S_Accept S_RobustAccept S_WeightAccept
  L_Base L_Options L_SolveInv L_OptSolve L_Slv L_Slv2 L_Tables L_Order L_Select L_Fit L_Align L_SelOrder L_Order2 L_Basis L_Harm L_Harm2 L_Harm3 L_Angle L_Ellipse L_Recon L_Recon2 L_Recon3 L_Recon4 L_Core
  L_Ellipse2 L_Model L_Lsq L_Model2 L_Model3 L_Model4 L_Model5 L_Model6 L_Model7 L_Model8 L_Model9 L_Model10 L_Model11 L_Gauss L_Errors L_Errors3 L_Errors5 L_Super L_Period L_Period3 L_Noise L_Noise2 L_Perm L_Example
  L_Robust L_Robust2 L_RobustKw L_RobErr L_RobErr2 L_Accept L_Accept2 L_Sub L_RobustAccept L_RobustAccept2 L_McAccept.
Open Scope R_scope.
Open Scope string_scope.

(** ** regular weighted matrices *)
Lemma wsq_sum n (w : nat -> R) (f : nat -> C) : (forall s, (s < n)%nat -> 0 <= w s) ->
  Sm n (fun s => Cmult (RtoC (w s)) (Cmult (Cconj (f s)) (f s))) = RtoC 0 -> forall s, (s < n)%nat -> 0 < w s -> f s = RtoC 0.
Proof.
  intros W0 H s Hs Ws.
  assert (Z := sq_sum n (fun s => Cmult (RtoC (sqrt (w s))) (f s))). cbv beta in Z.
  assert (E : Cmult (RtoC (sqrt (w s))) (f s) = RtoC 0).
  { apply Z; [|exact Hs]. rewrite <- H. apply Sm_ext. intros k Hk. rewrite Cconj_mult, Cconj_R.
    replace (Cmult (Cmult (RtoC (sqrt (w k))) (Cconj (f k))) (Cmult (RtoC (sqrt (w k))) (f k))) with (Cmult (Cmult (RtoC (sqrt (w k))) (RtoC (sqrt (w k)))) (Cmult (Cconj (f k)) (f k))) by ring.
    now rewrite <- RtoC_mult, sqrt_sqrt by (now apply W0). }
  assert (SW := sqrt_lt_R0 _ Ws). destruct (f s) as [a b]. injection E as E1 E2.
  apply injective_projections; cbn [fst snd]; cbn; apply Rmult_eq_reg_l with (sqrt (w s)); lra.
Qed.

Section Rank.
Variables (B : cmat) (n : nat) (w : list R).
Hypothesis D : dims (length B) n B.
Hypothesis Lw : length w = length B.
Hypothesis W0 : Forall (fun a => 0 <= a) w.
Notation wk k := (nth k w 0).
Lemma wk_nonneg k : (k < length B)%nat -> 0 <= wk k.
Proof. intros Hk. rewrite Forall_forall in W0. apply W0, nth_In. lia. Qed.
Hypothesis IND : forall d, length d = n -> (forall k, (k < length B)%nat -> 0 < wk k -> cdot (nth k B []) d = RtoC 0) -> forall z, In z d -> z = RtoC 0.

Lemma gram_form_w (B' : cmat) d v : length B' = length B -> length d = n ->
  (forall row, In row (gram B' B w n) -> cdot row d = RtoC 0) ->
  Sm (length B) (fun s => Cmult (RtoC (wk s)) (Cmult (Sm n (fun a => Cmult (v a) (bf B' s a))) (cdot (nth s B []) d))) = RtoC 0.
Proof.
  intros LB Hd Z.
  transitivity (Sm n (fun a => Cmult (v a) (Sm n (fun b => Cmult (cent (gram B' B w n) a b) (nth b d (RtoC 0)))))).
  - transitivity (Sm n (fun a => Cmult (v a) (Sm (length B) (fun s => Cmult (RtoC (wk s)) (Cmult (bf B' s a) (cdot (nth s B []) d)))))).
    + rewrite (Sm_ext _ _ (fun s => Sm n (fun a => Cmult (v a) (Cmult (RtoC (wk s)) (Cmult (bf B' s a) (cdot (nth s B []) d)))))).
      2: { intros s _. rewrite <- Sm_r, <- Sm_l. apply Sm_ext. intros a _. ring. }
      rewrite Sm_swap. apply Sm_ext. intros a _. now rewrite Sm_l.
    + apply Sm_ext. intros a Ha. f_equal.
      rewrite (Sm_ext n (fun b => Cmult (cent _ a b) _) (fun b => Sm (length B) (fun s => Cmult (RtoC (wk s)) (Cmult (Cmult (bf B' s a) (bf B s b)) (nth b d (RtoC 0)))))).
      2: { intros b Hb. rewrite gram_entry_w by (auto; congruence). rewrite <- Sm_r, LB. apply Sm_ext. intros s _. ring. }
      rewrite <- Sm_swap. apply Sm_ext. intros s Hs. rewrite (fit_vec B n d s D Hd Hs), <- !Sm_l. apply Sm_ext. intros b _. ring.
  - apply Sm_0. intros a Ha. rewrite (row_dot _ d n a (gram_square _ _ _ _) Hd Ha Z). ring.
Qed.

Lemma rank_end_w d : length d = n ->
  Sm (length B) (fun s => Cmult (RtoC (wk s)) (Cmult (Cconj (cdot (nth s B []) d)) (cdot (nth s B []) d))) = RtoC 0 -> forall z, In z d -> z = RtoC 0.
Proof.
  intros Hd H. apply IND; [exact Hd|]. intros s Hs Ws. exact (wsq_sum _ (fun s => wk s) (fun s => cdot (nth s B []) d) wk_nonneg H s Hs Ws).
Qed.

Lemma conj_rank_w : full_rank n (gram (cconj_mat B) B w n).
Proof.
  intros d Hd Z. assert (LC : length (cconj_mat B) = length B) by (unfold cconj_mat; apply map_length).
  apply (rank_end_w d Hd). rewrite <- (gram_form_w (cconj_mat B) d (fun a => Cconj (nth a d (RtoC 0))) LC Hd Z).
  apply Sm_ext. intros s Hs. f_equal. f_equal. rewrite (fit_vec B n d s D Hd Hs), Sm_conj. apply Sm_ext. intros a _. rewrite bf_conj. apply C_eq; cbn; ring.
Qed.
Variable P : nat -> nat.
Hypothesis P1 : forall f, Sm n (fun a => f (P a)) = Sm n f.
Hypothesis P2 : forall s a, (s < length B)%nat -> (a < n)%nat -> bf B s (P a) = Cconj (bf B s a).
Lemma plain_rank_w : full_rank n (gram B B w n).
Proof.
  intros d Hd Z. apply (rank_end_w d Hd).
  rewrite <- (gram_form_w B d (fun a => Cconj (nth (P a) d (RtoC 0))) eq_refl Hd Z).
  apply Sm_ext. intros s Hs. f_equal. f_equal. rewrite (fit_vec B n d s D Hd Hs), Sm_conj. rewrite <- P1. apply Sm_ext. intros a Ha.
  rewrite P2 by assumption. apply C_eq; cbn; ring.
Qed.
End Rank.

Lemma in_heeded w sm x : length w = length sm -> In x (heeded w sm) <-> exists k, (k < length sm)%nat /\ 0 < nth k w 0 /\ x = fst (nth k sm (0, RtoC 0)).
Proof.
  intros LW. unfold heeded. rewrite in_flat_map. split.
  - intros ([a s] & H & I). apply In_nth with (d := (0, (0, RtoC 0))) in H. destruct H as (k & Hk & E). rewrite combine_length in Hk.
    rewrite combine_nth' in E by exact LW. injection E as <- <-. cbn [fst snd] in I. destruct (Rlt_dec 0 (nth k w 0)); [|destruct I]. destruct I as [<-|[]]. exists k. repeat split; auto; lia.
  - intros (k & K2 & K3 & ->). exists (nth k w 0, nth k sm (0, RtoC 0)). split.
    + rewrite <- (combine_nth' w sm k 0 (0, RtoC 0)) by exact LW. apply nth_In. rewrite combine_length. lia.
    + cbn [fst snd]. destruct (Rlt_dec 0 (nth k w 0)); [now left|lra].
Qed.

(** the matrices of a run in which the heeded samples tell the coefficients apart *)
Section Run.
Variables (L : lib) (t : pyarr tarray) (u : pyarr (list xr)) (v : option (pyarr (list xr))) (lat : option R) (opts : dict pyval) (c : coef).
Variables (si : slv) (la : R) (s : sel) (B : list (list C)) (m : list C) (W : list xr) (sm : list (R * C)).
Hypothesis BH : behind L t u v lat opts c si la s B (map snd sm) m W.
Hypothesis HS : sorted_order (opt_value opts "order_constit").
Hypothesis NI : o_infer (c_opt c) = None.
Hypothesis S1 : si_t si = map fst sm.
Hypothesis ND : NoDup (c_name c).
Lemma heeded_ranks w : dims (length sm) (ncoef (c_opt c) s) B -> length w = length sm -> Forall (fun a => 0 <= a) w -> identifiable c (heeded w sm) ->
  full_rank (ncoef (c_opt c) s) (gram (cconj_mat B) B w (ncoef (c_opt c) s)) /\ full_rank (ncoef (c_opt c) s) (gram B B w (ncoef (c_opt c) s)).
Proof.
  intros D Lw W0 ID. assert (NA : approximate (c_opt c) = false) by (unfold approximate; now rewrite NI).
  assert (LB := proj1 D). rewrite <- LB in D.
  assert (IND : forall d, length d = ncoef (c_opt c) s -> (forall k, (k < length B)%nat -> 0 < nth k w 0 -> cdot (nth k B []) d = RtoC 0) -> forall z, In z d -> z = RtoC 0).
  { intros d Hd Z. apply (sub_independent _ _ _ _ _ _ _ _ _ _ _ _ _ _ BH HS NA (heeded w sm) d); auto.
    - intros x Hx. apply in_heeded in Hx; [|exact Lw]. destruct Hx as (k & K2 & _ & ->). rewrite S1. apply in_map, nth_In. exact K2.
    - intros x row Hx G. apply in_heeded in Hx; [|exact Lw]. destruct Hx as (k & K2 & K3 & ->).
      assert (G' : good_row (si_tref si) (si_lor si) la (c_opt c) s (fst (nth k sm (0, RtoC 0))) (nth k B [])).
      { assert (GR := good_rows _ _ _ _ _ _ _ _ _ _ _ _ _ _ BH). rewrite S1 in GR. clear - GR K2. revert k K2. generalize dependent B. clear B. induction sm as [|p l IH]; intros B0 GR k K2; [cbn in K2; lia|].
        inversion GR; subst. destruct k; [assumption|]. cbn [nth]. apply IH; auto. cbn in K2. lia. }
      assert (row = nth k B []) as -> by (apply somes_inj; unfold good_row in *; congruence). apply Z; [lia|exact K3]. }
  assert (RC := run_counts _ _ _ _ _ _ _ _ _ _ _ _ _ _ BH HS NI). assert (NC := proj1 (proj2 (proj2 (proj2 (proj2 RC))))).
  split.
  - apply conj_rank_w; auto; lia.
  - rewrite NC in *. apply plain_rank_w with (P := swapP (length (s_lind s))); auto; [lia| |].
    + apply swapP_sum.
    + intros k a Hk Ha. symmetry. apply (b_conj _ _ _ _ _ _ _ _ _ _ _ _ _ _ BH HS NI sm S1); [lia|exact Ha].
Qed.
End Run.

(** ** the intervals of a fit with weights *)
Lemma linear_stage L t u v la opts sm compat si o s B m w : argsort_perm L -> inv_returns L -> documented_input L t u v opts sm ->
  fitted L t u v la opts sm (PStr "linear") compat si o s B m (map Fin w) -> length w = length sm ->
  full_rank (ncoef o s) (gram (cconj_mat B) B w (ncoef o s)) -> full_rank (ncoef o s) (gram B B w (ncoef o s)) ->
  ((exists x, setting opts "white" x /\ ~ falsy x) \/ (lomb_contract L /\ orderly L opts t sm)) -> exists c, solve L t u v (Some la) opts = Ok c.
Proof.
  intros AP IR DC F Lw R1 R2 WH. assert (NI := fi_infer _ _ _ _ _ _ _ _ _ _ _ _ _ _ _ F).
  assert (AF : all_finite (map Fin w) = Some w) by (now apply all_finite_spec).
  assert (GM : exists gam, gammas L B (ncoef o s) (map Fin w) (map snd sm) (model_fit (o_twodim o) B m) = Ok gam).
  { unfold gammas. rewrite AF. destruct (IR _ _ (gram_square _ _ _ _) R1) as [iC ->]. cbn [bind]. destruct (IR _ _ (gram_square _ _ _ _) R2) as [iP ->]. cbn [bind].
    destruct (Req_EM_T _ 0); eauto. }
  destruct GM as [gam GM].
  assert (NP : exists p, (if o_white o then Ok None
           else match resid_parts (o_twodim o) (map Fin w) (map snd sm) (model_fit (o_twodim o) B m) with
                | Some (eu, ev) =>
                    do p <- band_averaged_psd_by_constit L (si_tin si) (si_t si) eu ev (si_elor si) (s_frq s) (o_equi o) (o_twodim o);
                    Ok (Some p)
                | None => Ok (Some ([], None))
                end) = Ok p).
  { destruct (o_white o) eqn:EW; [eauto|]. destruct WH as [(x & X1 & X2)|(LC & l & T1 & T2 & T3 & T4)].
    { exfalso. rewrite (fi_white _ _ _ _ _ _ _ _ _ _ _ _ _ _ _ F _ X1) in EW. apply X2. now apply truthy_falsy. }
    destruct (resid_some (o_twodim o) w (map snd sm) (model_fit (o_twodim o) B m)) as (eu & ev & E1 & E2 & E3).
    { now rewrite !map_length. }
    { assert (LB := proj1 (fi_dims _ _ _ _ _ _ _ _ _ _ _ _ _ _ _ F)). unfold model_fit, cmatvec. destruct (o_twodim o); rewrite !map_length; exact LB. }
    rewrite E1. rewrite map_length in E2, E3.
    assert (ET : si_tin si = l) by (eapply times_unique; [apply DC|apply F|exact T1]). rewrite <- ET in T2.
    rewrite (fi_t _ _ _ _ _ _ _ _ _ _ _ _ _ _ _ F).
    destruct (noise_ok L (si_tin si) (map fst sm) eu ev (si_elor si) (s_frq s) (o_equi o) (o_twodim o) LC T2 (fi_kept _ _ _ _ _ _ _ _ _ _ _ _ _ _ _ F)) as [p ->].
    - now rewrite map_length.
    - exact T4.
    - now rewrite map_length.
    - intros e E. rewrite map_length. now apply E3.
    - cbn [bind]. eauto. }
  destruct NP as [p NP].
  assert (CI : exists cis, confidence L o s (si_tin si) (si_t si) (resid_parts (o_twodim o) (map Fin w) (map snd sm) (model_fit (o_twodim o) B m))
     (si_elor si) (map snd sm) (model_fit (o_twodim o) B m) (map Fin w) B (ncoef o s) (conf_input (o_twodim o) m s) = Ok cis).
  { unfold confidence. rewrite NP. cbn [bind]. rewrite GM. cbn [bind].
    destruct (mapM_idx_ok (fun k x => conf_one L o gam p (length (conf_input (o_twodim o) m s)) k (x_Xu x) (x_Yu x) (x_Xv x) (x_Yv x) (x_g x) (x_theta x)) (conf_input (o_twodim o) m s)) with (i := 0%nat) as [cis ->].
    - intros i x. unfold conf_one. rewrite (fi_lin _ _ _ _ _ _ _ _ _ _ _ _ _ _ _ F). cbn [eq_str String.eqb Ascii.eqb Bool.eqb]. eauto.
    - cbn [bind]. rewrite NI. eauto. }
  destruct CI as [cis CI].
  eapply finish; [exact AP|exact F|]. unfold ci_stage. rewrite (fi_ci _ _ _ _ _ _ _ _ _ _ _ _ _ _ _ F). cbn [eq_str String.eqb Ascii.eqb Bool.eqb negb].
  unfold ncoef in CI. rewrite CI. cbn [bind]. reflexivity.
Qed.

Lemma accept_weighted L t u v la opts opts0 sm c0 w :
  analysis L t u v (Some la) opts0 sm c0 -> documented_input L t u v opts sm -> options_but_intervals opts opts0 -> evaluable la opts sm ->
  NoDup (c_name c0) -> inv_returns L -> setting opts "conf_int" (PStr "linear") -> c_weights c0 = map Fin w -> identifiable c0 (heeded w sm) ->
  ((exists x, setting opts "white" x /\ ~ falsy x) \/ (lomb_contract L /\ orderly L opts t sm)) -> exists c, solve L t u v (Some la) opts = Ok c.
Proof.
  intros AN DI OK EV ND IR LIN HW ID WH.
  destruct (same_fit_any L t u v la opts opts0 sm c0 AN DI OK EV "linear" (or_intror eq_refl) LIN) as (compat & si & o & s & B & m & W & F & BH & FL & NT & TW & NI & EQ & NR & _).
  assert (EW : W = map Fin w) by (rewrite <- HW; symmetry; apply BH). subst W.
  assert (S1 := fi_t _ _ _ _ _ _ _ _ _ _ _ _ _ _ _ F).
  assert (NM : ncoef (c_opt c0) s = ncoef o s) by (unfold ncoef; now rewrite NT).
  assert (Lw : length w = length sm).
  { destruct (fit_len _ _ _ _ _ _ _ _ _ _ _ _ _ (an_shape _ _ _ _ _ _ _ _ AN) (run_lens _ _ _ _ _ _ _ _ _ _ _ _ _ _ BH)
      (infer_none_R _ _ _ _ _ (bh_sel _ _ _ _ _ _ _ _ _ _ _ _ _ _ BH))
      (slv_data _ _ _ _ _ _ _ (an_arrays _ _ _ _ _ _ _ _ AN) (bh_slv _ _ _ _ _ _ _ _ _ _ _ _ _ _ BH))
      (bh_fit _ _ _ _ _ _ _ _ _ _ _ _ _ _ BH)) as (_ & FL'). clear - FL' S1. rewrite S1, !map_length in FL'. lia. }
  assert (W0 : Forall (fun a => 0 <= a) w).
  { assert (Rg := fit_ranged _ _ _ _ _ _ _ _ _ _ _ _ _ (bh_fit _ _ _ _ _ _ _ _ _ _ _ _ _ _ BH)). apply Forall_forall. intros x Hx. apply Rg. now apply in_map. }
  assert (D := fi_dims _ _ _ _ _ _ _ _ _ _ _ _ _ _ _ F). rewrite <- NM in D.
  destruct (heeded_ranks _ _ _ _ _ _ _ _ _ _ _ _ _ _ BH (an_sorted _ _ _ _ _ _ _ _ AN) NI S1 ND w D Lw W0 ID) as [R1 R2]. rewrite NM in R1, R2.
  eapply linear_stage; eauto. apply AN.
Qed.

(** ** from ordinary least squares *)
Lemma heeded_all w sm : length w = length sm -> pos w -> forall x, In x (map fst sm) -> In x (heeded w sm).
Proof.
  intros Lw PW x Hx. apply in_map_iff in Hx. destruct Hx as (p & <- & Hp). apply In_nth with (d := (0, RtoC 0)) in Hp. destruct Hp as (k & Hk & <-).
  apply in_heeded; [exact Lw|]. exists k. split; [exact Hk|]. split; [|reflexivity]. unfold pos in PW. rewrite Forall_forall in PW. apply PW, nth_In. lia.
Qed.

Section Robust.
Variables (L : lib) (t : pyarr tarray) (u : pyarr (list xr)) (v : option (pyarr (list xr))) (la : R) (opts opts0 : dict pyval) (sm : list (R * C)) (c0 : coef).
Hypothesis AN0 : analysis L t u v (Some la) opts0 sm c0.
Hypothesis DC : documented_input L t u v opts sm.
Hypothesis SB : options_but_method opts opts0.
Hypothesis ND : NoDup (c_name c0).
Hypothesis LSUM : forall rc, lstsq_sums L rc.
Hypothesis PINV : pinv_exact L.
Hypothesis IR : inv_returns L.
Hypothesis EV : evaluable la opts sm.
Hypothesis LIN : setting opts "conf_int" (PStr "linear").
Hypothesis RM : exists x, setting opts "method" x /\ x <> PStr "ols".
Hypothesis WH : (exists x, setting opts "white" x /\ ~ falsy x) \/ (lomb_contract L /\ orderly L opts t sm).

Lemma robust_stage compat si o s B m w : based L t u v la opts sm (PStr "linear") compat si o s B -> fitted L t u v la opts sm (PStr "linear") compat si o s B m (map Fin w) ->
  length w = length sm -> pos w -> identifiable c0 (map fst sm) -> exists c, solve L t u v (Some la) opts = Ok c.
Proof.
  intros BA F Lw PW ID. destruct (linked L t u v la opts opts0 sm c0 AN0 DC SB _ _ _ _ _ _ BA) as (m0 & W0 & BH & EN & NA & HS & S1 & S3 & NI).
  assert (D := fi_dims _ _ _ _ _ _ _ _ _ _ _ _ _ _ _ F). rewrite EN in D.
  assert (ID' : identifiable c0 (heeded w sm)) by (intros c1 Rv Z; apply (ID c1 Rv); intros x Hx; apply Z, heeded_all; auto).
  assert (W1 : Forall (fun a => 0 <= a) w) by (eapply Forall_impl; [|exact PW]; intros a Ha; cbv beta in Ha; lra).
  destruct (heeded_ranks _ _ _ _ _ _ _ _ _ _ _ _ _ _ BH HS NI S1 ND w D Lw W1 ID') as [R1 R2]. rewrite <- EN in R1, R2.
  eapply linear_stage; eauto. apply AN0.
Qed.
Lemma accept_robust_linear kw d name tune rcond tol maxit tn : spare c0 sm -> scattered c0 sm ->
  setting opts "robust_kw" (PDict kw d) -> unique_keys d -> robust_settings d name tune rcond tol maxit ->
  In name ["cauchy"; "fair"; "ols"; "welsch"] -> tuning name tune tn -> tn <> 0 -> (1 <= maxit)%nat ->
  exists c, solve L t u v (Some la) opts = Ok c.
Proof.
  intros SP SC SK UD RS IN TU TN MX.
  destruct (fit_robust L t u v la opts opts0 sm c0 AN0 DC SB ND LSUM PINV EV (PStr "linear") ltac:(auto) LIN RM kw d name tune rcond tol maxit tn SP SC SK UD RS IN TU TN MX)
    as (compat & si & o & s & B & m & ws & BA & F & Lw & PW).
  eapply robust_stage; eauto. eapply spare_all; eauto.
Qed.
End Robust.
