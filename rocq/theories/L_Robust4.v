(** The robust fit seen from solve. *)
From Coq Require Import Lia Lra Permutation.
From Verif Require Import M_Base M_Bunch M_Lib M_Tables M_Const M_Options M_Time M_Slvinit M_Harmonics M_Select M_Ellipse
  M_Robust M_Period M_Conf M_Diag M_Solve M_Recon S_Dict S_Options S_Order S_Basis S_Select S_Fit S_Ellipse S_Slv S_Recon S_Model S_Robust
  L_Base L_Options L_SolveInv L_OptSolve L_Slv L_Slv2 L_Order L_Select L_Fit L_Align L_SelOrder L_Basis L_Angle L_Ellipse L_Recon L_Recon2 L_Recon3 L_Core
  L_Ellipse2 L_Model L_Lsq L_Model2 L_Model3 L_Model4 L_Model5 L_Model6 L_Model7 L_Model8 L_Model9 L_Model10 L_Model11 L_Robust L_Robust2.
Open Scope R_scope.
Open Scope string_scope.

Lemma kw_inv L X y kw r : robustfit_kw L X y kw = Ok r ->
  exists k d name tune tol maxit, kw = PDict k d /\ kw_nat (kget d "maxit" (PNum 50)) = Ok maxit /\
    robustfit L X y name tune (kget d "rcond" (PNum 1)) tol maxit = Ok r.
Proof.
  unfold robustfit_kw. destruct kw as [| | | | | |k d]; try discriminate. destruct (negb _); [discriminate|].
  intros H. inv_bind H. inv_bind H. inv_bind H. inv_bind H. do 6 eexists. split; [reflexivity|]. split; [eassumption|]. eassumption.
Qed.

Section Run.
Variables (L : lib) (t : pyarr tarray) (u : pyarr (list xr)) (v : option (pyarr (list xr))) (lat : option R) (opts : dict pyval) (c : coef).
Variables (si : slv) (la : R) (s : sel) (B : list (list C)) (xraw m : list C) (W : list xr).
Hypothesis BH : behind L t u v lat opts c si la s B xraw m W.
Hypothesis HS : sorted_order (opt_value opts "order_constit").
Hypothesis NA : approximate (c_opt c) = false.
Notation tw := (o_twodim (c_opt c)).
Notation good := (good_row (si_tref si) (si_lor si) la (c_opt c) s).
Variable sm : list (R * C).
Hypothesis S1 : si_t si = map fst sm.
Hypothesis S2 : xraw = map snd sm.
Hypothesis S3 : tw = false -> forall x, In x sm -> snd (snd x) = 0.

Lemma wmisfit_of c' w (f : list C -> C) : (forall x row, good x row -> yields c' x (f row)) ->
  weighted_misfit c' sm w (weighted_ss w (csub xraw (map f B))).
Proof.
  intros Y. exists (map f B). assert (P := paired _ _ _ _ _ _ _ _ _ _ _ _ _ _ BH sm S1). split; [|now rewrite S2].
  clear - P Y. induction P; cbn [map]; constructor; auto.
Qed.
Lemma run_weighted w c' : optimal B xraw w m -> rival c c' ->
  exists d d', weighted_misfit c sm w d /\ weighted_misfit c' sm w d' /\ d <= d'.
Proof.
  intros O Rv. destruct (rival_yields _ _ _ _ _ _ _ _ _ _ _ _ _ _ BH HS NA c' Rv) as (k & M & Y).
  eexists _, _. split; [apply (wmisfit_of c w (fun row => vis1 tw (cdot row m))); intros x row G; eapply own_yields; eauto|].
  split; [apply (wmisfit_of c' w (fun row => cdot row k)); exact Y|].
  assert (BST := O k ltac:(rewrite (mt_len _ _ _ _ _ M); symmetry; apply BH)).
  eapply Rle_trans; [|exact BST]. unfold misfits, cmatvec. clear - S3 S2.
  assert (H : forall z, In z xraw -> tw = false -> snd z = 0).
  { intros z Hz E. rewrite S2 in Hz. apply in_map_iff in Hz. destruct Hz as (y & <- & Hy). now apply S3. }
  revert H. clear S2. revert xraw w. unfold weighted_ss, csub.
  induction B as [|row B' IH]; intros [|z xr'] [|a w] H; try (right; reflexivity). cbn [map combine]. rewrite !rsum_cons.
  apply Rplus_le_compat; [|apply IH; intros q Hq; apply H; now right].
  cbn [fst snd]. assert (H0 := H z (or_introl eq_refl)). unfold vis1. destruct tw; [right; reflexivity|]. specialize (H0 eq_refl).
  destruct (cdot row m) as [p q], z as [x y]. cbn in *. subst y. assert (0 <= a * (a * 1)) by nra. apply Rmult_le_compat_l; nra.
Qed.
End Run.

Lemma top_robust L t u v lat opts sm c : analysis L t u v lat opts sm c -> approximate (c_opt c) = false ->
  (forall rc, lstsq_contract L rc) -> o_method (c_opt c) <> PStr "ols" ->
  (exists w, c_weights c = map Fin w /\ length w = length sm /\ Forall (fun a => 0 <= a <= 1) w /\
     forall c', rival c c' -> exists d d', weighted_misfit c sm w d /\ weighted_misfit c' sm w d' /\ d <= d') \/
  (exists k d n X r, o_robust_kw (c_opt c) = PDict k d /\ kw_nat (kget d "maxit" (PNum 50)) = Ok n /\
     robustfit_kw L X (map snd sm) (PDict k d) = Ok r /\ c_weights c = rf_w r /\ rf_iterations r = n).
Proof.
  intros AN NA LC NO. destruct (analysis_run _ _ _ _ _ _ _ _ AN) as (_ & si & la & s & B & xraw & m & W & BH & S1 & S2 & S3).
  assert (HS := an_sorted _ _ _ _ _ _ _ _ AN).
  assert (F := bh_fit _ _ _ _ _ _ _ _ _ _ _ _ _ _ BH). unfold fit in F. inv_bind F.
  destruct (finite_mat a) as [B'|]; [|discriminate].
  assert (EM : eq_str (o_method (c_opt c)) "ols" = false).
  { destruct (o_method (c_opt c)) as [| | |x| | |]; try reflexivity. cbn. apply String.eqb_neq. congruence. }
  rewrite EM in F. inv_bind F. apply Ok_inj in F.
  assert (B' = B /\ raw_data (si_u si) (si_v si) = xraw /\ rf_b a0 = m /\ rf_w a0 = W) as (-> & E2 & E3 & E4) by (repeat split; congruence).
  rewrite E2 in Ha0. destruct (kw_inv _ _ _ _ _ Ha0) as (k & d & name & tune & tol & maxit & K1 & K2 & K3).
  assert (LX : length B = length xraw) by (symmetry; eapply len_rows; eauto).
  assert (CX : exists row, In row B /\ row <> []).
  { destruct (fit_len _ _ _ _ _ _ _ _ _ _ _ _ _ (an_shape _ _ _ _ _ _ _ _ AN) (run_lens _ _ _ _ _ _ _ _ _ _ _ _ _ _ BH)
      (infer_none_R _ _ _ _ _ (bh_sel _ _ _ _ _ _ _ _ _ _ _ _ _ _ BH))
      (slv_data _ _ _ _ _ _ _ ltac:(destruct (an_samples _ _ _ _ _ _ _ _ AN) as (e & _ & SMP); eapply samples_arrays; exact SMP) (bh_slv _ _ _ _ _ _ _ _ _ _ _ _ _ _ BH))
      (bh_fit _ _ _ _ _ _ _ _ _ _ _ _ _ _ BH)) as ((D1 & D2) & _).
    assert (Hne := bh_t _ _ _ _ _ _ _ _ _ _ _ _ _ _ BH). destruct B as [|row B1]; [destruct (si_t si); [congruence|discriminate]|].
    exists row. split; [now left|]. intros ->. specialize (D2 [] (or_introl eq_refl)). unfold ncoef in D2. cbn in D2. lia. }
  destruct (robust_weights_match _ _ _ _ _ _ _ _ _ K3 (LC _) LX CX) as [(w & W1 & W2 & W3 & W4)|(N & _)].
  - left. exists w. split; [rewrite (bh_wt _ _ _ _ _ _ _ _ _ _ _ _ _ _ BH); congruence|]. split; [rewrite W2, S2; apply map_length|].
    split; [exact W3|]. intros c' Rv. rewrite E3 in W4. eapply run_weighted; eauto.
  - right. exists k, d, maxit, B, a0. split; [exact K1|]. split; [exact K2|].
    split; [rewrite <- S2, <- K1; exact Ha0|]. split; [rewrite (bh_wt _ _ _ _ _ _ _ _ _ _ _ _ _ _ BH); congruence|exact N].
Qed.
