(** Intervals of an analysis with sample weights: the intervals that solve reports. *)
From Coq Require Import Lia Lra Permutation.
From Coquelicot Require Import Coquelicot.
From Verif Require Import M_Base M_Bunch M_Lib M_Tables M_Const M_Options M_Time M_Slvinit M_Harmonics M_Select M_Ellipse
  M_Robust M_Period M_Conf M_Diag M_Solve M_Recon S_Dict S_Options S_Order S_Basis S_Select S_Fit S_Ellipse S_Slv S_Recon S_Model S_Conf S_Errors S_RobustErr
  L_Base L_Options L_SolveInv L_OptSolve L_Slv L_Slv2 L_Order L_Select L_Fit L_Align L_SelOrder L_Basis L_Angle L_Ellipse L_Recon L_Recon2 L_Recon3 L_Core
  L_Ellipse2 L_Model L_Lsq L_Model2 L_Model3 L_Model4 L_Model5 L_Model6 L_Model7 L_Model8 L_Model9 L_Model10 L_Model11 L_Model12 L_Robust L_Robust2 L_Robust4
  L_Conf L_Conf2 L_Conf3 L_Conf4 L_Gauss L_Errors L_Errors2 L_Errors3 L_Errors4 L_Errors5 L_RobErr.
Open Scope R_scope.
Open Scope string_scope.

(** ** finite weights lie in [0,1] *)
Definition ranged (w : list xr) : Prop := forall x, In (Fin x) w -> 0 <= x <= 1.
Lemma ranged_ones {A} (l : list A) : ranged (map (fun _ => x1) l).
Proof. intros x Hx. apply in_map_iff in Hx. destruct Hx as (_ & E & _). injection E as <-. lra. Qed.
Lemma ranged_next name wf z rf w : wfunc name = Ok wf -> wf (r_normed z rf) = Ok w -> ranged w.
Proof.
  intros H E. destruct (wfunc_spec _ _ H) as [[_ Hf]|(f & ph & H1 & H2 & H3)]; [rewrite Hf in E; discriminate|].
  rewrite H3 in E. apply Ok_inj in E. subst w. intros x Hx. apply in_map_iff in Hx. destruct Hx as (y & E & Hy).
  eapply wf_range; [exact H1| |exact E]. unfold r_normed in Hy. apply in_map_iff in Hy. destruct Hy as (p & <- & _).
  destruct (xdiv _ _); cbn; auto. apply Rabs_pos.
Qed.
Lemma loop_ranged L X y rc tol name wf rfac : wfunc name = Ok wf -> forall fuel i w old ls w2 rs it st,
  ranged w -> (forall o, old = Some o -> ranged (it_w o)) ->
  rf_loop L X y rc tol wf rfac fuel i w old = Ok (ls, w2, rs, it, st) -> ranged w2.
Proof.
  intros Hwf. induction fuel as [|fuel IH]; intros i w old ls w2 rs it st Hw Ho H; cbn in H.
  - destruct old as [o|]; [|discriminate]. injection H as <- <- _ _ _. exact Hw.
  - inv_bind H. rename a into ls1.
    assert (HC : (do w' <- wf (r_normed (residual X y (ls_b ls1)) rfac);
        rf_loop L X y rc tol wf rfac fuel (S i) w'
          (Some {| it_ls := ls1; it_w := w; it_meansq := xdiv (Fin (ls_rsumsq ls1)) (xsum w);
                   it_resid := residual X y (ls_b ls1) |})) = Ok (ls, w2, rs, it, st) -> ranged w2).
    { intros HC. inv_bind HC. refine (IH _ _ _ _ _ _ _ _ _ _ HC).
      - eapply ranged_next; eauto.
      - intros o E. injection E as <-. exact Hw. }
    destruct old as [o|]; [|exact (HC H)].
    destruct (xlt _ (Fin 0)); [injection H as <- <- _ _ _; now apply Ho|].
    destruct (xlt _ (Fin tol)); [injection H as <- <- _ _ _; auto|]. exact (HC H).
Qed.
Lemma robust_ranged L X y name tune rc tol maxit r : robustfit L X y name tune rc tol maxit = Ok r -> ranged (rf_w r).
Proof.
  unfold robustfit. intros H. inv_bind H. inv_bind H. inv_bind H. inv_bind H. inv_bind H.
  destruct a3 as [[[[ls w] resid] iters] st]. apply Ok_inj in H. subst r. cbn [rf_w].
  refine (loop_ranged _ _ _ _ _ _ _ _ Ha0 _ _ _ _ _ _ _ _ _ (ranged_ones y) _ Ha3); discriminate.
Qed.
Lemma fit_ranged L t u v tref lor la o s B xraw m W : fit L t u v tref lor la o s = Ok (B, xraw, m, W) -> ranged W.
Proof.
  unfold fit. intros F. inv_bind F. destruct (finite_mat a) as [B'|]; [|discriminate].
  destruct (eq_str _ _).
  - inv_bind F. destruct a0 as [[[m' r'] k] sg]. apply Ok_inj in F. injection F as _ _ _ <-. apply ranged_ones.
  - inv_bind F. apply Ok_inj in F. injection F as _ _ _ <-. destruct (kw_inv _ _ _ _ _ Ha0) as (k & d & name & tune & tol & maxit & _ & _ & K).
    eapply robust_ranged. exact K.
Qed.

Lemma wnoise_qu tw B m sm w : length sm = length B -> length w = length sm ->
  let rs := map (fun p : R * C * list C => Cminus (snd (fst p)) (vis1 tw (cdot (snd p) m))) (combine sm B) in
  let cw := combine w (combine sm rs) in
  let U := rsum (map (fun p => fst p * (fst (snd (fst (snd p))) * fst (snd (snd p)))) cw) in
  let V := rsum (map (fun p => fst p * (snd (snd (fst (snd p))) * snd (snd (snd p)))) cw) in
  let UV := rsum (map (fun p => fst p * ((fst (snd (fst (snd p))) * snd (snd (snd p)) + snd (snd (fst (snd p))) * fst (snd (snd p))) / 2)) cw) in
  fst (Cminus (wdot (map Cconj (map snd sm)) (map snd sm) w) (wdot (map Cconj (model_fit tw B m)) (map snd sm) w)) = U + V /\
  Cminus (wdot (map snd sm) (map snd sm) w) (wdot (model_fit tw B m) (map snd sm) w) = (U - V, 2 * UV).
Proof.
  intros HB Hw. cbv zeta. rewrite noise_c by auto. destruct (noise_p tw B m sm w HB Hw) as [P1 P2].
  match goal with |- context [combine w ?x] => set (cs := combine w x) in * end.
  assert (S : forall (f g : R * (R * C * C) -> R) l, rsum (map (fun p => f p + g p) l) = rsum (map f l) + rsum (map g l)).
  { intros f g l. induction l as [|x l IH]; [unfold rsum; cbn; ring|]. cbn [map]. rewrite !rsum_cons, IH. ring. }
  assert (K : forall (f : R * (R * C * C) -> R) z l, rsum (map (fun p => z * f p) l) = z * rsum (map f l)).
  { intros f z l. induction l as [|x l IH]; [unfold rsum; cbn; ring|]. cbn [map]. rewrite !rsum_cons, IH. ring. }
  split; [|apply C_eq; cbn [fst snd]].
  - rewrite <- S. f_equal. apply map_ext. intros p. ring.
  - rewrite P1. unfold Rminus at 2. rewrite <- (Rmult_1_l (rsum (map (fun p => fst p * (snd (snd (fst (snd p))) * snd (snd (snd p)))) cs))), Ropp_mult_distr_l, <- K, <- S.
    f_equal. apply map_ext. intros p. ring.
  - rewrite P2, <- K. f_equal. apply map_ext. intros p. field.
Qed.

(** the noise levels that a run uses: none with white noise, else from the weighted residuals *)
Definition wnoise_behind (L : lib) (c : coef) (sm : list (R * C)) (w : list R) (si : slv) (frq : list R) (p : noise) : Prop :=
  if o_white (c_opt c) then p = None
  else exists rs pp, residuals c sm rs /\
    let wr := map (fun q => Cmult (RtoC (fst q)) (snd q)) (combine w rs) in
    band_averaged_psd_by_constit L (si_tin si) (map fst sm) (map fst wr) (oif (o_twodim (c_opt c)) (map snd wr)) (si_elor si) frq (o_equi (c_opt c)) (o_twodim (c_opt c)) = Ok pp /\
    p = Some pp.

Lemma wrun_conf L t u v lat opts sm c lin w : analysis L t u v lat opts sm c -> inv_exact L ->
  setting opts "infer" PNone -> setting opts "conf_int" (PStr (if lin : bool then "linear" else "MC")) ->
  (params c < length sm)%nat -> c_weights c = map Fin w ->
  Forall (fun a => 0 <= a <= 1) w /\ length w = length sm /\
  exists si frq p, slvinit (l_parse L) t u v lat (o_epoch (c_opt c)) = Ok si /\ Permutation (map Some frq) (map w_frq (rows c)) /\
  wnoise_behind L c sm w si frq p /\
  forall r i, In r (rows c) -> w_lind r = Some i ->
  exists k oX oY qu qv quv gm nc wi g th Xu Yu Xv Yv, nth_error frq k = w_frq r /\ best_weighted c sm w i true oX /\ best_weighted c sm w i false oY /\
    noise_measure fst c sm w qu /\ noise_measure snd c sm w qv /\ noise_comeasure c sm w quv /\
    (let x := weighted_squares w oX in let y := weighted_squares w oY in let z := weighted_products w oX oY in
     (varXu (block true gm nc k) (block true gm nc k) = x * qu /\ varYu (block false gm nc k) (block false gm nc k) = y * qu /\
      varXv (block false gm nc k) (block false gm nc k) = x * qv /\ varYv (block true gm nc k) (block true gm nc k) = y * qv) /\
     (covXuYu (block false gm nc k) = z * qu /\ covXvYv (block true gm nc k) = z * qv /\
      covXuXv (block false gm nc k) = x * quv /\ covXuYv (block true gm nc k) = z * quv /\
      covYuXv (block false gm nc k) = z * quv /\ covYuYv (block true gm nc k) = y * quv)) /\
    o_linci (c_opt c) = lin /\
    conf_one L (c_opt c) (Some gm) p nc k Xu Yu Xv Yv g th = Ok wi /\
    if o_twodim (c_opt c) then
      g = g_of Xu Yu Xv Yv /\ th = theta_of Xu Yu Xv Yv /\
      w_Lsmaj r = Some (Some (maj_of Xu Yu Xv Yv)) /\ w_Lsmin r = Some (Some (min_of Xu Yu Xv Yv)) /\
      w_theta r = Some (Some (theta_of Xu Yu Xv Yv)) /\ w_g r = Some (g_of Xu Yu Xv Yv) /\
      w_Lsmaj_ci r = Some (Some (ci_maj wi)) /\ w_Lsmin_ci r = Some (Some (ci_min wi)) /\
      w_theta_ci r = Some (Some (ci_theta wi)) /\ w_g_ci r = Some (Some (ci_g wi))
    else
      g = g1_of Xu Yu /\
      w_A r = Some (Some (A_of Xu Yu)) /\ w_g r = Some (g1_of Xu Yu) /\
      w_A_ci r = Some (Some (ci_maj wi)) /\ w_g_ci r = Some (Some (ci_g wi)).
Proof.
  intros AN IX IN CI PN HW.
  assert (HU := an_keys _ _ _ _ _ _ _ _ AN).
  apply setting_val in IN, CI; try (exact HU || (cbn; tauto)).
  destruct (analysis_run _ _ _ _ _ _ _ _ AN) as (_ & si & la & s & B & xraw & m & W & BH & S1 & S2 & S3).
  assert (HS := an_sorted _ _ _ _ _ _ _ _ AN).
  destruct (solve_inv _ _ _ _ _ _ _ (an_solve _ _ _ _ _ _ _ _ AN)) as
    [(compat & si' & la' & o & s' & B' & xraw' & m' & W' & c1 & c2 & P1 & P2 & P3 & P4 & P5 & P6 & P7 & P8 & P9)].
  assert (Ho : c_opt c = o) by (rewrite (sb_opt _ _ (solve_base _ _ _ _ _ _ _ _ _ _ _ _ P7 P8 P9)); reflexivity).
  destruct (used_options opts (is2d v) (si_equi si') HU compat o P1 P4) as
    (_ & _ & Etw & _ & _ & Eci & Elin & _ & _ & _ & _ & _ & _ & _ & _ & Ewh & Eme & _ & Ep1 & Ep2 & (inf & V1 & V2) & _).
  rewrite CI in Eci, Elin. rewrite IN in V1.
  assert (Eci0 : o_conf_int o = true) by (destruct lin; exact Eci). assert (Elin0 : o_linci o = lin) by (destruct lin; exact Elin).
  clear Eci Elin. rename Eci0 into Eci. rename Elin0 into Elin.
  cbn [validate_infer] in V1. apply Ok_inj in V1. subst inf. cbn [read_infer] in V2. apply Ok_inj in V2. symmetry in V2.
  subst o. assert (NI := V2).
  assert (Ela : la' = la) by (rewrite (bh_lat _ _ _ _ _ _ _ _ _ _ _ _ _ _ BH) in P3; congruence). subst la'.
  rewrite Ep2, <- Ep1, (bh_slv _ _ _ _ _ _ _ _ _ _ _ _ _ _ BH) in P2. apply Ok_inj in P2. subst si'.
  rewrite (bh_sel _ _ _ _ _ _ _ _ _ _ _ _ _ _ BH) in P5. apply Ok_inj in P5. subst s'.
  rewrite (bh_fit _ _ _ _ _ _ _ _ _ _ _ _ _ _ BH) in P6. apply Ok_inj in P6. injection P6 as <- <- <- <-.
  assert (EW : W = map Fin w) by (rewrite <- HW; symmetry; apply BH).
  assert (Lw : length w = length sm).
  { destruct (fit_len _ _ _ _ _ _ _ _ _ _ _ _ _ (an_shape _ _ _ _ _ _ _ _ AN) (run_lens _ _ _ _ _ _ _ _ _ _ _ _ _ _ BH)
      (infer_none_R _ _ _ _ _ (bh_sel _ _ _ _ _ _ _ _ _ _ _ _ _ _ BH))
      (slv_data _ _ _ _ _ _ _ (an_arrays _ _ _ _ _ _ _ _ AN) (bh_slv _ _ _ _ _ _ _ _ _ _ _ _ _ _ BH))
      (bh_fit _ _ _ _ _ _ _ _ _ _ _ _ _ _ BH)) as (_ & FL). clear - FL EW S1. rewrite EW, S1, !map_length in FL. lia. }
  assert (Rw : Forall (fun a => 0 <= a <= 1) w).
  { assert (Rg := fit_ranged _ _ _ _ _ _ _ _ _ _ _ _ _ (bh_fit _ _ _ _ _ _ _ _ _ _ _ _ _ _ BH)). apply Forall_forall. intros x Hx. apply Rg. rewrite EW. now apply in_map. }
  assert (Hw0 : Forall (fun a => 0 <= a) w) by (eapply Forall_impl; [|exact Rw]; intros x Hx; cbv beta in Hx; lra).
  split; [exact Rw|]. split; [exact Lw|].
  assert (F := diag_stage_core _ _ _ _ _ (ci_stage_core _ _ _ _ _ _ _ _ _ _ P7) P8).
  destruct (diag_stage_ci _ _ _ _ P8) as (E1 & E2 & E3 & E4 & E5).
  destruct (run_counts _ _ _ _ _ _ _ _ _ _ _ _ _ _ BH HS NI) as (R0 & RnR & RnNR & RNR & RN & Rname & RP & Rc).
  (* the covariance *)
  assert (P7' := P7). unfold ci_stage in P7. rewrite Eci in P7. inv_bind P7. apply Ok_inj in P7. rename a into cis. rename Ha into HC.
  unfold confidence in HC. rewrite NI in HC. inv_bind HC. rename a into p0. rename Ha into HP. inv_bind HC. rename a into gam. rename Ha into HG. inv_bind HC. apply Ok_inj in HC. subst a. rename Ha into HM.
  assert (Hpar : INR (length xraw) - INR (2 * (s_nNR s + s_nR s) + 1 + (if o_notrend (c_opt c) then 0 else 1)) = INR (length sm) - INR (params c)).
  { rewrite S2, map_length. f_equal. f_equal. unfold params. rewrite Rc, RnNR, RnR. lia. }
  assert (Hdof : 0 < INR (length sm) - INR (params c)) by (apply lt_INR in PN; lra).
  unfold gammas in HG. rewrite EW, (proj2 (all_finite_spec _ w) eq_refl) in HG. cbv zeta in HG. rewrite Hpar in HG. inv_bind HG. rename a into iC. rename Ha into HiC. inv_bind HG. rename a into iP. rename Ha into HiP.
  destruct (Req_EM_T (INR (length sm) - INR (params c)) 0) as [Z|_]; [lra|]. apply Ok_inj in HG.
  replace (2 * (s_nNR s + s_nR s) + 1 + (if o_notrend (c_opt c) then 0 else 1))%nat with (length (s_lind s) + length (s_lind s) + (1 + if o_notrend (c_opt c) then 0 else 1))%nat in * by lia.
  set (N := (length (s_lind s) + length (s_lind s) + (1 + if o_notrend (c_opt c) then 0 else 1))%nat) in *.
  assert (BL := B_len _ _ _ _ _ _ _ _ _ _ _ _ _ _ BH sm S1).
  assert (HX : inv_of N (fun a a' => Sm (length sm) (fun k => Cmult (Cconj (bw B w k a)) (bw B w k a'))) (cent iC)).
  { destruct (IX N _ _ (gram_square _ _ _ _) HiC) as [I1 I2].
    eapply product_inv; [exact I1|exact I2| |reflexivity]. intros a a' Ha Ha'. change centry_at with cent.
    rewrite gram_entry_w; auto; [|unfold cconj_mat; now rewrite map_length|unfold cconj_mat; rewrite map_length; congruence].
    unfold cconj_mat at 1. rewrite map_length, BL. apply Sm_ext. intros k _. rewrite bf_conj. unfold bw. rewrite Cconj_mult, Cconj_R.
    rewrite <- (wk_ss w Hw0 k) at 1. apply C_eq; cbn; ring. }
  assert (HY : inv_of N (fun a a' => Sm (length sm) (fun k => Cmult (bw B w k a) (bw B w k a'))) (cent iP)).
  { destruct (IX N _ _ (gram_square _ _ _ _) HiP) as [I1 I2].
    eapply product_inv; [exact I1|exact I2| |reflexivity]. intros a a' Ha Ha'. change centry_at with cent.
    rewrite gram_entry_w; auto; [|congruence]. rewrite BL. apply Sm_ext. intros k _. unfold bw.
    rewrite <- (wk_ss w Hw0 k) at 1. apply C_eq; cbn; ring. }
  assert (HB : length sm = length B) by (symmetry; exact BL).
  destruct (wnoise_qu (o_twodim (c_opt c)) B m sm w HB Lw) as [NQ1 NQ2].
  set (rs := rs c B m sm). set (dof := INR (length sm) - INR (params c)) in *.
  fold (L_Model9.rs c B m sm) in NQ1, NQ2. fold rs in NQ1, NQ2. cbv zeta in NQ1, NQ2.
  match type of NQ1 with _ = ?a + ?b => set (U := a) in *; set (V := b) in * end.
  match type of NQ2 with _ = (_, 2 * ?a) => set (UV := a) in * end.
  set (qu := U / dof). set (qv := V / dof). set (quv := UV / dof).
  assert (NA := NA0 c NI).
  assert (RSD := own_residuals _ _ _ _ _ _ _ _ _ _ _ _ _ _ BH HS NA sm S1).
  exists si, (s_frq s), p0. split; [apply BH|]. split.
  { destruct (solve_ran _ _ _ _ _ _ _ (an_shape _ _ _ _ _ _ _ _ AN) (an_arrays _ _ _ _ _ _ _ _ AN) HU (an_solve _ _ _ _ _ _ _ _ AN) ltac:(apply (analysis_run _ _ _ _ _ _ _ _ AN))) as (cN & siN & sN & Rn).
    assert (Hx := validate_sorting _ _ _ HS (rn_val _ _ _ _ _ _ _ _ _ _ Rn)).
    assert (SL := sel_lens_ok _ _ _ _ _ (bh_sel _ _ _ _ _ _ _ _ _ _ _ _ _ _ BH)). assert (Hn := infer_none_R _ _ _ _ _ (bh_sel _ _ _ _ _ _ _ _ _ _ _ _ _ _ BH)).
    assert (Hm := bh_len _ _ _ _ _ _ _ _ _ _ _ _ _ _ BH).
    destruct (ci_stage_aligned _ _ _ _ _ _ _ _ _ _ SL ltac:(rewrite Hm; unfold ncoef; lia) Hn P7') as (A1 & N1 & N2 & N3 & _).
    destruct (diag_stage_aligned _ _ _ _ A1 P8) as (A2 & M1 & M2 & M3).
    destruct (reorder_rows _ _ _ _ (an_perm _ _ _ _ _ _ _ _ AN) A2 Hx P9) as [PP _]. apply (Permutation_map w_frq) in PP. rewrite PP.
    rewrite rows_frq by exact (proj1 A2). rewrite (fc_frq _ _ F). reflexivity. }
  split.
  { unfold wnoise_behind. destruct (o_white (c_opt c)); [apply Ok_inj in HP; congruence|].
    rewrite EW, S2 in HP. rewrite resid_w in HP by auto. inv_bind HP. apply Ok_inj in HP. exists rs, a. rewrite S1 in Ha. auto. }
  intros r i Hr Hl.
  destruct (reorder_row _ _ _ _ _ P9 Hr) as (c0 & Hc0 & ->).
  cbn [crow_of w_lind] in Hl. rewrite (fc_lind _ _ F) in Hl. cbn [coef_core c_lind] in Hl.
  assert (Hc : (c0 < length (s_lind s))%nat) by (apply nth_error_Some; congruence).
  assert (Ei : i = nth c0 (s_lind s) 0%nat) by (symmetry; now apply nth_error_nth). 
  set (wX := om c s B sm w iC c0 true). set (wY := om c s B sm w iC c0 false).
  (* variances *)
  rewrite S2, NQ1, NQ2 in HG. set (f := Cdiv _ (RtoC dof)) in HG.
  assert (Ef : fst f = qu - qv) by (unfold f, qu, qv, Cdiv, Cinv, Cmult, RtoC; cbn [fst snd]; field; lra).
  assert (Ef2 : snd f / 2 = quv) by (unfold f, quv, Cdiv, Cinv, Cmult, RtoC; cbn [fst snd]; field; lra).
  assert (Ev : (U + V) / dof = qu + qv) by (unfold qu, qv; field; lra).
  rewrite Ev in HG.
  destruct (wrun_vars _ _ _ _ _ _ _ _ _ _ _ _ _ _ BH HS NI sm S1 w Lw Hw0 iC iP HX HY c0 Hc (qu + qv) f _ _ eq_refl eq_refl) as (VX & VY & VXv & VYv).
  fold wX wY in VX, VY, VXv, VYv. rewrite Ef in VX, VY, VXv, VYv.
  replace ((qu + qv + (qu - qv)) / 2) with qu in VX, VY by field. replace ((qu + qv - (qu - qv)) / 2) with qv in VXv, VYv by field.
  destruct (wrun_covs _ _ _ _ _ _ _ _ _ _ _ _ _ _ BH HS NI sm S1 w Lw Hw0 iC iP HX HY c0 Hc (qu + qv) f _ _ eq_refl eq_refl) as (K1 & K2 & K3 & K4 & K5 & K6).
  fold wX wY in K1, K2, K3, K4, K5, K6. rewrite Ef in K1, K2. rewrite Ef2 in K3, K4, K5, K6.
  replace ((qu + qv + (qu - qv)) / 2) with qu in K1 by field. replace ((qu + qv - (qu - qv)) / 2) with qv in K2 by field.
  (* estimates *)
  set (p := nth c0 m (RtoC 0)). set (q := nth (c0 + length (s_lind s)) m (RtoC 0)).
  assert (LMm : length m = N) by (eapply m_len; eauto).
  assert (EA : all_pm m s = combine (ap_of m (s_nNR s) (s_nR s)) (am_of m (s_nNR s) (s_nR s))).
  { unfold all_pm. rewrite R0. cbn [map inferred_coefs combine List.concat]. now rewrite app_nil_r. }
  assert (Lpm := bh_pm _ _ _ _ _ _ _ _ _ _ _ _ _ _ BH). 
  assert (Epq : nth c0 (all_pm m s) (RtoC 0, RtoC 0) = (p, q)).
  { rewrite EA, RnR. unfold ap_of, am_of. cbn [cslice firstn]. rewrite !app_nil_r, RnNR. 
    assert (Lc : forall k, (k + length (s_lind s) <= length m)%nat -> length (cslice m k (length (s_lind s))) = length (s_lind s)).
    { intros k Hk. unfold cslice. rewrite firstn_length, skipn_length. lia. }
    rewrite combine_nth by (rewrite !Lc; lia). rewrite !nth_cslice by lia. unfold p, q. do 2 f_equal. lia. }
  assert (Npq : nth_error (all_pm m s) c0 = Some (p, q)).
  { rewrite <- Epq. apply nth_error_nth'. lia. }
  (* the interval of constituent c0 *)
  assert (Lin : length (conf_input (o_twodim (c_opt c)) m s) = length (s_lind s)).
  { unfold conf_input. rewrite map_length, <- EA. exact Lpm. }
  assert (NC := mapM_idx_nth _ _ _ _ c0 cs0 {| ci_maj := NaN; ci_min := NaN; ci_theta := NaN; ci_g := NaN; ci_vc := [] |} HM ltac:(lia)).
  cbn [plus] in NC. set (wi := nth c0 cis _) in NC.
  assert (Ncs : nth c0 (conf_input (o_twodim (c_opt c)) m s) cs0 =
    {| x_Xu := Xu_of p q; x_Yu := Yu_of p q; x_Xv := Xv_of p q; x_Yv := Yv_of p q;
       x_g := e_g (ellipse_of (o_twodim (c_opt c)) p q); x_theta := e_theta (ellipse_of (o_twodim (c_opt c)) p q) |}).
  { apply nth_error_nth. unfold conf_input. rewrite nth_error_map, <- EA, Npq. reflexivity. }
  rewrite Ncs, Lin, <- HG in NC. cbn [x_Xu x_Yu x_Xv x_Yv x_g x_theta] in NC.
  change (0 + c0)%nat with c0 in NC.
  set (gm := (map (map (fun z : C => Cmult z (RtoC (qu + qv)))) iC, map (map (fun z : C => Cmult z f)) iP)) in *.
  exists c0, wX, wY, qu, qv, quv, gm, (length (s_lind s)), wi, (e_g (ellipse_of (o_twodim (c_opt c)) p q)), (e_theta (ellipse_of (o_twodim (c_opt c)) p q)),
    (Xu_of p q), (Yu_of p q), (Xv_of p q), (Yv_of p q).
  split; [cbn [crow_of w_frq]; rewrite (fc_frq _ _ F); reflexivity|].
  split; [rewrite Ei; eapply om_best; eauto|]. split; [rewrite Ei; eapply om_best; eauto|].
  split; [exists rs; auto|]. split; [exists rs; auto|]. split; [exists rs; auto|].
  split; [cbv zeta; split; [auto|auto 10]|]. split; [exact Elin|]. split; [exact NC|].
  assert (Lcis : length cis = length (s_lind s)) by (apply mapM_idx_len in HM; congruence).
  assert (Nw : nth_error cis c0 = Some wi) by (apply nth_error_nth'; lia).
  cbn [crow_of w_A w_g w_Lsmaj w_Lsmin w_theta w_g_ci w_A_ci w_Lsmaj_ci w_Lsmin_ci w_theta_ci].
  rewrite E1, E2, E3, E4, E5. rewrite (fc_g _ _ F), (fc_A _ _ F), (fc_maj _ _ F), (fc_min _ _ F), (fc_th _ _ F).
  cbn [coef_core c_g c_A c_Lsmaj c_Lsmin c_theta]. subst c1. cbn [set_ci c_g_ci c_A_ci c_Lsmaj_ci c_Lsmin_ci c_theta_ci].
  clear - Nw Npq. destruct (o_twodim (c_opt c)); cbn [oif negb at_ option_map]; rewrite !nth_error_map, Nw, Npq; cbn [option_map fst snd]; repeat split.
Qed.

