(** Standard errors of a whole analysis: the intervals that solve reports. *)
From Coq Require Import Lia Lra Permutation.
From Coquelicot Require Import Coquelicot.
From Verif Require Import M_Base M_Bunch M_Lib M_Tables M_Const M_Options M_Time M_Slvinit M_Harmonics M_Select M_Ellipse
  M_Robust M_Period M_Conf M_Diag M_Solve M_Recon S_Dict S_Options S_Order S_Basis S_Select S_Fit S_Ellipse S_Slv S_Recon S_Model S_Conf S_Errors
  L_Base L_Options L_SolveInv L_OptSolve L_Slv L_Slv2 L_Order L_Select L_Fit L_Align L_SelOrder L_Basis L_Angle L_Ellipse L_Recon L_Recon2 L_Recon3 L_Core
  L_Ellipse2 L_Model L_Lsq L_Model2 L_Model3 L_Model4 L_Model5 L_Model6 L_Model7 L_Model8 L_Model9 L_Model10 L_Model11 L_Model12
  L_Conf L_Conf2 L_Conf3 L_Conf4 L_Gauss L_Errors L_Errors2 L_Errors3 L_Errors4.
Open Scope R_scope.
Open Scope string_scope.

Lemma mapM_idx_nth {A B} (f : nat -> A -> res B) l : forall j r i d e, mapM_idx f j l = Ok r -> (i < length l)%nat -> f (j + i)%nat (nth i l d) = Ok (nth i r e).
Proof.
  induction l as [|x l IH]; intros j r i d e H Hi; [cbn in Hi; lia|]. cbn [mapM_idx] in H. inv_bind H. inv_bind H. apply Ok_inj in H. subst r.
  destruct i as [|i]; cbn [nth].
  - rewrite Nat.add_0_r. exact Ha.
  - replace (j + S i)%nat with (S j + i)%nat by lia. apply IH; auto. cbn in Hi. lia.
Qed.

Lemma ones_W {A} (l : list A) : all_finite (map (fun _ => Fin 1) l) = Some (map (fun _ => 1) l).
Proof. apply all_finite_ones. Qed.

Lemma squares_nonneg w : 0 <= squares w.
Proof.
  unfold squares. induction w as [|x w IH]; [unfold rsum; cbn; lra|]. cbn [map]. rewrite rsum_cons. assert (0 <= x ^ 2) by apply pow2_ge_0. lra.
Qed.
Lemma sumsq_nonneg {A} (f : A -> R) l : 0 <= rsum (map (fun r => f r ^ 2) l).
Proof. induction l as [|x l IH]; [unfold rsum; cbn; lra|]. cbn [map]. rewrite rsum_cons. assert (0 <= f x ^ 2) by apply pow2_ge_0. lra. Qed.

Lemma resid_ones tw (sm : list (R * C)) B m : length sm = length B ->
  resid_parts tw (map (fun _ => Fin 1) sm) (map snd sm) (model_fit tw B m) =
  let rs := map (fun p => Cminus (snd (fst p)) (vis1 tw (cdot (snd p) m))) (combine sm B) in Some (map fst rs, oif tw (map snd rs)).
Proof.
  intros Hl. unfold resid_parts. rewrite ones_W. cbv zeta.
  assert (E : map (fun p => Cmult (RtoC (fst p)) (snd p)) (combine (map (fun _ => 1) sm) (map (fun p => Cminus (fst p) (snd p)) (combine (map snd sm) (model_fit tw B m)))) =
    map (fun p => Cminus (snd (fst p)) (vis1 tw (cdot (snd p) m))) (combine sm B)).
  { replace (model_fit tw B m) with (map (fun row => vis1 tw (cdot row m)) B) by (unfold model_fit, cmatvec, vis1; destruct tw; [reflexivity|now rewrite map_map]).
    revert B Hl. induction sm as [|x sm IH]; intros [|b B] Hl; try discriminate; [reflexivity|]. cbn [map combine fst snd]. f_equal; [ring|]. apply IH. now injection Hl. }
  now rewrite E.
Qed.
Lemma rows_frq c : length (c_frq c) = length (c_name c) -> map w_frq (rows c) = map Some (c_frq c).
Proof.
  intros E. unfold rows. rewrite map_map, <- E. cbn [crow_of w_frq]. clear E. generalize (c_frq c) as l. induction l as [|x l IH]; [reflexivity|].
  cbn [length seq map nth_error]. f_equal. rewrite <- seq_shift, map_map. exact IH.
Qed.
Lemma an_arrays L t u v lat opts sm c : analysis L t u v lat opts sm c -> arrays_ok t u v.
Proof. intros [HL HP HU HS (e & _ & SM) NE HC]. exact (samples_arrays _ _ _ _ _ _ SM). Qed.

(** the noise levels that a run uses: none with white noise, else from the residuals *)
Definition noise_behind (L : lib) (c : coef) (sm : list (R * C)) (si : slv) (frq : list R) (p : noise) : Prop :=
  if o_white (c_opt c) then p = None
  else exists rs pp, residuals c sm rs /\
    band_averaged_psd_by_constit L (si_tin si) (map fst sm) (map fst rs) (oif (o_twodim (c_opt c)) (map snd rs)) (si_elor si) frq (o_equi (c_opt c)) (o_twodim (c_opt c)) = Ok pp /\
    p = Some pp.

(** the whole of it, before the closed forms of the half-widths *)
Lemma run_conf L t u v lat opts sm c lin : analysis L t u v lat opts sm c -> lstsq_minimises L -> inv_exact L ->
  setting opts "method" (PStr "ols") -> setting opts "infer" PNone -> setting opts "conf_int" (PStr (if lin : bool then "linear" else "MC")) ->
  (params c < length sm)%nat ->
  exists si frq p, slvinit (l_parse L) t u v lat (o_epoch (c_opt c)) = Ok si /\ Permutation (map Some frq) (map w_frq (rows c)) /\
  noise_behind L c sm si frq p /\
  forall r i, In r (rows c) -> w_lind r = Some i ->
  exists k wX wY qu qv quv gm nc w g th, nth_error frq k = w_frq r /\ best_unbiased c sm i true wX /\ best_unbiased c sm i false wY /\
    noise_variance fst c sm qu /\ noise_variance snd c sm qv /\ noise_covariance c sm quv /\ 0 <= qu /\ 0 <= qv /\
    (varXu (block true gm nc k) (block true gm nc k) = squares wX * qu /\ varYu (block false gm nc k) (block false gm nc k) = squares wY * qu /\
     varXv (block false gm nc k) (block false gm nc k) = squares wX * qv /\ varYv (block true gm nc k) (block true gm nc k) = squares wY * qv) /\
    (covXuYu (block false gm nc k) = products wX wY * qu /\ covXvYv (block true gm nc k) = products wX wY * qv /\
     covXuXv (block false gm nc k) = squares wX * quv /\ covXuYv (block true gm nc k) = products wX wY * quv /\
     covYuXv (block false gm nc k) = products wX wY * quv /\ covYuYv (block true gm nc k) = squares wY * quv) /\
    o_linci (c_opt c) = lin /\
    let Xu := estimate fst wX sm in let Yu := estimate fst wY sm in let Xv := estimate snd wX sm in let Yv := estimate snd wY sm in
    conf_one L (c_opt c) (Some gm) p nc k Xu Yu Xv Yv g th = Ok w /\
    if o_twodim (c_opt c) then
      g = g_of Xu Yu Xv Yv /\ th = theta_of Xu Yu Xv Yv /\
      w_Lsmaj r = Some (Some (maj_of Xu Yu Xv Yv)) /\ w_Lsmin r = Some (Some (min_of Xu Yu Xv Yv)) /\
      w_theta r = Some (Some (theta_of Xu Yu Xv Yv)) /\ w_g r = Some (g_of Xu Yu Xv Yv) /\
      w_Lsmaj_ci r = Some (Some (ci_maj w)) /\ w_Lsmin_ci r = Some (Some (ci_min w)) /\
      w_theta_ci r = Some (Some (ci_theta w)) /\ w_g_ci r = Some (Some (ci_g w))
    else
      g = g1_of Xu Yu /\
      w_A r = Some (Some (A_of Xu Yu)) /\ w_g r = Some (g1_of Xu Yu) /\
      w_A_ci r = Some (Some (ci_maj w)) /\ w_g_ci r = Some (Some (ci_g w)).
Proof.
  intros AN LM IX ME IN CI PN.
  assert (HU := an_keys _ _ _ _ _ _ _ _ AN).
  apply setting_val in ME, IN, CI; try (exact HU || (cbn; tauto)).
  destruct (analysis_run _ _ _ _ _ _ _ _ AN) as (_ & si & la & s & B & xraw & m & W & BH & S1 & S2 & S3).
  assert (HS := an_sorted _ _ _ _ _ _ _ _ AN).
  destruct (solve_inv _ _ _ _ _ _ _ (an_solve _ _ _ _ _ _ _ _ AN)) as
    [(compat & si' & la' & o & s' & B' & xraw' & m' & W' & c1 & c2 & P1 & P2 & P3 & P4 & P5 & P6 & P7 & P8 & P9)].
  assert (Ho : c_opt c = o) by (rewrite (sb_opt _ _ (solve_base _ _ _ _ _ _ _ _ _ _ _ _ P7 P8 P9)); reflexivity).
  destruct (used_options opts (is2d v) (si_equi si') HU compat o P1 P4) as
    (_ & _ & Etw & _ & _ & Eci & Elin & _ & _ & _ & _ & _ & _ & _ & _ & Ewh & Eme & _ & Ep1 & Ep2 & (inf & V1 & V2) & _).
  rewrite CI in Eci, Elin. rewrite ME in Eme. rewrite IN in V1.
  assert (Eci0 : o_conf_int o = true) by (destruct lin; exact Eci). assert (Elin0 : o_linci o = lin) by (destruct lin; exact Elin).
  clear Eci Elin. rename Eci0 into Eci. rename Elin0 into Elin.
  cbn [validate_infer] in V1. apply Ok_inj in V1. subst inf. cbn [read_infer] in V2. apply Ok_inj in V2. symmetry in V2.
  subst o. assert (NI := V2). assert (OLS := Eme).
  assert (Ela : la' = la) by (rewrite (bh_lat _ _ _ _ _ _ _ _ _ _ _ _ _ _ BH) in P3; congruence). subst la'.
  rewrite Ep2, <- Ep1, (bh_slv _ _ _ _ _ _ _ _ _ _ _ _ _ _ BH) in P2. apply Ok_inj in P2. subst si'.
  rewrite (bh_sel _ _ _ _ _ _ _ _ _ _ _ _ _ _ BH) in P5. apply Ok_inj in P5. subst s'.
  rewrite (bh_fit _ _ _ _ _ _ _ _ _ _ _ _ _ _ BH) in P6. apply Ok_inj in P6. injection P6 as <- <- <- <-.
  assert (EW : W = map (fun _ => Fin 1) sm).
  { assert (F := bh_fit _ _ _ _ _ _ _ _ _ _ _ _ _ _ BH). unfold fit in F. inv_bind F. destruct (finite_mat a); [|discriminate].
    rewrite OLS in F. cbn [eq_str] in F. rewrite String.eqb_refl in F. inv_bind F. destruct a0 as [[[m' r'] k] sg]. apply Ok_inj in F. injection F as _ _ _ <-.
    rewrite S1, map_map. reflexivity. }
  assert (F := diag_stage_core _ _ _ _ _ (ci_stage_core _ _ _ _ _ _ _ _ _ _ P7) P8).
  destruct (diag_stage_ci _ _ _ _ P8) as (E1 & E2 & E3 & E4 & E5).
  destruct (run_counts _ _ _ _ _ _ _ _ _ _ _ _ _ _ BH HS NI) as (R0 & RnR & RnNR & RNR & RN & Rname & RP & Rc).
  (* the covariance *)
  assert (P7' := P7). unfold ci_stage in P7. rewrite Eci in P7. inv_bind P7. apply Ok_inj in P7. rename a into cis. rename Ha into HC.
  unfold confidence in HC. rewrite NI in HC. inv_bind HC. rename a into p0. rename Ha into HP. inv_bind HC. rename a into gam. rename Ha into HG. inv_bind HC. apply Ok_inj in HC. subst a. rename Ha into HM.
  assert (Hpar : INR (length xraw) - INR (2 * (s_nNR s + s_nR s) + 1 + (if o_notrend (c_opt c) then 0 else 1)) = INR (length sm) - INR (params c)).
  { rewrite S2, map_length. f_equal. f_equal. unfold params. rewrite Rc, RnNR, RnR. lia. }
  assert (Hdof : 0 < INR (length sm) - INR (params c)) by (apply lt_INR in PN; lra).
  unfold gammas in HG. rewrite EW, ones_W in HG. cbv zeta in HG. rewrite Hpar in HG. inv_bind HG. rename a into iC. rename Ha into HiC. inv_bind HG. rename a into iP. rename Ha into HiP.
  destruct (Req_EM_T (INR (length sm) - INR (params c)) 0) as [Z|_]; [lra|]. apply Ok_inj in HG.
  replace (2 * (s_nNR s + s_nR s) + 1 + (if o_notrend (c_opt c) then 0 else 1))%nat with (length (s_lind s) + length (s_lind s) + (1 + if o_notrend (c_opt c) then 0 else 1))%nat in * by lia.
  set (N := (length (s_lind s) + length (s_lind s) + (1 + if o_notrend (c_opt c) then 0 else 1))%nat) in *.
  assert (BL := B_len _ _ _ _ _ _ _ _ _ _ _ _ _ _ BH sm S1).
  assert (HX : inv_of N (fun a a' => Sm (length sm) (fun k => Cmult (Cconj (bf B k a)) (bf B k a'))) (cent iC)).
  { destruct (IX N _ _ (gram_square _ _ _ _) HiC) as [I1 I2].
    eapply product_inv; [exact I1|exact I2| |reflexivity]. intros a a' Ha Ha'. change centry_at with cent.
    rewrite gram_entry; auto; [|unfold cconj_mat; now rewrite map_length|unfold cconj_mat; rewrite map_length; auto].
    unfold cconj_mat at 1. rewrite map_length, BL. apply Sm_ext. intros k _. now rewrite bf_conj. }
  assert (HY : inv_of N (fun a a' => Sm (length sm) (fun k => Cmult (bf B k a) (bf B k a'))) (cent iP)).
  { destruct (IX N _ _ (gram_square _ _ _ _) HiP) as [I1 I2].
    eapply product_inv; [exact I1|exact I2| |reflexivity]. intros a a' Ha Ha'. change centry_at with cent.
    rewrite gram_entry; auto. now rewrite BL. }
  set (rs := rs c B m sm). set (dof := INR (length sm) - INR (params c)) in *.
  set (qu := rsum (map (fun r => fst r ^ 2) rs) / dof). set (qv := rsum (map (fun r => snd r ^ 2) rs) / dof). set (quv := rsum (map (fun r => fst r * snd r) rs) / dof).
  assert (NA := NA0 c NI).
  assert (RSD := own_residuals _ _ _ _ _ _ _ _ _ _ _ _ _ _ BH HS NA sm S1).
  exists si, (s_frq s), p0. split; [apply BH|]. split.
  { destruct (solve_ran _ _ _ _ _ _ _ (an_shape _ _ _ _ _ _ _ _ AN) (an_arrays _ _ _ _ _ _ _ _ AN) HU (an_solve _ _ _ _ _ _ _ _ AN) ltac:(apply (analysis_run _ _ _ _ _ _ _ _ AN))) as (cN & siN & sN & Rn).
    assert (Hx := validate_sorting _ _ _ HS (rn_val _ _ _ _ _ _ _ _ _ _ Rn)).
    assert (SL := sel_lens_ok _ _ _ _ _ (bh_sel _ _ _ _ _ _ _ _ _ _ _ _ _ _ BH)). assert (Hn := infer_none_R _ _ _ _ _ (bh_sel _ _ _ _ _ _ _ _ _ _ _ _ _ _ BH)).
    assert (Hm := bh_len _ _ _ _ _ _ _ _ _ _ _ _ _ _ BH).
    destruct (ci_stage_aligned _ _ _ _ _ _ _ _ _ _ SL ltac:(rewrite Hm; unfold ncoef; lia) Hn P7') as (A1 & N1 & N2 & N3 & _).
    destruct (diag_stage_aligned _ _ _ _ A1 P8) as (A2 & M1 & M2 & M3).
    destruct (reorder_rows _ _ _ _ (an_perm _ _ _ _ _ _ _ _ AN) A2 Hx P9) as [PP _]. apply (Permutation_map w_frq) in PP. rewrite PP.
    rewrite rows_frq by exact (proj1 A2). rewrite (fc_frq _ _ F). reflexivity. }
  split.
  { unfold noise_behind. destruct (o_white (c_opt c)); [apply Ok_inj in HP; congruence|].
    rewrite EW, S2 in HP. rewrite resid_ones in HP by (eapply pairs_len; eauto). inv_bind HP. apply Ok_inj in HP. exists rs, a. rewrite S1 in Ha. auto. }
  intros r i Hr Hl.
  destruct (reorder_row _ _ _ _ _ P9 Hr) as (c0 & Hc0 & ->).
  cbn [crow_of w_lind] in Hl. rewrite (fc_lind _ _ F) in Hl. cbn [coef_core c_lind] in Hl.
  assert (Hc : (c0 < length (s_lind s))%nat) by (apply nth_error_Some; congruence).
  assert (Ei : i = nth c0 (s_lind s) 0%nat) by (symmetry; now apply nth_error_nth). 
  set (wX := wgt c s B sm iC c0 true). set (wY := wgt c s B sm iC c0 false).
  (* variances *)
  assert (V := run_variance _ _ _ _ _ _ _ _ _ _ _ _ _ _ BH HS NA LM OLS sm S1 S2 S3).
  assert (Eo : map (fun _ : C => 1) xraw = map (fun _ => 1) sm) by (rewrite S2, map_map; reflexivity). rewrite Eo in V.
  assert (PS := pseudo _ _ _ _ _ _ _ _ _ _ _ _ _ _ BH HS NI sm S1 S2 S3 LM OLS iC HX).
  rewrite V in HG. rewrite PS in HG. set (f := Cdiv _ (RtoC dof)) in HG. fold rs in HG, V, PS.
  assert (Ef : fst f = qu - qv).
  { unfold f. assert (PR := pseudo_re _ _ _ _ _ _ _ _ _ _ _ _ _ _ BH sm S1). fold rs in PR.
    set (Z := Sm _ _) in *. transitivity (fst Z / dof).
    - unfold Cdiv, Cinv, Cmult, RtoC. cbn [fst snd]. field. lra.
    - rewrite PR. unfold qu, qv. field. lra. }
  assert (Ef2 : snd f / 2 = quv).
  { unfold f. assert (PR := pseudo_im _ _ _ _ _ _ _ _ _ _ _ _ _ _ BH sm S1). fold rs in PR.
    set (Z := Sm _ _) in *. transitivity (snd Z / dof / 2).
    - unfold Cdiv, Cinv, Cmult, RtoC. cbn [fst snd]. field. lra.
    - rewrite PR. unfold quv. field. lra. }
  assert (Ev : rsum (map (fun r => fst r ^ 2 + snd r ^ 2) rs) / dof = qu + qv).
  { unfold rs. rewrite sum_sq. fold rs. unfold qu, qv. field. lra. }
  rewrite Ev in HG.
  destruct (run_vars _ _ _ _ _ _ _ _ _ _ _ _ _ _ BH HS NI sm S1 iC iP HX HY c0 Hc (qu + qv) f _ _ eq_refl eq_refl) as (VX & VY & VXv & VYv).
  fold wX wY in VX, VY, VXv, VYv. rewrite Ef in VX, VY, VXv, VYv.
  replace ((qu + qv + (qu - qv)) / 2) with qu in VX, VY by field. replace ((qu + qv - (qu - qv)) / 2) with qv in VXv, VYv by field.
  destruct (run_covs _ _ _ _ _ _ _ _ _ _ _ _ _ _ BH HS NI sm S1 iC iP HX HY c0 Hc (qu + qv) f _ _ eq_refl eq_refl) as (K1 & K2 & K3 & K4 & K5 & K6).
  fold wX wY in K1, K2, K3, K4, K5, K6. rewrite Ef in K1, K2. rewrite Ef2 in K3, K4, K5, K6.
  replace ((qu + qv + (qu - qv)) / 2) with qu in K1 by field. replace ((qu + qv - (qu - qv)) / 2) with qv in K2 by field.
  (* estimates *)
  assert (EX := wgt_estimate _ _ _ _ _ _ _ _ _ _ _ _ _ _ BH HS NI sm S1 S2 LM OLS iC HX c0 Hc true).
  assert (EY := wgt_estimate _ _ _ _ _ _ _ _ _ _ _ _ _ _ BH HS NI sm S1 S2 LM OLS iC HX c0 Hc false).
  fold wX in EX. fold wY in EY. cbv iota in EX, EY.
  set (p := nth c0 m (RtoC 0)) in *. set (q := nth (c0 + length (s_lind s)) m (RtoC 0)) in *.
  assert (LMm : length m = N) by (eapply m_len; eauto).
  assert (EA : all_pm m s = combine (ap_of m (s_nNR s) (s_nR s)) (am_of m (s_nNR s) (s_nR s))).
  { unfold all_pm. rewrite R0. cbn [map inferred_coefs combine List.concat]. now rewrite app_nil_r. }
  assert (Lpm := bh_pm _ _ _ _ _ _ _ _ _ _ _ _ _ _ BH). 
  assert (Epq : nth c0 (all_pm m s) (RtoC 0, RtoC 0) = (p, q)).
  { rewrite EA, RnR. unfold ap_of, am_of. cbn [cslice firstn]. rewrite !app_nil_r, RnNR. 
    assert (Lc : forall k, (k + length (s_lind s) <= length m)%nat -> length (cslice m k (length (s_lind s))) = length (s_lind s)).
    { intros k Hk. unfold cslice. rewrite firstn_length, skipn_length. lia. }
    rewrite combine_nth by (rewrite !Lc; lia). rewrite !nth_cslice by lia. unfold p, q. do 2 f_equal. lia. }
  assert (Npq : nth_error (all_pm m s) c0 = Some (p, q)).
  { rewrite <- Epq. apply nth_error_nth'. lia. }
  assert (XE : estimate fst wX sm = Xu_of p q /\ estimate snd wX sm = Xv_of p q).
  { unfold Xu_of, Xv_of. rewrite <- EX. auto. }
  assert (YE : estimate fst wY sm = Yu_of p q /\ estimate snd wY sm = Yv_of p q).
  { unfold Yu_of, Yv_of. apply (f_equal fst) in EY as EY1. apply (f_equal snd) in EY as EY2. cbn [fst snd Cmult] in EY1, EY2. rewrite EY1, EY2.
    split; ring. }
  (* the interval of constituent c0 *)
  assert (Lin : length (conf_input (o_twodim (c_opt c)) m s) = length (s_lind s)).
  { unfold conf_input. rewrite map_length, <- EA. exact Lpm. }
  assert (NC := mapM_idx_nth _ _ _ _ c0 cs0 {| ci_maj := NaN; ci_min := NaN; ci_theta := NaN; ci_g := NaN; ci_vc := [] |} HM ltac:(lia)).
  cbn [plus] in NC. set (w := nth c0 cis _) in NC.
  assert (Ncs : nth c0 (conf_input (o_twodim (c_opt c)) m s) cs0 =
    {| x_Xu := Xu_of p q; x_Yu := Yu_of p q; x_Xv := Xv_of p q; x_Yv := Yv_of p q;
       x_g := e_g (ellipse_of (o_twodim (c_opt c)) p q); x_theta := e_theta (ellipse_of (o_twodim (c_opt c)) p q) |}).
  { apply nth_error_nth. unfold conf_input. rewrite nth_error_map, <- EA, Npq. reflexivity. }
  rewrite Ncs, Lin, <- HG in NC. cbn [x_Xu x_Yu x_Xv x_Yv x_g x_theta] in NC.
  change (0 + c0)%nat with c0 in NC.
  set (gm := (map (map (fun z : C => Cmult z (RtoC (qu + qv)))) iC, map (map (fun z : C => Cmult z f)) iP)) in *.
  exists c0, wX, wY, qu, qv, quv, gm, (length (s_lind s)), w, (e_g (ellipse_of (o_twodim (c_opt c)) p q)), (e_theta (ellipse_of (o_twodim (c_opt c)) p q)).
  split; [cbn [crow_of w_frq]; rewrite (fc_frq _ _ F); reflexivity|].
  split; [rewrite Ei; eapply wgt_best; eauto|]. split; [rewrite Ei; eapply wgt_best; eauto|].
  split; [exists rs; auto|]. split; [exists rs; auto|]. split; [exists rs; auto|].
  split; [apply Rmult_le_pos; [apply (sumsq_nonneg fst)|apply Rlt_le, Rinv_0_lt_compat; exact Hdof]|].
  split; [apply Rmult_le_pos; [apply (sumsq_nonneg snd)|apply Rlt_le, Rinv_0_lt_compat; exact Hdof]|].
  split; [auto|]. split; [auto 10|]. split; [exact Elin|]. destruct XE as [-> ->], YE as [-> ->]. cbv zeta. split; [exact NC|].
  assert (Lcis : length cis = length (s_lind s)) by (apply mapM_idx_len in HM; congruence).
  assert (Nw : nth_error cis c0 = Some w) by (apply nth_error_nth'; lia).
  cbn [crow_of w_A w_g w_Lsmaj w_Lsmin w_theta w_g_ci w_A_ci w_Lsmaj_ci w_Lsmin_ci w_theta_ci].
  rewrite E1, E2, E3, E4, E5. rewrite (fc_g _ _ F), (fc_A _ _ F), (fc_maj _ _ F), (fc_min _ _ F), (fc_th _ _ F).
  cbn [coef_core c_g c_A c_Lsmaj c_Lsmin c_theta]. subst c1. cbn [set_ci c_g_ci c_A_ci c_Lsmaj_ci c_Lsmin_ci c_theta_ci].
  clear - Nw Npq. destruct (o_twodim (c_opt c)); cbn [oif negb at_ option_map]; rewrite !nth_error_map, Nw, Npq; cbn [option_map fst snd]; repeat split.
Qed.

Lemma run_intervals_any L t u v lat opts sm c : analysis L t u v lat opts sm c -> lstsq_minimises L -> inv_exact L ->
  setting opts "method" (PStr "ols") -> setting opts "infer" PNone -> setting opts "conf_int" (PStr "linear") ->
  (params c < length sm)%nat ->
  exists si frq p, slvinit (l_parse L) t u v lat (o_epoch (c_opt c)) = Ok si /\ Permutation (map Some frq) (map w_frq (rows c)) /\
  noise_behind L c sm si frq p /\
  forall r i, In r (rows c) -> w_lind r = Some i ->
  exists k wX wY qu qv, nth_error frq k = w_frq r /\ best_unbiased c sm i true wX /\ best_unbiased c sm i false wY /\
    noise_variance fst c sm qu /\ noise_variance snd c sm qv /\ 0 <= qu /\ 0 <= qv /\
    let Xu := estimate fst wX sm in let Yu := estimate fst wY sm in let Xv := estimate snd wX sm in let Yv := estimate snd wY sm in
    if o_twodim (c_opt c) then
      let w := linear2 Xu Yu Xv Yv (Fin (squares wX * qu)) (Fin (squares wY * qu)) (Fin (squares wX * qv)) (Fin (squares wY * qv)) (n_vv p k) in
      w_Lsmaj r = Some (Some (maj_of Xu Yu Xv Yv)) /\ w_Lsmin r = Some (Some (min_of Xu Yu Xv Yv)) /\
      w_theta r = Some (Some (theta_of Xu Yu Xv Yv)) /\ w_g r = Some (g_of Xu Yu Xv Yv) /\
      w_Lsmaj_ci r = Some (Some (ci_maj w)) /\ w_Lsmin_ci r = Some (Some (ci_min w)) /\
      w_theta_ci r = Some (Some (ci_theta w)) /\ w_g_ci r = Some (Some (ci_g w))
    else
      let w := linear1 Xu Yu (Fin (squares wX * qu)) (Fin (squares wY * qu)) (n_uu p k) in
      w_A r = Some (Some (A_of Xu Yu)) /\ w_g r = Some (g1_of Xu Yu) /\
      w_A_ci r = Some (Some (ci_maj w)) /\ w_g_ci r = Some (Some (ci_g w)).
Proof.
  intros AN LM IX ME IN CI PN.
  destruct (run_conf _ _ _ _ _ _ _ _ true AN LM IX ME IN CI PN) as (si & frq & p & H1 & H2 & H3 & H).
  exists si, frq, p. do 3 (split; [assumption|]). intros r i Hr Hl.
  destruct (H r i Hr Hl) as (k & wX & wY & qu & qv & quv & gm & nc & w & g & th & Q1 & Q2 & Q3 & Q4 & Q5 & _ & Q6 & Q7 & (V1 & V2 & V3 & V4) & _ & Elin & W & D).
  exists k, wX, wY, qu, qv. do 7 (split; [assumption|]). unfold conf_one in W. cbv zeta in *. rewrite Elin, V1, V2, V3, V4 in W. apply Ok_inj in W.
  destruct (o_twodim (c_opt c)); rewrite W; tauto.
Qed.

Lemma run_intervals L t u v lat opts sm c : analysis L t u v lat opts sm c -> lstsq_minimises L -> inv_exact L ->
  setting opts "method" (PStr "ols") -> setting opts "infer" PNone -> setting opts "conf_int" (PStr "linear") -> setting opts "white" (PBool true) ->
  (params c < length sm)%nat ->
  forall r i, In r (rows c) -> w_lind r = Some i ->
  exists wX wY qu qv, best_unbiased c sm i true wX /\ best_unbiased c sm i false wY /\
    noise_variance fst c sm qu /\ noise_variance snd c sm qv /\ 0 <= qu /\ 0 <= qv /\
    let Xu := estimate fst wX sm in let Yu := estimate fst wY sm in let Xv := estimate snd wX sm in let Yv := estimate snd wY sm in
    if o_twodim (c_opt c) then
      let w := linear2 Xu Yu Xv Yv (Fin (squares wX * qu)) (Fin (squares wY * qu)) (Fin (squares wX * qv)) (Fin (squares wY * qv)) None in
      w_Lsmaj r = Some (Some (maj_of Xu Yu Xv Yv)) /\ w_Lsmin r = Some (Some (min_of Xu Yu Xv Yv)) /\
      w_theta r = Some (Some (theta_of Xu Yu Xv Yv)) /\ w_g r = Some (g_of Xu Yu Xv Yv) /\
      w_Lsmaj_ci r = Some (Some (ci_maj w)) /\ w_Lsmin_ci r = Some (Some (ci_min w)) /\
      w_theta_ci r = Some (Some (ci_theta w)) /\ w_g_ci r = Some (Some (ci_g w))
    else
      let w := linear1 Xu Yu (Fin (squares wX * qu)) (Fin (squares wY * qu)) None in
      w_A r = Some (Some (A_of Xu Yu)) /\ w_g r = Some (g1_of Xu Yu) /\
      w_A_ci r = Some (Some (ci_maj w)) /\ w_g_ci r = Some (Some (ci_g w)).
Proof.
  intros AN LM IX ME IN CI WH PN r i Hr Hl.
  destruct (run_intervals_any _ _ _ _ _ _ _ _ AN LM IX ME IN CI PN) as (si & frq & p & _ & _ & NB & H).
  destruct (H r i Hr Hl) as (k & wX & wY & qu & qv & _ & H').
  assert (p = None) as ->. { unfold noise_behind in NB. 
    destruct (o_white (c_opt c)) eqn:E; [exact NB|]. apply (set_white _ _ _ _ _ _ (an_keys _ _ _ _ _ _ _ _ AN) _ (an_solve _ _ _ _ _ _ _ _ AN) _ WH) in E. unfold falsy in E. destruct E as [E|[E|[E|[E|[E|[b E]]]]]]; discriminate E. }
  exists wX, wY, qu, qv. exact H'.
Qed.
