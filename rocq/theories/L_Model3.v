(** The coefficients behind a result of solve. *)
From Coq Require Import Lia Lra Permutation.
From Verif Require Import M_Base M_Lib M_Tables M_Const M_Options M_Time M_Slvinit M_Harmonics M_Select M_Ellipse
  M_Robust M_Period M_Conf M_Diag M_Solve M_Recon S_Dict S_Options S_Order S_Basis S_Select S_Fit S_Ellipse S_Slv S_Recon S_Model
  L_Base L_Options L_SolveInv L_OptSolve L_Slv2 L_Order L_Select L_Fit L_Align L_SelOrder L_Basis L_Angle L_Ellipse L_Recon L_Recon2 L_Recon3 L_Core
  L_Model L_Lsq L_Model2.
Open Scope R_scope.
Open Scope string_scope.

(** what the reported numbers determine: everything for vectors, the real signal for scalars *)
Definition visible (tw : bool) (pq : C * C) : C * C :=
  if tw then pq
  else let a := Cmult (RtoC (/ 2)) (Cplus (fst pq) (Cconj (snd pq))) in (a, Cconj a).

Lemma pm2_ellipse p q : let e := ellipse_of true p q in pm2 (e_maj e) (e_min e) (e_theta e) (e_g e) = (p, q).
Proof.
  cbv zeta. unfold ellipse_of.
  destruct (cs2cep2 (Xu_of p q) (Yu_of p q) (Xv_of p q) (Yv_of p q)) as [[[a b] th] g] eqn:E.
  apply cep2_motion in E. apply motion_iff in E. destruct E as [E1 E2]. unfold e_maj, e_min, e_theta, e_g. cbn [fst snd].
  unfold pm2. rewrite !rad_rpd. f_equal.
  - transitivity (apc (Xu_of p q) (Yu_of p q) (Xv_of p q) (Yv_of p q)); [rewrite <- E1; f_equal; f_equal; field|].
    unfold apc, Xu_of, Yu_of, Xv_of, Yv_of. apply C_eq; cbn; field.
  - transitivity (amc (Xu_of p q) (Yu_of p q) (Xv_of p q) (Yv_of p q)); [rewrite <- E2; f_equal; f_equal; field|].
    unfold amc, Xu_of, Yu_of, Xv_of, Yv_of. apply C_eq; cbn; field.
Qed.
Lemma pm1_ellipse p q : let e := ellipse_of false p q in pm1 (e_maj e) (e_g e) = visible false (p, q).
Proof.
  cbv zeta. unfold ellipse_of. destruct (cs2cep1 (Xu_of p q) (Yu_of p q)) as [[[a b] th] g] eqn:E.
  apply cep1_lemma in E. destruct E as (_ & _ & _ & _ & _ & E). unfold e_maj, e_g. cbn [fst snd].
  assert (E1 := E 0). assert (E2 := E (PI / 2)). unfold component in E1, E2.
  rewrite cos_0, sin_0, cos_minus, cos_0, sin_0 in E1. rewrite cos_PI2, sin_PI2, cos_minus, cos_PI2, sin_PI2 in E2.
  unfold pm1, visible. rewrite rad_rpd. cbv zeta. cbn [fst snd].
  assert (Z : Cmult (RtoC (/ 2 * a)) (cis (rad (- g))) = Cmult (RtoC (/ 2)) (Cplus p (Cconj q))).
  { rewrite rad_opp. unfold cis, Xu_of, Yu_of in *. apply C_eq; cbn in *; rewrite ?cos_neg, ?sin_neg; nra. }
  now rewrite Z.
Qed.

Lemma visible_sum tw es pqs : hsum es (map (visible tw) pqs) = if tw then hsum es pqs else RtoC (fst (hsum es pqs)).
Proof.
  destruct tw.
  - f_equal. transitivity (map (fun x : C * C => x) pqs); [apply map_ext; reflexivity|apply map_id].
  - revert pqs. induction es as [|e es IH]; intros [|pq pqs]; try reflexivity. cbn [map].
    assert (E : forall a l, hsum (e :: es) (a :: l) = Cplus (Cplus (Cmult e (fst a)) (Cmult (Cconj e) (snd a))) (hsum es l)) by reflexivity.
    rewrite !E, IH. unfold visible, Cplus, Cmult, Cconj, RtoC. cbv zeta. cbn [fst snd]. apply C_eq; cbn [fst snd]; field.
Qed.

(** everything known about a run *)
Record behind (L : lib) (t : pyarr tarray) (u : pyarr (list xr)) (v : option (pyarr (list xr))) (lat : option R)
    (opts : dict pyval) (c : coef) (si : slv) (la : R) (s : sel) (B : list (list C)) (xraw m : list C) (W : list xr) : Prop := {
  bh_lat : lat = Some la;
  bh_slv : slvinit (l_parse L) t u v lat (o_epoch (c_opt c)) = Ok si;
  bh_tref : c_reftime c = si_tref si; bh_la : c_lat c = la;
  bh_sel : ut_cnstitsel (si_tref si) (xdiv (Fin (o_rmin (c_opt c))) (Fin (24 * si_lor si)))
      (o_cnstit (c_opt c)) (o_infer (c_opt c)) = Ok s;
  bh_fit : fit L (si_t si) (si_u si) (si_v si) (si_tref si) (si_lor si) la (c_opt c) s = Ok (B, xraw, m, W);
  bh_wt : c_weights c = W; bh_t : si_t si <> [];
  bh_wf : well_formed c;
  bh_tw : o_twodim (c_opt c) = is2d v;
  bh_len : length m = ncoef (c_opt c) s;
  bh_pm : length (all_pm m s) = length (s_lind s);
  bh_tri : sorted_order (opt_value opts "order_constit") ->
    Permutation (triples c) (combine (combine (s_name s) (s_lind s)) (map (visible (o_twodim (c_opt c))) (all_pm m s)));
  bh_mn : mnC c = let z := m_last m (if o_notrend (c_opt c) then 1 else 2)%nat in if o_twodim (c_opt c) then z else RtoC (fst z);
  bh_sl : o_notrend (c_opt c) = false ->
    slC c = let z := Cdiv (m_last m 1) (RtoC (si_lor si)) in if o_twodim (c_opt c) then z else RtoC (fst z);
  bh_order : validate_order_constit (opt_value opts "order_constit") (negb (eq_str (opt_value opts "conf_int") "none"))
            = Ok (o_ordercnstit (c_opt c));
  bh_inf : exists inf, validate_infer (opt_value opts "infer") (is2d v) = Ok inf /\ read_infer inf = Ok (o_infer (c_opt c)) }.

Lemma pms_core (cN : coef) k : from_core k cN -> aligned cN ->
  forall tref lor la o s m W, k = coef_core tref lor la o s m W -> length (all_pm m s) = length (c_name cN) ->
  pms cN = map (visible (o_twodim o)) (all_pm m s).
Proof.
  intros F A tref lor la o s m W -> Hl. unfold pms. rewrite <- Hl.
  rewrite <- (map_nth_seq (visible (o_twodim o)) (all_pm m s) (RtoC 0, RtoC 0) (length (all_pm m s)) eq_refl).
  apply map_ext_in. intros i Hi. apply in_seq in Hi. unfold pm_of.
  rewrite (fc_maj _ _ F), (fc_min _ _ F), (fc_th _ _ F), (fc_A _ _ F), (fc_g _ _ F). cbn [coef_core c_Lsmaj c_Lsmin c_theta c_A c_g].
  assert (N : forall f : R * R * R * R -> R, nth i (map f (map (fun p => ellipse_of (o_twodim o) (fst p) (snd p)) (all_pm m s))) 0 =
     f (ellipse_of (o_twodim o) (fst (nth i (all_pm m s) (RtoC 0, RtoC 0))) (snd (nth i (all_pm m s) (RtoC 0, RtoC 0))))).
  { intros f. rewrite map_map. rewrite (nth_indep _ 0 (f (ellipse_of (o_twodim o) (fst (RtoC 0, RtoC 0)) (snd (RtoC 0, RtoC 0))))) by (rewrite map_length; lia).
    apply (map_nth (fun p => f (ellipse_of (o_twodim o) (fst p) (snd p)))). }
  destruct (nth i (all_pm m s) (RtoC 0, RtoC 0)) as [p q]. cbn [fst snd] in N.
  destruct (o_twodim o); cbn [oif negb]; rewrite !N.
  - rewrite pm2_ellipse. reflexivity.
  - apply pm1_ellipse.
Qed.

Lemma solve_behind L t u v lat opts c : lstsq_shape L -> argsort_perm L -> arrays_ok t u v -> unique_keys opts ->
  solve L t u v lat opts = Ok c -> c_weights c <> [] ->
  exists si la s B xraw m W, behind L t u v lat opts c si la s B xraw m W.
Proof.
  intros HL HP Ha Hu Hc HW. destruct (solve_inv _ _ _ _ _ _ _ Hc) as
    [(compat & si & la & o & s & B & xraw & m & W & c1 & c2 & P1 & P2 & -> & P4 & P5 & P6 & P7 & P8 & P9)].
  assert (SB := solve_base _ _ _ _ _ _ _ _ _ _ _ _ P7 P8 P9).
  assert (Ho : c_opt c = o) by (rewrite (sb_opt _ _ SB); reflexivity).
  assert (F := diag_stage_core _ _ _ _ _ (ci_stage_core _ _ _ _ _ _ _ _ _ _ P7) P8).
  assert (Ho2 : c_opt c2 = o) by (rewrite (sb_opt _ _ (fc_base _ _ F)); reflexivity).
  assert (HW2 : c_weights c2 = c_weights c) by (rewrite (sb_weights _ _ SB), (sb_weights _ _ (fc_base _ _ F)); reflexivity).
  assert (NT : natural L t u v (Some la) opts c2).
  { constructor. rewrite Ho2. do 9 eexists. repeat (split; [first [eassumption|reflexivity]|]). exact P8. }
  destruct (natural_aligned _ _ _ _ _ _ _ HL Ha NT ltac:(congruence)) as (A2 & compat' & si' & s' & Q1 & Q2 & Q3 & Q4 & Q5 & Q6 & Q7).
  rewrite P1 in Q1. apply Ok_inj in Q1. subst compat'. rewrite P2 in Q2. apply Ok_inj in Q2. subst si'.
  rewrite Ho2, P5 in Q3. apply Ok_inj in Q3. subst s'.
  assert (EW : c_weights c = W) by (rewrite (sb_weights _ _ SB); reflexivity).
  assert (SL := sel_lens_ok _ _ _ _ _ P5). assert (Hn := infer_none_R _ _ _ _ _ P5).
  destruct (fit_len _ _ _ _ _ _ _ _ _ _ _ _ _ HL SL Hn (slv_data _ _ _ _ _ _ _ Ha P2) P6) as (_ & F1 & _ & F2).
  assert (Ht : si_t si <> []) by (intros E; rewrite E in F1; destruct W; [congruence|discriminate]).
  assert (Hm := F2 Ht).
  assert (WF := solve_well_formed _ _ _ _ _ _ _ HL Ha Hu Hc HW).
  destruct (solve_slv _ _ _ _ _ _ _ Hu Hc) as (si3 & la3 & El & Es3 & Er3 & Ela3 & _). injection El as <-.
  destruct (used_options opts (is2d v) (si_equi si) Hu compat o P1 P4) as
    (_ & _ & _ & Eq & _ & _ & _ & _ & _ & _ & _ & _ & _ & _ & _ & _ & _ & _ & Ep1 & Ep2 & _).
  assert (Esi : si3 = si).
  { rewrite Ho, Ep1, <- Ep2, P2 in Es3. apply Ok_inj in Es3. congruence. }
  subst si3.
  destruct (solve_ran _ _ _ _ _ _ _ HL Ha Hu Hc HW) as (cN & siN & sN & Rn).
  assert (Lpm : length (all_pm m s) = length (s_lind s)).
  { rewrite (all_pm_len _ _ SL) by (rewrite Hm; unfold ncoef; lia). symmetry. apply (ln_lind _ SL). }
  assert (WN : well_formed c2).
  { assert (K := natural_keys _ _ _ _ _ _ _ NT). destruct K. constructor; auto.
    rewrite Q5, Q6. rewrite (sb_reftime _ _ (fc_base _ _ F)). cbn [coef_core c_reftime]. eapply sel_frq_lin. exact P5. }
  exists si, la, s, B, xraw, m, W. rewrite <- Ho in *. constructor; auto.
  - rewrite (sb_opt _ _ (fc_base _ _ F)) in Ho2. clear - P4 P1 Hu.
    destruct (used_options opts (is2d v) (si_equi si) Hu compat _ P1 P4) as (_ & _ & Htw & _). exact Htw.
  - intros Hs. assert (Hx := validate_sorting _ _ _ Hs (rn_val _ _ _ _ _ _ _ _ _ _ Rn)).
    destruct (reorder_rows _ _ _ _ HP A2 Hx P9) as [P _]. apply (triples_perm _ _ WF WN) in P. rewrite P. unfold triples.
    rewrite Q4, Q6. erewrite (pms_core c2); eauto. rewrite Lpm, (ln_lind _ SL). congruence.
  - unfold mnC. rewrite (sb_umean _ _ SB), (sb_vmean _ _ SB), (sb_mean _ _ SB).
    cbn [coef_core c_umean c_vmean c_mean]. cbv zeta. destruct (o_notrend (c_opt c)), (o_twodim (c_opt c)); cbn [oif negb od];
      try reflexivity; symmetry; apply surjective_pairing.
  - intros En. unfold slC. rewrite (sb_uslope _ _ SB), (sb_vslope _ _ SB), (sb_slope _ _ SB).
    cbn [coef_core c_uslope c_vslope c_slope]. cbv zeta. rewrite En. 
    assert (D : Cdiv (m_last m 1) (RtoC (si_lor si)) = (fst (m_last m 1) / si_lor si, snd (m_last m 1) / si_lor si)).
    { unfold Cdiv, Cmult, Cinv, RtoC, Rdiv. cbn [fst snd]. destruct (Req_dec (si_lor si) 0) as [Z|Z].
      - rewrite Z. replace (0 ^ 2 + 0 ^ 2) with 0 by ring. rewrite Rinv_0. apply C_eq; cbn; ring.
      - apply C_eq; cbn; field; auto. }
    rewrite D. destruct (o_twodim (c_opt c)); reflexivity.
  - apply Rn.
  - apply Rn.
Qed.
