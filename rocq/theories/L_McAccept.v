(** Which calls of solve with Monte-Carlo intervals give a result. *)
From Coq Require Import Lia Lra Permutation.
From Verif Require Import M_Base M_Bunch M_Lib M_Tables M_Const M_Options M_Time M_Slvinit M_Harmonics M_Select M_Ellipse
  M_Robust M_Period M_Conf M_Diag M_Solve M_Recon S_Dict S_Options S_Order S_Basis S_Select S_Fit S_Ellipse S_Slv S_Recon S_Model S_Conf S_Errors S_Perm S_Period S_Noise S_Accept S_McAccept
  L_Base L_Options L_SolveInv L_OptSolve L_Slv L_Slv2 L_Tables L_Order L_Select L_Fit L_Align L_SelOrder L_Order2 L_Basis L_Harm L_Harm2 L_Harm3 L_Angle L_Ellipse L_Recon L_Recon2 L_Recon3 L_Recon4 L_Core
  L_Ellipse2 L_Model L_Lsq L_Model2 L_Model3 L_Model4 L_Model5 L_Model6 L_Model7 L_Model8 L_Model9 L_Model10 L_Model11 L_Model12
  L_Conf L_Conf2 L_Conf3 L_Conf4 L_Gauss L_Errors L_Errors2 L_Errors3 L_Errors4 L_Errors5 L_Super L_Period L_Noise L_Noise2 L_Perm L_Example L_Accept L_Accept2 L_Choice L_Mc.
Open Scope R_scope.
Open Scope string_scope.

Lemma mapM_each {A B} (f : nat -> A -> res B) l : forall i d, (forall k, (k < length l)%nat -> exists y, f (i + k)%nat (nth k l d) = Ok y) -> exists ys, mapM_idx f i l = Ok ys.
Proof.
  induction l as [|x l IH]; intros i d H; cbn [mapM_idx]; [eauto|]. destruct (H 0%nat) as [y E]; [cbn; lia|]. rewrite Nat.add_0_r in E. cbn [nth] in E. rewrite E. cbn [bind].
  destruct (IH (S i) d) as [ys ->]; [|cbn [bind]; eauto]. intros k Hk. specialize (H (S k)). cbn [length nth] in H. replace (S i + k)%nat with (i + S k)%nat by lia. apply H. lia.
Qed.

Section Mc.
Variables (L : lib) (t : pyarr tarray) (u : pyarr (list xr)) (v : option (pyarr (list xr))) (la : R) (opts opts0 : dict pyval) (sm : list (R * C)) (c0 : coef).
Hypothesis AN0 : analysis L t u v (Some la) opts0 sm c0.
Hypothesis DI : documented_input L t u v opts sm.
Hypothesis SB : forall k x, k <> "conf_int" -> k <> "order_constit" -> k <> "white" -> (setting opts k x <-> setting opts0 k x).
Hypothesis EV : evaluable la opts sm.

(** the fit of the new call is that of the old one *)
Lemma same_fit_any cf : cf = "MC" \/ cf = "linear" -> setting opts "conf_int" (PStr cf) -> exists compat si o s B m W, fitted L t u v la opts sm (PStr cf) compat si o s B m W /\
  behind L t u v (Some la) opts0 c0 si la s B (map snd sm) m W /\
  flags_of (c_opt c0) = flags_of o /\ o_notrend (c_opt c0) = o_notrend o /\ o_twodim (c_opt c0) = o_twodim o /\ o_infer (c_opt c0) = None /\ o_equi (c_opt c0) = o_equi o /\ o_nrlzn o = 200%nat /\
  ((forall x, setting opts "white" x <-> setting opts0 "white" x) -> o_white (c_opt c0) = o_white o).
Proof.
  intros CF MC. assert (U0 := an_keys _ _ _ _ _ _ _ _ AN0). assert (U := dc_keys _ _ _ _ _ _ DI).
  destruct (analysis_run _ _ _ _ _ _ _ _ AN0) as (_ & si0 & la0 & s0 & B0 & x0 & m0 & W0 & BH & S1 & S2 & S3). subst x0.
  assert (El := bh_lat _ _ _ _ _ _ _ _ _ _ _ _ _ _ BH). injection El as <-.
  destruct (run_base L t u v la opts sm (PStr cf) DI EV MC ltac:(destruct CF as [-> | ->]; auto)) as (compat & si & o & s & B & X).
  destruct (solve_inv _ _ _ _ _ _ _ (an_solve _ _ _ _ _ _ _ _ AN0)) as
    [(compat0 & si' & la' & o' & s' & B' & xraw' & m' & W' & c1 & c2 & P1 & P2 & P3 & P4 & P5 & P6 & P7 & P8 & P9)].
  assert (Ho : c_opt c0 = o') by (rewrite (sb_opt _ _ (solve_base _ _ _ _ _ _ _ _ _ _ _ _ P7 P8 P9)); reflexivity). subst o'. clear P3 P5 P6 P7 P8 P9.
  destruct (used_options opts0 (is2d v) (si_equi si') U0 compat0 _ P1 P4) as
      (_ & _ & Tw & Eq & _ & _ & _ & _ & U1 & U2 & U3 & U4 & U5 & U6 & U7 & Wh & U8 & U8b & U9 & Ep & (i & V1 & V2) & _).
  destruct (used_options opts (is2d v) (si_equi si) U compat _ (ba_compat _ _ _ _ _ _ _ _ _ _ _ _ _ X) (ba_opt _ _ _ _ _ _ _ _ _ _ _ _ _ X)) as
      (_ & _ & Tw' & Eq' & _ & _ & _ & _ & U1' & U2' & U3' & U4' & U5' & U6' & U7' & Wh' & U8' & U8b' & U9' & Ep' & _ & _ & NR).
  assert (SV : forall k, In k (keys documented) -> k <> "conf_int" -> k <> "order_constit" -> k <> "white" -> opt_value opts0 k = opt_value opts k).
  { intros k K N1 N2 N3. apply (setting_val opts0 k); [exact U0|exact K|]. apply SB; auto. apply setting_value; [exact U|exact K]. }
  rewrite SV in U1, U2, U3, U5, U6, U7, U8, U8b, U9, V1 by (first [discriminate|cbn; tauto]). rewrite (SV "nodal") in U4 by (first [discriminate|cbn; tauto]).
  assert (NI : o_infer (c_opt c0) = None).
  { rewrite (setting_val opts "infer" PNone U ltac:(cbn; tauto) (dc_infer _ _ _ _ _ _ DI)) in V1. cbn [validate_infer is_none orb] in V1. injection V1 as <-. now injection V2. }
  assert (NI' := ba_infer _ _ _ _ _ _ _ _ _ _ _ _ _ X).
  assert (FL : flags_of (c_opt c0) = flags_of o) by (unfold flags_of; congruence).
  assert (NT : o_notrend (c_opt c0) = o_notrend o) by congruence.
  assert (ES := bh_slv _ _ _ _ _ _ _ _ _ _ _ _ _ _ BH). rewrite U9, <- Ep', (ba_slv _ _ _ _ _ _ _ _ _ _ _ _ _ X) in ES. apply Ok_inj in ES. subst si0.
  rewrite Ep, (SV "epoch") in P2 by (first [discriminate|cbn; tauto]).
  assert (si' = si). { rewrite <- Ep', (ba_slv _ _ _ _ _ _ _ _ _ _ _ _ _ X) in P2. apply Ok_inj in P2. congruence. } subst si'.
  assert (ER : o_rmin (c_opt c0) = o_rmin o) by (rewrite U7' in U7; apply Ok_inj in U7; congruence).
  assert (EC := bh_sel _ _ _ _ _ _ _ _ _ _ _ _ _ _ BH). assert (FS := ba_sel _ _ _ _ _ _ _ _ _ _ _ _ _ X).
  rewrite ER, U1, NI, <- U1' in EC. rewrite NI', EC in FS. apply Ok_inj in FS. subst s0.
  assert (EF := bh_fit _ _ _ _ _ _ _ _ _ _ _ _ _ _ BH).
  rewrite (fit_opts _ _ _ _ _ _ _ o (c_opt c0)) in EF by congruence.
  assert (B0 = B).
  { destruct (ba_basis _ _ _ _ _ _ _ _ _ _ _ _ _ X) as (Bo & Q1 & Q2). assert (EF' := EF). unfold fit in EF'. rewrite Q1 in EF'. cbn [bind] in EF'. rewrite Q2 in EF'.
    destruct (eq_str (o_method o) "ols"); inv_bind EF'; [destruct a as [[[? ?] ?] ?]|]; apply Ok_inj in EF'; congruence. }
  subst B0.
  exists compat, si, o, s, B, m0, W0. split.
  { destruct X. constructor; auto. rewrite (bh_len _ _ _ _ _ _ _ _ _ _ _ _ _ _ BH). unfold ncoef. now rewrite NT. }
  split; [exact BH|]. repeat split; auto; try congruence.
  intros H. rewrite Wh, Wh'. f_equal. apply (setting_val opts0 "white"); [exact U0|cbn; tauto|]. apply H. apply setting_value; [exact U|cbn; tauto].
Qed.

(** what the old call computed for its linearised intervals *)
Lemma old_intervals (lin : bool) si s B m W : behind L t u v (Some la) opts0 c0 si la s B (map snd sm) m W -> setting opts0 "conf_int" (PStr (if lin then "linear" else "MC")) -> o_infer (c_opt c0) = None ->
  exists p gam cis, 
    (if o_white (c_opt c0) then Ok None
     else match resid_parts (o_twodim (c_opt c0)) W (map snd sm) (model_fit (o_twodim (c_opt c0)) B m) with
          | Some (eu, ev) => do p <- band_averaged_psd_by_constit L (si_tin si) (si_t si) eu ev (si_elor si) (s_frq s) (o_equi (c_opt c0)) (o_twodim (c_opt c0)); Ok (Some p)
          | None => Ok (Some ([], None)) end) = Ok p /\
    gammas L B (ncoef (c_opt c0) s) W (map snd sm) (model_fit (o_twodim (c_opt c0)) B m) = Ok gam /\
    o_linci (c_opt c0) = lin /\ length cis = length (conf_input (o_twodim (c_opt c0)) m s) /\
    (forall k d, (k < length cis)%nat -> let x := nth k (conf_input (o_twodim (c_opt c0)) m s) cs0 in
       conf_one L (c_opt c0) gam p (length (conf_input (o_twodim (c_opt c0)) m s)) k (x_Xu x) (x_Yu x) (x_Xv x) (x_Yv x) (x_g x) (x_theta x) = Ok (nth k cis d)) /\
    ((forall r, In r (rows c0) -> measured r) -> forall k d, (k < length cis)%nat -> fin (ci_maj (nth k cis d))).
Proof.
  intros BH LIN NI. assert (HU := an_keys _ _ _ _ _ _ _ _ AN0). apply setting_val in LIN; [|exact HU|cbn; tauto].
  destruct (solve_inv _ _ _ _ _ _ _ (an_solve _ _ _ _ _ _ _ _ AN0)) as
    [(compat & si' & la' & o & s' & B' & xraw' & m' & W' & c1 & c2 & P1 & P2 & P3 & P4 & P5 & P6 & P7 & P8 & P9)].
  assert (Ho : c_opt c0 = o) by (rewrite (sb_opt _ _ (solve_base _ _ _ _ _ _ _ _ _ _ _ _ P7 P8 P9)); reflexivity).
  destruct (used_options opts0 (is2d v) (si_equi si') HU compat o P1 P4) as
    (_ & _ & Etw & _ & _ & Eci & Elin & _ & _ & _ & _ & _ & _ & _ & _ & Ewh & Eme & _ & Ep1 & Ep2 & _).
  rewrite LIN in Eci, Elin.
  assert (Eci0 : o_conf_int o = true) by (destruct lin; exact Eci). assert (Elin0 : o_linci o = lin) by (destruct lin; exact Elin).
  clear Eci Elin. rename Eci0 into Eci. rename Elin0 into Elin. subst o.
  assert (Ela : la' = la) by congruence. subst la'.
  rewrite Ep2, <- Ep1, (bh_slv _ _ _ _ _ _ _ _ _ _ _ _ _ _ BH) in P2. apply Ok_inj in P2. subst si'.
  rewrite (bh_sel _ _ _ _ _ _ _ _ _ _ _ _ _ _ BH) in P5. apply Ok_inj in P5. subst s'.
  rewrite (bh_fit _ _ _ _ _ _ _ _ _ _ _ _ _ _ BH) in P6. apply Ok_inj in P6. injection P6 as <- <- <- <-.
  destruct (diag_stage_ci _ _ _ _ P8) as (E1 & E2 & E3 & E4 & E5).
  assert (P7' := P7). unfold ci_stage in P7. rewrite Eci in P7. inv_bind P7. apply Ok_inj in P7. rename a into cis. rename Ha into HC.
  unfold confidence in HC. rewrite NI in HC. inv_bind HC. rename a into p0. rename Ha into HP. inv_bind HC. rename a into gam. rename Ha into HG. inv_bind HC. apply Ok_inj in HC. subst a. rename Ha into HM.
  exists p0, gam, cis. split; [exact HP|]. split; [exact HG|]. split; [exact Elin|]. assert (HL := mapM_idx_len _ _ _ _ HM). split; [exact HL|]. split.
  - intros k d Hk. cbv zeta. exact (mapM_idx_nth _ _ _ _ k cs0 d HM ltac:(lia)).
  - intros ME k d Hk.
    destruct (solve_ran _ _ _ _ _ _ _ (an_shape _ _ _ _ _ _ _ _ AN0) (an_arrays _ _ _ _ _ _ _ _ AN0) HU (an_solve _ _ _ _ _ _ _ _ AN0) ltac:(apply (analysis_run _ _ _ _ _ _ _ _ AN0))) as (cN & siN & sN & Rn).
    assert (Hx := validate_sorting _ _ _ (an_sorted _ _ _ _ _ _ _ _ AN0) (rn_val _ _ _ _ _ _ _ _ _ _ Rn)).
    assert (SL := sel_lens_ok _ _ _ _ _ (bh_sel _ _ _ _ _ _ _ _ _ _ _ _ _ _ BH)). assert (Hn := infer_none_R _ _ _ _ _ (bh_sel _ _ _ _ _ _ _ _ _ _ _ _ _ _ BH)).
    assert (Hm := bh_len _ _ _ _ _ _ _ _ _ _ _ _ _ _ BH).
    destruct (ci_stage_aligned _ _ _ _ _ _ _ _ _ _ SL ltac:(rewrite Hm; unfold ncoef; lia) Hn P7') as (A1 & N1 & N2 & N3 & _).
    destruct (diag_stage_aligned _ _ _ _ A1 P8) as (A2 & M1 & M2 & M3).
    destruct (reorder_rows _ _ _ _ (an_perm _ _ _ _ _ _ _ _ AN0) A2 Hx P9) as [PP _].
    assert (Lpm := bh_pm _ _ _ _ _ _ _ _ _ _ _ _ _ _ BH).
    assert (Lk : (k < length (c_name c2))%nat).
    { assert (RC := run_counts _ _ _ _ _ _ _ _ _ _ _ _ _ _ BH (an_sorted _ _ _ _ _ _ _ _ AN0) NI). destruct RC as (R0 & _ & _ & _ & _ & Rname & _).
      assert (EL : length (conf_input (o_twodim (c_opt c0)) m s) = length (all_pm m s)).
      { unfold conf_input, all_pm. rewrite R0. cbn [map inferred_coefs combine List.concat]. rewrite app_nil_r. now rewrite map_length. }
      rewrite M1, N1. rewrite HL, EL, Lpm in Hk. destruct SL. congruence. }
    assert (IN : In (crow_of c2 k) (rows c0)).
    { apply (Permutation_in _ (Permutation_sym PP)). unfold rows. apply in_map, in_seq. lia. }
    destruct (ME _ IN) as (x & ME'). cbn [crow_of w_A_ci w_Lsmaj_ci] in ME'. rewrite E2, E3 in ME'. subst c1. cbn [set_ci c_A_ci c_Lsmaj_ci] in ME'.
    assert (Nw : nth_error cis k = Some (nth k cis d)) by (now apply nth_error_nth').
    destruct (o_twodim (c_opt c0)); cbn [oif negb at_ option_map] in ME'; rewrite !nth_error_map, Nw in ME'; cbn [option_map] in ME'; destruct ME' as [ME'|ME']; try discriminate; injection ME' as ME'; exists x; exact ME'.
Qed.

(** the other way round: linearised intervals are computed whenever Monte-Carlo ones are *)
Lemma accept_lin : setting opts "conf_int" (PStr "linear") -> setting opts0 "conf_int" (PStr "MC") -> (forall x, setting opts "white" x <-> setting opts0 "white" x) ->
  exists c, solve L t u v (Some la) opts = Ok c.
Proof.
  intros LIN MC SW. destruct (same_fit_any "linear" (or_intror eq_refl) LIN) as (compat & si & o & s & B & m & W & F & BH & FL & NT & TW & NI & EQ & NR & EW). specialize (EW SW).
  destruct (old_intervals false si s B m W BH MC NI) as (p & gam & cis & HP & HG & EL & LC & HC & _).
  assert (NI' := fi_infer _ _ _ _ _ _ _ _ _ _ _ _ _ _ _ F).
  assert (NM : ncoef (c_opt c0) s = ncoef o s) by (unfold ncoef; now rewrite NT).
  rewrite TW in *. rewrite EQ, EW in HP.
  assert (EM : o_linci o = true) by (rewrite (fi_lin _ _ _ _ _ _ _ _ _ _ _ _ _ _ _ F); reflexivity).
  assert (CI : exists cis, confidence L o s (si_tin si) (si_t si) (resid_parts (o_twodim o) W (map snd sm) (model_fit (o_twodim o) B m))
     (si_elor si) (map snd sm) (model_fit (o_twodim o) B m) W B (ncoef o s) (conf_input (o_twodim o) m s) = Ok cis).
  { unfold confidence. rewrite HP. cbn [bind]. rewrite <- NM, HG. cbn [bind].
    match goal with |- exists cis, bind (mapM_idx ?f 0 ?l) _ = _ => destruct (mapM_idx_ok f l) with (i := 0%nat) as [ys ->] end; [|rewrite NI'; cbn [bind]; eauto].
    intros k y. unfold conf_one. rewrite EM. eauto. }
  destruct CI as [cs CI].
  eapply finish; [exact (an_perm _ _ _ _ _ _ _ _ AN0)|exact F|]. unfold ci_stage. rewrite (fi_ci _ _ _ _ _ _ _ _ _ _ _ _ _ _ _ F). cbn [eq_str String.eqb Ascii.eqb Bool.eqb negb].
  unfold ncoef in CI. rewrite CI. cbn [bind]. reflexivity.
Qed.

Hypothesis MC : setting opts "conf_int" (PStr "MC").
Lemma same_fit : exists compat si o s B m W, fitted L t u v la opts sm (PStr "MC") compat si o s B m W /\
  behind L t u v (Some la) opts0 c0 si la s B (map snd sm) m W /\
  flags_of (c_opt c0) = flags_of o /\ o_notrend (c_opt c0) = o_notrend o /\ o_twodim (c_opt c0) = o_twodim o /\ o_infer (c_opt c0) = None /\ o_equi (c_opt c0) = o_equi o /\ o_nrlzn o = 200%nat /\
  ((forall x, setting opts "white" x <-> setting opts0 "white" x) -> o_white (c_opt c0) = o_white o).
Proof. exact (same_fit_any "MC" (or_introl eq_refl) MC). Qed.

Lemma accept_mc : setting opts0 "conf_int" (PStr "linear") -> (forall x, setting opts "white" x <-> setting opts0 "white" x) -> mvn_returns L -> mvn_shape L ->
  (forall r, In r (rows c0) -> measured r) ->
  ((exists x, setting opts "white" x /\ ~ falsy x) \/ (svd_returns L /\ eigvals_returns L /\ (v = None \/ (lomb_contract L /\ 
     forall si s B m W, behind L t u v (Some la) opts0 c0 si la s B (map snd sm) m W -> forall gm k, gammas L B (ncoef (c_opt c0) s) W (map snd sm) (model_fit (o_twodim (c_opt c0)) B m) = Ok (Some gm) ->
       let nc := length (conf_input (o_twodim (c_opt c0)) m s) in (k < nc)%nat ->
       varXu (block true gm nc k) (block true gm nc k) + varYu (block false gm nc k) (block false gm nc k) <> 0)))) ->
  exists c, solve L t u v (Some la) opts = Ok c.
Proof.
  intros LIN SW VR VS ME WH. destruct same_fit as (compat & si & o & s & B & m & W & F & BH & FL & NT & TW & NI & EQ & NR & EW). specialize (EW SW).
  destruct (old_intervals true si s B m W BH LIN NI) as (p & gam & cis & HP & HG & EL & LC & HC & HF). specialize (HF ME).
  assert (NI' := fi_infer _ _ _ _ _ _ _ _ _ _ _ _ _ _ _ F).
  assert (NM : ncoef (c_opt c0) s = ncoef o s) by (unfold ncoef; now rewrite NT).
  rewrite TW in *. rewrite EQ, EW in HP. 
  assert (EM : o_linci o = false) by (rewrite (fi_lin _ _ _ _ _ _ _ _ _ _ _ _ _ _ _ F); reflexivity).
  assert (CI : exists cis, confidence L o s (si_tin si) (si_t si) (resid_parts (o_twodim o) W (map snd sm) (model_fit (o_twodim o) B m))
     (si_elor si) (map snd sm) (model_fit (o_twodim o) B m) W B (ncoef o s) (conf_input (o_twodim o) m s) = Ok cis).
  { unfold confidence. rewrite HP. cbn [bind]. rewrite <- NM, HG. cbn [bind].
    match goal with |- exists cis, bind (mapM_idx ?f 0 ?l) _ = _ => destruct (mapM_each f l 0%nat cs0) as [ys ->] end; [|rewrite NI'; cbn [bind]; eauto].
    intros k Hk. cbn [plus]. set (d := {| ci_maj := NaN; ci_min := NaN; ci_theta := NaN; ci_g := NaN; ci_vc := [] |}).
    eapply (one_mc L VR VS o (c_opt c0)); [exact EL|exact EM|exact TW|rewrite NR; lia|exact (HC k d ltac:(lia))|apply HF; lia| |].
    - intros Np. destruct WH as [(x & X1 & X2)|(SR & ER & _)]; [|auto]. exfalso. apply Np.
      assert (WT := fi_white _ _ _ _ _ _ _ _ _ _ _ _ _ _ _ F _ X1). destruct (truthy x) eqn:T; [|exfalso; apply X2; now apply truthy_falsy]. rewrite WT in HP. apply Ok_inj in HP. auto.
    - intros T2 Np. destruct WH as [(x & X1 & X2)|(SR & ER & [E|(LO & Z)])].
      + exfalso. apply Np. assert (WT := fi_white _ _ _ _ _ _ _ _ _ _ _ _ _ _ _ F _ X1). destruct (truthy x) eqn:T; [|exfalso; apply X2; now apply truthy_falsy]. rewrite WT in HP. apply Ok_inj in HP. auto.
      + exfalso. rewrite (fi_two _ _ _ _ _ _ _ _ _ _ _ _ _ _ _ F), E in T2. discriminate.
      + split.
        * intros x Hx Fx y z Hy Hz. destruct (o_white o); [apply Ok_inj in HP; congruence|].
          destruct (resid_parts (o_twodim o) W (map snd sm) (model_fit (o_twodim o) B m)) as [[eu ev]|] eqn:RP.
          2: { apply Ok_inj in HP. subst p. cbn in Hx. injection Hx as <-. now apply fin_NaN in Fx. }
          inv_bind HP. apply Ok_inj in HP. subst p.
          assert (LE : length eu = length (si_t si) /\ forall e, ev = Some e -> length e = length (si_t si)).
          { rewrite (fi_t _ _ _ _ _ _ _ _ _ _ _ _ _ _ _ F). unfold resid_parts in RP. destruct (all_finite W) as [w|] eqn:EW'; [|discriminate]. injection RP as <- <-.
            assert (Lw : length w = length sm).
            { assert (SEL := fi_sel _ _ _ _ _ _ _ _ _ _ _ _ _ _ _ F).
              destruct (fit_len _ _ _ _ _ _ _ _ _ _ _ _ _ (an_shape _ _ _ _ _ _ _ _ AN0) (sel_lens_ok _ _ _ _ _ SEL) (infer_none_R _ _ _ _ _ SEL) (slv_data _ _ _ _ _ _ _ (an_arrays _ _ _ _ _ _ _ _ AN0) (fi_slv _ _ _ _ _ _ _ _ _ _ _ _ _ _ _ F)) (fi_fit _ _ _ _ _ _ _ _ _ _ _ _ _ _ _ F)) as (_ & H & _).
              rewrite (all_finite_map _ _ EW'), (fi_t _ _ _ _ _ _ _ _ _ _ _ _ _ _ _ F), !map_length in H. exact H. }
            assert (LB := proj1 (fi_dims _ _ _ _ _ _ _ _ _ _ _ _ _ _ _ F)).
            split; [|intros e E; destruct (o_twodim o); [injection E as <-|discriminate]]; rewrite !map_length, !combine_length, !map_length, combine_length; unfold model_fit, cmatvec; rewrite ?map_length; destruct (o_twodim o); rewrite ?map_length; lia. }
          destruct LE as [LE1 LE2]. eapply levels_both; [| | |exact Ha|exact Hx|exact Hy|exact Hz|exact Fx]; auto.
        * intros gm ->. eapply Z; [exact BH|exact HG|exact Hk]. }
  destruct CI as [cs CI].
  eapply finish; [exact (an_perm _ _ _ _ _ _ _ _ AN0)|exact F|]. unfold ci_stage. rewrite (fi_ci _ _ _ _ _ _ _ _ _ _ _ _ _ _ _ F). cbn [eq_str String.eqb Ascii.eqb Bool.eqb negb].
  unfold ncoef in CI. rewrite CI. cbn [bind]. reflexivity.
Qed.
End Mc.

(** ** what an analysis with Monte-Carlo intervals needs *)
Lemma mc_run L t u v la opts sm c : analysis L t u v (Some la) opts sm c -> setting opts "conf_int" (PStr "MC") -> setting opts "infer" PNone -> c_name c <> [] ->
  exists si s B m W p gm w Xu Yu Xv Yv g th nc, behind L t u v (Some la) opts c si la s B (map snd sm) m W /\
    gammas L B (ncoef (c_opt c) s) W (map snd sm) (model_fit (o_twodim (c_opt c)) B m) = Ok (Some gm) /\ o_linci (c_opt c) = false /\
    conf_one L (c_opt c) (Some gm) p nc 0%nat Xu Yu Xv Yv g th = Ok w.
Proof.
  intros AN MC IN NE. assert (HU := an_keys _ _ _ _ _ _ _ _ AN).
  destruct (analysis_run _ _ _ _ _ _ _ _ AN) as (_ & si & la0 & s & B & x0 & m & W & BH & S1 & S2 & S3). subst x0.
  assert (El := bh_lat _ _ _ _ _ _ _ _ _ _ _ _ _ _ BH). injection El as <-.
  assert (NI : o_infer (c_opt c) = None).
  { apply setting_val in IN; [|exact HU|cbn; tauto]. destruct (bh_inf _ _ _ _ _ _ _ _ _ _ _ _ _ _ BH) as (inf & I1 & I2). rewrite IN in I1. cbn [validate_infer is_none orb] in I1. injection I1 as <-. now injection I2. }
  destruct (old_intervals L t u v la opts sm c AN false si s B m W BH MC NI) as (p & gam & cis & HP & HG & EL & LC & HC & _).
  assert (RC := run_counts _ _ _ _ _ _ _ _ _ _ _ _ _ _ BH (an_sorted _ _ _ _ _ _ _ _ AN) NI). destruct RC as (R0 & _ & _ & _ & _ & Rname & _ & Rc).
  assert (Lpm := bh_pm _ _ _ _ _ _ _ _ _ _ _ _ _ _ BH).
  assert (Hk : (0 < length cis)%nat).
  { rewrite LC. unfold conf_input. rewrite map_length. unfold all_pm in Lpm. rewrite R0 in Lpm. cbn [map inferred_coefs combine List.concat] in Lpm. rewrite app_nil_r in Lpm. rewrite Lpm.
    destruct (c_name c); [congruence|]. cbn in Rc. lia. }
  specialize (HC 0%nat {| ci_maj := NaN; ci_min := NaN; ci_theta := NaN; ci_g := NaN; ci_vc := [] |} Hk). cbv zeta in HC.
  destruct gam as [gm|]; [|exfalso; eapply one_none; eauto].
  do 15 eexists. split; [exact BH|]. split; [exact HG|]. split; [exact EL|exact HC].
Qed.
