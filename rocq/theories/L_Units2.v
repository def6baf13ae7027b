(** solve on data in other units. *)
From Coq Require Import Lia Lra Permutation.
From Verif Require Import M_Base M_Bunch M_Lib M_Tables M_Const M_Options M_Time M_Slvinit M_Harmonics M_Select M_Ellipse
  M_Robust M_Period M_Conf M_Diag M_Solve M_Recon S_Dict S_Options S_Order S_Basis S_Select S_Fit S_Ellipse S_Slv S_Recon S_Model S_Robust S_RobustKw S_RobustErr S_RobustEq S_Units
  L_Base L_Options L_SolveInv L_OptSolve L_Slv L_Slv2 L_Order L_Select L_Fit L_Align L_SelOrder L_Basis L_Angle L_Ellipse L_Recon L_Recon2 L_Recon3 L_Core
  L_Ellipse2 L_Model L_Lsq L_Model2 L_Model3 L_Model4 L_Model5 L_Model6 L_Model7 L_Model8 L_Model9 L_Model10 L_Model11 L_Model12 L_Model15
  L_Robust L_Robust4 L_RobustKw L_RobEq L_RobEq2 L_Affine L_Affine3 L_Units.
Open Scope R_scope.
Open Scope string_scope.

(** two analyses with the same times and options *)
Lemma shared_run L t u v u' v' lat opts sm sm' c c' :
  analysis L t u v lat opts sm c -> analysis L t u' v' lat opts sm' c' -> is2d v = is2d v' -> map fst sm' = map fst sm ->
  exists si si' la s B xraw xraw' m m' W W',
    behind L t u v lat opts c si la s B xraw m W /\ behind L t u' v' lat opts c' si' la s B xraw' m' W' /\
    si_t si = map fst sm /\ xraw = map snd sm /\ xraw' = map snd sm' /\ c_opt c' = c_opt c /\
    si_t si' = si_t si /\ si_tref si' = si_tref si /\ si_lor si' = si_lor si /\ si_tin si' = si_tin si /\ si_elor si' = si_elor si.
Proof.
  intros AN AN' D2 Tm.
  destruct (analysis_run _ _ _ _ _ _ _ _ AN) as (_ & si & la & s & B & xraw & m & W & BH & S1 & S2 & S3).
  destruct (analysis_run _ _ _ _ _ _ _ _ AN') as (_ & si' & la' & s' & B' & xraw' & m' & W' & BH' & S1' & S2' & S3').
  assert (HS := an_sorted _ _ _ _ _ _ _ _ AN).
  assert (Et : si_t si = si_t si').
  { now rewrite S1, S1', Tm. }
  destruct (solve_opt _ _ _ _ _ _ _ (an_solve _ _ _ _ _ _ _ _ AN)) as (compat & sx & O1 & O2 & O3).
  destruct (solve_opt _ _ _ _ _ _ _ (an_solve _ _ _ _ _ _ _ _ AN')) as (compat' & sx' & O1' & O2' & O3').
  rewrite <- D2, O1 in O1'. apply Ok_inj in O1'. subst compat'.
  destruct (used_options opts (is2d v) (si_equi sx) (an_keys _ _ _ _ _ _ _ _ AN) compat _ O1 O3) as
      (_ & _ & _ & Eq & _ & _ & _ & _ & _ & _ & _ & _ & _ & _ & _ & _ & _ & _ & Ep1 & Ep2 & _).
  rewrite <- D2 in O3'.
  destruct (used_options opts (is2d v) (si_equi sx') (an_keys _ _ _ _ _ _ _ _ AN) compat _ O1 O3') as
      (_ & _ & _ & Eq' & _ & _ & _ & _ & _ & _ & _ & _ & _ & _ & _ & _ & _ & _ & Ep1' & Ep2' & _).
  assert (SI := bh_slv _ _ _ _ _ _ _ _ _ _ _ _ _ _ BH). assert (SI' := bh_slv _ _ _ _ _ _ _ _ _ _ _ _ _ _ BH').
  assert (sx = si) by (rewrite Ep2, <- Ep1, SI in O2; apply Ok_inj in O2; congruence).
  assert (sx' = si') by (rewrite Ep2', <- Ep1', SI' in O2'; apply Ok_inj in O2'; congruence). subst sx sx'.
  assert (Ee : o_epoch (c_opt c') = o_epoch (c_opt c)) by congruence. rewrite Ee in SI'.
  destruct (same_slv _ _ _ _ _ _ _ _ _ _ _ SI SI' Et) as (E1 & E2 & E3).
  assert (Eo : c_opt c' = c_opt c). { rewrite E3, O3 in O3'. apply Ok_inj in O3'. congruence. }
  assert (El : la' = la). { assert (X := bh_lat _ _ _ _ _ _ _ _ _ _ _ _ _ _ BH). assert (X' := bh_lat _ _ _ _ _ _ _ _ _ _ _ _ _ _ BH'). congruence. }
  assert (Es : s' = s).
  { assert (X := bh_sel _ _ _ _ _ _ _ _ _ _ _ _ _ _ BH). assert (X' := bh_sel _ _ _ _ _ _ _ _ _ _ _ _ _ _ BH').
    rewrite Eo, E1, E2, X in X'. apply Ok_inj in X'. congruence. }
  subst s' la'.
  destruct (run_rows _ _ _ _ _ _ _ _ _ _ _ _ _ _ BH) as (G & _ & _). destruct (run_rows _ _ _ _ _ _ _ _ _ _ _ _ _ _ BH') as (G' & _ & _).
  rewrite E1, E2, Eo, <- Et in G'.
  assert (EB : B' = B).
  { eapply forall2_det; [|exact G'|exact G]. intros x y z Hy Hz. unfold good_row in *. rewrite Hy in Hz. now apply somes_inj in Hz. }
  subst B'. clear G'.
  assert (Ee2 : o_epoch (c_opt c') = o_epoch (c_opt c)) by congruence.
  destruct (same_slv2 _ _ _ _ _ _ _ _ _ _ _ SI SI' Et) as (E4 & E5).
  exists si, si', la, s, B, xraw, xraw', m, m', W, W'. repeat (split; [assumption || now symmetry|]). exact E5.
Qed.

(** the end of a run *)
Lemma run_stages L t u v lat opts sm c si la s B xraw m W : analysis L t u v lat opts sm c -> behind L t u v lat opts c si la s B xraw m W ->
  exists c1 c2, ci_stage L (c_opt c) s si la B xraw m W = Ok c1 /\ diag_stage L (c_opt c) c1 = Ok c2 /\ reorder L c2 (o_ordercnstit (c_opt c)) = Ok c.
Proof.
  intros AN BH. assert (HU := an_keys _ _ _ _ _ _ _ _ AN).
  destruct (solve_inv _ _ _ _ _ _ _ (an_solve _ _ _ _ _ _ _ _ AN)) as
    [(compat & si' & la' & o & s' & B' & xraw' & m' & W' & c1 & c2 & P1 & P2 & P3 & P4 & P5 & P6 & P7 & P8 & P9)].
  assert (Ho : c_opt c = o) by (rewrite (sb_opt _ _ (solve_base _ _ _ _ _ _ _ _ _ _ _ _ P7 P8 P9)); reflexivity).
  destruct (used_options opts (is2d v) (si_equi si') HU compat o P1 P4) as
    (_ & _ & _ & _ & _ & _ & _ & _ & _ & _ & _ & _ & _ & _ & _ & _ & _ & _ & Ep1 & Ep2 & _).
  subst o.
  assert (Ela : la' = la) by (rewrite (bh_lat _ _ _ _ _ _ _ _ _ _ _ _ _ _ BH) in P3; congruence). subst la'.
  rewrite Ep2, <- Ep1, (bh_slv _ _ _ _ _ _ _ _ _ _ _ _ _ _ BH) in P2. apply Ok_inj in P2. subst si'.
  rewrite (bh_sel _ _ _ _ _ _ _ _ _ _ _ _ _ _ BH) in P5. apply Ok_inj in P5. subst s'.
  rewrite (bh_fit _ _ _ _ _ _ _ _ _ _ _ _ _ _ BH) in P6. apply Ok_inj in P6. injection P6 as <- <- <- <-. eauto.
Qed.
Lemma affine_zero k b n : length b = n -> affine k b (repeat (RtoC 0) n) = kc k b.
Proof.
  revert n. induction b as [|x b IH]; intros [|n] H; try discriminate; [reflexivity|]. cbn [repeat map]. rewrite affine_cons, IH by (cbn in H; lia). f_equal. ring.
Qed.
Lemma cdot_zero row n : cdot row (repeat (RtoC 0) n) = RtoC 0.
Proof. unfold cdot. revert n. induction row as [|a row IH]; intros [|n]; try reflexivity. cbn [repeat combine map fst snd]. rewrite csum_eq, IH. ring. Qed.
Lemma matvec_zero X n : cmatvec X (repeat (RtoC 0) n) = repeat (RtoC 0) (length X).
Proof. unfold cmatvec. induction X as [|r X IH]; [reflexivity|]. cbn [map length repeat]. now rewrite IH, cdot_zero. Qed.

Lemma units_end L t u v u' v' lat opts sm sm' c c' si si' la s B xraw m W k : 0 < k ->
  analysis L t u v lat opts sm c -> analysis L t u' v' lat opts sm' c' ->
  behind L t u v lat opts c si la s B xraw m W -> behind L t u' v' lat opts c' si' la s B (kc k xraw) (kc k m) W ->
  c_opt c' = c_opt c -> si_t si' = si_t si -> si_tref si' = si_tref si -> si_lor si' = si_lor si -> si_tin si' = si_tin si -> si_elor si' = si_elor si ->
  o_conf_int (c_opt c) = false \/ o_linci (c_opt c) = true /\ (o_white (c_opt c) = true \/ o_equi (c_opt c) = true \/ lomb_quadratic L) -> c' = in_units k c.
Proof.
  intros K AN AN' BH BH' E0 E1 E2 E3 E4 E5 Q.
  destruct (run_stages _ _ _ _ _ _ _ _ _ _ _ _ _ _ _ AN BH) as (c1 & c2 & P1 & P2 & P3). destruct (run_stages _ _ _ _ _ _ _ _ _ _ _ _ _ _ _ AN' BH') as (c1' & c2' & P1' & P2' & P3').
  rewrite E0 in P1', P2', P3'.
  assert (c1' = in_units k c1) as ->.
  { destruct Q as [Q|[Q1 Q2]].
    - unfold ci_stage in P1, P1'. rewrite Q in P1, P1'. rewrite E2, E3, core_sc in P1' by exact K. apply Ok_inj in P1, P1'. congruence.
    - eapply ci_stage_sc; eauto. }
  assert (c2' = in_units k c2) as -> by (eapply diag_stage_sc; eauto). eapply reorder_sc; eauto.
Qed.

Lemma robust_units L t u v u' v' lat opts sm c c' k : 0 < k -> 
  let sm' := map (fun x => (fst x, Cmult (RtoC k) (snd x))) sm in
  analysis L t u v lat opts sm c -> analysis L t u' v' lat opts sm' c' -> is2d v = is2d v' ->
  (forall rc, lstsq_contract L rc) -> o_method (c_opt c) <> PStr "ols" ->
  o_conf_int (c_opt c) = false \/ o_linci (c_opt c) = true /\ (o_white (c_opt c) = true \/ o_equi (c_opt c) = true \/ lomb_quadratic L) ->
  c' = in_units k c.
Proof.
  intros K sm' AN AN' D2 LC NO Q. assert (Tm : map fst sm' = map fst sm) by (unfold sm'; rewrite map_map; reflexivity).
  destruct (shared_run _ _ _ _ _ _ _ _ _ _ _ _ AN AN' D2 Tm) as (si & si' & la & s & B & xraw & xraw' & m & m' & W & W' & BH & BH' & S1 & S2 & S2' & E0 & E1 & E2 & E3 & E4 & E5).
  assert (EX : xraw' = kc k xraw) by (rewrite S2, S2'; unfold sm'; rewrite !map_map; reflexivity).
  assert (EM : eq_str (o_method (c_opt c)) "ols" = false).
  { destruct (o_method (c_opt c)) as [| | |x| | |]; try reflexivity. cbn. apply String.eqb_neq. congruence. }
  assert (F := bh_fit _ _ _ _ _ _ _ _ _ _ _ _ _ _ BH). assert (F' := bh_fit _ _ _ _ _ _ _ _ _ _ _ _ _ _ BH'). rewrite E0 in F'.
  destruct (fit_robust _ _ _ _ _ _ _ _ _ _ _ _ _ EM F) as (rr & FR & M & Ww). destruct (fit_robust _ _ _ _ _ _ _ _ _ _ _ _ _ EM F') as (rr' & FR' & M' & Ww').
  assert (LX : length B = length xraw) by (symmetry; eapply len_rows; eauto).
  assert (Lm := bh_len _ _ _ _ _ _ _ _ _ _ _ _ _ _ BH).
  assert (RL : forall row, In row B -> length row = ncoef (c_opt c) s).
  { destruct (fit_len _ _ _ _ _ _ _ _ _ _ _ _ _ (an_shape _ _ _ _ _ _ _ _ AN) (run_lens _ _ _ _ _ _ _ _ _ _ _ _ _ _ BH)
      (infer_none_R _ _ _ _ _ (bh_sel _ _ _ _ _ _ _ _ _ _ _ _ _ _ BH))
      (slv_data _ _ _ _ _ _ _ ltac:(destruct (an_samples _ _ _ _ _ _ _ _ AN) as (e & _ & SMP); eapply samples_arrays; exact SMP) (bh_slv _ _ _ _ _ _ _ _ _ _ _ _ _ _ BH)) F) as ((D1 & D3) & _). exact D3. }
  assert (NX : B <> []).
  { assert (Hne := bh_t _ _ _ _ _ _ _ _ _ _ _ _ _ _ BH). rewrite S1 in Hne. intros ->. rewrite S2, map_length in LX. destruct sm; [now apply Hne|discriminate]. }
  assert (AF : kc k xraw = affine k xraw (cmatvec B (repeat (RtoC 0) (ncoef (c_opt c) s)))) by (rewrite matvec_zero, affine_zero; congruence).
  rewrite EX, AF in FR'. assert (K0 : k <> 0) by lra.
  destruct (kw_moved _ _ _ _ _ _ _ _ LC LX NX ltac:(intros row Hr; rewrite repeat_length; now apply RL) K0 FR FR') as (G1 & G2).
  rewrite M, M', affine_zero in G1 by exact Lm. rewrite Ww, Ww' in G2. rewrite EX, G1, G2 in BH'. exact (units_end _ _ _ _ _ _ _ _ _ _ _ _ _ _ _ _ _ _ _ _ _ K AN AN' BH BH' E0 E1 E2 E3 E4 E5 Q).
Qed.

Lemma ols_units L t u v u' v' lat opts sm c c' k : 0 < k -> 
  let sm' := map (fun x => (fst x, Cmult (RtoC k) (snd x))) sm in
  analysis L t u v lat opts sm c -> analysis L t u' v' lat opts sm' c' -> is2d v = is2d v' ->
  lstsq_minimises L -> o_method (c_opt c) = PStr "ols" -> approximate (c_opt c) = false -> identifiable c (map fst sm) -> NoDup (c_name c) ->
  o_conf_int (c_opt c) = false \/ o_linci (c_opt c) = true /\ (o_white (c_opt c) = true \/ o_equi (c_opt c) = true \/ lomb_quadratic L) ->
  c' = in_units k c.
Proof.
  intros K sm' AN AN' D2 LM OLS NA ID ND Q. assert (Tm : map fst sm' = map fst sm) by (unfold sm'; rewrite map_map; reflexivity).
  destruct (shared_run _ _ _ _ _ _ _ _ _ _ _ _ AN AN' D2 Tm) as (si & si' & la & s & B & xraw & xraw' & m & m' & W & W' & BH & BH' & S1 & S2 & S2' & E0 & E1 & E2 & E3 & E4 & E5).
  assert (HS := an_sorted _ _ _ _ _ _ _ _ AN).
  assert (EX : xraw' = kc k xraw) by (rewrite S2, S2'; unfold sm'; rewrite !map_map; reflexivity). clear S2'. subst xraw'.
  assert (Lm := bh_len _ _ _ _ _ _ _ _ _ _ _ _ _ _ BH). assert (Lm' := bh_len _ _ _ _ _ _ _ _ _ _ _ _ _ _ BH'). rewrite E0 in Lm'.
  assert (LR := len_rows _ _ _ _ _ _ _ _ _ _ _ _ _ _ BH sm S1 S2).
  assert (BST : best (sys B (kc k xraw)) (kc k m)).
  { apply orth_best. intros d Hd. assert (BO := best_orth _ _ (run_best _ _ _ _ _ _ _ _ _ _ _ _ _ _ BH LM OLS)).
    rewrite map_length in Hd. assert (O2d := BO (kc k d) ltac:(rewrite map_length; congruence)).
    unfold ip, sys in *. rewrite <- O2d. clear. revert xraw.
    induction B as [|row B' IH]; intros [|x l]; try reflexivity. cbn [map combine]. rewrite !rsum_cons, IH. f_equal.
    unfold resid. cbn [fst snd]. rewrite !cdot_scal. generalize (cdot row m) (cdot row d). intros [z1 z2] [w1 w2]. destruct x as [y1 y2].
    unfold Cminus, Cplus, Copp, Cmult, Cconj, RtoC. cbn [fst snd]. ring. }
  assert (BST' : best (sys B (kc k xraw)) m') by (eapply run_best; eauto; congruence).
  assert (IND := run_independent _ _ _ _ _ _ _ _ _ _ _ _ _ _ BH HS NA (map fst sm) ltac:(intros; rewrite S1; tauto) ID ND LR).
  assert (EK : m' = kc k m).
  { apply (best_unique (sys B (kc k xraw))); auto; [now rewrite map_length; congruence|]. rewrite Lm'. intros d Hd Z. apply (IND d Hd). intros p Hp.
    unfold sys in *. destruct p as [row y]. cbn [fst]. assert (exists y', In (row, y') (combine B (kc k xraw))) as (y' & Hy').
    { apply in_combine_l in Hp. clear - Hp LR. revert LR Hp. rewrite <- (map_length (Cmult (RtoC k))). generalize (kc k xraw). induction B as [|r B' IH]; intros [|z l] E H; try discriminate; [destruct H..|].
      destruct H as [->|H]; [exists z; now left|]. destruct (IH l ltac:(now injection E) H) as (y' & Hy). exists y'. now right. }
    exact (Z _ Hy'). }
  assert (WW : forall si si' (B : cmat) (x x' m m' : list C) (W W' : list xr) c c', o_method (c_opt c) = PStr "ols" -> o_method (c_opt c') = PStr "ols" -> si_t si' = si_t si ->
     fit L (si_t si) (si_u si) (si_v si) (si_tref si) (si_lor si) la (c_opt c) s = Ok (B, x, m, W) ->
     fit L (si_t si') (si_u si') (si_v si') (si_tref si') (si_lor si') la (c_opt c') s = Ok (B, x', m', W') -> W' = W).
  { clear. intros si si' B x x' m m' W W' c c' O1 O2 ET F F'. unfold fit in F, F'. inv_bind F. inv_bind F'. destruct (finite_mat a); [|discriminate]. destruct (finite_mat a0); [|discriminate].
    rewrite O1 in F. rewrite O2 in F'. cbn [eq_str] in F, F'. rewrite String.eqb_refl in F, F'. inv_bind F. inv_bind F'.
    destruct a1 as [[[? ?] ?] ?], a2 as [[[? ?] ?] ?]. apply Ok_inj in F, F'. rewrite ET in F'. congruence. }
  assert (W' = W).
  { eapply WW; [exact OLS| |exact E1|exact (bh_fit _ _ _ _ _ _ _ _ _ _ _ _ _ _ BH)|exact (bh_fit _ _ _ _ _ _ _ _ _ _ _ _ _ _ BH')]. now rewrite E0. }
  subst W' m'. exact (units_end _ _ _ _ _ _ _ _ _ _ _ _ _ _ _ _ _ _ _ _ _ K AN AN' BH BH' E0 E1 E2 E3 E4 E5 Q).
Qed.
