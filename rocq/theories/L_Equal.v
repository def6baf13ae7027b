(** Robust analyses that agree with ordinary ones. *)
From Coq Require Import Lia Lra Permutation.
From Verif Require Import M_Base M_Bunch M_Lib M_Tables M_Const M_Options M_Time M_Slvinit M_Harmonics M_Select M_Ellipse
  M_Robust M_Period M_Conf M_Diag M_Solve M_Recon S_Dict S_Options S_Order S_Basis S_Select S_Fit S_Ellipse S_Slv S_Recon S_Model S_Perm S_Choice S_Robust S_RobustKw S_Equal
  L_Base L_Tables L_Options L_SolveInv L_OptSolve L_Slv L_Slv2 L_Order L_Select L_Fit L_Align L_SelOrder L_Basis L_Angle L_Ellipse L_Recon L_Recon2 L_Recon3 L_Core
  L_Ellipse2 L_Model L_Lsq L_Model2 L_Model3 L_Model4 L_Model5 L_Model6 L_Model7 L_Model8 L_Model9 L_Model10 L_Model11 L_Model12 L_Model15
  L_Units2 L_Super L_Super2 L_Super3 L_Perm L_Carry L_Choice L_Robust L_Robust2 L_Robust4 L_RobustKw.
Open Scope R_scope.
Open Scope string_scope.

(** ** an analysis that is optimal for the samples of another *)
Lemma best_same L t u v lat opts sm c L' t' u' v' lat' opts' sm' c' :
  analysis L t u v lat opts sm c -> analysis L' t' u' v' lat' opts' sm' c' -> same_model c c' ->
  (forall c1, rival c c1 -> exists d d1, misfit c sm' d /\ misfit c1 sm' d1 /\ d <= d1) ->
  approximate (c_opt c') = false -> lstsq_minimises L' -> o_method (c_opt c') = PStr "ols" ->
  identifiable c' (map fst sm') -> NoDup (c_name c') -> same_fit c c'.
Proof.
  intros AN AN' SM OPT NA' LM' OLS' ID ND. assert (HS := an_sorted _ _ _ _ _ _ _ _ AN). assert (HS' := an_sorted _ _ _ _ _ _ _ _ AN').
  assert (Wc := analysis_wf _ _ _ _ _ _ _ _ AN). assert (Wc' := analysis_wf _ _ _ _ _ _ _ _ AN'). assert (SM' := same_model_sym _ _ SM).
  assert (NDc : NoDup (c_name c)) by (eapply Permutation_NoDup; [apply Permutation_sym, (sm_names _ _ SM)|exact ND]).
  assert (PP : Permutation (combine (c_name c) (c_lind c)) (combine (c_name c') (c_lind c'))).
  { destruct (analysis_run _ _ _ _ _ _ _ _ AN) as (_ & si & la & s & B & xraw & m & W & BH & _).
    destruct (analysis_run _ _ _ _ _ _ _ _ AN') as (_ & si' & la' & s' & B' & xraw' & m' & W' & BH' & _).
    apply pairs_perm; [eapply run_indexed; eauto|eapply run_indexed; eauto|].
    assert (A2 : length (c_lind c) = length (c_name c)) by apply Wc. assert (A2' : length (c_lind c') = length (c_name c')) by apply Wc'.
    rewrite !combine_fst by congruence. apply SM. }
  destruct (carried _ _ c c' id_motion (id_keeps c) Wc Wc' SM (proj1 (top_ties _ _ _ _ _ _ _ _ AN NDc)) PP) as (c0 & R0 & T0 & M0 & S0 & V0).
  destruct (carried _ _ c' c id_motion (id_keeps c') Wc' Wc SM' (proj1 (top_ties _ _ _ _ _ _ _ _ AN' ND)) (Permutation_sym PP)) as (c1 & R1 & T1 & M1 & S1 & V1).
  destruct (OPT c1 R1) as (d & d1 & D & D1 & LE).
  assert (D0 : misfit c0 sm' d).
  { assert (X := misfit_moved _ _ c c0 sm' d id_motion Wc (rv_wf _ _ R0) V0 D). now rewrite moved_id in X. }
  assert (exists d', misfit c' sm' d') as (d' & D').
  { destruct (top_optimal _ _ _ _ _ _ _ _ _ AN' NA' LM' OLS' R0) as (d' & _ & D' & _). eauto. }
  assert (D1' : misfit c1 sm' d').
  { assert (X := misfit_moved _ _ c' c1 sm' d' id_motion Wc' (rv_wf _ _ R1) V1 D'). now rewrite moved_id in X. }
  assert (d1 = d') by exact (misfit_fun _ _ _ _ (rv_wf _ _ R1) D1 D1'). subst d1.
  destruct (rival_same _ _ _ _ _ _ _ _ _ _ _ AN' NA' LM' OLS' ID ND R0 D' D0 LE) as (Q1 & Q2 & Q3 & Q4). rewrite upon_id in T0.
  apply same_fit_from; auto; [apply SM|apply SM|rewrite Q1, T0; reflexivity|congruence| |].
  - intros N. rewrite (Q3 ltac:(rewrite (sm_notrend _ _ SM); exact N)). symmetry. exact S0.
  - intros x. rewrite Q4, V0. destruct (valC c x); reflexivity.
Qed.

(** ** weights that are zero or k *)
Lemma kept_cons x sm a w : kept (x :: sm) (a :: w) = if Req_EM_T a 0 then kept sm w else x :: kept sm w.
Proof. unfold kept. cbn [combine filter snd]. destruct (Req_EM_T a 0); reflexivity. Qed.
Lemma kept_misfit c k : k <> 0 -> well_formed c -> forall sm w d, length w = length sm -> Forall (fun a => a = 0 \/ a = k) w ->
  weighted_misfit c sm w d -> misfit c (kept sm w) (d / k ^ 2).
Proof.
  intros Hk Wf. induction sm as [|x sm IH]; intros [|a w] d Lw F (zs & Y & ->); try discriminate.
  - exists []. split; [constructor|]. unfold weighted_ss, norm2, csub, rsum. cbn. unfold Rdiv. ring.
  - inversion Y as [|x0 z sm0 zs' Y1 Y2]; subst. inversion F as [|a0 w0 F1 F2]; subst.
    destruct (IH w (weighted_ss w (csub (map snd sm) zs')) ltac:(now injection Lw) F2 ltac:(exists zs'; auto)) as (ys & V1 & V2).
    assert (E : weighted_ss (a :: w) (csub (map snd (x :: sm)) (z :: zs')) = a ^ 2 * sq (Cminus (snd x) z) + weighted_ss w (csub (map snd sm) zs')).
    { unfold weighted_ss, csub. cbn [map combine]. rewrite rsum_cons. reflexivity. }
    rewrite kept_cons. destruct (Req_EM_T a 0) as [Z|Z].
    + exists ys. split; [exact V1|]. rewrite E, <- V2, Z. unfold Rdiv. ring.
    + destruct F1 as [F1|F1]; [congruence|]. subst a. exists (z :: ys). split; [constructor; assumption|].
      assert (E' : norm2 (csub (map snd (x :: kept sm w)) (z :: ys)) = sq (Cminus (snd x) z) + norm2 (csub (map snd (kept sm w)) ys)).
      { unfold norm2, csub. cbn [map combine]. rewrite rsum_cons. reflexivity. }
      rewrite E', E, <- V2. field. exact Hk.
Qed.

Lemma top_kept L t u v lat opts sm c w k L' t' u' v' lat' opts' sm' c' :
  analysis L t u v lat opts sm c -> approximate (c_opt c) = false -> (forall rc, lstsq_contract L rc) -> o_method (c_opt c) <> PStr "ols" ->
  c_weights c = map Fin w -> k <> 0 -> Forall (fun a => a = 0 \/ a = k) w ->
  analysis L' t' u' v' lat' opts' sm' c' -> same_model c c' -> Permutation (kept sm w) sm' ->
  lstsq_minimises L' -> o_method (c_opt c') = PStr "ols" -> identifiable c' (map fst sm') -> NoDup (c_name c') ->
  same_fit c c' \/
  (exists q d n X r, o_robust_kw (c_opt c) = PDict q d /\ kw_nat (kget d "maxit" (PNum 50)) = Ok n /\
     robustfit_kw L X (map snd sm) (PDict q d) = Ok r /\ c_weights c = rf_w r /\ rf_iterations r = n).
Proof.
  intros AN NA LC NO EW Hk Fw AN' SM PS LM' OLS' ID ND.
  destruct (top_robust _ _ _ _ _ _ _ _ AN NA LC NO) as [(w0 & E0 & Lw & _ & OPT)|H]; [left|now right].
  assert (w0 = w).
  { rewrite EW in E0. clear - E0. revert w0 E0. induction w as [|a w IH]; intros [|b w0] E; try discriminate; [reflexivity|]. cbn in E. injection E as -> E. f_equal. now apply IH. }
  subst w0. assert (Wc := analysis_wf _ _ _ _ _ _ _ _ AN).
  eapply best_same; eauto; [|unfold approximate in *; now rewrite (sm_infer _ _ SM)].
  intros c1 R1. destruct (OPT c1 R1) as (d & d1 & D & D1 & LE). exists (d / k ^ 2), (d1 / k ^ 2).
  split; [eapply misfit_perm; [exact Wc|exact PS|]; now apply kept_misfit|].
  split; [eapply misfit_perm; [apply R1|exact PS|]; apply kept_misfit; auto; apply R1|].
  unfold Rdiv. apply Rmult_le_compat_r; [|exact LE]. left. apply Rinv_0_lt_compat. destruct (Rdichotomy _ _ Hk); nra.
Qed.

(** ** the weight function 'ols' *)
Section Unit.
Variables (L : lib) (X : cmat) (y : list C) (rcond : pyval) (tol : R) (rfac : list xr).
Hypothesis LX : length X = length y.
Hypothesis LF : length rfac = length y.
Notation ones := (map (fun _ : C => x1) y).
Lemma ones_next r : length r = length y -> map w_ols (r_normed r rfac) = ones.
Proof.
  intros H. unfold r_normed, w_ols. rewrite map_map. assert (E : length (combine r rfac) = length y) by (rewrite combine_length; lia).
  revert E. generalize (combine r rfac). clear. induction y as [|c y' IH]; intros [|p l] E; try discriminate; [reflexivity|]. cbn [map]. f_equal. apply IH. now injection E.
Qed.
Lemma ones_loop fuel : forall i old out, (forall o, old = Some o -> it_w o = ones /\ wsolve L X y rcond ones = Ok (it_ls o)) ->
  rf_loop L X y rcond tol (fun r => Ok (map w_ols r)) rfac fuel i ones old = Ok out ->
  let '(ls, w, _, _, _) := out in w = ones /\ wsolve L X y rcond ones = Ok ls.
Proof.
  induction fuel as [|fuel IH]; intros i old out HO H; cbn [rf_loop] in H.
  - destruct old as [o|]; [|discriminate]. injection H as <-. split; [reflexivity|]. now apply HO.
  - destruct (wsolve L X y rcond ones) as [ls|] eqn:E; [|discriminate]. cbn [bind] in H.
    rewrite ones_next in H by (unfold residual, cmatvec; rewrite map_length, combine_length, map_length; lia).
    assert (CONT : forall q, rf_loop L X y rcond tol (fun r => Ok (map w_ols r)) rfac fuel (S i) ones (Some {| it_ls := ls; it_w := ones; it_meansq := q; it_resid := residual X y (ls_b ls) |}) = Ok out ->
      let '(l, w, _, _, _) := out in w = ones /\ Ok ls = Ok l).
    { intros q. apply IH. intros o Ho. injection Ho as <-. cbn [it_w it_ls]. auto. }
    destruct old as [o|]; [|exact (CONT _ H)].
    destruct (HO o eq_refl) as [H1 H2]. destruct (xlt _ (Fin 0)); [injection H as <-; auto|]. destruct (xlt _ (Fin tol)); [injection H as <-; auto|]. exact (CONT _ H).
Qed.
End Unit.
Lemma ones_fit L X y tune rcond tol maxit r : length X = length y -> robustfit L X y "ols" tune rcond tol maxit = Ok r ->
  rf_w r = map (fun _ => x1) y /\ exists ls, wsolve L X y rcond (map (fun _ => x1) y) = Ok ls /\ rf_b r = ls_b ls.
Proof.
  intros LX H. unfold robustfit in H. destruct (match tune with Some _ => _ | None => _ end) as [t|]; [|discriminate]. cbn [bind] in H.
  replace (wfunc "ols") with (Ok (fun r => Ok (map w_ols r))) in H by reflexivity. cbn [bind] in H.
  destruct (leverage L X) as [lev|] eqn:EL; [|discriminate]. cbn [bind] in H. apply leverage_len in EL.
  destruct (match maxit with O => _ | _ => _ end) as [f|]; [|discriminate]. cbn [bind] in H.
  match type of H with bind ?x _ = _ => destruct x as [[[[[ls w] rs] it] st]|] eqn:E; [|discriminate] end. cbn [bind] in H. injection H as <-.
  apply ones_loop in E; [|exact LX|now rewrite map_length, EL|discriminate]. cbn [rf_w rf_b]. destruct E as [E1 E2]. eauto.
Qed.
Lemma ones_best L X y rcond ls : lstsq_contract L rcond -> length X = length y -> wsolve L X y rcond (map (fun _ => x1) y) = Ok ls -> best (sys X y) (ls_b ls).
Proof.
  intros LC LX H. unfold wsolve in H. replace (all_finite (map (fun _ => x1) y)) with (Some (map (fun _ : C => 1) y)) in H.
  2: { symmetry. apply all_finite_spec. rewrite map_map. reflexivity. }
  assert (E1 : map (fun p => map (Cmult (RtoC (fst p))) (snd p)) (combine (map (fun _ : C => 1) y) X) = X).
  { clear - LX. revert X LX. induction y as [|c y IH]; intros [|r X] E; try discriminate; [reflexivity|]. cbn [map combine fst snd]. f_equal; [|apply IH; now injection E].
    rewrite <- (map_id r) at 2. apply map_ext. intros a. ring. }
  assert (E2 : map (fun p => Cmult (RtoC (fst p)) (snd p)) (combine (map (fun _ : C => 1) y) y) = y).
  { clear. induction y as [|c y IH]; [reflexivity|]. cbn [map combine fst snd]. f_equal; [ring|exact IH]. }
  rewrite E1, E2 in H. destruct (l_lstsq L X y rcond) as [[[[b rss] q] sg]|] eqn:E; [|discriminate]. cbn [bind] in H.
  destruct (LC _ _ _ _ _ _ E) as (_ & H2 & _). destruct rss; [discriminate|]. injection H as <-. cbn [ls_b].
  intros m' Hm. rewrite <- !norm2_sys. now apply H2.
Qed.

(** ** the stages after the fit do not look at the method *)
Definition set_meth (o : optr) (m k : pyval) : optr :=
  {| o_twodim := o_twodim o; o_equi := o_equi o; o_conf_int := o_conf_int o; o_cnstit := o_cnstit o; o_notrend := o_notrend o; o_nodsatlint := o_nodsatlint o;
     o_nodsatnone := o_nodsatnone o; o_gwchlint := o_gwchlint o; o_gwchnone := o_gwchnone o; o_infer := o_infer o; o_rmin := o_rmin o; o_linci := o_linci o;
     o_white := o_white o; o_nrlzn := o_nrlzn o; o_nodiagn := o_nodiagn o; o_ordercnstit := o_ordercnstit o; o_method := m; o_robust_kw := k; o_epoch := o_epoch o |}.
Lemma set_meth_eq o o' : o_twodim o = o_twodim o' -> o_equi o = o_equi o' -> o_conf_int o = o_conf_int o' -> o_cnstit o = o_cnstit o' -> o_notrend o = o_notrend o' ->
  o_nodsatlint o = o_nodsatlint o' -> o_nodsatnone o = o_nodsatnone o' -> o_gwchlint o = o_gwchlint o' -> o_gwchnone o = o_gwchnone o' -> o_infer o = o_infer o' ->
  o_rmin o = o_rmin o' -> o_linci o = o_linci o' -> o_white o = o_white o' -> o_nrlzn o = o_nrlzn o' -> o_nodiagn o = o_nodiagn o' -> o_ordercnstit o = o_ordercnstit o' ->
  o_epoch o = o_epoch o' -> o = set_meth o' (o_method o) (o_robust_kw o).
Proof. destruct o, o'. cbn. intros; subst. reflexivity. Qed.
Definition with_options_in (o : optr) (r : res coef) : res coef := match r with Ok c => Ok (with_options o c) | Err e => Err e end.
Lemma ci_meth L o m k s si la B x b W : ci_stage L (set_meth o m k) s si la B x b W = with_options_in (set_meth o m k) (ci_stage L o s si la B x b W).
Proof.
  unfold ci_stage. cbn [set_meth o_conf_int o_twodim o_notrend]. destruct (o_conf_int o); [|reflexivity].
  change (confidence L (set_meth o m k)) with (confidence L o).
  match goal with |- context [confidence ?a1 ?a2 ?a3 ?a4 ?a5 ?a6 ?a7 ?a8 ?a9 ?b1 ?b2 ?b3 ?b4] => destruct (confidence a1 a2 a3 a4 a5 a6 a7 a8 a9 b1 b2 b3 b4) as [cis|]; cbn [bind with_options_in]; [|reflexivity] end.
  reflexivity.
Qed.
Lemma diag_meth L o m k c : c_opt c = o -> diag_stage L (set_meth o m k) (with_options (set_meth o m k) c) = with_options_in (set_meth o m k) (diag_stage L o c).
Proof.
  intros <-. unfold diag_stage. cbn [set_meth o_nodiagn]. destruct (o_nodiagn (c_opt c)); [reflexivity|].
  change (diagn_of L (with_options (set_meth (c_opt c) m k) c)) with (diagn_of L c).
  change (PE_of (with_options (set_meth (c_opt c) m k) c)) with (PE_of c). change (SNR_of (with_options (set_meth (c_opt c) m k) c)) with (SNR_of c).
  destruct (diagn_of L c) as [d|]; cbn [bind with_options_in]; [|reflexivity]. destruct (PE_of c) as [pe|]; cbn [bind with_options_in]; [|reflexivity].
  destruct (SNR_of c) as [snr|]; cbn [bind with_options_in]; reflexivity.
Qed.
Lemma order_meth L o m k c ord : c_opt c = o -> reorder L (with_options (set_meth o m k) c) ord = with_options_in (set_meth o m k) (reorder L c ord).
Proof.
  intros <-. set (o' := set_meth (c_opt c) m k).
  assert (A : forall c ind, apply_order (with_options o' c) ind = with_options_in o' (apply_order c ind)).
  { intros q ind. unfold apply_order. cbn [with_options c_name c_frq c_lind c_reftime c_lat c_opt c_nNR c_nR c_nI c_weights c_g c_A c_Lsmaj c_Lsmin c_theta c_mean c_slope c_umean c_vmean c_uslope c_vslope c_g_ci c_A_ci c_Lsmaj_ci c_Lsmin_ci c_theta_ci c_PE c_SNR c_diagn].
    repeat match goal with |- bind ?x _ = _ => destruct x; cbn [bind with_options_in]; [|reflexivity] end. reflexivity. }
  unfold reorder. cbn [with_options c_PE c_SNR c_frq c_name c_diagn].
  destruct (eq_str ord "PE").
  - destruct (c_PE c) as [pe|] eqn:EP; cbn [bind with_options c_PE].
    + rewrite EP. cbn [key bind fst snd]. apply A.
    + change (PE_of (with_options o' c)) with (PE_of c). destruct (PE_of c) as [pe|]; cbn [bind with_options_in]; [|reflexivity]. cbn [set_diag c_PE key bind fst snd].
      exact (A (set_diag c (Some pe) (c_SNR c) (c_diagn c)) (rev (l_argsort L pe))).
  - destruct (eq_str ord "frequency"); [cbn [bind fst snd]; apply A|]. destruct (eq_str ord "SNR").
    + destruct (key (c_SNR c)); cbn [bind with_options_in fst snd]; [apply A|reflexivity].
    + destruct (order_names ord); cbn [bind with_options_in]; [|reflexivity]. destruct (mapM (name_index (c_name c)) a); cbn [bind with_options_in fst snd]; [apply A|reflexivity].
Qed.

Lemma top_unit L t u v lat opts opts' sm sm' c c' q d : analysis L t u v lat opts sm c -> analysis L t u v lat opts' sm' c' -> agree opts opts' all_but_method ->
  approximate (c_opt c) = false -> (forall rc, lstsq_contract L rc) -> o_method (c_opt c) <> PStr "ols" -> o_method (c_opt c') = PStr "ols" ->
  setting opts "robust_kw" (PDict q d) -> unique_keys d -> kw_setting d "weight_function" (PStr "ols") ->
  identifiable c (map fst sm) -> NoDup (c_name c) -> c = with_options (c_opt c) c'.
Proof.
  intros AN AN' AG NA LC NO OLS' SK UD KS ID ND. assert (HU := an_keys _ _ _ _ _ _ _ _ AN). assert (HU' := an_keys _ _ _ _ _ _ _ _ AN').
  assert (HS := an_sorted _ _ _ _ _ _ _ _ AN).
  destruct (analysis_run _ _ _ _ _ _ _ _ AN) as (_ & si & la & s & B & xraw & m & W & BH & S1 & S2 & S3).
  destruct (analysis_run _ _ _ _ _ _ _ _ AN') as (_ & si' & la' & s' & B' & xraw' & m' & W' & BH' & S1' & S2' & S3').
  destruct (solve_opt _ _ _ _ _ _ _ (an_solve _ _ _ _ _ _ _ _ AN)) as (compat & sx & O1 & O2 & O3).
  destruct (solve_opt _ _ _ _ _ _ _ (an_solve _ _ _ _ _ _ _ _ AN')) as (compat' & sx' & O1' & O2' & O3').
  destruct (used_options opts (is2d v) (si_equi sx) HU compat _ O1 O3) as
      (_ & _ & Tw & Eq & _ & Cf & Lc & Nd & U1 & U2 & U3 & U4 & U5 & U6 & U7 & Wh & U8 & U8b & U9 & Ep & (i & V1 & V2) & Or & Nr).
  destruct (used_options opts' (is2d v) (si_equi sx') HU' compat' _ O1' O3') as
      (_ & _ & Tw' & Eq' & _ & Cf' & Lc' & Nd' & U1' & U2' & U3' & U4' & U5' & U6' & U7' & Wh' & U8' & U8b' & U9' & Ep' & (i' & V1' & V2') & Or' & Nr').
  assert (VV : forall k, In k all_but_method -> opt_value opts' k = opt_value opts k).
  { intros k Hk. eapply agree_val; eauto. clear - Hk. cbn in Hk |- *. intuition (subst; auto 20). }
  rewrite (VV "constit") in U1' by (cbn; auto 15). rewrite (VV "trend") in U2' by (cbn; auto 15). rewrite (VV "nodal") in U3', U4' by (cbn; auto 15).
  rewrite (VV "phase") in U5', U6' by (cbn; auto 15). rewrite (VV "Rayleigh_min") in U7' by (cbn; auto 15).
  rewrite (VV "epoch") in U9', Ep' by (cbn; auto 15). rewrite (VV "infer") in V1' by (cbn; auto 15). rewrite (VV "conf_int") in Cf', Lc', Nd', Or' by (cbn; auto 15).
  rewrite (VV "white") in Wh' by (cbn; auto 15). rewrite (VV "order_constit") in Or' by (cbn; auto 15). clear VV.
  assert (EI : o_infer (c_opt c') = o_infer (c_opt c)).
  { rewrite V1 in V1'. apply Ok_inj in V1'. subst i'. rewrite V2 in V2'. apply Ok_inj in V2'. now symmetry. }
  assert (ER : o_rmin (c_opt c') = o_rmin (c_opt c)) by (rewrite U7 in U7'; apply Ok_inj in U7'; congruence).
  assert (EO : o_ordercnstit (c_opt c') = o_ordercnstit (c_opt c)) by (rewrite Or in Or'; apply Ok_inj in Or'; congruence).
  assert (sx' = sx) by (rewrite Ep in O2; rewrite Ep', O2 in O2'; apply Ok_inj in O2'; congruence). subst sx'.
  assert (EC : c_opt c = set_meth (c_opt c') (o_method (c_opt c)) (o_robust_kw (c_opt c))).
  { apply set_meth_eq; try (symmetry; assumption); clear BH BH' AN AN' O1 O2 O3 O1' O2' O3'; congruence. }
  assert (si' = si).
  { assert (Q := bh_slv _ _ _ _ _ _ _ _ _ _ _ _ _ _ BH). assert (Q' := bh_slv _ _ _ _ _ _ _ _ _ _ _ _ _ _ BH'). rewrite U9', <- U9, Q in Q'. apply Ok_inj in Q'. congruence. }
  subst si'. assert (la' = la) by (assert (Q := bh_lat _ _ _ _ _ _ _ _ _ _ _ _ _ _ BH); assert (Q0 := bh_lat _ _ _ _ _ _ _ _ _ _ _ _ _ _ BH'); congruence). subst la'.
  assert (s' = s).
  { assert (X := bh_sel _ _ _ _ _ _ _ _ _ _ _ _ _ _ BH). assert (X' := bh_sel _ _ _ _ _ _ _ _ _ _ _ _ _ _ BH').
    rewrite EI, ER, U1', <- U1, X in X'. apply Ok_inj in X'. congruence. }
  subst s'.
  assert (LX : length B = length xraw) by (symmetry; exact (len_rows _ _ _ _ _ _ _ _ _ _ _ _ _ _ BH sm S1 S2)).
  assert (FE : B' = B /\ xraw' = xraw /\ m' = m /\ W' = W).
  { assert (X := bh_fit _ _ _ _ _ _ _ _ _ _ _ _ _ _ BH). assert (X' := bh_fit _ _ _ _ _ _ _ _ _ _ _ _ _ _ BH').
    unfold fit in X, X'. assert (BE : basis (si_t si) (si_tref si) (si_lor si) la (c_opt c') s = basis (si_t si) (si_tref si) (si_lor si) la (c_opt c) s).
    { unfold basis. assert (EF : flags_of (c_opt c') = flags_of (c_opt c)) by (unfold flags_of; congruence). rewrite EF, EI. replace (o_notrend (c_opt c')) with (o_notrend (c_opt c)) by congruence. reflexivity. }
    rewrite BE in X'. destruct (basis (si_t si) (si_tref si) (si_lor si) la (c_opt c) s) as [Bo|]; [|discriminate]. cbn [bind] in X, X'.
    destruct (finite_mat Bo) as [Bf|]; [|discriminate]. rewrite OLS' in X'. cbn [eq_str String.eqb Ascii.eqb Bool.eqb] in X'.
    assert (EM : eq_str (o_method (c_opt c)) "ols" = false).
    { destruct (o_method (c_opt c)) as [| | |x| | |]; try reflexivity. cbn. apply String.eqb_neq. congruence. }
    rewrite EM in X. inv_bind X. apply Ok_inj in X. rename a into r.
    destruct (l_lstsq L Bf (raw_data (si_u si) (si_v si)) PNone) as [[[[b rss] rk] sg]|] eqn:EL; [|discriminate]. cbn [bind] in X'. apply Ok_inj in X'.
    assert (Bf = B /\ raw_data (si_u si) (si_v si) = xraw /\ rf_b r = m /\ rf_w r = W) as (-> & E2 & E3 & E4) by (repeat split; congruence).
    assert (B' = B /\ xraw' = xraw /\ m' = b /\ W' = map (fun _ => Fin 1) (si_t si)) as (-> & -> & -> & ->) by (repeat split; congruence). rewrite E2 in *.
    assert (KW : o_robust_kw (c_opt c) = PDict q d) by (rewrite U8b; apply setting_val; auto; cbn; tauto). rewrite KW in Ha.
    destruct (kw_settings _ _ _ _ _ Ha) as (q' & d' & name & tune & rcond & tl & maxit & K1 & K2 & K3). injection K1 as <- <-.
    assert (name = "ols").
    { assert (N := rs_name _ _ _ _ _ _ K2). clear - N KS UD.
      assert (Q1 := setting_kget _ _ _ _ UD doc_wf one_wf N). assert (Q2 := setting_kget _ _ _ _ UD doc_wf one_wf KS). congruence. }
    subst name. destruct (ones_fit _ _ _ _ _ _ _ _ LX K3) as (F1 & ls & F2 & F3).
    split; [reflexivity|]. split; [reflexivity|].
    assert (Bb : best (sys B xraw) b).
    { intros k Hk. rewrite <- !norm2_sys. now apply (LC _ _ _ _ _ _ _ EL). }
    assert (Bm : best (sys B xraw) m) by (rewrite <- E3, F3; eapply ones_best; eauto).
    assert (Ll : length b = length m).
    { assert (N1 := bh_len _ _ _ _ _ _ _ _ _ _ _ _ _ _ BH). assert (N2 := bh_len _ _ _ _ _ _ _ _ _ _ _ _ _ _ BH'). rewrite N1, N2. unfold ncoef. replace (o_notrend (c_opt c')) with (o_notrend (c_opt c)) by congruence. reflexivity. }
    split.
    - symmetry. apply (best_unique (sys B xraw)); auto. rewrite (bh_len _ _ _ _ _ _ _ _ _ _ _ _ _ _ BH).
      assert (BH0 := BH). rewrite S2 in BH0. exact (own_independent _ _ _ _ _ _ _ _ _ _ _ _ _ _ BH0 HS NA S1 ID ND _ (eq_sym LX)).
    - rewrite <- E4, F1, S1, S2, !map_map. reflexivity. }
  destruct FE as (-> & -> & -> & ->).
  destruct (run_stages _ _ _ _ _ _ _ _ _ _ _ _ _ _ _ AN BH) as (c1 & c2 & G1 & G2 & G3).
  destruct (run_stages _ _ _ _ _ _ _ _ _ _ _ _ _ _ _ AN' BH') as (k1 & k2 & H1 & H2 & H3).
  assert (OP1 : c_opt k1 = c_opt c') by (rewrite (sb_opt _ _ (ci_stage_base _ _ _ _ _ _ _ _ _ _ H1)); reflexivity).
  assert (OP2 : c_opt k2 = c_opt c').
  { rewrite (sb_opt _ _ (diag_stage_base _ _ _ _ H2)). exact OP1. }
  rewrite EC, ci_meth, H1 in G1. cbn [with_options_in] in G1. apply Ok_inj in G1. subst c1.
  rewrite EC, (diag_meth _ _ _ _ _ OP1), H2 in G2. cbn [with_options_in] in G2. apply Ok_inj in G2. subst c2.
  rewrite <- EO, (order_meth _ _ _ _ _ _ OP2), H3 in G3. cbn [with_options_in] in G3. apply Ok_inj in G3. rewrite <- EC in G3. now symmetry.
Qed.

Lemma kept_all k (sm : list (R * C)) : k <> 0 -> kept sm (map (fun _ => k) sm) = sm.
Proof. intros H. induction sm as [|x sm IH]; [reflexivity|]. cbn [map]. rewrite kept_cons, IH. destruct (Req_EM_T k 0); [congruence|reflexivity]. Qed.
Lemma top_equal L t u v lat opts sm c k L' t' u' v' lat' opts' sm' c' :
  analysis L t u v lat opts sm c -> approximate (c_opt c) = false -> (forall rc, lstsq_contract L rc) -> o_method (c_opt c) <> PStr "ols" ->
  c_weights c = map (fun _ => Fin k) sm -> k <> 0 ->
  analysis L' t' u' v' lat' opts' sm' c' -> same_model c c' -> Permutation sm sm' ->
  lstsq_minimises L' -> o_method (c_opt c') = PStr "ols" -> identifiable c' (map fst sm') -> NoDup (c_name c') ->
  same_fit c c' \/
  (exists q d n X r, o_robust_kw (c_opt c) = PDict q d /\ kw_nat (kget d "maxit" (PNum 50)) = Ok n /\
     robustfit_kw L X (map snd sm) (PDict q d) = Ok r /\ c_weights c = rf_w r /\ rf_iterations r = n).
Proof.
  intros AN NA LC NO EW Hk AN' SM PS LM' O' ID ND. apply (top_kept L t u v lat opts sm c (map (fun _ => k) sm) k L' t' u' v' lat' opts' sm' c'); auto.
  - rewrite EW, map_map. reflexivity.
  - apply Forall_forall. intros a Ha. apply in_map_iff in Ha. destruct Ha as (_ & <- & _). now right.
  - now rewrite kept_all.
Qed.
