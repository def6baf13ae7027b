(** Intervals of ordinary least squares when the data are scaled and a constant and a trend are added: whole analyses. *)
From Coq Require Import Lia Lra Permutation.
From Coquelicot Require Import Coquelicot.
From Verif Require Import M_Base M_Lib M_Options M_Time M_Slvinit M_Select M_Ellipse M_Conf M_Diag M_Solve M_Recon S_Dict S_Options S_Order S_Basis S_Fit S_Ellipse S_Recon S_Model S_Conf S_Errors S_RobustErr
  L_Base L_Options L_SolveInv L_OptSolve L_Slv L_Slv2 L_Select L_Fit L_Angle L_Ellipse L_Ellipse2 L_Core L_Lsq L_Model L_Model2 L_Model3 L_Model4 L_Model5 L_Model6 L_Model7 L_Model8 L_Model9 L_Model10 L_Model11 L_Model12 L_Model15 L_Conf L_Conf2 L_Conf3 L_Conf4 L_Errors3 L_Errors5 L_Errors6 L_SelOrder L_Affine.
Open Scope R_scope.
Open Scope string_scope.

Lemma no_infer L t u v lat opts sm c : analysis L t u v lat opts sm c -> setting opts "infer" PNone -> o_infer (c_opt c) = None.
Proof.
  intros AN IN. assert (HU := an_keys _ _ _ _ _ _ _ _ AN). apply setting_val in IN; try (exact HU || (cbn; tauto)).
  destruct (solve_opt _ _ _ _ _ _ _ (an_solve _ _ _ _ _ _ _ _ AN)) as (compat & sx & O1 & O2 & O3).
  destruct (used_options opts (is2d v) (si_equi sx) HU compat _ O1 O3) as
    (_ & _ & _ & _ & _ & _ & _ & _ & _ & _ & _ & _ & _ & _ & _ & _ & _ & _ & _ & _ & (inf & V1 & V2) & _).
  rewrite IN in V1. cbn [validate_infer] in V1. apply Ok_inj in V1. subst inf. cbn [read_infer] in V2. apply Ok_inj in V2. now symmetry.
Qed.
Lemma width_xs k x : width_scaled k (Some (Some x)) (Some (Some (xs k x))).
Proof. destruct x; reflexivity. Qed.

Lemma intervals_scaled L t u v u' v' lat opts sm c c' k be ga : 0 < k ->
  let sm' := map (fun x => (fst x, Cplus (Cplus (Cmult (RtoC k) (snd x)) be) (Cmult (RtoC (fst x - c_reftime c)) ga))) sm in
  analysis L t u v lat opts sm c -> analysis L t u' v' lat opts sm' c' -> is2d v = is2d v' ->
  lstsq_minimises L -> inv_exact L ->
  setting opts "method" (PStr "ols") -> setting opts "infer" PNone -> setting opts "conf_int" (PStr "linear") -> setting opts "white" (PBool true) ->
  (params c < length sm)%nat -> identifiable c (map fst sm) -> NoDup (c_name c) -> (o_notrend (c_opt c) = true -> ga = RtoC 0) ->
  forall r, In r (rows c) -> exists r', In r' (rows c') /\ row_like k eq r r' /\ widths_scaled k r r'.
Proof.
  intros K sm' AN AN' D2 LM IX ME IN CI WH PN ID ND Hga r Hr.
  assert (OLS := set_method _ _ _ _ _ _ (an_keys _ _ _ _ _ _ _ _ AN) _ (an_solve _ _ _ _ _ _ _ _ AN) _ ME).
  assert (NI := no_infer _ _ _ _ _ _ _ _ AN IN).
  assert (NA : approximate (c_opt c) = false) by (unfold approximate; now rewrite NI).
  destruct (top_scaled _ _ _ _ _ _ _ _ _ _ _ _ _ _ K AN AN' D2 NA LM OLS ID ND Hga) as (_ & RL & _).
  destruct (RL r Hr) as (r' & Hr' & RK). exists r'. split; [exact Hr'|]. split; [exact RK|].
  assert (exists i, w_lind r = Some i) as (i & Hl).
  { destruct (top_affine _ _ _ _ _ _ _ _ _ _ _ _ _ _ AN AN' D2 NA LM OLS ID ND (fun _ => eq_refl) Hga) as (_ & _ & _ & _ & _ & W & _).
    unfold rows in Hr. apply in_map_iff in Hr. destruct Hr as (j & <- & Hj). cbn [crow_of w_lind]. apply in_seq in Hj.
    destruct (wf_aligned _ W) as (_ & A & _). destruct (nth_error (c_lind c) j) eqn:E; [eauto|]. apply nth_error_None in E. lia. }
  assert (Hl' : w_lind r' = Some i) by (destruct RK as (_ & RK & _); congruence).
  destruct (two _ _ _ _ _ _ _ _ _ _ _ _ _ _ AN AN' D2 NA LM OLS ID ND Hga) as (E1 & E2 & E3 & PL & Pn).
  assert (PN' : (params c' < length sm')%nat) by (unfold sm', params in *; rewrite map_length, E1, (Permutation_length Pn); exact PN).
  destruct (run_intervals _ _ _ _ _ _ _ _ AN LM IX ME IN CI WH PN r i Hr Hl) as (wX & wY & qu & qv & BX & BY & NU & NV & _ & _ & H).
  destruct (run_intervals _ _ _ _ _ _ _ _ AN' LM IX ME IN CI WH PN' r' i Hr' Hl') as (wX' & wY' & qu' & qv' & BX' & BY' & NU' & NV' & _ & _ & H').
  assert (F1 : forall x z, fst (Cmult (RtoC x) z) = x * fst z) by (intros ? []; cbn; ring).
  assert (F2 : forall x z, snd (Cmult (RtoC x) z) = x * snd z) by (intros ? []; cbn; ring).
  assert (G1 : forall x y, fst (Cplus x y) = fst x + fst y) by reflexivity. assert (G2 : forall x y, snd (Cplus x y) = snd x + snd y) by reflexivity.
  assert (wX' = wX) as -> by (eapply best_unique; [exact BX'|]; eapply two_best; eauto).
  assert (wY' = wY) as -> by (eapply best_unique; [exact BY'|]; eapply two_best; eauto).
  assert (qu' = k * k * qu) as -> by (eapply noise_unique; [exact NU'|]; eapply two_noise; eauto).
  assert (qv' = k * k * qv) as -> by (eapply noise_unique; [exact NV'|]; eapply two_noise; eauto).
  unfold sm' in H'.
  rewrite (two_estimate sm c k be ga Hga fst i true wX), (two_estimate sm c k be ga Hga fst i false wY),
    (two_estimate sm c k be ga Hga snd i true wX), (two_estimate sm c k be ga Hga snd i false wY) in H' by (auto; apply BX || apply BY).
  assert (T := rows_Lsmaj c r ltac:(eapply analysis_wf; eassumption) Hr).
  rewrite E1 in H'. clear - K H H' T.
  assert (V : forall x q, Fin (x * (k * k * q)) = xs (k * k) (Fin (x * q))) by (intros; cbn; f_equal; ring). rewrite !V in H'.
  unfold widths_scaled. destruct (o_twodim (c_opt c)).
  - cbv zeta in H, H'. destruct H as (HM & _ & _ & _ & H1 & H2 & H3 & H4), H' as (_ & _ & _ & _ & H1' & H2' & H3' & H4').
    assert (Q := linear2_homog k (estimate fst wX sm) (estimate fst wY sm) (estimate snd wX sm) (estimate snd wY sm)
      (Fin (squares wX * qu)) (Fin (squares wY * qu)) (Fin (squares wX * qv)) (Fin (squares wY * qv)) None K).
    cbn [option_map] in Q. destruct Q as (Q1 & Q2 & Q3 & Q4).
    rewrite Q1 in H1'. rewrite Q2 in H2'. rewrite Q3 in H3'. rewrite Q4 in H4'.
    rewrite HM, H1, H1', H2, H2', H3, H3', H4, H4'. repeat split; apply width_xs.
  - rewrite (proj2 T eq_refl). cbv zeta in H, H'. destruct H as (_ & _ & H1 & H4), H' as (_ & _ & H1' & H4').
    assert (Q := linear1_homog k (estimate fst wX sm) (estimate fst wY sm) (Fin (squares wX * qu)) (Fin (squares wY * qu)) None K).
    cbn [option_map] in Q. destruct Q as (Q1 & Q2 & Q3 & Q4).
    rewrite Q1 in H1'. rewrite Q4 in H4'. rewrite H1, H1', H4, H4'. split; [reflexivity|apply width_xs].
Qed.
