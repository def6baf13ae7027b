(** Scaling, shifting and negating the data. *)
From Coq Require Import Lia Lra Permutation.
From Verif Require Import M_Base M_Bunch M_Lib M_Tables M_Const M_Options M_Time M_Slvinit M_Harmonics M_Select M_Ellipse
  M_Robust M_Period M_Conf M_Diag M_Solve M_Recon S_Dict S_Options S_Order S_Basis S_Select S_Fit S_Ellipse S_Slv S_Recon S_Model
  L_Base L_Options L_SolveInv L_OptSolve L_Slv L_Slv2 L_Order L_Select L_Fit L_Align L_SelOrder L_Basis L_Angle L_Ellipse L_Recon L_Recon2 L_Recon3 L_Core
  L_Ellipse2 L_Model L_Lsq L_Model2 L_Model3 L_Model4 L_Model5 L_Model6 L_Model7 L_Model8 L_Model9 L_Model10 L_Model11 L_Model12.
Open Scope R_scope.
Open Scope string_scope.

Lemma triples_names c : well_formed c -> map (fun x => fst (fst x)) (triples c) = c_name c.
Proof.
  intros W. rewrite <- (map_map fst fst), triples_fst by assumption.
  apply combine_fst. assert (A := wf_aligned _ W). destruct A as (_ & A & _). now rewrite A.
Qed.

Lemma top_linear L t u v u' v' lat opts sm c c' al be ga :
  let sm' := map (fun x => (fst x, Cplus (Cplus (Cmult al (snd x)) be) (Cmult (RtoC (fst x - c_reftime c)) ga))) sm in
  analysis L t u v lat opts sm c -> analysis L t u' v' lat opts sm' c' -> is2d v = is2d v' ->
  approximate (c_opt c) = false -> lstsq_minimises L -> o_method (c_opt c) = PStr "ols" ->
  identifiable c (map fst sm) -> NoDup (c_name c) ->
  (o_twodim (c_opt c) = false -> snd al = 0) -> (o_notrend (c_opt c) = true -> ga = RtoC 0) ->
  Permutation (c_name c') (c_name c) /\
  (forall r, In r (rows c) -> exists r', In r' (rows c') /\ w_name r' = w_name r /\ w_lind r' = w_lind r /\ multiple al al r' r) /\
  (forall z, mean_is c z -> mean_is c' (Cplus (Cmult al z) be)) /\
  (o_notrend (c_opt c) = false -> forall z, slope_is c z -> slope_is c' (Cplus (Cmult al z) ga)).
Proof.
  intros sm' AN AN' D2 NA LM OLS ID ND Hal Hga.
  destruct (top_affine _ _ _ _ _ _ _ _ _ _ _ _ _ _ AN AN' D2 NA LM OLS ID ND Hal Hga) as (E1 & E2 & P & E3 & E4 & W & W').
  split.
  { apply (Permutation_map (fun x => fst (fst x))) in P. rewrite triples_names in P by assumption. rewrite map_map in P. cbn [turned fst] in P.
    now rewrite triples_names in P. }
  split.
  { intros r Hr. destruct (rows_turned al c c' r W W' P Hr) as (r' & p & q & R1 & R2 & R3 & R4 & R5). exists r'. repeat split; auto. exists p, q. auto. }
  split.
  { intros z Hz. apply mnC_mean; auto. rewrite E1, E3. apply (mean_mnC _ _ W) in Hz. rewrite <- Hz. now apply vis1_affine. }
  intros Hn z Hz. apply slC_slope; auto; [now rewrite E1|]. rewrite E1, (E4 Hn). apply (slope_slC _ _ W) in Hz. rewrite <- Hz. now apply vis1_affine.
Qed.

Lemma analysis_wf L t u v lat opts sm c : analysis L t u v lat opts sm c -> well_formed c.
Proof. intros AN. destruct (analysis_run _ _ _ _ _ _ _ _ AN) as (_ & si & la & s & B & xraw & m & W & BH & _). apply BH. Qed.

Lemma top_scaled L t u v u' v' lat opts sm c c' k be ga : 0 < k ->
  let sm' := map (fun x => (fst x, Cplus (Cplus (Cmult (RtoC k) (snd x)) be) (Cmult (RtoC (fst x - c_reftime c)) ga))) sm in
  analysis L t u v lat opts sm c -> analysis L t u' v' lat opts sm' c' -> is2d v = is2d v' ->
  approximate (c_opt c) = false -> lstsq_minimises L -> o_method (c_opt c) = PStr "ols" ->
  identifiable c (map fst sm) -> NoDup (c_name c) -> (o_notrend (c_opt c) = true -> ga = RtoC 0) ->
  Permutation (c_name c') (c_name c) /\
  (forall r, In r (rows c) -> exists r', In r' (rows c') /\ row_like k eq r r') /\
  (forall z, mean_is c z -> mean_is c' (Cplus (Cmult (RtoC k) z) be)) /\
  (o_notrend (c_opt c) = false -> forall z, slope_is c z -> slope_is c' (Cplus (Cmult (RtoC k) z) ga)).
Proof.
  intros Hk sm' AN AN' D2 NA LM OLS ID ND Hga.
  destruct (top_linear _ _ _ _ _ _ _ _ _ _ _ _ _ _ AN AN' D2 NA LM OLS ID ND (fun _ => eq_refl) Hga) as (P & Rw & M & S).
  split; auto. split; auto. intros r Hr. destruct (Rw r Hr) as (r' & R1 & R2 & R3 & p & q & R4 & R5). exists r'. split; auto.
  destruct (top_affine _ _ _ _ _ _ _ _ _ _ _ _ _ _ AN AN' D2 NA LM OLS ID ND (fun _ => eq_refl) Hga) as (E1 & _ & _ & _ & _ & W & W').
  eapply row_scaled; eauto; try (eapply solve_ranges; [|eassumption]; [eapply an_solve; eauto]).
  rewrite (rows_Lsmaj c r W Hr), (rows_Lsmaj c' r' W' R1), E1. tauto.
Qed.

Lemma top_negated L t u v u' v' lat opts sm c c' :
  let sm' := map (fun x => (fst x, Copp (snd x))) sm in
  analysis L t u v lat opts sm c -> analysis L t u' v' lat opts sm' c' -> is2d v = is2d v' ->
  approximate (c_opt c) = false -> lstsq_minimises L -> o_method (c_opt c) = PStr "ols" ->
  identifiable c (map fst sm) -> NoDup (c_name c) ->
  Permutation (c_name c') (c_name c) /\
  (forall r, In r (rows c) -> exists r', In r' (rows c') /\ row_like 1 opposite r r') /\
  (forall z, mean_is c z -> mean_is c' (Copp z)) /\
  (o_notrend (c_opt c) = false -> forall z, slope_is c z -> slope_is c' (Copp z)).
Proof.
  intros sm' AN AN' D2 NA LM OLS ID ND.
  assert (E : sm' = map (fun x => (fst x, Cplus (Cplus (Cmult (RtoC (-1)) (snd x)) (RtoC 0)) (Cmult (RtoC (fst x - c_reftime c)) (RtoC 0)))) sm).
  { unfold sm'. apply map_ext. intros x. f_equal. apply C_eq; cbn; ring. }
  rewrite E in AN'. assert (Z : forall z, Cplus (Cmult (RtoC (-1)) z) (RtoC 0) = Copp z) by (intros; apply C_eq; cbn; ring).
  destruct (top_linear _ _ _ _ _ _ _ _ _ _ _ _ _ _ AN AN' D2 NA LM OLS ID ND (fun _ => eq_refl) (fun _ => eq_refl)) as (P & Rw & M & S).
  split; auto. split.
  2: { split; [intros z Hz; specialize (M z Hz); now rewrite Z in M|intros Hn z Hz; specialize (S Hn z Hz); now rewrite Z in S]. }
  intros r Hr. destruct (Rw r Hr) as (r' & R1 & R2 & R3 & p & q & R4 & R5). exists r'. split; auto.
  destruct (top_affine _ _ _ _ _ _ _ _ _ _ _ _ _ _ AN AN' D2 NA LM OLS ID ND (fun _ => eq_refl) (fun _ => eq_refl)) as (E1 & _ & _ & _ & _ & W & W').
  eapply row_opposite; eauto; try (eapply solve_ranges; [|eassumption]; [eapply an_solve; eauto]).
  rewrite (rows_Lsmaj c r W Hr), (rows_Lsmaj c' r' W' R1), E1. tauto.
Qed.
