(** Results of solve are well formed; consequences for the reconstruction. *)
From Coq Require Import Lia Lra Permutation.
From Verif Require Import M_Base M_Lib M_Tables M_Const M_Options M_Time M_Slvinit M_Harmonics M_Select M_Ellipse
  M_Robust M_Period M_Conf M_Diag M_Solve M_Recon S_Dict S_Options L_Base L_Options L_SolveInv L_OptSolve S_Slv L_Slv L_Slv2
  L_Tables S_Order L_Order S_Select L_Select S_Fit L_Fit L_Align L_SelOrder L_Order2 L_Order3 L_Order4 S_Basis L_Basis S_Recon L_Recon.
Open Scope R_scope.

Lemma sel_frq_lin tref mr inc inf s : ut_cnstitsel tref mr inc inf = Ok s ->
  s_frq s = map (fun i => nth i (linearized_freqs tref) 0) (s_lind s).
Proof.
  destruct inf as [inf|]; intros H.
  - apply sel_infer in H. apply (sl_al _ _ _ _ _ H).
  - apply sel_none in H. destruct H as (_ & A & _ & _ & -> & -> & _). apply A.
Qed.

Record keys_ok (c : coef) : Prop := {
  k_2d : o_twodim (c_opt c) = true ->
    present (c_Lsmaj c) /\ present (c_Lsmin c) /\ present (c_theta c) /\ present (c_umean c) /\ present (c_vmean c) /\
    (o_notrend (c_opt c) = false -> present (c_uslope c) /\ present (c_vslope c)) /\
    (o_nodiagn (c_opt c) = false -> present (c_Lsmaj_ci c) /\ present (c_Lsmin_ci c));
  k_1d : o_twodim (c_opt c) = false ->
    c_Lsmaj c = None /\ present (c_A c) /\ present (c_mean c) /\
    (o_notrend (c_opt c) = false -> present (c_slope c)) /\
    (o_nodiagn (c_opt c) = false -> present (c_A_ci c)) }.

Lemma present_some {A} (x : A) : present (Some x). Proof. now exists x. Qed.
#[global] Hint Resolve present_some : lens.

Lemma noises_2d c N maj : c_Lsmaj c = Some maj -> noises c = Ok N -> present (c_Lsmaj_ci c) /\ present (c_Lsmin_ci c).
Proof.
  unfold noises. intros ->. intros H. inv_bind H. inv_bind H. destruct (c_Lsmaj_ci c); [|discriminate].
  destruct (c_Lsmin_ci c); [|discriminate]. auto with lens.
Qed.
Lemma noises_1d c N : c_Lsmaj c = None -> noises c = Ok N -> present (c_A_ci c).
Proof. unfold noises. intros ->. intros H. inv_bind H. destruct (c_A_ci c); [|discriminate]. auto with lens. Qed.

Lemma natural_keys L t u v lat opts cN : natural L t u v lat opts cN -> keys_ok cN.
Proof.
  intros [(compat & si & la & s & B & xraw & m & W & c1 & P1 & P2 & -> & P4 & P5 & P6 & P7 & P8)].
  assert (B1 := ci_stage_base _ _ _ _ _ _ _ _ _ _ P7). assert (B2 := diag_stage_base _ _ _ _ P8).
  assert (K : c_Lsmaj c1 = c_Lsmaj (coef_core (si_tref si) (si_lor si) la (c_opt cN) s m W) /\
    c_Lsmin c1 = c_Lsmin (coef_core (si_tref si) (si_lor si) la (c_opt cN) s m W) /\
    c_theta c1 = c_theta (coef_core (si_tref si) (si_lor si) la (c_opt cN) s m W) /\
    c_A c1 = c_A (coef_core (si_tref si) (si_lor si) la (c_opt cN) s m W)).
  { unfold ci_stage in P7. destruct (o_conf_int (c_opt cN)); [inv_bind P7|]; apply Ok_inj in P7; subst c1; repeat split. }
  assert (D : c_Lsmaj cN = c_Lsmaj c1 /\ c_Lsmin cN = c_Lsmin c1 /\ c_theta cN = c_theta c1 /\ c_A cN = c_A c1 /\
    c_Lsmaj_ci cN = c_Lsmaj_ci c1 /\ c_Lsmin_ci cN = c_Lsmin_ci c1 /\ c_A_ci cN = c_A_ci c1 /\
    (o_nodiagn (c_opt cN) = false -> exists N, noises c1 = Ok N)).
  { unfold diag_stage in P8. destruct (o_nodiagn (c_opt cN)) eqn:E.
    - apply Ok_inj in P8. subst c1. do 7 (split; [reflexivity|]). discriminate.
    - inv_bind P8. inv_bind P8. inv_bind P8. apply Ok_inj in P8. rewrite <- P8 in *. clear P8. do 7 (split; [reflexivity|]). intros _.
      unfold SNR_of in Ha1. inv_bind Ha1. inv_bind Ha1. eauto. }
  destruct K as (K1 & K2 & K3 & K4). destruct D as (D1 & D2 & D3 & D4 & D5 & D6 & D7 & D8).
  destruct B1, B2. constructor; intros T.
  - assert (X : c_Lsmaj cN = Some (map e_maj (map (fun p => ellipse_of true (fst p) (snd p)) (all_pm m s)))).
    { rewrite D1, K1. unfold coef_core. cbn [c_Lsmaj]. now rewrite T. }
    split; [rewrite X; auto with lens|]. split; [rewrite D2, K2; cbn; rewrite T; cbn; auto with lens|].
    split; [rewrite D3, K3; cbn; rewrite T; cbn; auto with lens|].
    split; [rewrite sb_umean0, sb_umean; cbn; rewrite T; cbn; auto with lens|].
    split; [rewrite sb_vmean0, sb_vmean; cbn; rewrite T; cbn; auto with lens|]. split.
    + intros Z. rewrite sb_uslope0, sb_uslope, sb_vslope0, sb_vslope. cbn. rewrite T, Z. cbn. auto with lens.
    + intros Z. destruct (D8 Z) as [N HN]. rewrite D5, D6. rewrite D1 in X. eapply noises_2d; eauto.
  - assert (X : c_Lsmaj cN = None).
    { rewrite D1, K1. unfold coef_core. cbn [c_Lsmaj]. now rewrite T. }
    split; auto. split; [rewrite D4, K4; cbn; rewrite T; cbn; auto with lens|].
    split; [rewrite sb_mean0, sb_mean; cbn; rewrite T; cbn; auto with lens|]. split.
    + intros Z. rewrite sb_slope0, sb_slope. cbn. rewrite T, Z. cbn. auto with lens.
    + intros Z. destruct (D8 Z) as [N HN]. rewrite D7. rewrite D1 in X. eapply noises_1d; eauto.
Qed.

Lemma take_opt_present {A} (o : option (list A)) ind r : take_opt o ind = Ok r -> present o -> present r.
Proof. intros H [l ->]. cbn in H. inv_bind H. injection H as <-. auto with lens. Qed.
Lemma take_opt_none {A} (o : option (list A)) ind r : take_opt o ind = Ok r -> o = None -> r = None.
Proof. intros H ->. now injection H as <-. Qed.

Lemma apply_order_keys c ind b : apply_order c ind = Ok b -> keys_ok c -> keys_ok b.
Proof.
  unfold apply_order. intros H K. do 15 inv_bind H. apply Ok_inj in H. subst b. destruct K as [K2 K1].
  constructor; cbn; intros T.
  - destruct (K2 T) as (X1 & X2 & X3 & X4 & X5 & X6 & X7). do 6 (split; [eauto using take_opt_present|]).
    intros Z. destruct (X7 Z). eauto using take_opt_present.
  - destruct (K1 T) as (X1 & X2 & X3 & X4 & X5). do 4 (split; [eauto using take_opt_present, take_opt_none|]).
    intros Z. eauto using take_opt_present.
Qed.
Lemma reorder_keys L c x b : reorder L c x = Ok b -> keys_ok c -> keys_ok b.
Proof.
  intros H K. destruct (reorder_inv _ _ _ _ H) as (c' & ind & H1 & H2 & H3). apply apply_order_keys in H2; auto.
  destruct H3 as [-> |(_ & _ & pe & _ & ->)]; auto. destruct K as [K2 K1]. constructor; cbn; auto.
Qed.

Lemma reorder_frq L c x b tref : reorder L c x = Ok b -> length (c_frq c) = length (c_lind c) ->
  c_frq c = map (fun i => nth i (linearized_freqs tref) 0) (c_lind c) ->
  c_frq b = map (fun i => nth i (linearized_freqs tref) 0) (c_lind b).
Proof.
  intros H L0 E. destruct (reorder_inv _ _ _ _ H) as (c' & ind & H1 & H2 & _).
  destruct (order_stage_rows _ _ _ _ _ H1) as (R1 & _). destruct (apply_order_rows _ _ _ H2) as (N & A & D & _).
  destruct A as (A1 & A2 & _). rewrite N in *. apply nth_ext with 0 0; [rewrite map_length; congruence|]. intros j Hj. rewrite A1 in Hj.
  destruct (nth_error_some ind j Hj) as [i Hi]. specialize (D j i Hi).
  assert (E1 := f_equal (fun q => w_frq (fst (fst q))) D). assert (E2 := f_equal (fun q => w_lind (fst (fst q))) D).
  cbn [drow_of fst] in E1, E2. rewrite R1 in E1, E2. cbn [crow_of w_frq w_lind] in E1, E2.
  rewrite E, nth_error_map in E1.
  assert (Hl : exists k, nth_error (c_lind b) j = Some k) by (apply nth_error_some; lia). destruct Hl as [k Hk].
  rewrite <- E2, Hk in E1. cbn [option_map] in E1. rewrite (nth_error_nth _ _ _ E1).
  symmetry. apply nth_error_nth. rewrite nth_error_map, Hk. reflexivity.
Qed.

Theorem solve_well_formed L t u v lat opts c : lstsq_shape L -> arrays_ok t u v -> unique_keys opts ->
  solve L t u v lat opts = Ok c -> c_weights c <> [] -> well_formed c.
Proof.
  intros HL Ha Hu Hc HW. destruct (solve_ran _ _ _ _ _ _ _ HL Ha Hu Hc HW) as (cN & si & s & Rn).
  assert (K := natural_keys _ _ _ _ _ _ _ (rn_nat _ _ _ _ _ _ _ _ _ _ Rn)).
  assert (Ho := rn_ord _ _ _ _ _ _ _ _ _ _ Rn). assert (K' := reorder_keys _ _ _ _ Ho K). destruct K'.
  destruct (reorder_inv _ _ _ _ Ho) as (c' & ind & H1 & H2 & _). destruct (apply_order_rows _ _ _ H2) as (_ & A & _).
  constructor; auto. apply (reorder_frq _ _ _ _ _ Ho).
  - destruct (rn_al _ _ _ _ _ _ _ _ _ _ Rn) as (A1 & A2 & _). congruence.
  - assert (E : c_reftime c = si_tref si).
    { rewrite (sb_reftime _ _ (reorder_base _ _ _ _ Ho)).
      destruct (rn_nat _ _ _ _ _ _ _ _ _ _ Rn) as [(compat & si' & la & s' & B & xraw & m & W & c1 & P1 & P2 & -> & P4 & P5 & P6 & P7 & P8)].
      rewrite (sb_reftime _ _ (diag_stage_base _ _ _ _ P8)), (sb_reftime _ _ (ci_stage_base _ _ _ _ _ _ _ _ _ _ P7)). cbn.
      assert (Hsi := rn_si _ _ _ _ _ _ _ _ _ _ Rn).
      assert (Hep : oget compat "epoch" = opt_value opts "epoch").
      { destruct (used_options opts (is2d v) (si_equi si') Hu compat _ P1 P4) as
          (_ & _ & _ & _ & _ & _ & _ & _ & _ & _ & _ & _ & _ & _ & _ & _ & _ & _ & _ & Ep2 & _). exact Ep2. }
      rewrite Hep, Hsi in P2. apply Ok_inj in P2. now subst. }
    rewrite E, (rn_frq _ _ _ _ _ _ _ _ _ _ Rn), (rn_lind _ _ _ _ _ _ _ _ _ _ Rn).
    eapply sel_frq_lin. apply Rn.
Qed.
