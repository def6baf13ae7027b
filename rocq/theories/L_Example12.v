(** The runs of solve with the data of L_Example11. *)
From Coq Require Import QArith Qreals Lia Lra Permutation Sorted.
From Coquelicot Require Import Coquelicot.
From Verif Require Import M_Base M_Lib M_Tables M_Const M_Options M_Time M_Slvinit M_Harmonics M_Select M_Ellipse
  M_Robust M_Period M_Conf M_Diag M_Solve M_Recon S_Dict S_Options S_Slv S_Order S_Basis S_Select S_Fit S_Ellipse S_Recon S_Model S_Errors S_Robust
  L_Base L_Options L_SolveInv L_OptSolve L_Slv L_Slv2 L_Tables L_Order L_Select L_Fit L_Align L_SelOrder L_Order2 L_Order3 L_Example L_Angle L_Core
  L_Ellipse L_Ellipse2 L_Robust L_Robust2 L_Robust3 L_Example3 L_Example4 L_Example5 L_Example7 L_Example11.
Open Scope R_scope.
Open Scope string_scope.

Notation x7 := (cos al).
Notation y7 := (sin al).
Notation L7 := (levelsL x7 y7).
Definition ext7 : list R := [0; 0; 0; 2; 2; 4; 4].
Definition t7 : pyarr tarray := NdArr [7%nat] (TNum (map Fin ext7)) [].
Definition u7 (K : R) : pyarr (list xr) := NdArr [7%nat] (map (fun z : C => Fin (fst z)) (data7 x7 K)) [].
Definition sm7 (K : R) : list (R * C) := combine ext7 (data7 x7 K).
Definition opts7 : dict pyval :=
  (("method", PStr "robust") :: ("robust_kw", kw7) :: ("conf_int", PStr "linear") :: ("order_constit", PStr "frequency") :: ("constit", PSeq [PStr "M2"]) :: base_opts)%list.

Lemma basis7g ks names arr o : o_nodsatnone o = true -> o_gwchnone o = true -> o_notrend o = true -> o_infer o = None -> forall lor,
  basis ext7 ex_tref lor 45 o (ex_sel ks names arr) = Ok (map (map Some) (map (ex_row ks) ext7)).
Proof.
  intros H1 H2 H3 H4 lor. unfold basis, bad_empty_index, flags_of. rewrite H3, H4. cbn [NodsatNone GwchNone]. rewrite H1, H2.
  cbn [andb negb bind]. rewrite andb_false_r. unfold ut_E. cbn [NodsatNone GwchNone andb].
  cbn [ex_sel s_NRfrq]. unfold ones, ext7. cbn [length repeat bcast map E_rows]. rewrite !E_row_raw.
  unfold ex_row, ex_e. cbn [map]. rewrite !map_app, !map_map. reflexivity.
Qed.
Lemma rows7 : map (ex_row [47%nat]) ext7 = B7 x7 y7.
Proof.
  unfold ex_row, ext7, B7, rw. cbn [map app]. rewrite !ex_e_val.
  replace ((0 - 2) / 2 * al) with (- al) by field. replace ((2 - 2) / 2 * al) with 0 by field. replace ((4 - 2) / 2 * al) with al by field.
  unfold cis. rewrite !cos_neg, !sin_neg, cos_0, sin_0. unfold Cconj. cbn [fst snd]. reflexivity.
Qed.
Lemma basis7 o : o_nodsatnone o = true -> o_gwchnone o = true -> o_notrend o = true -> o_infer o = None -> forall lor,
  basis ext7 ex_tref lor 45 o m2_sel = Ok (map (map Some) (B7 x7 y7)).
Proof. intros. unfold m2_sel. rewrite basis7g by assumption. now rewrite rows7. Qed.
Lemma slv7 K : exists si,
  slvinit (fun _ => None) t7 (u7 K) None (Some 45) (PStr "python") = Ok si /\
  si_t si = ext7 /\ si_tref si = ex_tref /\ raw_data (si_u si) (si_v si) = data7 x7 K /\ si_lor si = 4.
Proof.
  assert (P : ptp ext7 = Ok 4).
  { unfold ptp, ext7, rmax, rmin, fold_left. apply f_equal.
    rewrite !(Rmax_right 0 0), (Rmax_right 0 2), (Rmax_right 2 2), (Rmax_right 2 4), (Rmax_right 4 4), !(Rmin_left 0 0), !(Rmin_left 0 2), !(Rmin_left 0 4) by lra. lra. }
  unfold slvinit, u7, t7. 
  replace (check_args _ _ _ _) with (Ok tt : res unit) by reflexivity. cbn [bind].
  replace (normalize_time _ _ _) with (Ok (map Fin ext7)) by reflexivity. cbn [bind]. unfold slv_core.
  replace (clean _ _ _) with (ext7, ext7, map fst (data7 x7 K), @None (list R)) by reflexivity.
  assert (E : map RtoC (map fst (data7 x7 K)) = data7 x7 K) by reflexivity.
  destruct (equi_of ext7); rewrite P; cbn [bind]; eexists; (split; [reflexivity|]); cbn [si_t si_tref si_u si_v si_lor raw_data]; repeat split; exact E.
Qed.
Lemma samples7 K : samples (fun _ => None) (PStr "python") t7 (u7 K) None (sm7 K).
Proof.
  unfold u7, t7, sm7.
  assert (E : combine ext7 (data7 x7 K) = map (fun s => (fst s, RtoC (snd s))) (valid_scalar (map Fin ext7) (map (fun z : C => Fin (fst z)) (data7 x7 K)) [])) by reflexivity.
  rewrite E. apply scalar_samples; try reflexivity; split; auto.
Qed.

Lemma conf7 K o e tin t elor xmod xs : o_white o = true -> o_linci o = true -> o_infer o = None ->
  exists cis, confidence L7 o m2_sel tin t e elor (data7 x7 K) xmod (map Fin W7) (B7 x7 y7) 3 xs = Ok cis.
Proof.
  intros H1 H2 H3. unfold confidence. rewrite H1, H3. cbn [bind].
  destruct (gram7 x7 y7 cos_sin_one sin_al (wt 1 (1 / 3)) (wt 2 (1 / 3)) (wt 1 (1 / 2)) (wt 3 (1 / 2))) as [[X1 E1] [X2 E2]]; try apply wt_range.
  assert (G : exists g, gammas L7 (B7 x7 y7) 3 (map Fin W7) (data7 x7 K) xmod = Ok (Some g)).
  { unfold gammas. change (all_finite (map Fin W7)) with (Some W7). cbn [levelsL l_inv]. unfold W7. rewrite E1. cbn [bind]. rewrite E2. cbn [bind].
    destruct (Req_EM_T _ _) as [Z|_]; [exfalso; cbn in Z; lra|eauto]. }
  destruct G as [g ->]. cbn [bind].
  destruct (mapM_idx_ok (fun (k : nat) (x : cs) => conf_one L7 o (Some g) None (length xs) k (x_Xu x) (x_Yu x) (x_Xv x) (x_Yv x)
    (x_g x) (x_theta x)) xs) with (i := 0%nat) as [ys ->].
  - intros i x. unfold conf_one. rewrite H2. eauto.
  - cbn. eauto.
Qed.

Lemma run7 K : levels K -> exists k, analysis L7 t7 (u7 K) None (Some 45) opts7 (sm7 K) k /\
  o_twodim (c_opt k) = false /\ o_nodsatnone (c_opt k) = true /\ o_gwchnone (c_opt k) = true /\ o_notrend (c_opt k) = true /\ o_infer (c_opt k) = None /\
  c_reftime k = ex_tref /\ c_name k = ["M2"] /\ c_lind k = [47%nat] /\ c_weights k = map Fin W7 /\ c_mean k = Some K /\
  exists r, rows k = [r] /\ w_lind r = Some 47%nat /\ w_g r = Some (e_g (ellipse_of false (RtoC (1 / 2)) (RtoC (1 / 2)))) /\
    w_A r = Some (Some (e_maj (ellipse_of false (RtoC (1 / 2)) (RtoC (1 / 2))))).
Proof.
  intros HK. assert (Hu : unique_keys opts7) by unique_tac.
  destruct (slv7 K) as (si & S1 & S2 & S3 & S4 & S5).
  destruct (process_opts opts7 false) as [compat|] eqn:E; [|discriminate].
  assert (Ep : oget compat "epoch" = PStr "python") by (injection E as <-; reflexivity).
  destruct (read_opt (slv_opts false (si_equi si) compat)) as [o|] eqn:E2; [|injection E as <-; discriminate].
  destruct (used_options opts7 false (si_equi si) Hu compat o E E2) as
   (_ & _ & U1 & _ & _ & U2 & U3 & U4 & U5 & U6 & _ & U7 & _ & U8 & Ur & U9 & U10 & Uk & _ & _ & (inf & U11 & U12) & U13 & _).
  cbn in U2, U3, U4, U5, U6, U7, U8, Ur, U9, U10, U11, U13, Uk. injection U11 as <-. injection U12 as U12.
  assert (Or : o_ordercnstit o = PStr "frequency") by congruence. assert (In0 : o_infer o = None) by congruence.
  destruct (rob7 x7 y7 cos_sin_one sin_al K HK) as (r & K1 & K2 & K3).
  assert (F : fit L7 (si_t si) (si_u si) (si_v si) (si_tref si) (si_lor si) 45 o m2_sel = Ok (B7 x7 y7, data7 x7 K, half7 K, map Fin W7)).
  { unfold fit. rewrite S2, S3, basis7 by assumption. cbn [bind]. rewrite finite_some, U10, S4. cbn [eq_str String.eqb Ascii.eqb Bool.eqb].
    rewrite Uk. fold kw7. rewrite K1. cbn [bind]. now rewrite K2, K3. }
  assert (SE : ut_cnstitsel (si_tref si) (xdiv (Fin (o_rmin o)) (Fin (24 * si_lor si))) (o_cnstit o) (o_infer o) = Ok m2_sel).
  { rewrite U5, In0, S3. apply m2_select. }
  assert (SL := sel_lens_ok _ _ _ _ _ SE).
  set (core := coef_core (si_tref si) (si_lor si) 45 o m2_sel (half7 K) (map Fin W7)).
  assert (CS : exists cis, ci_stage L7 o m2_sel si 45 (B7 x7 y7) (data7 x7 K) (half7 K) (map Fin W7) = Ok (set_ci core (o_twodim o) cis)).
  { unfold ci_stage. rewrite U2. rewrite U6. cbn [s_nNR s_nR m2_sel ex_sel length Nat.add Nat.mul].
    edestruct (conf7 K o) as [cis ->]; [exact U9|exact U3|exact In0|]. cbn [bind]. eexists. reflexivity. }
  destruct CS as [cis C1].
  assert (A : aligned (set_ci core (o_twodim o) cis)).
  { refine (proj1 (ci_stage_aligned _ _ _ _ _ _ _ _ _ _ SL _ _ C1)); [cbn; lia|reflexivity]. }
  set (c1 := set_ci core (o_twodim o) cis) in *.
  destruct (diag_ok [] o c1 A) as (pe & sn & d & C2).
  { unfold energies, c1, core. cbn. rewrite U1. cbn. eauto. }
  { unfold noises, c1, core. cbn. rewrite U1. cbn. eauto. }
  rewrite U4 in C2. set (c2 := set_diag c1 _ _ _) in *.
  assert (SB2 : aligned c2). { refine (proj1 (diag_stage_aligned _ _ _ _ A C2)). }
  assert (Hi : forall i, In i (l_argsort L7 (map Fin (c_frq c2))) -> (i < length (c_name c2))%nat).
  { intros i H. apply (argsort_in []) in H. rewrite map_length in H. destruct SB2 as (Q & _). lia. }
  destruct (apply_order_ok c2 _ SB2 Hi) as [k Hk]. exists k.
  assert (C3 : reorder L7 c2 (o_ordercnstit o) = Ok k).
  { rewrite reorder_eq, Or. unfold order_stage. cbn [eq_str String.eqb Ascii.eqb Bool.eqb bind fst snd]. exact Hk. }
  assert (SV : solve L7 t7 (u7 K) None (Some 45) opts7 = Ok k).
  { rewrite <- Ep in S1. exact (solve_intro L7 t7 (u7 K) None 45 opts7 _ _ _ _ _ _ _ _ _ _ _ E S1 E2 SE F C1 C2 C3). }
  assert (SB := reorder_base _ _ _ _ C3). assert (SB1 := diag_stage_base _ _ _ _ C2). split.
  - constructor; auto.
    + apply levels_shape.
    + exact (ex_perm []).
    + intros x Hx'.
      assert (HD : In "order_constit" (keys documented)) by (cbn; auto 20).
      assert (Q := setting_val _ _ _ Hu HD Hx'). subst x. unfold sorted_order. cbn. auto.
    + exists (PStr "python"). split; [left; cbn; auto 20|]. apply samples7.
    + discriminate.
  - rewrite (sb_opt _ _ SB), (sb_reftime _ _ SB), (sb_weights _ _ SB), (sb_mean _ _ SB), (sb_opt _ _ SB1), (sb_reftime _ _ SB1), (sb_weights _ _ SB1), (sb_mean _ _ SB1).
    unfold c1, core. cbn [set_ci coef_core c_opt c_reftime c_weights c_mean].
    do 6 (split; [assumption|]).
    destruct (reorder_rows L7 _ _ _ (ex_perm []) SB2 (or_intror (or_intror Or)) C3) as [RP NP].
    assert (LL := apply_order_rows _ _ _ Hk). destruct LL as (_ & Ab & _). split; [|split; [|split; [reflexivity|split]]].
    + apply Permutation_length_1_inv. apply Permutation_sym. exact NP.
    + apply Permutation_length_1_inv. apply Permutation_sym. apply (perm_some _ _).
      rewrite <- (linds_rows k Ab). change [47%nat] with (c_lind c2). rewrite <- (linds_rows c2 SB2). now apply Permutation_map.
    + rewrite U1, U6. reflexivity.
    + exists (crow_of c2 0). split.
      * apply Permutation_length_1_inv. apply Permutation_sym. exact RP.
      * split; [reflexivity|]. split; [cbn [crow_of w_g c2 set_diag c1 set_ci core coef_core c_g]; now rewrite U1|].
        cbn [crow_of w_A c2 set_diag c1 set_ci core coef_core c_A]. rewrite U1. reflexivity.
Qed.
