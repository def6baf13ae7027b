(** The runs of L_Example12 with coloured noise. *)
From Coq Require Import QArith Qreals Lia Lra Permutation Sorted.
From Coquelicot Require Import Coquelicot.
From Verif Require Import M_Base M_Lib M_Tables M_Const M_Options M_Time M_Slvinit M_Harmonics M_Select M_Ellipse
  M_Robust M_Period M_Conf M_Diag M_Solve M_Recon S_Dict S_Options S_Slv S_Order S_Basis S_Select S_Fit S_Ellipse S_Recon S_Model S_Errors S_Robust S_Period S_RobustErr
  L_Base L_Options L_SolveInv L_OptSolve L_Slv L_Slv2 L_Tables L_Order L_Select L_Fit L_Align L_SelOrder L_Order2 L_Order3 L_Example L_Angle L_Core
  L_Ellipse L_Ellipse2 L_Robust L_Robust2 L_Robust3 L_Example3 L_Example4 L_Example5 L_Example7 L_Example11 L_Example12 L_Period L_Period4.
Open Scope R_scope.
Open Scope string_scope.

Definition copts7 : dict pyval :=
  [("method", PStr "robust"); ("robust_kw", kw7); ("conf_int", PStr "linear"); ("order_constit", PStr "frequency"); ("constit", PSeq [PStr "M2"]);
   ("nodal", PBool false); ("phase", PStr "raw"); ("trend", PBool false); ("white", PBool false); ("epoch", PStr "python")].

Lemma uneven7 : equi_of ext7 = false.
Proof.
  unfold equi_of. set (l := uniqueR (diffs ext7)).
  assert (E : l = [0 - 0; 4 - 2] \/ l = [4 - 4] \/ True) by tauto.
  assert (I : forall x, In x l <-> x = 0 \/ x = 2).
  { intros x. unfold l, uniqueR. rewrite nodup_In. unfold ext7, diffs. cbn. split; [intuition lra|]. intros [-> | ->]; [left; lra|right; right; left; lra]. }
  assert (N : NoDup l) by apply NoDup_nodup. clearbody l. clear E.
  assert (V : var l = Some 1).
  { destruct l as [|a l]; [destruct (proj2 (I 0) (or_introl eq_refl))|]. destruct l as [|b l].
    { destruct (proj2 (I 0) (or_introl eq_refl)) as [->|[]]. destruct (proj2 (I 2) (or_intror eq_refl)) as [Z|[]]; lra. }
    destruct l as [|d l].
    2: { exfalso. inversion N as [|? ? N1 N2]; subst. inversion N2 as [|? ? N3 N4]; subst.
         assert (A := proj1 (I a) (or_introl eq_refl)). assert (B := proj1 (I b) (or_intror (or_introl eq_refl))). assert (D := proj1 (I d) (or_intror (or_intror (or_introl eq_refl)))).
         cbn in N1, N3. intuition lra. }
    inversion N as [|? ? N1 N2]; subst. assert (A := proj1 (I a) (or_introl eq_refl)). assert (B := proj1 (I b) (or_intror (or_introl eq_refl))). cbn in N1.
    unfold var, mean, rsum. cbn. destruct A as [-> | ->], B as [-> | ->]; try (exfalso; apply N1; left; reflexivity); f_equal; field. }
  rewrite V. destruct (Rlt_dec 1 eps) as [Z|_]; [|reflexivity]. exfalso. unfold eps in Z.
  assert (1 < 2 ^ 52) by (apply (Rlt_le_trans _ (2 ^ 1)); [lra|apply Rle_pow; [lra|lia]]).
  assert (/ 2 ^ 52 < / 1) by (apply Rinv_lt_contravar; lra). lra.
Qed.

Lemma grid7 : lomb_freqs (map (fun x => x * 24) (trim_even ext7)) freq_bands 500 <> [].
Proof.
  unfold lomb_freqs. set (f := map _ (seq 1 _)).
  assert (F : f = [10 / 1152; 20 / 1152]).
  { unfold f. change (trim_even ext7) with [0; 0; 0; 2; 2; 4]. change (length (map (fun x => x * 24) [0; 0; 0; 2; 2; 4])) with 6%nat.
    change (6 / 2 - 1)%nat with 2%nat. cbn [seq map hd last]. change (6 - 1)%nat with 5%nat. rewrite !INR_IZR_INZ. cbn [Z.of_nat Pos.of_succ_nat Pos.succ].
    repeat (apply f_equal2; [field|]). reflexivity. }
  rewrite F. clearbody f. clear f F.
  assert (FB : exists l, freq_bands = (10 / 10 ^ 5, 417 / 10 ^ 5) :: l) by (eexists; reflexivity). destruct FB as [l ->]. cbn [flat_map fst snd].
  assert (S0 : searchsorted [10 / 1152; 20 / 1152] (10 / 10 ^ 5) = 0%nat).
  { unfold searchsorted. cbn [filter]. destruct (Rlt_dec _ _) as [Z|_]; [lra|]. destruct (Rlt_dec _ _) as [Z|_]; [lra|]. reflexivity. }
  assert (S1 : searchsorted [10 / 1152; 20 / 1152] (417 / 10 ^ 5) = 0%nat).
  { unfold searchsorted. cbn [filter]. destruct (Rlt_dec _ _) as [Z|_]; [lra|]. destruct (Rlt_dec _ _) as [Z|_]; [lra|]. reflexivity. }
  rewrite S0, S1. change (Nat.min (length [10 / 1152; 20 / 1152]) (0 + 1) - 0)%nat with 1%nat. change (Nat.ltb 500 1) with false. cbv iota.
  unfold slice. cbn [Nat.add Nat.min Nat.sub length firstn skipn app]. discriminate.
Qed.

Lemma band7 eu frq : length eu = 7%nat -> exists p, band_psd L7 ext7 eu None frq false = Ok p.
Proof.
  intros Hl. unfold band_psd. change (Nat.ltb (length (trim_even ext7)) 2) with false. cbv iota. cbn [option_map].
  assert (G := grid7). assert (S := lomb_sorted (map (fun x => x * 24) (trim_even ext7)) ltac:(cbn; lra)).
  generalize dependent (lomb_freqs (map (fun x => x * 24) (trim_even ext7)) freq_bands 500). intros grid G S.
  unfold psd_lomb. cbn [option_map]. cbv zeta.
  match goal with |- exists p, bind (fbndavg ?P _ _ _) _ = _ => destruct (fbndavg_near P grid frq freq_bands G S) as (lv & E & _) end.
  { rewrite map_length. cbn [levelsL l_lomb]. rewrite !map_length. reflexivity. }
  rewrite E. cbn [bind]. eexists. reflexivity.
Qed.
Lemma cslv7 K : exists si,
  slvinit (fun _ => None) t7 (u7 K) None (Some 45) (PStr "python") = Ok si /\
  si_t si = ext7 /\ si_tref si = ex_tref /\ raw_data (si_u si) (si_v si) = data7 x7 K /\ si_lor si = 4 /\ si_equi si = false.
Proof.
  assert (P : ptp ext7 = Ok 4).
  { unfold ptp, ext7, rmax, rmin, fold_left. apply f_equal.
    rewrite !(Rmax_right 0 0), (Rmax_right 0 2), (Rmax_right 2 2), (Rmax_right 2 4), (Rmax_right 4 4), !(Rmin_left 0 0), !(Rmin_left 0 2), !(Rmin_left 0 4) by lra. lra. }
  unfold slvinit, u7, t7. 
  replace (check_args _ _ _ _) with (Ok tt : res unit) by reflexivity. cbn [bind].
  replace (normalize_time _ _ _) with (Ok (map Fin ext7)) by reflexivity. cbn [bind]. unfold slv_core.
  replace (clean _ _ _) with (ext7, ext7, map fst (data7 x7 K), @None (list R)) by reflexivity.
  assert (E : map RtoC (map fst (data7 x7 K)) = data7 x7 K) by reflexivity.
  rewrite uneven7, P; cbn [bind]; eexists; (split; [reflexivity|]); cbn [si_t si_tref si_u si_v si_lor si_equi raw_data]; repeat split; exact E.
Qed.
Lemma cconf7 K o tin elor xmod xs : o_white o = false -> o_twodim o = false -> o_equi o = false -> o_linci o = true -> o_infer o = None -> length xmod = 7%nat ->
  exists cis, confidence L7 o m2_sel tin ext7 (resid_parts (o_twodim o) (map Fin W7) (data7 x7 K) xmod) elor (data7 x7 K) xmod (map Fin W7) (B7 x7 y7) 3 xs = Ok cis.
Proof.
  intros H1 H0 He H2 H3 Hx. unfold confidence. rewrite H1, H3, H0, He.
  assert (RP : exists eu, resid_parts false (map Fin W7) (data7 x7 K) xmod = Some (eu, None) /\ length eu = 7%nat).
  { unfold resid_parts. change (all_finite (map Fin W7)) with (Some W7). eexists. split; [reflexivity|].
    rewrite !map_length, combine_length, map_length, combine_length, Hx. reflexivity. }
  destruct RP as (eu & -> & Le). unfold band_averaged_psd_by_constit. cbn [andb]. destruct (band7 eu (s_frq m2_sel) Le) as [p ->]. cbn [bind].
  destruct (gram7 x7 y7 cos_sin_one sin_al (wt 1 (1 / 3)) (wt 2 (1 / 3)) (wt 1 (1 / 2)) (wt 3 (1 / 2))) as [[X1 E1] [X2 E2]]; try apply wt_range.
  assert (G : exists g, gammas L7 (B7 x7 y7) 3 (map Fin W7) (data7 x7 K) xmod = Ok (Some g)).
  { unfold gammas. change (all_finite (map Fin W7)) with (Some W7). cbn [levelsL l_inv]. unfold W7. rewrite E1. cbn [bind]. rewrite E2. cbn [bind].
    destruct (Req_EM_T _ _) as [Z|_]; [exfalso; cbn in Z; lra|eauto]. }
  destruct G as [g ->]. cbn [bind].
  match goal with |- context [conf_one L7 o (Some g) ?p _] => destruct (mapM_idx_ok (fun (k : nat) (x : cs) => conf_one L7 o (Some g) p (length xs) k (x_Xu x) (x_Yu x) (x_Xv x) (x_Yv x)
    (x_g x) (x_theta x)) xs) with (i := 0%nat) as [ys ->] end.
  - intros i x. unfold conf_one. rewrite H2. eauto.
  - cbn. eauto.
Qed.

Lemma crun7 K : levels K -> exists k, analysis L7 t7 (u7 K) None (Some 45) copts7 (sm7 K) k /\
  o_twodim (c_opt k) = false /\ o_nodsatnone (c_opt k) = true /\ o_gwchnone (c_opt k) = true /\ o_notrend (c_opt k) = true /\ o_infer (c_opt k) = None /\ o_equi (c_opt k) = false /\
  c_reftime k = ex_tref /\ c_name k = ["M2"] /\ c_lind k = [47%nat] /\ c_weights k = map Fin W7 /\ c_mean k = Some K /\
  exists r, rows k = [r] /\ w_lind r = Some 47%nat /\ w_g r = Some (e_g (ellipse_of false (RtoC (1 / 2)) (RtoC (1 / 2)))) /\
    w_A r = Some (Some (e_maj (ellipse_of false (RtoC (1 / 2)) (RtoC (1 / 2))))).
Proof.
  intros HK. assert (Hu : unique_keys copts7) by unique_tac.
  destruct (cslv7 K) as (si & S1 & S2 & S3 & S4 & S5 & S6).
  destruct (process_opts copts7 false) as [compat|] eqn:E; [|discriminate].
  assert (Ep : oget compat "epoch" = PStr "python") by (injection E as <-; reflexivity).
  destruct (read_opt (slv_opts false (si_equi si) compat)) as [o|] eqn:E2; [|injection E as <-; discriminate].
  destruct (used_options copts7 false (si_equi si) Hu compat o E E2) as
   (_ & _ & U1 & Ue & _ & U2 & U3 & U4 & U5 & U6 & _ & U7 & _ & U8 & Ur & U9 & U10 & Uk & _ & _ & (inf & U11 & U12) & U13 & _).
  cbn in U2, U3, U4, U5, U6, U7, U8, Ur, U9, U10, U11, U13, Uk. injection U11 as <-. injection U12 as U12.
  assert (Or : o_ordercnstit o = PStr "frequency") by congruence. assert (In0 : o_infer o = None) by congruence.
  destruct (rob7 x7 y7 cos_sin_one sin_al K HK) as (r & K1 & K2 & K3).
  assert (F : fit L7 (si_t si) (si_u si) (si_v si) (si_tref si) (si_lor si) 45 o m2_sel = Ok (B7 x7 y7, data7 x7 K, half7 K, map Fin W7)).
  { unfold fit. rewrite S2, S3, basis7 by assumption. cbn [bind]. rewrite finite_some, U10, S4. cbn [eq_str String.eqb Ascii.eqb Bool.eqb].
    rewrite Uk. fold kw7. rewrite K1. cbn [bind]. now rewrite K2, K3. }
  assert (SE : ut_cnstitsel (si_tref si) (xdiv (Fin (o_rmin o)) (Fin (24 * si_lor si))) (o_cnstit o) (o_infer o) = Ok m2_sel).
  { rewrite U5, In0, S3. apply m2_select. }
  assert (SL := sel_lens_ok _ _ _ _ _ SE).
  set (core := coef_core (si_tref si) (si_lor si) 45 o m2_sel (half7 K) (map Fin W7)).
  assert (CS : exists cis, ci_stage L7 o m2_sel si 45 (B7 x7 y7) (data7 x7 K) (half7 K) (map Fin W7) = Ok (set_ci core (o_twodim o) cis)).
  { unfold ci_stage. rewrite U2. rewrite U6. cbn [s_nNR s_nR m2_sel ex_sel length Nat.add Nat.mul].
    rewrite S2. edestruct (cconf7 K o) as [cis ->]; [exact U9|exact U1|rewrite Ue; exact S6|exact U3|exact In0|destruct (o_twodim o); reflexivity|]. cbn [bind]. eexists. reflexivity. }
  destruct CS as [cis C1].
  assert (A : aligned (set_ci core (o_twodim o) cis)).
  { refine (proj1 (ci_stage_aligned _ _ _ _ _ _ _ _ _ _ SL _ _ C1)); [cbn; lia|reflexivity]. }
  set (c1 := set_ci core (o_twodim o) cis) in *.
  destruct (diag_ok [] o c1 A) as (pe & sn & d & C2).
  { unfold energies, c1, core. cbn. rewrite U1. cbn. eauto. }
  { unfold noises, c1, core. cbn. rewrite U1. cbn. eauto. }
  rewrite U4 in C2. set (c2 := set_diag c1 _ _ _) in *.
  assert (SB2 : aligned c2). { refine (proj1 (diag_stage_aligned _ _ _ _ A C2)). }
  assert (Hi : forall i, In i (l_argsort L7 (map Fin (c_frq c2))) -> (i < length (c_name c2))%nat).
  { intros i H. apply (argsort_in []) in H. rewrite map_length in H. destruct SB2 as (Q & _). lia. }
  destruct (apply_order_ok c2 _ SB2 Hi) as [k Hk]. exists k.
  assert (C3 : reorder L7 c2 (o_ordercnstit o) = Ok k).
  { rewrite reorder_eq, Or. unfold order_stage. cbn [eq_str String.eqb Ascii.eqb Bool.eqb bind fst snd]. exact Hk. }
  assert (SV : solve L7 t7 (u7 K) None (Some 45) copts7 = Ok k).
  { rewrite <- Ep in S1. exact (solve_intro L7 t7 (u7 K) None 45 copts7 _ _ _ _ _ _ _ _ _ _ _ E S1 E2 SE F C1 C2 C3). }
  assert (SB := reorder_base _ _ _ _ C3). assert (SB1 := diag_stage_base _ _ _ _ C2). split.
  - constructor; auto.
    + apply levels_shape.
    + exact (ex_perm []).
    + intros x Hx'.
      assert (HD : In "order_constit" (keys documented)) by (cbn; auto 20).
      assert (Q := setting_val _ _ _ Hu HD Hx'). subst x. unfold sorted_order. cbn. auto.
    + exists (PStr "python"). split; [left; cbn; auto 20|]. apply samples7.
    + discriminate.
  - rewrite (sb_opt _ _ SB), (sb_reftime _ _ SB), (sb_weights _ _ SB), (sb_mean _ _ SB), (sb_opt _ _ SB1), (sb_reftime _ _ SB1), (sb_weights _ _ SB1), (sb_mean _ _ SB1).
    unfold c1, core. cbn [set_ci coef_core c_opt c_reftime c_weights c_mean].
    do 5 (split; [assumption|]). split; [rewrite Ue; exact S6|]. split; [assumption|].
    destruct (reorder_rows L7 _ _ _ (ex_perm []) SB2 (or_intror (or_intror Or)) C3) as [RP NP].
    assert (LL := apply_order_rows _ _ _ Hk). destruct LL as (_ & Ab & _). split; [|split; [|split; [reflexivity|split]]].
    + apply Permutation_length_1_inv. apply Permutation_sym. exact NP.
    + apply Permutation_length_1_inv. apply Permutation_sym. apply (perm_some _ _).
      rewrite <- (linds_rows k Ab). change [47%nat] with (c_lind c2). rewrite <- (linds_rows c2 SB2). now apply Permutation_map.
    + rewrite U1, U6. reflexivity.
    + exists (crow_of c2 0). split.
      * apply Permutation_length_1_inv. apply Permutation_sym. exact RP.
      * split; [reflexivity|]. split; [cbn [crow_of w_g c2 set_diag c1 set_ci core coef_core c_g]; now rewrite U1|].
        cbn [crow_of w_A c2 set_diag c1 set_ci core coef_core c_A]. rewrite U1. reflexivity.
Qed.
