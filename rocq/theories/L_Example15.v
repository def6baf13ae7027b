(** The robust analysis of L_Example12 with the same data in three units. *)
From Coq Require Import QArith Qreals Lia Lra Permutation Sorted.
From Coquelicot Require Import Coquelicot.
From Verif Require Import M_Base M_Lib M_Tables M_Const M_Options M_Time M_Slvinit M_Harmonics M_Select M_Ellipse
  M_Robust M_Period M_Conf M_Diag M_Solve M_Recon S_Dict S_Options S_Slv S_Order S_Basis S_Select S_Fit S_Ellipse S_Recon S_Model S_Errors S_Robust
  L_Base L_Options L_SolveInv L_OptSolve L_Slv L_Slv2 L_Tables L_Order L_Select L_Fit L_Align L_SelOrder L_Order2 L_Order3 L_Example L_Angle L_Core
  L_Ellipse L_Ellipse2 L_Robust L_Robust2 L_Robust3 L_Example3 L_Example4 L_Example5 L_Example7 L_Example11 L_Example12 L_RobEq.
Open Scope R_scope.
Open Scope string_scope.


Section Rows.
Variables (x y : R).
Hypothesis Hx : x <> 1.
Hypothesis Hy : y <> 0.
Notation B7 := (B7 x y).
Definition data8 (s : R) : list C := map (fun z => Cmult (RtoC s) z) (data7 x 0).
Definition half8 (s : R) : list C := [RtoC (s / 2); RtoC (s / 2); RtoC 0].
Definition unitsL : lib :=
  {| l_parse := fun _ => None;
     l_lstsq := fun B z _ => if list_eq_dec (list_eq_dec Cdec) B B7 then
        if list_eq_dec Cdec z (data8 1) then Ok (half8 1, [norm2 (csub (cmatvec B (half8 1)) z)], 3%nat, [])
        else if list_eq_dec Cdec z (data8 100) then Ok (half8 100, [norm2 (csub (cmatvec B (half8 100)) z)], 3%nat, [])
        else if list_eq_dec Cdec z (data8 (-1)) then Ok (half8 (-1), [norm2 (csub (cmatvec B (half8 (-1))) z)], 3%nat, [])
        else Err LinAlgError else Err LinAlgError;
     l_pinv := fun X => if list_eq_dec (list_eq_dec Cdec) X B7 then Ok (P7 x y) else Err LinAlgError; l_inv := inv3;
     l_svd := fun M => Ok (M, map (fun _ => 0) M, M); l_eigvals := fun M => Ok (map (fun _ => RtoC 0) M);
     l_is_PD := fun _ => true; l_spacing := fun _ => 0;
     l_mvn := fun _ m _ n => Ok (repeat m n); l_lomb := fun t x f => map (fun _ => 0) f;
     l_argsort := ins_argsort |}.

Lemma fit8 s : csub (data8 s) (cmatvec B7 (half8 s)) = map (fun z => Cmult (RtoC s) z) (map RtoC noise7).
Proof.
  unfold csub, data8, data7, L_Example11.B7, half8, rw, cmatvec, noise7. cbn [map combine fst snd]. unfold cdot. cbn [map combine fst snd csum fold_right].
  repeat (apply f_equal2; [apply injective_projections; cbn; field|]). reflexivity.
Qed.
Lemma split8 s a b c : norm2 (csub (cmatvec B7 [a; b; c]) (data8 s)) =
  norm2 (cmatvec B7 [Cminus a (RtoC (s / 2)); Cminus b (RtoC (s / 2)); Cminus c (RtoC 0)]) + s ^ 2 * 26.
Proof.
  destruct a as [a1 a2], b as [b1 b2], c as [c1 c2]. unfold norm2, csub, data8, data7, L_Example11.B7, rw, cmatvec. cbn [map combine fst snd].
  rewrite !cdot3. cbv [rsum fold_right Cmult Cplus Cminus Copp RtoC fst snd]. field.
Qed.
Lemma least8 s m' : length m' = 3%nat -> norm2 (csub (cmatvec B7 (half8 s)) (data8 s)) <= norm2 (csub (cmatvec B7 m') (data8 s)) /\
  (m' <> half8 s -> norm2 (csub (cmatvec B7 (half8 s)) (data8 s)) < norm2 (csub (cmatvec B7 m') (data8 s))).
Proof.
  intros Hm. destruct m' as [|a [|b [|c [|]]]]; try discriminate. unfold half8. rewrite !split8.
  assert (Z : norm2 (cmatvec B7 [Cminus (RtoC (s / 2)) (RtoC (s / 2)); Cminus (RtoC (s / 2)) (RtoC (s / 2)); Cminus (RtoC 0) (RtoC 0)]) = 0).
  { replace (Cminus (RtoC (s / 2)) (RtoC (s / 2))) with (RtoC 0) by ring. replace (Cminus (RtoC 0) (RtoC 0)) with (RtoC 0) by ring.
    unfold norm2, L_Example11.B7, rw, cmatvec. cbn [map]. rewrite !cdot3. cbv [rsum fold_right Cmult Cplus RtoC fst snd]. ring. }
  rewrite Z. assert (G := norm2_nonneg (cmatvec B7 [Cminus a (RtoC (s / 2)); Cminus b (RtoC (s / 2)); Cminus c (RtoC 0)])). split; [lra|].
  intros NE. destruct (Rle_lt_dec (norm2 (cmatvec B7 [Cminus a (RtoC (s / 2)); Cminus b (RtoC (s / 2)); Cminus c (RtoC 0)])) 0) as [LE|LT]; [|lra].
  exfalso. apply NE. apply (zero7 x y Hx Hy) in LE. destruct LE as (E1 & E2 & E3).
  assert (S : forall p q, Cminus p q = RtoC 0 -> p = q).
  { intros p q E. replace p with (Cplus (Cminus p q) q) by ring. rewrite E. ring. }
  now rewrite (S _ _ E1), (S _ _ E2), (S _ _ E3).
Qed.
Lemma units_out B z rc q : l_lstsq unitsL B z rc = Ok q -> B = B7 /\ exists s, z = data8 s /\ q = (half8 s, [norm2 (csub (cmatvec B (half8 s)) z)], 3%nat, []).
Proof.
  cbn [unitsL l_lstsq]. destruct (list_eq_dec _ B B7) as [->|]; [|discriminate].
  destruct (list_eq_dec Cdec z (data8 1)) as [->|]; [intros H; apply Ok_inj in H; eauto|].
  destruct (list_eq_dec Cdec z (data8 100)) as [->|]; [intros H; apply Ok_inj in H; eauto|].
  destruct (list_eq_dec Cdec z (data8 (-1))) as [->|]; [intros H; apply Ok_inj in H; eauto|discriminate].
Qed.
Lemma units_contract rc : lstsq_contract unitsL rc.
Proof.
  intros B z m r k s H. apply units_out in H. destruct H as (-> & K & -> & H). injection H as -> -> _ _. split; [|split].
  - intros row Hr. now rewrite (B7_rows _ _ _ Hr).
  - intros m' Hm'. now apply least8.
  - right. split; [reflexivity|]. intros m' Hm' NE. apply least8; auto.
Qed.
Lemma units_shape : lstsq_shape unitsL.
Proof.
  intros B z rc m r k s H row Hr. apply units_out in H. destruct H as (-> & K & -> & H). injection H as -> _ _ _. now rewrite (B7_rows _ _ _ Hr).
Qed.
Definition unit_s (s : R) : Prop := s = 1 \/ s = 100 \/ s = -1.
Lemma data8_inj s s' : data8 s = data8 s' -> s = s'.
Proof.
  intros E. unfold data8, data7 in E. cbn [map] in E.
  assert (E4 := f_equal (fun l => fst (nth 4 l (RtoC 0))) E). cbn in E4. lra.
Qed.
Lemma units_in s rc : unit_s s -> l_lstsq unitsL B7 (data8 s) rc = Ok (half8 s, [norm2 (csub (cmatvec B7 (half8 s)) (data8 s))], 3%nat, []).
Proof.
  intros H. cbn [unitsL l_lstsq]. destruct (list_eq_dec _ B7 B7) as [_|N]; [|now exfalso].
  destruct (list_eq_dec Cdec (data8 s) (data8 1)) as [E|N0].
  - apply data8_inj in E. now subst s.
  - destruct (list_eq_dec Cdec (data8 s) (data8 100)) as [E|N1]; [apply data8_inj in E; now subst s|].
    destruct H as [-> | [-> | ->]]; [now exfalso|now exfalso|].
    destruct (list_eq_dec Cdec (data8 (-1)) (data8 (-1))) as [_|N]; [reflexivity|now exfalso].
Qed.
Lemma leverage8 : leverage unitsL B7 = Ok lev7.
Proof. exact (leverage7 x y Hx Hy). Qed.
Lemma rob8 K : unit_s K -> exists r, robustfit_kw unitsL B7 (data8 K) kw7 = Ok r /\ rf_b r = half8 K /\ rf_w r = map Fin W7.
Proof.
  intros HK.
  assert (K1 : kw_nat (PNum 1) = Ok 1%nat).
  { unfold kw_nat. assert (I : Int_part 1 = 1%Z).
    { unfold Int_part. rewrite <- (tech_up 1 2); [reflexivity|lra|lra]. }
    rewrite I. destruct (Req_EM_T 1 1) as [_|Z]; [reflexivity|]. now destruct Z. }
  unfold robustfit_kw, kw7. cbn [dkeys map fst forallb existsb robust_keys String.eqb Ascii.eqb Bool.eqb orb andb negb kget dget snd bind kw_num].
  rewrite K1. cbn [bind]. unfold robustfit.
  replace (dget tune_defaults "cauchy") with (Some (2385 / 10 ^ 3)) by reflexivity. cbn [bind].
  replace (wfunc "cauchy") with (Ok (fun r => Ok (map w_cauchy r))) by reflexivity. cbn [bind].
  rewrite leverage8. cbn [bind rf_loop].
  assert (WS : exists ls, wsolve unitsL B7 (data8 K) (PNum 1) (map (fun _ => x1) (data8 K)) = Ok ls /\ ls_b ls = half8 K).
  { unfold wsolve. replace (all_finite (map (fun _ => x1) (data8 K))) with (Some (repeat 1 7)) by reflexivity.
    replace (map (fun p => map (Cmult (RtoC (fst p))) (snd p)) (combine (repeat 1 7) B7)) with B7.
    2: { unfold L_Example11.B7, rw. cbn [repeat combine map fst snd]. rewrite !Cmult_1_l. reflexivity. }
    replace (map (fun p => Cmult (RtoC (fst p)) (snd p)) (combine (repeat 1 7) (data8 K))) with (data8 K).
    2: { unfold data8, data7. cbn [repeat combine map fst snd]. rewrite !Cmult_1_l. reflexivity. }
    rewrite (units_in K _ HK). cbn [bind]. eexists. split; [reflexivity|]. reflexivity. }
  destruct WS as (ls & WS & LB). rewrite WS. cbn [bind]. rewrite residual_misfits, LB. unfold misfits. rewrite fit8.
  replace (2385 / 10 ^ 3) with 2.385 by lra. eexists. split; [reflexivity|]. cbn [rf_b rf_w it_ls]. split; [exact LB|].
  rewrite normed_moved by (destruct HK as [-> | [-> | ->]]; lra). exact (next7 x y w_cauchy eq_refl).
Qed.

End Rows.

Notation L8 := (unitsL x7 y7).
Definition u8 (K : R) : pyarr (list xr) := NdArr [7%nat] (map (fun z : C => Fin (fst z)) (data8 x7 K)) [].
Definition sm8 (K : R) : list (R * C) := combine ext7 (data8 x7 K).
Lemma real8 x K : map RtoC (map fst (data8 x K)) = data8 x K.
Proof. unfold data8, data7. cbn [map]. repeat (apply f_equal2; [apply injective_projections; cbn; ring|]). reflexivity. Qed.
Lemma slv8 K : exists si,
  slvinit (fun _ => None) t7 (u8 K) None (Some 45) (PStr "python") = Ok si /\
  si_t si = ext7 /\ si_tref si = ex_tref /\ raw_data (si_u si) (si_v si) = data8 x7 K /\ si_lor si = 4.
Proof.
  assert (P : ptp ext7 = Ok 4).
  { unfold ptp, ext7, rmax, rmin, fold_left. apply f_equal.
    rewrite !(Rmax_right 0 0), (Rmax_right 0 2), (Rmax_right 2 2), (Rmax_right 2 4), (Rmax_right 4 4), !(Rmin_left 0 0), !(Rmin_left 0 2), !(Rmin_left 0 4) by lra. lra. }
  unfold slvinit, u8, t7. 
  replace (check_args _ _ _ _) with (Ok tt : res unit) by reflexivity. cbn [bind].
  replace (normalize_time _ _ _) with (Ok (map Fin ext7)) by reflexivity. cbn [bind]. unfold slv_core.
  replace (clean _ _ _) with (ext7, ext7, map fst (data8 x7 K), @None (list R)) by reflexivity.
  assert (E := real8 x7 K).
  destruct (equi_of ext7); rewrite P; cbn [bind]; eexists; (split; [reflexivity|]); cbn [si_t si_tref si_u si_v si_lor raw_data]; repeat split; exact E.
Qed.
Lemma samples8 K : samples (fun _ => None) (PStr "python") t7 (u8 K) None (sm8 K).
Proof.
  unfold u8, t7, sm8.
  assert (E : combine ext7 (data8 x7 K) = map (fun s => (fst s, RtoC (snd s))) (valid_scalar (map Fin ext7) (map (fun z : C => Fin (fst z)) (data8 x7 K)) [])).
  { rewrite <- (real8 x7 K) at 1. reflexivity. }
  rewrite E. apply scalar_samples; try reflexivity; split; auto.
Qed.

Lemma conf8 K o e tin t elor xmod xs : o_white o = true -> o_linci o = true -> o_infer o = None ->
  exists cis, confidence L8 o m2_sel tin t e elor (data8 x7 K) xmod (map Fin W7) (B7 x7 y7) 3 xs = Ok cis.
Proof.
  intros H1 H2 H3. unfold confidence. rewrite H1, H3. cbn [bind].
  destruct (gram7 x7 y7 cos_sin_one sin_al (wt 1 (1 / 3)) (wt 2 (1 / 3)) (wt 1 (1 / 2)) (wt 3 (1 / 2))) as [[X1 E1] [X2 E2]]; try apply wt_range.
  assert (G : exists g, gammas L8 (B7 x7 y7) 3 (map Fin W7) (data8 x7 K) xmod = Ok (Some g)).
  { unfold gammas. change (all_finite (map Fin W7)) with (Some W7). cbn [unitsL l_inv]. unfold W7. rewrite E1. cbn [bind]. rewrite E2. cbn [bind].
    destruct (Req_EM_T _ _) as [Z|_]; [exfalso; cbn in Z; lra|eauto]. }
  destruct G as [g ->]. cbn [bind].
  destruct (mapM_idx_ok (fun (k : nat) (x : cs) => conf_one L8 o (Some g) None (length xs) k (x_Xu x) (x_Yu x) (x_Xv x) (x_Yv x)
    (x_g x) (x_theta x)) xs) with (i := 0%nat) as [ys ->].
  - intros i x. unfold conf_one. rewrite H2. eauto.
  - cbn. eauto.
Qed.

Lemma run8 K : unit_s K -> exists k, analysis L8 t7 (u8 K) None (Some 45) opts7 (sm8 K) k /\
  o_twodim (c_opt k) = false /\ o_nodsatnone (c_opt k) = true /\ o_gwchnone (c_opt k) = true /\ o_notrend (c_opt k) = true /\ o_infer (c_opt k) = None /\
  c_reftime k = ex_tref /\ c_name k = ["M2"] /\ c_lind k = [47%nat] /\ c_weights k = map Fin W7 /\ c_mean k = Some 0 /\
  exists r, rows k = [r] /\ w_lind r = Some 47%nat /\ w_g r = Some (e_g (ellipse_of false (RtoC (K / 2)) (RtoC (K / 2)))) /\
    w_A r = Some (Some (e_maj (ellipse_of false (RtoC (K / 2)) (RtoC (K / 2))))).
Proof.
  intros HK. assert (Hu : unique_keys opts7) by unique_tac.
  destruct (slv8 K) as (si & S1 & S2 & S3 & S4 & S5).
  destruct (process_opts opts7 false) as [compat|] eqn:E; [|discriminate].
  assert (Ep : oget compat "epoch" = PStr "python") by (injection E as <-; reflexivity).
  destruct (read_opt (slv_opts false (si_equi si) compat)) as [o|] eqn:E2; [|injection E as <-; discriminate].
  destruct (used_options opts7 false (si_equi si) Hu compat o E E2) as
   (_ & _ & U1 & _ & _ & U2 & U3 & U4 & U5 & U6 & _ & U7 & _ & U8 & Ur & U9 & U10 & Uk & _ & _ & (inf & U11 & U12) & U13 & _).
  cbn in U2, U3, U4, U5, U6, U7, U8, Ur, U9, U10, U11, U13, Uk. injection U11 as <-. injection U12 as U12.
  assert (Or : o_ordercnstit o = PStr "frequency") by congruence. assert (In0 : o_infer o = None) by congruence.
  destruct (rob8 x7 y7 cos_sin_one sin_al K HK) as (r & K1 & K2 & K3).
  assert (F : fit L8 (si_t si) (si_u si) (si_v si) (si_tref si) (si_lor si) 45 o m2_sel = Ok (B7 x7 y7, data8 x7 K, half8 K, map Fin W7)).
  { unfold fit. rewrite S2, S3, basis7 by assumption. cbn [bind]. rewrite finite_some, U10, S4. cbn [eq_str String.eqb Ascii.eqb Bool.eqb].
    rewrite Uk. fold kw7. rewrite K1. cbn [bind]. now rewrite K2, K3. }
  assert (SE : ut_cnstitsel (si_tref si) (xdiv (Fin (o_rmin o)) (Fin (24 * si_lor si))) (o_cnstit o) (o_infer o) = Ok m2_sel).
  { rewrite U5, In0, S3. apply m2_select. }
  assert (SL := sel_lens_ok _ _ _ _ _ SE).
  set (core := coef_core (si_tref si) (si_lor si) 45 o m2_sel (half8 K) (map Fin W7)).
  assert (CS : exists cis, ci_stage L8 o m2_sel si 45 (B7 x7 y7) (data8 x7 K) (half8 K) (map Fin W7) = Ok (set_ci core (o_twodim o) cis)).
  { unfold ci_stage. rewrite U2. rewrite U6. cbn [s_nNR s_nR m2_sel ex_sel length Nat.add Nat.mul].
    edestruct (conf8 K o) as [cis ->]; [exact U9|exact U3|exact In0|]. cbn [bind]. eexists. reflexivity. }
  destruct CS as [cis C1].
  assert (A : aligned (set_ci core (o_twodim o) cis)).
  { refine (proj1 (ci_stage_aligned _ _ _ _ _ _ _ _ _ _ SL _ _ C1)); [cbn; lia|reflexivity]. }
  set (c1 := set_ci core (o_twodim o) cis) in *.
  destruct (diag_ok [] o c1 A) as (pe & sn & d & C2).
  { unfold energies, c1, core. cbn. rewrite U1. cbn. eauto. }
  { unfold noises, c1, core. cbn. rewrite U1. cbn. eauto. }
  rewrite U4 in C2. set (c2 := set_diag c1 _ _ _) in *.
  assert (SB2 : aligned c2). { refine (proj1 (diag_stage_aligned _ _ _ _ A C2)). }
  assert (Hi : forall i, In i (l_argsort L8 (map Fin (c_frq c2))) -> (i < length (c_name c2))%nat).
  { intros i H. apply (argsort_in []) in H. rewrite map_length in H. destruct SB2 as (Q & _). lia. }
  destruct (apply_order_ok c2 _ SB2 Hi) as [k Hk]. exists k.
  assert (C3 : reorder L8 c2 (o_ordercnstit o) = Ok k).
  { rewrite reorder_eq, Or. unfold order_stage. cbn [eq_str String.eqb Ascii.eqb Bool.eqb bind fst snd]. exact Hk. }
  assert (SV : solve L8 t7 (u8 K) None (Some 45) opts7 = Ok k).
  { rewrite <- Ep in S1. exact (solve_intro L8 t7 (u8 K) None 45 opts7 _ _ _ _ _ _ _ _ _ _ _ E S1 E2 SE F C1 C2 C3). }
  assert (SB := reorder_base _ _ _ _ C3). assert (SB1 := diag_stage_base _ _ _ _ C2). split.
  - constructor; auto.
    + apply units_shape.
    + exact (ex_perm []).
    + intros x Hx'.
      assert (HD : In "order_constit" (keys documented)) by (cbn; auto 20).
      assert (Q := setting_val _ _ _ Hu HD Hx'). subst x. unfold sorted_order. cbn. auto.
    + exists (PStr "python"). split; [left; cbn; auto 20|]. apply samples8.
    + discriminate.
  - rewrite (sb_opt _ _ SB), (sb_reftime _ _ SB), (sb_weights _ _ SB), (sb_mean _ _ SB), (sb_opt _ _ SB1), (sb_reftime _ _ SB1), (sb_weights _ _ SB1), (sb_mean _ _ SB1).
    unfold c1, core. cbn [set_ci coef_core c_opt c_reftime c_weights c_mean].
    do 6 (split; [assumption|]).
    destruct (reorder_rows L8 _ _ _ (ex_perm []) SB2 (or_intror (or_intror Or)) C3) as [RP NP].
    assert (LL := apply_order_rows _ _ _ Hk). destruct LL as (_ & Ab & _). split; [|split; [|split; [reflexivity|split]]].
    + apply Permutation_length_1_inv. apply Permutation_sym. exact NP.
    + apply Permutation_length_1_inv. apply Permutation_sym. apply (perm_some _ _).
      rewrite <- (linds_rows k Ab). change [47%nat] with (c_lind c2). rewrite <- (linds_rows c2 SB2). now apply Permutation_map.
    + rewrite U1, U6. reflexivity.
    + exists (crow_of c2 0). split.
      * apply Permutation_length_1_inv. apply Permutation_sym. exact RP.
      * split; [reflexivity|]. split; [cbn [crow_of w_g c2 set_diag c1 set_ci core coef_core c_g]; now rewrite U1|].
        cbn [crow_of w_A c2 set_diag c1 set_ci core coef_core c_A]. rewrite U1. reflexivity.
Qed.

(** the runs of robustfit behind them *)
Lemma fit_of_kw L X y r : robustfit_kw L X y kw7 = Ok r -> robustfit L X y "cauchy" None (PNum 1) (1 / 10 ^ 3) 1 = Ok r.
Proof.
  assert (K1 : kw_nat (PNum 1) = Ok 1%nat).
  { unfold kw_nat. assert (I : Int_part 1 = 1%Z) by (unfold Int_part; rewrite <- (tech_up 1 2); [reflexivity|lra|lra]).
    rewrite I. destruct (Req_EM_T 1 1) as [_|Z]; [reflexivity|]. now destruct Z. }
  unfold robustfit_kw, kw7. cbn [dkeys map fst forallb existsb robust_keys String.eqb Ascii.eqb Bool.eqb orb andb negb kget dget snd bind kw_num].
  rewrite K1. cbn [bind]. auto.
Qed.
