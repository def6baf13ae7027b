(** A concrete run with a gap and coloured noise: five evenly spaced times, one value missing. *)
From Coq Require Import QArith Qreals Lia Lra Permutation.
From Coquelicot Require Import Coquelicot.
From Verif Require Import M_Base M_Lib M_Tables M_Const M_Options M_Time M_Slvinit M_Harmonics M_Select M_Ellipse
  M_Robust M_Period M_Conf M_Diag M_Solve M_Recon S_Dict S_Options S_Slv S_Order S_Basis S_Select S_Fit S_Ellipse S_Recon S_Model S_Errors S_Period S_Noise
  L_Base L_Options L_SolveInv L_OptSolve L_Slv L_Slv2 L_Tables L_Order L_Select L_Fit L_Align L_SelOrder L_Order2 L_Order3 L_Example L_Angle L_Core L_Ellipse L_Ellipse2
  L_Model3 L_Model6 L_Model9 L_Model11 L_Period L_Period9 L_Noise L_Example3 L_Example4 L_Example5 L_Example7.
Open Scope R_scope.
Open Scope string_scope.

Definition five : list R := [0; 1; 2; 3; 4].
Definition five_t : pyarr tarray := NdArr [5%nat] (TNum (map Fin five)) [].
Definition gap_of (l : list R) : list xr := match l with [a; b; c; d] => [Fin a; Fin b; Fin c; NaN; Fin d] | _ => [] end.
Definition col_opts : dict pyval :=
  [("order_constit", PStr "frequency"); ("constit", PSeq [PStr "M2"]); ("nodal", PBool false); ("phase", PStr "raw"); ("trend", PBool false);
   ("white", PBool false); ("epoch", PStr "python")].

Lemma five_even : equi_of five = true.
Proof.
  apply equi_close; [cbn; lia|]. intros a b Ha Hb.
  assert (E : forall x, In x (steps five) -> x = 1) by (intros x Hx; cbn in Hx; intuition lra).
  rewrite (E a Ha), (E b Hb). assert (0 < 2 / 2 ^ 26) by (apply Rdiv_lt_0_compat; [lra|apply pow_lt; lra]). lra.
Qed.
Lemma five_ptp : ptp five = Ok 4.
Proof.
  unfold ptp, five, rmax, rmin, fold_left. f_equal.
  rewrite (Rmax_right 0 1), (Rmax_right 1 2), (Rmax_right 2 3), (Rmax_right 3 4), (Rmin_left 0 1), (Rmin_left 0 2), (Rmin_left 0 3), (Rmin_left 0 4) by lra. lra.
Qed.

Section Run.
Variables (tw : bool) (z a b c : C).
Notation d4 := (d4 z a b c).
Notation data4 := (data4 z a b c).
Notation nL := (nL z a b c).
Notation B4 := (rows4 (cos al) (cos (al / 2)) 1 (cos al) (- sin al) (- sin (al / 2)) 0 (sin al)).
Hypothesis Hreal : tw = false -> snd z = 0 /\ b = Cconj a /\ snd c = 0.
Definition gu : pyarr (list xr) := NdArr [5%nat] (gap_of (map fst data4)) [].
Definition gv : option (pyarr (list xr)) := if tw then Some (NdArr [5%nat] (gap_of (map snd data4)) []) else None.

Lemma gap_slv : exists si,
  slvinit (fun _ => None) five_t gu gv (Some 45) (PStr "python") = Ok si /\
  si_t si = ext /\ si_tref si = ex_tref /\ raw_data (si_u si) (si_v si) = data4 /\ si_lor si = 4 /\ si_equi si = true /\ si_tin si = five.
Proof.
  assert (RL := data_real tw z a b c Hreal).
  unfold slvinit, gu, gv. destruct tw.
  - replace (check_args _ _ _ _) with (Ok tt : res unit) by reflexivity. cbn [bind].
    replace (normalize_time _ _ _) with (Ok (map Fin five)) by reflexivity. cbn [bind]. unfold slv_core.
    replace (clean _ _ _) with (five, ext, map fst data4, Some (map snd data4)) by reflexivity.
    rewrite five_even, five_ptp. cbn [bind]. eexists. split; [reflexivity|]. cbn [si_t si_tref si_u si_v si_lor si_equi si_tin raw_data].
    repeat split; apply combine_fst_snd.
  - replace (check_args _ _ _ _) with (Ok tt : res unit) by reflexivity. cbn [bind].
    replace (normalize_time _ _ _) with (Ok (map Fin five)) by reflexivity. cbn [bind]. unfold slv_core.
    replace (clean _ _ _) with (five, ext, map fst data4, @None (list R)) by reflexivity.
    assert (E : map RtoC (map fst data4) = data4).
    { rewrite map_map. transitivity (map (fun z : C => z) data4); [|apply map_id]. apply map_ext_in. intros y Hy. unfold RtoC.
      apply injective_projections; cbn; [reflexivity|]. symmetry. now apply RL. }
    rewrite five_even, five_ptp. cbn [bind]. eexists. split; [reflexivity|]. cbn [si_t si_tref si_u si_v si_lor si_equi si_tin raw_data].
    repeat split; exact E.
Qed.
Lemma gap_samples : samples (fun _ => None) (PStr "python") five_t gu gv (nsm z a b c).
Proof.
  assert (RL := data_real tw z a b c Hreal). unfold zs in RL.
  unfold gu, gv, five_t, nsm, four_sm, zs. 
  assert (D : data4 = [d4 0; d4 1; d4 2; d4 3]) by reflexivity.
  rewrite D. revert RL. generalize (d4 0), (d4 1), (d4 2), (d4 3). clear D. intros [p0 q0] [p1 q1] [p2 q2] [p3 q3] RL. cbn [map fst snd gap_of].
  destruct tw.
  - exact (vector_samples (fun _ => None) (PStr "python") 5 (TNum (map Fin five)) [] [Fin p0; Fin p1; Fin p2; NaN; Fin p3] [] [Fin q0; Fin q1; Fin q2; NaN; Fin q3] [] (map Fin five)
      (conj eq_refl (or_introl eq_refl)) (conj eq_refl (or_introl eq_refl)) eq_refl eq_refl).
  - assert (R0 := RL eq_refl _ (or_introl eq_refl)). assert (R1 := RL eq_refl _ (or_intror (or_introl eq_refl))).
    assert (R2 := RL eq_refl _ (or_intror (or_intror (or_introl eq_refl)))). assert (R3 := RL eq_refl _ (or_intror (or_intror (or_intror (or_introl eq_refl))))).
    cbn [snd] in R0, R1, R2, R3. rewrite R0, R1, R2, R3.
    exact (scalar_samples (fun _ => None) (PStr "python") 5 (TNum (map Fin five)) [] [Fin p0; Fin p1; Fin p2; NaN; Fin p3] [] (map Fin five)
      (conj eq_refl (or_introl eq_refl)) eq_refl eq_refl).
Qed.

Lemma gap_incr : increasing ext.
Proof. intros [|[|[|i]]] H; cbn in *; try lra; lia. Qed.
Lemma five_incr : increasing five.
Proof. intros [|[|[|[|i]]]] H; cbn in *; try lra; lia. Qed.

Lemma gap_psd L eu ev elor frq tw' : length eu = 4%nat -> (forall v, ev = Some v -> length v = 4%nat) ->
  exists p, band_averaged_psd_by_constit L five ext eu ev elor frq true tw' = Ok p.
Proof.
  intros Hu Hv. unfold band_averaged_psd_by_constit. cbn [andb]. cbv zeta.
  change (Nat.ltb (length ext) (length five)) with true. cbv iota. change (Nat.eqb (length ext) 0) with false. cbv iota.
  destruct (band_even' L five (map (fun x => interp x ext eu) five) (option_map (fun e => map (fun x => interp x ext e) five) ev) frq) as (near & p & _ & E & _).
  - now rewrite map_length.
  - intros v Hv'. destruct ev; [|discriminate]. injection Hv' as <-. reflexivity.
  - cbn. lia.
  - cbn. lra.
  - rewrite E. cbn [bind]. eexists. reflexivity.
Qed.

Lemma g_conf o si xmod xs : o_white o = false -> o_linci o = true -> o_infer o = None -> o_equi o = true -> si_t si = ext -> si_tin si = five -> length xmod = 4%nat ->
  exists cis, confidence nL o m2_sel (si_tin si) (si_t si) (resid_parts (o_twodim o) ex_W data4 xmod) (si_elor si) data4 xmod ex_W B4 3 xs = Ok cis.
Proof.
  intros H1 H2 H3 H4 H5 H6 Hx. unfold confidence. rewrite H1, H3, H4, H5, H6.
  assert (RP : exists eu ev, resid_parts (o_twodim o) ex_W data4 xmod = Some (eu, ev) /\ length eu = 4%nat /\ (forall v, ev = Some v -> length v = 4%nat)).
  { unfold resid_parts. change (all_finite ex_W) with (Some [1; 1; 1; 1]). do 2 eexists. split; [reflexivity|].
    assert (LL : forall f : C -> R, length (map f (map (fun p => Cmult (RtoC (fst p)) (snd p)) (combine [1; 1; 1; 1] (map (fun p => Cminus (fst p) (snd p)) (combine data4 xmod))))) = 4%nat).
    { intros f. rewrite !map_length, combine_length, map_length, combine_length, Hx. reflexivity. }
    split; [apply LL|]. intros v Hv. destruct (o_twodim o); cbn [oif] in Hv; [injection Hv as <-; apply LL|discriminate]. }
  destruct RP as (eu & ev & -> & L1 & L2). destruct (gap_psd nL eu ev (si_elor si) (s_frq m2_sel) (o_twodim o) L1 L2) as [p ->]. cbn [bind].
  destruct (gram_inv (cos al) (cos (al / 2)) 1 (cos al) (- sin al) (- sin (al / 2)) 0 (sin al)) as [[X1 E1] [X2 E2]].
  { unfold area. assert (S := sin_al). assert (K := cos_sin_one).
    replace (cos al * 0 - 1 * - sin al + (1 * sin al - cos al * 0) + (cos al * - sin al - cos al * sin al)) with (2 * sin al * (1 - cos al)) by ring.
    apply Rmult_integral_contrapositive. split; [|lra]. apply Rmult_integral_contrapositive. split; [lra|exact S]. }
  assert (G : exists g, gammas nL B4 3 ex_W data4 xmod = Ok g).
  { unfold gammas. change (all_finite ex_W) with (Some [1; 1; 1; 1]). cbn [nL noisyL l_inv]. unfold L_Example7.nL. cbn [noisyL l_inv]. rewrite E1. cbn [bind]. rewrite E2. cbn [bind]. destruct (Req_EM_T _ _); eauto. }
  destruct G as [g ->]. cbn [bind].
  destruct (mapM_idx_ok (fun (k : nat) (x : cs) => conf_one nL o g (Some p) (length xs) k (x_Xu x) (x_Yu x) (x_Xv x) (x_Yv x)
    (x_g x) (x_theta x)) xs) with (i := 0%nat) as [ys ->].
  - intros i x. unfold conf_one. rewrite H2. eauto.
  - cbn. eauto.
Qed.

Lemma noise_residual : map (fun p => Cminus (snd (fst p)) (vis1 tw (cdot (snd p) [a; b; c]))) (combine (nsm z a b c) B4) =
  map (fun i => Cmult (RtoC (n4 i)) z) [0; 1; 2; 3]%nat.
Proof.
  assert (V : forall x y, vis1 tw (cdot [(x, y); Cconj (x, y); RtoC 1] [a; b; c]) = cdot [(x, y); Cconj (x, y); RtoC 1] [a; b; c]).
  { intros x y. unfold vis1. destruct tw; [reflexivity|]. destruct (Hreal eq_refl) as (_ & -> & Hc). unfold RtoC. apply injective_projections; [reflexivity|]. cbn [fst snd].
    destruct a as [a1 a2], c as [c1 c2]. cbn [snd] in Hc. subst c2. unfold cdot, csum. cbn [combine map fold_right fst snd]. cbv [Cmult Cplus Cconj RtoC fst snd]. ring. }
  unfold nsm, four_sm, zs, L_Example7.d4, L_Example7.data4, noisy, rows4, ext. cbn [map combine nth fst snd]. rewrite !V.
  generalize (n4 0), (n4 1), (n4 2), (n4 3). intros.
  assert (SA : forall p q, Cminus (Cplus p q) p = q) by (intros; ring). rewrite !SA. reflexivity.
Qed.

Lemma g_run : exists k, analysis nL five_t gu gv (Some 45) col_opts (nsm z a b c) k /\
  o_twodim (c_opt k) = tw /\ o_equi (c_opt k) = true /\ o_notrend (c_opt k) = true /\ o_epoch (c_opt k) = PStr "python" /\ c_name k = ["M2"] /\
  residuals k (nsm z a b c) (map (fun i => Cmult (RtoC (n4 i)) z) [0; 1; 2; 3]%nat) /\
  exists r, In r (rows k) /\ w_lind r = Some 47%nat /\ w_frq r = Some (ex_f 47) /\ w_g r = Some (e_g (ellipse_of tw a b)) /\
    (tw = false -> w_A r = Some (Some (e_maj (ellipse_of tw a b)))).
Proof.
  assert (Hu : unique_keys col_opts) by unique_tac.
  destruct (process_opts col_opts tw) as [compat|] eqn:E; [|destruct tw; discriminate].
  destruct gap_slv as (si & S1 & S2 & S3 & S4 & S5 & S6 & S7).
  destruct (read_opt (slv_opts tw (si_equi si) compat)) as [o|] eqn:E2; [|destruct tw; injection E as <-; discriminate].
  destruct (used_options col_opts tw (si_equi si) Hu compat o E E2) as
   (_ & _ & O2 & O3 & _ & U2 & U3 & U4 & U5 & U6 & _ & U7 & _ & U8 & Ur & U9 & U10 & _ & U14 & _ & (inf & U11 & U12) & U13 & _).
  assert (P2 : oget compat "epoch" = PStr "python") by (destruct tw; injection E as <-; reflexivity).
  cbn in U2, U3, U4, U5, U6, U7, U8, Ur, U9, U10, U11, U13, U14. injection U11 as <-. injection U12 as U12.
  assert (O6 : o_infer o = None) by congruence. assert (O8 : o_ordercnstit o = PStr "frequency") by congruence.
  assert (F : fit nL (si_t si) (si_u si) (si_v si) (si_tref si) (si_lor si) 45 o m2_sel = Ok (B4, data4, [a; b; c], ex_W)).
  { unfold fit. rewrite S2, S3, S5, inf_nil_basis by (assumption || congruence). cbn [bind]. rewrite finite_some, U10, S4. cbn [eq_str String.eqb Ascii.eqb Bool.eqb].
    rewrite ex_B_rows4. unfold L_Example7.nL. cbn [noisyL l_lstsq]. destruct (list_eq_dec _ B4 B4) as [_|N]; [|now exfalso]. destruct (list_eq_dec _ data4 data4) as [_|N]; [|now exfalso]. reflexivity. }
  assert (O11 : ut_cnstitsel ex_tref (xdiv (Fin (o_rmin o)) (Fin (24 * 4))) (o_cnstit o) (o_infer o) = Ok m2_sel) by (rewrite U5, O6; apply m2_select).
  assert (SL := sel_lens_ok _ _ _ _ _ O11).
  assert (A1 : forall c1, ci_stage nL o m2_sel si 45 B4 data4 [a; b; c] ex_W = Ok c1 -> aligned c1).
  { intros c1 H. refine (proj1 (ci_stage_aligned _ _ _ _ _ _ _ _ _ _ SL _ _ H)); [cbn; lia|reflexivity]. }
  assert (CS : exists cis, ci_stage nL o m2_sel si 45 B4 data4 [a; b; c] ex_W =
    Ok (set_ci (coef_core (si_tref si) (si_lor si) 45 o m2_sel [a; b; c] ex_W) (o_twodim o) cis)).
  { unfold ci_stage. rewrite U2. cbn [negb eq_str String.eqb Ascii.eqb Bool.eqb]. rewrite U6. cbn [s_nNR s_nR m2_sel ex_sel length Nat.add Nat.mul].
    edestruct g_conf as [cis ->]; [exact U9|exact U3|exact O6|congruence|exact S2|exact S7|destruct (o_twodim o); reflexivity|]. cbn [bind]. eauto. }
  destruct CS as [cis C1]. assert (A := A1 _ C1). clear A1. set (core := coef_core _ _ _ _ _ _ _) in *. set (c1 := set_ci core (o_twodim o) cis) in *.
  destruct (n_diag z a b c o c1 A) as (pe & sn & d & C2).
  { unfold energies, c1, core. cbn. destruct (o_twodim o); cbn; eauto. }
  { unfold noises, c1, core. cbn. destruct (o_twodim o); cbn; eauto. }
  rewrite U4 in C2. cbn [eq_str String.eqb Ascii.eqb Bool.eqb] in C2. set (c2 := set_diag c1 _ _ _) in *.
  assert (SB2 : aligned c2). { refine (proj1 (diag_stage_aligned _ _ _ _ A C2)). }
  assert (Hi : forall i, In i (l_argsort nL (map Fin (c_frq c2))) -> (i < length (c_name c2))%nat).
  { intros i H. apply (argsort_in []) in H. rewrite map_length in H. destruct SB2 as (K & _). lia. }
  destruct (apply_order_ok c2 _ SB2 Hi) as [k Hk]. exists k.
  assert (C3 : reorder nL c2 (o_ordercnstit o) = Ok k).
  { rewrite reorder_eq, O8. unfold order_stage. cbn [eq_str String.eqb Ascii.eqb Bool.eqb bind fst snd]. exact Hk. }
  assert (T2 : is2d gv = tw) by (unfold gv; destruct tw; reflexivity).
  assert (SV : solve nL five_t gu gv (Some 45) col_opts = Ok k).
  { rewrite <- P2 in S1. rewrite <- T2 in E, E2. rewrite <- S3, <- S5 in O11. exact (solve_intro nL _ _ _ _ _ _ _ _ _ _ _ _ _ _ _ _ E S1 E2 O11 F C1 C2 C3). }
  assert (SB := reorder_base _ _ _ _ C3). assert (SB1 := diag_stage_base _ _ _ _ C2).
  assert (AN : analysis nL five_t gu gv (Some 45) col_opts (nsm z a b c) k).
  { constructor; auto.
    + apply noisy_shape.
    + exact (ex_perm []).
    + intros x Hx'.
      assert (HD : In "order_constit" (keys documented)) by (cbn; auto 20).
      assert (K := setting_val _ _ _ Hu HD Hx'). subst x. unfold sorted_order. cbn. auto.
    + exists (PStr "python"). split; [left; cbn; auto 20|]. apply gap_samples.
    + discriminate. }
  assert (EO : c_opt k = o) by (rewrite (sb_opt _ _ SB), (sb_opt _ _ SB1); reflexivity).
  split; [exact AN|]. rewrite EO.
  destruct (reorder_rows nL _ _ _ (ex_perm []) SB2 (or_intror (or_intror O8)) C3) as [RP NP].
  assert (LL := apply_order_rows _ _ _ Hk). destruct LL as (_ & Ab & _).
  split; [assumption|]. split; [congruence|]. split; [assumption|]. split; [congruence|]. split.
  { apply Permutation_length_1_inv. apply Permutation_sym. exact NP. }
  split.
  - destruct (analysis_run _ _ _ _ _ _ _ _ AN) as (_ & si' & la' & s' & B' & xraw' & m' & W' & BH & Q1 & Q2 & Q3).
    assert (X := bh_slv _ _ _ _ _ _ _ _ _ _ _ _ _ _ BH). rewrite EO, U14 in X. change (l_parse nL) with (fun _ : string => @None Z) in X. rewrite S1 in X. apply Ok_inj in X. subst si'.
    assert (X := bh_lat _ _ _ _ _ _ _ _ _ _ _ _ _ _ BH). injection X as <-.
    assert (X := bh_sel _ _ _ _ _ _ _ _ _ _ _ _ _ _ BH). rewrite EO, S3, S5, O11 in X. apply Ok_inj in X. subst s'.
    assert (X := bh_fit _ _ _ _ _ _ _ _ _ _ _ _ _ _ BH). rewrite EO, F in X. apply Ok_inj in X. injection X as <- <- <- <-.
    assert (RS := own_residuals _ _ _ _ _ _ _ _ _ _ _ _ _ _ BH (an_sorted _ _ _ _ _ _ _ _ AN) ltac:(unfold approximate; rewrite EO, O6; reflexivity) (nsm z a b c) Q1).
    match goal with |- residuals _ _ ?x => replace x with (rs k B4 [a; b; c] (nsm z a b c)); [exact RS|] end.
    unfold rs. rewrite EO, O2. apply noise_residual.
  - exists (crow_of c2 0). split; [apply (Permutation_in _ (Permutation_sym RP)); left; reflexivity|].
    split; [reflexivity|]. split; [reflexivity|]. split; [cbn [crow_of w_g c2 set_diag c1 set_ci core coef_core c_g]; now rewrite O2|].
    intros T. cbn [crow_of w_A c2 set_diag c1 set_ci core coef_core c_A]. rewrite O2, T. reflexivity.
Qed.
End Run.
