(** Runs on four samples given in different orders. *)
From Coq Require Import QArith Qreals Lia Lra Permutation.
From Verif Require Import M_Base M_Lib M_Tables M_Const M_Options M_Time M_Slvinit M_Harmonics M_Select M_Ellipse
  M_Robust M_Period M_Conf M_Diag M_Solve M_Recon S_Dict S_Options S_Slv S_Order S_Basis S_Tables S_Harm S_Select S_Fit S_Ellipse S_Recon S_Model S_Perm
  L_Base L_Options L_SolveInv L_OptSolve L_Slv L_Slv2 L_Tables L_Order L_Select L_Fit L_Align L_SelOrder L_Order2 L_Order3 L_Basis L_Recon
  L_Harm L_Bands L_Example L_Model L_Model2 L_Model11 L_Example3 L_Example4 L_Example5 L_Example13.
Open Scope R_scope.
Open Scope string_scope.

(** ** four samples at the times x0 .. x3 *)
Section Run.
Variables (ms : list (list C)) (x0 x1 x2 x3 tr z0 z1 z2 z3 : R) (nt : bool).
Notation L := (tryL ms).
Notation tl := [x0; x1; x2; x3].
Notation zl := [z0; z1; z2; z3].
Definition q_t : pyarr tarray := NdArr [4%nat] (TNum (map Fin tl)) [].
Definition q_u : pyarr (list xr) := NdArr [4%nat] (map Fin zl) [].
Definition q_sm : list (R * C) := combine tl (map RtoC zl).
Hypothesis Hp : ptp tl = Ok 4.
Hypothesis Ht : tr = / 2 * (x0 + x3).
(** M2 alone, raw phase, no nodal correction, linearised white-noise intervals, with or without trend *)
Definition q_opts : dict pyval :=
  [("conf_int", PStr "linear"); ("order_constit", PStr "frequency"); ("constit", PSeq [PStr "M2"]); ("nodal", PBool false);
   ("phase", PStr "raw"); ("trend", PBool (negb nt)); ("white", PBool true); ("epoch", PStr "python")].
Definition q_f : R := nth 47 (linearized_freqs tr) 0.
Definition q_e (x : R) : C := Cmult (RtoC 1) (cis ((0 + 24 * (x - tr) * q_f) * (2 * PI))).
Definition q_row (x : R) : list C := ([q_e x; Cconj (q_e x); RtoC 1] ++ if nt then [] else [RtoC ((x - tr) / 4)])%list.
Definition q_sel : sel :=
  {| s_NRname := ["M2"]; s_NRlind := [47%nat]; s_NRarr := false; s_NRfrq := [q_f]; s_R := []; s_name := ["M2"]; s_frq := [q_f];
     s_lind := [47%nat]; s_nNR := 1; s_nR := 0; s_nI := 0 |}.

Lemma q_select m : ut_cnstitsel tr m (PSeq [PStr "M2"]) None = Ok q_sel.
Proof.
  unfold ut_cnstitsel, initial_lind. cbn [eq_str as_names mapM bind]. rewrite M2_index. cbn [bind].
  assert (F : take_idx (linearized_freqs tr) [47%nat] = Ok [q_f]).
  { apply take_idx_intro. cbn [map]. assert (L := lin_len tr). unfold q_f. revert L. generalize (linearized_freqs tr). intros l L.
    rewrite (nth_error_nth' l 0 (n := 47)) by lia. reflexivity. }
  rewrite F. cbn [bind].
  assert (N : take_idx const_name [47%nat] = Ok ["M2"]) by (vm_compute; reflexivity). rewrite N. cbn [bind]. reflexivity.
Qed.
Lemma q_basis o lat : o_nodsatnone o = true -> o_gwchnone o = true -> o_notrend o = nt -> o_infer o = None ->
  basis tl tr 4 lat o q_sel = Ok (map (map Some) (map q_row tl)).
Proof.
  intros H1 H2 H3 H4. unfold basis, bad_empty_index, flags_of. rewrite H3, H4. cbn [NodsatNone GwchNone]. rewrite H1, H2.
  cbn [andb negb bind]. rewrite andb_false_r. unfold ut_E. cbn [NodsatNone GwchNone andb].
  cbn [q_sel s_NRfrq]. unfold q_row, q_e. generalize q_f. intros f. unfold ones. cbn [length repeat bcast map E_rows].
  destruct nt; [reflexivity|]. destruct (Req_EM_T 4 0); [lra|]. reflexivity.
Qed.
Lemma q_slv : exists si, slvinit (fun _ => None) q_t q_u None (Some 45) (PStr "python") = Ok si /\
  si_t si = tl /\ si_tref si = tr /\ raw_data (si_u si) (si_v si) = map RtoC zl /\ si_lor si = 4 /\ si_equi si = equi_of tl.
Proof.
  unfold slvinit, q_t, q_u. replace (check_args _ _ _ _) with (Ok tt : res unit) by reflexivity. cbn [bind].
  replace (normalize_time _ _ _) with (Ok (map Fin tl)) by reflexivity. cbn [bind]. unfold slv_core.
  replace (clean _ _ _) with (tl, tl, zl, @None (list R)) by reflexivity.
  rewrite Ht. destruct (equi_of tl) eqn:E; rewrite Hp; cbn [bind]; eexists; (split; [reflexivity|]); cbn [si_t si_tref si_u si_v si_lor si_equi raw_data]; repeat split; reflexivity.
Qed.
Lemma q_samples : samples (fun _ => None) (PStr "python") q_t q_u None q_sm.
Proof.
  assert (E : q_sm = map (fun s => (fst s, RtoC (snd s))) (valid_scalar (map Fin tl) (map Fin zl) [])) by reflexivity.
  rewrite E. unfold q_t, q_u. apply scalar_samples; try reflexivity; split; auto.
Qed.

Definition q_B : cmat := map q_row tl.
Lemma q_conf o si W xraw xmod nm xs e : o_white o = true -> o_linci o = true -> o_infer o = None ->
  exists cis, confidence L o q_sel (si_tin si) (si_t si) e (si_elor si) xraw xmod W q_B nm xs = Ok cis.
Proof.
  intros H1 H2 H3. unfold confidence. rewrite H1, H3. cbn [bind].
  assert (G : exists g, gammas L q_B nm W xraw xmod = Ok g).
  { unfold gammas. destruct (all_finite W); cbn [tryL l_inv bind]; eauto. destruct (Req_EM_T _ _); eauto. }
  destruct G as [g ->]. cbn [bind].
  destruct (mapM_idx_ok (fun (c : nat) (x : cs) => conf_one L o g None (length xs) c (x_Xu x) (x_Yu x) (x_Xv x) (x_Yv x)
    (x_g x) (x_theta x)) xs) with (i := 0%nat) as [ys ->].
  - intros i x. unfold conf_one. rewrite H2. eauto.
  - cbn. eauto.
Qed.
Lemma q_row_len x : length (q_row x) = if nt then 3%nat else 4%nat.
Proof. unfold q_row. destruct nt; reflexivity. Qed.

Lemma q_run m : In m ms -> (forall m', In m' ms -> length m' = if nt then 3%nat else 4%nat) -> cmatvec q_B m = map RtoC zl ->
  exists k m', In m' ms /\ cmatvec q_B m' = map RtoC zl /\ analysis L q_t q_u None (Some 45) q_opts q_sm k /\
  o_twodim (c_opt k) = false /\ o_nodsatnone (c_opt k) = true /\ o_gwchnone (c_opt k) = true /\ o_equi (c_opt k) = equi_of tl /\ o_notrend (c_opt k) = nt /\
  o_conf_int (c_opt k) = true /\ o_white (c_opt k) = true /\ o_infer (c_opt k) = None /\ o_method (c_opt k) = PStr "ols" /\
  c_reftime k = tr /\ c_name k = ["M2"] /\ c_lind k = [47%nat] /\ c_mean k = Some (fst (nth 2 m' (RtoC 0))).
Proof.
  intros Hm Hms Hx.
  assert (Hr : forall row, In row q_B -> length row = length m).
  { intros row H. rewrite (Hms m Hm). unfold q_B in H. apply in_map_iff in H. destruct H as (x & <- & _). apply q_row_len. }
  assert (Hu : unique_keys q_opts) by unique_tac.
  destruct (process_opts q_opts false) as [compat|] eqn:E; [|discriminate].
  destruct q_slv as (si & S1 & S2 & S3 & S4 & S5 & S6).
  destruct (read_opt (slv_opts false (si_equi si) compat)) as [o|] eqn:E2; [|injection E as <-; discriminate].
  destruct (used_options q_opts false (si_equi si) Hu compat o E E2) as
   (_ & _ & O2 & O3 & _ & U2 & U3 & U4 & U5 & U6 & _ & U7 & _ & U8 & Ur & U9 & U10 & _ & U14 & _ & (inf & U11 & U12) & U13 & _).
  assert (P2 : oget compat "epoch" = PStr "python") by (injection E as <-; reflexivity).
  cbn in U2, U3, U4, U5, U6, U7, U8, Ur, U9, U10, U11, U13, U14. injection U11 as <-. injection U12 as U12. rewrite negb_involutive in U6.
  assert (O6 : o_infer o = None) by congruence. assert (O8 : o_ordercnstit o = PStr "frequency") by congruence.
  destruct (try_ok ms q_B (map RtoC zl) m Hm Hr Hx) as [m' F']. assert (F2 := F'). apply try_spec in F2. destruct F2 as (M1 & _ & M2).
  assert (Lm := Hms m' M1).
  assert (F : fit L (si_t si) (si_u si) (si_v si) (si_tref si) (si_lor si) 45 o q_sel = Ok (q_B, map RtoC zl, m', ex_W)).
  { unfold fit. rewrite S2, S3, S5, q_basis by assumption. cbn [bind]. rewrite finite_some, U10, S4. cbn [eq_str String.eqb Ascii.eqb Bool.eqb].
    fold q_B. rewrite F'. reflexivity. }
  assert (O11 : ut_cnstitsel tr (xdiv (Fin (o_rmin o)) (Fin (24 * 4))) (o_cnstit o) (o_infer o) = Ok q_sel) by (rewrite U5, O6; apply q_select).
  assert (SL := sel_lens_ok _ _ _ _ _ O11).
  assert (A1 : forall c1, ci_stage L o q_sel si 45 q_B (map RtoC zl) m' ex_W = Ok c1 -> aligned c1).
  { intros c1 H. refine (proj1 (ci_stage_aligned _ _ _ _ _ _ _ _ _ _ SL _ _ H)); [cbn; destruct nt; lia|reflexivity]. }
  assert (CS : exists cis, ci_stage L o q_sel si 45 q_B (map RtoC zl) m' ex_W =
    Ok (set_ci (coef_core (si_tref si) (si_lor si) 45 o q_sel m' ex_W) (o_twodim o) cis)).
  { unfold ci_stage. rewrite U2. cbn [negb eq_str String.eqb Ascii.eqb Bool.eqb].
    edestruct q_conf as [cis ->]; [exact U9|exact U3|exact O6|]. cbn [bind]. eauto. }
  destruct CS as [cis C1]. assert (A := A1 _ C1). clear A1. set (core := coef_core _ _ _ _ _ _ _) in *. set (c1 := set_ci core (o_twodim o) cis) in *.
  destruct (diag_ok [] o c1 A) as (pe & sn & d & C2).
  { unfold energies, c1, core. cbn. destruct (o_twodim o); cbn; eauto. }
  { unfold noises, c1, core. cbn. destruct (o_twodim o); cbn; eauto. }
  rewrite U4 in C2. cbn [eq_str String.eqb Ascii.eqb Bool.eqb] in C2. set (c2 := set_diag c1 _ _ _) in *.
  assert (SB2 : aligned c2). { refine (proj1 (diag_stage_aligned _ _ _ _ A C2)). }
  assert (Hi : forall i, In i (l_argsort L (map Fin (c_frq c2))) -> (i < length (c_name c2))%nat).
  { intros i H. apply (argsort_in []) in H. rewrite map_length in H. destruct SB2 as (K & _). lia. }
  destruct (apply_order_ok c2 _ SB2 Hi) as [k Hk]. exists k, m'. split; [exact M1|]. split; [exact M2|].
  assert (C3 : reorder L c2 (o_ordercnstit o) = Ok k).
  { rewrite reorder_eq, O8. unfold order_stage. cbn [eq_str String.eqb Ascii.eqb Bool.eqb bind fst snd]. exact Hk. }
  assert (SV : solve L q_t q_u None (Some 45) q_opts = Ok k).
  { rewrite <- P2 in S1. rewrite <- S3, <- S5 in O11. change false with (is2d (@None (pyarr (list xr)))) in E, E2. exact (solve_intro L _ _ _ _ _ _ _ _ _ _ _ _ _ _ _ _ E S1 E2 O11 F C1 C2 C3). }
  assert (SB := reorder_base _ _ _ _ C3). assert (SB1 := diag_stage_base _ _ _ _ C2).
  assert (AN : analysis L q_t q_u None (Some 45) q_opts q_sm k).
  { constructor; auto.
    + apply try_shape.
    + apply try_perm.
    + intros x Hx'.
      assert (HD : In "order_constit" (keys documented)) by (cbn; auto 20).
      assert (K := setting_val _ _ _ Hu HD Hx'). subst x. unfold sorted_order. cbn. auto.
    + exists (PStr "python"). split; [left; cbn; auto 20|]. apply q_samples.
    + discriminate. }
  assert (EO : c_opt k = o) by (rewrite (sb_opt _ _ SB), (sb_opt _ _ SB1); reflexivity).
  split; [exact AN|]. rewrite EO, (sb_reftime _ _ SB), (sb_reftime _ _ SB1).
  destruct (reorder_rows L _ _ _ (try_perm ms) SB2 (or_intror (or_intror O8)) C3) as [RP NP].
  assert (LL := apply_order_rows _ _ _ Hk). destruct LL as (_ & Ab & _).
  do 4 (split; [assumption || congruence|]). do 5 (split; [assumption|]). split; [exact S3|]. split; [|split].
  - apply Permutation_length_1_inv. apply Permutation_sym. exact NP.
  - apply Permutation_length_1_inv. apply Permutation_sym. apply (perm_some _ _).
    rewrite <- (linds_rows k Ab). change [47%nat] with (c_lind c2). rewrite <- (linds_rows c2 SB2). now apply Permutation_map.
  - rewrite (sb_mean _ _ SB), (sb_mean _ _ SB1). cbn [set_ci c1 core coef_core c_mean]. rewrite O2, U6. unfold m_last. cbn [oif negb]. rewrite Lm. destruct nt; reflexivity.
Qed.
End Run.

(** ** the same samples in another order *)
Lemma ptp4 : ptp [0; 1; 2; 4] = Ok 4.
Proof.
  unfold ptp, rmax, rmin, fold_left. f_equal.
  rewrite (Rmax_right 0 1), (Rmax_right 1 2), (Rmax_right 2 4), (Rmin_left 0 1), (Rmin_left 0 2), (Rmin_left 0 4) by lra. lra.
Qed.
Lemma ptp4' : ptp [0; 2; 1; 4] = Ok 4.
Proof.
  unfold ptp, rmax, rmin, fold_left. f_equal.
  rewrite (Rmax_right 0 2), (Rmax_left 2 1), (Rmax_right 2 4), (Rmin_left 0 2), (Rmin_left 0 1), (Rmin_left 0 4) by lra. lra.
Qed.
Lemma ptp4'' : ptp [0; 1; 4; 2] = Ok 4.
Proof.
  unfold ptp, rmax, rmin, fold_left. f_equal.
  rewrite (Rmax_right 0 1), (Rmax_right 1 4), (Rmax_left 4 2), (Rmin_left 0 1), (Rmin_left 0 4), (Rmin_left 0 2) by lra. lra.
Qed.
Lemma eps_lt : eps < / 8.
Proof. unfold eps. apply Rinv_lt_contravar; [|simpl; lra]. apply Rmult_lt_0_compat; [lra|apply pow_lt; lra]. Qed.
Ltac ind_no := match goal with |- context [in_dec Req_EM_T ?a ?l] =>
  let K := fresh in destruct (in_dec Req_EM_T a l) as [K|K]; [try (exfalso; cbn [In] in K; intuition lra)|try (exfalso; apply K; cbn [In]; intuition lra)]; clear K end.
Lemma uneven4 : equi_of [0; 1; 2; 4] = false.
Proof.
  unfold equi_of. cbn [diffs]. replace (1 - 0) with 1 by ring. replace (2 - 1) with 1 by ring. replace (4 - 2) with 2 by ring.
  unfold uniqueR. cbn [nodup]. repeat ind_no. unfold var, mean, rsum. cbn [map fold_right length INR]. 
  destruct (Rlt_dec _ _) as [H|H]; [|reflexivity]. assert (K := eps_lt). exfalso. revert H. match goal with |- ?a < _ -> _ => replace a with (/ 4) by field end. lra.
Qed.
Lemma uneven4' : equi_of [0; 2; 1; 4] = false.
Proof.
  unfold equi_of. cbn [diffs]. replace (2 - 0) with 2 by ring. replace (1 - 2) with (-1) by ring. replace (4 - 1) with 3 by ring.
  unfold uniqueR. cbn [nodup]. repeat ind_no. unfold var, mean, rsum. cbn [map fold_right length INR]. 
  destruct (Rlt_dec _ _) as [H|H]; [|reflexivity]. assert (K := eps_lt). exfalso. revert H. match goal with |- ?a < _ -> _ => replace a with (26 / 9) by field end. lra.
Qed.

(** an M2 tide p and a mean r at the times 0 1 2 4, and the same with two samples exchanged *)
Definition md (p : C) (r x : R) : R := fst (tide p r x).
Lemma md_tide p r x : RtoC (md p r x) = tide p r x.
Proof. apply injective_projections; [reflexivity|]. symmetry. apply tide_real. Qed.
Definition t_a : pyarr tarray := q_t 0 1 2 4.
Definition t_b : pyarr tarray := q_t 0 2 1 4.
Definition u_a p r := q_u (md p r 0) (md p r 1) (md p r 2) (md p r 4).
Definition u_b p r := q_u (md p r 0) (md p r 2) (md p r 1) (md p r 4).
Definition sm_a p r := q_sm 0 1 2 4 (md p r 0) (md p r 1) (md p r 2) (md p r 4).
Definition sm_b p r := q_sm 0 2 1 4 (md p r 0) (md p r 2) (md p r 1) (md p r 4).
Lemma q_row_ex x : q_row ex_tref true x = ex_row [47%nat] x.
Proof. reflexivity. Qed.
Lemma swapped p r : reordered (tryL [mm p r]) (q_opts true) t_a t_b (sm_a p r) (sm_b p r).
Proof.
  split; [unfold sm_a, sm_b, q_sm; cbn [combine map]; apply perm_skip, perm_swap|].
  exists [0; 1; 2; 4], [0; 2; 1; 4]. split; [|split].
  - exists (PStr "python"), (map Fin [0; 1; 2; 4]). split; [left; cbn; tauto|]. split; reflexivity.
  - exists (PStr "python"), (map Fin [0; 2; 1; 4]). split; [left; cbn; tauto|]. split; reflexivity.
  - apply perm_skip, perm_swap.
Qed.
Lemma all_given p r : complete (tryL [mm p r]) (q_opts true) t_a (sm_a p r).
Proof. exists (PStr "python"), (map Fin [0; 1; 2; 4]). split; [left; cbn; tauto|]. split; reflexivity. Qed.
Lemma swapped_runs p r : let L := tryL [mm p r] in exists k k',
  analysis L t_a (u_a p r) None (Some 45) (q_opts true) (sm_a p r) k /\ analysis L t_b (u_b p r) None (Some 45) (q_opts true) (sm_b p r) k' /\
  c_reftime k' = c_reftime k /\ o_equi (c_opt k') = o_equi (c_opt k) /\ o_method (c_opt k) = PStr "ols" /\ approximate (c_opt k) = false /\
  identifiable k (map fst (sm_a p r)) /\ NoDup (c_name k) /\ o_conf_int (c_opt k) = true /\ o_white (c_opt k) = true.
Proof.
  cbv zeta.
  destruct (q_run [mm p r] 0 1 2 4 ex_tref (md p r 0) (md p r 1) (md p r 2) (md p r 4) true ptp4 eq_refl (mm p r)) as (k & m & _ & _ & AN & H1 & H2 & H3 & H4 & H5 & H6 & H7 & H8 & H9 & H10 & H11 & H12 & _).
  { now left. } { intros m [<-|[]]. reflexivity. } { unfold q_B. cbn [map]. rewrite !md_tide, !q_row_ex. reflexivity. }
  destruct (q_run [mm p r] 0 2 1 4 ex_tref (md p r 0) (md p r 2) (md p r 1) (md p r 4) true ptp4' eq_refl (mm p r)) as (k' & m' & _ & _ & AN' & G1 & G2 & G3 & G4 & G5 & G6 & G7 & G8 & G9 & G10 & G11 & G12 & _).
  { now left. } { intros m' [<-|[]]. reflexivity. } { unfold q_B. cbn [map]. rewrite !md_tide, !q_row_ex. reflexivity. }
  exists k, k'. split; [exact AN|]. split; [exact AN'|]. split; [congruence|]. split; [rewrite G4, H4, uneven4, uneven4'; reflexivity|]. split; [exact H9|].
  split; [apply approximate_none; exact H8|]. split; [|split; [|split; assumption]].
  - change (map fst (sm_a p r)) with ext. now apply c_identifiable.
  - rewrite H11. repeat constructor. cbn. tauto.
Qed.

(** a steadily rising level with the last two samples exchanged *)
Definition t_c : pyarr tarray := q_t 0 1 4 2.
Definition rise_a := q_u 0 1 2 4.
Definition rise_c := q_u 0 1 4 2.
Definition sol_a : list C := [RtoC 0; RtoC 0; RtoC 2; RtoC 4].
Definition sol_c : list C := [RtoC 0; RtoC 0; RtoC 1; RtoC 4].
Definition tr_c : R := / 2 * (0 + 2).
Notation L2 := (tryL [sol_a; sol_c]).
Lemma dot_rise tr x a : cdot (q_row tr false x) [RtoC 0; RtoC 0; RtoC a; RtoC 4] = RtoC (a + (x - tr)).
Proof.
  unfold q_row. generalize (q_e tr x). intros [e f]. unfold cdot, csum. cbn [app combine map fst snd fold_right].
  apply injective_projections; cbv [Cplus Cmult Cconj RtoC fst snd]; field.
Qed.
Lemma rise_solves x0 x1 x2 x3 tr a : cmatvec (q_B x0 x1 x2 x3 tr false) [RtoC 0; RtoC 0; RtoC a; RtoC 4] = map RtoC [a + (x0 - tr); a + (x1 - tr); a + (x2 - tr); a + (x3 - tr)].
Proof. unfold cmatvec, q_B. cbn [map]. now rewrite !dot_rise. Qed.
Lemma first_of (a b : R) l l' : map RtoC (a :: l) = map RtoC (b :: l') -> a = b.
Proof. cbn [map]. intros H. injection H. auto. Qed.
Lemma rise_swapped : reordered L2 (q_opts false) t_a t_c (q_sm 0 1 2 4 0 1 2 4) (q_sm 0 1 4 2 0 1 4 2).
Proof.
  split; [unfold q_sm; cbn [combine map]; apply perm_skip, perm_skip, perm_swap|].
  exists [0; 1; 2; 4], [0; 1; 4; 2]. split; [|split].
  - exists (PStr "python"), (map Fin [0; 1; 2; 4]). split; [left; cbn; tauto|]. split; reflexivity.
  - exists (PStr "python"), (map Fin [0; 1; 4; 2]). split; [left; cbn; tauto|]. split; reflexivity.
  - apply perm_skip, perm_skip, perm_swap.
Qed.
(** with a trend the four times still tell the coefficients apart *)
Lemma four_zero (a b m s : R) : (forall x, In x ext -> 2 * (a * cos ((x - 2) / 2 * al) - b * sin ((x - 2) / 2 * al)) + (m + (x - ex_tref) * s) = 0) -> a = 0 /\ b = 0 /\ m = 0 /\ s = 0.
Proof.
  intros H. assert (H0 := H 0 ltac:(cbn; auto)). assert (H1 := H 1 ltac:(cbn; auto)). assert (H2 := H 2 ltac:(cbn; auto)). assert (H4 := H 4 ltac:(cbn; auto 10)). unfold ex_tref in *.
  replace ((0 - 2) / 2 * al) with (- al) in H0 by field. replace ((1 - 2) / 2 * al) with (- (al / 2)) in H1 by field.
  replace ((2 - 2) / 2 * al) with 0 in H2 by field. replace ((4 - 2) / 2 * al) with al in H4 by field.
  rewrite cos_neg, sin_neg in H0, H1. rewrite cos_0, sin_0 in H2. assert (S := sin_al). assert (C := cos_sin_one).
  assert (D := sin_2a (al / 2)). replace (2 * (al / 2)) with al in D by field. assert (D2 := sin2_cos2 (al / 2)). unfold Rsqr in D2.
  assert (a = 0) by (apply (Rmult_eq_reg_r (cos al - 1)); [lra|lra]). subst a.
  assert (m = 0) by lra. subst m. assert (Es : s = b * sin al) by lra. 
  assert (N1 : sin (al / 2) <> 0) by (intros Z; apply S; rewrite D, Z; ring).
  assert (N2 : cos (al / 2) <> 1) by (intros Z; apply N1; rewrite Z in D2; nra).
  assert (b = 0).
  { apply (Rmult_eq_reg_r (2 * sin (al / 2) * (1 - cos (al / 2)))).
    - rewrite Es in H1. rewrite D in H1. nra.
    - apply Rmult_integral_contrapositive. split; [|lra]. apply Rmult_integral_contrapositive. split; [lra|exact N1]. }
  subst b. repeat split. lra.
Qed.
Lemma rise_identifiable c : o_twodim (c_opt c) = false -> o_nodsatnone (c_opt c) = true -> o_gwchnone (c_opt c) = true -> o_notrend (c_opt c) = false ->
  c_reftime c = ex_tref -> c_name c = ["M2"] -> c_lind c = [47%nat] -> identifiable c ext.
Proof.
  intros N0 N1 N2 N3 Rt Nm Li c0 Rv H. assert (Wf := rv_wf _ _ Rv). assert (Eo := rv_opt _ _ Rv). assert (En := rv_name _ _ Rv). rewrite Nm in En.
  assert (El := rv_lind _ _ Rv). rewrite Li in El.
  assert (Et := rv_reftime _ _ Rv). rewrite Rt in Et. rewrite <- Eo in H, N0, N1, N2, N3.
  assert (Pc : snd (pm_of c0 0) = Cconj (fst (pm_of c0 0))) by (apply (pms_conj c0); auto; rewrite (one_pms _ En); now left).
  destruct (wf_1d _ Wf N0) as (_ & _ & (m & Em) & Es0 & _). destruct (Es0 N3) as [s Es].
  assert (Z : fst (fst (pm_of c0 0)) = 0 /\ snd (fst (pm_of c0 0)) = 0 /\ m = 0 /\ s = 0).
  { apply four_zero. intros x Hx. destruct (H x Hx) as [Hu _].
    assert (Ee : map (e_of c0 x) (c_lind c0) = map Some [ex_e x 47]).
    { rewrite El. cbn [map]. f_equal. apply e_raw; auto. }
    destruct (recon_vals c0 x [ex_e x 47] Wf Ee) as (R1 & _). cbv zeta in R1. rewrite R1 in Hu. injection Hu as Hu.
    rewrite (one_pms _ En), ex_e_val in Hu. unfold bgC, mnC, slC in Hu. rewrite N0, N3, Em, Es in Hu. cbn [od] in Hu.
    rewrite <- Hu, Et. generalize ex_tref. intros tr. destruct (pm_of c0 0) as [[a b] q]. cbn [fst snd] in *. subst q. unfold hsum, csum, cis. cbn. ring. }
  destruct Z as (Z1 & Z2 & Z3 & Z4). split; [|split].
  - intros w Hw. unfold rows in Hw. apply in_map_iff in Hw. destruct Hw as (i & <- & Hi). apply in_seq in Hi. rewrite En in Hi. cbn in Hi.
    replace i with 0%nat by lia. rewrite rotary_row by (auto; rewrite En; cbn; lia). destruct (pm_of c0 0) as [[a b] q]. cbn [fst snd] in *. subst. 
    unfold RtoC, Cconj. cbn. repeat f_equal. ring.
  - unfold mean_is. rewrite N0, Em, Z3. reflexivity.
  - intros _. unfold slope_is. rewrite N0, Es, Z4. reflexivity.
Qed.
Lemma rise_runs : exists k k',
  analysis L2 t_a rise_a None (Some 45) (q_opts false) (q_sm 0 1 2 4 0 1 2 4) k /\ analysis L2 t_c rise_c None (Some 45) (q_opts false) (q_sm 0 1 4 2 0 1 4 2) k' /\
  o_method (c_opt k) = PStr "ols" /\ approximate (c_opt k) = false /\ o_notrend (c_opt k) = false /\ NoDup (c_name k) /\
  identifiable k (map fst (q_sm 0 1 2 4 0 1 2 4)) /\ c_reftime k = 2 /\ c_reftime k' = 1 /\ mean_is k (RtoC 2) /\ mean_is k' (RtoC 1).
Proof.
  destruct (q_run [sol_a; sol_c] 0 1 2 4 ex_tref 0 1 2 4 false ptp4 eq_refl sol_a) as (k & m & I & Ex & AN & H1 & H2 & H3 & H4 & H5 & H6 & H7 & H8 & H9 & H10 & H11 & H12 & HM).
  { now left. } { intros m [<-|[<-|[]]]; reflexivity. } { unfold sol_a. rewrite rise_solves. unfold ex_tref. cbn [map]. repeat (apply f_equal2; [f_equal; lra|]). reflexivity. }
  destruct (q_run [sol_a; sol_c] 0 1 4 2 tr_c 0 1 4 2 false ptp4'' eq_refl sol_c) as (k' & m' & I' & Ex' & AN' & G1 & G2 & G3 & G4 & G5 & G6 & G7 & G8 & G9 & G10 & G11 & G12 & GM).
  { right. now left. } { intros m' [<-|[<-|[]]]; reflexivity. } { unfold sol_c. rewrite rise_solves. unfold tr_c. cbn [map]. repeat (apply f_equal2; [f_equal; lra|]). reflexivity. }
  exists k, k'. split; [exact AN|]. split; [exact AN'|]. split; [exact H9|]. split; [apply approximate_none; exact H8|]. split; [exact H5|].
  split; [rewrite H11; repeat constructor; cbn; tauto|]. split; [now apply rise_identifiable|]. split; [rewrite H10; unfold ex_tref; lra|]. split; [rewrite G10; unfold tr_c; lra|].
  unfold mean_is. rewrite H1, G1, HM, GM. split; f_equal.
  - destruct I as [<-|[<-|[]]]; [reflexivity|]. unfold sol_c in Ex. rewrite rise_solves in Ex. apply first_of in Ex. unfold ex_tref in Ex. exfalso. lra.
  - destruct I' as [<-|[<-|[]]]; [|reflexivity]. unfold sol_a in Ex'. rewrite rise_solves in Ex'. apply first_of in Ex'. unfold tr_c in Ex'. exfalso. lra.
Qed.
Lemma any_order : ~ (forall L t u v t' u' v' lat opts sm sm' c c',
  analysis L t u v lat opts sm c -> analysis L t' u' v' lat opts sm' c' -> is2d v' = is2d v ->
  reordered L opts t t' sm sm' -> complete L opts t sm ->
  lstsq_minimises L -> o_method (c_opt c) = PStr "ols" -> approximate (c_opt c) = false -> identifiable c (map fst sm) -> NoDup (c_name c) ->
  forall z, mean_is c z -> mean_is c' z).
Proof.
  intros H. destruct rise_runs as (k & k' & A1 & A2 & A3 & A4 & A5 & A6 & A7 & _ & _ & A8 & A9).
  assert (CM : complete L2 (q_opts false) t_a (q_sm 0 1 2 4 0 1 2 4)) by (exists (PStr "python"), (map Fin [0; 1; 2; 4]); split; [left; cbn; tauto|split; reflexivity]).
  assert (Z := H _ _ _ _ _ _ _ _ _ _ _ _ _ A1 A2 eq_refl rise_swapped CM (try_minimises _) A3 A4 A7 A6 _ A8).
  unfold mean_is in *. destruct (o_twodim (c_opt k')).
  - destruct A9 as [A9 _], Z as [Z _]. rewrite A9 in Z. injection Z. cbn. lra.
  - rewrite A9 in Z. injection Z. cbn. lra.
Qed.
