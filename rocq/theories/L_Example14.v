(** Runs with an inferred constituent and linearised intervals: S2 inferred from M2, scalar and vector. *)
From Coq Require Import QArith Qreals Lia Lra Permutation.
From Coquelicot Require Import Coquelicot.
From Verif Require Import M_Base M_Lib M_Tables M_Const M_Options M_Time M_Slvinit M_Harmonics M_Select M_Ellipse
  M_Robust M_Period M_Conf M_Diag M_Solve M_Recon S_Dict S_Options S_Slv S_Order S_Basis S_Select S_Fit S_Ellipse S_Recon S_Model S_Errors S_Conf
  L_Base L_Options L_SolveInv L_OptSolve L_Slv L_Slv2 L_Tables L_Order L_Select L_Fit L_Align L_SelOrder L_Order2 L_Order3 L_Example L_Angle L_Core L_Ellipse L_Ellipse2
  L_Conf2 L_Conf4 L_Errors6 L_Example3 L_Example4 L_Example5 L_Example6 L_Example7.
Open Scope R_scope.
Open Scope string_scope.

Definition twice {A} (tw : bool) (x : A) : list A := if tw then [x; x] else [x].
Definition s2_infer (tw : bool) : pyval := PDict true
  [("inferred_names", PSeq [PStr "S2"]); ("reference_names", PSeq [PStr "M2"]); ("amp_ratios", PSeq (twice tw (PNum (/ 2))));
   ("phase_offsets", PSeq (twice tw (PNum 0))); ("approximate", PBool false)].
Definition li_opts (tw : bool) : dict pyval := (("infer", s2_infer tw) :: lin_opts false)%list.
Definition s2_inf (tw : bool) : infer_r :=
  {| inf_inferred := ["S2"]; inf_reference := ["M2"]; inf_amp := twice tw (/ 2); inf_off := twice tw 0; inf_approx := false |}.
Lemma s2_select m tw : ut_cnstitsel ex_tref m (PSeq [PStr "M2"]) (Some (s2_inf tw)) = Ok inf_sel.
Proof.
  destruct tw; [|exact (inf_select m false)].
  assert (F47 := freq_at 47 ltac:(lia)). assert (F56 := freq_at 56 ltac:(lia)).
  unfold ut_cnstitsel, initial_lind. cbv zeta. revert F47 F56. generalize (linearized_freqs ex_tref) as fr. intros fr F47 F56.
  cbn [eq_str as_names mapM bind]. rewrite M2_index. cbn [bind s2_inf inf_inferred inf_reference app mapM]. rewrite S2_index, M2_index.
  cbn [bind filter existsb Nat.eqb orb negb take_idx mapM length]. unfold take_idx. cbn [mapM bind].
  change (first_occ ["M2"]) with ["M2"]. cbn [mapM]. unfold one_ref. rewrite M2_index. cbn [bind]. rewrite F47. cbn [bind inf_reference s2_inf].
  change (map fst (filter (fun p : nat * string => String.eqb "M2" (snd p)) (enumerate ["M2"]))) with [0%nat]. cbn [mapM].
  unfold one_inferred. cbn [inf_amp inf_off inf_inferred s2_inf twice length Nat.ltb Nat.leb Nat.add].
  change (seq_get [/ 2; / 2] 0) with (Ok (/ 2)). change (seq_get [0; 0] 0) with (Ok 0). change (seq_get ["S2"] 0) with (Ok "S2").
  change (seq_get [/ 2; / 2] 1) with (Ok (/ 2)). change (seq_get [0; 0] 1) with (Ok 0). cbn [bind].
  rewrite S2_index. cbn [bind]. rewrite F56. cbn [bind map fst snd List.concat flat_map app length Nat.add].
  replace (Cmult (RtoC (/ 2)) (cis (- (0 * PI / 180)))) with (Cconj half); [reflexivity|].
  unfold half, cis. replace (- (0 * PI / 180)) with 0 by field. replace (0 * PI / 180) with 0 by field. rewrite cos_0, sin_0. apply injective_projections; cbn; ring.
Qed.

(** the library: the fitted coefficients are [m0]; matrices are their own inverse *)
Definition unitL (B0 : cmat) (x0 m0 : list C) : lib :=
  {| l_parse := fun _ => None;
     l_lstsq := fun B x _ => if list_eq_dec (list_eq_dec Cdec) B B0 then if list_eq_dec Cdec x x0 then Ok (m0, [], length m0, []) else Err LinAlgError else Err LinAlgError;
     l_pinv := fun X => Ok X; l_inv := fun M => Ok M;
     l_svd := fun M => Ok (M, map (fun _ => 0) M, M); l_eigvals := fun M => Ok (map (fun _ => RtoC 0) M);
     l_is_PD := fun _ => true; l_spacing := fun _ => 0;
     l_mvn := fun _ m _ n => Ok (repeat m n); l_lomb := fun t x f => map (fun _ => 0) f;
     l_argsort := ins_argsort |}.

Lemma s2_basis tw o : o_nodsatnone o = true -> o_gwchnone o = true -> o_notrend o = true -> o_infer o = Some (s2_inf tw) ->
  basis ext ex_tref 4 45 o inf_sel = Ok (map (map Some) (inf_B false)).
Proof.
  intros H1 H2 H3 H4. unfold basis, bad_empty_index. rewrite H3, H4.
  assert (G1 : NodsatNone (flags_of o) = true) by exact H1. assert (G2 : GwchNone (flags_of o) = true) by exact H2. rewrite G1, G2.
  cbn [andb negb bind]. rewrite andb_false_r. rewrite ut_raw by assumption.
  cbn [inf_sel s_NRfrq s_R mapM s2_inf inf_approx]. unfold ref_columns. rewrite !ut_raw by assumption. cbn [inf_ref r_frq r_Ifrq r_lind r_Ilind r_Rp r_Rm length Nat.eqb].
  cbn [bind fst snd]. unfold ext, first_col. cbn [map nth combine fst snd].
  rewrite !etil_p_val, !etil_m_val by apply ex_wave_nz.
  unfold inf_B, inf_row, inf_p, et, ex_e, ext. cbn [map fold_left hcat combine app fst snd oconj option_map].
  rewrite !conj_conj. reflexivity.
Qed.

Section Widths.
Variables (tw : bool) (x0 x1 x2 x3 y0 y1 y2 y3 : R).
Definition zeta : C := if tw then (1, 1) else RtoC 1.
Definition mz : list C := [Cmult zeta (RtoC (/ 2)); Cmult zeta (RtoC (/ 2)); RtoC 0].
Notation B := (rows4 x0 x1 x2 x3 y0 y1 y2 y3).
Definition zdat : list C := map (fun x => Cmult zeta (RtoC (2 * x))) [x0; x1; x2; x3].
Lemma mz_fit : cmatvec B mz = map (fun x => Cmult zeta (RtoC x)) [x0; x1; x2; x3].
Proof.
  unfold cmatvec, rows4, mz, cdot. cbn [map combine fst snd csum fold_right]. generalize zeta. intros [a b].
  do 3 (f_equal; [apply injective_projections; cbn; field|]). f_equal. apply injective_projections; cbn; field.
Qed.
Definition sx : R := x0 ^ 2 + x1 ^ 2 + x2 ^ 2 + x3 ^ 2.
Definition sy : R := y0 ^ 2 + y1 ^ 2 + y2 ^ 2 + y3 ^ 2.
Lemma unit_gammas L : (forall M, l_inv L M = Ok M) -> exists g, gammas L B 3 ex_W zdat (cmatvec B mz) = Ok (Some g) /\
  let G := block true g 1 0 in let H := block false g 1 0 in
  varXu G G = 8 * (sx * sx) /\ varYu H H = 8 * (sx * sy) /\ (tw = true -> varXv H H = 8 * (sx * sx) /\ varYv G G = 8 * (sx * sy)).
Proof.
  intros HI. unfold gammas. change (all_finite ex_W) with (Some [1; 1; 1; 1]). cbv beta iota zeta. rewrite !HI. cbn [bind].
  match goal with |- context [Req_EM_T ?d 0] => set (dof := d) end.
  assert (D : dof = 1) by (unfold dof, rows4; cbn; lra). clearbody dof. subst dof.
  destruct (Req_EM_T 1 0) as [Z|_]; [lra|]. eexists. split; [reflexivity|]. cbv zeta. rewrite mz_fit.
  unfold block, cent, varXu, varYu, varXv, varYv, re4, gram, cconj_mat, rows4, wdot, zdat, zeta, sx, sy.
  cbn [map combine fst snd seq nth Nat.add].
  split; [|split].
  - destruct tw; cbv [csum fold_right Cmult Cplus Cminus Copp Cdiv Cinv Cconj RtoC fst snd]; field; lra.
  - destruct tw; cbv [csum fold_right Cmult Cplus Cminus Copp Cdiv Cinv Cconj RtoC fst snd]; field; lra.
  - intros ->. cbv [csum fold_right Cmult Cplus Cminus Copp Cdiv Cinv Cconj RtoC fst snd]. split; field; lra.
Qed.
End Widths.

(** ** the run *)
Section Run.
Variable tw : bool.
Notation ex k := (fst (et k)).
Notation ey k := (snd (et k)).
Notation B := (rows4 (ex 0) (ex 1) (ex 2) (ex 4) (ey 0) (ey 1) (ey 2) (ey 4)).
Notation data := (zdat tw (ex 0) (ex 1) (ex 2) (ex 4)).
Notation m0 := (mz tw).
Definition liL : lib := unitL B data m0.
Definition lz (k : R) : C := Cmult (zeta tw) (RtoC (2 * ex k)).
Definition liu : pyarr (list xr) := four_u (lz 0) (lz 1) (lz 2) (lz 4).
Definition liv : option (pyarr (list xr)) := four_v tw (lz 0) (lz 1) (lz 2) (lz 4).
Definition lism : list (R * C) := four_sm (lz 0) (lz 1) (lz 2) (lz 4).
Lemma li_real : tw = false -> forall y, In y (zs (lz 0) (lz 1) (lz 2) (lz 4)) -> snd y = 0.
Proof.
  intros T y Hy. unfold zs, lz, zeta in Hy. rewrite T in Hy. cbn [In] in Hy.
  assert (G : forall x, snd (Cmult (RtoC 1) (RtoC x)) = 0) by (intros x; unfold RtoC; cbn; ring).
  repeat (destruct Hy as [<-|Hy]; [apply G|]). destruct Hy.
Qed.
Lemma li_B : inf_B false = B.
Proof. unfold inf_B, inf_row, inf_p, rows4, ext. cbn [map]. now rewrite <- !surjective_pairing. Qed.
Lemma li_fit : model_fit tw B m0 = cmatvec B m0.
Proof.
  unfold model_fit. rewrite mz_fit. destruct tw; [reflexivity|]. rewrite map_map. apply map_ext. intros x. unfold zeta, RtoC. apply injective_projections; cbn; ring.
Qed.
Lemma li_shape : lstsq_shape liL.
Proof.
  intros B' x rc m r k s H row Hr. cbn [liL unitL l_lstsq] in H. destruct (list_eq_dec _ B' B) as [->|]; [|discriminate].
  destruct (list_eq_dec _ x _) as [->|]; [|discriminate]. apply Ok_inj in H. injection H as <- _ _ _.
  unfold rows4 in Hr. cbn [map In] in Hr. repeat (destruct Hr as [<-|Hr]; [reflexivity|]). destruct Hr.
Qed.
Lemma li_conf o e si : o_white o = true -> o_linci o = true -> o_twodim o = tw -> o_infer o = Some (s2_inf tw) ->
  exists w w', confidence liL o inf_sel (si_tin si) (si_t si) e (si_elor si) data (cmatvec B m0) ex_W B 3 (conf_input tw m0 inf_sel) = Ok [w; w'] /\ exists d, ci_maj w = Fin d.
Proof.
  intros H1 H2 HT H3. unfold confidence. rewrite H1, H3, H2. cbn [bind].
  destruct (unit_gammas tw (ex 0) (ex 1) (ex 2) (ex 4) (ey 0) (ey 1) (ey 2) (ey 4) liL (fun _ => eq_refl)) as (g & -> & V1 & V2 & V34). cbv zeta in *. cbn [bind].
  set (S := sx _ _ _ _) in *. set (Y := sy _ _ _ _) in *.
  assert (P1 : 0 <= 8 * (S * S)) by nra.
  assert (P2 : 0 <= 8 * (S * Y)).
  { assert (0 <= S) by (unfold S, sx; repeat apply Rplus_le_le_0_compat; apply pow2_ge_0).
    assert (0 <= Y) by (unfold Y, sy; repeat apply Rplus_le_le_0_compat; apply pow2_ge_0). assert (0 <= S * Y) by now apply Rmult_le_pos. lra. }
  clearbody S Y. unfold conf_input, inf_sel. cbn [all_pm s_nNR s_nR]. 
  match goal with |- context [mapM_idx _ 0 ?l] => set (xs := l) end.
  assert (E : exists x, xs = [x] /\ x_Xu x = 1 /\ x_Yu x = 0 /\ (tw = true -> x_Xv x = 1 /\ x_Yv x = 0)).
  { unfold xs, mz, zeta. eexists. split; [reflexivity|]. cbn [x_Xu x_Yu x_Xv x_Yv]. 
    unfold cslice. cbn [seq map nth combine fst snd skipn firstn Nat.add Nat.mul]. unfold Xu_of, Yu_of, Xv_of, Yv_of. destruct tw; cbn; repeat split; try (field); discriminate. }
  destruct E as (x & -> & X1 & X2 & X34). cbn [mapM_idx length]. unfold conf_one. rewrite H2, HT. cbv zeta. cbn [bind].
  eexists. eexists. split; [reflexivity|]. cbn [n_uu n_vv option_map].
  rewrite X1, X2, V1, V2. destruct tw.
  - destruct (X34 eq_refl) as [-> ->]. destruct (V34 eq_refl) as [-> ->].
    destruct (linear2_widths 1 0 1 0 (8 * (S * S)) (8 * (S * Y)) (8 * (S * S)) (8 * (S * Y))) as (d1 & d2 & d3 & d4 & _ & _ & _ & _ & W & _); auto.
    { unfold circular. lra. }
    eexists. exact W.
  - eexists. refine (proj1 (linear1_closed 1 0 (8 * (S * S)) (8 * (S * Y)) _ P1 P2)). left. lra.
Qed.

Lemma li_run : exists k, analysis liL ex_t liu liv (Some 45) (li_opts tw) lism k /\ o_infer (c_opt k) = Some (s2_inf tw) /\
  Permutation (c_name k) ["M2"; "S2"] /\
  exists wr wi d, In wr (rows k) /\ In wi (rows k) /\ w_name wr = Some "M2" /\ w_name wi = Some "S2" /\
    (if tw then w_Lsmaj_ci wr = Some (Some (Fin d)) else w_A_ci wr = Some (Some (Fin d))) /\
    (tw = false -> exists A, w_A wr = Some (Some A)) /\ exists g, w_g wr = Some g.
Proof.
  assert (Hu : unique_keys (li_opts tw)) by unique_tac.
  destruct (process_opts (li_opts tw) tw) as [compat|] eqn:E; [|destruct tw; discriminate].
  destruct (four_slv tw (lz 0) (lz 1) (lz 2) (lz 4) li_real) as (si & S1 & S2 & S3 & S4 & S5).
  destruct (read_opt (slv_opts tw (si_equi si) compat)) as [o|] eqn:E2; [|destruct tw; injection E as <-; discriminate].
  destruct (used_options (li_opts tw) tw (si_equi si) Hu compat o E E2) as
   (_ & _ & O2 & _ & _ & U2 & U3 & U4 & U5 & U6 & _ & U7 & _ & U8 & Ur & U9 & U10 & _ & _ & _ & (inf & U11 & U12) & U13 & U15).
  assert (P2 : oget compat "epoch" = PStr "python") by (destruct tw; injection E as <-; reflexivity).
  assert (V2 : o_conf_int o = true) by exact U2. assert (V4 : o_nodiagn o = false) by exact U4.
  cbn in U3, U5, U6, U7, U8, Ur, U9, U10.
  assert (O6 : o_infer o = Some (s2_inf tw)) by (destruct tw; cbn in U11; injection U11 as <-; cbn in U12; injection U12 as <-; reflexivity). clear U11 U12.
  assert (O8 : o_ordercnstit o = PStr "frequency") by (cbn in U13; congruence).
  assert (Z4 : zs (lz 0) (lz 1) (lz 2) (lz 4) = data) by reflexivity. rewrite Z4 in S4.
  assert (F : fit liL (si_t si) (si_u si) (si_v si) (si_tref si) (si_lor si) 45 o inf_sel = Ok (B, data, m0, ex_W)).
  { unfold fit. rewrite S2, S3, S5.
    assert (Bs : basis ext ex_tref 4 45 o inf_sel = Ok (map (map Some) (inf_B false))).
    { apply s2_basis with (tw := tw); (assumption || congruence). }
    rewrite Bs. cbn [bind]. rewrite finite_some, U10, S4. cbn [eq_str String.eqb Ascii.eqb Bool.eqb].
    rewrite li_B. cbn [liL unitL l_lstsq]. destruct (list_eq_dec _ B B) as [_|N]; [|now exfalso]. destruct (list_eq_dec _ data data) as [_|N]; [|now exfalso]. reflexivity. }
  assert (O11 : ut_cnstitsel ex_tref (xdiv (Fin (o_rmin o)) (Fin (24 * 4))) (o_cnstit o) (o_infer o) = Ok inf_sel) by (rewrite U5, O6; apply s2_select).
  assert (SL := sel_lens_ok _ _ _ _ _ O11).
  assert (A1 : forall c1, ci_stage liL o inf_sel si 45 B data m0 ex_W = Ok c1 -> aligned c1).
  { intros c1 H. refine (proj1 (ci_stage_aligned _ _ _ _ _ _ _ _ _ _ SL _ _ H)); [cbn; lia|intros Z; rewrite O6 in Z; discriminate Z]. }
  assert (CS : exists w w', ci_stage liL o inf_sel si 45 B data m0 ex_W =
    Ok (set_ci (coef_core (si_tref si) (si_lor si) 45 o inf_sel m0 ex_W) (o_twodim o) [w; w']) /\ exists d, ci_maj w = Fin d).
  { unfold ci_stage. rewrite V2. rewrite U6. change (2 * (s_nNR inf_sel + s_nR inf_sel) + 1 + 0)%nat with 3%nat.
    rewrite O2, li_fit. edestruct li_conf as (w & w' & CF & CD); [exact U9|exact U3|exact O2|exact O6|]. exists w, w'. split; [|exact CD].
    match goal with |- bind ?e _ = _ => replace e with (Ok [w; w']) by (symmetry; exact CF) end. reflexivity. }
  destruct CS as (w & w' & C1 & d & Hd). assert (A := A1 _ C1). clear A1. set (core := coef_core _ _ _ _ _ _ _) in *. set (c1 := set_ci core (o_twodim o) [w; w']) in *.
  destruct (diag_ok [] o c1 A) as (pe & sn & dd & C2).
  { unfold energies, c1, core. cbn. destruct (o_twodim o); cbn; eauto. }
  { unfold noises, c1, core. cbn. destruct (o_twodim o); cbn; eauto. }
  assert (C2' : diag_stage liL o c1 = Ok (if o_nodiagn o then c1 else set_diag c1 (Some pe) (Some sn) (Some dd))) by exact C2. clear C2. rename C2' into C2.
  rewrite V4 in C2. set (c2 := set_diag c1 _ _ _) in *.
  assert (SB2 : aligned c2). { refine (proj1 (diag_stage_aligned _ _ _ _ A C2)). }
  assert (Hi : forall i, In i (l_argsort liL (map Fin (c_frq c2))) -> (i < length (c_name c2))%nat).
  { intros i H. apply (argsort_in []) in H. rewrite map_length in H. destruct SB2 as (K & _). lia. }
  destruct (apply_order_ok c2 _ SB2 Hi) as [k Hk]. exists k.
  assert (C3 : reorder liL c2 (o_ordercnstit o) = Ok k).
  { rewrite reorder_eq, O8. unfold order_stage. cbn [eq_str String.eqb Ascii.eqb Bool.eqb bind fst snd]. exact Hk. }
  assert (T2 : is2d liv = tw) by (unfold liv, four_v; destruct tw; reflexivity).
  assert (SV : solve liL ex_t liu liv (Some 45) (li_opts tw) = Ok k).
  { rewrite <- P2 in S1. rewrite <- T2 in E at 2. rewrite <- T2 in E2. rewrite <- S3, <- S5 in O11. exact (solve_intro liL _ _ _ _ _ _ _ _ _ _ _ _ _ _ _ _ E S1 E2 O11 F C1 C2 C3). }
  assert (SB := reorder_base _ _ _ _ C3). assert (SB1 := diag_stage_base _ _ _ _ C2). split.
  - constructor; auto.
    + apply li_shape.
    + exact (ex_perm []).
    + intros x Hx'.
      assert (HD : In "order_constit" (keys documented)) by (cbn; auto 20).
      assert (K := setting_val _ _ _ Hu HD Hx'). subst x. unfold sorted_order. cbn. auto.
    + exists (PStr "python"). split; [left; cbn; auto 20|]. apply four_samples. exact li_real.
    + discriminate.
  - rewrite (sb_opt _ _ SB), (sb_opt _ _ SB1).
    unfold c1, core. cbn [set_ci coef_core c_opt].
    split; [exact O6|].
    destruct (reorder_rows liL _ _ _ (ex_perm []) SB2 (or_intror (or_intror O8)) C3) as [RP NP].
    split; [exact NP|].
    exists (crow_of c2 0), (crow_of c2 1), d. split; [apply (Permutation_in _ (Permutation_sym RP)); now left|].
    split; [apply (Permutation_in _ (Permutation_sym RP)); right; now left|]. split; [reflexivity|]. split; [reflexivity|].
    cbn [crow_of w_g w_A w_A_ci w_Lsmaj_ci c2 set_diag c1 set_ci core coef_core c_g c_A c_A_ci c_Lsmaj_ci]. rewrite O2, <- Hd.
    split; [destruct tw; reflexivity|]. split; [intros ->; eexists; reflexivity|eexists; reflexivity].
Qed.
End Run.
