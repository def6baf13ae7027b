(** Runs of solve without constituents: the mean of 0, 0, 8, 1. *)
From Coq Require Import Lia Lra Permutation.
From Verif Require Import M_Base M_Lib M_Tables M_Const M_Options M_Time M_Slvinit M_Harmonics M_Select M_Ellipse
  M_Robust M_Period M_Conf M_Diag M_Solve M_Recon S_Dict S_Options S_Slv S_Order S_Basis S_Select S_Fit S_Ellipse S_Recon S_Model S_Robust S_RobustKw S_Choice S_Equal
  L_Base L_Options L_SolveInv L_OptSolve L_Slv L_Slv2 L_Tables L_Order L_Select L_Fit L_Align L_SelOrder L_Order2 L_Order3 L_Recon L_Example L_Example3
  L_Model L_Model2 L_Model11 L_Robust L_Robust2 L_Robust3 L_Robust5 L_Example13 L_Choice.
Open Scope R_scope.
Open Scope string_scope.

Definition ym : list C := map RtoC [0; 0; 8; 1].
Definition keptm : list R := [1; 1; 0; 1].

Lemma Xm_len : length X4 = length ym.
Proof. reflexivity. Qed.
Lemma Xm_col : exists row, In row X4 /\ row <> [].
Proof. exists [RtoC 1]. split; [now left|discriminate]. Qed.
Lemma solvem rc a b c d : 0 < a ^ 2 + b ^ 2 + c ^ 2 + d ^ 2 ->
  exists ls, wsolve colL X4 ym rc (map Fin [a; b; c; d]) = Ok ls /\
    ls_b ls = [RtoC ((8 * c ^ 2 + d ^ 2) / (a ^ 2 + b ^ 2 + c ^ 2 + d ^ 2))].
Proof.
  intros H. unfold wsolve. replace (all_finite (map Fin [a; b; c; d])) with (Some [a; b; c; d]) by reflexivity.
  rewrite col_ok.
  - cbn [bind]. eexists. split; [reflexivity|]. cbn [ls_b]. f_equal. unfold col_m.
    unfold colS, colA, colI, rsum, X4, ym. cbn. apply injective_projections; cbn; field; lra.
  - intros r Hr. apply in_map_iff in Hr. destruct Hr as (p & <- & Hp). rewrite map_length. destruct p as [x y]. apply in_combine_r in Hp.
    apply repeat_spec in Hp. cbn [snd]. now subst y.
  - unfold colS, rsum, X4, ym. cbn. lra.
Qed.
Lemma mism b : misfits X4 ym [RtoC b] = map RtoC [0 - b; 0 - b; 8 - b; 1 - b].
Proof.
  unfold misfits, csub, X4, ym, cmatvec, cdot. cbn [repeat map combine fst snd csum fold_right].
  assert (E : forall p, Cminus (RtoC p) (Cplus (Cmult (RtoC 1) (RtoC b)) (RtoC 0)) = RtoC (p - b)) by (intros; apply injective_projections; cbn; ring).
  now rewrite !E.
Qed.
Lemma scalem b : scale_is (misfits X4 ym [RtoC b]) (1 / 2 / 0.6745).
Proof.
  rewrite mism. exists (RtoC (1 / 2 - b)), (1 / 2). split; [|split; [|reflexivity]].
  - exists (map RtoC [0 - b; 0 - b; 1 - b; 8 - b]). split; [cbn [map]; do 2 apply perm_skip; apply perm_swap|]. split.
    + repeat (constructor; [|repeat (constructor; [unfold lex; cbn; lra|]); constructor]). constructor.
    + cbn. apply injective_projections; cbn; field.
  - assert (E : map (fun x => Cmod (Cminus x (RtoC (1 / 2 - b)))) (map RtoC [0 - b; 0 - b; 8 - b; 1 - b]) = [1 / 2; 1 / 2; 15 / 2; 1 / 2]).
    { cbn [map]. assert (M : forall p q, 0 <= q -> p - (1 / 2 - b) = q \/ p - (1 / 2 - b) = - q -> Cmod (Cminus (RtoC p) (RtoC (1 / 2 - b))) = q).
      { intros p q Hq Hp. replace (Cminus (RtoC p) (RtoC (1 / 2 - b))) with (RtoC (p - (1 / 2 - b))) by (apply injective_projections; cbn; ring).
        rewrite Cmod_R. destruct Hp as [-> | ->]; [|rewrite Rabs_Ropp]; now apply Rabs_pos_eq. }
      rewrite (M (0 - b) (1 / 2)), (M (8 - b) (15 / 2)), (M (1 - b) (1 / 2)); [reflexivity|lra|left; lra|lra|left; lra|lra|right; lra]. }
    rewrite E. exists [1 / 2; 1 / 2; 1 / 2; 15 / 2]. split; [do 2 apply perm_skip; apply perm_swap|]. split; [|cbn; lra].
    repeat (constructor; [|repeat (constructor; [lra|]); constructor]). constructor.
Qed.
Lemma nextm w phi : wf_of "talwar" = Some w -> weight_formula "talwar" = Some phi ->
  map w (r_normed (misfits X4 ym [RtoC (9 / 4)])
    (map (fun h => xdiv x1 (xmul (Fin 4) (xsqrt (Fin (1 - h))))) [1 / 4; 1 / 4; 1 / 4; 1 / 4])) = map Fin keptm.
Proof.
  intros Hw Hp.
  assert (N := next_formula X4 ym "talwar" 4 [1 / 4; 1 / 4; 1 / 4; 1 / 4] w phi Hw Hp [RtoC (9 / 4)]).
  rewrite (N ltac:(lra) ltac:(repeat constructor; lra) _ (scalem (9 / 4)) ltac:(lra)). clear N.
  rewrite mism. assert (Ep : phi = fun r => if Rlt_dec r 1 then 1 else 0) by (apply Some_eq; rewrite <- Hp; reflexivity). subst phi.
  set (q := sqrt (1 - 1 / 4)).
  assert (Q1 : 0 < q) by (apply sqrt_lt_R0; lra). assert (Q2 : q * q = 3 / 4) by (unfold q; rewrite sqrt_sqrt; lra).
  rewrite (Rabs_pos_eq 4) by lra.
  assert (D : 0 < 4 * q * (1 / 2 / 0.6745)) by nra.
  assert (IL : forall x, Rabs x < 2.5 -> (if Rlt_dec (Cmod (RtoC x) / (4 * q * (1 / 2 / 0.6745))) 1 then 1 else 0) = 1).
  { intros x Hx. destruct (Rlt_dec _ 1) as [|Z]; [reflexivity|]. destruct Z. rewrite Cmod_R. apply Rmult_lt_reg_r with (1 := D).
    unfold Rdiv at 1. rewrite Rmult_assoc, Rinv_l by lra. assert (0.86 < q) by nra. nra. }
  assert (IG : forall x, 3 < Rabs x -> (if Rlt_dec (Cmod (RtoC x) / (4 * q * (1 / 2 / 0.6745))) 1 then 1 else 0) = 0).
  { intros x Hx. destruct (Rlt_dec _ 1) as [Q|]; [|reflexivity]. exfalso. rewrite Cmod_R in Q. apply (Rmult_lt_compat_r _ _ _ D) in Q.
    unfold Rdiv at 1 in Q. rewrite Rmult_assoc, Rinv_l in Q by lra. assert (q < 0.9) by nra. nra. }
  cbn [map combine fst snd]. fold q.
  rewrite (IL (0 - 9 / 4)), (IL (1 - 9 / 4)) by (apply Rabs_def1; lra).
  rewrite (IG (8 - 9 / 4)) by (rewrite Rabs_pos_eq; lra).
  reflexivity.
Qed.
Lemma rangem : Forall (fun a => 0 <= a <= 1) ones4 /\ Forall (fun a => 0 <= a <= 1) keptm.
Proof. split; unfold ones4, keptm; repeat (apply Forall_cons; [lra|]); apply Forall_nil. Qed.
Lemma msm w b : mean_square X4 ym {| p_w := w; p_b := [RtoC b] |} = weighted_ss w (map RtoC [0 - b; 0 - b; 8 - b; 1 - b]) / rsum w.
Proof. unfold mean_square. cbn [p_w p_b]. now rewrite mism. Qed.

Lemma runm rc n : exists r, robustfit colL X4 ym "talwar" (Some 4) rc 1 (S (S n)) = Ok r /\
  rf_b r = [RtoC (1 / 3)] /\ rf_w r = map Fin keptm.
Proof.
  destruct (solvem rc 1 1 1 1 ltac:(lra)) as (ls & E & B). destruct (solvem rc 1 1 0 1 ltac:(lra)) as (ls' & E' & B').
  assert (E1 : wsolve colL X4 ym rc (map (fun _ => x1) ym) = Ok ls) by exact E. clear E. rename E1 into E.
  assert (E1 : wsolve colL X4 ym rc (map Fin keptm) = Ok ls') by exact E'. clear E'. rename E1 into E'.
  replace ((8 * 1 ^ 2 + 1 ^ 2) / (1 ^ 2 + 1 ^ 2 + 1 ^ 2 + 1 ^ 2)) with (9 / 4) in B by field.
  replace ((8 * 0 ^ 2 + 1 ^ 2) / (1 ^ 2 + 1 ^ 2 + 0 ^ 2 + 1 ^ 2)) with (1 / 3) in B' by field.
  unfold robustfit.
  cbn [bind]. replace (wfunc "talwar") with (Ok (fun r => Ok (map w_talwar r))) by reflexivity. cbn [bind].
  rewrite lev4. cbn [bind rf_loop]. rewrite E. cbn [bind].
  assert (N := nextm w_talwar _ eq_refl eq_refl). rewrite residual_misfits, B.
  match goal with |- context [map w_talwar ?x] => replace (map w_talwar x) with (map Fin keptm) by (symmetry; exact N) end. clear N.
  rewrite E'. cbn [bind].
  assert (M1 : xdiv (Fin (ls_rsumsq ls)) (xsum (map (fun _ => x1) ym)) = Fin (11.1875)).
  { destruct (wsolve_pass colL X4 ym rc ones4 (col_contract rc) Xm_len Xm_col eq_refl ones4 ls E eq_refl (proj1 rangem)) as (_ & _ & M & _).
    transitivity (Fin (mean_square X4 ym {| p_w := ones4; p_b := ls_b ls |})); [exact M|]. f_equal. rewrite B, msm. unfold weighted_ss, rsum, ones4. cbn. lra. }
  assert (M2 : xdiv (Fin (ls_rsumsq ls')) (xsum (map Fin keptm)) = Fin (2 / 9)).
  { destruct (wsolve_pass colL X4 ym rc ones4 (col_contract rc) Xm_len Xm_col eq_refl keptm ls' E' eq_refl (proj2 rangem)) as (_ & _ & M & _).
    transitivity (Fin (mean_square X4 ym {| p_w := keptm; p_b := ls_b ls' |})); [exact M|]. f_equal. rewrite B', msm. unfold weighted_ss, rsum, keptm. cbn. lra. }
  rewrite M1, M2. cbn [it_meansq xsub xneg xadd xdiv]. destruct (Req_EM_T 11.1875 0) as [Z|_]; [exfalso; lra|].
  replace (xlt (Fin ((11.1875 + - (2 / 9)) / 11.1875)) (Fin 0)) with false by (unfold xlt; cbn [xge]; destruct (Rle_dec 0 ((11.1875 + - (2 / 9)) / 11.1875)) as [|Z]; [reflexivity|lra]).
  replace (xlt (Fin ((11.1875 + - (2 / 9)) / 11.1875)) (Fin 1)) with true by (unfold xlt; cbn [xge]; destruct (Rle_dec 1 ((11.1875 + - (2 / 9)) / 11.1875)) as [Z|]; [lra|reflexivity]).
  eexists. split; [reflexivity|]. cbn [rf_b rf_w]. split; [exact B'|]. reflexivity.
Qed.


(** ** the calls *)
Definition one_opts (me kw : pyval) : dict pyval :=
  (("method", me) :: ("robust_kw", kw) :: ("conf_int", PStr "none") :: ("order_constit", PStr "frequency") :: ("constit", PSeq []) :: base_opts)%list.
Definition ext3 : list R := [0; 1; 4].
Definition t3 : pyarr tarray := NdArr [3%nat] (TNum (map Fin ext3)) [].
Definition u3 : pyarr (list xr) := NdArr [3%nat] (map Fin [0; 0; 1]) [].
Definition X3 : cmat := repeat [RtoC 1] 3.
Definition y3 : list C := map RtoC [0; 0; 1].
Definition sm3 : list (R * C) := combine ext3 y3.
Definition um : pyarr (list xr) := four_u (RtoC 0) (RtoC 0) (RtoC 8) (RtoC 1).
Definition smm : list (R * C) := four_sm (RtoC 0) (RtoC 0) (RtoC 8) (RtoC 1).

Lemma one_run me kw t u sm si ts X ys b W :
  slvinit (fun _ => None) t u None (Some 45) (PStr "python") = Ok si -> si_t si = ts -> si_tref si = ex_tref -> raw_data (si_u si) (si_v si) = ys ->
  samples (fun _ => None) (PStr "python") t u None sm ->
  (forall o, o_nodsatnone o = true -> o_gwchnone o = true -> o_notrend o = true -> o_infer o = None -> basis ts ex_tref (si_lor si) 45 o none_sel = Ok (map (map Some) X)) ->
  (if eq_str me "ols" then exists r k g, l_lstsq colL X ys PNone = Ok (b, r, k, g) /\ W = map (fun _ => Fin 1) ts else exists r, robustfit_kw colL X ys kw = Ok r /\ rf_b r = b /\ rf_w r = W) ->
  length b = 1%nat -> sm <> [] ->
  exists c, analysis colL t u None (Some 45) (one_opts me kw) sm c /\ o_infer (c_opt c) = None /\ o_method (c_opt c) = me /\ c_weights c = W /\
    o_nodsatnone (c_opt c) = true /\ o_gwchnone (c_opt c) = true /\ o_notrend (c_opt c) = true /\ o_twodim (c_opt c) = false /\ c_name c = [] /\ c_lind c = [] /\ c_reftime c = ex_tref /\
    c_mean c = Some (fst (nth 0 b (RtoC 0))).
Proof.
  intros S1 S2 S3 S4 SMP BSo FT Lb NE. set (opts := one_opts me kw).
  assert (Hu : unique_keys opts) by unique_tac.
  destruct (process_opts opts false) as [compat|] eqn:E; [|discriminate].
  assert (Ep : oget compat "epoch" = PStr "python") by (injection E as <-; reflexivity).
  destruct (read_opt (slv_opts false (si_equi si) compat)) as [o|] eqn:E2; [|injection E as <-; discriminate].
  destruct (used_options opts false (si_equi si) Hu compat o E E2) as
   (_ & _ & U1 & _ & _ & U2 & U3 & U4 & U5 & U6 & _ & U7 & _ & U8 & Ur & U9 & U10 & Uk & _ & _ & (inf & U11 & U12) & U13 & _).
  cbn in U2, U3, U4, U5, U6, U7, U8, Ur, U9, U10, U11, U13, Uk. injection U11 as <-. injection U12 as U12.
  assert (Or : o_ordercnstit o = PStr "frequency") by congruence. assert (In0 : o_infer o = None) by congruence.
  assert (BS := BSo o U7 U8 U6 In0).
  assert (F : fit colL (si_t si) (si_u si) (si_v si) (si_tref si) (si_lor si) 45 o none_sel = Ok (X, ys, b, W)).
  { unfold fit. rewrite S2, S3, BS. cbn [bind]. rewrite finite_some, U10, S4, Uk. destruct (eq_str me "ols").
    - destruct FT as (r & k & g & F1 & F2). rewrite F1, F2. reflexivity.
    - destruct FT as (r & F1 & F2 & F3). rewrite F1, <- F2, <- F3. reflexivity. }
  assert (SE : ut_cnstitsel (si_tref si) (xdiv (Fin (o_rmin o)) (Fin (24 * si_lor si))) (o_cnstit o) (o_infer o) = Ok none_sel).
  { rewrite U5, In0, S3. apply none_select. }
  assert (SL := sel_lens_ok _ _ _ _ _ SE).
  set (c1 := coef_core (si_tref si) (si_lor si) 45 o none_sel b W).
  assert (C1 : ci_stage colL o none_sel si 45 X ys b W = Ok c1) by (unfold ci_stage; rewrite U2; reflexivity).
  assert (C2 : diag_stage colL o c1 = Ok c1) by (unfold diag_stage; rewrite U4; reflexivity).
  assert (A := core_aligned (si_tref si) (si_lor si) 45 o none_sel b W SL ltac:(cbn; lia)). fold c1 in A.
  assert (Hi : forall i, In i (l_argsort colL (map Fin (c_frq c1))) -> (i < length (c_name c1))%nat).
  { intros i H. apply (argsort_in []) in H. rewrite map_length in H. destruct A as (A & _). lia. }
  destruct (apply_order_ok c1 _ A Hi) as [c Hc].
  assert (C3 : reorder colL c1 (o_ordercnstit o) = Ok c).
  { rewrite reorder_eq, Or. unfold order_stage. cbn [eq_str String.eqb Ascii.eqb Bool.eqb bind fst snd]. exact Hc. }
  assert (SV : solve colL t u None (Some 45) opts = Ok c).
  { rewrite <- Ep in S1. exact (solve_intro colL t u None 45 opts _ _ _ _ _ _ _ _ _ _ _ E S1 E2 SE F C1 C2 C3). }
  assert (SB := reorder_base _ _ _ _ C3).
  assert (NM : c_name c = [] /\ c_lind c = []).
  { assert (Q : l_argsort colL (map Fin (c_frq c1)) = []).
    { reflexivity. }
    rewrite Q in Hc. clear - Hc. unfold apply_order in Hc. inv_bind Hc. do 13 (let x := fresh in rename Ha into x; inv_bind Hc). rename Ha into L1. inv_bind Hc. injection Hc as <-.
    cbn [c_name c_lind]. unfold take_idx in *. cbn in *. split; congruence. }
  exists c. split.
  - constructor; auto.
    + exact col_shape.
    + exact (ex_perm []).
    + intros x Hx'. assert (HD : In "order_constit" (keys documented)) by (cbn; auto 20).
      assert (HO : setting opts "order_constit" (PStr "frequency")) by (left; cbn; auto 20).
      assert (EE := setting_val _ _ _ Hu HD Hx'). rewrite (setting_val _ _ _ Hu HD HO) in EE. subst x. unfold sorted_order. auto.
    + exists (PStr "python"). split; [left; cbn; auto 20|exact SMP].
  - rewrite (sb_opt _ _ SB), (sb_weights _ _ SB), (sb_mean _ _ SB), (sb_reftime _ _ SB). unfold c1. cbn [coef_core c_opt c_weights c_mean c_reftime].
    split; [exact In0|]. split; [exact U10|]. split; [reflexivity|]. split; [exact U7|]. split; [exact U8|]. split; [exact U6|]. split; [exact U1|].
    destruct NM as [-> ->]. split; [reflexivity|]. split; [reflexivity|]. split; [exact S3|].
    rewrite U1, U6. destruct b as [|b0 [|? ?]]; try discriminate. reflexivity.
Qed.

Lemma one_identifiable c ts : o_notrend (c_opt c) = true -> c_name c = [] -> c_lind c = [] -> ts <> [] -> identifiable c ts.
Proof.
  intros N3 Nm Li Ht c0 Rv H. assert (Wf := rv_wf _ _ Rv). assert (Eo := rv_opt _ _ Rv). assert (En := rv_name _ _ Rv). rewrite Nm in En.
  assert (El := rv_lind _ _ Rv). rewrite Li in El. rewrite <- Eo in H, N3.
  assert (Z3 : mnC c0 = RtoC 0).
  { destruct ts as [|x ts]; [congruence|]. destruct (H x (or_introl eq_refl)) as [Hu Hv].
    assert (Es : map (e_of c0 x) (c_lind c0) = map Some []) by now rewrite El.
    destruct (recon_vals c0 x [] Wf Es) as (R1 & R2 & R3). cbv zeta in R1, R2, R3.
    assert (EZ : Cplus (hsum [] (pms c0)) (bgC c0 x) = RtoC 0).
    { apply injective_projections; [rewrite Hu in R1; apply (f_equal (fun x => match x with Fin y => y | _ => 0 end)) in R1; symmetry; exact R1|].
      destruct (o_twodim (c_opt c0)); [|now apply R3]. rewrite (Hv eq_refl) in R2. specialize (R2 eq_refl). apply (f_equal (fun x => match x with Fin y => y | _ => 0 end)) in R2. symmetry. exact R2. }
    rewrite <- EZ. unfold bgC, hsum. rewrite N3. cbn [combine map csum fold_right fst snd]. ring. }
  split; [|split].
  - intros w Hw. unfold rows in Hw. rewrite En in Hw. destruct Hw.
  - unfold mean_is, mnC in *. destruct (o_twodim (c_opt c0)) eqn:T.
    + destruct (wf_2d _ Wf T) as (_ & _ & _ & (um' & Hm) & (vm & Hw) & _). rewrite Hm, Hw in *. cbn [od] in Z3.
      assert (X := f_equal fst Z3). assert (Y := f_equal snd Z3). cbn in X, Y. now subst.
    + destruct (wf_1d _ Wf T) as (_ & _ & (m & Hm) & _). rewrite Hm in *. cbn [od] in Z3. assert (X := f_equal fst Z3). cbn in X. now subst.
  - congruence.
Qed.

(** ** three samples *)
Lemma three_slv : exists si, slvinit (fun _ => None) t3 u3 None (Some 45) (PStr "python") = Ok si /\
  si_t si = ext3 /\ si_tref si = ex_tref /\ raw_data (si_u si) (si_v si) = y3 /\ si_lor si = 4.
Proof.
  assert (P : ptp ext3 = Ok 4).
  { unfold ptp, ext3, rmax, rmin, fold_left. f_equal. rewrite (Rmax_right 0 1), (Rmax_right 1 4), (Rmin_left 0 1), (Rmin_left 0 4) by lra. lra. }
  unfold slvinit, t3, u3. replace (check_args _ _ _ _) with (Ok tt : res unit) by reflexivity. cbn [bind].
  replace (normalize_time _ _ _) with (Ok (map Fin ext3)) by reflexivity. cbn [bind]. unfold slv_core.
  replace (clean _ _ _) with (ext3, ext3, [0; 0; 1], @None (list R)) by reflexivity.
  destruct (equi_of ext3); rewrite P; cbn [bind]; eexists; (split; [reflexivity|]); cbn [si_t si_tref si_u si_v si_lor raw_data]; repeat split.
Qed.
Lemma three_samples : samples (fun _ => None) (PStr "python") t3 u3 None sm3.
Proof.
  unfold t3, u3. assert (E : sm3 = map (fun s => (fst s, RtoC (snd s))) (valid_scalar (map Fin ext3) (map Fin [0; 0; 1]) [])) by reflexivity.
  rewrite E. apply scalar_samples; try reflexivity; split; auto.
Qed.
Lemma three_basis lor o : o_nodsatnone o = true -> o_gwchnone o = true -> o_notrend o = true -> o_infer o = None -> basis ext3 ex_tref lor 45 o none_sel = Ok (map (map Some) X3).
Proof.
  intros H1 H2 H3 H4. unfold basis, bad_empty_index, flags_of. rewrite H3, H4. cbn [NodsatNone GwchNone]. rewrite H1, H2.
  cbn [andb negb bind]. rewrite andb_false_r. unfold ut_E. cbn [NodsatNone GwchNone andb].
  cbn [none_sel ex_sel s_NRfrq]. unfold ones, ext3. cbn [length repeat bcast map E_rows]. reflexivity.
Qed.
Lemma four_basis lor o : o_nodsatnone o = true -> o_gwchnone o = true -> o_notrend o = true -> o_infer o = None -> basis ext ex_tref lor 45 o none_sel = Ok (map (map Some) X4).
Proof. intros. unfold none_sel. rewrite ex_basis by assumption. reflexivity. Qed.

Lemma int50 : kw_nat (PNum 50) = Ok 50%nat.
Proof.
  unfold kw_nat. assert (I : Int_part 50 = 50%Z).
  { unfold Int_part. rewrite <- (tech_up 50 51); [reflexivity|lra|lra]. }
  rewrite I. destruct (Req_EM_T 50 50) as [_|Z]; [reflexivity|]. now destruct Z.
Qed.
Lemma kwm : exists r, robustfit_kw colL X4 ym talwar_kw = Ok r /\ rf_b r = [RtoC (1 / 3)] /\ rf_w r = map Fin keptm.
Proof.
  destruct (runm (PNum 1) 48) as (r & E & H). exists r. split; [|exact H].
  unfold robustfit_kw, talwar_kw. cbn [dkeys map fst forallb existsb robust_keys String.eqb Ascii.eqb Bool.eqb orb andb negb kget dget snd bind kw_num].
  rewrite int50. cbn [bind]. exact E.
Qed.
Definition ols_kw : pyval := PDict false [("weight_function", PStr "ols")].
Lemma run_ones rc n : exists r, robustfit colL X4 ym "ols" None rc (1 / 10 ^ 3) (S (S n)) = Ok r /\ rf_b r = [RtoC (9 / 4)] /\ rf_w r = map Fin ones4.
Proof.
  destruct (solvem rc 1 1 1 1 ltac:(lra)) as (ls & E & B).
  assert (E1 : wsolve colL X4 ym rc (map (fun _ => x1) ym) = Ok ls) by exact E. clear E. rename E1 into E.
  replace ((8 * 1 ^ 2 + 1 ^ 2) / (1 ^ 2 + 1 ^ 2 + 1 ^ 2 + 1 ^ 2)) with (9 / 4) in B by field.
  unfold robustfit. replace (dget tune_defaults "ols") with (Some 1) by reflexivity.
  cbn [bind]. replace (wfunc "ols") with (Ok (fun r => Ok (map w_ols r))) by reflexivity. cbn [bind].
  rewrite lev4. cbn [bind rf_loop]. rewrite E. cbn [bind].
  assert (N : forall r rf, length r = 4%nat -> length rf = 4%nat -> map w_ols (r_normed r rf) = map (fun _ => x1) ym).
  { intros r rf Hr Hf. unfold r_normed. destruct r as [|? [|? [|? [|? [|? ?]]]]]; try discriminate. destruct rf as [|? [|? [|? [|? [|? ?]]]]]; try discriminate. reflexivity. }
  rewrite N by reflexivity. rewrite E. cbn [bind].
  assert (M1 : xdiv (Fin (ls_rsumsq ls)) (xsum (map (fun _ => x1) ym)) = Fin (11.1875)).
  { destruct (wsolve_pass colL X4 ym rc ones4 (col_contract rc) Xm_len Xm_col eq_refl ones4 ls E eq_refl (proj1 rangem)) as (_ & _ & M & _).
    transitivity (Fin (mean_square X4 ym {| p_w := ones4; p_b := ls_b ls |})); [exact M|]. f_equal. rewrite B, msm. unfold weighted_ss, rsum, ones4. cbn. lra. }
  rewrite M1. cbn [it_meansq xsub xneg xadd xdiv]. destruct (Req_EM_T 11.1875 0) as [Z|_]; [exfalso; lra|].
  replace (xlt (Fin ((11.1875 + - (11.1875)) / 11.1875)) (Fin 0)) with false by (unfold xlt; cbn [xge]; destruct (Rle_dec 0 ((11.1875 + - (11.1875)) / 11.1875)) as [|Z]; [reflexivity|lra]).
  replace (xlt (Fin ((11.1875 + - (11.1875)) / 11.1875)) (Fin (1 / 10 ^ 3))) with true by (unfold xlt; cbn [xge]; destruct (Rle_dec (1 / 10 ^ 3) ((11.1875 + - (11.1875)) / 11.1875)) as [Z|]; [lra|reflexivity]).
  eexists. split; [reflexivity|]. cbn [rf_b rf_w]. split; [exact B|]. reflexivity.
Qed.
Lemma kw_ones : exists r, robustfit_kw colL X4 ym ols_kw = Ok r /\ rf_b r = [RtoC (9 / 4)] /\ rf_w r = map Fin ones4.
Proof.
  destruct (run_ones (PNum 1) 48) as (r & E & H). exists r. split; [|exact H].
  unfold robustfit_kw, ols_kw. cbn [dkeys map fst forallb existsb robust_keys String.eqb Ascii.eqb Bool.eqb orb andb negb kget dget snd bind kw_num].
  rewrite int50. cbn [bind]. exact E.
Qed.
Lemma real_four : false = false -> forall z, In z (zs (RtoC 0) (RtoC 0) (RtoC 8) (RtoC 1)) -> snd z = 0.
Proof. intros _ z Hz. repeat (destruct Hz as [<-|Hz]; [reflexivity|]). destruct Hz. Qed.
Lemma lstsq_X n ys : forall rc, n <> O -> length ys = n -> exists b, l_lstsq colL (repeat [RtoC 1] n) ys rc = Ok ([b], [norm2 (csub (cmatvec (repeat [RtoC 1] n) [b]) ys)], 1%nat, [sqrt (colS (repeat [RtoC 1] n) ys)]).
Proof.
  intros rc Hn Hl. exists (col_m (repeat [RtoC 1] n) ys). apply col_ok.
  - intros r Hr. apply repeat_spec in Hr. now subst r.
  - destruct n as [|n]; [congruence|]. destruct ys as [|y0 ys]; [discriminate|]. unfold colS. cbn [repeat combine map]. rewrite rsum_cons.
    assert (0 <= rsum (map (fun p => fst (h0 (fst p)) ^ 2 + snd (h0 (fst p)) ^ 2) (combine (repeat [RtoC 1] n) ys))); [|cbn in *; lra].
    generalize (combine (repeat [RtoC 1] n) ys). clear. induction l as [|p l IH]; [unfold rsum; cbn; lra|]. cbn [map]. rewrite rsum_cons.
    assert (0 <= fst (h0 (fst p)) ^ 2) by apply pow2_ge_0. assert (0 <= snd (h0 (fst p)) ^ 2) by apply pow2_ge_0. lra.
Qed.
Lemma col_minimises : lstsq_minimises colL.
Proof. intros B x m r k s H. now apply (col_contract PNone _ _ _ _ _ _ H). Qed.

(** the mean of 0, 0, 8, 1, talwar weights; and of 0, 0, 1 *)
Lemma kept_runs : exists c k, analysis colL ex_t um None (Some 45) (one_opts (PStr "robust") talwar_kw) smm c /\
  analysis colL t3 u3 None (Some 45) (one_opts (PStr "ols") talwar_kw) sm3 k /\ same_model c k /\ c_weights c = map Fin keptm /\ kept smm keptm = sm3 /\
  approximate (c_opt c) = false /\ o_method (c_opt c) <> PStr "ols" /\ o_method (c_opt k) = PStr "ols" /\ identifiable k (map fst sm3) /\ NoDup (c_name k) /\ c_mean c = Some (1 / 3).
Proof.
  destruct (four_slv false (RtoC 0) (RtoC 0) (RtoC 8) (RtoC 1) real_four) as (si & S1 & S2 & S3 & S4 & S5). destruct kwm as (r & K1 & K2 & K3).
  destruct (one_run (PStr "robust") talwar_kw ex_t um smm si ext X4 ym [RtoC (1 / 3)] (map Fin keptm) S1 S2 S3 S4
    (four_samples false (RtoC 0) (RtoC 0) (RtoC 8) (RtoC 1) real_four) (four_basis (si_lor si)) ltac:(exists r; auto) eq_refl ltac:(discriminate)) as (c & A & H1 & H2 & H3 & H4 & H5 & H6 & H7 & H8 & H9 & H10 & H11).
  destruct three_slv as (si' & S1' & S2' & S3' & S4' & S5'). destruct (lstsq_X 3 y3 PNone ltac:(discriminate) eq_refl) as (b & F).
  destruct (one_run (PStr "ols") talwar_kw t3 u3 sm3 si' ext3 X3 y3 [b] (map (fun _ => Fin 1) ext3) S1' S2' S3' S4'
    three_samples (three_basis (si_lor si')) ltac:(do 3 eexists; split; [exact F|reflexivity]) eq_refl ltac:(discriminate)) as (k & A' & H1' & H2' & H3' & H4' & H5' & H6' & H7' & H8' & H9' & H10' & _).
  exists c, k. split; [exact A|]. split; [exact A'|].
  split. { eapply agree_model; [exact A|exact A'| |reflexivity|congruence|rewrite H8, H8'; apply Permutation_refl].
    intros q Hq. cbn [In] in Hq. repeat (destruct Hq as [<-|Hq]; [eexists; split; (first [left; cbn; tauto | right; split; [cbn; intros K; repeat (destruct K as [K|K]; [discriminate|]); exact K|cbn; tauto]])|]). destruct Hq. }
  split; [exact H3|]. split. { unfold kept, keptm, smm, four_sm, ext, zs. cbn [combine]. cbn [filter snd]. destruct (Req_EM_T 1 0) as [Z|_]; [lra|]. destruct (Req_EM_T 0 0) as [_|Z]; [|congruence]. reflexivity. }
  split; [unfold approximate; now rewrite H1|]. split; [rewrite H2; discriminate|]. split; [exact H2'|].
  split; [apply one_identifiable; auto; discriminate|]. split; [rewrite H8'; constructor|]. exact H11.
Qed.

(** the mean of 0, 0, 8, 1, weight function 'ols' and method 'ols' *)
Lemma unit_runs : exists c k, analysis colL ex_t um None (Some 45) (one_opts (PStr "robust") ols_kw) smm c /\
  analysis colL ex_t um None (Some 45) (one_opts (PStr "ols") ols_kw) smm k /\ agree (one_opts (PStr "robust") ols_kw) (one_opts (PStr "ols") ols_kw) all_but_method /\
  approximate (c_opt c) = false /\ o_method (c_opt c) <> PStr "ols" /\ o_method (c_opt k) = PStr "ols" /\ identifiable c (map fst smm) /\ NoDup (c_name c).
Proof.
  destruct (four_slv false (RtoC 0) (RtoC 0) (RtoC 8) (RtoC 1) real_four) as (si & S1 & S2 & S3 & S4 & S5). destruct kw_ones as (r & K1 & K2 & K3).
  destruct (one_run (PStr "robust") ols_kw ex_t um smm si ext X4 ym [RtoC (9 / 4)] (map Fin ones4) S1 S2 S3 S4
    (four_samples false (RtoC 0) (RtoC 0) (RtoC 8) (RtoC 1) real_four) (four_basis (si_lor si)) ltac:(exists r; auto) eq_refl ltac:(discriminate)) as (c & A & H1 & H2 & H3 & H4 & H5 & H6 & H7 & H8 & H9 & H10 & H11).
  destruct (lstsq_X 4 ym PNone ltac:(discriminate) eq_refl) as (b & F).
  destruct (one_run (PStr "ols") ols_kw ex_t um smm si ext X4 ym [b] (map (fun _ => Fin 1) ext) S1 S2 S3 S4
    (four_samples false (RtoC 0) (RtoC 0) (RtoC 8) (RtoC 1) real_four) (four_basis (si_lor si)) ltac:(do 3 eexists; split; [exact F|reflexivity]) eq_refl ltac:(discriminate)) as (k & A' & H1' & H2' & H3' & _).
  exists c, k. split; [exact A|]. split; [exact A'|]. split.
  { intros q Hq. cbn [all_but_method In] in Hq. repeat (destruct Hq as [<-|Hq]; [eexists; split; (first [left; cbn; tauto | right; split; [cbn; intros K; repeat (destruct K as [K|K]; [discriminate|]); exact K|cbn; tauto]])|]). destruct Hq. }
  split; [unfold approximate; now rewrite H1|]. split; [rewrite H2; discriminate|]. split; [exact H2'|].
  split; [apply one_identifiable; auto; discriminate|]. rewrite H8. constructor.
Qed.
