(** A robust run of solve with the default settings: the mean of -1, -1, 1, 1. *)
From Coq Require Import Lia Lra Permutation.
From Verif Require Import M_Base M_Lib M_Tables M_Const M_Options M_Time M_Slvinit M_Harmonics M_Select M_Ellipse
  M_Robust M_Period M_Conf M_Diag M_Solve M_Recon S_Dict S_Options S_Slv S_Order S_Basis S_Select S_Fit S_Ellipse S_Recon S_Model S_Robust
  L_Base L_Options L_SolveInv L_OptSolve L_Slv L_Slv2 L_Tables L_Order L_Select L_Fit L_Align L_SelOrder L_Order2 L_Order3 L_Example L_Example3
  L_Robust L_Robust2 L_Robust3 L_Robust5.
Open Scope R_scope.
Open Scope string_scope.

Definition yp : list C := map RtoC [-1; -1; 1; 1].
(** the common weight after the first pass *)
Definition wp : R := 1 / (1 + (1 / (Rabs 2.385 * sqrt (1 - 1 / 4) * (1 / 0.6745))) ^ 2).
Lemma wp_range : 0 < wp < 0.92.
Proof.
  unfold wp. set (q := sqrt (1 - 1 / 4)).
  assert (Q1 : 0 < q) by (apply sqrt_lt_R0; lra). assert (Q2 : q * q = 3 / 4) by (unfold q; rewrite sqrt_sqrt; lra).
  rewrite (Rabs_pos_eq 2.385) by lra. set (z := (1 / (2.385 * q * (1 / 0.6745))) ^ 2).
  assert (Z : z = 0.6745 ^ 2 / (2.385 ^ 2 * (3 / 4))).
  { unfold z. rewrite <- Q2. field. lra. }
  assert (Z1 : 0.1 < z) by (rewrite Z; lra). split.
  - apply Rdiv_lt_0_compat; lra.
  - apply Rmult_lt_reg_r with (1 + z); [lra|]. unfold Rdiv. rewrite Rmult_assoc, Rinv_l by lra. lra.
Qed.
Definition wps : list R := [wp; wp; wp; wp].

Lemma solvep rc w : 0 < w ->
  exists ls, wsolve colL X4 yp rc (map Fin [w; w; w; w]) = Ok ls /\ ls_b ls = [RtoC 0].
Proof.
  intros H. unfold wsolve. replace (all_finite (map Fin [w; w; w; w])) with (Some [w; w; w; w]) by reflexivity.
  rewrite col_ok.
  - cbn [bind]. eexists. split; [reflexivity|]. cbn [ls_b]. f_equal. unfold col_m.
    unfold colS, colA, colI, rsum, X4, yp. cbn. apply injective_projections; cbn; field; nra.
  - intros r Hr. apply in_map_iff in Hr. destruct Hr as (p & <- & Hp). rewrite map_length. destruct p as [x y]. apply in_combine_r in Hp.
    apply repeat_spec in Hp. cbn [snd]. now subst y.
  - unfold colS, rsum, X4, yp. cbn. nra.
Qed.
Lemma misp : misfits X4 yp [RtoC 0] = map RtoC [-1; -1; 1; 1].
Proof.
  unfold misfits, csub, X4, yp, cmatvec, cdot. cbn [repeat map combine fst snd csum fold_right].
  assert (E : forall p, Cminus (RtoC p) (Cplus (Cmult (RtoC 1) (RtoC 0)) (RtoC 0)) = RtoC p) by (intros; apply injective_projections; cbn; ring).
  now rewrite !E.
Qed.
Lemma scalep : scale_is (misfits X4 yp [RtoC 0]) (1 / 0.6745).
Proof.
  rewrite misp. exists (RtoC 0), 1. split; [|split; [|reflexivity]].
  - eexists. split; [reflexivity|]. split.
    + repeat (constructor; [|repeat (constructor; [unfold lex; cbn; lra|]); constructor]). constructor.
    + cbn. apply injective_projections; cbn; field.
  - assert (E : map (fun x => Cmod (Cminus x (RtoC 0))) (map RtoC [-1; -1; 1; 1]) = [1; 1; 1; 1]).
    { cbn [map]. assert (M : forall p, Cmod (Cminus (RtoC p) (RtoC 0)) = Rabs p).
      { intros p. rewrite <- Cmod_R. f_equal. apply injective_projections; cbn; ring. }
      rewrite !M, (Rabs_left (-1)), (Rabs_pos_eq 1) by lra. replace (- -1) with 1 by ring. reflexivity. }
    rewrite E. eexists. split; [reflexivity|]. split; [|cbn; lra].
    repeat (constructor; [|repeat (constructor; [lra|]); constructor]). constructor.
Qed.
Lemma nextp w phi : wf_of "cauchy" = Some w -> weight_formula "cauchy" = Some phi ->
  map w (r_normed (misfits X4 yp [RtoC 0])
    (map (fun h => xdiv x1 (xmul (Fin 2.385) (xsqrt (Fin (1 - h))))) [1 / 4; 1 / 4; 1 / 4; 1 / 4])) = map Fin wps.
Proof.
  intros Hw Hp.
  assert (N := next_formula X4 yp "cauchy" 2.385 [1 / 4; 1 / 4; 1 / 4; 1 / 4] w phi Hw Hp [RtoC 0]).
  rewrite (N ltac:(lra) ltac:(repeat constructor; lra) _ scalep ltac:(lra)). clear N.
  rewrite misp. assert (Ep : phi = fun r => 1 / (1 + r ^ 2)) by (apply Some_eq; rewrite <- Hp; reflexivity). subst phi.
  cbn [map combine fst snd]. rewrite !Cmod_R, (Rabs_left (-1)), (Rabs_pos_eq 1) by lra. replace (- -1) with 1 by ring. reflexivity.
Qed.
Lemma rangep : Forall (fun a => 0 <= a <= 1) wps.
Proof. destruct wp_range. unfold wps. repeat (apply Forall_cons; [lra|]); apply Forall_nil. Qed.
Lemma msp w : mean_square X4 yp {| p_w := w; p_b := [RtoC 0] |} = weighted_ss w (map RtoC [-1; -1; 1; 1]) / rsum w.
Proof. unfold mean_square. cbn [p_w p_b]. now rewrite misp. Qed.
Lemma cauchy_default : dget tune_defaults "cauchy" = Some 2.385.
Proof. replace 2.385 with (2385 / 10 ^ 3) by lra. reflexivity. Qed.

Lemma runp rc n : exists r, robustfit colL X4 yp "cauchy" None rc (1 / 10 ^ 3) (S (S (S n))) = Ok r /\
  rf_b r = [RtoC 0] /\ rf_w r = map Fin wps /\ rf_iterations r = 3%nat.
Proof.
  destruct (solvep rc 1 ltac:(lra)) as (ls & E & B). destruct (solvep rc wp ltac:(apply wp_range)) as (ls' & E' & B').
  assert (E1 : wsolve colL X4 yp rc (map (fun _ => x1) yp) = Ok ls) by exact E. clear E. rename E1 into E.
  assert (E1 : wsolve colL X4 yp rc (map Fin wps) = Ok ls') by exact E'. clear E'. rename E1 into E'.
  assert (LXp : length X4 = length yp) by reflexivity.
  assert (W := wp_range).
  unfold robustfit. rewrite cauchy_default.
  cbn [bind]. replace (wfunc "cauchy") with (Ok (fun r => Ok (map w_cauchy r))) by reflexivity. cbn [bind].
  rewrite lev4. cbn [bind rf_loop]. rewrite E. cbn [bind].
  assert (N := nextp w_cauchy _ eq_refl eq_refl). rewrite residual_misfits, B.
  match goal with |- context [map w_cauchy ?x] => replace (map w_cauchy x) with (map Fin wps) by (symmetry; exact N) end.
  rewrite E'. cbn [bind].
  assert (M1 : xdiv (Fin (ls_rsumsq ls)) (xsum (map (fun _ => x1) yp)) = Fin 1).
  { destruct (wsolve_pass colL X4 yp rc ones4 (col_contract rc) LXp X4_col eq_refl ones4 ls E eq_refl (proj1 range4)) as (_ & _ & M & _).
    transitivity (Fin (mean_square X4 yp {| p_w := ones4; p_b := ls_b ls |})); [exact M|]. f_equal. rewrite B, msp. unfold weighted_ss, rsum, ones4. cbn. lra. }
  assert (M2 : xdiv (Fin (ls_rsumsq ls')) (xsum (map Fin wps)) = Fin wp).
  { destruct (wsolve_pass colL X4 yp rc ones4 (col_contract rc) LXp X4_col eq_refl wps ls' E' eq_refl rangep) as (_ & _ & M & _).
    transitivity (Fin (mean_square X4 yp {| p_w := wps; p_b := ls_b ls' |})); [exact M|]. f_equal. rewrite B', msp. unfold weighted_ss, rsum, wps. cbn. field. lra. }
  assert (I1 : xdiv (xsub (Fin 1) (Fin wp)) (Fin 1) = Fin (1 - wp)).
  { cbn [xsub xneg xadd xdiv]. destruct (Req_EM_T 1 0) as [Z|_]; [exfalso; lra|]. f_equal. field. }
  assert (I2 : xdiv (xsub (Fin wp) (Fin wp)) (Fin wp) = Fin 0).
  { cbn [xsub xneg xadd xdiv]. destruct (Req_EM_T wp 0) as [Z|_]; [exfalso; lra|]. f_equal. field. lra. }
  rewrite M1, M2. cbn [it_meansq]. rewrite I1.
  replace (xlt (Fin (1 - wp)) (Fin 0)) with false by (unfold xlt; cbn [xge]; destruct (Rle_dec 0 (1 - wp)) as [|Z]; [reflexivity|lra]).
  replace (xlt (Fin (1 - wp)) (Fin (1 / 10 ^ 3))) with false by (unfold xlt; cbn [xge]; destruct (Rle_dec (1 / 10 ^ 3) (1 - wp)) as [|Z]; [reflexivity|lra]).
  rewrite residual_misfits, B'.
  match goal with |- context [map w_cauchy ?x] => replace (map w_cauchy x) with (map Fin wps) by (symmetry; exact N) end.
  cbn [bind]. rewrite E'. cbn [bind]. rewrite M2. cbn [it_meansq]. rewrite I2.
  replace (xlt (Fin 0) (Fin 0)) with false by (unfold xlt; cbn [xge]; destruct (Rle_dec 0 0) as [|Z]; [reflexivity|lra]).
  replace (xlt (Fin 0) (Fin (1 / 10 ^ 3))) with true by (unfold xlt; cbn [xge]; destruct (Rle_dec (1 / 10 ^ 3) 0) as [Z|]; [lra|reflexivity]).
  eexists. split; [reflexivity|]. cbn [rf_b rf_w rf_iterations]. split; [exact B'|]. split; reflexivity.
Qed.

(** ** the options and the call *)
Definition pair_opts : dict pyval :=
  (("method", PStr "robust") :: ("conf_int", PStr "none") :: ("order_constit", PStr "frequency") :: ("constit", PSeq []) :: base_opts)%list.
Definition up : pyarr (list xr) := four_u (RtoC (-1)) (RtoC (-1)) (RtoC 1) (RtoC 1).
Definition smp : list (R * C) := four_sm (RtoC (-1)) (RtoC (-1)) (RtoC 1) (RtoC 1).

Lemma kwp : exists r, robustfit_kw colL X4 yp (PDict false [("weight_function", PStr "cauchy")]) = Ok r /\ rf_b r = [RtoC 0] /\ rf_w r = map Fin wps.
Proof.
  assert (K : kw_nat (PNum 50) = Ok 50%nat).
  { unfold kw_nat. assert (I : Int_part 50 = 50%Z).
    { unfold Int_part. rewrite <- (tech_up 50 51); [reflexivity|lra|lra]. }
    rewrite I. destruct (Req_EM_T 50 50) as [_|Z]; [reflexivity|]. now destruct Z. }
  destruct (runp (PNum 1) 47) as (r & E & H1 & H2 & _). exists r. split; [|split; [exact H1|exact H2]].
  unfold robustfit_kw. cbn [dkeys map fst forallb existsb robust_keys String.eqb Ascii.eqb Bool.eqb orb andb negb kget dget snd bind kw_num].
  rewrite K. cbn [bind]. exact E.
Qed.

Lemma pair_run : exists c, analysis colL ex_t up None (Some 45) pair_opts smp c /\ o_infer (c_opt c) = None /\
  c_weights c = map Fin wps /\ c_mean c = Some 0.
Proof.
  assert (Hu : unique_keys pair_opts) by unique_tac.
  destruct (four_slv false (RtoC (-1)) (RtoC (-1)) (RtoC 1) (RtoC 1)) as (si & S1 & S2 & S3 & S4 & S5).
  { intros _ z Hz. repeat (destruct Hz as [<-|Hz]; [reflexivity|]). destruct Hz. }
  destruct (process_opts pair_opts false) as [compat|] eqn:E; [|discriminate].
  assert (Ep : oget compat "epoch" = PStr "python") by (injection E as <-; reflexivity).
  destruct (read_opt (slv_opts false (si_equi si) compat)) as [o|] eqn:E2; [|injection E as <-; discriminate].
  destruct (used_options pair_opts false (si_equi si) Hu compat o E E2) as
   (_ & _ & U1 & _ & _ & U2 & U3 & U4 & U5 & U6 & _ & U7 & _ & U8 & Ur & U9 & U10 & Uk & _ & _ & (inf & U11 & U12) & U13 & _).
  cbn in U2, U3, U4, U5, U6, U7, U8, Ur, U9, U10, U11, U13, Uk. injection U11 as <-. injection U12 as U12.
  assert (Or : o_ordercnstit o = PStr "frequency") by congruence. assert (In0 : o_infer o = None) by congruence.
  destruct kwp as (r & K1 & K2 & K3).
  assert (BS : basis ext ex_tref (si_lor si) 45 o none_sel = Ok (map (map Some) X4)).
  { unfold none_sel. rewrite ex_basis by assumption. reflexivity. }
  assert (F : fit colL (si_t si) (si_u si) (si_v si) (si_tref si) (si_lor si) 45 o none_sel = Ok (X4, yp, rf_b r, rf_w r)).
  { unfold fit. rewrite S2, S3, BS. cbn [bind]. rewrite finite_some, U10, S4. cbn [eq_str String.eqb Ascii.eqb Bool.eqb].
    change (zs (RtoC (-1)) (RtoC (-1)) (RtoC 1) (RtoC 1)) with yp. rewrite Uk. rewrite K1. reflexivity. }
  assert (SE : ut_cnstitsel (si_tref si) (xdiv (Fin (o_rmin o)) (Fin (24 * si_lor si))) (o_cnstit o) (o_infer o) = Ok none_sel).
  { rewrite U5, In0, S3. apply none_select. }
  assert (SL := sel_lens_ok _ _ _ _ _ SE).
  set (c1 := coef_core (si_tref si) (si_lor si) 45 o none_sel (rf_b r) (rf_w r)).
  assert (C1 : ci_stage colL o none_sel si 45 X4 yp (rf_b r) (rf_w r) = Ok c1) by (unfold ci_stage; rewrite U2; reflexivity).
  assert (C2 : diag_stage colL o c1 = Ok c1) by (unfold diag_stage; rewrite U4; reflexivity).
  assert (A := core_aligned (si_tref si) (si_lor si) 45 o none_sel (rf_b r) (rf_w r) SL ltac:(cbn; lia)). fold c1 in A.
  assert (Hi : forall i, In i (l_argsort colL (map Fin (c_frq c1))) -> (i < length (c_name c1))%nat).
  { intros i H. apply (argsort_in []) in H. rewrite map_length in H. destruct A as (A & _). lia. }
  destruct (apply_order_ok c1 _ A Hi) as [c Hc].
  assert (C3 : reorder colL c1 (o_ordercnstit o) = Ok c).
  { rewrite reorder_eq, Or. unfold order_stage. cbn [eq_str String.eqb Ascii.eqb Bool.eqb bind fst snd]. exact Hc. }
  assert (SV : solve colL ex_t up None (Some 45) pair_opts = Ok c).
  { rewrite <- Ep in S1. exact (solve_intro colL ex_t up None 45 pair_opts _ _ _ _ _ _ _ _ _ _ _ E S1 E2 SE F C1 C2 C3). }
  assert (SB := reorder_base _ _ _ _ C3). exists c. split.
  - constructor; auto.
    + exact col_shape.
    + exact (ex_perm []).
    + intros x Hx'. assert (HD : In "order_constit" (keys documented)) by (cbn; auto 20).
      assert (HO : setting pair_opts "order_constit" (PStr "frequency")) by (left; cbn; auto 20).
      assert (EE := setting_val _ _ _ Hu HD Hx'). rewrite (setting_val _ _ _ Hu HD HO) in EE. subst x. unfold sorted_order. auto.
    + exists (PStr "python"). split; [left; cbn; auto 20|].
      exact (four_samples false (RtoC (-1)) (RtoC (-1)) (RtoC 1) (RtoC 1) ltac:(intros _ z Hz; repeat (destruct Hz as [<-|Hz]; [reflexivity|]); destruct Hz)).
    + discriminate.
  - rewrite (sb_opt _ _ SB), (sb_weights _ _ SB), (sb_mean _ _ SB). unfold c1. cbn [coef_core c_opt c_weights c_mean].
    split; [exact In0|]. split; [exact K3|]. rewrite U1, U6, K2. reflexivity.
Qed.
