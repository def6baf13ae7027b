(** A robust run of solve: the mean of 0, 0, 1, 8. *)
From Coq Require Import Lia Lra Permutation.
From Verif Require Import M_Base M_Lib M_Tables M_Const M_Options M_Time M_Slvinit M_Harmonics M_Select M_Ellipse
  M_Robust M_Period M_Conf M_Diag M_Solve M_Recon S_Dict S_Options S_Slv S_Order S_Basis S_Select S_Fit S_Ellipse S_Recon S_Model S_Robust
  L_Base L_Options L_SolveInv L_OptSolve L_Slv L_Slv2 L_Tables L_Order L_Select L_Fit L_Align L_SelOrder L_Order2 L_Order3 L_Example L_Example3
  L_Robust L_Robust2 L_Robust3.
Open Scope R_scope.
Open Scope string_scope.

Definition X4 : cmat := repeat [RtoC 1] 4.
Definition y4 : list C := map RtoC [0; 0; 1; 8].
Definition ones4 : list R := [1; 1; 1; 1].
Definition kept4 : list R := [1; 1; 1; 0].

Lemma X4_len : length X4 = length y4.
Proof. reflexivity. Qed.
Lemma X4_col : exists row, In row X4 /\ row <> [].
Proof. exists [RtoC 1]. split; [now left|discriminate]. Qed.
Lemma solve4 rc a b c d : 0 < a ^ 2 + b ^ 2 + c ^ 2 + d ^ 2 ->
  exists ls, wsolve colL X4 y4 rc (map Fin [a; b; c; d]) = Ok ls /\
    ls_b ls = [RtoC ((c ^ 2 + 8 * d ^ 2) / (a ^ 2 + b ^ 2 + c ^ 2 + d ^ 2))].
Proof.
  intros H. unfold wsolve. replace (all_finite (map Fin [a; b; c; d])) with (Some [a; b; c; d]) by reflexivity.
  rewrite col_ok.
  - cbn [bind]. eexists. split; [reflexivity|]. cbn [ls_b]. f_equal. unfold col_m.
    unfold colS, colA, colI, rsum, X4, y4. cbn. apply injective_projections; cbn; field; lra.
  - intros r Hr. apply in_map_iff in Hr. destruct Hr as (p & <- & Hp). rewrite map_length. destruct p as [x y]. apply in_combine_r in Hp.
    apply repeat_spec in Hp. cbn [snd]. now subst y.
  - unfold colS, rsum, X4, y4. cbn. lra.
Qed.
Lemma lev4 : leverage colL X4 = Ok [1 / 4; 1 / 4; 1 / 4; 1 / 4].
Proof.
  unfold leverage. cbn [colL l_pinv]. unfold col_pinv. cbn [bind]. f_equal.
  assert (E : forall x : R, Cmod (Cplus (Cmult (RtoC 1) (RtoC (1 / 4))) (RtoC 0)) = 1 / 4).
  { intros _. replace (Cplus _ _) with (RtoC (1 / 4)) by (apply injective_projections; cbn; ring). rewrite Cmod_R. apply Rabs_pos_eq. lra. }
  unfold X4, enumerate. cbn [repeat length seq combine map fst snd col nth INR]. unfold cdot. cbn [combine map csum fold_right fst snd].
  replace (1 / (1 + 1 + 1 + 1)) with (1 / 4) by lra. now rewrite (E 0).
Qed.
Lemma mis4 b : misfits X4 y4 [RtoC b] = map RtoC [0 - b; 0 - b; 1 - b; 8 - b].
Proof.
  unfold misfits, csub, X4, y4, cmatvec, cdot. cbn [repeat map combine fst snd csum fold_right].
  assert (E : forall p, Cminus (RtoC p) (Cplus (Cmult (RtoC 1) (RtoC b)) (RtoC 0)) = RtoC (p - b)) by (intros; apply injective_projections; cbn; ring).
  now rewrite !E.
Qed.
Lemma scale4 b : scale_is (misfits X4 y4 [RtoC b]) (1 / 2 / 0.6745).
Proof.
  rewrite mis4. exists (RtoC (1 / 2 - b)), (1 / 2). split; [|split; [|reflexivity]].
  - eexists. split; [reflexivity|]. split.
    + repeat (constructor; [|repeat (constructor; [unfold lex; cbn; lra|]); constructor]). constructor.
    + cbn. apply injective_projections; cbn; field.
  - assert (E : map (fun x => Cmod (Cminus x (RtoC (1 / 2 - b)))) (map RtoC [0 - b; 0 - b; 1 - b; 8 - b]) = [1 / 2; 1 / 2; 1 / 2; 15 / 2]).
    { cbn [map]. assert (M : forall p q, 0 <= q -> p - (1 / 2 - b) = q \/ p - (1 / 2 - b) = - q -> Cmod (Cminus (RtoC p) (RtoC (1 / 2 - b))) = q).
      { intros p q Hq Hp. replace (Cminus (RtoC p) (RtoC (1 / 2 - b))) with (RtoC (p - (1 / 2 - b))) by (apply injective_projections; cbn; ring).
        rewrite Cmod_R. destruct Hp as [-> | ->]; [|rewrite Rabs_Ropp]; now apply Rabs_pos_eq. }
      rewrite (M (0 - b) (1 / 2)), (M (1 - b) (1 / 2)), (M (8 - b) (15 / 2)); [reflexivity|lra|left; lra|lra|left; lra|lra|right; lra]. }
    rewrite E. eexists. split; [reflexivity|]. split; [|cbn; lra].
    repeat (constructor; [|repeat (constructor; [lra|]); constructor]). constructor.
Qed.
Lemma next4 w phi : wf_of "talwar" = Some w -> weight_formula "talwar" = Some phi ->
  map w (r_normed (misfits X4 y4 [RtoC (9 / 4)])
    (map (fun h => xdiv x1 (xmul (Fin 4) (xsqrt (Fin (1 - h))))) [1 / 4; 1 / 4; 1 / 4; 1 / 4])) = map Fin kept4.
Proof.
  intros Hw Hp.
  assert (N := next_formula X4 y4 "talwar" 4 [1 / 4; 1 / 4; 1 / 4; 1 / 4] w phi Hw Hp [RtoC (9 / 4)]).
  rewrite (N ltac:(lra) ltac:(repeat constructor; lra) _ (scale4 (9 / 4)) ltac:(lra)). clear N.
  rewrite mis4. assert (Ep : phi = fun r => if Rlt_dec r 1 then 1 else 0) by (apply Some_eq; rewrite <- Hp; reflexivity). subst phi.
  set (q := sqrt (1 - 1 / 4)).
  assert (Q1 : 0 < q) by (apply sqrt_lt_R0; lra). assert (Q2 : q * q = 3 / 4) by (unfold q; rewrite sqrt_sqrt; lra).
  rewrite (Rabs_pos_eq 4) by lra.
  assert (D : 0 < 4 * q * (1 / 2 / 0.6745)) by nra.
  assert (IL : forall x, Rabs x < 2.5 -> (if Rlt_dec (Cmod (RtoC x) / (4 * q * (1 / 2 / 0.6745))) 1 then 1 else 0) = 1).
  { intros x Hx. destruct (Rlt_dec _ 1) as [|Z]; [reflexivity|]. destruct Z. rewrite Cmod_R. apply Rmult_lt_reg_r with (1 := D).
    unfold Rdiv at 1. rewrite Rmult_assoc, Rinv_l by lra. assert (0.86 < q) by nra. nra. }
  assert (IG : forall x, 3 < Rabs x -> (if Rlt_dec (Cmod (RtoC x) / (4 * q * (1 / 2 / 0.6745))) 1 then 1 else 0) = 0).
  { intros x Hx. destruct (Rlt_dec _ 1) as [Q|]; [|reflexivity]. exfalso. rewrite Cmod_R in Q. apply (Rmult_lt_compat_r _ _ _ D) in Q.
    unfold Rdiv at 1 in Q. rewrite Rmult_assoc, Rinv_l in Q by lra. assert (q < 0.9) by nra. nra. }
  cbn [map combine fst snd]. fold q.
  rewrite (IL (0 - 9 / 4)), (IL (1 - 9 / 4)) by (apply Rabs_def1; lra).
  rewrite (IG (8 - 9 / 4)) by (rewrite Rabs_pos_eq; lra).
  reflexivity.
Qed.
Lemma range4 : Forall (fun a => 0 <= a <= 1) ones4 /\ Forall (fun a => 0 <= a <= 1) kept4.
Proof. split; unfold ones4, kept4; repeat (apply Forall_cons; [lra|]); apply Forall_nil. Qed.
Lemma ms4 w b : mean_square X4 y4 {| p_w := w; p_b := [RtoC b] |} = weighted_ss w (map RtoC [0 - b; 0 - b; 1 - b; 8 - b]) / rsum w.
Proof. unfold mean_square. cbn [p_w p_b]. now rewrite mis4. Qed.

Lemma run4 rc n : exists r, robustfit colL X4 y4 "talwar" (Some 4) rc 1 (S (S n)) = Ok r /\
  rf_b r = [RtoC (1 / 3)] /\ rf_w r = map Fin kept4.
Proof.
  destruct (solve4 rc 1 1 1 1 ltac:(lra)) as (ls & E & B). destruct (solve4 rc 1 1 1 0 ltac:(lra)) as (ls' & E' & B').
  assert (E1 : wsolve colL X4 y4 rc (map (fun _ => x1) y4) = Ok ls) by exact E. clear E. rename E1 into E.
  assert (E1 : wsolve colL X4 y4 rc (map Fin kept4) = Ok ls') by exact E'. clear E'. rename E1 into E'.
  replace ((1 ^ 2 + 8 * 1 ^ 2) / (1 ^ 2 + 1 ^ 2 + 1 ^ 2 + 1 ^ 2)) with (9 / 4) in B by field.
  replace ((1 ^ 2 + 8 * 0 ^ 2) / (1 ^ 2 + 1 ^ 2 + 1 ^ 2 + 0 ^ 2)) with (1 / 3) in B' by field.
  unfold robustfit.
  cbn [bind]. replace (wfunc "talwar") with (Ok (fun r => Ok (map w_talwar r))) by reflexivity. cbn [bind].
  rewrite lev4. cbn [bind rf_loop]. rewrite E. cbn [bind].
  assert (N := next4 w_talwar _ eq_refl eq_refl). rewrite residual_misfits, B.
  match goal with |- context [map w_talwar ?x] => replace (map w_talwar x) with (map Fin kept4) by (symmetry; exact N) end. clear N.
  rewrite E'. cbn [bind].
  assert (M1 : xdiv (Fin (ls_rsumsq ls)) (xsum (map (fun _ => x1) y4)) = Fin (11.1875)).
  { destruct (wsolve_pass colL X4 y4 rc ones4 (col_contract rc) X4_len X4_col eq_refl ones4 ls E eq_refl (proj1 range4)) as (_ & _ & M & _).
    transitivity (Fin (mean_square X4 y4 {| p_w := ones4; p_b := ls_b ls |})); [exact M|]. f_equal. rewrite B, ms4. unfold weighted_ss, rsum, ones4. cbn. lra. }
  assert (M2 : xdiv (Fin (ls_rsumsq ls')) (xsum (map Fin kept4)) = Fin (2 / 9)).
  { destruct (wsolve_pass colL X4 y4 rc ones4 (col_contract rc) X4_len X4_col eq_refl kept4 ls' E' eq_refl (proj2 range4)) as (_ & _ & M & _).
    transitivity (Fin (mean_square X4 y4 {| p_w := kept4; p_b := ls_b ls' |})); [exact M|]. f_equal. rewrite B', ms4. unfold weighted_ss, rsum, kept4. cbn. lra. }
  rewrite M1, M2. cbn [it_meansq xsub xneg xadd xdiv]. destruct (Req_EM_T 11.1875 0) as [Z|_]; [exfalso; lra|].
  replace (xlt (Fin ((11.1875 + - (2 / 9)) / 11.1875)) (Fin 0)) with false by (unfold xlt; cbn [xge]; destruct (Rle_dec 0 ((11.1875 + - (2 / 9)) / 11.1875)) as [|Z]; [reflexivity|lra]).
  replace (xlt (Fin ((11.1875 + - (2 / 9)) / 11.1875)) (Fin 1)) with true by (unfold xlt; cbn [xge]; destruct (Rle_dec 1 ((11.1875 + - (2 / 9)) / 11.1875)) as [Z|]; [lra|reflexivity]).
  eexists. split; [reflexivity|]. cbn [rf_b rf_w]. split; [exact B'|]. reflexivity.
Qed.

(** ** the options and the call *)
Definition talwar_kw : pyval := PDict false [("weight_function", PStr "talwar"); ("tune", PNum 4); ("tol", PNum 1)].
Definition mean_opts : dict pyval :=
  (("method", PStr "robust") :: ("robust_kw", talwar_kw) :: ("conf_int", PStr "none") :: ("order_constit", PStr "frequency") :: ("constit", PSeq []) :: base_opts)%list.
Definition none_sel : sel := ex_sel [] [] false.
Definition u4 : pyarr (list xr) := four_u (RtoC 0) (RtoC 0) (RtoC 1) (RtoC 8).
Definition sm4 : list (R * C) := four_sm (RtoC 0) (RtoC 0) (RtoC 1) (RtoC 8).

Lemma none_select m : ut_cnstitsel ex_tref m (PSeq []) None = Ok none_sel.
Proof. unfold ut_cnstitsel, initial_lind. generalize (linearized_freqs ex_tref). intros l. generalize const_name. intros k. reflexivity. Qed.
Lemma col_shape : lstsq_shape colL.
Proof. intros B x rc m r k s H row Hr. symmetry. now apply (col_contract rc _ _ _ _ _ _ H). Qed.
Lemma kw4 : exists r, robustfit_kw colL X4 y4 talwar_kw = Ok r /\ rf_b r = [RtoC (1 / 3)] /\ rf_w r = map Fin kept4.
Proof.
  assert (K : kw_nat (PNum 50) = Ok 50%nat).
  { unfold kw_nat. assert (I : Int_part 50 = 50%Z).
    { unfold Int_part. rewrite <- (tech_up 50 51); [reflexivity|lra|lra]. }
    rewrite I. destruct (Req_EM_T 50 50) as [_|Z]; [reflexivity|]. now destruct Z. }
  destruct (run4 (PNum 1) 48) as (r & E & H). exists r. split; [|exact H].
  unfold robustfit_kw, talwar_kw. cbn [dkeys map fst forallb existsb robust_keys String.eqb Ascii.eqb Bool.eqb orb andb negb kget dget snd bind kw_num].
  rewrite K. cbn [bind]. exact E.
Qed.

Lemma mean_run : exists c, analysis colL ex_t u4 None (Some 45) mean_opts sm4 c /\ o_infer (c_opt c) = None /\
  o_method (c_opt c) = PStr "robust" /\ c_weights c = map Fin kept4 /\ c_mean c = Some (1 / 3).
Proof.
  assert (Hu : unique_keys mean_opts) by unique_tac.
  destruct (four_slv false (RtoC 0) (RtoC 0) (RtoC 1) (RtoC 8)) as (si & S1 & S2 & S3 & S4 & S5).
  { intros _ z Hz. repeat (destruct Hz as [<-|Hz]; [reflexivity|]). destruct Hz. }
  destruct (process_opts mean_opts false) as [compat|] eqn:E; [|discriminate].
  assert (Ep : oget compat "epoch" = PStr "python") by (injection E as <-; reflexivity).
  destruct (read_opt (slv_opts false (si_equi si) compat)) as [o|] eqn:E2; [|injection E as <-; discriminate].
  destruct (used_options mean_opts false (si_equi si) Hu compat o E E2) as
   (_ & _ & U1 & _ & _ & U2 & U3 & U4 & U5 & U6 & _ & U7 & _ & U8 & Ur & U9 & U10 & Uk & _ & _ & (inf & U11 & U12) & U13 & _).
  cbn in U2, U3, U4, U5, U6, U7, U8, Ur, U9, U10, U11, U13, Uk. injection U11 as <-. injection U12 as U12.
  assert (Or : o_ordercnstit o = PStr "frequency") by congruence. assert (In0 : o_infer o = None) by congruence.
  destruct kw4 as (r & K1 & K2 & K3).
  assert (BS : basis ext ex_tref (si_lor si) 45 o none_sel = Ok (map (map Some) X4)).
  { unfold none_sel. rewrite ex_basis by assumption. reflexivity. }
  assert (F : fit colL (si_t si) (si_u si) (si_v si) (si_tref si) (si_lor si) 45 o none_sel = Ok (X4, y4, rf_b r, rf_w r)).
  { unfold fit. rewrite S2, S3, BS. cbn [bind]. rewrite finite_some, U10, S4. cbn [eq_str String.eqb Ascii.eqb Bool.eqb].
    change (zs (RtoC 0) (RtoC 0) (RtoC 1) (RtoC 8)) with y4. rewrite Uk. fold talwar_kw. rewrite K1. reflexivity. }
  assert (SE : ut_cnstitsel (si_tref si) (xdiv (Fin (o_rmin o)) (Fin (24 * si_lor si))) (o_cnstit o) (o_infer o) = Ok none_sel).
  { rewrite U5, In0, S3. apply none_select. }
  assert (SL := sel_lens_ok _ _ _ _ _ SE).
  set (c1 := coef_core (si_tref si) (si_lor si) 45 o none_sel (rf_b r) (rf_w r)).
  assert (C1 : ci_stage colL o none_sel si 45 X4 y4 (rf_b r) (rf_w r) = Ok c1) by (unfold ci_stage; rewrite U2; reflexivity).
  assert (C2 : diag_stage colL o c1 = Ok c1) by (unfold diag_stage; rewrite U4; reflexivity).
  assert (A := core_aligned (si_tref si) (si_lor si) 45 o none_sel (rf_b r) (rf_w r) SL ltac:(cbn; lia)). fold c1 in A.
  assert (Hi : forall i, In i (l_argsort colL (map Fin (c_frq c1))) -> (i < length (c_name c1))%nat).
  { intros i H. apply (argsort_in []) in H. rewrite map_length in H. destruct A as (A & _). lia. }
  destruct (apply_order_ok c1 _ A Hi) as [c Hc].
  assert (C3 : reorder colL c1 (o_ordercnstit o) = Ok c).
  { rewrite reorder_eq, Or. unfold order_stage. cbn [eq_str String.eqb Ascii.eqb Bool.eqb bind fst snd]. exact Hc. }
  assert (SV : solve colL ex_t u4 None (Some 45) mean_opts = Ok c).
  { rewrite <- Ep in S1. exact (solve_intro colL ex_t u4 None 45 mean_opts _ _ _ _ _ _ _ _ _ _ _ E S1 E2 SE F C1 C2 C3). }
  assert (SB := reorder_base _ _ _ _ C3). exists c. split.
  - constructor; auto.
    + exact col_shape.
    + exact (ex_perm []).
    + intros x Hx'. assert (HD : In "order_constit" (keys documented)) by (cbn; auto 20).
      assert (HO : setting mean_opts "order_constit" (PStr "frequency")) by (left; cbn; auto 20).
      assert (EE := setting_val _ _ _ Hu HD Hx'). rewrite (setting_val _ _ _ Hu HD HO) in EE. subst x. unfold sorted_order. auto.
    + exists (PStr "python"). split; [left; cbn; auto 20|].
      exact (four_samples false (RtoC 0) (RtoC 0) (RtoC 1) (RtoC 8) ltac:(intros _ z Hz; repeat (destruct Hz as [<-|Hz]; [reflexivity|]); destruct Hz)).
    + discriminate.
  - rewrite (sb_opt _ _ SB), (sb_weights _ _ SB), (sb_mean _ _ SB). unfold c1. cbn [coef_core c_opt c_weights c_mean].
    split; [exact In0|]. split; [exact U10|]. split; [exact K3|]. rewrite U1, U6, K2. reflexivity.
Qed.
