(** Runs for the claims on changed data and on chance. *)
From Coq Require Import QArith Qreals Lia Lra Permutation.
From Coquelicot Require Import Coquelicot.
From Verif Require Import M_Base M_Lib M_Tables M_Const M_Options M_Time M_Slvinit M_Harmonics M_Select M_Ellipse
  M_Robust M_Period M_Conf M_Diag M_Solve M_Recon S_Dict S_Options S_Slv S_Order S_Basis S_Select S_Fit S_Ellipse S_Recon S_Model S_Errors S_Stable
  L_Base L_Options L_SolveInv L_OptSolve L_Slv L_Slv2 L_Tables L_Order L_Select L_Fit L_Align L_SelOrder L_Order2 L_Order3 L_Example L_Angle L_Core L_Ellipse L_Ellipse2 L_Example3 L_Example4 L_Example5 L_Example7 L_Example8 L_Example13 L_Example17.
Open Scope R_scope.
Open Scope string_scope.
Notation B4 := (rows4 (cos al) (cos (al / 2)) 1 (cos al) (- sin al) (- sin (al / 2)) 0 (sin al)).

(** ** the run of L_Example7 with other random numbers *)
(** every realization is the mean shifted by the given amount *)
Definition shifted (x : R) : nat -> list R -> rmat -> nat -> res rmat := fun _ m _ n => Ok (repeat (map (fun y => y + x) m) n).
Section Run.
Variables (mc tw : bool) (z a b c : C) (sh : R).
Notation data4 := (data4 z a b c).
Notation d4 := (d4 z a b c).
Notation nu := (nu z a b c).
Notation nv := (nv tw z a b c).
Notation nsm := (nsm z a b c).
Notation nLs := (with_mvn (nL z a b c) (shifted sh)).
Hypothesis Hreal : tw = false -> snd z = 0 /\ b = Cconj a /\ snd c = 0.
Notation data_real := (data_real tw z a b c Hreal).
Lemma s_conf o e si W xmod xs : o_white o = true -> o_nrlzn o = 200%nat -> o_infer o = None -> W = ex_W ->
  exists cis, confidence nLs o m2_sel (si_tin si) (si_t si) e (si_elor si) data4 xmod W B4 3 xs = Ok cis.
Proof.
  intros H1 H2 H3 ->. unfold confidence. rewrite H1, H3. cbn [bind].
  destruct (gram_inv (cos al) (cos (al / 2)) 1 (cos al) (- sin al) (- sin (al / 2)) 0 (sin al)) as [[X1 E1] [X2 E2]].
  { unfold area. assert (S := sin_al). assert (K := cos_sin_one).
    replace (cos al * 0 - 1 * - sin al + (1 * sin al - cos al * 0) + (cos al * - sin al - cos al * sin al)) with (2 * sin al * (1 - cos al)) by ring.
    apply Rmult_integral_contrapositive. split; [|lra]. apply Rmult_integral_contrapositive. split; [lra|exact S]. }
  assert (G : exists g, gammas nLs B4 3 ex_W data4 xmod = Ok (Some g)).
  { unfold gammas. change (all_finite ex_W) with (Some [1; 1; 1; 1]). cbn [with_mvn nL noisyL l_inv]. rewrite E1. cbn [bind]. rewrite E2. cbn [bind].
    destruct (Req_EM_T _ _) as [Z|_]; [exfalso; cbn in Z; lra|eauto]. }
  destruct G as [g ->]. cbn [bind].
  destruct (mapM_idx_ok (fun (k : nat) (x : cs) => conf_one nLs o (Some g) None (length xs) k (x_Xu x) (x_Yu x) (x_Xv x) (x_Yv x)
    (x_g x) (x_theta x)) xs) with (i := 0%nat) as [ys ->].
  - intros i x. unfold conf_one. rewrite H2. destruct (o_linci o); [eauto|]. cbv zeta. generalize (block true g (length xs) i), (block false g (length xs) i). intros G H.
    destruct (o_twodim o).
    + cbn [n_uu n_vv n_uv option_map]. unfold mc2. cbn -[repeat cs2cep_mat e_maj e_min e_g e_theta mad196 cluster].
      destruct (same_rows [x_Xu x + sh; x_Yu x + sh; x_Xv x + sh; x_Yv x + sh] _ 199 eq_refl) as (e0 & l & ->). cbn [bind]. eauto.
    + cbn [n_uu option_map]. unfold mc1. cbn -[repeat cs2cep_mat e_maj e_min e_g e_theta mad196 cluster].
      destruct (same_rows [x_Xu x + sh; x_Yu x + sh] _ 199 eq_refl) as (e0 & l & ->). cbn [bind]. eauto.
  - cbn. eauto.
Qed.
Lemma s_diag o k : aligned k -> (exists E, energies k = Ok E) -> (exists N, noises k = Ok N) ->
  exists pe sn d, diag_stage nLs o k = Ok (if o_nodiagn o then k else set_diag k (Some pe) (Some sn) (Some d)).
Proof. exact (diag_ok [] o k). Qed.

Lemma s_run : exists k, analysis nLs ex_t nu nv (Some 45) (lin_opts mc) nsm k /\
  o_twodim (c_opt k) = tw /\ o_nodsatnone (c_opt k) = true /\ o_gwchnone (c_opt k) = true /\ o_notrend (c_opt k) = true /\
  c_reftime k = ex_tref /\ c_name k = ["M2"] /\ c_lind k = [47%nat] /\
  exists r, In r (rows k) /\ w_lind r = Some 47%nat /\ w_g r = Some (e_g (ellipse_of tw a b)) /\
    (tw = false -> w_A r = Some (Some (e_maj (ellipse_of tw a b)))).
Proof.
  assert (Hu : unique_keys (lin_opts mc)) by unique_tac.
  destruct (process_opts (lin_opts mc) tw) as [compat|] eqn:E; [|destruct mc, tw; discriminate].
  destruct (four_slv tw (d4 0) (d4 1) (d4 2) (d4 3) data_real) as (si & S1 & S2 & S3 & S4 & S5).
  destruct (read_opt (slv_opts tw (si_equi si) compat)) as [o|] eqn:E2; [|destruct mc, tw; injection E as <-; discriminate].
  destruct (used_options (lin_opts mc) tw (si_equi si) Hu compat o E E2) as
   (_ & _ & O2 & _ & _ & U2 & U3 & U4 & U5 & U6 & _ & U7 & _ & U8 & Ur & U9 & U10 & _ & _ & _ & (inf & U11 & U12) & U13 & U15).
  assert (P2 : oget compat "epoch" = PStr "python") by (destruct mc, tw; injection E as <-; reflexivity).
  assert (V2 : o_conf_int o = true) by (destruct mc; exact U2). assert (V4 : o_nodiagn o = false) by (destruct mc; exact U4).
  cbn in U3, U5, U6, U7, U8, Ur, U9, U10, U11. injection U11 as <-. injection U12 as U12.
  assert (O6 : o_infer o = None) by congruence. assert (O8 : o_ordercnstit o = PStr "frequency") by (destruct mc; cbn in U13; congruence).
  assert (Z4 : zs (d4 0) (d4 1) (d4 2) (d4 3) = data4) by reflexivity. rewrite Z4 in S4.
  assert (F : fit nLs (si_t si) (si_u si) (si_v si) (si_tref si) (si_lor si) 45 o m2_sel = Ok (B4, data4, [a; b; c], ex_W)).
  { unfold fit. rewrite S2, S3, S5, inf_nil_basis by (assumption || congruence). cbn [bind]. rewrite finite_some, U10, S4. cbn [eq_str String.eqb Ascii.eqb Bool.eqb].
    rewrite ex_B_rows4. cbn [with_mvn nL noisyL l_lstsq]. destruct (list_eq_dec _ B4 B4) as [_|N]; [|now exfalso]. destruct (list_eq_dec _ data4 data4) as [_|N]; [|now exfalso]. reflexivity. }
  assert (O11 : ut_cnstitsel ex_tref (xdiv (Fin (o_rmin o)) (Fin (24 * 4))) (o_cnstit o) (o_infer o) = Ok m2_sel) by (rewrite U5, O6; apply m2_select).
  assert (SL := sel_lens_ok _ _ _ _ _ O11).
  assert (A1 : forall c1, ci_stage nLs o m2_sel si 45 B4 data4 [a; b; c] ex_W = Ok c1 -> aligned c1).
  { intros c1 H. refine (proj1 (ci_stage_aligned _ _ _ _ _ _ _ _ _ _ SL _ _ H)); [cbn; lia|reflexivity]. }
  assert (CS : exists cis, ci_stage nLs o m2_sel si 45 B4 data4 [a; b; c] ex_W =
    Ok (set_ci (coef_core (si_tref si) (si_lor si) 45 o m2_sel [a; b; c] ex_W) (o_twodim o) cis)).
  { unfold ci_stage. rewrite V2. rewrite U6. cbn [s_nNR s_nR m2_sel ex_sel length Nat.add Nat.mul].
    edestruct s_conf as [cis ->]; [exact U9|exact U15|exact O6|reflexivity|]. cbn [bind]. eauto. }
  destruct CS as [cis C1]. assert (A := A1 _ C1). clear A1. set (core := coef_core _ _ _ _ _ _ _) in *. set (c1 := set_ci core (o_twodim o) cis) in *.
  destruct (s_diag o c1 A) as (pe & sn & d & C2).
  { unfold energies, c1, core. cbn. destruct (o_twodim o); cbn; eauto. }
  { unfold noises, c1, core. cbn. destruct (o_twodim o); cbn; eauto. }
  rewrite V4 in C2. set (c2 := set_diag c1 _ _ _) in *.
  assert (SB2 : aligned c2). { refine (proj1 (diag_stage_aligned _ _ _ _ A C2)). }
  assert (Hi : forall i, In i (l_argsort nLs (map Fin (c_frq c2))) -> (i < length (c_name c2))%nat).
  { intros i H. apply (argsort_in []) in H. rewrite map_length in H. destruct SB2 as (K & _). lia. }
  destruct (apply_order_ok c2 _ SB2 Hi) as [k Hk]. exists k.
  assert (C3 : reorder nLs c2 (o_ordercnstit o) = Ok k).
  { rewrite reorder_eq, O8. unfold order_stage. cbn [eq_str String.eqb Ascii.eqb Bool.eqb bind fst snd]. exact Hk. }
  assert (T2 : is2d nv = tw) by (unfold nv, four_v; destruct tw; reflexivity).
  assert (SV : solve nLs ex_t nu nv (Some 45) (lin_opts mc) = Ok k).
  { rewrite <- P2 in S1. rewrite <- T2 in E, E2. rewrite <- S3, <- S5 in O11. exact (solve_intro nLs _ _ _ _ _ _ _ _ _ _ _ _ _ _ _ _ E S1 E2 O11 F C1 C2 C3). }
  assert (SB := reorder_base _ _ _ _ C3). assert (SB1 := diag_stage_base _ _ _ _ C2). split.
  - constructor; auto.
    + apply noisy_shape.
    + exact (ex_perm []).
    + intros x Hx'.
      assert (HD : In "order_constit" (keys documented)) by (cbn; auto 20).
      assert (K := setting_val _ _ _ Hu HD Hx'). subst x. unfold sorted_order. cbn. auto.
    + exists (PStr "python"). split; [left; cbn; auto 20|]. apply four_samples. exact data_real.
    + discriminate.
  - rewrite (sb_opt _ _ SB), (sb_reftime _ _ SB), (sb_opt _ _ SB1), (sb_reftime _ _ SB1).
    unfold c1, core. cbn [set_ci coef_core c_opt c_reftime].
    repeat (split; [assumption|]).
    destruct (reorder_rows nLs _ _ _ (ex_perm []) SB2 (or_intror (or_intror O8)) C3) as [RP NP].
    assert (LL := apply_order_rows _ _ _ Hk). destruct LL as (_ & Ab & _). split; [|split].
    + apply Permutation_length_1_inv. apply Permutation_sym. exact NP.
    + apply Permutation_length_1_inv. apply Permutation_sym. apply (perm_some _ _).
      rewrite <- (linds_rows k Ab). change [47%nat] with (c_lind c2). rewrite <- (linds_rows c2 SB2). now apply Permutation_map.
    + exists (crow_of c2 0). split.
      * apply (Permutation_in _ (Permutation_sym RP)). left. reflexivity.
      * split; [reflexivity|]. split; [cbn [crow_of w_g c2 set_diag c1 set_ci core coef_core c_g]; now rewrite O2|].
        intros T. cbn [crow_of w_A c2 set_diag c1 set_ci core coef_core c_A]. rewrite O2, T. reflexivity.
Qed.
End Run.

(** ** data that differ in the second sample alone *)
Definition bump_a : R := (3 / 2 * ks_ + k1) / (- k1).
Definition bump_b : R := - kd_ / (2 * sin al).
Definition bump_c : R := ks_ + k1 - bump_a.
Definition bump_d : R := n4 1 + bump_a * cos (al / 2) - bump_b * sin (al / 2) + bump_c.
Definition bump_q : q4 := (RtoC 1, ((bump_a / 2, - (bump_b / 2)), (bump_a / 2, bump_b / 2), RtoC bump_c)).
Lemma k1_nz : k1 <> 0.
Proof. unfold k1. assert (H := cos_sin_one). lra. Qed.
Lemma bump_eqs : n4 0 + bump_a * cos al + bump_b * - sin al + bump_c = 0 /\ n4 1 + bump_a * cos (al / 2) + bump_b * - sin (al / 2) + bump_c = bump_d /\
  n4 2 + bump_a * 1 + bump_b * 0 + bump_c = 0 /\ n4 3 + bump_a * cos al + bump_b * sin al + bump_c = 0.
Proof.
  assert (K := k1_nz). assert (S := sin_al).
  assert (E1 : bump_b * sin al = - kd_ / 2) by (unfold bump_b; field; exact S).
  assert (E2 : bump_a * k1 = - (3 / 2 * ks_ + k1)) by (unfold bump_a; field; exact K).
  assert (E3 : bump_a * cos al = bump_a - (3 / 2 * ks_ + k1)) by (replace (cos al) with (k1 + 1) by (unfold k1; ring); lra).
  unfold bump_d, n4, noise4; cbn [nth]; unfold bump_c in *. repeat split; lra.
Qed.
Lemma dat_bump : dat bump_q = [RtoC 0; RtoC bump_d; RtoC 0; RtoC 0].
Proof.
  destruct bump_eqs as (E0 & E1 & E2 & E3).
  assert (G : forall x y n t, n + bump_a * x + bump_b * y + bump_c = t ->
    Cplus (cdot [(x, y); Cconj (x, y); RtoC 1] [(bump_a / 2, - (bump_b / 2)); (bump_a / 2, bump_b / 2); RtoC bump_c]) (Cmult (RtoC n) (RtoC 1)) = RtoC t).
  { intros x y n t <-. generalize bump_a bump_b bump_c. intros. entry. }
  unfold dat, data4, noisy, rows4, bump_q. cbn [map combine fst snd].
  f_equal; [|f_equal; [|f_equal; [|f_equal]]]; apply G; assumption.
Qed.
Lemma bump_nz : bump_d <> 0.
Proof.
  intros Z. destruct bump_eqs as (E0 & E1 & E2 & E3). rewrite Z in E1. assert (N0 := noise_0). assert (NX := noise_x). assert (NY := noise_y). assert (N1 := noise_n1).
  revert N1. revert E0 E1 E2 E3 N0 NX NY. generalize (n4 0) (n4 1) (n4 2) (n4 3) (cos al) (sin al) (cos (al / 2)) (sin (al / 2)) bump_a bump_b bump_c.
  intros n0 n1 n2 n3 x y x' y' a b c E0 E1 E2 E3 N0 NX NY N1.
  assert (H : n0 * n0 + n1 * n1 + n2 * n2 + n3 * n3 = 0).
  { transitivity (n0 * (n0 + a * x + b * - y + c) + n1 * (n1 + a * x' + b * - y' + c) + n2 * (n2 + a * 1 + b * 0 + c) + n3 * (n3 + a * x + b * y + c)
      - a * (n0 * x + n1 * x' + n2 * 1 + n3 * x) - b * (n0 * - y + n1 * - y' + n2 * 0 + n3 * y) - c * (n0 + n1 + n2 + n3)); [ring|].
    rewrite E0, E1, E2, E3, N0, NX, NY. ring. }
  assert (0 < n1 * n1) by (apply Rsqr_pos_lt in N1; exact N1). assert (G0 := Rle_0_sqr n0). assert (G2 := Rle_0_sqr n2). assert (G3 := Rle_0_sqr n3). unfold Rsqr in *. lra.
Qed.
Lemma bump_one p : one_changed (csm p) (csm (add_q p bump_q)) 1 (RtoC bump_d).
Proof.
  assert (LE : length (dat p) = 4%nat) by reflexivity.
  split; [|split].
  - reflexivity.
  - unfold csm. rewrite combine_length, LE. cbn. lia.
  - unfold csm. rewrite combine_length, LE. intros i Hi. rewrite dat_add, dat_bump. clear LE.
    change (map snd (combine ext (dat p))) with (dat p). unfold dat. revert i Hi.
    assert (G : exists a b c d, data4 (fst p) (fst (fst (snd p))) (snd (fst (snd p))) (snd (snd p)) = [a; b; c; d]) by (unfold data4, noisy, rows4; cbn [map combine]; eauto).
    destruct G as (a & b & c & d & ->). cbn [length ext combine map snd fst Nat.min]. intros i Hi.
    destruct a, b, c, d. do 4 (destruct i as [|i]; [cbn; try reflexivity; unfold Cplus, RtoC; cbn [fst snd]; f_equal; ring|]). cbn in Hi. lia.
Qed.
