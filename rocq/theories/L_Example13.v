(** Pairs of runs with one library: M2 from four samples plus noise, and the same data scaled and shifted. *)
From Coq Require Import QArith Qreals Lia Lra Permutation.
From Coquelicot Require Import Coquelicot.
From Verif Require Import M_Base M_Lib M_Tables M_Const M_Options M_Time M_Slvinit M_Harmonics M_Select M_Ellipse
  M_Robust M_Period M_Conf M_Diag M_Solve M_Recon S_Dict S_Options S_Slv S_Order S_Basis S_Select S_Fit S_Ellipse S_Recon S_Model S_Errors S_Period S_Noise S_RobustErr
  L_Base L_Options L_SolveInv L_OptSolve L_Slv L_Slv2 L_Tables L_Order L_Select L_Fit L_Align L_SelOrder L_Order2 L_Order3 L_Example L_Angle L_Core L_Ellipse L_Ellipse2
  L_Basis L_Recon L_Model L_Model2 L_Model3 L_Model6 L_Model9 L_Model11 L_Period L_Period9 L_Noise L_Example3 L_Example4 L_Example5 L_Example7 L_Example8.
Open Scope R_scope.
Open Scope string_scope.

Definition cw_opts (wh : bool) : dict pyval :=
  [("order_constit", PStr "frequency"); ("constit", PSeq [PStr "M2"]); ("nodal", PBool false); ("phase", PStr "raw"); ("trend", PBool false);
   ("white", PBool wh); ("epoch", PStr "python")].
Notation B4 := (rows4 (cos al) (cos (al / 2)) 1 (cos al) (- sin al) (- sin (al / 2)) 0 (sin al)).
(** noise, coefficients *)
Definition q4 : Type := (C * (C * C * C))%type.
Definition dat (q : q4) : list C := data4 (fst q) (fst (fst (snd q))) (snd (fst (snd q))) (snd (snd q)).
Definition sol (q : q4) : list C := [fst (fst (snd q)); snd (fst (snd q)); snd (snd q)].
Definition hit (x : list C) (q : q4) : bool := if list_eq_dec Cdec x (dat q) then true else false.
Definition casesL (l : list q4) : lib :=
  {| l_parse := fun _ => None;
     l_lstsq := fun B x _ => if list_eq_dec (list_eq_dec Cdec) B B4 then match find (hit x) l with Some q => Ok (sol q, [], 3%nat, []) | None => Err LinAlgError end else Err LinAlgError;
     l_pinv := fun X => Ok X; l_inv := inv3;
     l_svd := fun M => Ok (M, map (fun _ => 0) M, M); l_eigvals := fun M => Ok (map (fun _ => RtoC 0) M);
     l_is_PD := fun _ => true; l_spacing := fun _ => 0;
     l_mvn := fun _ m _ n => Ok (repeat m n); l_lomb := fun t x f => map (fun _ => 0) f;
     l_argsort := ins_argsort |}.
Lemma cases_out l B x rc r : l_lstsq (casesL l) B x rc = Ok r -> B = B4 /\ exists q, x = dat q /\ r = (sol q, [], 3%nat, []).
Proof.
  cbn [casesL l_lstsq]. destruct (list_eq_dec _ B B4) as [->|]; [|discriminate]. destruct (find (hit x) l) as [q|] eqn:E; [|discriminate].
  intros H. apply Ok_inj in H. split; [reflexivity|]. exists q. split; [|now symmetry]. apply find_some in E. destruct E as [_ E]. unfold hit in E.
  destruct (list_eq_dec Cdec x (dat q)); [assumption|discriminate].
Qed.
Lemma cases_in l q : In q l -> exists q', dat q' = dat q /\ l_lstsq (casesL l) B4 (dat q) PNone = Ok (sol q', [], 3%nat, []).
Proof.
  intros H. cbn [casesL l_lstsq]. destruct (list_eq_dec _ B4 B4) as [_|N]; [|now exfalso].
  destruct (find (hit (dat q)) l) as [q'|] eqn:E.
  - exists q'. split; [|reflexivity]. apply find_some in E. destruct E as [_ E]. unfold hit in E. destruct (list_eq_dec Cdec (dat q) (dat q')); [now symmetry|discriminate].
  - exfalso. assert (X := find_none _ _ E _ H). unfold hit in X. destruct (list_eq_dec Cdec (dat q) (dat q)); [discriminate|now apply n].
Qed.
Lemma cases_minimises l : lstsq_minimises (casesL l).
Proof.
  intros B x m r k s H m' Hm'. apply cases_out in H. destruct H as (-> & q & -> & H). injection H as -> _ _ _.
  destruct m' as [|a' [|b' [|c' [|]]]]; try discriminate. apply noisy_least; [apply noise_0|apply noise_x|apply noise_y].
Qed.
Lemma cases_shape l : lstsq_shape (casesL l).
Proof.
  intros B x rc m r k s H row Hr. apply cases_out in H. destruct H as (-> & q & -> & H). injection H as -> _ _ _.
  unfold rows4 in Hr. cbn [map In] in Hr. repeat (destruct Hr as [<-|Hr]; [reflexivity|]). destruct Hr.
Qed.
Lemma cases_inv l : inv_exact (casesL l).
Proof. exact (noisy_inv [] [] []). Qed.
Lemma cases_lomb l : lomb_quadratic (casesL l).
Proof. intros k t x f. cbn [casesL l_lomb]. rewrite map_map. apply map_ext. intros _. ring. Qed.

Section Run.
Variables (l : list q4) (wh tw : bool) (q : q4).
Hypothesis Hq : In q l.
Notation cL := (casesL l).
Notation data4 := (dat q).
Hypothesis RL : tw = false -> forall y, In y (dat q) -> snd y = 0.
Definition cu : pyarr (list xr) := NdArr [5%nat] (gap_of (map fst data4)) [].
Definition cv : option (pyarr (list xr)) := if tw then Some (NdArr [5%nat] (gap_of (map snd data4)) []) else None.
Definition csm : list (R * C) := combine ext (dat q).

Lemma c_slv : exists si,
  slvinit (fun _ => None) five_t cu cv (Some 45) (PStr "python") = Ok si /\
  si_t si = ext /\ si_tref si = ex_tref /\ raw_data (si_u si) (si_v si) = data4 /\ si_lor si = 4 /\ si_equi si = true /\ si_tin si = five.
Proof.
  unfold slvinit, cu, cv. destruct tw.
  - replace (check_args _ _ _ _) with (Ok tt : res unit) by reflexivity. cbn [bind].
    replace (normalize_time _ _ _) with (Ok (map Fin five)) by reflexivity. cbn [bind]. unfold slv_core.
    replace (clean _ _ _) with (five, ext, map fst data4, Some (map snd data4)) by reflexivity.
    rewrite five_even, five_ptp. cbn [bind]. eexists. split; [reflexivity|]. cbn [si_t si_tref si_u si_v si_lor si_equi si_tin raw_data].
    repeat split; apply combine_fst_snd.
  - replace (check_args _ _ _ _) with (Ok tt : res unit) by reflexivity. cbn [bind].
    replace (normalize_time _ _ _) with (Ok (map Fin five)) by reflexivity. cbn [bind]. unfold slv_core.
    replace (clean _ _ _) with (five, ext, map fst data4, @None (list R)) by reflexivity.
    assert (E : map RtoC (map fst data4) = data4).
    { rewrite map_map. transitivity (map (fun z : C => z) data4); [|apply map_id]. apply map_ext_in. intros y Hy. unfold RtoC.
      apply injective_projections; cbn; [reflexivity|]. symmetry. now apply RL. }
    rewrite five_even, five_ptp. cbn [bind]. eexists. split; [reflexivity|]. cbn [si_t si_tref si_u si_v si_lor si_equi si_tin raw_data].
    repeat split; exact E.
Qed.
Lemma c_samples : samples (fun _ => None) (PStr "python") five_t cu cv csm.
Proof.
  unfold cu, cv, five_t, csm. revert RL.
  assert (D : exists d0 d1 d2 d3, data4 = [d0; d1; d2; d3]) by (do 4 eexists; reflexivity).
  destruct D as (d0 & d1 & d2 & d3 & ->). clear Hq. revert d0 d1 d2 d3. intros [p0 q0] [p1 q1] [p2 q2] [p3 q3] RL. cbn [map fst snd gap_of].
  destruct tw.
  - exact (vector_samples (fun _ => None) (PStr "python") 5 (TNum (map Fin five)) [] [Fin p0; Fin p1; Fin p2; NaN; Fin p3] [] [Fin q0; Fin q1; Fin q2; NaN; Fin q3] [] (map Fin five)
      (conj eq_refl (or_introl eq_refl)) (conj eq_refl (or_introl eq_refl)) eq_refl eq_refl).
  - assert (R0 := RL eq_refl _ (or_introl eq_refl)). assert (R1 := RL eq_refl _ (or_intror (or_introl eq_refl))).
    assert (R2 := RL eq_refl _ (or_intror (or_intror (or_introl eq_refl)))). assert (R3 := RL eq_refl _ (or_intror (or_intror (or_intror (or_introl eq_refl))))).
    cbn [snd] in R0, R1, R2, R3. rewrite R0, R1, R2, R3.
    exact (scalar_samples (fun _ => None) (PStr "python") 5 (TNum (map Fin five)) [] [Fin p0; Fin p1; Fin p2; NaN; Fin p3] [] (map Fin five)
      (conj eq_refl (or_introl eq_refl)) eq_refl eq_refl).
Qed.

Lemma c_conf o si xmod xs : o_linci o = true -> o_infer o = None -> o_equi o = true -> si_t si = ext -> si_tin si = five -> length xmod = 4%nat ->
  exists cis, confidence cL o m2_sel (si_tin si) (si_t si) (resid_parts (o_twodim o) ex_W data4 xmod) (si_elor si) data4 xmod ex_W B4 3 xs = Ok cis.
Proof.
  intros H2 H3 H4 H5 H6 Hx. unfold confidence. rewrite H3, H4, H5, H6.
  assert (RP : exists eu ev, resid_parts (o_twodim o) ex_W data4 xmod = Some (eu, ev) /\ length eu = 4%nat /\ (forall v, ev = Some v -> length v = 4%nat)).
  { unfold resid_parts. change (all_finite ex_W) with (Some [1; 1; 1; 1]). do 2 eexists. split; [reflexivity|].
    assert (LL : forall f : C -> R, length (map f (map (fun p => Cmult (RtoC (fst p)) (snd p)) (combine [1; 1; 1; 1] (map (fun p => Cminus (fst p) (snd p)) (combine data4 xmod))))) = 4%nat).
    { intros f. rewrite !map_length, combine_length, map_length, combine_length, Hx. reflexivity. }
    split; [apply LL|]. intros v Hv. destruct (o_twodim o); cbn [oif] in Hv; [injection Hv as <-; apply LL|discriminate]. }
  destruct RP as (eu & ev & -> & L1 & L2). destruct (gap_psd cL eu ev (si_elor si) (s_frq m2_sel) (o_twodim o) L1 L2) as [p EP]. rewrite EP.
  assert (PP : exists pp, (if o_white o then Ok None else bind (Ok p) (fun p => Ok (Some p))) = Ok pp) by (destruct (o_white o); cbn [bind]; eauto).
  destruct PP as [pp ->]. cbn [bind].
  destruct (gram_inv (cos al) (cos (al / 2)) 1 (cos al) (- sin al) (- sin (al / 2)) 0 (sin al)) as [[X1 E1] [X2 E2]].
  { unfold area. assert (S := sin_al). assert (K := cos_sin_one).
    replace (cos al * 0 - 1 * - sin al + (1 * sin al - cos al * 0) + (cos al * - sin al - cos al * sin al)) with (2 * sin al * (1 - cos al)) by ring.
    apply Rmult_integral_contrapositive. split; [|lra]. apply Rmult_integral_contrapositive. split; [lra|exact S]. }
  assert (G : exists g, gammas cL B4 3 ex_W data4 xmod = Ok g).
  { unfold gammas. change (all_finite ex_W) with (Some [1; 1; 1; 1]). cbn [casesL l_inv]. rewrite E1. cbn [bind]. rewrite E2. cbn [bind]. destruct (Req_EM_T _ _); eauto. }
  destruct G as [g ->]. cbn [bind].
  destruct (mapM_idx_ok (fun (k : nat) (x : cs) => conf_one cL o g pp (length xs) k (x_Xu x) (x_Yu x) (x_Xv x) (x_Yv x)
    (x_g x) (x_theta x)) xs) with (i := 0%nat) as [ys ->].
  - intros i x. unfold conf_one. rewrite H2. eauto.
  - cbn. eauto.
Qed.

Lemma c_run : exists k, analysis cL five_t cu cv (Some 45) (cw_opts wh) csm k /\
  o_twodim (c_opt k) = tw /\ o_nodsatnone (c_opt k) = true /\ o_gwchnone (c_opt k) = true /\ o_equi (c_opt k) = true /\ o_notrend (c_opt k) = true /\
  c_reftime k = ex_tref /\ c_name k = ["M2"] /\ c_lind k = [47%nat].
Proof.
  destruct (cases_in l q Hq) as (q' & _ & LS).
  assert (Hu : unique_keys (cw_opts wh)) by unique_tac.
  destruct (process_opts (cw_opts wh) tw) as [compat|] eqn:E; [|destruct tw; discriminate].
  destruct c_slv as (si & S1 & S2 & S3 & S4 & S5 & S6 & S7).
  destruct (read_opt (slv_opts tw (si_equi si) compat)) as [o|] eqn:E2; [|destruct tw; injection E as <-; discriminate].
  destruct (used_options (cw_opts wh) tw (si_equi si) Hu compat o E E2) as
   (_ & _ & O2 & O3 & _ & U2 & U3 & U4 & U5 & U6 & _ & U7 & _ & U8 & Ur & U9 & U10 & _ & U14 & _ & (inf & U11 & U12) & U13 & _).
  assert (P2 : oget compat "epoch" = PStr "python") by (destruct tw; injection E as <-; reflexivity).
  cbn in U2, U3, U4, U5, U6, U7, U8, Ur, U9, U10, U11, U13, U14. injection U11 as <-. injection U12 as U12.
  assert (O6 : o_infer o = None) by congruence. assert (O8 : o_ordercnstit o = PStr "frequency") by congruence.
  assert (F : fit cL (si_t si) (si_u si) (si_v si) (si_tref si) (si_lor si) 45 o m2_sel = Ok (B4, data4, (sol q'), ex_W)).
  { unfold fit. rewrite S2, S3, S5, inf_nil_basis by (assumption || congruence). cbn [bind]. rewrite finite_some, U10, S4. cbn [eq_str String.eqb Ascii.eqb Bool.eqb].
    rewrite ex_B_rows4. rewrite LS. reflexivity. }
  assert (O11 : ut_cnstitsel ex_tref (xdiv (Fin (o_rmin o)) (Fin (24 * 4))) (o_cnstit o) (o_infer o) = Ok m2_sel) by (rewrite U5, O6; apply m2_select).
  assert (SL := sel_lens_ok _ _ _ _ _ O11).
  assert (A1 : forall c1, ci_stage cL o m2_sel si 45 B4 data4 (sol q') ex_W = Ok c1 -> aligned c1).
  { intros c1 H. refine (proj1 (ci_stage_aligned _ _ _ _ _ _ _ _ _ _ SL _ _ H)); [cbn; lia|reflexivity]. }
  assert (CS : exists cis, ci_stage cL o m2_sel si 45 B4 data4 (sol q') ex_W =
    Ok (set_ci (coef_core (si_tref si) (si_lor si) 45 o m2_sel (sol q') ex_W) (o_twodim o) cis)).
  { unfold ci_stage. rewrite U2. cbn [negb eq_str String.eqb Ascii.eqb Bool.eqb]. rewrite U6. cbn [s_nNR s_nR m2_sel ex_sel length Nat.add Nat.mul].
    edestruct c_conf as [cis ->]; [exact U3|exact O6|congruence|exact S2|exact S7|destruct (o_twodim o); reflexivity|]. cbn [bind]. eauto. }
  destruct CS as [cis C1]. assert (A := A1 _ C1). clear A1. set (core := coef_core _ _ _ _ _ _ _) in *. set (c1 := set_ci core (o_twodim o) cis) in *.
  destruct (diag_ok [] o c1 A) as (pe & sn & d & C2).
  { unfold energies, c1, core. cbn. destruct (o_twodim o); cbn; eauto. }
  { unfold noises, c1, core. cbn. destruct (o_twodim o); cbn; eauto. }
  rewrite U4 in C2. cbn [eq_str String.eqb Ascii.eqb Bool.eqb] in C2. set (c2 := set_diag c1 _ _ _) in *.
  assert (SB2 : aligned c2). { refine (proj1 (diag_stage_aligned _ _ _ _ A C2)). }
  assert (Hi : forall i, In i (l_argsort cL (map Fin (c_frq c2))) -> (i < length (c_name c2))%nat).
  { intros i H. apply (argsort_in []) in H. rewrite map_length in H. destruct SB2 as (K & _). lia. }
  destruct (apply_order_ok c2 _ SB2 Hi) as [k Hk]. exists k.
  assert (C3 : reorder cL c2 (o_ordercnstit o) = Ok k).
  { rewrite reorder_eq, O8. unfold order_stage. cbn [eq_str String.eqb Ascii.eqb Bool.eqb bind fst snd]. exact Hk. }
  assert (T2 : is2d cv = tw) by (unfold cv; destruct tw; reflexivity).
  assert (SV : solve cL five_t cu cv (Some 45) (cw_opts wh) = Ok k).
  { rewrite <- P2 in S1. rewrite <- T2 in E, E2. rewrite <- S3, <- S5 in O11. exact (solve_intro cL _ _ _ _ _ _ _ _ _ _ _ _ _ _ _ _ E S1 E2 O11 F C1 C2 C3). }
  assert (SB := reorder_base _ _ _ _ C3). assert (SB1 := diag_stage_base _ _ _ _ C2).
  assert (AN : analysis cL five_t cu cv (Some 45) (cw_opts wh) csm k).
  { constructor; auto.
    + apply cases_shape.
    + exact (ex_perm []).
    + intros x Hx'.
      assert (HD : In "order_constit" (keys documented)) by (cbn; auto 20).
      assert (K := setting_val _ _ _ Hu HD Hx'). subst x. unfold sorted_order. cbn. auto.
    + exists (PStr "python"). split; [left; cbn; auto 20|]. apply c_samples.
    + discriminate. }
  assert (EO : c_opt k = o) by (rewrite (sb_opt _ _ SB), (sb_opt _ _ SB1); reflexivity).
  split; [exact AN|]. rewrite EO, (sb_reftime _ _ SB), (sb_reftime _ _ SB1).
  destruct (reorder_rows cL _ _ _ (ex_perm []) SB2 (or_intror (or_intror O8)) C3) as [RP NP].
  assert (LL := apply_order_rows _ _ _ Hk). destruct LL as (_ & Ab & _).
  split; [assumption|]. split; [assumption|]. split; [assumption|]. split; [congruence|]. split; [assumption|]. split; [exact S3|]. split.
  - apply Permutation_length_1_inv. apply Permutation_sym. exact NP.
  - apply Permutation_length_1_inv. apply Permutation_sym. apply (perm_some _ _).
    rewrite <- (linds_rows k Ab). change [47%nat] with (c_lind c2). rewrite <- (linds_rows c2 SB2). now apply Permutation_map.
Qed.
End Run.

(** ** the four times tell the coefficients apart *)
Lemma three_zero (a b m : C) : (forall x, In x ext -> Cplus (Cplus (Cmult (cis ((x - 2) / 2 * al)) a) (Cmult (Cconj (cis ((x - 2) / 2 * al))) b)) m = RtoC 0) ->
  a = RtoC 0 /\ b = RtoC 0 /\ m = RtoC 0.
Proof.
  intros H. assert (H0 := H 0 ltac:(cbn; auto)). assert (H2 := H 2 ltac:(cbn; auto)). assert (H4 := H 4 ltac:(cbn; auto 10)). clear H.
  replace ((0 - 2) / 2 * al) with (- al) in H0 by field. replace ((2 - 2) / 2 * al) with 0 in H2 by field. replace ((4 - 2) / 2 * al) with al in H4 by field.
  unfold cis in *. rewrite cos_neg, sin_neg in H0. rewrite cos_0, sin_0 in H2. assert (S := sin_al). assert (K := cos_sin_one).
  destruct a as [a1 a2], b as [b1 b2], m as [m1 m2].
  assert (P1 := f_equal fst H0). assert (P2 := f_equal snd H0). assert (P3 := f_equal fst H2). assert (P4 := f_equal snd H2). assert (P5 := f_equal fst H4). assert (P6 := f_equal snd H4).
  clear H0 H2 H4. cbn in P1, P2, P3, P4, P5, P6. revert S K P1 P2 P3 P4 P5 P6. generalize (cos al), (sin al). intros x y S K P1 P2 P3 P4 P5 P6.
  assert (E1 : a2 = b2) by (apply (Rmult_eq_reg_r y); [lra|exact S]). assert (E2 : a1 = b1) by (apply (Rmult_eq_reg_r y); [lra|exact S]). subst b1 b2.
  assert (a1 = 0) by (apply (Rmult_eq_reg_r (x - 1)); [lra|lra]). assert (a2 = 0) by (apply (Rmult_eq_reg_r (x - 1)); [lra|lra]). subst.
  assert (m1 = 0) by lra. assert (m2 = 0) by lra. subst. repeat split.
Qed.
Lemma c_identifiable c : o_nodsatnone (c_opt c) = true -> o_gwchnone (c_opt c) = true -> o_notrend (c_opt c) = true ->
  c_reftime c = ex_tref -> c_name c = ["M2"] -> c_lind c = [47%nat] -> identifiable c ext.
Proof.
  intros N1 N2 N3 Rt Nm Li c0 Rv H. assert (Wf := rv_wf _ _ Rv). assert (Eo := rv_opt _ _ Rv). assert (En := rv_name _ _ Rv). rewrite Nm in En.
  assert (El := rv_lind _ _ Rv). rewrite Li in El.
  assert (Et := rv_reftime _ _ Rv). rewrite Rt in Et. rewrite <- Eo in H, N1, N2, N3.
  assert (Z : fst (pm_of c0 0) = RtoC 0 /\ snd (pm_of c0 0) = RtoC 0 /\ mnC c0 = RtoC 0).
  { apply three_zero. intros x Hx. destruct (H x Hx) as [Hu Hv].
    assert (Es : map (e_of c0 x) (c_lind c0) = map Some [ex_e x 47]).
    { rewrite El. cbn [map]. f_equal. apply e_raw; auto. }
    destruct (recon_vals c0 x [ex_e x 47] Wf Es) as (R1 & R2 & R3). cbv zeta in R1, R2, R3.
    assert (EZ : Cplus (hsum [ex_e x 47] (pms c0)) (bgC c0 x) = RtoC 0).
    { apply injective_projections; [rewrite Hu in R1; apply (f_equal (fun x => match x with Fin y => y | _ => 0 end)) in R1; symmetry; exact R1|].
      destruct (o_twodim (c_opt c0)); [|now apply R3]. rewrite (Hv eq_refl) in R2. specialize (R2 eq_refl). apply (f_equal (fun x => match x with Fin y => y | _ => 0 end)) in R2. symmetry. exact R2. }
    rewrite <- EZ, (one_pms _ En), ex_e_val. unfold bgC, hsum. rewrite N3. cbn [combine map csum fold_right fst snd]. ring. }
  destruct Z as (Z1 & Z2 & Z3). split; [|split].
  - intros w Hw. unfold rows in Hw. apply in_map_iff in Hw. destruct Hw as (i & <- & Hi). apply in_seq in Hi. rewrite En in Hi. cbn in Hi.
    replace i with 0%nat by lia. rewrite rotary_row by (auto; rewrite En; cbn; lia). rewrite (surjective_pairing (pm_of c0 0)), Z1, Z2. reflexivity.
  - unfold mean_is, mnC in *. destruct (o_twodim (c_opt c0)) eqn:T.
    + destruct (wf_2d _ Wf T) as (_ & _ & _ & (um & Hm) & (vm & Hw) & _). rewrite Hm, Hw in *. cbn [od] in Z3.
      assert (X := f_equal fst Z3). assert (Y := f_equal snd Z3). cbn in X, Y. now subst.
    + destruct (wf_1d _ Wf T) as (_ & _ & (m & Hm) & _). rewrite Hm in *. cbn [od] in Z3. assert (X := f_equal fst Z3). cbn in X. now subst.
  - congruence.
Qed.

(** ** scaled and shifted data *)
Definition scale_q (k : R) (be : C) (q : q4) : q4 :=
  (Cmult (RtoC k) (fst q), (Cmult (RtoC k) (fst (fst (snd q))), Cmult (RtoC k) (snd (fst (snd q))), Cplus (Cmult (RtoC k) (snd (snd q))) be)).
Lemma scale_sm k be q f : csm (scale_q k be q) =
  map (fun x => (fst x, Cplus (Cplus (Cmult (RtoC k) (snd x)) be) (Cmult (RtoC (f (fst x))) (RtoC 0)))) (csm q).
Proof.
  unfold csm, ext, dat, scale_q, data4, noisy, rows4. cbn [map combine fst snd]. unfold cdot. cbn [map combine fst snd csum fold_right].
  destruct q as [z [[a b] c]]. cbn [fst snd].
  assert (E : forall p r n g, Cplus (Cplus (Cmult p (Cmult (RtoC k) a)) (Cplus (Cmult r (Cmult (RtoC k) b)) (Cplus (Cmult (RtoC 1) (Cplus (Cmult (RtoC k) c) be)) (RtoC 0)))) (Cmult n (Cmult (RtoC k) z)) =
    Cplus (Cplus (Cmult (RtoC k) (Cplus (Cplus (Cmult p a) (Cplus (Cmult r b) (Cplus (Cmult (RtoC 1) c) (RtoC 0)))) (Cmult n z))) be) (Cmult g (RtoC 0))) by (intros; ring).
  repeat (apply f_equal2; [apply f_equal2; [reflexivity|apply E]|]). reflexivity.
Qed.
