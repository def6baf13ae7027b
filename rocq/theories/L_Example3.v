(** More concrete runs: a solver that tries given answers, data of four days, inference. *)
From Coq Require Import QArith Qreals Lia Lra Permutation.
From Verif Require Import M_Base M_Lib M_Tables M_Const M_Options M_Time M_Slvinit M_Harmonics M_Select M_Ellipse
  M_Robust M_Period M_Conf M_Diag M_Solve M_Recon S_Dict S_Options S_Slv S_Order S_Basis S_Select S_Fit S_Ellipse S_Recon S_Model
  L_Base L_Options L_SolveInv L_OptSolve L_Slv L_Slv2 L_Tables L_Order L_Select L_Fit L_Align L_SelOrder L_Order2 L_Order3 L_Example.
Open Scope R_scope.
Open Scope string_scope.

(** ** a routine that looks for an exact solution among given ones *)
Definition solves (B : cmat) (x m : list C) : bool :=
  forallb (fun r => Nat.eqb (length r) (length m)) B && (if list_eq_dec Cdec (cmatvec B m) x then true else false).
Definition try_lstsq (ms : list (list C)) (B : cmat) (x : list C) (_ : pyval) : res (list C * list R * nat * list R) :=
  match find (solves B x) ms with Some m => Ok (m, [0], length m, []) | None => Err LinAlgError end.
Definition tryL (ms : list (list C)) : lib :=
  {| l_parse := fun _ => None; l_lstsq := try_lstsq ms;
     l_pinv := fun X => Ok (map (fun _ => map (fun _ => RtoC 0) X) (hd [] ms));
     l_inv := fun M => Ok M;
     l_svd := fun M => Ok (M, map (fun _ => 0) M, M); l_eigvals := fun M => Ok (map (fun _ => RtoC 0) M);
     l_is_PD := fun _ => true; l_spacing := fun _ => 0;
     l_mvn := fun _ m _ n => Ok (repeat m n); l_lomb := fun t x f => map (fun _ => 0) f;
     l_argsort := ins_argsort |}.
Lemma solves_spec B x m : solves B x m = true -> (forall row, In row B -> length row = length m) /\ cmatvec B m = x.
Proof.
  unfold solves. intros H. apply andb_prop in H. destruct H as [H1 H2]. split.
  - intros row Hr. rewrite forallb_forall in H1. apply Nat.eqb_eq. auto.
  - destruct (list_eq_dec _ _ _); [auto|discriminate].
Qed.
Lemma solves_ok B x m : (forall row, In row B -> length row = length m) -> cmatvec B m = x -> solves B x m = true.
Proof.
  intros H1 H2. unfold solves. apply andb_true_intro. split.
  - apply forallb_forall. intros r Hr. apply Nat.eqb_eq. auto.
  - destruct (list_eq_dec Cdec (cmatvec B m) x); auto.
Qed.
Lemma try_spec ms B x rc m r k s : l_lstsq (tryL ms) B x rc = Ok (m, r, k, s) ->
  In m ms /\ (forall row, In row B -> length row = length m) /\ cmatvec B m = x.
Proof.
  cbn [tryL l_lstsq]. unfold try_lstsq. destruct (find (solves B x) ms) as [m'|] eqn:E; [|discriminate]. intros H. injection H as <- _ _ _.
  apply find_some in E. destruct E as [E1 E2]. split; auto. now apply solves_spec.
Qed.
Lemma try_ok ms B x m : In m ms -> (forall row, In row B -> length row = length m) -> cmatvec B m = x ->
  exists m', l_lstsq (tryL ms) B x PNone = Ok (m', [0], length m', []).
Proof.
  intros H1 H2 H3. cbn [tryL l_lstsq]. unfold try_lstsq. destruct (find (solves B x) ms) as [m'|] eqn:E; [eauto|].
  assert (F := find_none _ _ E m H1). rewrite solves_ok in F by assumption. discriminate.
Qed.
Lemma try_shape ms : lstsq_shape (tryL ms).
Proof. intros B x rc m r k s H row Hr. apply try_spec in H. symmetry. now apply H. Qed.
Lemma norm2_nonneg z : 0 <= norm2 z.
Proof.
  unfold norm2. induction z as [|c z IH]; [unfold rsum; cbn; lra|].
  cbn [map]. unfold rsum in *. cbn [fold_right fold_left]. 
  assert (0 <= fst c ^ 2) by apply pow2_ge_0. assert (0 <= snd c ^ 2) by apply pow2_ge_0.
  change (0 <= (fst c ^ 2 + snd c ^ 2) + rsum (map (fun c0 => fst c0 ^ 2 + snd c0 ^ 2) z)). unfold rsum. lra.
Qed.
Lemma norm2_self x : norm2 (csub x x) = 0.
Proof.
  unfold norm2, csub. induction x as [|c x IH]; [reflexivity|].
  change ((fst (Cminus c c) ^ 2 + snd (Cminus c c) ^ 2) + rsum (map (fun c0 => fst c0 ^ 2 + snd c0 ^ 2) (map (fun p => Cminus (fst p) (snd p)) (combine x x))) = 0).
  rewrite IH. cbn. ring.
Qed.
Lemma try_minimises ms : lstsq_minimises (tryL ms).
Proof.
  intros B x m r k s H m' _. apply try_spec in H. destruct H as (_ & _ & ->). rewrite norm2_self. apply norm2_nonneg.
Qed.
Lemma try_perm ms : argsort_perm (tryL ms).
Proof. exact (ex_perm []). Qed.
Lemma try_sorts ms : argsort_sorts (tryL ms).
Proof. exact (ex_sorts []). Qed.

Lemma map_nth_error_seq {A} (l : list A) : forall n, map (fun i => nth_error l (i - n)) (seq n (length l)) = map Some l.
Proof.
  induction l as [|a l IH]; intros n; [reflexivity|]. cbn [length seq map]. rewrite Nat.sub_diag. cbn [nth_error]. f_equal.
  rewrite <- (IH (S n)). apply map_ext_in. intros i Hi. apply in_seq in Hi. replace (i - n)%nat with (S (i - S n)) by lia. reflexivity.
Qed.
Lemma linds_rows c : aligned c -> map w_lind (rows c) = map Some (c_lind c).
Proof.
  intros (_ & A & _). unfold rows. rewrite map_map. rewrite <- A. rewrite <- (map_nth_error_seq (c_lind c) 0). apply map_ext. intros i. rewrite Nat.sub_0_r. reflexivity.
Qed.
Lemma perm_some {A} (a b : list A) : Permutation (map Some a) (map Some b) -> Permutation a b.
Proof.
  intros H. assert (G : forall l : list A, flat_map (fun o => match o with Some x => [x] | None => [] end) (map Some l) = l).
  { induction l as [|x l IH]; cbn; [|rewrite IH]; reflexivity. }
  rewrite <- (G a), <- (G b). now apply Permutation_flat_map.
Qed.

(** ** a run on four samples *)
Section Run.
Variables (ms : list (list C)) (tw : bool) (z0 z1 z2 z3 : C) (opts : dict pyval).
Notation L := (tryL ms).
Definition zs : list C := [z0; z1; z2; z3].
Definition four_u : pyarr (list xr) := NdArr [4%nat] (map (fun z : C => Fin (fst z)) zs) [].
Definition four_v : option (pyarr (list xr)) := if tw then Some (NdArr [4%nat] (map (fun z : C => Fin (snd z)) zs) []) else None.
Definition four_sm : list (R * C) := combine ext zs.
Hypothesis Hreal : tw = false -> forall z, In z zs -> snd z = 0.

Lemma four_slv : exists si,
  slvinit (fun _ => None) ex_t four_u four_v (Some 45) (PStr "python") = Ok si /\
  si_t si = ext /\ si_tref si = ex_tref /\ raw_data (si_u si) (si_v si) = zs /\ si_lor si = 4.
Proof.
  assert (P : ptp ext = Ok 4).
  { unfold ptp, ext, rmax, rmin, fold_left. f_equal.
    rewrite (Rmax_right 0 1), (Rmax_right 1 2), (Rmax_right 2 4), (Rmin_left 0 1), (Rmin_left 0 2), (Rmin_left 0 4) by lra. lra. }
  unfold slvinit, four_u, four_v. destruct tw.
  - replace (check_args _ _ _ _) with (Ok tt : res unit) by reflexivity. cbn [bind].
    replace (normalize_time _ _ _) with (Ok (map Fin ext)) by reflexivity. cbn [bind]. unfold slv_core.
    replace (clean _ _ _) with (ext, ext, map fst zs, Some (map snd zs)) by reflexivity.
    destruct (equi_of ext); rewrite P; cbn [bind]; eexists; (split; [reflexivity|]); cbn [si_t si_tref si_u si_v si_lor raw_data];
      repeat split; apply combine_fst_snd.
  - replace (check_args _ _ _ _) with (Ok tt : res unit) by reflexivity. cbn [bind].
    replace (normalize_time _ _ _) with (Ok (map Fin ext)) by reflexivity. cbn [bind]. unfold slv_core.
    replace (clean _ _ _) with (ext, ext, map fst zs, @None (list R)) by reflexivity.
    assert (E : map RtoC (map fst zs) = zs).
    { rewrite map_map. transitivity (map (fun z : C => z) zs); [|apply map_id]. apply map_ext_in. intros z Hz. unfold RtoC.
      apply injective_projections; cbn; [reflexivity|]. symmetry. now apply Hreal. }
    destruct (equi_of ext); rewrite P; cbn [bind]; eexists; (split; [reflexivity|]); cbn [si_t si_tref si_u si_v si_lor raw_data]; repeat split; exact E.
Qed.

Lemma four_samples : samples (fun _ => None) (PStr "python") ex_t four_u four_v four_sm.
Proof.
  unfold four_u, four_v, ex_t, four_sm. destruct tw.
  - assert (E : combine ext zs = map (fun s => (fst (fst s), (snd (fst s), snd s)))
       (valid_vector (map Fin ext) (map (fun z : C => Fin (fst z)) zs) [] (map (fun z : C => Fin (snd z)) zs) [])).
    { cbn. destruct z0, z1, z2, z3. reflexivity. }
    rewrite E. apply vector_samples; try reflexivity; split; auto.
  - assert (E : combine ext zs = map (fun s => (fst s, RtoC (snd s))) (valid_scalar (map Fin ext) (map (fun z : C => Fin (fst z)) zs) [])).
    { cbn. unfold RtoC. assert (R := Hreal eq_refl). unfold zs in R.
      assert (H0 := R z0). assert (H1 := R z1). assert (H2 := R z2). assert (H3 := R z3). destruct z0, z1, z2, z3. cbn [fst snd In] in *.
      rewrite H0, H1, H2, H3 by tauto. reflexivity. }
    rewrite E. apply scalar_samples; try reflexivity; split; auto.
Qed.

(** options that switch everything off that these examples do not need *)
Definition plain (s : sel) (inf : option infer_r) : Prop := unique_keys opts /\
  setting opts "order_constit" (PStr "frequency") /\ setting opts "epoch" (PStr "python") /\
  exists compat, process_opts opts tw = Ok compat /\ oget compat "epoch" = PStr "python" /\ forall equi, exists o,
  read_opt (slv_opts tw equi compat) = Ok o /\ o_twodim o = tw /\
  o_nodsatnone o = true /\ o_gwchnone o = true /\ o_notrend o = true /\ o_infer o = inf /\ o_method o = PStr "ols" /\
  o_ordercnstit o = PStr "frequency" /\ o_conf_int o = false /\ o_nodiagn o = true /\
  ut_cnstitsel ex_tref (xdiv (Fin (o_rmin o)) (Fin (24 * 4))) (o_cnstit o) inf = Ok s.

Lemma four_run s inf B m : plain s inf -> (2 * s_nNR s + 2 * s_nR s <= length m)%nat ->
  (forall o, o_nodsatnone o = true -> o_gwchnone o = true -> o_notrend o = true -> o_infer o = inf ->
     basis ext ex_tref 4 45 o s = Ok (map (map Some) B)) ->
  In m ms -> (forall m', In m' ms -> length m' = length m) -> (forall row, In row B -> length row = length m) -> cmatvec B m = zs ->
  exists c, analysis L ex_t four_u four_v (Some 45) opts four_sm c /\
    o_twodim (c_opt c) = tw /\ o_nodsatnone (c_opt c) = true /\ o_gwchnone (c_opt c) = true /\ o_notrend (c_opt c) = true /\
    o_infer (c_opt c) = inf /\ o_method (c_opt c) = PStr "ols" /\ c_reftime c = ex_tref /\ c_lat c = 45 /\
    Permutation (c_name c) (s_name s) /\ Permutation (c_lind c) (s_lind s).
Proof.
  intros (Hu & HO & He & compat & P1 & P2 & P3) Hn HB Hm Hms Hr Hx.
  destruct four_slv as (si & S1 & S2 & S3 & S4 & S5).
  destruct (P3 (si_equi si)) as (o & O1 & O2 & O3 & O4 & O5 & O6 & O7 & O8 & O9 & O10 & O11).
  destruct (try_ok ms B zs m Hm Hr Hx) as [m' F'].
  assert (Lm : length m' = length m) by (apply Hms; now apply try_spec in F').
  assert (F : fit L (si_t si) (si_u si) (si_v si) (si_tref si) (si_lor si) 45 o s = Ok (B, zs, m', map (fun _ => Fin 1) ext)).
  { unfold fit. rewrite S2, S3, S5, HB by assumption. cbn [bind]. rewrite finite_some, O7, S4. cbn [eq_str String.eqb Ascii.eqb Bool.eqb].
    rewrite F'. reflexivity. }
  assert (SL := sel_lens_ok _ _ _ _ _ O11).
  assert (C1 : ci_stage L o s si 45 B zs m' (map (fun _ => Fin 1) ext) = Ok (coef_core (si_tref si) (si_lor si) 45 o s m' (map (fun _ => Fin 1) ext))).
  { unfold ci_stage. rewrite O9. reflexivity. }
  assert (C2 : diag_stage L o (coef_core (si_tref si) (si_lor si) 45 o s m' (map (fun _ => Fin 1) ext)) = Ok (coef_core (si_tref si) (si_lor si) 45 o s m' (map (fun _ => Fin 1) ext))).
  { unfold diag_stage. rewrite O10. reflexivity. }
  assert (A := core_aligned (si_tref si) (si_lor si) 45 o s m' (map (fun _ => Fin 1) ext) SL ltac:(lia)).
  set (c1 := coef_core _ _ _ _ _ _ _) in *.
  assert (Hi : forall i, In i (l_argsort L (map Fin (c_frq c1))) -> (i < length (c_name c1))%nat).
  { intros i H. apply (argsort_in []) in H. rewrite map_length in H. destruct A as (A & _). lia. }
  destruct (apply_order_ok c1 _ A Hi) as [c Hc].
  assert (C3 : reorder L c1 (o_ordercnstit o) = Ok c).
  { rewrite reorder_eq, O8. unfold order_stage. cbn [eq_str String.eqb Ascii.eqb Bool.eqb bind fst snd]. exact Hc. }
  assert (E2 : is2d four_v = tw) by (unfold four_v; destruct tw; reflexivity).
  assert (SV : solve L ex_t four_u four_v (Some 45) opts = Ok c).
  { rewrite <- P2 in S1. rewrite <- E2 in P1, O1. rewrite <- S3, <- S5, <- O6 in O11. exact (solve_intro L _ _ _ _ _ _ _ _ _ _ _ _ _ _ _ _ P1 S1 O1 O11 F C1 C2 C3). }
  assert (SB := reorder_base _ _ _ _ C3). exists c. split.
  - constructor; auto using try_shape, try_perm.
    + intros x Hx'.
      assert (HD : In "order_constit" (keys documented)) by (cbn; auto 20).
      assert (E := setting_val _ _ _ Hu HD Hx'). rewrite (setting_val _ _ _ Hu HD HO) in E. subst x. unfold sorted_order. auto.
    + exists (PStr "python"). split; auto. apply four_samples.
    + discriminate.
  - rewrite (sb_opt _ _ SB), (sb_reftime _ _ SB), (sb_lat _ _ SB). unfold c1 at 1 2 3 4 5 6 7 8. cbn [coef_core c_opt c_reftime c_lat].
    repeat (split; [assumption || reflexivity|]).
    destruct (reorder_rows L _ _ _ (try_perm ms) A (or_intror (or_intror O8)) C3) as [RP NP]. split; [exact NP|].
    assert (LL := apply_order_rows _ _ _ Hc). destruct LL as (_ & Ab & _). apply (perm_some _ _).
    rewrite <- (linds_rows c Ab). change (s_lind s) with (c_lind c1). rewrite <- (linds_rows c1 A). now apply Permutation_map.
Qed.
End Run.
