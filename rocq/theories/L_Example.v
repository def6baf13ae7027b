(** A concrete successful run: external routines that satisfy what the theorems assume of them, data
    made of M2 and S2, and the resulting call of solve. *)
From Coq Require Import QArith Qreals Lia Lra Sorting Permutation.
From Verif Require Import M_Base M_Lib M_Tables M_Const M_Options M_Time M_Slvinit M_Harmonics M_Select M_Ellipse
  M_Robust M_Period M_Conf M_Diag M_Solve S_Dict S_Options L_Base L_Options L_SolveInv L_OptSolve S_Slv L_Slv L_Slv2
  L_Tables S_Order L_Order S_Select L_Select S_Fit L_Fit L_Align L_SelOrder L_Order2 L_Order3.
Open Scope R_scope.
Open Scope string_scope.

(** ** sorting by insertion *)
Definition xleb (a b : xr) : bool := match b with NaN => true | _ => xge b a end.
Lemma xleb_xle a b : xleb a b = true -> xle a b.
Proof. unfold xle. destruct a, b; cbn; intros H; try discriminate; auto; right; repeat split; auto; discriminate. Qed.
Lemma xleb_total a b : xleb a b = false -> xle b a.
Proof.
  unfold xle. destruct a as [x| | |], b as [y| | |]; cbn; intros H; try discriminate; auto; right; repeat split; auto; try discriminate.
  destruct (Rle_dec x y); [discriminate|]. destruct (Rle_dec y x); auto. lra.
Qed.
Lemma xle_trans a b c : xle a b -> xle b c -> xle a c.
Proof.
  unfold xle. intros [-> |(A1 & A2 & A3)] [H|(B1 & B2 & B3)]; try tauto.
  right. repeat split; auto. destruct a as [x| | |], b as [y| | |], c as [z| | |]; cbn in *; try discriminate; try congruence; auto.
  destruct (Rle_dec x y), (Rle_dec y z), (Rle_dec x z); try discriminate; auto. lra.
Qed.
Definition ins_argsort (l : list xr) : list nat :=
  sort_by (fun i j => xleb (nth i l NaN) (nth j l NaN)) (seq 0 (length l)).

Lemma insert_perm {A} le (x : A) l : Permutation (insert_by le x l) (x :: l).
Proof.
  induction l as [|y l IH]; cbn; auto. destruct (le x y); auto.
  refine (perm_trans (perm_skip y IH) (perm_swap _ _ _)).
Qed.
Lemma sort_perm {A} le (l : list A) : Permutation (sort_by le l) l.
Proof.
  induction l as [|x l IH]; cbn; auto. refine (perm_trans (insert_perm _ _ _) (perm_skip _ IH)).
Qed.
Lemma insert_sorted {A} (Q : A -> A -> Prop) le x l : (forall a b, le a b = true -> Q a b) ->
  (forall a b, le a b = false -> Q b a) -> (forall a b c, Q a b -> Q b c -> Q a c) ->
  StronglySorted Q l -> StronglySorted Q (insert_by le x l).
Proof.
  intros H1 H2 H3. induction l as [|y l IH]; intros H; cbn; [repeat constructor|].
  inversion H as [|? ? S F]; subst. destruct (le x y) eqn:E.
  - constructor; auto. constructor; auto. rewrite Forall_forall in F |- *. eauto.
  - constructor; auto. rewrite Forall_forall in F |- *. intros z Hz.
    apply (Permutation_in _ (insert_perm le x l)) in Hz. destruct Hz as [<- |Hz]; auto.
Qed.
Lemma sort_sorted {A} (Q : A -> A -> Prop) le l : (forall a b, le a b = true -> Q a b) ->
  (forall a b, le a b = false -> Q b a) -> (forall a b c, Q a b -> Q b c -> Q a c) -> StronglySorted Q (sort_by le l).
Proof. intros H1 H2 H3. induction l; cbn; [constructor|]. now apply insert_sorted. Qed.
Lemma SS_map {A B} (f : A -> B) (Q : B -> B -> Prop) l : StronglySorted (fun a b => Q (f a) (f b)) l -> StronglySorted Q (map f l).
Proof.
  induction 1 as [|x l S IH F]; cbn; constructor; auto. rewrite Forall_forall in *. intros y Hy.
  apply in_map_iff in Hy. destruct Hy as (z & <- & Hz). auto.
Qed.

(** ** the routines *)
Definition Cdec (a b : C) : {a = b} + {a <> b} := Ceq_dec a b.
Definition exact_lstsq (m0 : list C) (B : cmat) (x : list C) (_ : pyval) : res (list C * list R * nat * list R) :=
  if forallb (fun r => Nat.eqb (length r) (length m0)) B && (if list_eq_dec Cdec (cmatvec B m0) x then true else false)
  then Ok (m0, [0], length m0, []) else Err LinAlgError.

(** [exL m0]: a least-squares routine that returns m0 whenever m0 solves the system exactly *)
Definition exL (m0 : list C) : lib :=
  {| l_parse := fun _ => None; l_lstsq := exact_lstsq m0;
     l_pinv := fun X => Ok (map (fun _ => map (fun _ => RtoC 0) X) m0);
     l_inv := fun M => Ok M;
     l_svd := fun M => Ok (M, map (fun _ => 0) M, M); l_eigvals := fun M => Ok (map (fun _ => RtoC 0) M);
     l_is_PD := fun _ => true; l_spacing := fun _ => 0;
     l_mvn := fun _ m _ n => Ok (repeat m n); l_lomb := fun t x f => map (fun _ => 0) f;
     l_argsort := ins_argsort |}.

Lemma ex_shape m0 : lstsq_shape (exL m0).
Proof.
  intros B x rc m r k s H row Hr. cbn [exL l_lstsq] in H. unfold exact_lstsq in H.
  destruct (forallb _ B) eqn:E; cbn [andb] in H; [|discriminate]. rewrite forallb_forall in E.
  destruct (list_eq_dec _ _ _); [|discriminate]. injection H as <- _ _ _. symmetry. apply Nat.eqb_eq. exact (E row Hr).
Qed.
Lemma ex_perm m0 : argsort_perm (exL m0).
Proof. intros l. cbn. apply sort_perm. Qed.
Lemma ex_sorts m0 : argsort_sorts (exL m0).
Proof.
  intros l. cbn. apply SS_map. apply sort_sorted.
  - intros a b. apply xleb_xle.
  - intros a b. apply xleb_total.
  - intros a b c. apply xle_trans.
Qed.

(** ** the data: five days, given constituents, no nodal correction, raw phase, no trend *)
Definition ext : list R := [0; 1; 2; 4].
Definition ex_tref : R := / 2 * (0 + 4).
Definition ex_f (i : nat) : R := nth i (linearized_freqs ex_tref) 0.
Definition ex_wave (x f : R) : C := Cmult (RtoC 1) (cis ((0 + 24 * (x - ex_tref) * f) * (2 * PI))).
Definition ex_e (x : R) (i : nat) : C := ex_wave x (ex_f i).
Definition ex_t : pyarr tarray := NdArr [4%nat] (TNum (map Fin ext)) [].

Section Run.
(** table positions and names of the constituents; whether they were selected automatically *)
Variables (ks : list nat) (names : list string) (arr : bool).
Definition ex_row (x : R) : list C := (map (ex_e x) ks ++ map Cconj (map (ex_e x) ks)) ++ [RtoC 1].
Definition ex_B : cmat := map ex_row ext.
Definition ex_u (m0 : list C) : pyarr (list xr) := NdArr [4%nat] (map (fun z => Fin (fst z)) (cmatvec ex_B m0)) [].
Definition ex_v (m0 : list C) : pyarr (list xr) := NdArr [4%nat] (map (fun z => Fin (snd z)) (cmatvec ex_B m0)) [].

Definition ex_sel : sel :=
  {| s_NRname := names; s_NRlind := ks; s_NRarr := arr;
     s_NRfrq := map ex_f ks; s_R := []; s_name := names; s_frq := map ex_f ks;
     s_lind := ks; s_nNR := length ks; s_nR := 0; s_nI := 0 |}.

Lemma E_row_raw x fs :
  E_row (repeat (Some 1) (length fs)) (repeat (Some 0) (length fs)) (map Some (lin_arg x ex_tref fs)) =
  map Some (map (ex_wave x) fs).
Proof. induction fs as [|f fs IH]; cbn; [reflexivity|]. f_equal. exact IH. Qed.

Lemma ex_basis o lat : o_nodsatnone o = true -> o_gwchnone o = true -> o_notrend o = true -> o_infer o = None -> forall lor,
  basis ext ex_tref lor lat o ex_sel = Ok (map (map Some) ex_B).
Proof.
  intros H1 H2 H3 H4 lor. unfold basis, bad_empty_index, flags_of. rewrite H3, H4. cbn [NodsatNone GwchNone]. rewrite H1, H2.
  cbn [andb negb bind]. rewrite andb_false_r. unfold ut_E. cbn [NodsatNone GwchNone andb].
  cbn [ex_sel s_NRfrq]. unfold ones, ext. cbn [length repeat bcast map E_rows]. rewrite !E_row_raw.
  unfold ex_B, ext, ex_row, ex_e. cbn [map]. rewrite !map_app, !map_map. reflexivity.
Qed.

Lemma finite_some {A} (M : list (list A)) : finite_mat (map (map Some) M) = Some M.
Proof.
  unfold finite_mat. rewrite map_map.
  assert (G : forall l : list A, all_some (map Some l) = Some l) by (induction l as [|a l IH]; cbn; [|rewrite IH]; reflexivity).
  rewrite (map_ext _ _ G). induction M as [|r M IH]; cbn; [reflexivity|]. now rewrite IH.
Qed.

Lemma ex_fit m0 o lat lor u v : length m0 = (2 * length ks + 1)%nat ->
  o_nodsatnone o = true -> o_gwchnone o = true -> o_notrend o = true -> o_infer o = None -> eq_str (o_method o) "ols" = true ->
  raw_data u v = cmatvec ex_B m0 ->
  fit (exL m0) ext u v ex_tref lor lat o ex_sel = Ok (ex_B, cmatvec ex_B m0, m0, map (fun _ => Fin 1) ext).
Proof.
  intros Hm H1 H2 H3 H4 H5 H6. unfold fit. rewrite ex_basis by assumption. cbn [bind]. rewrite finite_some, H5, H6.
  cbn [exL l_lstsq]. unfold exact_lstsq.
  assert (E : forallb (fun r : list C => Nat.eqb (length r) (length m0)) ex_B = true).
  { apply forallb_forall. intros r Hr. unfold ex_B in Hr. apply in_map_iff in Hr. destruct Hr as (x & <- & _).
    apply Nat.eqb_eq. unfold ex_row. rewrite !app_length, !map_length, Hm. cbn. lia. }
  rewrite E. cbn [andb]. destruct (list_eq_dec Cdec _ _); [reflexivity|congruence].
Qed.

(** ** successful reordering *)
Lemma take_idx_ok {A} (l : list A) ind : (forall i, In i ind -> (i < length l)%nat) -> exists r, take_idx l ind = Ok r.
Proof.
  induction ind as [|i ind IH]; intros H; [exists []; reflexivity|].
  destruct (nth_error l i) as [x|] eqn:E; [|apply nth_error_None in E; specialize (H i (or_introl eq_refl)); lia].
  destruct (IH (fun j Hj => H j (or_intror Hj))) as [r Hr]. exists (x :: r). unfold take_idx in *. cbn. rewrite E. cbn. now rewrite Hr.
Qed.
Lemma take_opt_ok {A} (o : option (list A)) n ind : len_ok n o -> (forall i, In i ind -> (i < n)%nat) -> exists r, take_opt o ind = Ok r.
Proof.
  intros H Hi. destruct o as [l|]; [|exists None; reflexivity]. cbn. destruct (take_idx_ok l ind) as [r ->].
  - intros i Hi2. rewrite (H l eq_refl). auto.
  - exists (Some r). reflexivity.
Qed.
Lemma apply_order_ok c ind : aligned c -> (forall i, In i ind -> (i < length (c_name c))%nat) -> exists b, apply_order c ind = Ok b.
Proof.
  intros (A1 & A2 & A3 & A4 & A5 & A6 & A7 & A8 & A9 & A10 & A11 & A12 & A13 & A14) Hi. unfold apply_order.
  destruct (take_idx_ok (c_name c) ind Hi) as [? ->]. cbn [bind].
  destruct (take_opt_ok (c_PE c) _ ind A13 Hi) as [? ->]. cbn [bind].
  destruct (take_opt_ok (c_SNR c) _ ind A14 Hi) as [? ->]. cbn [bind].
  destruct (take_opt_ok (c_A c) _ ind A4 Hi) as [? ->]. cbn [bind].
  destruct (take_opt_ok (c_A_ci c) _ ind A9 Hi) as [? ->]. cbn [bind].
  destruct (take_idx_ok (c_g c) ind) as [? ->]; [now rewrite A3|]. cbn [bind].
  destruct (take_opt_ok (c_g_ci c) _ ind A8 Hi) as [? ->]. cbn [bind].
  destruct (take_opt_ok (c_Lsmaj c) _ ind A5 Hi) as [? ->]. cbn [bind].
  destruct (take_opt_ok (c_Lsmaj_ci c) _ ind A10 Hi) as [? ->]. cbn [bind].
  destruct (take_opt_ok (c_Lsmin c) _ ind A6 Hi) as [? ->]. cbn [bind].
  destruct (take_opt_ok (c_Lsmin_ci c) _ ind A11 Hi) as [? ->]. cbn [bind].
  destruct (take_opt_ok (c_theta c) _ ind A7 Hi) as [? ->]. cbn [bind].
  destruct (take_opt_ok (c_theta_ci c) _ ind A12 Hi) as [? ->]. cbn [bind].
  destruct (take_idx_ok (c_frq c) ind) as [? ->]; [now rewrite A1|]. cbn [bind].
  destruct (take_idx_ok (c_lind c) ind) as [? ->]; [now rewrite A2|]. cbn [bind]. eauto.
Qed.
Lemma argsort_in (m0 : list C) l i : In i (ins_argsort l) -> (i < length l)%nat.
Proof. intros H. apply (Permutation_in _ (ex_perm m0 l)) in H. apply in_seq in H. lia. Qed.

Lemma ex_slv (m0 : list C) (tw : bool) : exists si,
  slvinit (fun _ => None) ex_t (ex_u m0) (if tw then Some (ex_v m0) else None) (Some 45) (PStr "python") = Ok si /\
  si_t si = ext /\ si_tref si = ex_tref /\ si_u si = map fst (cmatvec ex_B m0) /\
  si_v si = (if tw then Some (map snd (cmatvec ex_B m0)) else None) /\ (si_lor si = 4).
Proof.
  assert (P : ptp ext = Ok 4).
  { unfold ptp, ext, rmax, rmin, fold_left. f_equal.
    rewrite (Rmax_right 0 1), (Rmax_right 1 2), (Rmax_right 2 4), (Rmin_left 0 1), (Rmin_left 0 2), (Rmin_left 0 4) by lra. lra. }
  unfold slvinit. destruct tw.
  - replace (check_args _ _ _ _) with (Ok tt : res unit) by reflexivity. cbn [bind].
    replace (normalize_time _ _ _) with (Ok (map Fin ext)) by reflexivity. cbn [bind]. unfold slv_core.
    replace (clean _ _ _) with (ext, ext, map fst (cmatvec ex_B m0), Some (map snd (cmatvec ex_B m0))) by reflexivity.
    destruct (equi_of ext); rewrite P; cbn [bind]; eexists; repeat split.
  - replace (check_args _ _ _ _) with (Ok tt : res unit) by reflexivity. cbn [bind].
    replace (normalize_time _ _ _) with (Ok (map Fin ext)) by reflexivity. cbn [bind]. unfold slv_core.
    replace (clean _ _ _) with (ext, ext, map fst (cmatvec ex_B m0), @None (list R)) by reflexivity.
    destruct (equi_of ext); rewrite P; cbn [bind]; eexists; repeat split.
Qed.

Lemma mapM_idx_ok {A B} (f : nat -> A -> res B) l : (forall i x, exists y, f i x = Ok y) -> forall i, exists ys, mapM_idx f i l = Ok ys.
Proof.
  intros H. induction l as [|x l IH]; intros i; cbn; [eauto|]. destruct (H i x) as [y ->]. cbn. destruct (IH (S i)) as [ys ->]. cbn. eauto.
Qed.

Lemma ex_conf m0 o si W xraw xmod nm xs e : o_white o = true -> o_linci o = true -> o_infer o = None ->
  exists cis, confidence (exL m0) o ex_sel (si_tin si) (si_t si) e (si_elor si) xraw xmod W ex_B nm xs = Ok cis.
Proof.
  intros H1 H2 H3. unfold confidence. rewrite H1, H3. cbn [bind].
  assert (G : exists g, gammas (exL m0) ex_B nm W xraw xmod = Ok g).
  { unfold gammas. destruct (all_finite W); cbn [exL l_inv bind]; eauto. destruct (Req_EM_T _ _); eauto. }
  destruct G as [g ->]. cbn [bind].
  destruct (mapM_idx_ok (fun (c : nat) (x : cs) => conf_one (exL m0) o g None (length xs) c (x_Xu x) (x_Yu x) (x_Xv x) (x_Yv x)
    (x_g x) (x_theta x)) xs) with (i := 0%nat) as [ys ->].
  - intros i x. unfold conf_one. rewrite H2. eauto.
  - cbn. eauto.
Qed.

Definition ex_call (m0 : list C) (tw : bool) (opts : dict pyval) : res coef :=
  solve (exL m0) ex_t (ex_u m0) (if tw then Some (ex_v m0) else None) (Some 45) opts.

Definition ex_good (m0 : list C) (tw : bool) : Prop :=
  length m0 = (2 * length ks + 1)%nat /\ (tw = false -> map RtoC (map fst (cmatvec ex_B m0)) = cmatvec ex_B m0).

Lemma combine_fst_snd (l : list C) : combine (map fst l) (map snd l) = l.
Proof. induction l as [|[a b] l IH]; cbn; [|rewrite IH]; reflexivity. Qed.

Definition ex_variant (opts : dict pyval) (tw : bool) : Prop := unique_keys opts /\ exists compat,
  process_opts opts tw = Ok compat /\ oget compat "epoch" = PStr "python" /\ forall equi, exists o,
  read_opt (slv_opts tw equi compat) = Ok o /\ o_twodim o = tw /\
  o_nodsatnone o = true /\ o_gwchnone o = true /\ o_notrend o = true /\ o_infer o = None /\ o_method o = PStr "ols" /\
  ut_cnstitsel ex_tref (xdiv (Fin (o_rmin o)) (Fin (24 * 4))) (o_cnstit o) None = Ok ex_sel /\
  ((o_white o = true /\ o_linci o = true /\ o_conf_int o = true /\ o_nodiagn o = false) \/ (o_conf_int o = false /\ o_nodiagn o = true)).

Definition ex_W : list xr := map (fun _ => Fin 1) ext.

Lemma diag_ok m0 o c : aligned c -> (exists E, energies c = Ok E) -> (exists N, noises c = Ok N) ->
  exists pe sn d, diag_stage (exL m0) o c = Ok (if o_nodiagn o then c else set_diag c (Some pe) (Some sn) (Some d)).
Proof.
  intros A [E HE] [N HN]. unfold diag_stage. destruct (o_nodiagn o).
  - exists [], [], ([], [], []). reflexivity.
  - assert (P : exists pe, PE_of c = Ok pe) by (unfold PE_of; rewrite HE; cbn; eauto). destruct P as [pe P].
    assert (S : exists sn, SNR_of c = Ok sn) by (unfold SNR_of; rewrite HE, HN; cbn; eauto). destruct S as [sn S].
    assert (Lp := PE_len _ _ A P). assert (Ls := SNR_len _ _ A S).
    assert (I : forall i, In i (rev (ins_argsort pe)) -> (i < length (c_name c))%nat).
    { intros i Hi. apply in_rev in Hi. apply (argsort_in m0) in Hi. lia. }
    unfold diagn_of. rewrite P, S. cbn [bind exL l_argsort].
    destruct (take_idx_ok (c_name c) _ I) as [? ->]. cbn [bind].
    destruct (take_idx_ok pe _ ltac:(rewrite Lp; exact I)) as [? ->]. cbn [bind].
    destruct (take_idx_ok sn (rev (ins_argsort pe)) ltac:(rewrite Ls; exact I)) as [? ->]. cbn [bind]. eauto.
Qed.

Hypothesis Hnames : length names = length ks.
Lemma ex_sel_lens : sel_lens ex_sel.
Proof.
  constructor; cbn; rewrite ?map_length, ?app_nil_r; auto. intros r [].
Qed.

Lemma ex_ci m0 o si : length m0 = (2 * length ks + 1)%nat ->
  ((o_white o = true /\ o_linci o = true /\ o_conf_int o = true /\ o_nodiagn o = false) \/ (o_conf_int o = false /\ o_nodiagn o = true)) ->
  o_infer o = None ->
  exists c1 c2, ci_stage (exL m0) o ex_sel si 45 ex_B (cmatvec ex_B m0) m0 ex_W = Ok c1 /\ diag_stage (exL m0) o c1 = Ok c2 /\
    c_opt c2 = o /\ c_name c2 = names /\ c_weights c2 = ex_W /\
    let core := coef_core (si_tref si) (si_lor si) 45 o ex_sel m0 ex_W in
    c_g c2 = c_g core /\ c_A c2 = c_A core /\ c_Lsmaj c2 = c_Lsmaj core /\ c_Lsmin c2 = c_Lsmin core /\ c_theta c2 = c_theta core /\
    (o_nodiagn o = false -> c_SNR c2 <> None).
Proof.
  intros Hm0 Hm Hi.
  assert (A : forall c1, ci_stage (exL m0) o ex_sel si 45 ex_B (cmatvec ex_B m0) m0 ex_W = Ok c1 -> aligned c1).
  { intros c1 H. refine (proj1 (ci_stage_aligned _ _ _ _ _ _ _ _ _ _ ex_sel_lens _ _ H)); [cbn; lia|reflexivity]. }
  revert A. unfold ci_stage. destruct Hm as [(H1 & H2 & H3 & H4)|[H3 H4]]; rewrite H3.
  - set (xmod := model_fit (o_twodim o) ex_B m0). set (xs := conf_input (o_twodim o) m0 ex_sel).
    destruct (ex_conf m0 o si ex_W (cmatvec ex_B m0) xmod
      (2 * (s_nNR ex_sel + s_nR ex_sel) + 1 + (if o_notrend o then 0 else 1))%nat xs
      (resid_parts (o_twodim o) ex_W (cmatvec ex_B m0) xmod) H1 H2 Hi) as [cis ->].
    cbn [bind]. set (core := coef_core _ _ _ _ _ _ _). set (c1 := set_ci core (o_twodim o) cis). intros A.
    assert (Ac := A _ eq_refl). exists c1.
    destruct (diag_ok m0 o c1 Ac) as (pe & sn & d & D).
    + unfold energies, c1, core. cbn. destruct (o_twodim o); cbn; eauto.
    + unfold noises, c1, core. cbn. destruct (o_twodim o); cbn; eauto.
    + rewrite H4 in D. exists (set_diag c1 (Some pe) (Some sn) (Some d)). split; [reflexivity|]. split; [exact D|].
      cbn. repeat split; discriminate.
  - intros _. unfold diag_stage. rewrite H4. eexists. eexists. split; [reflexivity|]. split; [reflexivity|]. cbn. repeat split. congruence.
Qed.

Lemma ex_natural m0 (tw : bool) opts : ex_good m0 tw -> ex_variant opts tw -> exists cN,
  natural (exL m0) ex_t (ex_u m0) (if tw then Some (ex_v m0) else None) (Some 45) opts cN /\
  c_name cN = names /\ c_weights cN = ex_W /\ aligned cN /\
  let core := coef_core ex_tref 4 45 (c_opt cN) ex_sel m0 ex_W in o_twodim (c_opt cN) = tw /\
  c_g cN = c_g core /\ c_A cN = c_A core /\ c_Lsmaj cN = c_Lsmaj core /\ c_Lsmin cN = c_Lsmin core /\ c_theta cN = c_theta core /\
  (eq_str (opt_value opts "conf_int") "none" = false -> c_SNR cN <> None).
Proof.
  intros [Hm Hd] (Hu & compat & P1 & P2 & P3). destruct (ex_slv m0 tw) as (si & S1 & S2 & S3 & S4 & S5 & S6).
  destruct (P3 (si_equi si)) as (o & O1 & O2 & O3 & O4 & O5 & O6 & O7 & O8 & O9).
  assert (F : fit (exL m0) ext (si_u si) (si_v si) ex_tref (si_lor si) 45 o ex_sel = Ok (ex_B, cmatvec ex_B m0, m0, ex_W)).
  { apply ex_fit; auto; [now rewrite O7|]. rewrite S4, S5. destruct tw; cbn [raw_data]; [apply combine_fst_snd|now apply Hd]. }
  destruct (ex_ci m0 o si Hm O9 O6) as (c1 & c2 & C1 & C2 & C3 & C4 & C5 & C6). rewrite S3, S6 in C6.
  assert (N : natural (exL m0) ex_t (ex_u m0) (if tw then Some (ex_v m0) else None) (Some 45) opts c2).
  { constructor. exists compat, si, 45, ex_sel, ex_B, (cmatvec ex_B m0), m0, ex_W, c1. rewrite C3, P2, S2, S3, O6, S6.
    replace (is2d (if tw then Some (ex_v m0) else None)) with tw by (destruct tw; reflexivity).
    repeat (split; [first [assumption|reflexivity|rewrite S6 in F; exact F]|]). exact C2. }
  exists c2. split; [exact N|]. split; [exact C4|]. split; [exact C5|]. split.
  - refine (proj1 (natural_aligned _ _ _ _ _ _ _ (ex_shape m0) _ N _)).
    + repeat split; try (intros n d m [=]; subst; reflexivity). destruct tw; [|exact I]. intros n d m [=]; subst; reflexivity.
    + rewrite C5. discriminate.
  - destruct (used_options opts tw (si_equi si) Hu compat o P1 O1) as (_ & _ & _ & _ & _ & _ & _ & U4 & _).
    rewrite U4 in C6. rewrite C3. cbn zeta. split; [exact O2|]. exact C6.
Qed.

Lemma ex_arrays m0 (tw : bool) : arrays_ok ex_t (ex_u m0) (if tw then Some (ex_v m0) else None).
Proof.
  repeat split; try (intros n d m [=]; subst; reflexivity). destruct tw; [|exact I]. intros n d m [=]; subst; reflexivity.
Qed.

(** every order is accepted *)
Lemma ex_runs m0 tw opts x x' : ex_good m0 tw -> ex_variant opts tw ->
  validate_order_constit x (negb (eq_str (opt_value opts "conf_int") "none")) = Ok x' -> sorting x' ->
  (eq_str (opt_value opts "conf_int") "none" = true -> x' <> PStr "SNR") ->
  exists c, ex_call m0 tw (dset opts "order_constit" x) = Ok c /\ c_weights c = ex_W.
Proof.
  intros Hg Hv Hx Hs Hn. destruct (ex_natural _ _ _ Hg Hv) as (cN & N & N1 & N2 & N3 & N4). assert (Hu := proj1 Hv).
  unfold ex_call. rewrite (natural_order _ _ _ _ _ _ _ _ Hu N), Hx. cbn [bind].
  assert (R : exists b, reorder (exL m0) cN x' = Ok b).
  { rewrite reorder_eq. destruct N4 as (T & G1 & G2 & G3 & G4 & _ & G5).
    assert (En : exists E, energies cN = Ok E).
    { unfold energies. rewrite G3, G4, G2. unfold coef_core. cbn. rewrite T. destruct tw; cbn; eauto. }
    assert (O : exists c' ind, order_stage (exL m0) cN x' = Ok (c', ind) /\ aligned c' /\
        (forall i, In i ind -> (i < length (c_name c'))%nat)).
    { destruct Hs as [-> |[-> | ->]]; unfold order_stage; cbn [eq_str String.eqb Ascii.eqb Bool.eqb].
      - destruct En as [E En]. assert (P : exists pe, PE_of cN = Ok pe) by (unfold PE_of; rewrite En; cbn; eauto). destruct P as [pe P].
        assert (I : forall l, length l = length (c_name cN) -> forall i, In i (rev (l_argsort (exL m0) l)) -> (i < length (c_name cN))%nat).
        { intros l Hl i Hi. apply in_rev in Hi. apply (argsort_in m0) in Hi. lia. }
        destruct (c_PE cN) as [q|] eqn:Eq.
        + cbn [bind]. rewrite Eq. cbn [key bind]. eexists. eexists. split; [reflexivity|]. split; auto. apply I.
          destruct N3 as (_ & _ & _ & _ & _ & _ & _ & _ & _ & _ & _ & _ & A & _). now apply A.
        + rewrite P. cbn [bind key set_diag c_PE]. eexists. eexists. split; [reflexivity|]. split.
          * apply set_diag_aligned; auto; [apply Some_len; now apply PE_len|]. apply N3.
          * cbn. apply I. now apply PE_len.
      - destruct (c_SNR cN) as [q|] eqn:Eq.
        + cbn [bind key]. eexists. eexists. split; [reflexivity|]. split; auto. intros i Hi. apply in_rev in Hi.
          apply (argsort_in m0) in Hi. destruct N3 as (_ & _ & _ & _ & _ & _ & _ & _ & _ & _ & _ & _ & _ & A). rewrite (A q Eq) in Hi. exact Hi.
        + exfalso. destruct (eq_str (opt_value opts "conf_int") "none"); [now apply Hn|now apply G5].
      - eexists. eexists. split; [reflexivity|]. split; auto. intros i Hi. apply (argsort_in m0) in Hi.
        rewrite map_length in Hi. destruct N3 as (A & _). lia. }
    destruct O as (c' & ind & -> & A & I). cbn [bind fst snd]. now apply apply_order_ok. }
  destruct R as [b R]. rewrite R. cbn. eexists. split; [reflexivity|]. cbn. rewrite (sb_weights _ _ (reorder_base _ _ _ _ R)). exact N2.
Qed.

End Run.

(** ** concrete instances *)
(** scalar: amplitudes 1 and 2; vector: M2 an ellipse, S2 a circle *)
Definition m_scalar : list C := [RtoC (/ 2); RtoC 1; RtoC (/ 2); RtoC 1; RtoC 3].
Definition m_vector : list C := [(2, 1); (0, 1); (1, 0); (0, 0); (5, 6)].

Lemma M2_index : constit_index "M2" = Ok 47%nat.
Proof. vm_compute. reflexivity. Qed.
Lemma S2_index : constit_index "S2" = Ok 56%nat.
Proof. vm_compute. reflexivity. Qed.
Lemma ex_names : take_idx const_name [47%nat; 56%nat] = Ok ["M2"; "S2"].
Proof. vm_compute. reflexivity. Qed.
Lemma ex_freqs tref : take_idx (linearized_freqs tref) [47%nat; 56%nat] =
  Ok [nth 47 (linearized_freqs tref) 0; nth 56 (linearized_freqs tref) 0].
Proof.
  apply take_idx_intro. cbn [map]. assert (L := lin_len tref). revert L. generalize (linearized_freqs tref). intros l L.
  rewrite (nth_error_nth' l 0 (n := 47)) by lia. rewrite (nth_error_nth' l 0 (n := 56)) by lia. reflexivity.
Qed.

Lemma ex_select m : ut_cnstitsel ex_tref m (PSeq [PStr "M2"; PStr "S2"]) None = Ok (ex_sel [47%nat; 56%nat] ["M2"; "S2"] false).
Proof.
  unfold ut_cnstitsel, initial_lind. cbn [eq_str as_names mapM bind]. rewrite M2_index, S2_index. cbn [bind].
  rewrite ex_freqs. cbn [bind]. rewrite ex_names. cbn [bind]. reflexivity.
Qed.

Definition base_opts : dict pyval :=
  [("nodal", PBool false); ("phase", PStr "raw"); ("trend", PBool false); ("white", PBool true); ("epoch", PStr "python")].
(** explicit constituents, linearised intervals *)
Definition ex_opts : dict pyval := (("constit", PSeq [PStr "M2"; PStr "S2"]) :: base_opts)%list.
(** the same without confidence intervals *)
Definition ex_opts_none : dict pyval := (("conf_int", PStr "none") :: ex_opts)%list.
(** automatic selection with a Rayleigh criterion that only M2 meets *)
Definition ex_opts_auto : dict pyval := (("Rayleigh_min", PNum (24 / 5)) :: base_opts)%list.

Ltac unique_tac :=
  unfold unique_keys; repeat (constructor; [cbn; let H := fresh in intros H; repeat (destruct H as [H|H]; [discriminate|]); exact H|]); constructor.
Ltac ex_variant_tac opts tw compat o E E2 :=
  assert (Hu : unique_keys opts) by unique_tac;
  split; [exact Hu|]; destruct (process_opts opts tw) as [compat|] eqn:E; [|destruct tw; discriminate];
  exists compat; split; [reflexivity|]; split; [destruct tw; injection E as <-; reflexivity|]; intros equi;
  destruct (read_opt (slv_opts tw equi compat)) as [o|] eqn:E2; [|destruct tw; injection E as <-; discriminate];
  exists o; split; [reflexivity|];
  destruct (used_options opts tw equi Hu compat o E E2) as
   (_ & _ & U1 & _ & _ & U2 & U3 & U4 & U5 & U6 & _ & U7 & _ & U8 & Ur & U9 & U10 & _ & _ & _ & (inf & U11 & U12) & _);
  cbn in U2, U3, U4, U5, U6, U7, U8, Ur, U9, U10, U11; injection U11 as <-; injection U12 as <-.

Notation ks2 := [47%nat; 56%nat].
Notation ns2 := ["M2"; "S2"].
Lemma ex_variant_linear tw : ex_variant ks2 ns2 false ex_opts tw.
Proof. ex_variant_tac ex_opts tw compat o E E2. rewrite U5, ex_select. tauto. Qed.
Lemma ex_variant_none tw : ex_variant ks2 ns2 false ex_opts_none tw.
Proof. ex_variant_tac ex_opts_none tw compat o E E2. rewrite U5, ex_select. tauto. Qed.

(** only M2 is separated by at least 0.05 cycles/hour *)
Lemma only_M2 : auto_lind (Fin (/ 20)) = [47%nat].
Proof.
  assert (Q : map fst (filter (fun p => Qle_bool (Qmake 1 20) (snd p)) (enumerate const_df)) = [47%nat]) by (vm_compute; reflexivity).
  rewrite <- Q. unfold auto_lind, dfR, enumerate. rewrite map_length. generalize (seq 0 (length const_df)). clear.
  induction const_df as [|d l IH]; intros [|k ks]; try reflexivity. cbn [map combine filter].
  assert (E : xge (Fin (snd (k, Q2R d))) (Fin (/ 20)) = Qle_bool (Qmake 1 20) (snd (k, d))).
  { cbn [snd xge]. assert (H20 : Q2R (Qmake 1 20) = / 20) by (unfold Q2R; cbn; lra). rewrite <- H20.
    destruct (Rle_dec (Q2R (Qmake 1 20)) (Q2R d)) as [H|H].
    - symmetry. apply Qle_bool_iff. now apply Rle_Qle.
    - symmetry. apply not_true_iff_false. intros X. apply Qle_bool_iff in X. apply Qle_Rle in X. contradiction. }
  rewrite E. destruct (Qle_bool (Qmake 1 20) (snd (k, d))); cbn [map]; [f_equal|]; apply IH.
Qed.
Lemma ex_select_auto : ut_cnstitsel ex_tref (xdiv (Fin (24 / 5)) (Fin (24 * 4))) (PStr "auto") None = Ok (ex_sel [47%nat] ["M2"] true).
Proof.
  assert (X : xdiv (Fin (24 / 5)) (Fin (24 * 4)) = Fin (/ 20)).
  { cbn [xdiv]. destruct (Req_EM_T (24 * 4) 0); [lra|]. f_equal. lra. }
  rewrite X. unfold ut_cnstitsel, initial_lind. cbn [eq_str String.eqb Ascii.eqb Bool.eqb]. rewrite only_M2. cbn [bind].
  assert (F : take_idx (linearized_freqs ex_tref) [47%nat] = Ok [ex_f 47]).
  { apply take_idx_intro. cbn [map]. assert (L := lin_len ex_tref). unfold ex_f. revert L. generalize (linearized_freqs ex_tref). intros l L.
    rewrite (nth_error_nth' l 0 (n := 47)) by lia. reflexivity. }
  rewrite F. cbn [bind].
  assert (N : take_idx const_name [47%nat] = Ok ["M2"]) by (vm_compute; reflexivity). rewrite N. cbn [bind]. reflexivity.
Qed.
Lemma ex_variant_auto tw : ex_variant [47%nat] ["M2"] true ex_opts_auto tw.
Proof. ex_variant_tac ex_opts_auto tw compat o E E2. injection Ur as <-. rewrite U5, ex_select_auto. tauto. Qed.

Lemma ex_good_scalar : ex_good ks2 m_scalar false.
Proof.
  split; [reflexivity|]. intros _. rewrite map_map. unfold cmatvec. rewrite map_map. apply map_ext_in. intros row Hr.
  unfold ex_B in Hr. apply in_map_iff in Hr. destruct Hr as (x & <- & _). unfold RtoC, cdot, ex_row, m_scalar.
  cbn [map app]. generalize (ex_e x 47) (ex_e x 56).
  intros [a b] [c d]. apply injective_projections; cbn; [reflexivity|ring].
Qed.
Lemma ex_good_vector : ex_good ks2 m_vector true.
Proof. split; [reflexivity|discriminate]. Qed.
Definition m_auto : list C := [(1, 2); (1, -2); RtoC 3].
Lemma ex_good_auto : ex_good [47%nat] m_auto false.
Proof.
  split; [reflexivity|]. intros _. rewrite map_map. unfold cmatvec. rewrite map_map. apply map_ext_in. intros row Hr.
  unfold ex_B in Hr. apply in_map_iff in Hr. destruct Hr as (x & <- & _). unfold RtoC, cdot, ex_row, m_auto.
  cbn [map app]. generalize (ex_e x 47).
  intros [a b]. apply injective_projections; cbn; [reflexivity|ring].
Qed.

Lemma run_variant ks names arr m0 tw opts x : length names = length ks ->
  ex_good ks m0 tw -> ex_variant ks names arr opts tw -> eq_str (opt_value opts "conf_int") "none" = false -> sorted_order x ->
  exists c, ex_call ks m0 tw (dset opts "order_constit" x) = Ok c /\ c_weights c <> [].
Proof.
  intros Hl Hg Hv Hn Hx.
  assert (V : exists x', validate_order_constit x (negb (eq_str (opt_value opts "conf_int") "none")) = Ok x').
  { rewrite Hn. destruct Hx as [-> |[-> |[-> | ->]]]; eexists; reflexivity. }
  destruct V as [x' V]. destruct (ex_runs ks names arr Hl m0 tw opts x x' Hg Hv V) as (c & H1 & H2).
  - eapply validate_sorting; eauto.
  - congruence.
  - exists c. split; auto. rewrite H2. discriminate.
Qed.
