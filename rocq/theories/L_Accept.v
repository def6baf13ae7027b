(** Which calls of solve give a result. *)
From Coq Require Import Lia Lra Permutation.
From Verif Require Import M_Base M_Bunch M_Lib M_Tables M_Const M_Options M_Time M_Slvinit M_Harmonics M_Select M_Ellipse
  M_Robust M_Period M_Conf M_Diag M_Solve M_Recon S_Dict S_Options S_Order S_Basis S_Select S_Fit S_Ellipse S_Slv S_Recon S_Model S_Errors S_Perm S_Period S_Noise S_Accept
  L_Base L_Options L_SolveInv L_OptSolve L_Slv L_Slv2 L_Tables L_Order L_Select L_Fit L_Align L_SelOrder L_Order2 L_Basis L_Harm L_Harm2 L_Harm3 L_Angle L_Ellipse L_Recon L_Recon2 L_Recon3 L_Recon4 L_Core
  L_Ellipse2 L_Model L_Lsq L_Model2 L_Model3 L_Model4 L_Model5 L_Model6 L_Model7 L_Model8 L_Noise2 L_Example.
Open Scope R_scope.
Open Scope string_scope.

(** ** options *)
Lemma read_ok opts tw equi compat r : unique_keys opts -> process_opts opts tw = Ok compat ->
  setting opts "infer" PNone -> setting opts "Rayleigh_min" (PNum r) -> exists o, read_opt (slv_opts tw equi compat) = Ok o.
Proof.
  intros Hu Hp Hi Hr.
  assert (Hs : ~ In "strict" (keys opts)).
  { intros H. rewrite (process_strict _ _ H) in Hp. discriminate. }
  destruct (process_opts_eq opts tw Hu Hs) as (q & Hk & Ho & Heq). rewrite Heq in Hp. clear Heq.
  destruct (known_b opts) eqn:Ek; [|discriminate].
  apply setting_iff in Hi; [|exact Hu|simpl; tauto]. rewrite <- Hi in Hp. cbn [validate_infer is_none orb bind] in Hp.
  destruct (validate_order_constit _ _) as [ord|] eqn:Eord; cbn [bind] in Hp; [|discriminate].
  apply setting_iff in Hr; [|exact Hu|simpl; tauto].
  set (n := dset (dset q "infer" PNone) "order_constit" ord) in *.
  assert (Hn : oget n "Rayleigh_min" = PNum r).
  { unfold n. rewrite !oget_dset. cbn [String.eqb Ascii.eqb Bool.eqb]. rewrite (Ho eq_refl "Rayleigh_min") by (simpl; tauto). now symmetry. }
  assert (Hn1 : oget n "infer" = PNone) by (unfold n; rewrite !oget_dset; reflexivity).
  clearbody n.
  destruct (translate_get n compat Hp) as
    (X0 & X1 & X2 & X3 & X4 & X5 & X6 & X7 & X8 & X9 & X10 & X11 & X12 & X13 & X14 & X15 & X16 & X17 & X18).
  assert (G : forall k, oget (slv_opts tw equi compat) k =
     match dget compat k with Some v => v | None => oget (slv_opts tw equi []) k end).
  { intros k. unfold oget. rewrite slv_get by exact X1. now destruct (dget compat k). }
  unfold read_opt. rewrite !G. clear G.
  rewrite ?X2, ?X3, ?X4, ?X5, ?X6, ?X7, ?X8, ?X9, ?X10, ?X11, ?X12, ?X13, ?X14, ?X15, ?X16, ?X17, ?X18, Hn, Hn1.
  cbn [as_num read_infer bind]. eauto.
Qed.

(** ** samples *)
Lemma slv_ok parse e t u v sm la : samples parse e t u v sm -> sm <> [] -> exists si, slvinit parse t u v (Some la) e = Ok si.
Proof.
  intros H N. destruct H as [n t mt us um xs [H1 Hm] Hn Hx|n t mt us um vs vm xs [H1 Hm] [H2 Hm'] Hn Hx].
  - eapply slvinit_ok with (T := valid_times xs) (t' := map fst (valid_scalar xs us um)) (u' := map snd (valid_scalar xs us um)) (v' := None).
    + apply check_args_iff. split; [discriminate|]. exists n. auto.
    + exact Hn.
    + cbn [arr_data arr_mask option_map]. rewrite clean_scalar_spec by (rewrite !length_masked_invalid; congruence).
      rewrite somes_valid, onepass1_valid; auto; [congruence|]. destruct Hm as [Hm|Hm]; [left; exact Hm|right; congruence].
    + intros E. apply N. clear - E. assert (K : valid_scalar xs us um = []); [|now rewrite K].
      unfold valid_scalar, valid_times in *. generalize (combine us (full_mask (length us) um)). intros q. revert q.
      induction xs as [|x xs IH]; intros [|[y b] q]; cbn in *; auto.
      apply app_eq_nil in E. destruct E as [E1 E2]. destruct x; try discriminate; destruct y; cbn; auto.
    + intros E. apply N. destruct (valid_scalar xs us um); [reflexivity|discriminate].
  - eapply slvinit_ok with (T := valid_times xs) (t' := map (fun s => fst (fst s)) (valid_vector xs us um vs vm))
      (u' := map (fun s => snd (fst s)) (valid_vector xs us um vs vm)) (v' := Some (map snd (valid_vector xs us um vs vm))).
    + apply check_args_iff. split; [discriminate|]. exists n. split; [reflexivity|]. split; [reflexivity|]. right. eexists. split; reflexivity.
    + exact Hn.
    + cbn [arr_data arr_mask option_map]. rewrite clean_vector_spec by (rewrite !length_masked_invalid; congruence).
      rewrite somes_valid, onepass2_valid; [reflexivity|congruence|congruence| |].
      * destruct Hm as [Hm|Hm]; [left; exact Hm|right; congruence].
      * destruct Hm' as [Hm'|Hm']; [left; exact Hm'|right; congruence].
    + intros E. apply N. clear - E. assert (K : valid_vector xs us um vs vm = []); [|now rewrite K].
      unfold valid_vector, valid_times in *. match goal with |- context [combine xs ?l] => generalize l end. intros q. revert q.
      induction xs as [|x xs IH]; intros [|[[y b] [z d]] q]; cbn in *; auto.
      apply app_eq_nil in E. destruct E as [E1 E2]. destruct x; try discriminate; cbn; auto.
    + intros E. apply N. destruct (valid_vector xs us um vs vm); [reflexivity|discriminate].
Qed.

(** ** constituents *)
Lemma enum_lt {A} (P : nat * A -> bool) (l : list A) i : In i (map fst (filter P (enumerate l))) -> (i < length l)%nat.
Proof.
  intros Hi. apply in_map_iff in Hi. destruct Hi as ([j d] & <- & Hf). apply filter_In in Hf. destruct Hf as [Hf _].
  unfold enumerate in Hf. apply in_combine_l in Hf. apply in_seq in Hf. exact (proj2 Hf).
Qed.
Lemma auto_lt m i : In i (auto_lind m) -> (i < 146)%nat.
Proof. unfold auto_lind. generalize dfR_len. generalize dfR. intros l E Hi. apply enum_lt in Hi. now rewrite E in Hi. Qed.
Lemma lind_ok tref ind : (forall i, In i ind -> (i < 146)%nat) -> exists r f, take_idx const_name ind = Ok r /\ take_idx (linearized_freqs tref) ind = Ok f.
Proof.
  intros H. destruct (take_idx_ok const_name ind) as [r Hr].
  { intros i Hi. rewrite names_len. now apply H. }
  exists r. eexists. split; [exact Hr|]. exact (take_freq tref _ _ Hr).
Qed.
Lemma auto_any tref m : exists s, ut_cnstitsel tref m (PStr "auto") None = Ok s.
Proof.
  unfold ut_cnstitsel, initial_lind. cbn [eq_str String.eqb Ascii.eqb Bool.eqb bind].
  destruct (lind_ok tref (auto_lind m) (auto_lt m)) as (r & f & H1 & H2). rewrite H2, H1. cbn [bind]. eauto.
Qed.
Lemma sel_ok tref m x : x = PStr "auto" \/ (exists names, (forall n, In n names -> In n const_name) /\ x = PSeq (map PStr names)) ->
  exists s, ut_cnstitsel tref m x None = Ok s.
Proof. intros [->|(names & H & ->)]; [apply auto_any|now apply explicit_ok]. Qed.

Lemma auto_arr tref m s : ut_cnstitsel tref m (PStr "auto") None = Ok s -> s_NRarr s = true.
Proof.
  unfold ut_cnstitsel. generalize (initial_lind m (PStr "auto")). intros q H. inv_bind H. inv_bind H. inv_bind H. inv_bind H. apply Ok_inj in H. rewrite <- H. reflexivity.
Qed.
Lemma names_some tref m n names s : ut_cnstitsel tref m (PSeq (map PStr (n :: names))) None = Ok s -> length (s_NRlind s) <> 0%nat.
Proof.
  intros H. apply sel_none in H. destruct H as (H & _). unfold initial_lind in H. cbn [eq_str] in H. rewrite as_names_seq in H. cbn [bind] in H.
  revert H. generalize (s_NRlind s). generalize constit_index. intros f l H. cbn [mapM] in H. inv_bind H. inv_bind H. apply Ok_inj in H. rewrite <- H. discriminate.
Qed.
Lemma good_index g tref m x s : ut_cnstitsel tref m x None = Ok s ->
  (x = PSeq [] -> NodsatNone g = true /\ GwchNone g = true) ->
  (x = PStr "auto" \/ exists names, (forall n, In n names -> In n const_name) /\ x = PSeq (map PStr names)) -> bad_empty_index g s = false.
Proof.
  intros H E [->|(names & HN & ->)].
  - apply auto_arr in H. unfold bad_empty_index. rewrite H. reflexivity.
  - unfold bad_empty_index. destruct names as [|n names].
    + destruct (E eq_refl) as [-> ->]. cbn [andb negb]. apply Bool.andb_false_r.
    + apply names_some in H. destruct (Nat.eqb_spec (length (s_NRlind s)) 0); [contradiction|]. now rewrite Bool.andb_false_r.
Qed.

(** ** the model matrix *)
Lemma fin_rows {A} (f : A -> list (option C)) l : (forall x, In x l -> exists row, f x = map Some row) -> exists B, finite_mat (map f l) = Some B.
Proof.
  induction l as [|x l IH]; intros H; [exists []; reflexivity|].
  destruct (H x (or_introl eq_refl)) as [row E]. destruct IH as [B HB]; [intros y Hy; apply H; now right|].
  exists (row :: B). unfold finite_mat in *. cbn [map all_some]. rewrite E, all_some_some, HB. reflexivity.
Qed.
Lemma all_map_some {A D} (f : A -> option D) l : (forall i, In i l -> exists e, f i = Some e) -> exists es, map f l = map Some es.
Proof.
  induction l as [|x l IH]; intros H; [exists []; reflexivity|]. destruct (H x (or_introl eq_refl)) as [e E].
  destruct IH as [es HE]; [intros y Hy; apply H; now right|]. exists (e :: es). cbn [map]. now rewrite E, HE.
Qed.

Lemma basis_ok ts tref lor la o s m x : ut_cnstitsel tref m x None = Ok s -> o_infer o = None ->
  bad_empty_index (flags_of o) s = false -> (o_nodsatnone o = true \/ slat la <> 0) -> (o_notrend o = true \/ lor <> 0) ->
  exists Bo B, basis ts tref lor la o s = Ok Bo /\ finite_mat Bo = Some B /\ dims (length ts) (ncoef o s) Bo.
Proof.
  intros HS HI HB HN HT. assert (SR : s_R s = []) by (eapply infer_none_R; eauto). assert (SL := sel_lens_ok _ _ _ _ _ HS).
  assert (E : exists Bo, basis ts tref lor la o s = Ok Bo).
  { unfold basis. rewrite HB, HI. cbn [bind]. eauto. }
  destruct E as [Bo E]. exists Bo. assert (D := basis_dims _ _ _ _ _ _ _ SL (fun _ => SR) E).
  assert (RW := basis_rows _ _ _ _ _ _ _ (sel_lin_ok _ _ _ _ _ HS) (fun _ => SR) E).
  destruct (fin_rows (fun x => model_row (is_approx o) (negb (o_notrend o)) (basis_at (flags_of o) tref la x) (trend_entry tref lor x) s) ts) as [B FB].
  { intros y _. unfold model_row. rewrite SR. cbn [map]. rewrite !app_nil_r.
    destruct (all_map_some (basis_at (flags_of o) tref la y) (s_NRlind s)) as [es Es].
    { intros i Hi. apply basis_finite; [exact HN|]. apply (sel_known _ _ _ _ _ HS). rewrite (sn_lind _ _ (sel_lin_ok _ _ _ _ _ HS)). apply in_or_app. now left. }
    rewrite Es. assert (Cj : map oconj (map Some es) = map Some (map Cconj es)) by (rewrite !map_map; reflexivity). rewrite Cj.
    assert (Tr : exists te, (if negb (o_notrend o) then [trend_entry tref lor y] else []) = map Some te).
    { unfold trend_entry. destruct HT as [->|HT]; [exists []; reflexivity|]. destruct (negb (o_notrend o)); [|exists []; reflexivity].
      destruct (Req_EM_T lor 0); [contradiction|]. eexists [_]. reflexivity. }
    destruct Tr as [te ->]. exists ((es ++ map Cconj es) ++ [RtoC 1] ++ te)%list. now rewrite !map_app. }
  rewrite <- RW in FB. eauto.
Qed.

Lemma lor_pos l r s s' : ptp l = Ok r -> In s l -> In s' l -> s <> s' -> r <> 0.
Proof. intros H A B N E. destruct (ptp_spec _ _ H) as (lo & hi & _ & _ & I & ->). destruct (I s A), (I s' B). apply N. lra. Qed.

(** ** the fit *)
Lemma samples_base parse e t u v sm la si : samples parse e t u v sm -> slvinit parse t u v (Some la) e = Ok si ->
  exists xs, normalize_time parse (arr_data t) e = Ok xs /\ si_tin si = valid_times xs /\ kept (map fst sm) (valid_times xs) /\
    ptp (if si_equi si then si_tin si else si_t si) = Ok (si_lor si).
Proof.
  intros H S. assert (P : ptp (if si_equi si then si_tin si else si_t si) = Ok (si_lor si)).
  { unfold slvinit in S. inv_bind S. inv_bind S. match type of S with slv_core ?x ?y ?z = _ => destruct (clean x y z) as [[[T x1] x2] x3] eqn:C end.
    destruct (slv_core_fields _ _ _ _ _ _ _ _ C S) as (A1 & A2 & _ & _ & A3 & A4 & _). rewrite A1, A2, A3. exact A4. }
  destruct H as [n t mt us um xs H1 Hn Hx|n t mt us um vs vm xs H1 H2 Hn Hx]; exists xs; cbn [arr_data]; (split; [exact Hn|]).
  - destruct (fitted_scalar _ _ _ _ _ _ _ _ _ _ H1 Hn Hx S) as (_ & _ & _ & E). split; [exact E|]. split; [|exact P].
    rewrite map_map. apply kept_scalar.
  - destruct (fitted_vector _ _ _ _ _ _ _ _ _ _ _ _ H1 H2 Hn Hx S) as (_ & _ & _ & E). split; [exact E|]. split; [|exact P].
    rewrite map_map. apply kept_vector.
Qed.

(** everything before the fit *)
Record based (L : lib) (t : pyarr tarray) (u : pyarr (list xr)) (v : option (pyarr (list xr))) (la : R) (opts : dict pyval) (sm : list (R * C)) (cf : pyval)
    (compat : dict pyval) (si : slv) (o : optr) (s : sel) (B : list (list C)) : Prop := {
  ba_compat : process_opts opts (is2d v) = Ok compat;
  ba_slv : slvinit (l_parse L) t u v (Some la) (oget compat "epoch") = Ok si;
  ba_opt : read_opt (slv_opts (is2d v) (si_equi si) compat) = Ok o;
  ba_sel : ut_cnstitsel (si_tref si) (xdiv (Fin (o_rmin o)) (Fin (24 * si_lor si))) (o_cnstit o) (o_infer o) = Ok s;
  ba_basis : exists Bo, basis (si_t si) (si_tref si) (si_lor si) la o s = Ok Bo /\ finite_mat Bo = Some B;
  ba_raw : raw_data (si_u si) (si_v si) = map snd sm;
  ba_t : si_t si = map fst sm;
  ba_tin : times_of L opts t (si_tin si);
  ba_kept : kept (map fst sm) (si_tin si);
  ba_dims : dims (length sm) (ncoef o s) B;
  ba_infer : o_infer o = None;
  ba_two : o_twodim o = is2d v;
  ba_equi : o_equi o = si_equi si;
  ba_ci : o_conf_int o = negb (eq_str cf "none");
  ba_lin : o_linci o = eq_str cf "linear";
  ba_diag : o_nodiagn o = eq_str cf "none";
  ba_white : forall x, setting opts "white" x -> o_white o = truthy x;
  ba_method : forall x, setting opts "method" x -> o_method o = x;
  ba_kw : forall x, setting opts "robust_kw" x -> o_robust_kw o = x;
  ba_order : (o_ordercnstit o = PStr "PE" \/ o_ordercnstit o = PStr "SNR" \/ o_ordercnstit o = PStr "frequency") /\
    (o_ordercnstit o = PStr "SNR" -> cf <> PStr "none") }.
Record fitted (L : lib) (t : pyarr tarray) (u : pyarr (list xr)) (v : option (pyarr (list xr))) (la : R) (opts : dict pyval) (sm : list (R * C)) (cf : pyval)
    (compat : dict pyval) (si : slv) (o : optr) (s : sel) (B : list (list C)) (m : list C) (W : list xr) : Prop := {
  fi_compat : process_opts opts (is2d v) = Ok compat;
  fi_slv : slvinit (l_parse L) t u v (Some la) (oget compat "epoch") = Ok si;
  fi_opt : read_opt (slv_opts (is2d v) (si_equi si) compat) = Ok o;
  fi_sel : ut_cnstitsel (si_tref si) (xdiv (Fin (o_rmin o)) (Fin (24 * si_lor si))) (o_cnstit o) (o_infer o) = Ok s;
  fi_fit : fit L (si_t si) (si_u si) (si_v si) (si_tref si) (si_lor si) la o s = Ok (B, map snd sm, m, W);
  fi_t : si_t si = map fst sm;
  fi_tin : times_of L opts t (si_tin si);
  fi_kept : kept (map fst sm) (si_tin si);
  fi_dims : dims (length sm) (ncoef o s) B;
  fi_m : length m = ncoef o s;
  fi_infer : o_infer o = None;
  fi_two : o_twodim o = is2d v;
  fi_equi : o_equi o = si_equi si;
  fi_ci : o_conf_int o = negb (eq_str cf "none");
  fi_lin : o_linci o = eq_str cf "linear";
  fi_diag : o_nodiagn o = eq_str cf "none";
  fi_white : forall x, setting opts "white" x -> o_white o = truthy x;
  fi_order : (o_ordercnstit o = PStr "PE" \/ o_ordercnstit o = PStr "SNR" \/ o_ordercnstit o = PStr "frequency") /\
    (o_ordercnstit o = PStr "SNR" -> cf <> PStr "none") }.

Lemma setting_unique opts k x y : unique_keys opts -> In k (keys documented) -> setting opts k x -> setting opts k y -> x = y.
Proof. intros U K H1 H2. rewrite <- (setting_val _ _ _ U K H1). now apply setting_val. Qed.

Lemma run_base L t u v la opts sm cf : documented_input L t u v opts sm -> evaluable la opts sm ->
  setting opts "conf_int" cf -> (cf = PStr "linear" \/ cf = PStr "MC" \/ cf = PStr "none") ->
  exists compat si o s B, based L t u v la opts sm cf compat si o s B.
Proof.
  intros DC EV CF CV. assert (U := dc_keys _ _ _ _ _ _ DC).
  assert (SO : setting opts "order_constit" (opt_value opts "order_constit")) by (apply setting_value; [exact U|cbn; tauto]).
  destruct (dc_order _ _ _ _ _ _ DC _ _ SO CF) as [OS OC].
  destruct (process_infer_none opts (is2d v) U (dc_known _ _ _ _ _ _ DC) (dc_infer _ _ _ _ _ _ DC) _ _ SO CF CV) as [PO _].
  destruct PO as (compat & PO & _).
  { unfold order_ok. destruct OS as [->|[->|[E| ->]]]; auto. rewrite E in *. auto 10. }
  destruct (dc_samples _ _ _ _ _ _ DC) as (e & SE & SM). destruct (slv_ok _ _ _ _ _ _ la SM (dc_some _ _ _ _ _ _ DC)) as [si SV].
  destruct (dc_rayleigh _ _ _ _ _ _ DC) as [r SR].
  destruct (read_ok opts (is2d v) (si_equi si) compat r U PO (dc_infer _ _ _ _ _ _ DC) SR) as [o RO].
  destruct (used_options opts (is2d v) (si_equi si) U compat o PO RO) as
   (_ & _ & U1 & Ue & _ & U2 & U3 & U4 & U5 & U6 & Ul & U7 & _ & U8 & Ur & U9 & U10 & Uk & _ & Up & (inf & U11 & U12) & U13 & _).
  assert (V : forall k x, In k (keys documented) -> setting opts k x -> opt_value opts k = x) by (intros; now apply setting_val).
  rewrite (V "infer" PNone) in U11 by (try (cbn; tauto); apply DC). cbn [validate_infer is_none orb] in U11. injection U11 as <-. cbn [read_infer] in U12. injection U12 as U12. symmetry in U12.
  rewrite (V "epoch" e) in Up by (try (cbn; tauto); exact SE).
  destruct (samples_slv _ _ _ _ _ _ _ _ SM SV) as (S1 & S2 & _).
  destruct (samples_base _ _ _ _ _ _ _ _ SM SV) as (xs & N1 & N2 & N3 & N4).
  assert (CX : exists x, o_cnstit o = x /\ setting opts "constit" x /\ (x = PStr "auto" \/ exists names, (forall n, In n names -> In n const_name) /\ x = PSeq (map PStr names))).
  { destruct (dc_constit _ _ _ _ _ _ DC) as [Hc|(names & Hn & Hc)].
    - exists (PStr "auto"). rewrite U5, (V "constit" (PStr "auto")) by (try (cbn; tauto); exact Hc). auto.
    - exists (PSeq (map PStr names)). rewrite U5, (V "constit" _) by (try (cbn; tauto); exact Hc). split; [reflexivity|]. split; [exact Hc|]. right. eauto. }
  destruct CX as (x & CX1 & CX2 & CX3).
  destruct (sel_ok (si_tref si) (xdiv (Fin (o_rmin o)) (Fin (24 * si_lor si))) x CX3) as [s HS].
  assert (HB : bad_empty_index (flags_of o) s = false).
  { apply (good_index _ _ _ _ _ HS); [|exact CX3]. intros ->. destruct (ev_constit _ _ _ EV CX2) as [E1 E2].
    cbn [flags_of NodsatNone GwchNone]. rewrite U7, U8, (V "phase" (PStr "raw")) by (try (cbn; tauto); exact E1).
    assert (SN : setting opts "nodal" (opt_value opts "nodal")) by (apply setting_value; [exact U|cbn; tauto]).
    apply E2, truthy_falsy in SN. rewrite SN. split; [|reflexivity]. destruct (eq_str (opt_value opts "nodal") "linear_time") eqn:EL; [|reflexivity].
    exfalso. destruct (opt_value opts "nodal"); try discriminate EL. cbn in EL. apply String.eqb_eq in EL. subst. discriminate SN. }
  assert (HN : o_nodsatnone o = true \/ slat la <> 0).
  { assert (SN : setting opts "nodal" (opt_value opts "nodal")) by (apply setting_value; [exact U|cbn; tauto]).
    destruct (truthy (opt_value opts "nodal")) eqn:ET.
    - right. apply slat_nz. apply (ev_latitude _ _ _ EV _ SN). rewrite <- truthy_falsy. congruence.
    - left. rewrite U7. destruct (eq_str (opt_value opts "nodal") "linear_time") eqn:EL; [|reflexivity].
      exfalso. destruct (opt_value opts "nodal"); try discriminate EL. cbn in EL. apply String.eqb_eq in EL. subst. discriminate ET. }
  assert (HT : o_notrend o = true \/ si_lor si <> 0).
  { assert (SN : setting opts "trend" (opt_value opts "trend")) by (apply setting_value; [exact U|cbn; tauto]).
    destruct (truthy (opt_value opts "trend")) eqn:ET; [|left; now rewrite U6]. right.
    destruct (ev_times _ _ _ EV _ SN) as (p & q & P1 & P2 & P3); [rewrite <- truthy_falsy; congruence|].
    assert (I : forall z, In z sm -> In (fst z) (if si_equi si then si_tin si else si_t si)).
    { intros z Hz. apply (in_map fst) in Hz. destruct (si_equi si); [rewrite N2; eapply kept_in; eauto|now rewrite S1]. }
    eapply lor_pos; [exact N4| | |exact P3]; auto. }
  destruct (basis_ok (si_t si) (si_tref si) (si_lor si) la o s _ _ HS U12 HB HN HT) as (Bo & B & B1 & B2 & B3).
  assert (BD := finite_mat_dims _ _ _ _ B2 B3). rewrite S1, map_length in BD.
  exists compat, si, o, s, B. constructor; auto.
    + rewrite Up. exact SV.
    + rewrite CX1, U12. exact HS.
    + exists Bo. auto.
    + exists e, xs. auto.
    + now rewrite N2.
    + rewrite U2, (V "conf_int" cf) by (try (cbn; tauto); exact CF). reflexivity.
    + rewrite U3, (V "conf_int" cf) by (try (cbn; tauto); exact CF). reflexivity.
    + rewrite U4, (V "conf_int" cf) by (try (cbn; tauto); exact CF). reflexivity.
    + intros y Hy. rewrite U9, (V "white" y) by (try (cbn; tauto); exact Hy). reflexivity.
    + intros y Hy. rewrite U10. apply V; [cbn; tauto|exact Hy].
    + intros y Hy. rewrite Uk. apply V; [cbn; tauto|exact Hy].
    + destruct OS as [E|[E|[E|E]]]; rewrite E in U13; cbn [validate_order_constit] in U13.
      * injection U13 as U13. rewrite <- U13. split; [auto|discriminate].
      * destruct (negb (eq_str (opt_value opts "conf_int") "none")); injection U13 as U13; rewrite <- U13; split; auto; discriminate.
      * split; [|intros _; now apply OC]. destruct (negb (eq_str (opt_value opts "conf_int") "none")); [injection U13 as U13|discriminate]. auto.
      * destruct (negb (eq_str (opt_value opts "conf_int") "none")); injection U13 as U13; rewrite <- U13; split; auto; discriminate.
Qed.

Lemma run_fit L t u v la opts sm cf : lstsq_shape L -> lstsq_returns L -> documented_call L t u v opts sm -> evaluable la opts sm ->
  setting opts "conf_int" cf -> (cf = PStr "linear" \/ cf = PStr "MC" \/ cf = PStr "none") ->
  exists compat si o s B m, fitted L t u v la opts sm cf compat si o s B m (map (fun _ => Fin 1) (map fst sm)).
Proof.
  intros SH RT DC EV CF CV. destruct (run_base L t u v la opts sm cf DC EV CF CV) as (compat & si & o & s & B & X). destruct X.
  destruct ba_basis0 as (Bo & B1 & B2). assert (BD := ba_dims0).
  destruct (RT B (map snd sm) PNone) as [[[[m q1] q2] q3] EQ].
  - intros ->. destruct BD as [BD _]. cbn in BD. apply (dc_some _ _ _ _ _ _ DC). now destruct sm.
  - now rewrite map_length, (proj1 BD).
  - intros a b Ha Hb. now rewrite (proj2 BD a Ha), (proj2 BD b Hb).
  - exists compat, si, o, s, B, m. constructor; auto.
    + unfold fit. rewrite B1. cbn [bind]. rewrite B2, (ba_method0 _ (dc_method _ _ _ _ _ _ DC)). cbn [eq_str String.eqb Ascii.eqb Bool.eqb]. rewrite ba_raw0, EQ, ba_t0. reflexivity.
    + destruct B as [|b B]; [destruct BD as [BD _]; cbn in BD; exfalso; apply (dc_some _ _ _ _ _ _ DC); now destruct sm|].
      rewrite (SH _ _ _ _ _ _ _ EQ b (or_introl eq_refl)). apply BD. now left.
Qed.

(** ** from the confidence intervals to the result *)
Lemma perm_lt L l n i : argsort_perm L -> length l = n -> In i (l_argsort L l) -> (i < n)%nat.
Proof. intros P <- H. apply (Permutation_in _ (P l)) in H. apply in_seq in H. lia. Qed.
Lemma perm_lt_rev L l n i : argsort_perm L -> length l = n -> In i (rev (l_argsort L l)) -> (i < n)%nat.
Proof. intros P E H. apply in_rev in H. eapply perm_lt; eauto. Qed.

Lemma PE_ok c tw maj mi a : c_Lsmaj c = oif tw maj -> c_Lsmin c = oif tw mi -> c_A c = oif (negb tw) a -> exists E, energies c = Ok E.
Proof. unfold energies. intros -> -> ->. destruct tw; cbn; eauto. Qed.

Lemma core_energies tref lor la o s m W : exists E, energies (coef_core tref lor la o s m W) = Ok E.
Proof. eapply PE_ok; reflexivity. Qed.
Lemma ci_energies c tw cis : (exists E, energies c = Ok E) -> exists E, energies (set_ci c tw cis) = Ok E.
Proof. intros H. exact H. Qed.
Lemma ci_noises tref lor la o s m W cis : exists N, noises (set_ci (coef_core tref lor la o s m W) (o_twodim o) cis) = Ok N.
Proof. unfold noises. cbn [c_Lsmaj c_Lsmaj_ci c_Lsmin_ci c_A_ci set_ci coef_core]. destruct (o_twodim o); cbn; eauto. Qed.

Lemma finish L t u v la opts sm cf compat si o s B m W c1 : argsort_perm L -> fitted L t u v la opts sm cf compat si o s B m W ->
  ci_stage L o s si la B (map snd sm) m W = Ok c1 -> exists c, solve L t u v (Some la) opts = Ok c.
Proof.
  intros AP F C1. assert (SL := sel_lens_ok _ _ _ _ _ (fi_sel _ _ _ _ _ _ _ _ _ _ _ _ _ _ _ F)).
  assert (Hn := infer_none_R _ _ _ _ _ (fi_sel _ _ _ _ _ _ _ _ _ _ _ _ _ _ _ F)).
  assert (Hm : (2 * s_nNR s + 2 * s_nR s <= length m)%nat).
  { rewrite (fi_m _ _ _ _ _ _ _ _ _ _ _ _ _ _ _ F). unfold ncoef. lia. }
  destruct (ci_stage_aligned _ _ _ _ _ _ _ _ _ _ SL Hm Hn C1) as (A1 & N1 & N2 & N3 & NP & NS & ND).
  set (c0 := coef_core (si_tref si) (si_lor si) la o s m W).
  assert (EN : exists E, energies c1 = Ok E).
  { revert C1. unfold ci_stage. fold c0. destruct (o_conf_int o); intros C1; [inv_bind C1|]; apply Ok_inj in C1; rewrite <- C1.
    - apply ci_energies, core_energies.
    - apply core_energies. }
  assert (PEo : exists pe, PE_of c1 = Ok pe) by (destruct EN as [E EN]; unfold PE_of; rewrite EN; cbn [bind]; eauto).
  assert (D : exists c2, diag_stage L o c1 = Ok c2 /\ ((o_nodiagn o = true /\ c2 = c1) \/ exists pe snr, c_PE c2 = Some pe /\ c_SNR c2 = Some snr)).
  { unfold diag_stage. destruct (o_nodiagn o) eqn:ED; [exists c1; auto|].
    assert (EC : o_conf_int o = true). { rewrite (fi_ci _ _ _ _ _ _ _ _ _ _ _ _ _ _ _ F), <- (fi_diag _ _ _ _ _ _ _ _ _ _ _ _ _ _ _ F), ED. reflexivity. }
    assert (NO : exists N, noises c1 = Ok N).
    { revert C1. unfold ci_stage. rewrite EC. intros C1. inv_bind C1. apply Ok_inj in C1. rewrite <- C1. apply ci_noises. }
    destruct PEo as [pe PEo]. destruct EN as [E EN]. destruct NO as [N NO].
    assert (SO : exists snr, SNR_of c1 = Ok snr) by (unfold SNR_of; rewrite EN, NO; cbn [bind]; eauto). destruct SO as [snr SO].
    assert (DO : exists d, diagn_of L c1 = Ok d).
    { unfold diagn_of. rewrite PEo, SO. cbn [bind]. assert (LP := PE_len _ _ A1 PEo). assert (LS := SNR_len _ _ A1 SO).
      destruct (take_idx_ok (c_name c1) (rev (l_argsort L pe))) as [r1 ->]; [intros i; apply perm_lt_rev; auto|]. cbn [bind].
      destruct (take_idx_ok pe (rev (l_argsort L pe))) as [r2 ->]; [intros i; apply perm_lt_rev; auto|]. cbn [bind].
      destruct (take_idx_ok snr (rev (l_argsort L pe))) as [r3 ->]; [intros i; apply perm_lt_rev; auto; congruence|]. cbn [bind]. eauto. }
    destruct DO as [d DO]. rewrite DO, PEo, SO. cbn [bind]. eexists. split; [reflexivity|]. right. exists pe, snr. split; reflexivity. }
  destruct D as (c2 & D & K). destruct (diag_stage_aligned _ _ _ _ A1 D) as (A2 & M1 & M2 & M3).
  destruct (fi_order _ _ _ _ _ _ _ _ _ _ _ _ _ _ _ F) as [O1 O2].
  assert (OS : exists c' ind, order_stage L c2 (o_ordercnstit o) = Ok (c', ind) /\ aligned c' /\ c_name c' = c_name c2).
  { unfold order_stage. destruct O1 as [E|[E|E]]; rewrite E; cbn [eq_str String.eqb Ascii.eqb Bool.eqb].
    - destruct K as [[_ ->]|(pe & snr & EPE & _)].
      + rewrite NP. destruct PEo as [pe PEo]. rewrite PEo. cbn [bind]. cbn [set_diag c_PE key bind]. eexists _, _. split; [reflexivity|]. split; [|reflexivity].
        apply set_diag_aligned; auto; [|rewrite NS; apply None_len]. apply Some_len. eapply PE_len; eauto.
      + rewrite EPE. cbn [bind]. rewrite EPE. cbn [key bind]. eauto.
    - destruct K as [[K _]|(pe & snr & _ & ->)].
      + exfalso. apply (O2 E). rewrite (fi_diag _ _ _ _ _ _ _ _ _ _ _ _ _ _ _ F) in K. destruct cf; try discriminate K. cbn in K. apply String.eqb_eq in K. now subst.
      + cbn [key bind]. eauto.
    - eauto. }
  destruct OS as (c' & ind & OS & A3 & N3').
  assert (P := order_perm _ _ _ _ _ AP A2 O1 OS).
  destruct (apply_order_ok c' ind A3) as [c Hc].
  { intros i Hi. apply (Permutation_in _ P) in Hi. apply in_seq in Hi. rewrite N3'. lia. }
  exists c. eapply (solve_intro L t u v la opts compat si o s B (map snd sm) m W c1 c2 c); try apply F; auto.
  rewrite reorder_eq, OS. exact Hc.
Qed.

Lemma accept_none L t u v la opts sm : lstsq_shape L -> lstsq_returns L -> argsort_perm L -> documented_call L t u v opts sm -> evaluable la opts sm ->
  setting opts "conf_int" (PStr "none") -> exists c, solve L t u v (Some la) opts = Ok c.
Proof.
  intros SH RT AP DC EV CF. destruct (run_fit _ _ _ _ _ _ _ _ SH RT DC EV CF ltac:(auto)) as (compat & si & o & s & B & m & F).
  eapply finish; [exact AP|exact F|]. unfold ci_stage. rewrite (fi_ci _ _ _ _ _ _ _ _ _ _ _ _ _ _ _ F). reflexivity.
Qed.
