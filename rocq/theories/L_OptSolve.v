(** Effect of the options of solve on its result. *)
From Coq Require Import Lia Lra.
From Verif Require Import M_Base M_Lib M_Bunch M_Options M_Time M_Slvinit M_Harmonics M_Select M_Ellipse
  M_Robust M_Period M_Conf M_Diag M_Solve S_Dict S_Options L_Base L_Bunch L_Options L_SolveInv.
Open Scope R_scope.
Open Scope string_scope.

Lemma truthy_falsy v : truthy v = false <-> falsy v.
Proof.
  unfold falsy. destruct v as [|b|x|s|u n|l|b d]; simpl.
  - intuition.
  - destruct b; split; intros H; auto; [discriminate|].
    repeat destruct H as [H|H]; try discriminate. destruct H as [? H]; discriminate.
  - destruct (Req_EM_T x 0) as [->|Hn]; split; intros H; auto; [discriminate|].
    repeat destruct H as [H|H]; try discriminate; [injection H as ->; tauto|].
    destruct H as [? H]; discriminate.
  - rewrite Bool.negb_false_iff, String.eqb_eq. split; [intros ->; auto 10|].
    intros H. repeat destruct H as [H|H]; try discriminate; [congruence|].
    destruct H as [? H]; discriminate.
  - split; [discriminate|]. intros H. repeat destruct H as [H|H]; try discriminate.
    destruct H as [? H]; discriminate.
  - destruct l; split; intros H; auto 10; [discriminate|].
    repeat destruct H as [H|H]; try discriminate. destruct H as [? H]; discriminate.
  - destruct d; split; intros H; auto; [do 5 right; now exists b|discriminate|].
    repeat destruct H as [H|H]; try discriminate. destruct H as [? H]; discriminate.
Qed.

Lemma eq_str_iff v s : eq_str v s = true <-> v = PStr s.
Proof.
  destruct v; simpl; split; intros H; try discriminate.
  - apply String.eqb_eq in H. now subst.
  - injection H as ->. apply String.eqb_refl.
Qed.

Lemma eq_str_not v s : eq_str v s = false <-> v <> PStr s.
Proof. rewrite <- Bool.not_true_iff_false, eq_str_iff. tauto. Qed.

Section S.
Variables (L : lib) (t : pyarr tarray) (u : pyarr (list xr)) (v : option (pyarr (list xr)))
  (lat : option R) (opts : dict pyval).
Hypothesis Hu : unique_keys opts.

Lemma solve_unknown_lemma : (exists k, In k (keys opts) /\ ~ In k (keys documented)) ->
  ~ In "strict" (keys opts) -> solve L t u v lat opts = Err KeyError.
Proof.
  intros Hk Hs. apply (process_KeyError_lemma opts (is2d v) Hu Hs) in Hk.
  unfold solve. fold (is2d v). now rewrite Hk.
Qed.

Lemma solve_strict_lemma : In "strict" (keys opts) -> solve L t u v lat opts = Err TypeError.
Proof. intros H. unfold solve. now rewrite process_strict. Qed.

Section Ok.
Variable c : coef.
Hypothesis Hc : solve L t u v lat opts = Ok c.

Lemma solve_used : exists compat si, process_opts opts (is2d v) = Ok compat /\
    slvinit (l_parse L) t u v lat (oget compat "epoch") = Ok si /\
    read_opt (slv_opts (is2d v) (si_equi si) compat) = Ok (c_opt c).
Proof. exact (solve_opt _ _ _ _ _ _ _ Hc). Qed.

Lemma solve_documented k : In k (keys opts) -> In k (keys documented).
Proof.
  destruct solve_used as (compat & si & H1 & _ & H2).
  destruct (used_options _ _ _ Hu _ _ H1 H2) as (_ & H & _). apply H.
Qed.

Ltac used := let compat := fresh "compat" in let si := fresh "si" in let H1 := fresh "P1" in let H2 := fresh "P2" in
  destruct solve_used as (compat & si & H1 & _ & H2);
  destruct (used_options _ _ _ Hu _ _ H1 H2) as
   (_ & _ & U_twodim & _ & U_ci & U_conf & U_linci & U_nodiagn & U_cnstit & U_notrend & U_nl & U_nn &
    U_gl & U_gn & U_rmin & U_white & U_method & U_rkw & U_epoch & _ & U_infer & U_order & U_nrlzn).

Ltac setv := match goal with |- setting _ _ ?x -> _ =>
   intros Hset; apply setting_iff in Hset; [|exact Hu|simpl; tauto]; rewrite Hset end.

Lemma set_twodim : o_twodim (c_opt c) = is2d v.
Proof. used. auto. Qed.
Lemma set_constit x : setting opts "constit" x -> o_cnstit (c_opt c) = x.
Proof. used. setv. auto. Qed.
Lemma set_trend x : setting opts "trend" x -> (o_notrend (c_opt c) = true <-> falsy x).
Proof. used. setv. rewrite U_notrend, <- truthy_falsy, Bool.negb_true_iff. tauto. Qed.
Lemma set_white x : setting opts "white" x -> (o_white (c_opt c) = false <-> falsy x).
Proof. used. setv. rewrite U_white, <- truthy_falsy. tauto. Qed.
Lemma set_rmin x : setting opts "Rayleigh_min" (PNum x) -> o_rmin (c_opt c) = x.
Proof.
  used. intros Hset. apply setting_iff in Hset; [|exact Hu|simpl; tauto]. rewrite <- Hset in U_rmin.
  simpl in U_rmin. congruence.
Qed.
Lemma set_method x : setting opts "method" x -> o_method (c_opt c) = x.
Proof. used. setv. auto. Qed.
Lemma set_robust_kw x : setting opts "robust_kw" x -> o_robust_kw (c_opt c) = x.
Proof. used. setv. auto. Qed.
Lemma set_epoch x : setting opts "epoch" x -> o_epoch (c_opt c) = x.
Proof. used. setv. auto. Qed.
Lemma set_nrlzn : o_nrlzn (c_opt c) = 200%nat.
Proof. used. auto. Qed.

Lemma set_nodal x : setting opts "nodal" x ->
  (o_nodsatlint (c_opt c) = true <-> x = PStr "linear_time") /\
  (o_nodsatnone (c_opt c) = true <-> falsy x).
Proof.
  used. setv. rewrite U_nl, U_nn, eq_str_iff. split; [tauto|].
  rewrite <- truthy_falsy, Bool.andb_true_iff, !Bool.negb_true_iff, eq_str_not. split; [tauto|].
  intros H. split; auto. intros Heq. now rewrite Heq in H.
Qed.

Lemma set_phase x : setting opts "phase" x ->
  (o_gwchlint (c_opt c) = true <-> x = PStr "linear_time") /\
  (o_gwchnone (c_opt c) = true <-> x = PStr "raw").
Proof. used. setv. rewrite U_gl, U_gn, !eq_str_iff. tauto. Qed.

Lemma set_conf x : setting opts "conf_int" x ->
  (x = PStr "linear" \/ x = PStr "MC" \/ x = PStr "none") /\
  (o_conf_int (c_opt c) = true <-> x <> PStr "none") /\
  (o_nodiagn (c_opt c) = true <-> x = PStr "none") /\
  (o_linci (c_opt c) = true <-> x = PStr "linear").
Proof.
  used. setv. rewrite U_conf, U_linci, U_nodiagn, Bool.negb_true_iff, eq_str_not, !eq_str_iff.
  rewrite !Bool.orb_true_iff, !eq_str_iff in U_ci. tauto.
Qed.

(** the fields of confidence intervals and diagnostics *)
Lemma conf_none_fields : setting opts "conf_int" (PStr "none") ->
  c_g_ci c = None /\ c_A_ci c = None /\ c_Lsmaj_ci c = None /\ c_Lsmin_ci c = None /\
  c_theta_ci c = None /\ c_SNR c = None /\ c_diagn c = None.
Proof.
  intros Hset. destruct (set_conf _ Hset) as (_ & H1 & H2 & _).
  assert (E1 : o_conf_int (c_opt c) = false) by (apply Bool.not_true_iff_false; rewrite H1; tauto).
  assert (E2 : o_nodiagn (c_opt c) = true) by tauto. clear H1 H2.
  destruct (solve_inv _ _ _ _ _ _ _ Hc) as
    [(compat & si & la & o & s & B & xraw & m & W & c1 & c2 & P1 & P2 & P3 & P4 & P5 & P6 & P7 & P8 & P9)].
  assert (Ho : c_opt c = o) by (rewrite (sb_opt _ _ (solve_base _ _ _ _ _ _ _ _ _ _ _ _ P7 P8 P9)); reflexivity).
  rewrite Ho in E1, E2. unfold ci_stage in P7. rewrite E1 in P7. injection P7 as <-.
  unfold diag_stage in P8. rewrite E2 in P8. injection P8 as <-.
  apply reorder_inv in P9. destruct P9 as (c' & ind & _ & Ha & Hc').
  assert (Hn : c_g_ci c' = None /\ c_A_ci c' = None /\ c_Lsmaj_ci c' = None /\ c_Lsmin_ci c' = None /\
    c_theta_ci c' = None /\ c_SNR c' = None /\ c_diagn c' = None).
  { destruct Hc' as [->|(_ & _ & pe & _ & ->)]; repeat split. }
  destruct Hn as (N1 & N2 & N3 & N4 & N5 & N6 & N7).
  unfold apply_order in Ha. rewrite N1, N2, N3, N4, N5, N6 in Ha. cbn [take_opt bind] in Ha.
  repeat inv_bind Ha. injection Ha as <-. repeat split. exact N7.
Qed.

Lemma take_opt_some {A} (l : list A) ind r : take_opt (Some l) ind = Ok r -> r <> None.
Proof. simpl. intros H. inv_bind H. congruence. Qed.

Lemma conf_given_fields x : setting opts "conf_int" x -> x <> PStr "none" ->
  c_g_ci c <> None /\ c_SNR c <> None /\ c_PE c <> None /\ c_diagn c <> None /\
  (v = None -> c_A_ci c <> None) /\
  (v <> None -> c_Lsmaj_ci c <> None /\ c_Lsmin_ci c <> None /\ c_theta_ci c <> None).
Proof.
  intros Hset Hx. destruct (set_conf _ Hset) as (_ & H1 & H2 & _).
  assert (E1 : o_conf_int (c_opt c) = true) by tauto.
  assert (E2 : o_nodiagn (c_opt c) = false) by (apply Bool.not_true_iff_false; tauto). clear H1 H2.
  assert (E3 := set_twodim).
  destruct (solve_inv _ _ _ _ _ _ _ Hc) as
    [(compat & si & la & o & s & B & xraw & m & W & c1 & c2 & P1 & P2 & P3 & P4 & P5 & P6 & P7 & P8 & P9)].
  assert (Ho : c_opt c = o) by (rewrite (sb_opt _ _ (solve_base _ _ _ _ _ _ _ _ _ _ _ _ P7 P8 P9)); reflexivity).
  rewrite Ho in E1, E2, E3. unfold ci_stage in P7. rewrite E1 in P7. inv_bind P7. injection P7 as <-.
  unfold diag_stage in P8. rewrite E2 in P8. do 3 inv_bind P8. injection P8 as <-.
  apply reorder_inv in P9. destruct P9 as (c' & ind & _ & Hap & Hc').
  destruct Hc' as [->|(_ & Hn & _)]; [|discriminate].
  unfold apply_order in Hap. cbn -[take_idx] in Hap. rewrite E3 in Hap.
  destruct v; cbn [is2d oif negb take_opt] in Hap; repeat (inv_bind Hap);
  repeat match goal with H : bind (take_idx _ _) _ = Ok _ |- _ => let E := fresh in
    apply bind_Ok in H; destruct H as (? & _ & E); injection E as <- end;
  injection Hap as <-; cbn; repeat split; try discriminate; try congruence.
Qed.
End Ok.

(** rejection of a bad conf_int *)
Lemma conf_reject_lemma x : setting opts "conf_int" x ->
  x <> PStr "linear" -> x <> PStr "MC" -> x <> PStr "none" ->
  (exists e, solve L t u v lat opts = Err e) /\
  ((forall k, In k (keys opts) -> In k (keys documented)) -> setting opts "infer" PNone ->
   solve L t u v lat opts = Err ValueError).
Proof.
  intros Hset H1 H2 H3. split.
  - destruct (solve L t u v lat opts) as [c|e] eqn:E; [|eauto].
    destruct (set_conf c E _ Hset) as [H _]. tauto.
  - intros Hk Hinf.
    assert (Hs : ~ In "strict" (keys opts)).
    { intros H. apply Hk in H. simpl in H. intuition discriminate. }
    unfold solve. fold (is2d v).
    destruct (process_opts_eq opts (is2d v) Hu Hs) as (r & Hkeys & Ho & Heq). rewrite Heq.
    assert (Hkn : known_b opts = true).
    { destruct (known_b opts) eqn:E; auto. apply known_b_false in E. destruct E as (k & A & B).
      apply Hk in A. tauto. }
    rewrite Hkn. apply setting_iff in Hinf; [|exact Hu|simpl; tauto]. rewrite <- Hinf. cbn [validate_infer is_none orb bind].
    apply setting_iff in Hset; [|exact Hu|simpl; tauto]. rewrite <- Hset.
    destruct (validate_order_constit (opt_value opts "order_constit") (negb (eq_str x "none"))) as [ord|e] eqn:Eo; cbn [bind].
    2:{ apply validate_order_err in Eo. rewrite Eo. reflexivity. }
    unfold translate_opts. rewrite !oget_dset. cbn [String.eqb Ascii.eqb Bool.eqb].
    rewrite (Ho Hkn "conf_int") by (simpl; tauto). rewrite <- Hset.
    apply eq_str_not in H1, H2, H3. now rewrite H1, H2, H3.
Qed.
End S.

(** ** order_constit *)
Lemma validate_order_ok x conf : order_ok x conf ->
  validate_order_constit x (negb (eq_str conf "none")) = Ok (match x with PNone => PStr "PE" | _ => x end).
Proof.
  intros H. unfold validate_order_constit.
  destruct H as [->|[->|[->|[[-> Hc]|[[l ->]|(b & d & ->)]]]]]; auto.
  apply eq_str_not in Hc. now rewrite Hc.
Qed.

Lemma validate_order_bad x conf : ~ order_ok x conf ->
  validate_order_constit x (negb (eq_str conf "none")) = Err ValueError.
Proof.
  intros H. unfold validate_order_constit, order_ok in *. destruct x; auto.
  - exfalso. auto.
  - destruct (mem_str s _) eqn:E; auto. exfalso. apply H.
    unfold mem_str in E. apply existsb_eqb_In in E. simpl in E.
    destruct E as [<-|[<-|E]]; auto.
    destruct (eq_str conf "none") eqn:Ec; simpl in E; [tauto|]. destruct E as [<-|[]].
    apply eq_str_not in Ec. auto 10.
  - exfalso. apply H. do 4 right. left. now exists l.
  - exfalso. apply H. do 5 right. now exists is_bunch, d.
Qed.

Lemma process_infer_none opts tw : unique_keys opts ->
  (forall k, In k (keys opts) -> In k (keys documented)) -> setting opts "infer" PNone ->
  forall x cf, setting opts "order_constit" x -> setting opts "conf_int" cf ->
  (cf = PStr "linear" \/ cf = PStr "MC" \/ cf = PStr "none") ->
  (order_ok x cf -> exists compat, process_opts opts tw = Ok compat /\
      dget compat "ordercnstit" = Some (match x with PNone => PStr "PE" | _ => x end)) /\
  (~ order_ok x cf -> process_opts opts tw = Err ValueError).
Proof.
  intros Hu Hk Hinf x cf Hx Hcf Hc.
  assert (Hs : ~ In "strict" (keys opts)).
  { intros H. apply Hk in H. simpl in H. intuition discriminate. }
  destruct (process_opts_eq opts tw Hu Hs) as (r & Hkeys & Ho & Heq). rewrite Heq.
  assert (Hkn : known_b opts = true).
  { destruct (known_b opts) eqn:E; auto. apply known_b_false in E. destruct E as (k & A & B).
    apply Hk in A. tauto. }
  rewrite Hkn. apply setting_iff in Hinf; [|exact Hu|simpl; tauto].
  rewrite <- Hinf. cbn [validate_infer is_none orb bind].
  apply setting_iff in Hx; [|exact Hu|simpl; tauto]. rewrite <- Hx.
  apply setting_iff in Hcf; [|exact Hu|simpl; tauto]. rewrite <- Hcf.
  split; intros H.
  - rewrite (validate_order_ok _ _ H). cbn [bind].
    set (ord := match x with PNone => PStr "PE" | _ => x end).
    assert (Hex : exists compat, translate_opts (dset (dset r "infer" PNone) "order_constit" ord) = Ok compat).
    { unfold translate_opts. rewrite !oget_dset. cbn [String.eqb Ascii.eqb Bool.eqb].
      rewrite (Ho Hkn "conf_int") by (simpl; tauto). rewrite <- Hcf.
      destruct Hc as [->|[->| ->]]; cbn [eq_str String.eqb Ascii.eqb Bool.eqb bind]; eauto. }
    destruct Hex as [compat E]. exists compat. split; auto.
    destruct (translate_get _ _ E) as (_ & _ & _ & Hd & _). rewrite Hd, oget_dset. reflexivity.
  - rewrite (validate_order_bad _ _ H). reflexivity.
Qed.

(** ** infer *)
Lemma pylen_iff v n : pylen v = Ok n <-> has_length v n.
Proof.
  unfold has_length. split.
  - destruct v; simpl; intros H; try discriminate; injection H as <-; eauto.
    right; right. eauto.
  - intros H. destruct H as [H|H].
    + destruct H as (l & -> & Hl). now rewrite <- Hl.
    + destruct H as [H|H].
      * destruct H as (s & -> & Hl). now rewrite <- Hl.
      * destruct H as (b & d & -> & Hl). now rewrite <- Hl.
Qed.

Lemma bunch_attr_req d k v : unique_keys d -> In k required_keys ->
  (infer_attr true d k = Ok v <-> entry d k v).
Proof.
  intros Hd Hk. unfold infer_attr, entry. rewrite <- dget_In by exact Hd.
  unfold bunch_getattr. simpl in Hk.
  destruct Hk as [<-|[<-|[<-|[<-|[]]]]]; simpl; destruct (dget d _); intuition congruence.
Qed.

Lemma infer_attr_missing b d k : In k required_keys -> ~ In k (keys d) ->
  infer_attr b d k = Err AttributeError.
Proof.
  intros Hk Hn. unfold infer_attr. destruct b; auto. apply dget_None in Hn.
  unfold bunch_getattr. simpl in Hk.
  destruct Hk as [<-|[<-|[<-|[<-|[]]]]]; simpl; now rewrite Hn.
Qed.

Lemma proper_subset_iff a b : proper_subset a b = true <->
  (forall k, In k a -> In k b) /\ exists k, In k b /\ ~ In k a.
Proof.
  unfold proper_subset. rewrite Bool.andb_true_iff, Bool.negb_true_iff, forallb_forall.
  split; intros [H1 H2]; split.
  - intros k Hk. apply existsb_eqb_In. now apply H1.
  - apply Bool.not_true_iff_false in H2. clear H1.
    induction b as [|x b IH]; simpl in *; [congruence|].
    destruct (mem_str x a) eqn:E; simpl in H2.
    + destruct (IH H2) as (k & ? & ?). eauto.
    + exists x. split; auto. intros H. apply existsb_eqb_In in H. unfold mem_str in E. congruence.
  - intros k Hk. apply existsb_eqb_In. auto.
  - apply Bool.not_true_iff_false. rewrite forallb_forall. intros H. destruct H2 as (k & K1 & K2).
    apply K2. apply existsb_eqb_In. now apply H.
Qed.

Definition validated (d : dict pyval) : dict pyval :=
  if dmem d "approximate" then d else dset d "approximate" (PBool false).

Lemma validate_infer_ok_iff d tw r : unique_keys d ->
  (validate_infer (PDict true d) tw = Ok r <-> infer_lengths_ok d tw /\ r = PDict true (validated d)).
Proof.
  intros Hd. unfold validate_infer. cbn [is_none eq_str orb].
  split.
  - destruct (proper_subset (dkeys d) required_keys); [discriminate|]. intros H.
    inv_bind H. rename Ha into A1. inv_bind H. rename Ha into A2.
    inv_bind H. rename Ha into A3. inv_bind H. rename Ha into A4.
    destruct (Nat.eqb_spec a2 a0) as [->|]; simpl in H; [|discriminate].
    inv_bind H. rename Ha into A5. inv_bind H. rename Ha into A6.
    match type of H with context [negb (Nat.eqb ?x ?y)] => destruct (Nat.eqb_spec x y) as [->|]; simpl in H; [|discriminate] end.
    inv_bind H. rename Ha into A7. inv_bind H. rename Ha into A8.
    match type of H with context [negb (Nat.eqb ?x ?y)] => destruct (Nat.eqb_spec x y) as [->|]; simpl in H; [|discriminate] end.
    injection H as <-.
    apply bunch_attr_req in A1, A3, A5, A7; auto; try (simpl; tauto).
    apply pylen_iff in A2, A4, A6, A8. split; auto.
    unfold infer_lengths_ok. do 5 eexists. repeat split; eauto.
  - intros [(a & b & c & e & n & E1 & E2 & E3 & E4 & L1 & L2 & L3 & L4) ->].
    assert (Hps : proper_subset (dkeys d) required_keys = false).
    { apply Bool.not_true_iff_false. rewrite proper_subset_iff. intros [_ (k & K1 & K2)]. apply K2.
      apply (in_map fst) in E1, E2, E3, E4. simpl in *. destruct K1 as [<-|[<-|[<-|[<-|[]]]]]; auto. }
    rewrite Hps.
    apply bunch_attr_req in E1; auto; [|simpl; tauto]. rewrite E1. cbn [bind].
    apply pylen_iff in L1. rewrite L1. cbn [bind].
    apply bunch_attr_req in E2; auto; [|simpl; tauto]. rewrite E2. cbn [bind].
    apply pylen_iff in L2. rewrite L2. cbn [bind]. rewrite Nat.eqb_refl. cbn [negb].
    apply bunch_attr_req in E3; auto; [|simpl; tauto]. rewrite E3. cbn [bind].
    apply pylen_iff in L3. rewrite L3. cbn [bind]. rewrite Nat.eqb_refl. cbn [negb].
    apply bunch_attr_req in E4; auto; [|simpl; tauto]. rewrite E4. cbn [bind].
    apply pylen_iff in L4. rewrite L4. cbn [bind]. rewrite Nat.eqb_refl. reflexivity.
Qed.

(** the frame of validation: only "approximate" may be added *)
Lemma validated_frame d : unique_keys d ->
  unique_keys (validated d) /\
  (forall k v, In k (keys d) -> (entry (validated d) k v <-> entry d k v)) /\
  (forall k v, ~ In k (keys d) -> (entry (validated d) k v <-> k = "approximate" /\ v = PBool false)).
Proof.
  intros Hd. unfold validated. destruct (dmem d "approximate") eqn:E.
  - split; auto. split; [tauto|]. intros k v Hk. split.
    + intros H. apply (in_map fst) in H. tauto.
    + intros [-> ->]. apply dmem_In in E. tauto.
  - assert (Hn : ~ In "approximate" (keys d)).
    { intros H. apply dmem_In in H. congruence. }
    destruct (setattr_frame d "approximate" (PBool false) Hd) as (H1 & H2 & H3).
    unfold bunch_setattr in *. split; auto. split.
    + intros k v Hk. apply H3. intros ->. tauto.
    + intros k v Hk. destruct (string_dec k "approximate") as [->|Hne].
      * rewrite H2. tauto.
      * rewrite H3 by auto. split; [|tauto]. intros H. apply (in_map fst) in H. tauto.
Qed.

Lemma validate_infer_bad_lengths d (tw : bool) a b c e na nb nc ne : unique_keys d ->
  entry d "inferred_names" a -> entry d "reference_names" b ->
  entry d "amp_ratios" c -> entry d "phase_offsets" e ->
  has_length a na -> has_length b nb -> has_length c nc -> has_length e ne ->
  (let m := if tw then (2 * na)%nat else na in ~ (nb = na /\ nc = m /\ ne = m)) ->
  validate_infer (PDict true d) tw = Err ValueError.
Proof.
  intros Hd E1 E2 E3 E4 L1 L2 L3 L4 Hbad.
  unfold validate_infer. cbn [is_none eq_str orb].
  assert (Hps : proper_subset (dkeys d) required_keys = false).
  { apply Bool.not_true_iff_false. rewrite proper_subset_iff. intros [_ (k & K1 & K2)]. apply K2.
    apply (in_map fst) in E1, E2, E3, E4. simpl in *. destruct K1 as [<-|[<-|[<-|[<-|[]]]]]; auto. }
  rewrite Hps.
  apply bunch_attr_req in E1; auto; [|simpl; tauto]. rewrite E1. cbn [bind].
  apply pylen_iff in L1. rewrite L1. cbn [bind].
  apply bunch_attr_req in E2; auto; [|simpl; tauto]. rewrite E2. cbn [bind].
  apply pylen_iff in L2. rewrite L2. cbn [bind].
  destruct (Nat.eqb_spec nb na) as [->|]; cbn [negb]; auto.
  apply bunch_attr_req in E3; auto; [|simpl; tauto]. rewrite E3. cbn [bind].
  apply pylen_iff in L3. rewrite L3. cbn [bind].
  destruct (Nat.eqb_spec nc (if tw then (2 * na)%nat else na)) as [Heq|]; cbn [negb]; auto.
  apply bunch_attr_req in E4; auto; [|simpl; tauto]. rewrite E4. cbn [bind].
  apply pylen_iff in L4. rewrite L4. cbn [bind].
  destruct (Nat.eqb_spec ne (if tw then (2 * na)%nat else na)) as [Heq'|]; cbn [negb]; auto.
  exfalso. apply Hbad. auto.
Qed.

Lemma validate_infer_missing_only b d tw :
  (forall k, In k (keys d) -> In k required_keys) -> (exists k, In k required_keys /\ ~ In k (keys d)) ->
  validate_infer (PDict b d) tw = Err TypeError.
Proof.
  intros H1 H2. unfold validate_infer. cbn [is_none eq_str orb].
  rewrite (proj2 (proper_subset_iff (dkeys d) required_keys)); auto.
Qed.

Lemma validate_infer_missing_never b d tw k : In k required_keys -> ~ In k (keys d) ->
  forall r, validate_infer (PDict b d) tw <> Ok r.
Proof.
  intros Hk Hn r H. unfold validate_infer in H. cbn [is_none eq_str orb] in H.
  destruct (proper_subset _ _); [discriminate|].
  assert (Hm := infer_attr_missing b d k Hk Hn).
  do 4 inv_bind H. destruct (negb _) in H; [discriminate|]. do 2 inv_bind H. destruct (negb _) in H; [discriminate|].
  do 2 inv_bind H. simpl in Hk. destruct Hk as [<-|[<-|[<-|[<-|[]]]]]; congruence.
Qed.

Lemma validate_infer_plain d tw : validate_infer (PDict false d) tw = Err TypeError \/
  validate_infer (PDict false d) tw = Err AttributeError.
Proof.
  unfold validate_infer. cbn [is_none eq_str orb]. destruct (proper_subset _ _); auto.
Qed.

Lemma validate_infer_plain_complete d tw : infer_lengths_ok d tw ->
  validate_infer (PDict false d) tw = Err AttributeError.
Proof.
  intros (a & b & c & e & n & E1 & E2 & E3 & E4 & _).
  unfold validate_infer. cbn [is_none eq_str orb].
  assert (Hps : proper_subset (dkeys d) required_keys = false).
  { apply Bool.not_true_iff_false. rewrite proper_subset_iff. intros [_ (k & K1 & K2)]. apply K2.
    apply (in_map fst) in E1, E2, E3, E4. simpl in *. destruct K1 as [<-|[<-|[<-|[<-|[]]]]]; auto. }
  now rewrite Hps.
Qed.

(** an inference object given to a successful solve was well formed *)
Lemma solve_infer_lemma L t u v lat opts c b d : unique_keys opts -> unique_keys d ->
  solve L t u v lat opts = Ok c -> setting opts "infer" (PDict b d) ->
  b = true /\ infer_lengths_ok d (is2d v).
Proof.
  intros Hu Hd Hc Hset. destruct (solve_opt _ _ _ _ _ _ _ Hc) as (compat & si & P1 & _ & P2).
  destruct (used_options _ _ _ Hu _ _ P1 P2) as
   (_ & _ & _ & _ & _ & _ & _ & _ & _ & _ & _ & _ & _ & _ & _ & _ & _ & _ & _ & _ & (inf & I1 & _) & _).
  apply setting_iff in Hset; [|exact Hu|simpl; tauto]. rewrite <- Hset in I1.
  destruct b.
  - apply validate_infer_ok_iff in I1; tauto.
  - destruct (validate_infer_plain d (is2d v)) as [E|E]; congruence.
Qed.

(** ** method *)
Definition with_opt (c : coef) (o : optr) : coef :=
  {| c_name := c_name c; c_frq := c_frq c; c_lind := c_lind c; c_reftime := c_reftime c;
     c_lat := c_lat c; c_opt := o; c_nNR := c_nNR c; c_nR := c_nR c; c_nI := c_nI c;
     c_weights := c_weights c; c_g := c_g c; c_A := c_A c; c_Lsmaj := c_Lsmaj c;
     c_Lsmin := c_Lsmin c; c_theta := c_theta c; c_mean := c_mean c; c_slope := c_slope c;
     c_umean := c_umean c; c_vmean := c_vmean c; c_uslope := c_uslope c; c_vslope := c_vslope c;
     c_g_ci := c_g_ci c; c_A_ci := c_A_ci c; c_Lsmaj_ci := c_Lsmaj_ci c; c_Lsmin_ci := c_Lsmin_ci c;
     c_theta_ci := c_theta_ci c; c_PE := c_PE c; c_SNR := c_SNR c; c_diagn := c_diagn c |}.

Definition with_method (o : optr) (m : pyval) : optr :=
  {| o_twodim := o_twodim o; o_equi := o_equi o; o_conf_int := o_conf_int o; o_cnstit := o_cnstit o;
     o_notrend := o_notrend o; o_nodsatlint := o_nodsatlint o; o_nodsatnone := o_nodsatnone o;
     o_gwchlint := o_gwchlint o; o_gwchnone := o_gwchnone o; o_infer := o_infer o; o_rmin := o_rmin o;
     o_linci := o_linci o; o_white := o_white o; o_nrlzn := o_nrlzn o; o_nodiagn := o_nodiagn o;
     o_ordercnstit := o_ordercnstit o; o_method := m; o_robust_kw := o_robust_kw o; o_epoch := o_epoch o |}.

Definition rmap {A B} (f : A -> B) (x : res A) : res B := match x with Ok a => Ok (f a) | Err e => Err e end.

Lemma apply_order_with_opt c o ind :
  apply_order (with_opt c o) ind = rmap (fun c => with_opt c o) (apply_order c ind).
Proof.
  unfold apply_order. cbn [with_opt c_name c_PE c_SNR c_A c_A_ci c_g c_g_ci c_Lsmaj c_Lsmaj_ci c_Lsmin
    c_Lsmin_ci c_theta c_theta_ci c_frq c_lind].
  repeat match goal with |- context [bind ?x _] =>
    lazymatch x with bind _ _ => fail | _ => destruct x; cbn [bind rmap]; [|reflexivity] end end.
  reflexivity.
Qed.

Lemma reorder_with_opt L c o ord :
  reorder L (with_opt c o) ord = rmap (fun c => with_opt c o) (reorder L c ord).
Proof.
  rewrite !reorder_eq. unfold order_stage.
  destruct (eq_str ord "PE").
  - cbn [with_opt c_PE]. destruct (c_PE c) eqn:E.
    + cbn [bind key c_PE with_opt]. rewrite E. cbn [key bind fst snd]. apply apply_order_with_opt.
    + change (PE_of (with_opt c o)) with (PE_of c). destruct (PE_of c); cbn [bind]; auto.
      cbn [set_diag c_PE key bind fst snd].
      exact (apply_order_with_opt (set_diag c (Some a) (c_SNR c) (c_diagn c)) o _).
  - destruct (eq_str ord "frequency"); [apply apply_order_with_opt|].
    destruct (eq_str ord "SNR").
    + cbn [with_opt c_SNR]. destruct (key (c_SNR c)); cbn [bind fst snd]; auto. apply apply_order_with_opt.
    + destruct (order_names ord); cbn [bind]; auto. cbn [with_opt c_name].
      destruct (mapM _ _); cbn [bind fst snd]; auto. apply apply_order_with_opt.
Qed.

Lemma set_ci_with_opt c o tw cis : set_ci (with_opt c o) tw cis = with_opt (set_ci c tw cis) o.
Proof. reflexivity. Qed.

Lemma ci_stage_method L o x s si la B xraw m W c1 :
  ci_stage L o s si la B xraw m W = Ok c1 ->
  ci_stage L (with_method o x) s si la B xraw m W = Ok (with_opt c1 (with_method o x)).
Proof.
  unfold ci_stage. destruct o. cbn. destruct o_conf_int.
  - match goal with |- bind ?a _ = _ -> bind ?b _ = _ => change b with a; destruct a; cbn [bind]; [|discriminate] end.
    intros H. injection H as <-. reflexivity.
  - intros H. injection H as <-. reflexivity.
Qed.

Lemma diag_stage_method L o x c1 c2 : diag_stage L o c1 = Ok c2 ->
  diag_stage L (with_method o x) (with_opt c1 (with_method o x)) = Ok (with_opt c2 (with_method o x)).
Proof.
  unfold diag_stage. cbn [with_method o_nodiagn]. destruct (o_nodiagn o).
  - intros H. injection H as <-. reflexivity.
  - change (diagn_of L (with_opt c1 (with_method o x))) with (diagn_of L c1).
    change (PE_of (with_opt c1 (with_method o x))) with (PE_of c1).
    change (SNR_of (with_opt c1 (with_method o x))) with (SNR_of c1).
    do 3 (match goal with |- bind ?a _ = _ -> _ => destruct a; cbn [bind]; [|discriminate] end).
    intros H. injection H as <-. reflexivity.
Qed.

Lemma fit_method L t u v tref lor la o s x :
  o_method o <> PStr "ols" -> x <> PStr "ols" ->
  fit L t u v tref lor la (with_method o x) s = fit L t u v tref lor la o s.
Proof.
  intros H1 H2. apply eq_str_not in H1, H2. unfold fit.
  change (basis t tref lor la (with_method o x) s) with (basis t tref lor la o s).
  destruct (basis _ _ _ _ _ _); cbn [bind]; auto. destruct (finite_mat a); auto.
  cbn [with_method o_method o_robust_kw]. now rewrite H1, H2.
Qed.

(** processing succeeds for another method too *)
Lemma opt_value_dset opts k k' x : k <> k' -> opt_value (dset opts k x) k' = opt_value opts k'.
Proof. intros H. unfold opt_value. rewrite dget_dset_other; auto. Qed.

Lemma process_method opts tw compat x : unique_keys opts -> process_opts opts tw = Ok compat ->
  exists compat', process_opts (dset opts "method" x) tw = Ok compat' /\
    oget compat' "epoch" = oget compat "epoch" /\
    forall equi o, read_opt (slv_opts tw equi compat) = Ok o ->
      read_opt (slv_opts tw equi compat') = Ok (with_method o x).
Proof.
  intros Hu Hp. set (opts' := dset opts "method" x).
  assert (Hu' : unique_keys opts') by (apply unique_dset; exact Hu).
  assert (Hs : ~ In "strict" (keys opts)).
  { intros H. rewrite (process_strict _ _ H) in Hp. discriminate. }
  assert (Hs' : ~ In "strict" (keys opts')).
  { unfold opts'. intros H. apply dset_In_keys in H. destruct H as [H|H]; [discriminate|tauto]. }
  destruct (process_opts_eq opts tw Hu Hs) as (r & Hkeys & Ho & Heq).
  destruct (process_opts_eq opts' tw Hu' Hs') as (r' & Hkeys' & Ho' & Heq').
  rewrite Heq in Hp. rewrite Heq'. clear Heq Heq'.
  destruct (known_b opts) eqn:Ek; [|discriminate].
  assert (Ek' : known_b opts' = true).
  { destruct (known_b opts') eqn:E; auto. apply known_b_false in E. destruct E as (k & A & B).
    unfold opts' in A. apply dset_In_keys in A. destruct A as [->|A]; [simpl in B; tauto|].
    assert (known_b opts = false) by (apply known_b_false; exists k; auto). congruence. }
  rewrite Ek'. specialize (Ho eq_refl). specialize (Ho' Ek').
  assert (V : forall k, "method" <> k -> opt_value opts' k = opt_value opts k).
  { intros k Hk. now apply opt_value_dset. }
  rewrite !V by discriminate.
  destruct (validate_infer (opt_value opts "infer") tw) as [inf|] eqn:Einf; cbn [bind] in *; [|discriminate].
  destruct (validate_order_constit _ _) as [ord|] eqn:Eord; cbn [bind] in *; [|discriminate].
  set (n := dset (dset r "infer" inf) "order_constit" ord) in *.
  set (n' := dset (dset r' "infer" inf) "order_constit" ord) in *.
  assert (Hn : forall k, In k (keys documented) -> k <> "method" -> oget n' k = oget n k).
  { intros k K1 K2. unfold n, n'. rewrite !oget_dset. destruct (String.eqb k "order_constit"); auto.
    destruct (String.eqb k "infer"); auto. rewrite Ho, Ho' by auto. apply V. congruence. }
  assert (Hm : oget n' "method" = x).
  { unfold n'. rewrite !oget_dset. cbn [String.eqb Ascii.eqb Bool.eqb]. rewrite Ho' by (simpl; tauto).
    unfold opts', opt_value. now rewrite dget_dset_same. }
  clearbody n n'.
  assert (Hex : exists compat', translate_opts n' = Ok compat').
  { revert Hp. unfold translate_opts. rewrite (Hn "conf_int") by (first [discriminate|simpl; tauto]).
    destruct (eq_str (oget n "conf_int") "linear"); cbn [bind]; [eauto|].
    destruct (eq_str (oget n "conf_int") "MC"); cbn [bind]; [eauto|].
    destruct (eq_str (oget n "conf_int") "none"); cbn [bind]; [eauto|]. discriminate. }
  destruct Hex as [compat' Hp']. exists compat'. split; auto.
  destruct (translate_get _ _ Hp) as
    (X0 & X1 & X2 & X3 & X4 & X5 & X6 & X7 & X8 & X9 & X10 & X11 & X12 & X13 & X14 & X15 & X16 & X17 & X18).
  destruct (translate_get _ _ Hp') as
    (Y0 & Y1 & Y2 & Y3 & Y4 & Y5 & Y6 & Y7 & Y8 & Y9 & Y10 & Y11 & Y12 & Y13 & Y14 & Y15 & Y16 & Y17 & Y18).
  rewrite !Hn in Y2, Y3, Y4, Y5, Y6, Y7, Y8, Y9, Y10, Y11, Y12, Y13, Y14, Y16 by (first [discriminate|simpl; tauto]).
  split. { unfold oget. now rewrite X16, Y16. }
  intros equi o Hr.
  assert (G : forall c, unique_keys c -> forall k, oget (slv_opts tw equi c) k =
     match dget c k with Some v => v | None => oget (slv_opts tw equi []) k end).
  { intros c Hc k. unfold oget. rewrite slv_get by exact Hc. now destruct (dget c k). }
  unfold read_opt in *. pose proof (G _ X1) as G1. pose proof (G _ Y1) as G2. clear G.
  rewrite !G1 in Hr. rewrite !G2. clear G1 G2.
  rewrite X2, X3, X4, X5, X6, X7, X8, X9, X10, X11, X12, X13, X14, X15, X16, X17, X18 in Hr.
  rewrite Y2, Y3, Y4, Y5, Y6, Y7, Y8, Y9, Y10, Y11, Y12, Y13, Y14, Y15, Y16, Y17, Y18.
  inv_bind Hr. rewrite Ha. cbn [bind]. clear Ha. inv_bind Hr. rewrite Ha. cbn [bind]. clear Ha.
  injection Hr as <-. unfold with_method. cbn. rewrite Hm, (Hn "robust_kw") by (first [discriminate|simpl; tauto]).
  reflexivity.
Qed.

Lemma method_lemma L t u v lat opts c x y : unique_keys opts ->
  setting opts "method" x -> x <> PStr "ols" -> y <> PStr "ols" ->
  solve L t u v lat opts = Ok c ->
  solve L t u v lat (dset opts "method" y) = Ok (with_opt c (with_method (c_opt c) y)).
Proof.
  intros Hu Hset Hx Hy Hc.
  assert (Hm : o_method (c_opt c) = x).
  { eapply set_method; eauto. }
  destruct (solve_inv _ _ _ _ _ _ _ Hc) as
    [(compat & si & la & o & s & B & xraw & m & W & c1 & c2 & P1 & P2 & -> & P4 & P5 & P6 & P7 & P8 & P9)].
  assert (Ho : c_opt c = o) by (rewrite (sb_opt _ _ (solve_base _ _ _ _ _ _ _ _ _ _ _ _ P7 P8 P9)); reflexivity).
  rewrite Ho in *.
  destruct (process_method _ _ _ y Hu P1) as (compat' & Q1 & Q2 & Q3).
  eapply solve_intro.
  - exact Q1.
  - rewrite Q2. exact P2.
  - apply Q3. exact P4.
  - exact P5.
  - rewrite fit_method by (auto; congruence). exact P6.
  - apply ci_stage_method. exact P7.
  - apply diag_stage_method. exact P8.
  - cbn [with_method o_ordercnstit]. rewrite reorder_with_opt, P9. reflexivity.
Qed.

Lemma ols_weights L t u v lat opts c : unique_keys opts ->
  setting opts "method" (PStr "ols") -> solve L t u v lat opts = Ok c ->
  forall w, In w (c_weights c) -> w = Fin 1.
Proof.
  intros Hu Hset Hc.
  assert (Hm := set_method L t u v lat opts Hu c Hc _ Hset).
  destruct (solve_inv _ _ _ _ _ _ _ Hc) as
    [(compat & si & la & o & s & B & xraw & m & W & c1 & c2 & P1 & P2 & -> & P4 & P5 & P6 & P7 & P8 & P9)].
  destruct (solve_base _ _ _ _ _ _ _ _ _ _ _ _ P7 P8 P9) as [Ho _ _ _ _ _ Hw _ _ _ _ _ _].
  cbn in Ho, Hw. rewrite Ho in Hm. rewrite Hw. unfold fit in P6. inv_bind P6.
  destruct (finite_mat a); [|discriminate]. rewrite Hm in P6. cbn [eq_str String.eqb Ascii.eqb Bool.eqb] in P6.
  inv_bind P6. destruct a0 as [[[m' r] k] sv]. injection P6 as _ _ _ <-.
  intros w Hin. apply in_map_iff in Hin. destruct Hin as (? & <- & _). reflexivity.
Qed.
