(** Two runs that differ in the order only; percent energy; the diagnostics table. *)
From Coq Require Import Lia Lra Sorting Permutation.
From Verif Require Import M_Base M_Lib M_Tables M_Const M_Options M_Time M_Slvinit M_Harmonics M_Select M_Ellipse
  M_Robust M_Period M_Conf M_Diag M_Solve S_Dict S_Options L_Base L_Options L_SolveInv L_OptSolve S_Slv L_Slv L_Slv2
  L_Tables S_Order L_Order S_Select L_Select S_Fit L_Fit L_Align L_SelOrder L_Order2.
Open Scope R_scope.
Open Scope string_scope.

Lemma dset_twice {V} (d : dict V) k x y : dset (dset d k x) k y = dset d k y.
Proof.
  induction d as [|[k' v'] d IH]; cbn; [now rewrite String.eqb_refl|].
  destruct (String.eqb k k') eqn:E; cbn; rewrite E; [reflexivity|]. now rewrite IH.
Qed.
Lemma opt_value_set opts k x : opt_value (dset opts k x) k = x.
Proof. unfold opt_value. now rewrite dget_dset_same. Qed.
Lemma set_sorting opts x sn x' : sorted_order x ->
  validate_order_constit (opt_value (dset opts "order_constit" x) "order_constit") sn = Ok x' -> sorting x'.
Proof. intros H. rewrite opt_value_set. now apply validate_sorting. Qed.

(** a run with another order, seen from the natural-order result of the first *)
Lemma second_run L t u v lat opts x y a b cN si s : unique_keys opts ->
  ran L t u v lat (dset opts "order_constit" x) a cN si s ->
  solve L t u v lat (dset opts "order_constit" y) = Ok b ->
  exists y' b0, validate_order_constit y (negb (eq_str (opt_value opts "conf_int") "none")) = Ok y' /\
    reorder L cN y' = Ok b0 /\ b = with_opt b0 (with_order (c_opt cN) y').
Proof.
  intros Hu Rn H. assert (N := rn_nat _ _ _ _ _ _ _ _ _ _ Rn).
  assert (E := natural_order L t u v lat _ cN y (unique_dset _ _ _ Hu) N). rewrite dset_twice in E. rewrite H in E.
  symmetry in E. inv_bind E. unfold rmap in E. destruct (reorder L cN a0) as [b0|] eqn:Er; [|discriminate].
  apply Ok_inj in E. rewrite opt_value_dset in Ha by discriminate. exists a0, b0. auto.
Qed.

Definition rows_with_opt c o : rows (with_opt c o) = rows c := eq_refl.

Lemma reorder_diag L c x' b : reorder L c x' = Ok b -> c_diagn b = c_diagn c.
Proof.
  intros H. destruct (reorder_inv _ _ _ _ H) as (c' & ind & H1 & H2 & _).
  destruct (order_stage_rows _ _ _ _ _ H1) as (_ & _ & _ & D). apply apply_order_base in H2. destruct H2. congruence.
Qed.

Lemma reorder_drows L c x' b : argsort_perm L -> aligned c -> c_PE c <> None -> sorting x' ->
  reorder L c x' = Ok b -> Permutation (drows b) (drows c).
Proof.
  intros HL A HP Hx H. destruct (reorder_inv _ _ _ _ H) as (c' & ind & H1 & H2 & H3).
  assert (P := order_perm _ _ _ _ _ HL A Hx H1).
  assert (E : c' = c) by (destruct H3 as [E|(_ & E & _)]; [exact E|contradiction]). subst c'.
  rewrite (apply_order_drows _ _ _ H2). unfold drows. now apply Permutation_map.
Qed.

Lemma orders_agree L t u v lat opts x y a b : lstsq_shape L -> argsort_perm L -> arrays_ok t u v -> unique_keys opts ->
  sorted_order x -> sorted_order y ->
  solve L t u v lat (dset opts "order_constit" x) = Ok a -> solve L t u v lat (dset opts "order_constit" y) = Ok b ->
  c_weights a <> [] ->
  same_result a b /\ (~ setting opts "conf_int" (PStr "none") -> Permutation (drows a) (drows b)).
Proof.
  intros HL HP Ha Hu Hx Hy H1 H2 HW.
  destruct (solve_ran _ _ _ _ _ _ _ HL Ha (unique_dset _ _ _ Hu) H1 HW) as (cN & si & s & Rn).
  destruct (second_run _ _ _ _ _ _ _ _ _ _ _ _ _ Hu Rn H2) as (y' & b0 & V & Er & ->).
  assert (Sx := set_sorting _ _ _ _ Hx (rn_val _ _ _ _ _ _ _ _ _ _ Rn)).
  assert (Sy := validate_sorting _ _ _ Hy V).
  assert (A := rn_al _ _ _ _ _ _ _ _ _ _ Rn). assert (Ea := rn_ord _ _ _ _ _ _ _ _ _ _ Rn).
  destruct (reorder_rows _ _ _ _ HP A Sx Ea) as [P1 _]. destruct (reorder_rows _ _ _ _ HP A Sy Er) as [P2 _].
  assert (Ba := reorder_base _ _ _ _ Ea). assert (Bb := reorder_base _ _ _ _ Er).
  assert (Da := reorder_diag _ _ _ _ Ea). assert (Db := reorder_diag _ _ _ _ Er). split.
  - constructor; cbn [with_opt c_reftime c_lat c_weights c_mean c_slope c_umean c_vmean c_uslope c_vslope c_diagn];
      try (destruct Ba, Bb; congruence). rewrite rows_with_opt. now rewrite P1, P2.
  - intros Hn.
    assert (Hnd : o_nodiagn (c_opt a) = false).
    { rewrite (rn_nod _ _ _ _ _ _ _ _ _ _ Rn), opt_value_dset by discriminate.
      destruct (eq_str (opt_value opts "conf_int") "none") eqn:E; auto. exfalso. apply Hn.
      apply setting_iff; auto; [cbn; auto|]. unfold eq_str in E. destruct (opt_value opts "conf_int"); try discriminate.
      apply String.eqb_eq in E. now subst. }
    destruct (natural_diag _ _ _ _ _ _ _ _ _ _ Rn) as [_ D]. destruct (D Hnd) as (D1 & _).
    assert (D2 : c_PE cN <> None) by congruence.
    change (drows (with_opt b0 (with_order (c_opt cN) y'))) with (drows b0).
    rewrite (reorder_drows _ _ _ _ HP A D2 Sx Ea), (reorder_drows _ _ _ _ HP A D2 Sy Er). reflexivity.
Qed.

(** a name sequence *)
Lemma name_rows L t u v lat opts x l a b : lstsq_shape L -> argsort_perm L -> arrays_ok t u v -> unique_keys opts ->
  sorted_order x ->
  solve L t u v lat (dset opts "order_constit" x) = Ok a ->
  solve L t u v lat (dset opts "order_constit" (PSeq (map PStr l))) = Ok b ->
  c_weights a <> [] ->
  c_name b = l /\ incl (rows b) (rows a) /\ c_diagn b = c_diagn a.
Proof.
  intros HL HP Ha Hu Hx H1 H2 HW.
  destruct (solve_ran _ _ _ _ _ _ _ HL Ha (unique_dset _ _ _ Hu) H1 HW) as (cN & si & s & Rn).
  destruct (second_run _ _ _ _ _ _ _ _ _ _ _ _ _ Hu Rn H2) as (y' & b0 & V & Er & ->).
  assert (Ea := rn_ord _ _ _ _ _ _ _ _ _ _ Rn).
  injection V as <-. destruct (name_order _ _ _ _ Er) as (N1 & ind & N2 & _ & N3).
  assert (Sx := set_sorting _ _ _ _ Hx (rn_val _ _ _ _ _ _ _ _ _ _ Rn)).
  destruct (reorder_rows _ _ _ _ HP (rn_al _ _ _ _ _ _ _ _ _ _ Rn) Sx Ea) as [P1 _].
  split; [exact N1|]. split.
  - rewrite rows_with_opt, N2. intros r Hr. apply in_map_iff in Hr. destruct Hr as (i & <- & Hi).
    apply Permutation_sym in P1. eapply Permutation_in; [exact P1|]. unfold rows. apply in_map. apply in_seq. specialize (N3 i Hi). lia.
  - cbn. rewrite (reorder_diag _ _ _ _ Er), (reorder_diag _ _ _ _ Ea). reflexivity.
Qed.
(** every row of a result, whatever the order, is a row of the natural-order result *)

Lemma name_err L t u v lat opts x l n a : lstsq_shape L -> argsort_perm L -> arrays_ok t u v -> unique_keys opts ->
  sorted_order x ->
  solve L t u v lat (dset opts "order_constit" x) = Ok a -> c_weights a <> [] ->
  In n l -> ~ In n (c_name a) ->
  solve L t u v lat (dset opts "order_constit" (PSeq (map PStr l))) = Err ValueError.
Proof.
  intros HL HP Ha Hu Hx H1 HW Hn Hn2.
  destruct (solve_ran _ _ _ _ _ _ _ HL Ha (unique_dset _ _ _ Hu) H1 HW) as (cN & si & s & Rn).
  assert (N := rn_nat _ _ _ _ _ _ _ _ _ _ Rn).
  assert (E := natural_order L t u v lat _ cN (PSeq (map PStr l)) (unique_dset _ _ _ Hu) N). rewrite dset_twice in E.
  rewrite E. cbn [validate_order_constit bind]. rewrite (name_order_err _ _ _ _ Hn); [reflexivity|].
  assert (Sx := set_sorting _ _ _ _ Hx (rn_val _ _ _ _ _ _ _ _ _ _ Rn)).
  destruct (reorder_rows _ _ _ _ HP (rn_al _ _ _ _ _ _ _ _ _ _ Rn) Sx (rn_ord _ _ _ _ _ _ _ _ _ _ Rn)) as [_ P1].
  intros X. apply Hn2. apply Permutation_sym in P1. eapply Permutation_in; eauto.
Qed.

(** C43 *)
Lemma orders_sorted L t u v lat opts c x : lstsq_shape L -> argsort_sorts L -> arrays_ok t u v -> unique_keys opts ->
  setting opts "order_constit" x -> solve L t u v lat opts = Ok c -> c_weights c <> [] ->
  (x = PNone \/ x = PStr "PE" -> exists pe, c_PE c = Some pe /\ non_increasing pe) /\
  (x = PStr "SNR" -> exists sn, c_SNR c = Some sn /\ non_increasing sn) /\
  (x = PStr "frequency" -> non_decreasing (c_frq c)).
Proof.
  intros HL HS Ha Hu Hx Hc HW. destruct (solve_ran _ _ _ _ _ _ _ HL Ha Hu Hc HW) as (cN & si & s & Rn).
  assert (V := rn_val _ _ _ _ _ _ _ _ _ _ Rn). rewrite (setting_val _ "order_constit" _ Hu ltac:(cbn; tauto) Hx) in V.
  destruct (final_order _ _ _ _ _ _ _ _ _ _ HS Rn) as (F1 & F2 & F3). split; [|split].
  - intros [-> | ->]; apply F1; now injection V.
  - intros ->. apply F2. cbn in V. destruct (negb _); cbn in V; [now injection V|discriminate].
  - intros ->. apply F3. now injection V.
Qed.

(** C45 *)
Lemma percent_energy L t u v lat opts c x pe : lstsq_shape L -> argsort_perm L -> arrays_ok t u v -> unique_keys opts ->
  setting opts "order_constit" x -> sorted_order x -> solve L t u v lat opts = Ok c -> c_weights c <> [] ->
  c_PE c = Some pe -> pe = map (fun r => share (energy r) (total c)) (rows c).
Proof.
  intros HL HS Ha Hu Hx Hs Hc HW Hpe. destruct (solve_ran _ _ _ _ _ _ _ HL Ha Hu Hc HW) as (cN & si & s & Rn).
  eapply final_PE; eauto. now rewrite (setting_val _ "order_constit" _ Hu ltac:(cbn; tauto) Hx).
Qed.
Lemma snr_reported L t u v lat opts c sn : lstsq_shape L -> argsort_perm L -> arrays_ok t u v -> unique_keys opts ->
  solve L t u v lat opts = Ok c -> c_weights c <> [] -> c_SNR c = Some sn -> sn = map snr (rows c).
Proof.
  intros HL HS Ha Hu Hc HW Hpe. destruct (solve_ran _ _ _ _ _ _ _ HL Ha Hu Hc HW) as (cN & si & s & Rn).
  eapply final_SNR; eauto.
Qed.
Lemma total_nonneg c : 0 <= total c.
Proof.
  unfold total. induction (rows c) as [|r l IH]; cbn; [lra|]. pose proof (energy_nonneg r). lra.
Qed.
Lemma shares_sum c : total c <> 0 -> xsum (map (fun r => share (energy r) (total c)) (rows c)) = Fin 100.
Proof.
  intros H. assert (G : forall l, xsum (map (fun r => share (energy r) (total c)) l) =
      Fin (100 * fold_right Rplus 0 (map energy l) / total c)).
  { unfold share. destruct (Req_EM_T (total c) 0); [contradiction|]. induction l as [|r l IH]; cbn.
    - f_equal. field. assumption.
    - unfold xsum in IH. rewrite IH. cbn. f_equal. field. assumption. }
  rewrite G. unfold total in *. f_equal. field. assumption.
Qed.
Lemma shares_nonneg c r : total c <> 0 -> exists p, share (energy r) (total c) = Fin p /\ 0 <= p.
Proof.
  intros H. unfold share. destruct (Req_EM_T (total c) 0); [contradiction|]. eexists. split; [reflexivity|].
  pose proof (energy_nonneg r). pose proof (total_nonneg c).
  apply Rmult_le_pos; [lra|]. apply Rlt_le, Rinv_0_lt_compat. lra.
Qed.

(** C46 *)
Lemma diagn_table L t u v lat opts c x : lstsq_shape L -> argsort_perm L -> argsort_sorts L -> arrays_ok t u v ->
  unique_keys opts -> setting opts "order_constit" x -> sorted_order x -> ~ setting opts "conf_int" (PStr "none") ->
  solve L t u v lat opts = Ok c -> c_weights c <> [] ->
  exists n p sn, c_diagn c = Some (n, p, sn) /\ non_increasing p /\ length p = length n /\ length sn = length n /\
    Permutation (combine (combine (map Some n) p) sn)
      (map (fun r => (w_name r, share (energy r) (total c), snr r)) (rows c)).
Proof.
  intros HL HP HS Ha Hu Hx Hs Hn Hc HW. destruct (solve_ran _ _ _ _ _ _ _ HL Ha Hu Hc HW) as (cN & si & s & Rn).
  assert (Hs' : sorted_order (opt_value opts "order_constit")) by now rewrite (setting_val _ "order_constit" _ Hu ltac:(cbn; tauto) Hx).
  destruct (ran_perm _ _ _ _ _ _ _ _ _ _ HP Rn Hs') as [P _].
  destruct (natural_diag _ _ _ _ _ _ _ _ _ _ Rn) as [_ D].
  assert (Hnd : o_nodiagn (c_opt c) = false).
  { rewrite (rn_nod _ _ _ _ _ _ _ _ _ _ Rn).
    destruct (eq_str (opt_value opts "conf_int") "none") eqn:E; auto. exfalso. apply Hn.
    apply setting_iff; auto; [cbn; auto|]. unfold eq_str in E. destruct (opt_value opts "conf_int"); try discriminate.
    apply String.eqb_eq in E. now subst. }
  destruct (D Hnd) as (_ & _ & d & c1 & D1 & D2 & D3 & D4 & D5 & D6 & D7).
  rewrite (total_perm _ _ P). set (f := fun r => (w_name r, share (energy r) (total cN), snr r)).
  destruct d as [[n p] sn]. exists n, p, sn.
  rewrite (reorder_diag _ _ _ _ (rn_ord _ _ _ _ _ _ _ _ _ _ Rn)). split; auto.
  unfold diagn_of in D1. rewrite D6, D7 in D1. cbn [bind] in D1.
  set (pe := map (fun r => share (energy r) (total cN)) (rows cN)) in *. set (sr := map snr (rows cN)) in *.
  set (ind := rev (l_argsort L pe)) in *.
  inv_bind D1. inv_bind D1. inv_bind D1. apply Ok_inj in D1. injection D1 as -> -> ->.
  split; [eapply rev_sorted; eauto|]. split; [rewrite (take_idx_len _ _ _ Ha1), (take_idx_len _ _ _ Ha0); auto|].
  split; [rewrite (take_idx_len _ _ _ Ha2), (take_idx_len _ _ _ Ha0); auto|].
  assert (Pi : Permutation ind (seq 0 (length (rows cN)))).
  { unfold ind. rewrite <- Permutation_rev. refine (perm_trans (HP _) _). unfold pe. now rewrite map_length. }
  assert (E : combine (combine (map Some n) p) sn = map (fun i => f (crow_of cN i)) ind).
  { apply take_idx_map in Ha0, Ha1, Ha2. rewrite D5 in Ha0.
    assert (Hi : forall i, In i ind -> (i < length (rows cN))%nat).
    { intros i Hi. apply (Permutation_in _ Pi) in Hi. apply in_seq in Hi. lia. }
    assert (Hpe : forall i, (i < length (rows cN))%nat -> nth_error pe i = Some (share (energy (crow_of cN i)) (total cN))).
    { intros i Hi2. unfold pe, rows in *. rewrite map_map, nth_error_map. rewrite map_length, seq_length in Hi2.
      rewrite nth_error_seq by assumption. reflexivity. }
    assert (Hsr : forall i, (i < length (rows cN))%nat -> nth_error sr i = Some (snr (crow_of cN i))).
    { intros i Hi2. unfold sr, rows in *. rewrite map_map, nth_error_map. rewrite map_length, seq_length in Hi2.
      rewrite nth_error_seq by assumption. reflexivity. }
    clearbody pe sr ind. clear - Ha0 Ha1 Ha2 Hi Hpe Hsr. revert n p sn Ha0 Ha1 Ha2 Hi.
    induction ind as [|i ind IH]; intros [|n0 n] [|p0 p] [|s0 sn] A1 A2 A3 Hi; cbn [map combine] in *; try discriminate; auto.
    injection A1 as A1 B1. injection A2 as A2 B2. injection A3 as A3 B3. f_equal.
    - unfold f. rewrite Hpe in A2 by (apply Hi; now left). rewrite Hsr in A3 by (apply Hi; now left).
      injection A2 as <-. injection A3 as <-. cbn [w_name crow_of]. rewrite A1. reflexivity.
    - apply IH; auto. intros; apply Hi; now right. }
  rewrite E. refine (perm_trans _ (Permutation_map f (Permutation_sym P))). unfold rows. rewrite map_map. apply (Permutation_map (fun i => f (crow_of cN i))).
  unfold rows in Pi. rewrite map_length, seq_length in Pi. exact Pi.
Qed.
