(** Re-ordering of constituents (utide/_solve.py:436-462). *)
From Coq Require Import Lia Lra Sorting Permutation.
From Verif Require Import M_Base M_Lib M_Bunch M_Options M_Time M_Slvinit M_Harmonics M_Select M_Ellipse
  M_Robust M_Period M_Conf M_Diag M_Solve S_Dict S_Options S_Order L_Base L_Bunch L_Options L_SolveInv L_OptSolve.
Open Scope R_scope.
Open Scope string_scope.

Definition with_order (o : optr) (x : pyval) : optr :=
  {| o_twodim := o_twodim o; o_equi := o_equi o; o_conf_int := o_conf_int o; o_cnstit := o_cnstit o;
     o_notrend := o_notrend o; o_nodsatlint := o_nodsatlint o; o_nodsatnone := o_nodsatnone o;
     o_gwchlint := o_gwchlint o; o_gwchnone := o_gwchnone o; o_infer := o_infer o; o_rmin := o_rmin o;
     o_linci := o_linci o; o_white := o_white o; o_nrlzn := o_nrlzn o; o_nodiagn := o_nodiagn o;
     o_ordercnstit := x; o_method := o_method o; o_robust_kw := o_robust_kw o; o_epoch := o_epoch o |}.

Lemma process_order opts tw compat x x' : unique_keys opts -> process_opts opts tw = Ok compat ->
  validate_order_constit x (negb (eq_str (opt_value opts "conf_int") "none")) = Ok x' ->
  exists compat', process_opts (dset opts "order_constit" x) tw = Ok compat' /\
    oget compat' "epoch" = oget compat "epoch" /\
    forall equi o, read_opt (slv_opts tw equi compat) = Ok o ->
      read_opt (slv_opts tw equi compat') = Ok (with_order o x').
Proof.
  intros Hu Hp Hx. set (opts' := dset opts "order_constit" x).
  assert (Hu' : unique_keys opts') by (apply unique_dset; exact Hu).
  assert (Hs : ~ In "strict" (keys opts)).
  { intros H. rewrite (process_strict _ _ H) in Hp. discriminate. }
  assert (Hs' : ~ In "strict" (keys opts')).
  { unfold opts'. intros H. apply dset_In_keys in H. destruct H as [H|H]; [discriminate|tauto]. }
  destruct (process_opts_eq opts tw Hu Hs) as (r & Hkeys & Ho & Heq).
  destruct (process_opts_eq opts' tw Hu' Hs') as (r' & Hkeys' & Ho' & Heq').
  rewrite Heq in Hp. rewrite Heq'. clear Heq Heq'.
  destruct (known_b opts) eqn:Ek; [|discriminate].
  assert (Ek' : known_b opts' = true).
  { destruct (known_b opts') eqn:E; auto. apply known_b_false in E. destruct E as (k & A & B).
    unfold opts' in A. apply dset_In_keys in A. destruct A as [->|A]; [simpl in B; tauto|].
    assert (known_b opts = false) by (apply known_b_false; exists k; auto). congruence. }
  rewrite Ek'. specialize (Ho eq_refl). specialize (Ho' Ek').
  assert (V : forall k, "order_constit" <> k -> opt_value opts' k = opt_value opts k).
  { intros k Hk. now apply opt_value_dset. }
  assert (V0 : opt_value opts' "order_constit" = x) by (unfold opts', opt_value; now rewrite dget_dset_same).
  rewrite V0, !V by discriminate.
  destruct (validate_infer (opt_value opts "infer") tw) as [inf|] eqn:Einf; cbn [bind] in *; [|discriminate].
  rewrite Hx. destruct (validate_order_constit (opt_value opts _) _) as [ord|] eqn:Eord; cbn [bind] in *; [|discriminate].
  set (n := dset (dset r "infer" inf) "order_constit" ord) in *.
  set (n' := dset (dset r' "infer" inf) "order_constit" x') in *.
  assert (Hn : forall k, In k (keys documented) -> k <> "order_constit" -> oget n' k = oget n k).
  { intros k K1 K2. unfold n, n'. rewrite !oget_dset. destruct (String.eqb_spec k "order_constit"); [congruence|].
    destruct (String.eqb k "infer"); auto. rewrite Ho, Ho' by auto. apply V. congruence. }
  assert (Hm : oget n' "order_constit" = x').
  { unfold n'. now rewrite !oget_dset. }
  clearbody n n'.
  assert (Hex : exists compat', translate_opts n' = Ok compat').
  { revert Hp. unfold translate_opts. rewrite (Hn "conf_int") by (first [discriminate|simpl; tauto]).
    destruct (eq_str (oget n "conf_int") "linear"); cbn [bind]; [eauto|].
    destruct (eq_str (oget n "conf_int") "MC"); cbn [bind]; [eauto|].
    destruct (eq_str (oget n "conf_int") "none"); cbn [bind]; [eauto|]. discriminate. }
  destruct Hex as [compat' Hp']. exists compat'. split; auto.
  destruct (translate_get _ _ Hp) as
    (X0 & X1 & X2 & X3 & X4 & X5 & X6 & X7 & X8 & X9 & X10 & X11 & X12 & X13 & X14 & X15 & X16 & X17 & X18).
  destruct (translate_get _ _ Hp') as
    (Y0 & Y1 & Y2 & Y3 & Y4 & Y5 & Y6 & Y7 & Y8 & Y9 & Y10 & Y11 & Y12 & Y13 & Y14 & Y15 & Y16 & Y17 & Y18).
  rewrite Hm in Y3. rewrite !Hn in Y2, Y4, Y5, Y6, Y7, Y8, Y9, Y10, Y11, Y12, Y13, Y14, Y16 by (first [discriminate|simpl; tauto]).
  split. { unfold oget. now rewrite X16, Y16. }
  intros equi o Hr.
  assert (G : forall c, unique_keys c -> forall k, oget (slv_opts tw equi c) k =
     match dget c k with Some v => v | None => oget (slv_opts tw equi []) k end).
  { intros c Hc k. unfold oget. rewrite slv_get by exact Hc. now destruct (dget c k). }
  unfold read_opt in *. pose proof (G _ X1) as G1. pose proof (G _ Y1) as G2. clear G.
  rewrite !G1 in Hr. rewrite !G2. clear G1 G2.
  rewrite X2, X3, X4, X5, X6, X7, X8, X9, X10, X11, X12, X13, X14, X15, X16, X17, X18 in Hr.
  rewrite Y2, Y3, Y4, Y5, Y6, Y7, Y8, Y9, Y10, Y11, Y12, Y13, Y14, Y15, Y16, Y17, Y18.
  inv_bind Hr. rewrite Ha. cbn [bind]. clear Ha. inv_bind Hr. rewrite Ha. cbn [bind]. clear Ha.
  injection Hr as <-. unfold with_order. cbn.
  rewrite ?(Hn "robust_kw"), ?(Hn "method") by (first [discriminate|simpl; tauto]).
  reflexivity.
Qed.


Lemma ci_stage_order L o x s si la B xraw m W c1 :
  ci_stage L o s si la B xraw m W = Ok c1 ->
  ci_stage L (with_order o x) s si la B xraw m W = Ok (with_opt c1 (with_order o x)).
Proof.
  unfold ci_stage. destruct o. cbn. destruct o_conf_int.
  - match goal with |- bind ?a _ = _ -> bind ?b _ = _ => change b with a; destruct a; cbn [bind]; [|discriminate] end.
    intros H. injection H as <-. reflexivity.
  - intros H. injection H as <-. reflexivity.
Qed.

Lemma diag_stage_order L o x c1 c2 : diag_stage L o c1 = Ok c2 ->
  diag_stage L (with_order o x) (with_opt c1 (with_order o x)) = Ok (with_opt c2 (with_order o x)).
Proof.
  unfold diag_stage. cbn [with_order o_nodiagn]. destruct (o_nodiagn o).
  - intros H. injection H as <-. reflexivity.
  - change (diagn_of L (with_opt c1 (with_order o x))) with (diagn_of L c1).
    change (PE_of (with_opt c1 (with_order o x))) with (PE_of c1).
    change (SNR_of (with_opt c1 (with_order o x))) with (SNR_of c1).
    do 3 (match goal with |- bind ?a _ = _ -> _ => destruct a; cbn [bind]; [|discriminate] end).
    intros H. injection H as <-. reflexivity.
Qed.

Lemma solve_step L t u v la opts compat si o s B xraw m W c1 c2 :
  process_opts opts (is2d v) = Ok compat ->
  slvinit (l_parse L) t u v (Some la) (oget compat "epoch") = Ok si ->
  read_opt (slv_opts (is2d v) (si_equi si) compat) = Ok o ->
  ut_cnstitsel (si_tref si) (xdiv (Fin (o_rmin o)) (Fin (24 * si_lor si))) (o_cnstit o) (o_infer o) = Ok s ->
  fit L (si_t si) (si_u si) (si_v si) (si_tref si) (si_lor si) la o s = Ok (B, xraw, m, W) ->
  ci_stage L o s si la B xraw m W = Ok c1 ->
  diag_stage L o c1 = Ok c2 ->
  solve L t u v (Some la) opts = reorder L c2 (o_ordercnstit o).
Proof.
  intros H1 H2 H3 H4 H5 H6 H7. unfold solve. fold (is2d v). rewrite H1. cbn [bind].
  unfold solv1. fold (is2d v). rewrite H2. cbn [bind]. rewrite H3. cbn [bind]. rewrite H4. cbn [bind].
  rewrite H5. cbn [bind]. unfold ci_stage in H6. rewrite H6. cbn [bind].
  unfold diag_stage in H7. rewrite H7. reflexivity.
Qed.

(** the result before re-ordering *)
Record natural (L : lib) (t : pyarr tarray) (u : pyarr (list xr)) (v : option (pyarr (list xr)))
    (lat : option R) (opts : dict pyval) (cN : coef) : Prop := {
  nat_ex : exists compat si la s B xraw m W c1,
    process_opts opts (is2d v) = Ok compat /\
    slvinit (l_parse L) t u v lat (oget compat "epoch") = Ok si /\
    lat = Some la /\
    read_opt (slv_opts (is2d v) (si_equi si) compat) = Ok (c_opt cN) /\
    ut_cnstitsel (si_tref si) (xdiv (Fin (o_rmin (c_opt cN))) (Fin (24 * si_lor si)))
      (o_cnstit (c_opt cN)) (o_infer (c_opt cN)) = Ok s /\
    fit L (si_t si) (si_u si) (si_v si) (si_tref si) (si_lor si) la (c_opt cN) s = Ok (B, xraw, m, W) /\
    ci_stage L (c_opt cN) s si la B xraw m W = Ok c1 /\
    diag_stage L (c_opt cN) c1 = Ok cN }.

Lemma solve_natural L t u v lat opts c : solve L t u v lat opts = Ok c ->
  exists cN, natural L t u v lat opts cN /\ c_opt cN = c_opt c /\ reorder L cN (o_ordercnstit (c_opt c)) = Ok c.
Proof.
  intros Hc. destruct (solve_inv _ _ _ _ _ _ _ Hc) as
    [(compat & si & la & o & s & B & xraw & m & W & c1 & c2 & P1 & P2 & P3 & P4 & P5 & P6 & P7 & P8 & P9)].
  assert (Ho : c_opt c = o) by (rewrite (sb_opt _ _ (solve_base _ _ _ _ _ _ _ _ _ _ _ _ P7 P8 P9)); reflexivity).
  assert (Ho2 : c_opt c2 = o).
  { rewrite (sb_opt _ _ (diag_stage_base _ _ _ _ P8)), (sb_opt _ _ (ci_stage_base _ _ _ _ _ _ _ _ _ _ P7)). reflexivity. }
  exists c2. split; [|rewrite Ho, Ho2; auto]. constructor. rewrite Ho2. do 9 eexists.
  repeat (split; [first [eassumption|reflexivity]|]). exact P8.
Qed.

(** the same data and options with another order *)
Lemma natural_order L t u v lat opts cN x : unique_keys opts -> natural L t u v lat opts cN ->
  solve L t u v lat (dset opts "order_constit" x) =
  do x' <- validate_order_constit x (negb (eq_str (opt_value opts "conf_int") "none"));
  rmap (fun c => with_opt c (with_order (c_opt cN) x')) (reorder L cN x').
Proof.
  intros Hu [(compat & si & la & s & B & xraw & m & W & c1 & P1 & P2 & -> & P4 & P5 & P6 & P7 & P8)].
  destruct (validate_order_constit x _) as [x'|e] eqn:Ev; cbn [bind].
  - destruct (process_order _ _ _ _ _ Hu P1 Ev) as (compat' & Q1 & Q2 & Q3).
    rewrite (solve_step L t u v la _ compat' si (with_order (c_opt cN) x') s B xraw m W
               (with_opt c1 (with_order (c_opt cN) x')) (with_opt cN (with_order (c_opt cN) x'))); auto.
    + cbn [with_order o_ordercnstit]. rewrite reorder_with_opt. reflexivity.
    + now rewrite Q2.
    + now apply ci_stage_order.
    + now apply diag_stage_order.
  - unfold solve. fold (is2d v).
    replace (process_opts (dset opts "order_constit" x) (is2d v)) with (@Err (dict pyval) e); [reflexivity|].
    set (opts' := dset opts "order_constit" x).
    assert (Hu' : unique_keys opts') by (apply unique_dset; exact Hu).
    assert (Hs : ~ In "strict" (keys opts)).
    { intros H. rewrite (process_strict _ _ H) in P1. discriminate. }
    assert (Hs' : ~ In "strict" (keys opts')).
    { unfold opts'. intros H. apply dset_In_keys in H. destruct H as [H|H]; [discriminate|tauto]. }
    destruct (process_opts_eq opts (is2d v) Hu Hs) as (r & Hkeys & Ho & Heq).
    destruct (process_opts_eq opts' (is2d v) Hu' Hs') as (r' & Hkeys' & Ho' & Heq').
    rewrite Heq in P1. rewrite Heq'. clear Heq Heq'.
    destruct (known_b opts) eqn:Ek; [|discriminate].
    assert (Ek' : known_b opts' = true).
    { destruct (known_b opts') eqn:E; auto. apply known_b_false in E. destruct E as (k & A & A2).
      unfold opts' in A. apply dset_In_keys in A. destruct A as [->|A]; [simpl in A2; tauto|].
      assert (known_b opts = false) by (apply known_b_false; exists k; auto). congruence. }
    rewrite Ek'.
    assert (V : forall k, "order_constit" <> k -> opt_value opts' k = opt_value opts k).
    { intros k Hk. now apply opt_value_dset. }
    assert (V0 : opt_value opts' "order_constit" = x) by (unfold opts', opt_value; now rewrite dget_dset_same).
    rewrite V0, !V by discriminate.
    destruct (validate_infer _ _); cbn [bind] in *; [|discriminate]. now rewrite Ev.
Qed.

Lemma validate_snr_err : validate_order_constit (PStr "SNR") false = Err ValueError.
Proof. reflexivity. Qed.

(** ** one index list for all arrays *)
Lemma take_idx_spec {A} (l : list A) ind r : take_idx l ind = Ok r ->
  length r = length ind /\ forall j i, nth_error ind j = Some i -> nth_error r j = nth_error l i /\ (i < length l)%nat.
Proof.
  revert r. induction ind as [|i ind IH]; cbn; intros r H.
  - injection H as <-. split; auto. intros [|j] i H; discriminate.
  - inv_bind H. inv_bind H. injection H as <-.
    destruct (nth_error l i) as [y|] eqn:E; [|discriminate]. injection Ha as <-.
    destruct (IH _ Ha0) as [I1 I2]. split; [cbn; congruence|]. intros [|j] i' H; cbn in *.
    + injection H as <-. rewrite E. split; auto. apply nth_error_Some. congruence.
    + auto.
Qed.
Lemma take_opt_spec {A} (o : option (list A)) ind r : take_opt o ind = Ok r ->
  forall j i, nth_error ind j = Some i -> at_ r j = at_ o i.
Proof.
  destruct o as [l|]; cbn; intros H j i Hj; [|injection H as <-; reflexivity].
  inv_bind H. injection H as <-. cbn. f_equal. eapply take_idx_spec in Ha. apply Ha in Hj. apply Hj.
Qed.
Lemma take_opt_len {A} (o : option (list A)) ind r : take_opt o ind = Ok r -> len_ok (length ind) r.
Proof.
  destruct o as [l|]; cbn; intros H l' E; [|congruence].
  inv_bind H. injection H as <-. injection E as <-. eapply take_idx_spec in Ha. apply Ha.
Qed.

Lemma apply_order_rows c ind b : apply_order c ind = Ok b ->
  length (c_name b) = length ind /\ aligned b /\
  (forall j i, nth_error ind j = Some i -> drow_of b j = drow_of c i) /\
  (forall i, In i ind -> (i < length (c_name c))%nat).
Proof.
  unfold apply_order. intros H. do 15 inv_bind H. injection H as <-. cbn.
  assert (Hn := take_idx_spec _ _ _ Ha). assert (Hg := take_idx_spec _ _ _ Ha4).
  assert (Hf := take_idx_spec _ _ _ Ha12). assert (Hl := take_idx_spec _ _ _ Ha13).
  split; [apply Hn|]. split; [|split].
  - unfold aligned. cbn. rewrite (proj1 Hn).
    split; [apply Hf|]. split; [apply Hl|]. split; [apply Hg|].
    repeat split; eapply take_opt_len; eassumption.
  - intros j i Hj. unfold drow_of, crow_of. cbn.
    rewrite (proj1 (proj2 Hn j i Hj)), (proj1 (proj2 Hf j i Hj)), (proj1 (proj2 Hl j i Hj)), (proj1 (proj2 Hg j i Hj)).
    repeat match goal with H : take_opt _ _ = Ok ?r |- context [at_ ?r j] => rewrite (take_opt_spec _ _ _ H j i Hj); clear H end.
    reflexivity.
  - intros i Hi. apply In_nth_error in Hi. destruct Hi as [j Hj]. apply (proj2 Hn j i Hj).
Qed.

Lemma map_seq_nth_error {A B} (l : list A) (f : nat -> B) (g : A -> B) :
  (forall j i, nth_error l j = Some i -> f j = g i) -> map f (seq 0 (length l)) = map g l.
Proof.
  revert f. induction l as [|a l IH]; intros f H; cbn; auto. f_equal.
  - apply (H 0%nat). reflexivity.
  - rewrite <- seq_shift, map_map. apply IH. intros j i Hj. exact (H (S j) i Hj).
Qed.

Lemma apply_order_drows c ind b : apply_order c ind = Ok b -> drows b = map (drow_of c) ind.
Proof.
  intros H. destruct (apply_order_rows _ _ _ H) as (H1 & _ & H2 & _). unfold drows. rewrite H1.
  now apply map_seq_nth_error.
Qed.
Lemma drows_rows c : rows c = map (fun d => fst (fst d)) (drows c).
Proof. unfold rows, drows. now rewrite map_map. Qed.
Lemma apply_order_rows' c ind b : apply_order c ind = Ok b -> rows b = map (crow_of c) ind.
Proof. intros H. rewrite drows_rows, (apply_order_drows _ _ _ H), map_map. reflexivity. Qed.
