(** Inversion of a successful call of solve (utide/_solve.py:122-462). *)
From Coq Require Import Lia.
From Verif Require Import M_Base M_Lib M_Bunch M_Options M_Time M_Slvinit M_Harmonics M_Select M_Ellipse
  M_Robust M_Period M_Conf M_Diag M_Solve L_Base.
Open Scope R_scope.

Definition is2d {A} (v : option A) : bool := match v with Some _ => true | None => false end.

(** stage 1: confidence intervals *)
Definition ci_stage (L : lib) (o : optr) (s : sel) (si : slv) (la : R) B xraw m W : res coef :=
  let xmod := model_fit (o_twodim o) B m in
  let c := coef_core (si_tref si) (si_lor si) la o s m W in
  let nm := (2 * (s_nNR s + s_nR s) + 1 + (if o_notrend o then 0 else 1))%nat in
  if o_conf_int o then
    do cis <- confidence L o s (si_tin si) (si_t si) (resid_parts (o_twodim o) W xraw xmod)
                         (si_elor si) xraw xmod W B nm (conf_input (o_twodim o) m s);
    Ok (set_ci c (o_twodim o) cis)
  else Ok c.

Definition diag_stage (L : lib) (o : optr) (c : coef) : res coef :=
  if o_nodiagn o then Ok c
  else do d <- diagn_of L c; do pe <- PE_of c; do snr <- SNR_of c;
       Ok (set_diag c (Some pe) (Some snr) (Some d)).

Record solved (L : lib) (t : pyarr tarray) (u : pyarr (list xr)) (v : option (pyarr (list xr)))
    (lat : option R) (opts : dict pyval) (c : coef) : Prop := {
  sv : exists compat si la o s B xraw m W c1 c2,
    process_opts opts (is2d v) = Ok compat /\
    slvinit (l_parse L) t u v lat (oget compat "epoch") = Ok si /\
    lat = Some la /\
    read_opt (slv_opts (is2d v) (si_equi si) compat) = Ok o /\
    ut_cnstitsel (si_tref si) (xdiv (Fin (o_rmin o)) (Fin (24 * si_lor si))) (o_cnstit o) (o_infer o) = Ok s /\
    fit L (si_t si) (si_u si) (si_v si) (si_tref si) (si_lor si) la o s = Ok (B, xraw, m, W) /\
    ci_stage L o s si la B xraw m W = Ok c1 /\
    diag_stage L o c1 = Ok c2 /\
    reorder L c2 (o_ordercnstit o) = Ok c }.

Lemma solve_inv L t u v lat opts c : solve L t u v lat opts = Ok c -> solved L t u v lat opts c.
Proof.
  unfold solve. intros H. inv_bind H. rename Ha into H1. constructor.
  unfold solv1 in H. fold (is2d v) in *.
  inv_bind H. rename Ha into H2. inv_bind H. rename Ha into H3. destruct lat as [la|]; [|discriminate].
  injection H3 as <-. inv_bind H. rename Ha into H4. inv_bind H. rename Ha into H5.
  inv_bind H. rename Ha into H6. destruct a3 as [[[B xraw] m] W].
  inv_bind H. rename Ha into H7. inv_bind H. rename Ha into H8.
  do 11 eexists. repeat (split; [first [eassumption|reflexivity]|]). exact H.
Qed.

Lemma solve_intro L t u v la opts compat si o s B xraw m W c1 c2 c :
  process_opts opts (is2d v) = Ok compat ->
  slvinit (l_parse L) t u v (Some la) (oget compat "epoch") = Ok si ->
  read_opt (slv_opts (is2d v) (si_equi si) compat) = Ok o ->
  ut_cnstitsel (si_tref si) (xdiv (Fin (o_rmin o)) (Fin (24 * si_lor si))) (o_cnstit o) (o_infer o) = Ok s ->
  fit L (si_t si) (si_u si) (si_v si) (si_tref si) (si_lor si) la o s = Ok (B, xraw, m, W) ->
  ci_stage L o s si la B xraw m W = Ok c1 ->
  diag_stage L o c1 = Ok c2 ->
  reorder L c2 (o_ordercnstit o) = Ok c ->
  solve L t u v (Some la) opts = Ok c.
Proof.
  intros H1 H2 H3 H4 H5 H6 H7 H8. unfold solve. fold (is2d v). rewrite H1. cbn [bind].
  unfold solv1. fold (is2d v). rewrite H2. cbn [bind]. rewrite H3. cbn [bind]. rewrite H4. cbn [bind].
  rewrite H5. cbn [bind]. unfold ci_stage in H6. rewrite H6. cbn [bind].
  unfold diag_stage in H7. rewrite H7. exact H8.
Qed.

(** fields that no later stage touches *)
Record same_base (a b : coef) : Prop := {
  sb_opt : c_opt b = c_opt a; sb_reftime : c_reftime b = c_reftime a; sb_lat : c_lat b = c_lat a;
  sb_nNR : c_nNR b = c_nNR a; sb_nR : c_nR b = c_nR a; sb_nI : c_nI b = c_nI a;
  sb_weights : c_weights b = c_weights a;
  sb_mean : c_mean b = c_mean a; sb_slope : c_slope b = c_slope a;
  sb_umean : c_umean b = c_umean a; sb_vmean : c_vmean b = c_vmean a;
  sb_uslope : c_uslope b = c_uslope a; sb_vslope : c_vslope b = c_vslope a }.

Lemma same_base_refl a : same_base a a.
Proof. constructor; reflexivity. Qed.

Lemma same_base_trans a b c : same_base a b -> same_base b c -> same_base a c.
Proof. intros [] []. constructor; congruence. Qed.

Lemma apply_order_base a ind b : apply_order a ind = Ok b -> same_base a b /\ c_diagn b = c_diagn a.
Proof.
  unfold apply_order. intros H. do 15 inv_bind H. injection H as <-. split; [constructor|]; reflexivity.
Qed.

(** the index list used by _reorder and the structure it is applied to *)
Definition order_stage (L : lib) (c : coef) (ord : pyval) : res (coef * list nat) :=
  if eq_str ord "PE" then
    do c' <- (match c_PE c with
              | Some _ => Ok c
              | None => do pe <- PE_of c; Ok (set_diag c (Some pe) (c_SNR c) (c_diagn c))
              end);
    do pe <- key (c_PE c');
    Ok (c', rev (l_argsort L pe))
  else if eq_str ord "frequency" then Ok (c, l_argsort L (map Fin (c_frq c)))
  else if eq_str ord "SNR" then do snr <- key (c_SNR c); Ok (c, rev (l_argsort L snr))
  else do names <- order_names ord; do ind <- mapM (name_index (c_name c)) names; Ok (c, ind).

Lemma reorder_eq L c ord : reorder L c ord = (do ci <- order_stage L c ord; apply_order (fst ci) (snd ci)).
Proof. reflexivity. Qed.

Lemma order_stage_inv L c ord c' ind : order_stage L c ord = Ok (c', ind) ->
  (c' = c \/ (eq_str ord "PE" = true /\ c_PE c = None /\
     exists pe, PE_of c = Ok pe /\ c' = set_diag c (Some pe) (c_SNR c) (c_diagn c))).
Proof.
  unfold order_stage. destruct (eq_str ord "PE").
  - intros H. inv_bind H. inv_bind H. injection H as <- _.
    destruct (c_PE c) eqn:E; [injection Ha as ->; auto|].
    inv_bind Ha. injection Ha as <-. right. repeat split; auto. eauto.
  - destruct (eq_str ord "frequency"); [intros H; injection H as <- _; auto|].
    destruct (eq_str ord "SNR"); intros H; inv_bind H; [injection H as <- _; auto|].
    inv_bind H. injection H as <- _; auto.
Qed.

Lemma reorder_inv L c ord b : reorder L c ord = Ok b ->
  exists c' ind, order_stage L c ord = Ok (c', ind) /\ apply_order c' ind = Ok b /\
  (c' = c \/ (eq_str ord "PE" = true /\ c_PE c = None /\
     exists pe, PE_of c = Ok pe /\ c' = set_diag c (Some pe) (c_SNR c) (c_diagn c))).
Proof.
  rewrite reorder_eq. intros H. inv_bind H. destruct a as [c' ind]. exists c', ind.
  split; auto. split; auto. eapply order_stage_inv; eauto.
Qed.

Lemma set_diag_base c a b d : same_base c (set_diag c a b d).
Proof. constructor; reflexivity. Qed.
Lemma set_ci_base c tw cis : same_base c (set_ci c tw cis).
Proof. constructor; reflexivity. Qed.

Lemma ci_stage_base L o s si la B xraw m W c1 : ci_stage L o s si la B xraw m W = Ok c1 ->
  same_base (coef_core (si_tref si) (si_lor si) la o s m W) c1.
Proof.
  unfold ci_stage. destruct (o_conf_int o); intros H.
  - inv_bind H. injection H as <-. apply set_ci_base.
  - injection H as <-. apply same_base_refl.
Qed.

Lemma diag_stage_base L o c1 c2 : diag_stage L o c1 = Ok c2 -> same_base c1 c2.
Proof.
  unfold diag_stage. destruct (o_nodiagn o); intros H.
  - injection H as <-. apply same_base_refl.
  - do 3 inv_bind H. injection H as <-. apply set_diag_base.
Qed.

Lemma reorder_base L c ord b : reorder L c ord = Ok b -> same_base c b.
Proof.
  intros H. apply reorder_inv in H. destruct H as (c' & ind & _ & Ha & Hc).
  apply apply_order_base in Ha. destruct Ha as [Ha _]. eapply same_base_trans; [|exact Ha].
  destruct Hc as [->|(_ & _ & pe & _ & ->)]; [apply same_base_refl|apply set_diag_base].
Qed.

Lemma solve_base L o s si la B xraw m W c1 c2 c :
  ci_stage L o s si la B xraw m W = Ok c1 -> diag_stage L o c1 = Ok c2 ->
  reorder L c2 (o_ordercnstit o) = Ok c ->
  same_base (coef_core (si_tref si) (si_lor si) la o s m W) c.
Proof.
  intros H1 H2 H3. eapply same_base_trans; [eapply ci_stage_base; eauto|].
  eapply same_base_trans; [eapply diag_stage_base; eauto|]. eapply reorder_base; eauto.
Qed.

(** the option record of the result is the one read from the processed options *)
Lemma solve_opt L t u v lat opts c : solve L t u v lat opts = Ok c ->
  exists compat si, process_opts opts (is2d v) = Ok compat /\
    slvinit (l_parse L) t u v lat (oget compat "epoch") = Ok si /\
    read_opt (slv_opts (is2d v) (si_equi si) compat) = Ok (c_opt c).
Proof.
  intros H. apply solve_inv in H. destruct H as
    [(compat & si & la & o & s & B & xraw & m & W & c1 & c2 & H1 & H2 & H3 & H4 & H5 & H6 & H7 & H8 & H9)].
  exists compat, si. split; auto. split; auto.
  rewrite (sb_opt _ _ (solve_base _ _ _ _ _ _ _ _ _ _ _ _ H7 H8 H9)). exact H4.
Qed.
