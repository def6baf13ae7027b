(** solve and reconstruct depend on times and epoch only through the instants they denote. *)
From Coq Require Import Lia Lra.
From Verif Require Import M_Base M_Lib M_Bunch M_Options M_Time M_Slvinit M_Harmonics M_Select M_Ellipse
  M_Robust M_Period M_Conf M_Diag M_Solve M_Recon S_Dict S_Options S_Time L_Base L_Bunch L_Options L_SolveInv
  L_OptSolve L_Time.
Open Scope R_scope.
Open Scope string_scope.

Definition with_epoch (o : optr) (e : pyval) : optr :=
  {| o_twodim := o_twodim o; o_equi := o_equi o; o_conf_int := o_conf_int o; o_cnstit := o_cnstit o;
     o_notrend := o_notrend o; o_nodsatlint := o_nodsatlint o; o_nodsatnone := o_nodsatnone o;
     o_gwchlint := o_gwchlint o; o_gwchnone := o_gwchnone o; o_infer := o_infer o; o_rmin := o_rmin o;
     o_linci := o_linci o; o_white := o_white o; o_nrlzn := o_nrlzn o; o_nodiagn := o_nodiagn o;
     o_ordercnstit := o_ordercnstit o; o_method := o_method o; o_robust_kw := o_robust_kw o; o_epoch := e |}.

Lemma denotes_normalize parse t e xs : denotes parse t e xs -> normalize_time parse t e = Ok xs.
Proof.
  destruct 1; [reflexivity|apply matlab_numbers|now apply epoch_numbers|now apply date_numbers].
Qed.

Lemma ci_stage_epoch L o x s si la B xraw m W c1 :
  ci_stage L o s si la B xraw m W = Ok c1 ->
  ci_stage L (with_epoch o x) s si la B xraw m W = Ok (with_opt c1 (with_epoch o x)).
Proof.
  unfold ci_stage. destruct o. cbn. destruct o_conf_int.
  - match goal with |- bind ?a _ = _ -> bind ?b _ = _ => change b with a; destruct a; cbn [bind]; [|discriminate] end.
    intros H. injection H as <-. reflexivity.
  - intros H. injection H as <-. reflexivity.
Qed.

Lemma diag_stage_epoch L o x c1 c2 : diag_stage L o c1 = Ok c2 ->
  diag_stage L (with_epoch o x) (with_opt c1 (with_epoch o x)) = Ok (with_opt c2 (with_epoch o x)).
Proof.
  unfold diag_stage. cbn [with_epoch o_nodiagn]. destruct (o_nodiagn o).
  - intros H. injection H as <-. reflexivity.
  - change (diagn_of L (with_opt c1 (with_epoch o x))) with (diagn_of L c1).
    change (PE_of (with_opt c1 (with_epoch o x))) with (PE_of c1).
    change (SNR_of (with_opt c1 (with_epoch o x))) with (SNR_of c1).
    do 3 (match goal with |- bind ?a _ = _ -> _ => destruct a; cbn [bind]; [|discriminate] end).
    intros H. injection H as <-. reflexivity.
Qed.

Lemma fit_epoch L t u v tref lor la o s x :
  fit L t u v tref lor la (with_epoch o x) s = fit L t u v tref lor la o s.
Proof. reflexivity. Qed.

Lemma process_epoch opts tw compat x : unique_keys opts -> process_opts opts tw = Ok compat ->
  exists compat', process_opts (dset opts "epoch" x) tw = Ok compat' /\
    oget compat' "epoch" = x /\
    forall equi o, read_opt (slv_opts tw equi compat) = Ok o ->
      read_opt (slv_opts tw equi compat') = Ok (with_epoch o x).
Proof.
  intros Hu Hp. set (opts' := dset opts "epoch" x).
  assert (Hu' : unique_keys opts') by (apply unique_dset; exact Hu).
  assert (Hs : ~ In "strict" (keys opts)).
  { intros H. rewrite (process_strict _ _ H) in Hp. discriminate. }
  assert (Hs' : ~ In "strict" (keys opts')).
  { unfold opts'. intros H. apply dset_In_keys in H. destruct H as [H|H]; [discriminate|tauto]. }
  destruct (process_opts_eq opts tw Hu Hs) as (r & Hkeys & Ho & Heq).
  destruct (process_opts_eq opts' tw Hu' Hs') as (r' & Hkeys' & Ho' & Heq').
  rewrite Heq in Hp. rewrite Heq'. clear Heq Heq'.
  destruct (known_b opts) eqn:Ek; [|discriminate].
  assert (Ek' : known_b opts' = true).
  { destruct (known_b opts') eqn:E; auto. apply known_b_false in E. destruct E as (k & A & B).
    unfold opts' in A. apply dset_In_keys in A. destruct A as [->|A]; [simpl in B; tauto|].
    assert (known_b opts = false) by (apply known_b_false; exists k; auto). congruence. }
  rewrite Ek'. specialize (Ho eq_refl). specialize (Ho' Ek').
  assert (V : forall k, "epoch" <> k -> opt_value opts' k = opt_value opts k).
  { intros k Hk. now apply opt_value_dset. }
  rewrite !V by discriminate.
  destruct (validate_infer (opt_value opts "infer") tw) as [inf|] eqn:Einf; cbn [bind] in *; [|discriminate].
  destruct (validate_order_constit _ _) as [ord|] eqn:Eord; cbn [bind] in *; [|discriminate].
  set (n := dset (dset r "infer" inf) "order_constit" ord) in *.
  set (n' := dset (dset r' "infer" inf) "order_constit" ord) in *.
  assert (Hn : forall k, In k (keys documented) -> k <> "epoch" -> oget n' k = oget n k).
  { intros k K1 K2. unfold n, n'. rewrite !oget_dset. destruct (String.eqb k "order_constit"); auto.
    destruct (String.eqb k "infer"); auto. rewrite Ho, Ho' by auto. apply V. congruence. }
  assert (Hm : oget n' "epoch" = x).
  { unfold n'. rewrite !oget_dset. cbn [String.eqb Ascii.eqb Bool.eqb]. rewrite Ho' by (simpl; tauto).
    unfold opts', opt_value. now rewrite dget_dset_same. }
  clearbody n n'.
  assert (Hex : exists compat', translate_opts n' = Ok compat').
  { revert Hp. unfold translate_opts. rewrite (Hn "conf_int") by (first [discriminate|simpl; tauto]).
    destruct (eq_str (oget n "conf_int") "linear"); cbn [bind]; [eauto|].
    destruct (eq_str (oget n "conf_int") "MC"); cbn [bind]; [eauto|].
    destruct (eq_str (oget n "conf_int") "none"); cbn [bind]; [eauto|]. discriminate. }
  destruct Hex as [compat' Hp']. exists compat'. split; auto.
  destruct (translate_get _ _ Hp) as
    (X0 & X1 & X2 & X3 & X4 & X5 & X6 & X7 & X8 & X9 & X10 & X11 & X12 & X13 & X14 & X15 & X16 & X17 & X18).
  destruct (translate_get _ _ Hp') as
    (Y0 & Y1 & Y2 & Y3 & Y4 & Y5 & Y6 & Y7 & Y8 & Y9 & Y10 & Y11 & Y12 & Y13 & Y14 & Y15 & Y16 & Y17 & Y18).
  rewrite !Hn in Y2, Y3, Y4, Y5, Y6, Y7, Y8, Y9, Y10, Y11, Y12, Y13, Y14 by (first [discriminate|simpl; tauto]).
  split. { unfold oget. now rewrite Y16. }
  intros equi o Hr.
  assert (G : forall c, unique_keys c -> forall k, oget (slv_opts tw equi c) k =
     match dget c k with Some v => v | None => oget (slv_opts tw equi []) k end).
  { intros c Hc k. unfold oget. rewrite slv_get by exact Hc. now destruct (dget c k). }
  unfold read_opt in *. pose proof (G _ X1) as G1. pose proof (G _ Y1) as G2. clear G.
  rewrite !G1 in Hr. rewrite !G2. clear G1 G2.
  rewrite X2, X3, X4, X5, X6, X7, X8, X9, X10, X11, X12, X13, X14, X15, X16, X17, X18 in Hr.
  rewrite Y2, Y3, Y4, Y5, Y6, Y7, Y8, Y9, Y10, Y11, Y12, Y13, Y14, Y15, Y16, Y17, Y18.
  inv_bind Hr. rewrite Ha. cbn [bind]. clear Ha. inv_bind Hr. rewrite Ha. cbn [bind]. clear Ha.
  injection Hr as <-. unfold with_epoch. cbn. rewrite Hm.
  rewrite ?(Hn "robust_kw"), ?(Hn "method") by (first [discriminate|simpl; tauto]).
  reflexivity.
Qed.

Lemma slvinit_instants parse sh m1 m2 t1 t2 u v lat e1 e2 :
  normalize_time parse t1 e1 = normalize_time parse t2 e2 ->
  slvinit parse (NdArr sh t1 m1) u v lat e1 = slvinit parse (NdArr sh t2 m2) u v lat e2.
Proof. intros H. unfold slvinit. cbn [arr_data]. rewrite H. reflexivity. Qed.

Lemma epoch_lemma L sh m1 m2 t1 t2 u v lat e1 e2 opts c :
  unique_keys (("epoch", e1) :: opts) ->
  normalize_time (l_parse L) t1 e1 = normalize_time (l_parse L) t2 e2 ->
  solve L (NdArr sh t1 m1) u v lat (("epoch", e1) :: opts) = Ok c ->
  solve L (NdArr sh t2 m2) u v lat (("epoch", e2) :: opts) = Ok (with_opt c (with_epoch (c_opt c) e2)).
Proof.
  intros Hu Hn Hc. assert (He : o_epoch (c_opt c) = e1).
  { apply (set_epoch L _ _ _ _ _ Hu c Hc e1). apply setting_iff; [exact Hu|simpl; tauto|reflexivity]. }
  destruct (solve_inv _ _ _ _ _ _ _ Hc) as
    [(compat & si & la & o & s & B & xraw & m & W & c1 & c2 & P1 & P2 & -> & P4 & P5 & P6 & P7 & P8 & P9)].
  assert (Ho : c_opt c = o) by (rewrite (sb_opt _ _ (solve_base _ _ _ _ _ _ _ _ _ _ _ _ P7 P8 P9)); reflexivity).
  rewrite Ho in *.
  destruct (process_epoch _ _ _ e2 Hu P1) as (compat' & Q1 & Q2 & Q3).
  assert (He1 : oget compat "epoch" = e1).
  { destruct (process_epoch _ _ _ e1 Hu P1) as (compat'' & R1 & R2 & _).
    replace (dset (("epoch", e1) :: opts) "epoch" e1) with (("epoch", e1) :: opts) in R1 by reflexivity.
    congruence. }
  eapply solve_intro.
  - exact Q1.
  - rewrite Q2. rewrite <- P2, He1. symmetry. now apply slvinit_instants.
  - apply Q3. exact P4.
  - exact P5.
  - rewrite fit_epoch. exact P6.
  - apply ci_stage_epoch. exact P7.
  - apply diag_stage_epoch. exact P8.
  - cbn [with_epoch o_ordercnstit]. rewrite reorder_with_opt, P9. reflexivity.
Qed.

Lemma epoch_fail_lemma L sh m1 m2 t1 t2 u v lat e1 e2 opts :
  unique_keys (("epoch", e1) :: opts) ->
  normalize_time (l_parse L) t1 e1 = normalize_time (l_parse L) t2 e2 ->
  (exists c, solve L (NdArr sh t1 m1) u v lat (("epoch", e1) :: opts) = Ok c) <->
  (exists c, solve L (NdArr sh t2 m2) u v lat (("epoch", e2) :: opts) = Ok c).
Proof.
  intros Hu Hn. split; intros [c Hc]; eexists.
  - exact (epoch_lemma L sh m1 m2 t1 t2 u v lat e1 e2 opts c Hu Hn Hc).
  - exact (epoch_lemma L sh m2 m1 t2 t1 u v lat e2 e1 opts c Hu (eq_sym Hn) Hc).
Qed.

Lemma recon_lemma L t1 t2 nd c e1 e2 k a b :
  normalize_time (l_parse L) t1 e1 = normalize_time (l_parse L) t2 e2 ->
  forall r, reconstruct L t1 nd c e1 k a b = Ok r ->
  exists r', reconstruct L t2 nd c e2 k a b = Ok r' /\ ro_series r' = ro_series r.
Proof.
  intros H r. unfold reconstruct. destruct (Nat.ltb 1 nd); [discriminate|]. rewrite <- H.
  destruct (normalize_time (l_parse L) t1 e1); cbn [bind]; [|discriminate].
  destruct (reconstruct_core _ _ _ _ _ _); cbn [bind]; [|discriminate].
  intros E. injection E as <-. eexists. split; reflexivity.
Qed.

(** the options stored in the coefficients by another epoch do not matter for the reconstruction *)
Lemma recon_with_epoch L t nd c e' e k a b :
  reconstruct L t nd (with_opt c (with_epoch (c_opt c) e')) e k a b = reconstruct L t nd c e k a b.
Proof. reflexivity. Qed.

Lemma solve_kind_lemma L sh t m u v la e opts :
  unique_keys (("epoch", e) :: opts) -> e <> PNone -> (forall l, t <> TNum l) ->
  forall c, solve L (NdArr sh t m) u v la (("epoch", e) :: opts) <> Ok c.
Proof.
  intros Hu He Ht c Hc. destruct (solve_inv _ _ _ _ _ _ _ Hc) as
    [(compat & si & la' & o & s & B & xraw & mm & W & c1 & c2 & P1 & P2 & _)].
  destruct (process_epoch _ _ _ e Hu P1) as (compat'' & R1 & R2 & _).
  replace (dset (("epoch", e) :: opts) "epoch" e) with (("epoch", e) :: opts) in R1 by reflexivity.
  assert (E : oget compat "epoch" = e) by congruence. rewrite E in P2.
  unfold slvinit in P2. inv_bind P2. cbn [arr_data] in P2.
  rewrite non_numeric_lemma in P2 by auto. discriminate.
Qed.

Lemma recon_kind_lemma L t nd c e k a b :
  e <> PNone -> (forall l, t <> TNum l) -> reconstruct L t nd c e k a b = Err ValueError.
Proof.
  intros He Ht. unfold reconstruct. destruct (Nat.ltb 1 nd); auto. now rewrite non_numeric_lemma.
Qed.
