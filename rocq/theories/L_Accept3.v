(** Calls of solve that cannot give a result. *)
From Coq Require Import Lia Lra Permutation.
From Verif Require Import M_Base M_Bunch M_Lib M_Tables M_Const M_Options M_Time M_Slvinit M_Harmonics M_Select M_Ellipse
  M_Robust M_Period M_Conf M_Diag M_Solve M_Recon S_Dict S_Options S_Order S_Basis S_Tables S_Harm S_Select S_Fit S_Ellipse S_Slv S_Recon S_Model S_Errors S_Perm S_Period S_Noise S_Accept
  L_Base L_Options L_SolveInv L_OptSolve L_Slv L_Slv2 L_Tables L_Order L_Select L_Fit L_Align L_SelOrder L_Order2 L_Basis L_Harm L_Harm2 L_Harm3 L_Angle L_Ellipse L_Recon L_Recon2 L_Recon3 L_Recon4 L_Core
  L_Ellipse2 L_Model L_Lsq L_Model2 L_Model3 L_Model4 L_Model5 L_Model6 L_Model7 L_Model8 L_Model9 L_Model10 L_Model11 L_Noise2 L_Perm L_Accept.
Open Scope R_scope.
Open Scope string_scope.

Lemma some_in {A} (l : list (option A)) r : all_some l = Some r -> ~ In None l.
Proof.
  revert r. induction l as [|x l IH]; intros r H; [intros []|]. cbn [all_some] in H. destruct x as [x|]; [|discriminate].
  destruct (all_some l) eqn:E; [|discriminate]. intros [K|K]; [discriminate|]. now apply (IH _ eq_refl).
Qed.
Lemma finite_rows {A} (Bo : list (list (option A))) B : finite_mat Bo = Some B -> forall row, In row Bo -> ~ In None row.
Proof.
  unfold finite_mat. intros H row Hr. destruct (all_some row) as [r|] eqn:E; [now apply some_in in E|].
  exfalso. apply (some_in _ _ H). apply in_map_iff. exists row. split; auto.
Qed.

Record parts (L : lib) (t : pyarr tarray) (u : pyarr (list xr)) (v : option (pyarr (list xr))) (la : R) (opts : dict pyval) (sm : list (R * C))
    (si : slv) (o : optr) (s : sel) : Prop := {
  pa_sel : ut_cnstitsel (si_tref si) (xdiv (Fin (o_rmin o)) (Fin (24 * si_lor si))) (opt_value opts "constit") None = Ok s;
  pa_good : bad_empty_index (flags_of o) s = false;
  pa_lint : o_nodsatlint o = eq_str (opt_value opts "nodal") "linear_time";
  pa_none : o_nodsatnone o = negb (eq_str (opt_value opts "nodal") "linear_time" || truthy (opt_value opts "nodal"));
  pa_raw : o_gwchnone o = eq_str (opt_value opts "phase") "raw";
  pa_trend : o_notrend o = negb (truthy (opt_value opts "trend"));
  pa_tin : forall l, times_of L opts t l -> si_tin si = l;
  pa_t : si_t si = map fst sm;
  pa_kept : kept (map fst sm) (si_tin si);
  pa_lor : ptp (if si_equi si then si_tin si else si_t si) = Ok (si_lor si);
  pa_row : forall x, In x sm -> ~ In None (model_row false (negb (o_notrend o)) (basis_at (flags_of o) (si_tref si) la (fst x)) (trend_entry (si_tref si) (si_lor si) (fst x)) s) }.

Lemma run_parts L t u v la opts sm c : documented_call L t u v opts sm -> solve L t u v (Some la) opts = Ok c ->
  exists si o s, parts L t u v la opts sm si o s.
Proof.
  intros DC H. assert (U := dc_keys _ _ _ _ _ _ DC).
  destruct (solve_inv _ _ _ _ _ _ _ H) as [(compat & si & la' & o & s & B & xraw & m & W & c1 & c2 & P1 & P2 & El & P4 & P5 & P6 & _)].
  injection El as <-. exists si, o, s.
  destruct (used_options opts (is2d v) (si_equi si) U compat o P1 P4) as
   (_ & _ & U1 & Ue & _ & U2 & U3 & U4 & U5 & U6 & Ul & U7 & _ & U8 & Ur & U9 & U10 & Uk & _ & Up & (inf & U11 & U12) & U13 & _).
  assert (V : forall k x, In k (keys documented) -> setting opts k x -> opt_value opts k = x) by (intros; now apply setting_val).
  rewrite (V "infer" PNone) in U11 by (try (cbn; tauto); apply DC). cbn [validate_infer is_none orb] in U11. injection U11 as <-. cbn [read_infer] in U12. injection U12 as U12. symmetry in U12.
  destruct (dc_samples _ _ _ _ _ _ DC) as (e & SE & SM).
  rewrite Up, (V "epoch" e) in P2 by (try (cbn; tauto); exact SE).
  destruct (samples_slv _ _ _ _ _ _ _ _ SM P2) as (S1 & S2 & _).
  destruct (samples_base _ _ _ _ _ _ _ _ SM P2) as (xs & N1 & N2 & N3 & N4).
  assert (SR : s_R s = []) by (eapply infer_none_R; [exact P5|exact U12]).
  assert (SLN := sel_lin_ok _ _ _ _ _ P5).
  rewrite U12, U5 in P5. unfold fit in P6. inv_bind P6. destruct (finite_mat a) as [B'|] eqn:FM; [|discriminate].
  assert (BG : bad_empty_index (flags_of o) s = false) by (unfold basis in Ha; destruct (bad_empty_index (flags_of o) s); [discriminate|reflexivity]).
  assert (RW := basis_rows _ _ _ _ _ _ _ SLN (fun _ => SR) Ha).
  constructor; try assumption; try (rewrite U7; symmetry; apply Bool.negb_orb).
  - intros l HL. eapply times_unique; [exact U| |exact HL]. exists e, xs. auto.
  - now rewrite N2.
  - intros x Hx. apply (finite_rows _ _ FM). rewrite RW. unfold is_approx. rewrite U12. apply in_map_iff. exists (fst x). split; [reflexivity|].
    rewrite S1. now apply in_map.
Qed.

Lemma one_time L t u v la opts sm c l : documented_call L t u v opts sm -> times_of L opts t l -> (forall a b, In a l -> In b l -> a = b) ->
  (exists x, setting opts "trend" x /\ ~ falsy x) -> solve L t u v (Some la) opts <> Ok c.
Proof.
  intros DC HL ONE (x & X1 & X2) H. destruct (run_parts _ _ _ _ _ _ _ _ DC H) as (si & o & s & P).
  assert (U := dc_keys _ _ _ _ _ _ DC).
  assert (NT : o_notrend o = false).
  { rewrite (pa_trend _ _ _ _ _ _ _ _ _ _ P), (setting_val _ "trend" _ U ltac:(cbn; tauto) X1). destruct (truthy x) eqn:E; [reflexivity|]. exfalso. apply X2. now apply truthy_falsy. }
  assert (L0 : si_lor si = 0).
  { destruct (ptp_spec _ _ (pa_lor _ _ _ _ _ _ _ _ _ _ P)) as (lo & hi & I1 & I2 & _ & ->).
    assert (I : forall z, In z (if si_equi si then si_tin si else si_t si) -> In z l).
    { intros z Hz. rewrite <- (pa_tin _ _ _ _ _ _ _ _ _ _ P _ HL). destruct (si_equi si); [exact Hz|]. eapply kept_in; [exact (pa_kept _ _ _ _ _ _ _ _ _ _ P)|].
      now rewrite <- (pa_t _ _ _ _ _ _ _ _ _ _ P). }
    rewrite (ONE hi lo) by auto. lra. }
  assert (NE := dc_some _ _ _ _ _ _ DC). destruct sm as [|y sm]; [congruence|].
  apply (pa_row _ _ _ _ _ _ _ _ _ _ P y (or_introl eq_refl)). rewrite NT. unfold model_row, trend_entry. rewrite L0. cbn [negb].
  destruct (Req_EM_T 0 0); [|congruence]. apply in_or_app. right. apply in_or_app. right. right. now left.
Qed.

Lemma equator L t u v opts sm c names n k : documented_call L t u v opts sm -> setting opts "constit" (PSeq (map PStr names)) -> In n names ->
  constit_index n = Ok k -> is_primary k -> diurnal_satellite k ->
  (exists x, setting opts "nodal" x /\ ~ falsy x) -> solve L t u v (Some 0) opts <> Ok c.
Proof.
  intros DC CN IN EK PR DI (x & X1 & X2) H. destruct (run_parts _ _ _ _ _ _ _ _ DC H) as (si & o & s & P).
  assert (U := dc_keys _ _ _ _ _ _ DC).
  assert (NN : o_nodsatnone o = false).
  { rewrite (pa_none _ _ _ _ _ _ _ _ _ _ P), (setting_val _ "nodal" _ U ltac:(cbn; tauto) X1). destruct (truthy x) eqn:E; [now rewrite Bool.orb_true_r|]. exfalso. apply X2. now apply truthy_falsy. }
  assert (IK : In k (s_NRlind s)).
  { assert (SL := pa_sel _ _ _ _ _ _ _ _ _ _ P). rewrite (setting_val _ "constit" _ U ltac:(cbn; tauto) CN) in SL. apply sel_none in SL. destruct SL as (SL & _).
    unfold initial_lind in SL. cbn [eq_str] in SL. rewrite as_names_seq in SL. cbn [bind] in SL. revert SL EK IN. clear. generalize (s_NRlind s). generalize constit_index.
    intros f l H E I. revert l H. induction names as [|n' names IH]; intros l H; [destruct I|]. cbn [mapM] in H. inv_bind H. inv_bind H. apply Ok_inj in H. subst l.
    destruct I as [->|I]; [left; rewrite E in Ha; now apply Ok_inj in Ha|right; now apply IH]. }
  assert (NE := dc_some _ _ _ _ _ _ DC). destruct sm as [|y sm]; [congruence|].
  apply (pa_row _ _ _ _ _ _ _ _ _ _ P y (or_introl eq_refl)). unfold model_row. apply in_or_app. left. apply in_or_app. left. apply in_or_app. left.
  apply in_map_iff. exists k. split; [|exact IK]. unfold basis_at, F_at. cbn [flags_of NodsatNone NodsatLint]. rewrite NN.
  destruct (o_nodsatlint o); rewrite (proj1 (F_equator _ k PR DI)); reflexivity.
Qed.

Lemma no_constituents L t u v la opts sm c : documented_call L t u v opts sm -> setting opts "constit" (PSeq []) ->
  (exists x, setting opts "nodal" x /\ ~ falsy x) \/ (exists x, setting opts "phase" x /\ x <> PStr "raw") -> solve L t u v (Some la) opts <> Ok c.
Proof.
  intros DC CN AL H. destruct (run_parts _ _ _ _ _ _ _ _ DC H) as (si & o & s & P).
  assert (U := dc_keys _ _ _ _ _ _ DC). assert (BG := pa_good _ _ _ _ _ _ _ _ _ _ P).
  assert (SL := pa_sel _ _ _ _ _ _ _ _ _ _ P). rewrite (setting_val _ "constit" _ U ltac:(cbn; tauto) CN) in SL.
  assert (SA : s_NRarr s = false). { revert SL. unfold ut_cnstitsel. intros SL. inv_bind SL. inv_bind SL. inv_bind SL. inv_bind SL. apply Ok_inj in SL. rewrite <- SL. reflexivity. }
  apply sel_none in SL. destruct SL as (SL & _). unfold initial_lind in SL. cbn [eq_str as_names map bind mapM] in SL.
  assert (SE : s_NRlind s = []) by (cbn in SL; now apply Ok_inj in SL).
  unfold bad_empty_index in BG. rewrite SA, SE in BG. cbn [negb length Nat.eqb andb flags_of NodsatNone GwchNone] in BG.
  apply Bool.negb_false_iff, andb_prop in BG. destruct BG as [B1 B2].
  destruct AL as [(x & X1 & X2)|(x & X1 & X2)].
  - rewrite (pa_none _ _ _ _ _ _ _ _ _ _ P), (setting_val _ "nodal" _ U ltac:(cbn; tauto) X1) in B1. apply Bool.negb_true_iff, Bool.orb_false_iff in B1. apply X2. apply truthy_falsy. apply B1.
  - rewrite (pa_raw _ _ _ _ _ _ _ _ _ _ P), (setting_val _ "phase" _ U ltac:(cbn; tauto) X1) in B2. apply X2. destruct x; try discriminate. cbn in B2. apply String.eqb_eq in B2. now subst.
Qed.
