(** Analyses at the equator. *)
From Coq Require Import Lia Lra Permutation.
From Verif Require Import M_Base M_Lib M_Tables M_Const M_Options M_Time M_Slvinit M_Harmonics M_Select M_Ellipse M_Robust M_Period M_Conf M_Diag M_Solve M_Recon
  S_Dict S_Options S_Slv S_Order S_Basis S_Tables S_Harm S_Fit S_Recon S_Model S_Errors S_Perm S_Noise S_Accept S_Equator
  L_Base L_Options L_SolveInv L_OptSolve L_Slv L_Slv2 L_Tables L_Select L_Fit L_Align L_Order2 L_Harm2 L_Harm3 L_Model L_Model2 L_Model3 L_Model15 L_Recon L_Recon4 L_Range
  L_SelOrder L_Accept L_Accept2 L_Accept3 L_Model11 L_Usable L_Usable2 L_Equator.
Open Scope R_scope.
Open Scope string_scope.

Lemma mapM_in {A B} (f : A -> res B) l m : mapM f l = Ok m -> (forall n k, In n l -> f n = Ok k -> In k m) /\ forall k, In k m -> exists n, In n l /\ f n = Ok k.
Proof.
  revert m. induction l as [|a l IH]; intros m H; cbn [mapM] in H.
  - injection H as <-. split; [intros n k []|intros k []].
  - destruct (f a) as [b|] eqn:Ha; [|discriminate]. cbn [bind] in H. destruct (mapM f l) as [bs|] eqn:Hb; [|discriminate]. cbn [bind] in H. apply Ok_inj in H. subst m. destruct (IH _ eq_refl) as [I1 I2]. split.
    + intros n k [<-|Hn] E; [left; rewrite E in Ha; apply Ok_inj in Ha; now symmetry|right; eauto].
    + intros k [<-|Hk]; [exists a; split; [now left|exact Ha]|]. destruct (I2 k Hk) as (n & N1 & N2). exists n. split; [now right|exact N2].
Qed.
Lemma named_lind tref mr names s : ut_cnstitsel tref mr (PSeq (map PStr names)) None = Ok s ->
  (forall n k, In n names -> constit_index n = Ok k -> In k (s_NRlind s)) /\ forall k, In k (s_NRlind s) -> exists n, In n names /\ constit_index n = Ok k.
Proof.
  intros SL. apply sel_none in SL. destruct SL as (SL & _). unfold initial_lind in SL. cbn [eq_str] in SL. rewrite as_names_seq in SL. cbn [bind] in SL.
  exact (mapM_in constit_index names _ SL).
Qed.
Lemma basis_0 ts tref lor o s m x : ut_cnstitsel tref m x None = Ok s -> o_infer o = None ->
  bad_empty_index (flags_of o) s = false -> (forall k, In k (s_NRlind s) -> calm k) -> (o_notrend o = true \/ lor <> 0) ->
  exists Bo B, basis ts tref lor 0 o s = Ok Bo /\ finite_mat Bo = Some B /\ dims (length ts) (ncoef o s) Bo.
Proof.
  intros HS HI HB HN HT. assert (SR : s_R s = []) by (eapply infer_none_R; eauto). assert (SL := sel_lens_ok _ _ _ _ _ HS).
  assert (E : exists Bo, basis ts tref lor 0 o s = Ok Bo).
  { unfold basis. rewrite HB, HI. cbn [bind]. eauto. }
  destruct E as [Bo E]. exists Bo. assert (D := basis_dims _ _ _ _ _ _ _ SL (fun _ => SR) E).
  assert (RW := basis_rows _ _ _ _ _ _ _ (sel_lin_ok _ _ _ _ _ HS) (fun _ => SR) E).
  destruct (fin_rows (fun x => model_row (is_approx o) (negb (o_notrend o)) (basis_at (flags_of o) tref 0 x) (trend_entry tref lor x) s) ts) as [B FB].
  { intros y _. unfold model_row. rewrite SR. cbn [map]. rewrite !app_nil_r.
    destruct (all_map_some (basis_at (flags_of o) tref 0 y) (s_NRlind s)) as [es Es].
    { intros i Hi. apply calm_basis; [|right; exact (HN i Hi)]. apply (sel_known _ _ _ _ _ HS). rewrite (sn_lind _ _ (sel_lin_ok _ _ _ _ _ HS)). apply in_or_app. now left. }
    rewrite Es. assert (Cj : map oconj (map Some es) = map Some (map Cconj es)) by (rewrite !map_map; reflexivity). rewrite Cj.
    assert (Tr : exists te, (if negb (o_notrend o) then [trend_entry tref lor y] else []) = map Some te).
    { unfold trend_entry. destruct HT as [->|HT]; [exists []; reflexivity|]. destruct (negb (o_notrend o)); [|exists []; reflexivity].
      destruct (Req_EM_T lor 0); [contradiction|]. eexists [_]. reflexivity. }
    destruct Tr as [te ->]. exists ((es ++ map Cconj es) ++ [RtoC 1] ++ te)%list. now rewrite !map_app. }
  rewrite <- RW in FB. eauto.
Qed.
Lemma accept_0 L t u v opts sm names : lstsq_shape L -> lstsq_returns L -> argsort_perm L -> documented_call L t u v opts sm ->
  setting opts "constit" (PSeq (map PStr names)) -> names <> [] ->
  (forall x, setting opts "trend" x -> ~ falsy x -> exists s s', In s sm /\ In s' sm /\ fst s <> fst s') ->
  setting opts "conf_int" (PStr "none") -> (forall n k, In n names -> constit_index n = Ok k -> calm k) ->
  exists c, solve L t u v (Some 0) opts = Ok c.
Proof.
  intros SH RT AP DC CN NE TR CF HC. assert (U := dc_keys _ _ _ _ _ _ DC).
  assert (EV : evaluable 45 opts sm).
  { constructor; [intros; rewrite Rabs_pos_eq by lra; lra|exact TR|]. intros H. exfalso.
    assert (K := setting_unique opts "constit" _ _ U ltac:(cbn; tauto) CN H). destruct names; [congruence|discriminate K]. }
  destruct (run_base L t u v 45 opts sm _ DC EV CF ltac:(auto)) as (compat & si & o & s & B45 & X).
  destruct X as [ba_compat0 ba_slv0 ba_opt0 ba_sel0 ba_basis0 ba_raw0 ba_t0 ba_tin0 ba_kept0 ba_dims0 ba_infer0 ba_two0 ba_equi0 ba_ci0 ba_lin0 ba_diag0 ba_white0 ba_method0 ba_kw0 ba_order0].
  destruct ba_basis0 as (Bo & B1 & B2).
  destruct (used_options opts (is2d v) (si_equi si) U compat o ba_compat0 ba_opt0) as (_ & _ & _ & _ & _ & _ & _ & _ & U5 & _).
  assert (EC : o_cnstit o = PSeq (map PStr names)) by (rewrite U5; apply setting_val; [exact U|cbn; tauto|exact CN]).
  assert (SR : s_R s = []) by (eapply infer_none_R; [exact ba_sel0|exact ba_infer0]). assert (SLN := sel_lin_ok _ _ _ _ _ ba_sel0).
  assert (BG : bad_empty_index (flags_of o) s = false) by (unfold basis in B1; destruct (bad_empty_index (flags_of o) s); [discriminate|reflexivity]).
  assert (HT : o_notrend o = true \/ si_lor si <> 0).
  { destruct (o_notrend o) eqn:NT; [auto|]. right. intros L0. assert (RW := basis_rows _ _ _ _ _ _ _ SLN (fun _ => SR) B1).
    assert (NS := dc_some _ _ _ _ _ _ DC). destruct sm as [|y sm]; [congruence|].
    refine (finite_rows _ _ B2 (model_row (is_approx o) (negb (o_notrend o)) (basis_at (flags_of o) (si_tref si) 45 (fst y)) (trend_entry (si_tref si) (si_lor si) (fst y)) s) _ _).
    - rewrite RW. apply in_map_iff. exists (fst y). split; [reflexivity|]. rewrite ba_t0. now left.
    - rewrite NT. unfold model_row, trend_entry. rewrite L0. cbn [negb].
      destruct (Req_EM_T 0 0); [|congruence]. apply in_or_app. right. apply in_or_app. right. right. now left. }
  assert (SEL := ba_sel0). rewrite EC, ba_infer0 in SEL.
  destruct (named_lind _ _ _ _ SEL) as [_ NL].
  destruct (basis_0 (si_t si) (si_tref si) (si_lor si) o s _ _ SEL ba_infer0 BG) as (Bo' & B & E1 & E2 & E3); [|exact HT|].
  { intros k Hk. destruct (NL k Hk) as (n & N1 & N2). exact (HC n k N1 N2). }
  assert (BD := finite_mat_dims _ _ _ _ E2 E3). rewrite ba_t0, map_length in BD.
  destruct (RT B (map snd sm) PNone) as [[[[m q1] q2] q3] EQ].
  - intros ->. destruct BD as [BD _]. cbn in BD. apply (dc_some _ _ _ _ _ _ DC). now destruct sm.
  - now rewrite map_length, (proj1 BD).
  - intros a b Ha Hb. now rewrite (proj2 BD a Ha), (proj2 BD b Hb).
  - assert (F : fitted L t u v 0 opts sm (PStr "none") compat si o s B m (map (fun _ => Fin 1) (map fst sm))).
    { constructor; auto.
      + unfold fit. rewrite E1. cbn [bind]. rewrite E2, (ba_method0 _ (dc_method _ _ _ _ _ _ DC)). cbn [eq_str String.eqb Ascii.eqb Bool.eqb]. rewrite ba_raw0, EQ, ba_t0. reflexivity.
      + destruct B as [|b B]; [destruct BD as [BD _]; cbn in BD; exfalso; apply (dc_some _ _ _ _ _ _ DC); now destruct sm|].
        rewrite (SH _ _ _ _ _ _ _ EQ b (or_introl eq_refl)). apply BD. now left. }
    eapply finish; [exact AP|exact F|]. unfold ci_stage. rewrite (fi_ci _ _ _ _ _ _ _ _ _ _ _ _ _ _ _ F). reflexivity.
Qed.
Lemma equator_needs L t u v opts sm names c : documented_call L t u v opts sm -> setting opts "constit" (PSeq (map PStr names)) ->
  (exists x, setting opts "nodal" x /\ ~ falsy x) -> solve L t u v (Some 0) opts = Ok c -> forall n k, In n names -> constit_index n = Ok k -> calm k.
Proof.
  intros DC CN (x & X1 & X2) H n k IN EK. destruct (run_parts _ _ _ _ _ _ _ _ DC H) as (si & o & s & P). assert (U := dc_keys _ _ _ _ _ _ DC).
  assert (NN : o_nodsatnone o = false).
  { rewrite (pa_none _ _ _ _ _ _ _ _ _ _ P), (setting_val _ "nodal" _ U ltac:(cbn; tauto) X1). destruct (truthy x) eqn:E; [now rewrite Bool.orb_true_r|]. exfalso. apply X2. now apply truthy_falsy. }
  assert (SL := pa_sel _ _ _ _ _ _ _ _ _ _ P). assert (KN := sel_known _ _ _ _ _ SL). assert (SLN := sel_lin_ok _ _ _ _ _ SL). rewrite (setting_val _ "constit" _ U ltac:(cbn; tauto) CN) in SL.
  assert (IK := proj1 (named_lind _ _ _ _ SL) n k IN EK). assert (NE := dc_some _ _ _ _ _ _ DC). destruct sm as [|y sm]; [congruence|].
  assert (PR := pa_row _ _ _ _ _ _ _ _ _ _ P y (or_introl eq_refl)).
  apply (basis_calm (flags_of o) (si_tref si) (fst y)); [|exact NN|].
  - apply KN. rewrite (sn_lind _ _ SLN). apply in_or_app. now left.
  - destruct (basis_at (flags_of o) (si_tref si) 0 (fst y) k) as [e|] eqn:E; [eauto|]. exfalso. apply PR. unfold model_row.
    apply in_or_app. left. apply in_or_app. left. apply in_or_app. left. rewrite <- E. now apply in_map.
Qed.
Lemma equator_iff L t u v opts sm names : lstsq_shape L -> lstsq_returns L -> argsort_perm L -> documented_call L t u v opts sm ->
  setting opts "constit" (PSeq (map PStr names)) -> names <> [] -> (exists x, setting opts "nodal" x /\ ~ falsy x) ->
  (forall x, setting opts "trend" x -> ~ falsy x -> exists s s', In s sm /\ In s' sm /\ fst s <> fst s') ->
  setting opts "conf_int" (PStr "none") ->
  ((exists c, solve L t u v (Some 0) opts = Ok c) <-> forall n k, In n names -> constit_index n = Ok k -> calm k).
Proof.
  intros SH RT AP DC CN NE ND TR CF. split.
  - intros [c H]. exact (equator_needs L t u v opts sm names c DC CN ND H).
  - exact (accept_0 L t u v opts sm names SH RT AP DC CN NE TR CF).
Qed.
(** whatever the selection: results at the equator have calm constituents only *)
Lemma equator_calm L t u v opts sm c : analysis L t u v (Some 0) opts sm c -> approximate (c_opt c) = false ->
  o_nodsatnone (c_opt c) = false -> forall k, In k (c_lind c) -> calm k.
Proof.
  intros AN AP NN k Hk. assert (W := analysis_wf _ _ _ _ _ _ _ _ AN).
  destruct (sampled_tides _ _ _ _ _ _ _ _ AN AP) as (x & p & HT).
  destruct (In_nth _ _ 0%nat Hk) as (i & Hi & EK). rewrite (proj1 (proj2 (wf_aligned c W))) in Hi.
  assert (HR : In (crow_of c i) (rows c)) by (unfold rows; apply in_map; apply in_seq; lia).
  destruct (tides_each _ _ _ _ HT _ HR) as [q Hq]. rewrite tide_row in Hq by auto. rewrite EK in Hq.
  assert (EL : c_lat c = 0).
  { destruct (analysis_run _ _ _ _ _ _ _ _ AN) as (_ & si & la & s & B & xr & m & Wt & BH & _).
    rewrite (bh_la _ _ _ _ _ _ _ _ _ _ _ _ _ _ BH). assert (E := bh_lat _ _ _ _ _ _ _ _ _ _ _ _ _ _ BH). now injection E. }
  rewrite EL in Hq. apply (basis_calm (flags_of (c_opt c)) (c_reftime c) x k); [exact (analysis_known _ _ _ _ _ _ _ _ AN k Hk)|exact NN|].
  destruct (basis_at (flags_of (c_opt c)) (c_reftime c) 0 x k); [eauto|discriminate].
Qed.
