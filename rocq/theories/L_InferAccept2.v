(** Calls with inference that give a result: the run. *)
From Coq Require Import Lia Lra Permutation.
From Verif Require Import M_Base M_Bunch M_Lib M_Tables M_Const M_Options M_Time M_Slvinit M_Harmonics M_Select M_Ellipse
  M_Robust M_Period M_Conf M_Diag M_Solve M_Recon S_Harm S_Tables S_Dict S_Options S_Order S_Basis S_Select S_Fit S_Ellipse S_Slv S_Recon S_Model S_Errors S_Perm S_Period S_Noise S_Nodal S_Accept S_InferAccept
  L_Base L_Options L_SolveInv L_OptSolve L_Slv L_Slv2 L_Tables L_Order L_Select L_Fit L_Align L_SelOrder L_Order2 L_Basis L_Harm L_Harm2 L_Harm3 L_Angle L_Ellipse L_Recon L_Recon2 L_Recon3 L_Recon4 L_Core
  L_Ellipse2 L_Nodal L_Nodal2 L_Model L_Lsq L_Model2 L_Model3 L_Model4 L_Model5 L_Model6 L_Model7 L_Model8 L_Noise2 L_Example L_Accept L_InferAccept.
Open Scope R_scope.
Open Scope string_scope.

(** from the confidence intervals to the result *)
Lemma finish_any L t u v la opts cf compat si o s B y m W c1 : argsort_perm L ->
  process_opts opts (is2d v) = Ok compat -> slvinit (l_parse L) t u v (Some la) (oget compat "epoch") = Ok si ->
  read_opt (slv_opts (is2d v) (si_equi si) compat) = Ok o ->
  ut_cnstitsel (si_tref si) (xdiv (Fin (o_rmin o)) (Fin (24 * si_lor si))) (o_cnstit o) (o_infer o) = Ok s ->
  fit L (si_t si) (si_u si) (si_v si) (si_tref si) (si_lor si) la o s = Ok (B, y, m, W) -> length m = ncoef o s ->
  o_conf_int o = negb (eq_str cf "none") -> o_nodiagn o = eq_str cf "none" ->
  (o_ordercnstit o = PStr "PE" \/ o_ordercnstit o = PStr "SNR" \/ o_ordercnstit o = PStr "frequency") /\ (o_ordercnstit o = PStr "SNR" -> cf <> PStr "none") ->
  ci_stage L o s si la B y m W = Ok c1 -> exists c, solve L t u v (Some la) opts = Ok c.
Proof.
  intros AP FC FS FO FSEL FFIT FM FCI FD FORD C1. assert (SL := sel_lens_ok _ _ _ _ _ FSEL).
  assert (Hn := infer_none_R _ _ _ _ _ FSEL).
  assert (Hm : (2 * s_nNR s + 2 * s_nR s <= length m)%nat).
  { rewrite FM. unfold ncoef. lia. }
  destruct (ci_stage_aligned _ _ _ _ _ _ _ _ _ _ SL Hm Hn C1) as (A1 & N1 & N2 & N3 & NP & NS & ND).
  set (c0 := coef_core (si_tref si) (si_lor si) la o s m W).
  assert (EN : exists E, energies c1 = Ok E).
  { revert C1. unfold ci_stage. fold c0. destruct (o_conf_int o); intros C1; [inv_bind C1|]; apply Ok_inj in C1; rewrite <- C1.
    - apply ci_energies, core_energies.
    - apply core_energies. }
  assert (PEo : exists pe, PE_of c1 = Ok pe) by (destruct EN as [E EN]; unfold PE_of; rewrite EN; cbn [bind]; eauto).
  assert (D : exists c2, diag_stage L o c1 = Ok c2 /\ ((o_nodiagn o = true /\ c2 = c1) \/ exists pe snr, c_PE c2 = Some pe /\ c_SNR c2 = Some snr)).
  { unfold diag_stage. destruct (o_nodiagn o) eqn:ED; [exists c1; auto|].
    assert (EC : o_conf_int o = true). { rewrite FCI. destruct (eq_str cf "none") eqn:Q; [congruence|reflexivity]. }
    assert (NO : exists N, noises c1 = Ok N).
    { revert C1. unfold ci_stage. rewrite EC. intros C1. inv_bind C1. apply Ok_inj in C1. rewrite <- C1. apply ci_noises. }
    destruct PEo as [pe PEo]. destruct EN as [E EN]. destruct NO as [N NO].
    assert (SO : exists snr, SNR_of c1 = Ok snr) by (unfold SNR_of; rewrite EN, NO; cbn [bind]; eauto). destruct SO as [snr SO].
    assert (DO : exists d, diagn_of L c1 = Ok d).
    { unfold diagn_of. rewrite PEo, SO. cbn [bind]. assert (LP := PE_len _ _ A1 PEo). assert (LS := SNR_len _ _ A1 SO).
      destruct (take_idx_ok (c_name c1) (rev (l_argsort L pe))) as [r1 ->]; [intros i; apply perm_lt_rev; auto|]. cbn [bind].
      destruct (take_idx_ok pe (rev (l_argsort L pe))) as [r2 ->]; [intros i; apply perm_lt_rev; auto|]. cbn [bind].
      destruct (take_idx_ok snr (rev (l_argsort L pe))) as [r3 ->]; [intros i; apply perm_lt_rev; auto; congruence|]. cbn [bind]. eauto. }
    destruct DO as [d DO]. rewrite DO, PEo, SO. cbn [bind]. eexists. split; [reflexivity|]. right. exists pe, snr. split; reflexivity. }
  destruct D as (c2 & D & K). destruct (diag_stage_aligned _ _ _ _ A1 D) as (A2 & M1 & M2 & M3).
  destruct FORD as [O1 O2].
  assert (OS : exists c' ind, order_stage L c2 (o_ordercnstit o) = Ok (c', ind) /\ aligned c' /\ c_name c' = c_name c2).
  { unfold order_stage. destruct O1 as [E|[E|E]]; rewrite E; cbn [eq_str String.eqb Ascii.eqb Bool.eqb].
    - destruct K as [[_ ->]|(pe & snr & EPE & _)].
      + rewrite NP. destruct PEo as [pe PEo]. rewrite PEo. cbn [bind]. cbn [set_diag c_PE key bind]. eexists _, _. split; [reflexivity|]. split; [|reflexivity].
        apply set_diag_aligned; auto; [|rewrite NS; apply None_len]. apply Some_len. eapply PE_len; eauto.
      + rewrite EPE. cbn [bind]. rewrite EPE. cbn [key bind]. eauto.
    - destruct K as [[K _]|(pe & snr & _ & ->)].
      + exfalso. apply (O2 E). rewrite FD in K. destruct cf; try discriminate K. cbn in K. apply String.eqb_eq in K. now subst.
      + cbn [key bind]. eauto.
    - eauto. }
  destruct OS as (c' & ind & OS & A3 & N3').
  assert (P := order_perm _ _ _ _ _ AP A2 O1 OS).
  destruct (apply_order_ok c' ind A3) as [c Hc].
  { intros i Hi. apply (Permutation_in _ P) in Hi. apply in_seq in Hi. rewrite N3'. lia. }
  exists c. eapply (solve_intro L t u v la opts compat si o s B y m W c1 c2 c); eauto.
  rewrite reorder_eq, OS. exact Hc.
Qed.


(** ** a constituent that takes no part *)
Lemma part_out tref m x inf s l0 i n : ut_cnstitsel tref m x (Some inf) = Ok s -> initial_lind m x = Ok l0 -> In i l0 -> nth_error const_name i = Some n ->
  ~ In n (inf_inferred inf ++ inf_reference inf) -> length (s_NRlind s) <> 0%nat.
Proof.
  intros H H0 Hi Hn NI. apply sel_infer in H. destruct (sl_NR _ _ _ _ _ H) as (l1 & ri & E1 & E2 & E3).
  rewrite H0 in E1. apply Ok_inj in E1. subst l1.
  assert (X : In i (s_NRlind s)).
  { rewrite E3. apply filter_In. split; [exact Hi|]. destruct (existsb (Nat.eqb i) ri) eqn:EX; [|reflexivity]. exfalso. apply NI.
    apply existsb_exists in EX. destruct EX as (j & Hj & Ej). apply Nat.eqb_eq in Ej. subst j.
    assert (Y := in_map (fun i => nth_error const_name i) _ _ Hj). cbv beta in Y. rewrite (mapM_index _ _ E2), Hn in Y.
    apply in_map_iff in Y. destruct Y as (n' & E & Hn'). injection E as <-. exact Hn'. }
  intros E. destruct (s_NRlind s); [destruct X|discriminate].
Qed.
Lemma order_names c ind b : apply_order c ind = Ok b -> forall i, In i (c_name b) -> In i (c_name c).
Proof.
  unfold apply_order. intros H. do 15 inv_bind H. injection H as <-. cbn. intros i Hi.
  match goal with T : take_idx (c_name c) ind = Ok ?x |- _ => apply take_idx_map in T;
    assert (X : In (Some i) (map Some x)) by (now apply in_map); rewrite <- T in X end.
  apply in_map_iff in X. destruct X as (j & E & _). exact (nth_error_In _ _ E).
Qed.
Lemma reorder_names L c2 x c n : reorder L c2 x = Ok c -> In n (c_name c) -> In n (c_name c2).
Proof.
  intros H Hn. destruct (reorder_inv _ _ _ _ H) as (c' & ind & H1 & H2 & H3). apply (order_names _ _ _ H2) in Hn.
  destruct H3 as [->|(_ & _ & pe & _ & ->)]; exact Hn.
Qed.
Lemma diag_names L o c c2 : diag_stage L o c = Ok c2 -> c_name c2 = c_name c.
Proof. unfold diag_stage. destruct (o_nodiagn o); intros H; [now apply Ok_inj in H; subst|]. do 3 inv_bind H. apply Ok_inj in H. now subst. Qed.
Lemma ci_names L o s si la B y m W c : ci_stage L o s si la B y m W = Ok c -> c_name c = s_name s.
Proof. unfold ci_stage. destruct (o_conf_int o); intros H; [inv_bind H|]; apply Ok_inj in H; now subst. Qed.

Lemma not_empty L t u v la opts part compat si o s inf : unique_keys opts -> bystander L t u v la opts part ->
  process_opts opts (is2d v) = Ok compat -> slvinit (l_parse L) t u v (Some la) (oget compat "epoch") = Ok si ->
  read_opt (slv_opts (is2d v) (si_equi si) compat) = Ok o ->
  ut_cnstitsel (si_tref si) (xdiv (Fin (o_rmin o)) (Fin (24 * si_lor si))) (o_cnstit o) (Some inf) = Ok s ->
  part = (inf_inferred inf ++ inf_reference inf)%list -> length (s_NRlind s) <> 0%nat.
Proof.
  intros U BY PO SV RO HS EP.
  destruct (used_options opts (is2d v) (si_equi si) U compat o PO RO) as
   (_ & _ & _ & _ & _ & _ & _ & _ & U5 & _ & _ & _ & _ & _ & Ur & _ & _ & _ & _ & Up & _).
  destruct BY as [(names & n & HC & Hn & NI)|(opts0 & c0 & n & H0 & U0 & I0 & SO & Hn & NI)]; rewrite EP in NI.
  - assert (EC : o_cnstit o = PSeq (map PStr names)) by (rewrite U5; apply setting_val; [exact U|cbn; tauto|exact HC]).
    assert (LO := sel_infer _ _ _ _ _ HS). destruct (sl_NR _ _ _ _ _ LO) as (l0 & ri & E1 & _ & _).
    assert (E1' := E1). rewrite EC in E1. unfold initial_lind in E1. cbn [eq_str] in E1. rewrite as_names_seq in E1. cbn [bind] in E1. apply mapM_index in E1.
    assert (Y := in_map Some _ _ Hn). rewrite <- E1 in Y. apply in_map_iff in Y. destruct Y as (i & Ei & Hi).
    exact (part_out _ _ _ _ _ _ _ _ HS E1' Hi Ei NI).
  - destruct (solve_inv _ _ _ _ _ _ _ H0) as [(compat0 & si0 & la0 & o0 & s0 & B0 & y0 & m0 & W0 & c1 & c2 & P1 & P2 & P3 & P4 & P5 & P6 & P7 & P8 & P9)].
    destruct (used_options opts0 (is2d v) (si_equi si0) U0 compat0 o0 P1 P4) as
     (_ & _ & _ & _ & _ & _ & _ & _ & V5 & _ & _ & _ & _ & _ & Vr & _ & _ & _ & _ & Vp & (inf0 & V11 & V12) & _).
    assert (V : forall k, k = "constit" \/ k = "Rayleigh_min" \/ k = "epoch" -> opt_value opts0 k = opt_value opts k).
    { intros k Hk. assert (In k (keys documented)) by (destruct Hk as [->|[->| ->]]; cbn; tauto). apply setting_val; auto. apply SO; auto. now apply setting_value. }
    rewrite (setting_val opts0 "infer" PNone U0 ltac:(cbn; tauto) I0) in V11. cbn [validate_infer is_none orb] in V11. injection V11 as <-. cbn [read_infer] in V12. injection V12 as V12. symmetry in V12.
    assert (EE : oget compat0 "epoch" = oget compat "epoch") by (rewrite Vp, Up; apply V; auto).
    rewrite EE, SV in P2. apply Ok_inj in P2. subst si0.
    assert (ER : o_rmin o0 = o_rmin o) by (rewrite (V "Rayleigh_min") in Vr by auto; rewrite Vr in Ur; now apply Ok_inj in Ur).
    assert (ECc : o_cnstit o0 = o_cnstit o) by (rewrite V5, U5; apply V; auto).
    rewrite ER, ECc, V12 in P5.
    assert (HN : In n (s_name s0)).
    { rewrite <- (ci_names _ _ _ _ _ _ _ _ _ _ P7), <- (diag_names _ _ _ _ P8). exact (reorder_names _ _ _ _ _ P9 Hn). }
    apply sel_none in P5. destruct P5 as (Q1 & [Q2 _] & _ & Q3 & _). rewrite Q3 in HN.
    assert (Y := in_map Some _ _ HN). rewrite <- Q2 in Y. apply in_map_iff in Y. destruct Y as (i & Ei & Hi).
    exact (part_out _ _ _ _ _ _ _ _ HS Q1 Hi Ei NI).
Qed.
