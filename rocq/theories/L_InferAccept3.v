(** Calls with inference that give a result. *)
From Coq Require Import Lia Lra Permutation.
From Verif Require Import M_Base M_Bunch M_Lib M_Tables M_Const M_Options M_Time M_Slvinit M_Harmonics M_Select M_Ellipse
  M_Robust M_Period M_Conf M_Diag M_Solve M_Recon S_Harm S_Tables S_Dict S_Options S_Order S_Basis S_Select S_Fit S_Ellipse S_Slv S_Recon S_Model S_Errors S_Perm S_Period S_Noise S_Nodal S_Accept S_InferAccept
  L_Base L_Options L_SolveInv L_OptSolve L_Slv L_Slv2 L_Tables L_Order L_Select L_Fit L_Align L_SelOrder L_Order2 L_Basis L_Harm L_Harm2 L_Harm3 L_Angle L_Ellipse L_Recon L_Recon2 L_Recon3 L_Recon4 L_Core
  L_Ellipse2 L_Nodal L_Nodal2 L_Model L_Lsq L_Model2 L_Model3 L_Model4 L_Model5 L_Model6 L_Model7 L_Model8 L_Noise2 L_Example L_Accept L_InferAccept L_InferAccept2.
Open Scope R_scope.
Open Scope string_scope.

Lemma turn_norm x : fst (turn x) * fst (turn x) + snd (turn x) * snd (turn x) = 1.
Proof. unfold turn. cbn [fst snd]. assert (H := sin2_cos2 (2 * PI * x)). unfold Rsqr in H. lra. Qed.
Lemma turn_mult_nz z x : z <> RtoC 0 -> Cmult z (turn x) <> RtoC 0.
Proof.
  intros NZ H. apply NZ. assert (T := turn_norm x). destruct z as [a b]. destruct (turn x) as [c d]. unfold Cmult in H. cbn [fst snd] in *.
  injection H as H1 H2. assert (a = 0) by nra. assert (b = 0) by nra. subst. reflexivity.
Qed.
Lemma wave_never g tref la y k e : (k < 146)%nat -> NodsatNone g = true \/ (k <> 117%nat /\ 0 < Rabs la <= 90 /\ forall jd, nodal la jd k <> RtoC 0) ->
  basis_at g tref la y k = Some e -> e <> RtoC 0.
Proof.
  intros Hk [HN|(K7 & HL & HN)] E.
  - unfold basis_at, F_at, U_at in E. rewrite HN in E. unfold wave in E. destruct (V_at g tref y k) as [w|]; [|discriminate]. injection E as <-.
    intros Z. injection Z as Z1 Z2. assert (H := sin2_cos2 (2 * PI * (0 + w))). unfold Rsqr in H. rewrite Rmult_1_l in Z1, Z2. rewrite Z1, Z2 in H. lra.
  - rewrite (basis_tidal g tref la y k Hk K7 (or_introl HL)) in E. injection E as <-. unfold tidal_basis. apply turn_mult_nz.
    destruct (NodsatNone g); [|apply HN]. intros Z. injection Z as Z. lra.
Qed.

Lemma accept_asked L t u v la opts sm I Rf ap : lstsq_shape L -> lstsq_returns L -> argsort_perm L ->
  inference_call L t u v opts sm I Rf ap -> evaluable la opts sm -> uncorrected opts \/ bystander L t u v la opts (I ++ Rf) ->
  (if ap then NoDup Rf else (forall x, setting opts "nodal" x -> falsy x) \/ Forall (lasting la) Rf) ->
  setting opts "conf_int" (PStr "none") -> exists c, solve L t u v (Some la) opts = Ok c.
Proof.
  intros SH RT AS DC EV BY AP CF. assert (U := ic_keys _ _ _ _ _ _ _ _ _ DC). set (cf := PStr "none") in *.
  assert (SO : setting opts "order_constit" (opt_value opts "order_constit")) by (apply setting_value; [exact U|cbn; tauto]).
  destruct (ic_order _ _ _ _ _ _ _ _ _ DC _ _ SO CF) as [OS OC].
  assert (IQ := ic_infer _ _ _ _ _ _ _ _ _ DC). change (match v with Some _ => true | None => false end) with (is2d v) in IQ.
  destruct (process_asked opts (is2d v) I Rf ap U (ic_known _ _ _ _ _ _ _ _ _ DC) IQ _ _ SO CF ltac:(auto)) as (compat & PO).
  { unfold order_ok. destruct OS as [->|[->|[E| ->]]]; auto. rewrite E in *. auto 10. }
  destruct (ic_samples _ _ _ _ _ _ _ _ _ DC) as (e & SE & SM). destruct (slv_ok _ _ _ _ _ _ la SM (ic_some _ _ _ _ _ _ _ _ _ DC)) as [si SV].
  destruct (ic_rayleigh _ _ _ _ _ _ _ _ _ DC) as [r SR].
  destruct (read_asked opts (is2d v) (si_equi si) compat r I Rf ap U PO IQ SR) as [o RO].
  destruct (used_options opts (is2d v) (si_equi si) U compat o PO RO) as
   (_ & _ & U1 & Ue & _ & U2 & U3 & U4 & U5 & U6 & Ul & U7 & _ & U8 & Ur & U9 & U10 & Uk & _ & Up & (d & U11 & U12) & U13 & _).
  assert (V : forall k x, In k (keys documented) -> setting opts k x -> opt_value opts k = x) by (intros; now apply setting_val).
  destruct (asked opts (is2d v) I Rf ap U IQ) as (d' & inf & A1 & A2 & A3 & A4 & A5 & A6).
  rewrite A1 in U11. apply Ok_inj in U11. subst d'. rewrite A2 in U12. apply Ok_inj in U12. symmetry in U12.
  rewrite (V "epoch" e) in Up by (try (cbn; tauto); exact SE).
  destruct (samples_slv _ _ _ _ _ _ _ _ SM SV) as (S1 & S2 & _).
  destruct (samples_base _ _ _ _ _ _ _ _ SM SV) as (xs & N1 & N2 & N3 & N4).
  assert (CX : exists x, o_cnstit o = x /\ setting opts "constit" x /\ (x = PStr "auto" \/ exists names, (forall n, In n names -> In n const_name) /\ x = PSeq (map PStr names))).
  { destruct (ic_constit _ _ _ _ _ _ _ _ _ DC) as [Hc|(names & Hn & Hc)].
    - exists (PStr "auto"). rewrite U5, (V "constit" (PStr "auto")) by (try (cbn; tauto); exact Hc). auto.
    - exists (PSeq (map PStr names)). rewrite U5, (V "constit" _) by (try (cbn; tauto); exact Hc). split; [reflexivity|]. split; [exact Hc|]. right. eauto. }
  destruct CX as (x & CX1 & CX2 & CX3).
  destruct (select_asked (si_tref si) (xdiv (Fin (o_rmin o)) (Fin (24 * si_lor si))) x inf (is2d v) CX3 A5) as [s HS].
  { rewrite A3, A4. apply (as_known _ _ _ _ _ IQ). }
  assert (SN : setting opts "nodal" (opt_value opts "nodal")) by (apply setting_value; [exact U|cbn; tauto]).
  assert (NF : falsy (opt_value opts "nodal") -> o_nodsatnone o = true).
  { intros Hf. apply truthy_falsy in Hf. rewrite U7, Hf. destruct (eq_str (opt_value opts "nodal") "linear_time") eqn:EL; [|reflexivity].
    exfalso. destruct (opt_value opts "nodal"); try discriminate EL. cbn in EL. apply String.eqb_eq in EL. subst. discriminate Hf. }
  rewrite <- Up in SV.
  assert (HB : bad_empty_index (flags_of o) s = false).
  { unfold bad_empty_index. destruct BY as [[E1 E2]|BY].
    - cbn [flags_of NodsatNone GwchNone]. rewrite (NF (E2 _ SN)), U8, (V "phase" (PStr "raw")) by (try (cbn; tauto); exact E1).
      cbn [eq_str String.eqb Ascii.eqb Bool.eqb andb negb]. apply Bool.andb_false_r.
    - assert (HS' := HS). rewrite <- CX1 in HS'.
      assert (NE := not_empty L t u v la opts (I ++ Rf) compat si o s inf U BY PO SV RO HS' ltac:(rewrite A3, A4; reflexivity)).
      destruct (Nat.eqb_spec (length (s_NRlind s)) 0); [contradiction|]. now rewrite Bool.andb_false_r. }
  assert (HL : truthy (opt_value opts "nodal") = true -> 0 < Rabs la <= 90).
  { intros ET. apply (ev_latitude _ _ _ EV _ SN). rewrite <- truthy_falsy. congruence. }
  assert (HN : o_nodsatnone o = true \/ slat la <> 0).
  { destruct (truthy (opt_value opts "nodal")) eqn:ET.
    - right. apply slat_nz. auto.
    - left. apply NF. now apply truthy_falsy. }
  assert (HT : o_notrend o = true \/ si_lor si <> 0).
  { assert (ST : setting opts "trend" (opt_value opts "trend")) by (apply setting_value; [exact U|cbn; tauto]).
    destruct (truthy (opt_value opts "trend")) eqn:ET; [|left; now rewrite U6]. right.
    destruct (ev_times _ _ _ EV _ ST) as (p & q & P1 & P2 & P3); [rewrite <- truthy_falsy; congruence|].
    assert (Ii : forall z, In z sm -> In (fst z) (if si_equi si then si_tin si else si_t si)).
    { intros z Hz. apply (in_map fst) in Hz. destruct (si_equi si); [rewrite N2; eapply kept_in; eauto|now rewrite S1]. }
    eapply lor_pos; [exact N4| | |exact P3]; auto. }
  assert (HA : inf_approx inf = true -> NoDup (inf_reference inf)).
  { rewrite A6, A4. intros ->. exact AP. }
  assert (HE : inf_approx inf = false -> forall y r e, In r (s_R s) -> basis_at (flags_of o) (si_tref si) la y (r_lind r) = Some e -> e <> RtoC 0).
  { rewrite A6. intros -> y rr ee Hr. assert (LO := sel_infer _ _ _ _ _ HS).
    destruct (in_mapM _ _ _ _ (sl_R _ _ _ _ _ LO) Hr) as (n & Hn & H1). apply (proj1 (proj2 (first_occ_spec _) n)) in Hn. rewrite A4 in Hn.
    destruct (one_ref_spec _ _ _ _ _ H1) as (_ & [B1 _] & _). cbn [map] in B1. injection B1 as B1.
    apply wave_never; [exact (names_lt _ _ B1)|]. destruct (truthy (opt_value opts "nodal")) eqn:ET.
    - right. destruct AP as [AP|AP].
      + apply AP, truthy_falsy in SN. congruence.
      + rewrite Forall_forall in AP. destruct (AP n Hn) as (k & K1 & K2 & K3). apply constit_index_iff in K1.
        assert (k = r_lind rr) by (eapply index_NoDup; eauto). subst k. auto.
    - left. apply NF. now apply truthy_falsy. }
  destruct (basis_asked (si_t si) (si_tref si) (si_lor si) la o s _ _ inf HS U12 HB HN HT HA HE) as (Bo & B & B1 & B2 & B3).
  assert (BD := finite_mat_dims _ _ _ _ B2 B3). rewrite S1, map_length in BD.
  destruct (RT B (map snd sm) PNone) as [[[[m q1] q2] q3] EQ].
  - intros ->. destruct BD as [BD _]. cbn in BD. apply (ic_some _ _ _ _ _ _ _ _ _ DC). now destruct sm.
  - now rewrite map_length, (proj1 BD).
  - intros a b Ha Hb. now rewrite (proj2 BD a Ha), (proj2 BD b Hb).
  - assert (FF : fit L (si_t si) (si_u si) (si_v si) (si_tref si) (si_lor si) la o s = Ok (B, map snd sm, m, map (fun _ => Fin 1) (si_t si))).
    { unfold fit. rewrite B1. cbn [bind]. rewrite B2. rewrite U10, (V "method" (PStr "ols")) by (try (cbn; tauto); apply DC).
      cbn [eq_str String.eqb Ascii.eqb Bool.eqb]. rewrite S2, EQ. reflexivity. }
    assert (LM : length m = ncoef o s).
    { destruct B as [|b B]; [destruct BD as [BD _]; cbn in BD; exfalso; apply (ic_some _ _ _ _ _ _ _ _ _ DC); now destruct sm|].
      rewrite (SH _ _ _ _ _ _ _ EQ b (or_introl eq_refl)). apply BD. now left. }
    assert (CI : o_conf_int o = negb (eq_str cf "none")) by (rewrite U2, (V "conf_int" cf) by (try (cbn; tauto); exact CF); reflexivity).
    eapply (finish_any L t u v la opts cf compat si o s B (map snd sm) m (map (fun _ => Fin 1) (si_t si))); eauto.
    + rewrite CX1, U12. exact HS.
    + rewrite U4, (V "conf_int" cf) by (try (cbn; tauto); exact CF). reflexivity.
    + destruct OS as [E|[E|[E|E]]]; rewrite E in U13; cbn [validate_order_constit] in U13.
      * injection U13 as U13. rewrite <- U13. split; [auto|discriminate].
      * destruct (negb (eq_str (opt_value opts "conf_int") "none")); injection U13 as U13; rewrite <- U13; split; auto; discriminate.
      * split; [|intros _; now apply OC]. destruct (negb (eq_str (opt_value opts "conf_int") "none")); [injection U13 as U13|discriminate]. auto.
      * destruct (negb (eq_str (opt_value opts "conf_int") "none")); injection U13 as U13; rewrite <- U13; split; auto; discriminate.
    + unfold ci_stage. rewrite CI. reflexivity.
Qed.
