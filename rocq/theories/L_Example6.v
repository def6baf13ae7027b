(** Runs with changed data, and with inference. *)
From Coq Require Import QArith Qreals Lia Lra Permutation.
From Verif Require Import M_Base M_Lib M_Tables M_Const M_Options M_Time M_Slvinit M_Harmonics M_Select M_Ellipse
  M_Robust M_Period M_Conf M_Diag M_Solve M_Recon S_Dict S_Options S_Slv S_Order S_Basis S_Tables S_Harm S_Select S_Fit S_Ellipse S_Recon S_Model
  L_Base L_Options L_SolveInv L_OptSolve L_Slv L_Slv2 L_Tables L_Order L_Select L_Fit L_Align L_SelOrder L_Order2 L_Order3 L_Basis L_Recon
  L_Harm L_Bands L_Example L_Model L_Model2 L_Model3 L_Model4 L_Model7 L_Model11 L_Model14 L_Model15 L_Example3 L_Example4 L_Example5.
Open Scope R_scope.
Open Scope string_scope.

Lemma tide_val p r x : tide p r x = RtoC (2 * (fst p * fst (ex_e x 47) - snd p * snd (ex_e x 47)) + r).
Proof. unfold tide, ex_row, mm. cbn [map app]. generalize (ex_e x 47). intros [a b]. destruct p. unfold cdot, csum, RtoC. apply injective_projections; cbn; ring. Qed.
Lemma scaled_sm c p r : m2_sm (Cmult (RtoC 2) p) (2 * r + 1) =
  map (fun x => (fst x, Cplus (Cplus (Cmult (RtoC 2) (snd x)) (RtoC 1)) (Cmult (RtoC (fst x - c)) (RtoC 0)))) (m2_sm p r).
Proof.
  unfold m2_sm. rewrite map_map. apply map_ext. intros x. cbn [fst snd]. apply f_equal. rewrite !tide_val. generalize (ex_e x 47). intros [e1 e2]. destruct p as [a b]. unfold RtoC. apply injective_projections; cbn; ring.
Qed.
Lemma negated_sm p r : m2_sm (Copp p) (- r) = map (fun x => (fst x, Copp (snd x))) (m2_sm p r).
Proof.
  unfold m2_sm. rewrite map_map. apply map_ext. intros x. cbn [fst snd]. apply f_equal. rewrite !tide_val. generalize (ex_e x 47). intros [e1 e2]. destruct p as [a b]. unfold RtoC. apply injective_projections; cbn; ring.
Qed.

(** ** inference *)
Definition et (x : R) : C := Cplus (ex_e x 47) (Cmult (ex_e x 56) half).
Definition inf_p (ap : bool) (x : R) : C := if ap then ex_e x 47 else et x.
Definition inf_row (ap : bool) (x : R) : list C := [inf_p ap x; Cconj (inf_p ap x); RtoC 1].
Definition inf_B (ap : bool) : cmat := map (inf_row ap) ext.
Lemma half_val : half = RtoC (/ 2).
Proof. unfold half, cis. replace (0 * PI / 180) with 0 by field. rewrite cos_0, sin_0. unfold RtoC. apply injective_projections; cbn; ring. Qed.
Lemma ex_wave_nz x f : ex_wave x f <> RtoC 0.
Proof.
  unfold ex_wave. rewrite Cmult_1_l. unfold cis. set (a := _ * _). intros H. assert (S := sin2_cos2 a). injection H as H1 H2. unfold Rsqr in S. rewrite H1, H2 in S. lra.
Qed.
Lemma etil_p_val e f h : e <> RtoC 0 -> etil_p (Some e) [Some f] [h] = Some (Cplus e (Cmult f h)).
Proof.
  intros H. unfold etil_p. cbn [combine map fst snd ocdiv]. destruct (Ceq_dec e (RtoC 0)); [contradiction|]. cbn. f_equal. field. exact H.
Qed.
Lemma etil_m_val e f h : e <> RtoC 0 -> etil_m (Some e) [Some f] [h] = Some (Cplus e (Cmult f (Cconj h))).
Proof.
  intros H. unfold etil_m. cbn [combine map fst snd ocdiv]. destruct (Ceq_dec e (RtoC 0)); [contradiction|]. cbn. f_equal. field. exact H.
Qed.
Lemma conj_conj z : Cconj (Cconj z) = z.
Proof. destruct z. unfold Cconj. cbn. f_equal. ring. Qed.
Lemma ut_raw fs lind g : NodsatNone g = true -> GwchNone g = true ->
  ut_E ext ex_tref fs lind 45 g = map (fun x => map Some (map (ex_wave x) fs)) ext.
Proof.
  intros H1 H2. unfold ut_E. rewrite H1, H2. cbn [andb]. unfold ones, ext. cbn [length repeat bcast map E_rows]. rewrite !E_row_raw. reflexivity.
Qed.
Lemma inf_basis ap o : o_nodsatnone o = true -> o_gwchnone o = true -> o_notrend o = true -> o_infer o = Some (m2_inf ap) ->
  basis ext ex_tref 4 45 o inf_sel = Ok (map (map Some) (inf_B ap)).
Proof.
  intros H1 H2 H3 H4. unfold basis, bad_empty_index. rewrite H3, H4.
  assert (G1 : NodsatNone (flags_of o) = true) by exact H1. assert (G2 : GwchNone (flags_of o) = true) by exact H2. rewrite G1, G2.
  cbn [andb negb bind]. rewrite andb_false_r. rewrite ut_raw by assumption.
  cbn [inf_sel s_NRfrq s_R mapM m2_inf inf_approx]. unfold ref_columns. rewrite !ut_raw by assumption. cbn [inf_ref r_frq r_Ifrq r_lind r_Ilind r_Rp r_Rm length Nat.eqb].
  destruct ap.
  - reflexivity.
  - cbn [bind fst snd]. unfold ext, first_col. cbn [map nth combine fst snd].
    rewrite !etil_p_val, !etil_m_val by apply ex_wave_nz. 
    unfold inf_B, inf_row, inf_p, et, ex_e, ext. cbn [map fold_left hcat combine app fst snd oconj option_map].
    rewrite !conj_conj. reflexivity.
Qed.

(** data: the real part of twice the (first) basis function, plus nothing *)
Definition m_half : list C := [RtoC (/ 2); RtoC (/ 2); RtoC 0].
Definition itide (ap : bool) (x : R) : C := cdot (inf_row ap x) m_half.
Definition inf_u (ap : bool) : pyarr (list xr) := four_u (itide ap 0) (itide ap 1) (itide ap 2) (itide ap 4).
Definition inf_sm (ap : bool) : list (R * C) := map (fun x => (x, itide ap x)) ext.
Definition inf_L : lib := tryL [m_half].
Lemma itide_val ap x : itide ap x = RtoC (fst (inf_p ap x)).
Proof. unfold itide, inf_row, m_half. generalize (inf_p ap x). intros [a b]. unfold cdot, csum, RtoC. apply injective_projections; cbn; field. Qed.
Record inf_fit (ap : bool) (c : coef) : Prop := {
  if_an : analysis inf_L ex_t (inf_u ap) None (Some 45) (inf_opts ap) (inf_sm ap) c;
  if_tw : o_twodim (c_opt c) = false; if_nn : o_nodsatnone (c_opt c) = true; if_gn : o_gwchnone (c_opt c) = true;
  if_nt : o_notrend (c_opt c) = true; if_in : o_infer (c_opt c) = Some (m2_inf ap); if_me : o_method (c_opt c) = PStr "ols";
  if_tref : c_reftime c = ex_tref; if_name : Permutation (c_name c) ["M2"; "S2"] }.
Lemma inf_run ap : exists c, inf_fit ap c.
Proof.
  destruct (four_run [m_half] false (itide ap 0) (itide ap 1) (itide ap 2) (itide ap 4) (inf_opts ap)) with (s := inf_sel) (inf := Some (m2_inf ap))
    (B := inf_B ap) (m := m_half) as (c & A & E1 & E2 & E3 & E4 & E5 & E6 & E7 & E8 & E9 & E10).
  - intros _ z Hz. repeat (destruct Hz as [<-|Hz]; [rewrite itide_val; reflexivity|]). destruct Hz.
  - apply plain_inf.
  - cbn. lia.
  - intros o. apply inf_basis.
  - now left.
  - intros m [<-|[]]. reflexivity.
  - unfold inf_B. intros row H. apply in_map_iff in H. destruct H as (x & <- & _). reflexivity.
  - reflexivity.
  - exists c. constructor; auto.
Qed.
Lemma inf_nodup ap c : inf_fit ap c -> NoDup (c_name c).
Proof.
  intros H. apply (Permutation_NoDup (Permutation_sym (if_name _ _ H))). repeat constructor; cbn; intuition discriminate.
Qed.

(** the approximate run: the fit is exact, the reconstruction is off by half the tide *)
Lemma approx_off c : inf_fit true c -> In (2, RtoC 1) (inf_sm true) /\ recon_u c 2 = Fin (3 / 2) /\
  yields_only c (not_inferred c) 2 (RtoC 1).
Proof.
  intros If. assert (A := if_an _ _ If). destruct (analysis_run _ _ _ _ _ _ _ _ A) as (_ & si & la & s & B & xraw & m & W & BH & St & Ex & Re).
  assert (E2 : forall i, ex_e 2 i = RtoC 1).
  { intros i. unfold ex_e. generalize (ex_f i). intros f. unfold ex_wave. rewrite Cmult_1_l. unfold cis, ex_tref, RtoC. replace ((0 + 24 * (2 - / 2 * (0 + 4)) * f) * (2 * PI)) with 0 by field.
    now rewrite cos_0, sin_0. }
  assert (T2 : itide true 2 = RtoC 1) by (rewrite itide_val; cbn [inf_p]; rewrite E2; reflexivity).
  assert (Tr := bh_tref _ _ _ _ _ _ _ _ _ _ _ _ _ _ BH). rewrite (if_tref _ _ If) in Tr.
  assert (Oc : o_cnstit (c_opt c) = PSeq [PStr "M2"]).
  { apply (set_constit _ _ _ _ _ _ (an_keys _ _ _ _ _ _ _ _ A) _ (an_solve _ _ _ _ _ _ _ _ A)). left. cbn. auto 20. }
  assert (S := bh_sel _ _ _ _ _ _ _ _ _ _ _ _ _ _ BH). rewrite Oc, (if_in _ _ If), <- Tr, inf_select in S. apply Ok_inj in S. subst s.
  destruct (run_rows _ _ _ _ _ _ _ _ _ _ _ _ _ _ BH) as (_ & _ & Hl). destruct (Hl (if_me _ _ If)) as (r & k & sg & Hl'). apply try_spec in Hl'.
  destruct Hl' as ([Hm|[]] & _ & Hl'). subst m.
  assert (Wf := bh_wf _ _ _ _ _ _ _ _ _ _ _ _ _ _ BH).
  assert (Mn := bh_mn _ _ _ _ _ _ _ _ _ _ _ _ _ _ BH). rewrite (if_nt _ _ If), (if_tw _ _ If) in Mn.
  assert (Pt := bh_tri _ _ _ _ _ _ _ _ _ _ _ _ _ _ BH (an_sorted _ _ _ _ _ _ _ _ A)). rewrite (if_tw _ _ If) in Pt.
  assert (Es : forall i, e_of c 2 i = Some (RtoC 1)) by (intros i; rewrite e_raw by (apply If); now rewrite E2).
  split; [|split].
  - unfold inf_sm. rewrite <- T2. apply (in_map (fun x => (x, itide true x))). cbn. auto.
  - destruct (recon_natural c 2 [RtoC 1; RtoC 1] ["M2"; "S2"] [47%nat; 56%nat] (map (visible false) (all_pm m_half inf_sel)) Wf Pt eq_refl eq_refl) as (Ru & _).
    + cbn [map]. rewrite !Es. reflexivity.
    + rewrite Ru. f_equal. unfold bgC. rewrite (if_nt _ _ If), Mn. unfold all_pm, inf_sel, inf_ref, m_half, ap_of, am_of, cslice. rewrite half_val. unfold hsum, csum, visible. cbn. field.
  - destruct (top_approx _ _ _ _ _ _ _ _ _ A (inf_nodup _ _ If) (if_in _ _ If) eq_refl) as (si' & la' & s' & B' & xraw' & m' & W' & F1 & F2 & F3 & F4 & F).
    rewrite (bh_lat _ _ _ _ _ _ _ _ _ _ _ _ _ _ BH) in F1. injection F1 as <-.
    assert (X := bh_slv _ _ _ _ _ _ _ _ _ _ _ _ _ _ BH). rewrite F2 in X. apply Ok_inj in X. subst si'.
    assert (X := bh_sel _ _ _ _ _ _ _ _ _ _ _ _ _ _ BH). rewrite F3 in X. apply Ok_inj in X. subst s'.
    assert (X := bh_fit _ _ _ _ _ _ _ _ _ _ _ _ _ _ BH). rewrite F4 in X. apply Ok_inj in X. injection X as -> -> -> ->.
    unfold model_fit in F. rewrite (if_tw _ _ If), Hl', Ex, map_map in F. unfold inf_sm, ext in F. cbn [map fst snd] in F. rewrite T2 in F.
    inversion F; subst. inversion H4; subst. inversion H6; subst. assumption.
Qed.

Lemma approx_witness : exists L t u v lat opts sm c, analysis L t u v lat opts sm c /\ approximate (c_opt c) = true /\
  lstsq_minimises L /\ o_method (c_opt c) = PStr "ols" /\
  In (2, RtoC 1) sm /\ yields_only c (not_inferred c) 2 (RtoC 1) /\ recon_u c 2 = Fin (3 / 2).
Proof.
  destruct (inf_run true) as [c If]. destruct (approx_off c If) as (A1 & A2 & A3).
  exists inf_L, ex_t, (inf_u true), None, (Some 45), (inf_opts true), (inf_sm true), c.
  split; [apply If|]. split; [unfold approximate; now rewrite (if_in _ _ If)|]. split; [apply try_minimises|]. split; [apply If|]. auto.
Qed.

(** another mean: a rival *)
Definition with_mean (c : coef) (x : R) : coef := with_pms c (pms c) (RtoC x) (RtoC 0).
Lemma m2_shifted L p r c : m2_fit L p r c -> exists c', rival c c' /\ c_mean c' <> c_mean c.
Proof.
  intros Mf. assert (Wf := analysis_wf _ _ _ _ _ _ _ _ (mf_an _ _ _ _ Mf)). destruct (wf_1d _ Wf (mf_tw _ _ _ _ Mf)) as (_ & _ & (m & Em) & _).
  exists (with_mean c (m + 1)). split.
  - constructor; try reflexivity.
    + apply with_pms_wf; auto. unfold pms. now rewrite map_length, seq_length.
    + unfold ties. cbn [with_mean with_pms c_opt]. rewrite (mf_in _ _ _ _ Mf). exact I.
  - unfold with_mean, with_pms. cbn [c_mean]. rewrite (mf_tw _ _ _ _ Mf), Em. cbn. intros [=]. lra.
Qed.

(** M2 with mean; doubled and shifted; negated *)
Definition sols : list (list C) := [mm (1, 2) 3; mm (Cmult (RtoC 2) (1, 2)) (2 * 3 + 1); mm (Copp (1, 2)) (- 3)].
Lemma sols_len m : In m sols -> length m = 3%nat.
Proof. intros [<- |[<- |[<- |[]]]]; reflexivity. Qed.

