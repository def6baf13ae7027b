(** Identifiability of M2 from four samples; the runs with inference. *)
From Coq Require Import QArith Qreals Lia Lra Permutation.
From Verif Require Import M_Base M_Lib M_Tables M_Const M_Options M_Time M_Slvinit M_Harmonics M_Select M_Ellipse
  M_Robust M_Period M_Conf M_Diag M_Solve M_Recon S_Dict S_Options S_Slv S_Order S_Basis S_Tables S_Harm S_Select S_Fit S_Ellipse S_Recon S_Model
  L_Base L_Options L_SolveInv L_OptSolve L_Slv L_Slv2 L_Tables L_Order L_Select L_Fit L_Align L_SelOrder L_Order2 L_Order3 L_Basis L_Recon
  L_Harm L_Bands L_Example L_Model L_Model2 L_Model3 L_Model4 L_Model11 L_Model14 L_Model15 L_Example3 L_Example4.
Open Scope R_scope.
Open Scope string_scope.

Definition al : R := 2 * (24 * ex_f 47) * (2 * PI).
Lemma sin_al : sin al <> 0.
Proof.
  intros H. apply sin_eq_0_0 in H. destruct H as [k Hk]. unfold al in Hk. assert (P := PI_RGT_0). assert (F := M2_freq).
  assert (E : 96 * ex_f 47 = IZR k) by (apply (Rmult_eq_reg_r PI); [lra|lra]).
  assert (7 < IZR k < 8) by lra. destruct H as [H1 H2]. apply lt_IZR in H1. apply lt_IZR in H2. lia.
Qed.
Lemma ex_e_val x : ex_e x 47 = cis ((x - 2) / 2 * al).
Proof.
  unfold ex_e, ex_wave, al, ex_tref. rewrite Cmult_1_l. f_equal. field.
Qed.
Lemma cos_sin_one : cos al <> 1.
Proof. intros H. apply sin_al. assert (S := sin2_cos2 al). unfold Rsqr in S. rewrite H in S. nra. Qed.

Lemma one_zero (a b m : R) : (forall x, In x ext -> 2 * (a * cos ((x - 2) / 2 * al) - b * sin ((x - 2) / 2 * al)) + m = 0) -> a = 0 /\ b = 0 /\ m = 0.
Proof.
  intros H. assert (H0 := H 0 ltac:(cbn; auto)). assert (H2 := H 2 ltac:(cbn; auto)). assert (H4 := H 4 ltac:(cbn; auto 10)).
  replace ((0 - 2) / 2 * al) with (- al) in H0 by field. replace ((2 - 2) / 2 * al) with 0 in H2 by field. replace ((4 - 2) / 2 * al) with al in H4 by field.
  rewrite cos_neg, sin_neg in H0. rewrite cos_0, sin_0 in H2. assert (S := sin_al). assert (C := cos_sin_one).
  assert (b = 0) by (apply (Rmult_eq_reg_r (sin al)); [lra|exact S]).
  assert (a = 0) by (apply (Rmult_eq_reg_r (cos al - 1)); [lra|lra]). lra.
Qed.
Lemma one_pms c : c_name c = ["M2"] -> pms c = [pm_of c 0].
Proof. intros E. unfold pms. rewrite E. reflexivity. Qed.
Lemma m2_identifiable L p r c : m2_fit L p r c -> identifiable c ext.
Proof.
  intros Mf c0 Rv H. assert (Wf := rv_wf _ _ Rv). assert (Eo := rv_opt _ _ Rv). assert (En := rv_name _ _ Rv). rewrite (mf_name _ _ _ _ Mf) in En.
  assert (El := rv_lind _ _ Rv). rewrite (mf_lind _ _ _ _ Mf) in El.
  assert (Et := rv_reftime _ _ Rv). rewrite (mf_tref _ _ _ _ Mf) in Et.
  assert (Tw : o_twodim (c_opt c0) = false) by (rewrite Eo; apply Mf). assert (Nt : o_notrend (c_opt c0) = true) by (rewrite Eo; apply Mf).
  assert (Pc : snd (pm_of c0 0) = Cconj (fst (pm_of c0 0))) by (apply (pms_conj c0); auto; rewrite (one_pms _ En); now left).
  destruct (wf_1d _ Wf Tw) as (_ & _ & (m & Em) & _).
  assert (Z : fst (fst (pm_of c0 0)) = 0 /\ snd (fst (pm_of c0 0)) = 0 /\ m = 0).
  { apply one_zero. intros x Hx. destruct (H x Hx) as [Hu _].
    assert (Es : map (e_of c0 x) (c_lind c0) = map Some [ex_e x 47]).
    { rewrite El. cbn [map]. f_equal. apply e_raw; auto; rewrite Eo; apply Mf. }
    destruct (recon_vals c0 x [ex_e x 47] Wf Es) as (R1 & _). cbv zeta in R1. rewrite R1 in Hu. injection Hu as Hu.
    rewrite (one_pms _ En), ex_e_val in Hu. unfold bgC, mnC in Hu. rewrite Tw, Nt, Em in Hu. cbn [od] in Hu.
    rewrite <- Hu. destruct (pm_of c0 0) as [[a b] q]. cbn [fst snd] in *. subst q. unfold hsum, csum, cis. cbn. ring. }
  destruct Z as (Z1 & Z2 & Z3). split; [|split].
  - intros w Hw. unfold rows in Hw. apply in_map_iff in Hw. destruct Hw as (i & <- & Hi). apply in_seq in Hi. rewrite En in Hi. cbn in Hi.
    replace i with 0%nat by lia. rewrite rotary_row by (auto; rewrite En; cbn; lia). destruct (pm_of c0 0) as [[a b] q]. cbn [fst snd] in *. subst. 
    unfold RtoC, Cconj. cbn. repeat f_equal. ring.
  - unfold mean_is. rewrite Tw, Em, Z3. reflexivity.
  - congruence.
Qed.
Lemma m2_ext p r : map fst (m2_sm p r) = ext.
Proof. reflexivity. Qed.

(** the reconstruction is the tide *)
Lemma approximate_none o : o_infer o = None -> approximate o = false.
Proof. unfold approximate. now intros ->. Qed.
Lemma m2_rival L p r c : m2_fit L p r c -> rival c c.
Proof.
  intros Mf. constructor; auto.
  - exact (analysis_wf _ _ _ _ _ _ _ _ (mf_an _ _ _ _ Mf)).
  - unfold ties. rewrite (mf_in _ _ _ _ Mf). exact I.
Qed.
Lemma try_fits ms t u v lat opts sm c : analysis (tryL ms) t u v lat opts sm c -> approximate (c_opt c) = false -> o_method (c_opt c) = PStr "ols" ->
  Forall (fun x => yields c (fst x) (snd x)) sm.
Proof.
  intros A NA Me. destruct (analysis_run _ _ _ _ _ _ _ _ A) as (_ & si & la & s & B & xraw & m & W & BH & St & Ex & Re).
  destruct (top_model _ _ _ _ _ _ _ _ A NA) as (si' & la' & s' & B' & xraw' & m' & W' & E1 & E2 & E3 & E4 & F).
  rewrite (bh_lat _ _ _ _ _ _ _ _ _ _ _ _ _ _ BH) in E1. injection E1 as <-.
  assert (X := bh_slv _ _ _ _ _ _ _ _ _ _ _ _ _ _ BH). rewrite E2 in X. apply Ok_inj in X. subst si'.
  assert (X := bh_sel _ _ _ _ _ _ _ _ _ _ _ _ _ _ BH). rewrite E3 in X. apply Ok_inj in X. subst s'.
  assert (X := bh_fit _ _ _ _ _ _ _ _ _ _ _ _ _ _ BH). rewrite E4 in X. apply Ok_inj in X. injection X as -> -> -> ->.
  destruct (run_rows _ _ _ _ _ _ _ _ _ _ _ _ _ _ BH) as (_ & _ & Hl). destruct (Hl Me) as (r & k & sg & Hl'). apply try_spec in Hl'. destruct Hl' as (_ & _ & Hl').
  assert (Y : model_fit (o_twodim (c_opt c)) B m = map snd sm).
  { unfold model_fit. rewrite Hl', Ex. destruct (o_twodim (c_opt c)); [reflexivity|]. specialize (Re eq_refl). rewrite map_map. apply map_ext_in. intros x Hx.
    unfold RtoC. rewrite <- (Re x Hx) at 1. now destruct (snd x). }
  rewrite Y in F. revert F. clear. induction sm as [|x sm IH]; intros F; constructor; inversion F; subst; auto.
Qed.
