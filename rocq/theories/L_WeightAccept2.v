(** What linearised intervals say about the weighted samples. *)
From Coq Require Import Lia Lra Permutation.
From Verif Require Import M_Base M_Bunch M_Lib M_Tables M_Const M_Options M_Time M_Slvinit M_Harmonics M_Select M_Ellipse
  M_Robust M_Period M_Conf M_Diag M_Solve M_Recon S_Dict S_Options S_Order S_Basis S_Select S_Fit S_Ellipse S_Slv S_Recon S_Model S_Robust S_RobustKw S_Errors S_Perm S_Period S_Noise S_Accept S_RobustAccept S_McAccept S_WeightAccept
  L_Base L_Options L_SolveInv L_OptSolve L_Slv L_Slv2 L_Tables L_Order L_Select L_Fit L_Align L_SelOrder L_Order2 L_Basis L_Harm L_Harm2 L_Harm3 L_Angle L_Ellipse L_Recon L_Recon2 L_Recon3 L_Recon4 L_Core
  L_Ellipse2 L_Model L_Lsq L_Model2 L_Model3 L_Model4 L_Model5 L_Model6 L_Model7 L_Model8 L_Model9 L_Model10 L_Model11 L_Gauss L_Errors L_Errors3 L_Errors5 L_Super L_Super3 L_Choice L_Period L_Period3 L_Noise L_Noise2 L_Perm L_Example
  L_Robust L_Robust2 L_RobustKw L_RobErr L_RobErr2 L_Accept L_Accept2 L_Sub L_RobustAccept L_RobustAccept2 L_RobustAccept3 L_McAccept L_WeightAccept.
Open Scope R_scope.
Open Scope string_scope.

Lemma inverse_zero n G X d : csquare n G -> product_is_identity n X G -> length d = n ->
  (forall a, (a < n)%nat -> Sm n (fun b => Cmult (cent G a b) (nth b d (RtoC 0))) = RtoC 0) -> forall z, In z d -> z = RtoC 0.
Proof.
  intros SQ PI Hd Z z Hz. apply In_nth with (d := RtoC 0) in Hz. destruct Hz as (i & Hi & <-). rewrite Hd in Hi.
  transitivity (Sm n (fun b => Cmult (kd i b) (nth b d (RtoC 0)))).
  - symmetry. apply Sm_kd. exact Hi.
  - rewrite (Sm_ext n _ (fun b => Sm n (fun a => Cmult (cent X i a) (Cmult (cent G a b) (nth b d (RtoC 0)))))).
    + rewrite Sm_swap. apply Sm_0. intros a Ha. rewrite Sm_l, Z by exact Ha. ring.
    + intros b Hb. assert (K : Sm n (fun k => Cmult (cent X i k) (cent G k b)) = kd i b) by (refine (eq_trans (PI i b Hi Hb) _); unfold kd; destruct (Nat.eqb i b); reflexivity). rewrite <- K, <- Sm_r. apply Sm_ext. intros. ring.
Qed.

Lemma heeded_needed L t u v la opts sm c w : analysis L t u v (Some la) opts sm c -> inv_exact L -> setting opts "infer" PNone ->
  setting opts "conf_int" (PStr "linear") \/ setting opts "conf_int" (PStr "MC") -> c_weights c = map Fin w -> identifiable c (heeded w sm).
Proof.
  intros AN IX IN CI HW c1 Rv Z0. assert (HU := an_keys _ _ _ _ _ _ _ _ AN). assert (HS := an_sorted _ _ _ _ _ _ _ _ AN).
  destruct (analysis_run _ _ _ _ _ _ _ _ AN) as (_ & si & la0 & s & B & x0 & m & W & BH & S1 & S2 & S3). subst x0.
  assert (El := bh_lat _ _ _ _ _ _ _ _ _ _ _ _ _ _ BH). injection El as <-.
  assert (NI : o_infer (c_opt c) = None).
  { destruct (bh_inf _ _ _ _ _ _ _ _ _ _ _ _ _ _ BH) as (inf & I1 & I2). rewrite (setting_val opts "infer" PNone HU ltac:(cbn; tauto) IN) in I1. cbn [validate_infer is_none orb] in I1. injection I1 as <-. now injection I2. }
  assert (NA : approximate (c_opt c) = false) by (unfold approximate; now rewrite NI).
  assert (EW : W = map Fin w) by (rewrite <- HW; symmetry; apply BH). subst W.
  assert (HG : exists gam, gammas L B (ncoef (c_opt c) s) (map Fin w) (map snd sm) (model_fit (o_twodim (c_opt c)) B m) = Ok gam).
  { destruct CI as [CI|CI].
    - destruct (old_intervals L t u v la opts sm c AN true si s B m _ BH CI NI) as (p & gam & cis & _ & HG & _). eauto.
    - destruct (old_intervals L t u v la opts sm c AN false si s B m _ BH CI NI) as (p & gam & cis & _ & HG & _). eauto. }
  destruct HG as [gam HG]. unfold gammas in HG. assert (AF : all_finite (map Fin w) = Some w) by (now apply all_finite_spec). rewrite AF in HG. inv_bind HG.
  destruct (IX _ _ _ (gram_square _ _ _ _) Ha) as [_ PI].
  destruct (rival_yields _ _ _ _ _ _ _ _ _ _ _ _ _ _ BH HS NA c1 Rv) as (q & M & Y).
  apply (vector_silent c si s c1 q Rv M).
  assert (Lw : length w = length sm).
  { destruct (fit_len _ _ _ _ _ _ _ _ _ _ _ _ _ (an_shape _ _ _ _ _ _ _ _ AN) (run_lens _ _ _ _ _ _ _ _ _ _ _ _ _ _ BH)
      (infer_none_R _ _ _ _ _ (bh_sel _ _ _ _ _ _ _ _ _ _ _ _ _ _ BH))
      (slv_data _ _ _ _ _ _ _ (an_arrays _ _ _ _ _ _ _ _ AN) (bh_slv _ _ _ _ _ _ _ _ _ _ _ _ _ _ BH))
      (bh_fit _ _ _ _ _ _ _ _ _ _ _ _ _ _ BH)) as (D & FL'). clear - FL' S1. rewrite S1, !map_length in FL'. lia. }
  assert (W0 : Forall (fun a => 0 <= a) w).
  { assert (Rg := fit_ranged _ _ _ _ _ _ _ _ _ _ _ _ _ (bh_fit _ _ _ _ _ _ _ _ _ _ _ _ _ _ BH)). apply Forall_forall. intros x Hx. apply Rg. now apply in_map. }
  assert (LB := B_len _ _ _ _ _ _ _ _ _ _ _ _ _ _ BH sm S1).
  assert (Lq := mt_len _ _ _ _ _ M).
  assert (GR := good_rows _ _ _ _ _ _ _ _ _ _ _ _ _ _ BH). rewrite S1 in GR.
  assert (BZ : forall k, (k < length B)%nat -> 0 < nth k w 0 -> cdot (nth k B []) q = RtoC 0).
  { intros k Hk Wk. assert (G : good_row (si_tref si) (si_lor si) la (c_opt c) s (fst (nth k sm (0, RtoC 0))) (nth k B [])).
    { assert (K2 : (k < length sm)%nat) by lia. clear - GR K2. revert k K2. generalize dependent B. induction sm as [|p l IH]; intros B0 GR k K2; [cbn in K2; lia|].
      inversion GR; subst. destruct k; [assumption|]. cbn [nth]. apply IH; auto. cbn in K2. lia. }
    destruct (Y _ _ G) as [Y1 Y2]. destruct (Z0 (fst (nth k sm (0, RtoC 0)))) as [Z1 Z2].
    { apply in_heeded; [exact Lw|]. exists k. repeat split; auto. lia. }
    rewrite Z1 in Y1. rewrite (rv_opt _ _ Rv) in Y2.
    apply C_eq; [cbn; congruence|]. destruct (o_twodim (c_opt c)); [rewrite (Z2 eq_refl) in Y2; cbn; congruence|exact Y2]. }
  assert (D : dims (length B) (ncoef (c_opt c) s) B).
  { destruct (fit_len _ _ _ _ _ _ _ _ _ _ _ _ _ (an_shape _ _ _ _ _ _ _ _ AN) (run_lens _ _ _ _ _ _ _ _ _ _ _ _ _ _ BH)
      (infer_none_R _ _ _ _ _ (bh_sel _ _ _ _ _ _ _ _ _ _ _ _ _ _ BH))
      (slv_data _ _ _ _ _ _ _ (an_arrays _ _ _ _ _ _ _ _ AN) (bh_slv _ _ _ _ _ _ _ _ _ _ _ _ _ _ BH))
      (bh_fit _ _ _ _ _ _ _ _ _ _ _ _ _ _ BH)) as (D & _). now rewrite S1, map_length, <- LB in D. }
  assert (LC : length (cconj_mat B) = length B) by (unfold cconj_mat; apply map_length).
  eapply inverse_zero; [apply gram_square|exact PI|exact Lq|]. intros i Hi.
  rewrite (Sm_ext _ _ (fun b => Sm (length B) (fun k => Cmult (RtoC (nth k w 0)) (Cmult (Cmult (bf (cconj_mat B) k i) (bf B k b)) (nth b q (RtoC 0)))))).
  2: { intros b Hb. rewrite gram_entry_w by (auto; lia). rewrite <- Sm_r, LC. apply Sm_ext. intros. ring. }
  rewrite Sm_swap. apply Sm_0. intros k Hk.
  transitivity (Cmult (Cmult (RtoC (nth k w 0)) (bf (cconj_mat B) k i)) (cdot (nth k B []) q)).
  - rewrite (fit_vec B _ q k D Lq Hk), <- Sm_l. apply Sm_ext. intros. ring.
  - destruct (Rlt_dec 0 (nth k w 0)) as [P|P]; [rewrite (BZ k Hk P); ring|].
    assert (E : nth k w 0 = 0). { rewrite Forall_forall in W0. assert (0 <= nth k w 0) by (apply W0, nth_In; lia). lra. } rewrite E. ring.
Qed.

(** with these weight functions no sample is left out *)
Lemma robust_positive L t u v la opts opts0 sm c0 cf c kw d name tune rcond tol maxit tn :
  analysis L t u v (Some la) opts0 sm c0 -> documented_input L t u v opts sm -> options_but_method opts opts0 -> NoDup (c_name c0) ->
  (forall rc, lstsq_sums L rc) -> pinv_exact L -> evaluable la opts sm -> setting opts "conf_int" cf -> In cf [PStr "linear"; PStr "MC"; PStr "none"] ->
  (exists x, setting opts "method" x /\ x <> PStr "ols") ->
  spare c0 sm -> scattered c0 sm -> setting opts "robust_kw" (PDict kw d) -> unique_keys d ->
  robust_settings d name tune rcond tol maxit -> In name ["cauchy"; "fair"; "ols"; "welsch"] -> tuning name tune tn -> tn <> 0 -> (1 <= maxit)%nat ->
  solve L t u v (Some la) opts = Ok c -> exists w, c_weights c = map Fin w /\ length w = length sm /\ Forall (fun a => 0 < a) w.
Proof.
  intros AN DI SB ND LS PI EV CF CV RM SP SC SK UD RS IN TU TN MX HC.
  assert (CV' : cf = PStr "linear" \/ cf = PStr "MC" \/ cf = PStr "none") by (destruct CV as [<-|[<-|[<-|[]]]]; auto).
  destruct (fit_robust L t u v la opts opts0 sm c0 AN DI SB ND LS PI EV cf CV' CF RM kw d name tune rcond tol maxit tn SP SC SK UD RS IN TU TN MX)
    as (compat & si & o & s & B & m & ws & BA & F & Lw & PW).
  destruct (solve_inv _ _ _ _ _ _ _ HC) as [(compat' & si' & la' & o' & s' & B' & xraw' & m' & W' & c1 & c2 & P1 & P2 & P3 & P4 & P5 & P6 & P7 & P8 & P9)].
  injection P3 as <-.
  rewrite (fi_compat _ _ _ _ _ _ _ _ _ _ _ _ _ _ _ F) in P1. apply Ok_inj in P1. subst compat'.
  rewrite (fi_slv _ _ _ _ _ _ _ _ _ _ _ _ _ _ _ F) in P2. apply Ok_inj in P2. subst si'.
  rewrite (fi_opt _ _ _ _ _ _ _ _ _ _ _ _ _ _ _ F) in P4. apply Ok_inj in P4. subst o'.
  rewrite (fi_sel _ _ _ _ _ _ _ _ _ _ _ _ _ _ _ F) in P5. apply Ok_inj in P5. subst s'.
  rewrite (fi_fit _ _ _ _ _ _ _ _ _ _ _ _ _ _ _ F) in P6. apply Ok_inj in P6. injection P6 as <- <- <- <-.
  exists ws. split; [|auto]. rewrite (sb_weights _ _ (solve_base _ _ _ _ _ _ _ _ _ _ _ _ P7 P8 P9)). reflexivity.
Qed.
