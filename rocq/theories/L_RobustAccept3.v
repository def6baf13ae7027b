(** What a robust result says about the samples. *)
From Coq Require Import Lia Lra Permutation.
From Verif Require Import M_Base M_Bunch M_Lib M_Tables M_Const M_Options M_Time M_Slvinit M_Harmonics M_Select M_Ellipse
  M_Robust M_Period M_Conf M_Diag M_Solve M_Recon S_Dict S_Options S_Order S_Basis S_Select S_Fit S_Ellipse S_Slv S_Recon S_Model S_Robust S_RobustKw S_Errors S_Perm S_Period S_Noise S_Accept S_RobustAccept
  L_Base L_Options L_SolveInv L_OptSolve L_Slv L_Slv2 L_Tables L_Order L_Select L_Fit L_Align L_SelOrder L_Order2 L_Basis L_Harm L_Harm2 L_Harm3 L_Angle L_Ellipse L_Recon L_Recon2 L_Recon3 L_Recon4 L_Core
  L_Ellipse2 L_Model L_Lsq L_Model2 L_Model3 L_Model4 L_Model5 L_Model6 L_Model7 L_Model8 L_Model9 L_Model10 L_Model11 L_Errors L_Errors3 L_Super L_Super3 L_Choice L_Noise2 L_Example L_Robust L_Robust2 L_RobustKw L_RobustAccept.
Open Scope R_scope.
Open Scope string_scope.

(** a zero coefficient vector stands for silent coefficients *)
Section Run.
Variables (L : lib) (t : pyarr tarray) (u : pyarr (list xr)) (v : option (pyarr (list xr))) (lat : option R) (opts : dict pyval) (c : coef).
Variables (si : slv) (la : R) (s : sel) (B : list (list C)) (xraw m : list C) (W : list xr).
Hypothesis BH : behind L t u v lat opts c si la s B xraw m W.
Notation tr := (negb (o_notrend (c_opt c))).
Lemma vector_silent c1 k : rival c c1 -> matches c si s c1 k -> (forall z, In z k -> z = RtoC 0) -> silent c1.
Proof.
  intros Rv M Zk. assert (Wf := rv_wf _ _ Rv). assert (Eo := rv_opt _ _ Rv).
  assert (Hk := mt_len _ _ _ _ _ M).
  assert (Hk' : length k = (2 * (s_nNR s + s_nR s) + 1 + (if tr then 1 else 0))%nat) by (rewrite Hk; unfold ncoef; destruct (o_notrend (c_opt c)); reflexivity).
  destruct (scale_vec tr (s_nNR s) (s_nR s) s (RtoC 0) k Hk' eq_refl eq_refl) as (T1 & T2 & T3).
  assert (Ek : map (Cmult (RtoC 0)) k = k).
  { rewrite <- (map_id k) at 2. apply map_ext_in. intros z Hz. rewrite (Zk z Hz). ring. }
  rewrite Ek in T1, T2, T3. assert (Z : forall z, Cmult (RtoC 0) z = RtoC 0) by (intros; ring). rewrite Z in T2. split; [|split].
  - intros r Hr. destruct (triple_of c1 r Wf Hr) as (n & l & p & Ht & _ & _ & ->). f_equal.
    apply (Permutation_in _ (mt_tri _ _ _ _ _ M)) in Ht. apply in_combine_r in Ht. rewrite T1 in Ht. apply in_map_iff in Ht. destruct Ht as (q & <- & _). now rewrite !Z.
  - apply mnC_mean; auto. rewrite (mt_mn _ _ _ _ _ M), T2. unfold vis1. destruct (o_twodim (c_opt c1)); reflexivity.
  - intros N. rewrite Eo in N. apply slC_slope; auto; [congruence|]. assert (T : tr = true) by (now rewrite N).
    rewrite (mt_sl _ _ _ _ _ M T), (T3 T), Z. transitivity (RtoC 0); [unfold vis1; destruct (o_twodim (c_opt c1)); reflexivity|]. unfold Cdiv. ring.
Qed.
End Run.

Lemma robust_parts L X y name tune rcond tol maxit r : robustfit L X y name tune rcond tol maxit = Ok r ->
  exists lev ls, leverage L X = Ok lev /\ wsolve L X y rcond (map (fun _ => x1) y) = Ok ls /\ (1 <= maxit)%nat.
Proof.
  unfold robustfit. intros H. inv_bind H. inv_bind H. inv_bind H. inv_bind H. destruct maxit as [|n]; [discriminate|]. eexists _, _. split; [eassumption|]. split; [eassumption|lia].
Qed.

Lemma robust_first L t u v lat opts sm c : analysis L t u v lat opts sm c -> o_method (c_opt c) <> PStr "ols" ->
  exists si la s B m W r0 k d name tune rcond tol maxit,
    behind L t u v lat opts c si la s B (map snd sm) m W /\ si_t si = map fst sm /\ (o_twodim (c_opt c) = false -> forall x, In x sm -> snd (snd x) = 0) /\
    dims (length sm) (ncoef (c_opt c) s) B /\ o_robust_kw (c_opt c) = PDict k d /\ robust_settings d name tune rcond tol maxit /\
    robustfit L B (map snd sm) name tune rcond tol maxit = Ok r0.
Proof.
  intros AN NO. destruct (analysis_run _ _ _ _ _ _ _ _ AN) as (_ & si & la & s & B & xraw & m & W & BH & S1 & S2 & S3). subst xraw.
  assert (F := bh_fit _ _ _ _ _ _ _ _ _ _ _ _ _ _ BH). unfold fit in F. inv_bind F.
  destruct (finite_mat a) as [B'|]; [|discriminate].
  assert (EM : eq_str (o_method (c_opt c)) "ols" = false).
  { destruct (o_method (c_opt c)) as [| | |x| | |]; try reflexivity. cbn. apply String.eqb_neq. congruence. }
  rewrite EM in F. inv_bind F. apply Ok_inj in F.
  assert (B' = B /\ raw_data (si_u si) (si_v si) = map snd sm) as (-> & E2) by (split; congruence).
  rewrite E2 in Ha0. destruct (kw_settings _ _ _ _ _ Ha0) as (k & d & name & tune & rcond & tol & maxit & K1 & K2 & K3).
  destruct (fit_len _ _ _ _ _ _ _ _ _ _ _ _ _ (an_shape _ _ _ _ _ _ _ _ AN) (run_lens _ _ _ _ _ _ _ _ _ _ _ _ _ _ BH)
      (infer_none_R _ _ _ _ _ (bh_sel _ _ _ _ _ _ _ _ _ _ _ _ _ _ BH))
      (slv_data _ _ _ _ _ _ _ ltac:(destruct (an_samples _ _ _ _ _ _ _ _ AN) as (e & _ & SMP); eapply samples_arrays; exact SMP) (bh_slv _ _ _ _ _ _ _ _ _ _ _ _ _ _ BH))
      (bh_fit _ _ _ _ _ _ _ _ _ _ _ _ _ _ BH)) as (D & _). rewrite S1, map_length in D.
  exists si, la, s, B, m, W, a0, k, d, name, tune, rcond, tol, maxit. auto 10.
Qed.

Lemma wsolve_ones L X y rcond ls : length X = length y -> wsolve L X y rcond (map (fun _ => x1) y) = Ok ls ->
  exists r k sg, l_lstsq L X y rcond = Ok (ls_b ls, r, k, sg) /\ r <> [].
Proof.
  intros LX H. unfold wsolve in H. replace (map (fun _ => x1) y) with (map Fin (map (fun _ : C => 1) y)) in H by (rewrite map_map; reflexivity).
  assert (E : all_finite (map Fin (map (fun _ : C => 1) y)) = Some (map (fun _ => 1) y)) by (now apply all_finite_spec). rewrite E in H.
  assert (E1 : map (fun p => map (Cmult (RtoC (fst p))) (snd p)) (combine (map (fun _ : C => 1) y) X) = X).
  { clear - LX. revert y LX. induction X as [|x X IH]; intros [|z y] LX; try discriminate; [reflexivity|]. cbn [map combine fst snd]. f_equal; [|apply IH; now injection LX].
    rewrite <- (map_id x) at 2. apply map_ext. intros q. ring. }
  assert (E2 : map (fun p => Cmult (RtoC (fst p)) (snd p)) (combine (map (fun _ : C => 1) y) y) = y).
  { clear. induction y as [|z y IH]; [reflexivity|]. cbn [map combine fst snd]. f_equal; [ring|exact IH]. }
  rewrite E1, E2 in H. inv_bind H. destruct a as [[[b rss] rank] sing]. destruct rss as [|s0 rest]; [discriminate|]. apply Ok_inj in H. subst ls. cbn [ls_b].
  eexists _, _, _. split; [eassumption|discriminate].
Qed.

(** more samples than coefficients *)
Lemma robust_more L t u v lat opts sm c : analysis L t u v lat opts sm c -> o_method (c_opt c) <> PStr "ols" -> o_infer (c_opt c) = None -> lstsq_no_sums L ->
  (2 * length (c_name c) + 1 + (if o_notrend (c_opt c) then 0 else 1) < length sm)%nat.
Proof.
  intros AN NO NI NS. destruct (robust_first _ _ _ _ _ _ _ _ AN NO) as (si & la & s & B & m & W & r0 & k & d & name & tune & rcond & tol & maxit & BH & S1 & S3 & D & K1 & K2 & K3).
  destruct (robust_parts _ _ _ _ _ _ _ _ _ K3) as (lev & ls & V1 & V2 & _).
  assert (RC := run_counts _ _ _ _ _ _ _ _ _ _ _ _ _ _ BH (an_sorted _ _ _ _ _ _ _ _ AN) NI).
  assert (LX : length B = length (map snd sm)) by (rewrite map_length; apply D).
  destruct (wsolve_ones _ _ _ _ _ LX V2) as (r & kk & sg & H & Hr).
  destruct (Nat.le_gt_cases (length B) (length (ls_b ls))) as [Q|Q]; [exfalso; eapply Hr, NS; eauto|].
  assert (Lm : length (ls_b ls) = ncoef (c_opt c) s).
  { destruct B as [|b0 B'] eqn:EB; [cbn in Q; lia|]. rewrite (an_shape _ _ _ _ _ _ _ _ AN _ _ _ _ _ _ _ H b0 (or_introl eq_refl)). apply D. now left. }
  rewrite Lm, (proj1 (proj2 (proj2 (proj2 (proj2 RC))))), <- (proj2 (proj2 (proj2 (proj2 (proj2 (proj2 (proj2 RC))))))), (proj1 D) in Q. destruct (o_notrend (c_opt c)); cbn [negb] in Q; lia.
Qed.

Lemma norm2_nonneg z : 0 <= norm2 z.
Proof. unfold norm2. induction z as [|a z IH]; cbn [map]; [cbn; lra|]. rewrite rsum_cons. assert (0 <= fst a ^ 2) by apply pow2_ge_0. assert (0 <= snd a ^ 2) by apply pow2_ge_0. lra. Qed.
Lemma norm2_zero z : norm2 z <= 0 -> forall a, In a z -> a = RtoC 0.
Proof.
  unfold norm2. induction z as [|a z IH]; intros H b Hb; [destruct Hb|]. cbn [map] in H. rewrite rsum_cons in H. assert (N := norm2_nonneg z). unfold norm2 in N.
  assert (0 <= fst a ^ 2) by apply pow2_ge_0. assert (0 <= snd a ^ 2) by apply pow2_ge_0. destruct Hb as [<-|Hb]; [|apply IH; [lra|exact Hb]].
  destruct a as [p q]. cbn [fst snd] in *. assert (p = 0) by nra. assert (q = 0) by nra. now subst.
Qed.

(** the samples tell the coefficients apart *)
Lemma robust_identifies L t u v lat opts sm c : analysis L t u v lat opts sm c -> o_method (c_opt c) <> PStr "ols" -> approximate (c_opt c) = false ->
  (forall rc, lstsq_contract L rc) -> identifiable c (map fst sm).
Proof.
  intros AN NO NA LC c1 Rv Z0. destruct (robust_first _ _ _ _ _ _ _ _ AN NO) as (si & la & s & B & m & W & r0 & k & d & name & tune & rcond & tol & maxit & BH & S1 & S3 & D & K1 & K2 & K3).
  destruct (robust_parts _ _ _ _ _ _ _ _ _ K3) as (lev & ls & V1 & V2 & _). assert (HS := an_sorted _ _ _ _ _ _ _ _ AN).
  assert (LX : length B = length (map snd sm)) by (rewrite map_length; apply D).
  destruct (wsolve_ones _ _ _ _ _ LX V2) as (r & kk & sg & H & Hr).
  destruct (rival_yields _ _ _ _ _ _ _ _ _ _ _ _ _ _ BH HS NA c1 Rv) as (q & M & Y).
  apply (vector_silent c si s c1 q Rv M).
  assert (Q := paired _ _ _ _ _ _ _ _ _ _ _ _ _ _ BH sm S1).
  assert (BZ : forall row, In row B -> cdot row q = RtoC 0).
  { intros row Hrow. assert (exists p, In p sm /\ good_row (si_tref si) (si_lor si) la (c_opt c) s (fst p) row) as (p & Ip & G).
    { clear - Q Hrow. induction Q as [|p r0 l B' G Q IH]; [destruct Hrow|]. destruct Hrow as [<-|Hrow]; [exists p; split; [now left|exact G]|]. destruct (IH Hrow) as (p' & ? & ?). exists p'. split; [now right|assumption]. }
    destruct (Y _ _ G) as [Y1 Y2]. destruct (Z0 (fst p) (in_map fst _ _ Ip)) as [Z1 Z2]. rewrite Z1 in Y1. rewrite (rv_opt _ _ Rv) in Y2.
    apply C_eq; [cbn; congruence|]. destruct (o_twodim (c_opt c)); [rewrite (Z2 eq_refl) in Y2; cbn; congruence|exact Y2]. }
  assert (Lm : length (ls_b ls) = ncoef (c_opt c) s).
  { destruct B as [|b0 B'] eqn:EB; [exfalso; apply (an_some _ _ _ _ _ _ _ _ AN); rewrite map_length in LX; destruct sm; [reflexivity|discriminate]|].
    rewrite (an_shape _ _ _ _ _ _ _ _ AN _ _ _ _ _ _ _ H b0 (or_introl eq_refl)). apply D. now left. }
  assert (Lq := mt_len _ _ _ _ _ M).
  destruct (LC _ _ _ _ _ _ _ H) as (_ & _ & [->|[_ UQ]]); [congruence|].
  set (m' := map (fun p => Cplus (fst p) (snd p)) (combine (ls_b ls) q)).
  assert (Lm' : length m' = length (ls_b ls)) by (unfold m'; rewrite map_length, combine_length; lia).
  assert (SUM : forall row, cdot row m' = Cplus (cdot row (ls_b ls)) (cdot row q)).
  { unfold m'. assert (LL : length (ls_b ls) = length q) by congruence. clear - LL. revert LL. generalize (ls_b ls). intros a. revert q. induction a as [|x a IH]; intros [|z q] LL row; try discriminate.
    - destruct row; unfold cdot; cbn; ring.
    - destruct row as [|y row]; [unfold cdot; cbn; ring|]. cbn [combine map fst snd]. rewrite !cdot_c, IH by now injection LL. ring. }
  assert (EQ : cmatvec B m' = cmatvec B (ls_b ls)).
  { unfold cmatvec. apply map_ext_in. intros row Hrow. rewrite SUM, (BZ row Hrow). ring. }
  assert (DEC : m' = ls_b ls \/ m' <> ls_b ls) by (destruct (list_eq_dec Ceq_dec m' (ls_b ls)); auto).
  destruct DEC as [E|N]; [|specialize (UQ m' Lm' N); rewrite EQ in UQ; lra].
  intros z Hz. apply In_nth with (d := RtoC 0) in Hz. destruct Hz as (i & Hi & <-).
  assert (E' := f_equal (fun l => nth i l (RtoC 0)) E). cbn beta in E'. unfold m' in E'.
  rewrite (nth_indep _ (RtoC 0) (Cplus (fst (RtoC 0, RtoC 0)) (snd (RtoC 0, RtoC 0)))) in E' by (rewrite map_length, combine_length; lia).
  rewrite (map_nth (fun p : C * C => Cplus (fst p) (snd p))), combine_nth in E' by congruence. cbn [fst snd] in E'.
  replace (nth i q (RtoC 0)) with (Cminus (Cplus (nth i (ls_b ls) (RtoC 0)) (nth i q (RtoC 0))) (nth i (ls_b ls) (RtoC 0))) by ring. rewrite E'. ring.
Qed.

(** the samples are not all met *)
Lemma robust_inexact L t u v lat opts sm c kw d name tune rcond tol maxit c1 : analysis L t u v lat opts sm c -> approximate (c_opt c) = false ->
  (forall rc, lstsq_contract L rc) -> (exists x, setting opts "method" x /\ x <> PStr "ols") ->
  setting opts "robust_kw" (PDict kw d) -> unique_keys d -> robust_settings d name tune rcond tol maxit -> In name ["bisquare"; "cauchy"; "fair"; "welsch"] -> (2 <= maxit)%nat ->
  rival c c1 -> ~ Forall (fun s => yields c1 (fst s) (snd s)) sm.
Proof.
  intros AN NA LC (x & SX & NX) SK UD RS IN MX Rv MET.
  assert (EM := set_method _ _ _ _ _ _ (an_keys _ _ _ _ _ _ _ _ AN) _ (an_solve _ _ _ _ _ _ _ _ AN) _ SX).
  assert (EK := set_robust_kw _ _ _ _ _ _ (an_keys _ _ _ _ _ _ _ _ AN) _ (an_solve _ _ _ _ _ _ _ _ AN) _ SK).
  assert (NO : o_method (c_opt c) <> PStr "ols") by congruence.
  destruct (robust_first _ _ _ _ _ _ _ _ AN NO) as (si & la & s & B & m & W & r0 & k' & d' & name' & tune' & rcond' & tol' & maxit' & BH & S1 & S3 & D & K1 & K2 & K3).
  rewrite EK in K1. injection K1 as <- <-.
  assert (K4 : robustfit L B (map snd sm) name tune rcond tol maxit = Ok r0) by (rewrite <- (settings_kw L B (map snd sm) kw _ _ _ _ _ _ UD RS); rewrite (settings_kw _ _ _ _ _ _ _ _ _ _ UD K2); exact K3).
  clear K2 K3. destruct (robust_parts _ _ _ _ _ _ _ _ _ K4) as (lev & ls & V1 & V2 & _). assert (HS := an_sorted _ _ _ _ _ _ _ _ AN).
  assert (LX : length B = length (map snd sm)) by (rewrite map_length; apply D).
  destruct (wsolve_ones _ _ _ _ _ LX V2) as (r & kk & sg & H & Hr).
  destruct (rival_yields _ _ _ _ _ _ _ _ _ _ _ _ _ _ BH HS NA c1 Rv) as (q & M & Y).
  assert (Q := paired _ _ _ _ _ _ _ _ _ _ _ _ _ _ BH sm S1).
  assert (Eq : cmatvec B q = map snd sm).
  { clear - Q Y MET. unfold cmatvec. induction Q as [|p row l B' G Q IH]; [reflexivity|]. inversion MET; subst. cbn [map]. f_equal; [|now apply IH]. eapply yields_unique; [apply Y; exact G|assumption]. }
  assert (Lm : length (ls_b ls) = ncoef (c_opt c) s).
  { destruct B as [|b0 B'] eqn:EB; [exfalso; apply (an_some _ _ _ _ _ _ _ _ AN); rewrite map_length in LX; destruct sm; [reflexivity|discriminate]|].
    rewrite (an_shape _ _ _ _ _ _ _ _ AN _ _ _ _ _ _ _ H b0 (or_introl eq_refl)). apply D. now left. }
  destruct (LC _ _ _ _ _ _ _ H) as (_ & BEST & _). specialize (BEST q ltac:(rewrite Lm; apply M)). rewrite Eq in BEST.
  assert (SELF : forall l, norm2 (csub l l) = 0).
  { intros l. unfold norm2, csub. induction l as [|z l IH]; [reflexivity|]. cbn [combine map fst snd]. rewrite rsum_cons. rewrite IH. cbn. ring. }
  rewrite SELF in BEST.
  assert (EX : cmatvec B (ls_b ls) = map snd sm).
  { assert (LL : length (cmatvec B (ls_b ls)) = length (map snd sm)) by (unfold cmatvec; now rewrite map_length). revert LL BEST. generalize (cmatvec B (ls_b ls)) (map snd sm). clear.
    induction l as [|a l IH]; intros [|b l'] LL BEST; try discriminate; [reflexivity|]. assert (Z := norm2_zero _ BEST). unfold csub in Z. cbn [combine map fst snd] in Z.
    f_equal; [|apply IH; [now injection LL|]].
    - replace a with (Cplus (Cminus a b) b) by ring. rewrite (Z _ (or_introl eq_refl)). ring.
    - unfold norm2, csub in BEST |- *. cbn [combine map fst snd] in BEST. rewrite rsum_cons in BEST. rewrite (Z _ (or_introl eq_refl)) in BEST. cbn [fst snd RtoC] in BEST. lra. }
  assert (TU : exists tn, tuning name tune tn).
  { destruct tune as [x0|]; [exists x0; reflexivity|]. destruct IN as [<-|[<-|[<-|[<-|[]]]]]; eexists; reflexivity. }
  destruct TU as [tn TU]. destruct maxit as [|[|n]]; try lia.
  rewrite (robust_exact_data L B (map snd sm) name tune rcond tol n lev tn ls IN TU) in K4; auto; [discriminate|].
  intros E. apply (an_some _ _ _ _ _ _ _ _ AN). destruct sm; [reflexivity|discriminate].
Qed.
