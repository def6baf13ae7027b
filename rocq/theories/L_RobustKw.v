(** The keywords of the robust fit; the robust fit seen from solve, pass by pass. *)
From Coq Require Import Lia Lra Permutation.
From Verif Require Import M_Base M_Bunch M_Lib M_Tables M_Const M_Options M_Time M_Slvinit M_Harmonics M_Select M_Ellipse
  M_Robust M_Period M_Conf M_Diag M_Solve M_Recon S_Dict S_Options S_Order S_Basis S_Select S_Fit S_Ellipse S_Slv S_Recon S_Model S_Robust S_RobustKw
  L_Base L_Options L_SolveInv L_OptSolve L_Slv L_Slv2 L_Order L_Select L_Fit L_Align L_SelOrder L_Basis L_Angle L_Ellipse L_Recon L_Recon2 L_Recon3 L_Core
  L_Ellipse2 L_Model L_Lsq L_Model2 L_Model3 L_Model4 L_Model5 L_Model6 L_Model7 L_Model8 L_Model9 L_Model10 L_Model11 L_Robust L_Robust2 L_Robust3 L_Robust4.
Open Scope R_scope.
Open Scope string_scope.

Lemma kget_setting d k x : entry robust_documented k x -> kw_setting d k (kget d k x).
Proof.
  intros H. unfold kget. destruct (dget d k) as [v|] eqn:E; [left; now apply dget_Some_In|].
  right. split; [now apply dget_None in E|exact H].
Qed.
Lemma setting_kget d k x v : unique_keys d -> entry robust_documented k x ->
  (forall y, entry robust_documented k y -> y = x) -> kw_setting d k v -> kget d k x = v.
Proof.
  intros U E Q [H|[N H]]; unfold kget.
  - apply dget_In in H; [|exact U]. now rewrite H.
  - apply dget_None in N. rewrite N. symmetry. now apply Q.
Qed.
Lemma doc_wf : entry robust_documented "weight_function" (PStr "bisquare"). Proof. cbn. auto. Qed.
Lemma doc_tune : entry robust_documented "tune" PNone. Proof. cbn. auto. Qed.
Lemma doc_rcond : entry robust_documented "rcond" (PNum 1). Proof. cbn. auto. Qed.
Lemma doc_tol : entry robust_documented "tol" (PNum (1 / 10 ^ 3)).
Proof. unfold entry, robust_documented. replace (1 / 10 ^ 3) with 0.001 by lra. cbn. auto. Qed.
Lemma doc_maxit : entry robust_documented "maxit" (PNum 50). Proof. cbn. auto 10. Qed.
Ltac doc_one := intros y Hy; cbn in Hy; repeat (destruct Hy as [Hy|Hy]; [try discriminate Hy; injection Hy as <-; try reflexivity|]); try destruct Hy.
Lemma one_wf y : entry robust_documented "weight_function" y -> y = PStr "bisquare". Proof. revert y. doc_one. Qed.
Lemma one_tune y : entry robust_documented "tune" y -> y = PNone. Proof. revert y. doc_one. Qed.
Lemma one_rcond y : entry robust_documented "rcond" y -> y = PNum 1. Proof. revert y. doc_one. Qed.
Lemma one_tol y : entry robust_documented "tol" y -> y = PNum (1 / 10 ^ 3). Proof. revert y. doc_one. f_equal. lra. Qed.
Lemma one_maxit y : entry robust_documented "maxit" y -> y = PNum 50. Proof. revert y. doc_one. Qed.

Lemma known_keys (d : dict pyval) : forallb (fun k => existsb (String.eqb k) robust_keys) (dkeys d) = true <-> incl (keys d) (keys robust_documented).
Proof.
  rewrite forallb_forall. unfold incl. change (keys d) with (dkeys d). change (keys robust_documented) with robust_keys.
  split; intros H k Hk; specialize (H k Hk).
  - apply existsb_exists in H. destruct H as (x & Hx & E). apply String.eqb_eq in E. now subst.
  - apply existsb_exists. exists k. split; [exact H|apply String.eqb_refl].
Qed.

Lemma kw_num_number v x : kw_num v = Ok x <-> number v x.
Proof.
  split.
  - destruct v as [|[]|y| | | |]; cbn; intros H; try discriminate; apply Ok_inj in H; subst; constructor.
  - intros []; reflexivity.
Qed.
Lemma kw_nat_number v n : kw_nat v = Ok n -> (0 < n)%nat -> number v (INR n).
Proof.
  destruct v as [|[]|y| | | |]; cbn; intros H P; try discriminate.
  - apply Ok_inj in H. subst. cbn. constructor.
  - apply Ok_inj in H. lia.
  - destruct (Req_EM_T y (IZR (Int_part y))) as [E|]; [|discriminate]. apply Ok_inj in H.
    assert (Z : (0 <= Int_part y)%Z) by lia.
    rewrite INR_IZR_INZ, <- H, Z2Nat.id by exact Z. rewrite <- E. constructor.
Qed.
Lemma number_kw_nat v n : number v (INR n) -> kw_nat v = Ok n.
Proof.
  intros H. remember (INR n) as q eqn:E. destruct H as [x| |]; cbn [kw_nat]; subst.
  - assert (I : Int_part (INR n) = Z.of_nat n).
    { rewrite INR_IZR_INZ. unfold Int_part. rewrite <- (tech_up (IZR (Z.of_nat n)) (Z.of_nat n + 1)); [lia| |]; rewrite plus_IZR; lra. }
    rewrite I, <- INR_IZR_INZ. destruct (Req_EM_T (INR n) (INR n)) as [_|Z]; [|now destruct Z]. now rewrite Nat2Z.id.
  - f_equal. apply INR_eq. rewrite <- E. reflexivity.
  - f_equal. apply INR_eq. rewrite <- E. reflexivity.
Qed.

(** a successful call selects its settings *)
Lemma kw_settings L X y kw r : robustfit_kw L X y kw = Ok r ->
  exists k d name tune rcond tol maxit, kw = PDict k d /\ robust_settings d name tune rcond tol maxit /\
    robustfit L X y name tune rcond tol maxit = Ok r.
Proof.
  unfold robustfit_kw. destruct kw as [| | | | | |k d]; try discriminate.
  destruct (forallb _ _) eqn:EK; cbn [negb]; [|discriminate]. apply known_keys in EK.
  intros H. inv_bind H. inv_bind H. inv_bind H. inv_bind H. exists k, d, a, a0, (kget d "rcond" (PNum 1)), a1, a2.
  split; [reflexivity|]. split; [|exact H]. constructor; [exact EK| | | | |].
  - assert (S := kget_setting d _ _ doc_wf). destruct (kget d "weight_function" (PStr "bisquare")); try discriminate.
    apply Ok_inj in Ha. now subst.
  - assert (S := kget_setting d _ _ doc_tune). destruct (kget d "tune" PNone) eqn:EV; try (inv_bind Ha0; apply Ok_inj in Ha0; subst; eexists; split; [exact S|now apply kw_num_number]).
    apply Ok_inj in Ha0. subst. exact S.
  - apply kget_setting, doc_rcond.
  - eexists. split; [apply (kget_setting d _ _ doc_tol)|now apply kw_num_number].
  - eexists. split; [apply (kget_setting d _ _ doc_maxit)|]. apply kw_nat_number; [assumption|].
    destruct a2; [|lia]. exfalso. eapply robust_no_pass; exact H.
Qed.
(** and the settings determine the call *)
Lemma settings_kw L X y k d name tune rcond tol maxit : unique_keys d -> robust_settings d name tune rcond tol maxit ->
  robustfit_kw L X y (PDict k d) = robustfit L X y name tune rcond tol maxit.
Proof.
  intros U []. unfold robustfit_kw. apply known_keys in rs_known. rewrite rs_known. cbn [negb].
  rewrite (setting_kget _ _ _ _ U doc_wf one_wf rs_name). cbn [bind].
  rewrite (setting_kget _ _ _ _ U doc_rcond one_rcond rs_rcond).
  destruct rs_tol as (vt & T1 & T2). rewrite (setting_kget _ _ _ _ U doc_tol one_tol T1).
  destruct rs_maxit as (vm & M1 & M2). rewrite (setting_kget _ _ _ _ U doc_maxit one_maxit M1).
  apply kw_num_number in T2. apply number_kw_nat in M2. rewrite T2, M2.
  destruct tune as [x|].
  - destruct rs_tune as (v & V1 & V2). rewrite (setting_kget _ _ _ _ U doc_tune one_tune V1). apply kw_num_number in V2.
    destruct v as [|[]| | | | |]; try discriminate V2; rewrite V2; reflexivity.
  - rewrite (setting_kget _ _ _ _ U doc_tune one_tune rs_tune). reflexivity.
Qed.
Lemma kw_unknown L X y k d : ~ incl (keys d) (keys robust_documented) -> robustfit_kw L X y (PDict k d) = Err TypeError.
Proof.
  intros N. unfold robustfit_kw. destruct (forallb _ _) eqn:EK; [|reflexivity]. now apply known_keys in EK.
Qed.
Lemma kw_nodict L X y kw : (forall k d, kw <> PDict k d) -> robustfit_kw L X y kw = Err TypeError.
Proof. intros N. destruct kw as [| | | | | |k d]; try reflexivity. now destruct (N k d). Qed.

Lemma run_leverage L X y name tune rcond tol maxit r : robustfit L X y name tune rcond tol maxit = Ok r ->
  exists P, l_pinv L X = Ok P /\ leverage L X = Ok (rf_leverage r).
Proof.
  unfold robustfit. intros H. inv_bind H. inv_bind H. inv_bind H. inv_bind H. inv_bind H.
  destruct a3 as [[[[ls w] resid] iters] st]. apply Ok_inj in H. subst r. cbn [rf_leverage].
  assert (G := Ha1). unfold leverage in G. inv_bind G. eexists. split; eassumption || reflexivity.
Qed.

Lemma top_passes L t u v lat opts sm c : analysis L t u v lat opts sm c -> approximate (c_opt c) = false ->
  (forall rc, lstsq_contract L rc) -> o_method (c_opt c) <> PStr "ols" ->
  exists k d name tune rcond tol maxit phi tn X lev P h b rms n,
    o_robust_kw (c_opt c) = PDict k d /\ robust_settings d name tune rcond tol maxit /\
    weight_formula name = Some phi /\ tuning name tune tn /\ model_matrix c sm X /\
    l_pinv L X = Ok P /\ length lev = length sm /\
    (forall i, (i < length sm)%nat -> nth i lev 0 = Cmod (entry_at (mat_mul X P) i i)) /\
    passes phi tn lev X (map snd sm) h /\ (length h <= maxit)%nat /\
    ended phi tn lev X (map snd sm) tol maxit h b (c_weights c) rms n /\
    Forall2 (fun s row => length row = length b /\ yields c (fst s) (seen (c_opt c) (cdot row b))) sm X.
Proof.
  intros AN NA LC NO. destruct (analysis_run _ _ _ _ _ _ _ _ AN) as (_ & si & la & s & B & xraw & m & W & BH & S1 & S2 & S3).
  assert (HS := an_sorted _ _ _ _ _ _ _ _ AN).
  assert (F := bh_fit _ _ _ _ _ _ _ _ _ _ _ _ _ _ BH). unfold fit in F. inv_bind F.
  destruct (finite_mat a) as [B'|]; [|discriminate].
  assert (EM : eq_str (o_method (c_opt c)) "ols" = false).
  { destruct (o_method (c_opt c)) as [| | |x| | |]; try reflexivity. cbn. apply String.eqb_neq. congruence. }
  rewrite EM in F. inv_bind F. apply Ok_inj in F.
  assert (B' = B /\ raw_data (si_u si) (si_v si) = xraw /\ rf_b a0 = m /\ rf_w a0 = W) as (-> & E2 & E3 & E4) by (repeat split; congruence).
  rewrite E2 in Ha0. destruct (kw_settings _ _ _ _ _ Ha0) as (k & d & name & tune & rcond & tol & maxit & K1 & K2 & K3).
  assert (LX : length B = length xraw) by (symmetry; eapply len_rows; eauto).
  assert (LS : length sm = length B) by (rewrite LX, S2, map_length; reflexivity).
  destruct (fit_len _ _ _ _ _ _ _ _ _ _ _ _ _ (an_shape _ _ _ _ _ _ _ _ AN) (run_lens _ _ _ _ _ _ _ _ _ _ _ _ _ _ BH)
      (infer_none_R _ _ _ _ _ (bh_sel _ _ _ _ _ _ _ _ _ _ _ _ _ _ BH))
      (slv_data _ _ _ _ _ _ _ ltac:(destruct (an_samples _ _ _ _ _ _ _ _ AN) as (e & _ & SMP); eapply samples_arrays; exact SMP) (bh_slv _ _ _ _ _ _ _ _ _ _ _ _ _ _ BH))
      (bh_fit _ _ _ _ _ _ _ _ _ _ _ _ _ _ BH)) as ((D1 & D2) & _).
  assert (POS : (0 < ncoef (c_opt c) s)%nat) by (unfold ncoef; lia).
  assert (CX : exists row, In row B /\ row <> []).
  { assert (Hne := bh_t _ _ _ _ _ _ _ _ _ _ _ _ _ _ BH). destruct B as [|row B1]; [destruct (si_t si); [congruence|discriminate]|].
    exists row. split; [now left|]. intros ->. specialize (D2 [] (or_introl eq_refl)). cbn in D2. lia. }
  destruct (robust_history _ _ _ _ _ _ _ _ _ K3 (LC _) LX CX) as (phi & tn & h & Hp & Ht & PS & Lh & E & _).
  assert (PIN : exists P, l_pinv L B = Ok P /\ leverage L B = Ok (rf_leverage a0)) by (eapply run_leverage; exact K3).
  destruct PIN as (P & P1 & P2). destruct (leverage_spec _ _ _ _ P1 P2) as (G1 & G2).
  assert (Q := paired _ _ _ _ _ _ _ _ _ _ _ _ _ _ BH sm S1).
  exists k, d, name, tune, rcond, tol, maxit, phi, tn, B, (rf_leverage a0), P, h, m, (rf_rms_resid a0), (rf_iterations a0).
  split; [exact K1|]. split; [exact K2|]. split; [exact Hp|]. split; [exact Ht|]. split.
  { constructor; [now symmetry|exists (ncoef (c_opt c) s); split; [exact POS|]; apply Forall_forall; exact D2|].
    intros c' Rv. destruct (rival_yields _ _ _ _ _ _ _ _ _ _ _ _ _ _ BH HS NA c' Rv) as (kk & M & Y). exists kk.
    split; [intros row Hr; rewrite (mt_len _ _ _ _ _ M); now apply D2|].
    clear - Q Y. induction Q; constructor; auto. }
  split; [exact P1|]. split; [now rewrite LS|]. split; [rewrite LS; exact G2|].
  rewrite <- S2. split; [exact PS|]. split; [exact Lh|].
  split; [rewrite (bh_wt _ _ _ _ _ _ _ _ _ _ _ _ _ _ BH), <- E3, <- E4; exact E|].
  assert (Y : forall x row, good_row (si_tref si) (si_lor si) la (c_opt c) s x row -> yields c x (seen (c_opt c) (cdot row m))).
  { intros x row G. exact (own_yields _ _ _ _ _ _ _ _ _ _ _ _ _ _ BH HS NA x row G). }
  assert (LB : forall row, In row B -> length row = length m) by (intros row Hr; rewrite (bh_len _ _ _ _ _ _ _ _ _ _ _ _ _ _ BH); now apply D2).
  clear - Q Y LB. induction Q; constructor; [|apply IHQ; intros row Hr; apply LB; now right].
  split; [apply LB; now left|]. now apply Y.
Qed.

Lemma run_settings L t u v lat opts sm c m kw : analysis L t u v lat opts sm c -> approximate (c_opt c) = false ->
  (forall rc, lstsq_contract L rc) -> setting opts "method" m -> m <> PStr "ols" -> setting opts "robust_kw" kw ->
  exists k d name tune rcond tol maxit phi tn X lev P h b rms n,
    kw = PDict k d /\ robust_settings d name tune rcond tol maxit /\
    weight_formula name = Some phi /\ tuning name tune tn /\ model_matrix c sm X /\
    l_pinv L X = Ok P /\ length lev = length sm /\
    (forall i, (i < length sm)%nat -> nth i lev 0 = Cmod (entry_at (mat_mul X P) i i)) /\
    passes phi tn lev X (map snd sm) h /\ (length h <= maxit)%nat /\
    ended phi tn lev X (map snd sm) tol maxit h b (c_weights c) rms n /\
    Forall2 (fun s row => length row = length b /\ yields c (fst s) (seen (c_opt c) (cdot row b))) sm X.
Proof.
  intros AN NA LC SM NO SK.
  assert (EM := set_method _ _ _ _ _ _ (an_keys _ _ _ _ _ _ _ _ AN) _ (an_solve _ _ _ _ _ _ _ _ AN) _ SM).
  assert (EK := set_robust_kw _ _ _ _ _ _ (an_keys _ _ _ _ _ _ _ _ AN) _ (an_solve _ _ _ _ _ _ _ _ AN) _ SK).
  rewrite <- EM in NO. destruct (top_passes _ _ _ _ _ _ _ _ AN NA LC NO) as (k & d & Q). exists k, d.
  rewrite EK in Q. exact Q.
Qed.

Lemma cauchy_settings name tune rcond tol maxit : robust_settings [("weight_function", PStr "cauchy")] name tune rcond tol maxit ->
  name = "cauchy" /\ tune = None /\ rcond = PNum 1 /\ tol = 0.001 /\ maxit = 50%nat.
Proof.
  intros []. assert (N : forall k v x, k <> "weight_function" -> (forall y, entry robust_documented k y -> y = x) ->
    kw_setting [("weight_function", PStr "cauchy")] k v -> v = x).
  { intros k v x Nk One [[H|[]]|[_ H]]; [injection H; congruence|auto]. }
  assert (R1 := N "rcond" _ _ ltac:(discriminate) one_rcond rs_rcond).
  destruct rs_tol as (vt & T1 & T2). apply (N "tol" _ _ ltac:(discriminate) one_tol) in T1. subst vt.
  destruct rs_maxit as (vm & M1 & M2). apply (N "maxit" _ _ ltac:(discriminate) one_maxit) in M1. subst vm.
  split; [|split; [|split; [exact R1|split]]].
  - destruct rs_name as [[H|[]]|[H _]]; [injection H; congruence|]. destruct H. now left.
  - destruct tune as [x|]; [|reflexivity]. destruct rs_tune as (v & V1 & V2). apply (N "tune" _ _ ltac:(discriminate) one_tune) in V1. subst v. inversion V2.
  - inversion T2. lra.
  - apply INR_eq. assert (E : INR maxit = 50) by (now inversion M2). rewrite E. cbn. lra.
Qed.
Lemma run_default L t u v lat opts sm c m : analysis L t u v lat opts sm c -> approximate (c_opt c) = false ->
  (forall rc, lstsq_contract L rc) -> setting opts "method" m -> m <> PStr "ols" -> ~ In "robust_kw" (keys opts) ->
  exists X lev P h b rms n, model_matrix c sm X /\ l_pinv L X = Ok P /\ length lev = length sm /\
    (forall i, (i < length sm)%nat -> nth i lev 0 = Cmod (entry_at (mat_mul X P) i i)) /\
    passes (fun r => 1 / (1 + r ^ 2)) 2.385 lev X (map snd sm) h /\ (length h <= 50)%nat /\
    ended (fun r => 1 / (1 + r ^ 2)) 2.385 lev X (map snd sm) 0.001 50 h b (c_weights c) rms n /\
    Forall2 (fun s row => length row = length b /\ yields c (fst s) (seen (c_opt c) (cdot row b))) sm X.
Proof.
  intros AN NA LC SM NO NK.
  assert (SK : setting opts "robust_kw" (PDict false [("weight_function", PStr "cauchy")])) by (right; split; [exact NK|cbn; auto 20]).
  destruct (run_settings _ _ _ _ _ _ _ _ _ _ AN NA LC SM NO SK) as
    (k & d & name & tune & rcond & tol & maxit & phi & tn & X & lev & P & h & b & rms & n & E & RS & Hp & Ht & R1 & R2 & R3 & R4 & R5 & R6 & R7 & R8).
  assert (Ed : d = [("weight_function", PStr "cauchy")]) by congruence. subst d. destruct (cauchy_settings _ _ _ _ _ RS) as (-> & -> & -> & -> & ->).
  cbn in Hp. apply Some_eq in Hp. subst phi. cbn in Ht. apply Some_eq in Ht. subst tn.
  exists X, lev, P, h, b, rms, n. repeat (split; [assumption|]). assumption.
Qed.
