(** Two analyses of the same times: the fits solve the same system, and combinations of data give combinations of coefficients. *)
From Coq Require Import Lia Lra Permutation.
From Verif Require Import M_Base M_Bunch M_Lib M_Tables M_Const M_Options M_Time M_Slvinit M_Harmonics M_Select M_Ellipse
  M_Robust M_Period M_Conf M_Diag M_Solve M_Recon S_Dict S_Options S_Order S_Basis S_Select S_Fit S_Ellipse S_Slv S_Recon S_Model
  L_Base L_Options L_SolveInv L_OptSolve L_Slv L_Slv2 L_Order L_Select L_Fit L_Align L_SelOrder L_Basis L_Angle L_Ellipse L_Recon L_Recon2 L_Recon3 L_Core
  L_Ellipse2 L_Model L_Lsq L_Model2 L_Model3 L_Model4 L_Model5 L_Model6 L_Model7 L_Model8 L_Model9 L_Model10 L_Model11 L_Model12 L_Model15.
Open Scope R_scope.
Open Scope string_scope.

(** combinations of lists of numbers *)
Definition lin2 (al be : C) (x y : list C) : list C := map (fun p => Cplus (Cmult al (fst p)) (Cmult be (snd p))) (combine x y).
Definition pair2 (al be : C) (p q : C * C) : C * C :=
  (Cplus (Cmult al (fst p)) (Cmult be (fst q)), Cplus (Cmult al (snd p)) (Cmult be (snd q))).

Lemma lin2_len al be x y : length y = length x -> length (lin2 al be x y) = length x.
Proof. intros H. unfold lin2. rewrite map_length, combine_length. lia. Qed.
Lemma lin2_app al be a b c d : length c = length a -> lin2 al be (a ++ b) (c ++ d) = (lin2 al be a c ++ lin2 al be b d)%list.
Proof. intros H. unfold lin2. rewrite combine_app by auto. apply map_app. Qed.
Lemma lin2_dot al be row a b : length b = length a -> cdot row (lin2 al be a b) = Cplus (Cmult al (cdot row a)) (Cmult be (cdot row b)).
Proof.
  unfold cdot, csum, lin2. revert a b. induction row as [|x row IH]; intros [|y a] [|z b] H; try discriminate; cbn [map combine fold_right fst snd]; try ring.
  rewrite IH by now injection H. ring.
Qed.

Lemma lin2_best al be B x y a b : length x = length B -> length y = length B -> length b = length a ->
  best (sys B x) a -> best (sys B y) b -> best (sys B (lin2 al be x y)) (lin2 al be a b).
Proof.
  intros Lx Ly L Ha Hb. apply orth_best. intros d Hd. rewrite lin2_len in Hd by assumption.
  assert (O1 := best_orth _ _ Ha (map (Cmult (Cconj al)) d) ltac:(rewrite map_length; congruence)).
  assert (O2 := best_orth _ _ Hb (map (Cmult (Cconj be)) d) ltac:(rewrite map_length; congruence)).
  rewrite <- (Rplus_0_r 0), <- O1 at 1. rewrite <- O2. clear - Lx Ly L. unfold ip, sys. revert x y Lx Ly.
  induction B as [|row B IH]; intros [|p x] [|q y] Lx Ly; try discriminate; [unfold rsum; cbn; ring|].
  injection Lx as Lx. injection Ly as Ly. unfold lin2 in *. cbn [combine map]. rewrite !rsum_cons, (IH x y) by assumption.
  unfold resid. cbn [fst snd]. rewrite !cdot_scal. fold (lin2 al be a b). rewrite lin2_dot by assumption.
  repeat match goal with |- context [rsum ?l] => generalize (rsum l); intros ? end.
  generalize (cdot row a) (cdot row b) (cdot row d). intros [a1 a2] [b1 b2] [d1 d2]. destruct p as [p1 p2], q as [q1 q2], al as [l1 l2], be as [e1 e2].
  unfold Cminus, Cplus, Copp, Cmult, Cconj. cbn [fst snd]. ring.
Qed.

Lemma inferred_lin2 al be (f : refstruct -> list C) Rs : forall x y, length y = length x ->
  inferred_coefs (map f Rs) (lin2 al be x y) = lin2 al be (inferred_coefs (map f Rs) x) (inferred_coefs (map f Rs) y).
Proof.
  induction Rs as [|r Rs IH]; intros [|x xs] [|y ys] H; try discriminate; try reflexivity. injection H as H.
  unfold inferred_coefs in *. unfold lin2 in *. cbn [map combine List.concat fst snd]. rewrite IH by assumption.
  fold (lin2 al be (map (fun z => Cmult z x) (f r) ++ List.concat (map (fun p => map (fun z => Cmult z (snd p)) (fst p)) (combine (map f Rs) xs)))
         (map (fun z => Cmult z y) (f r) ++ List.concat (map (fun p => map (fun z => Cmult z (snd p)) (fst p)) (combine (map f Rs) ys)))).
  rewrite lin2_app by now rewrite !map_length. unfold lin2 at 1. f_equal. clear. induction (f r) as [|z l IH]; [reflexivity|]. cbn [map combine fst snd]. rewrite <- IH. f_equal. ring.
Qed.
Lemma combine_lin2 al be (a b p q : list C) : length p = length a -> length q = length b ->
  combine (lin2 al be a p) (lin2 al be b q) = map (fun z => pair2 al be (fst z) (snd z)) (combine (combine a b) (combine p q)).
Proof.
  unfold lin2. revert b p q. induction a as [|x a IH]; intros [|y b] [|z p] [|w q] H1 H2; try discriminate; try reflexivity.
  cbn [combine map fst snd]. rewrite IH by (cbn in *; lia). reflexivity.
Qed.

Lemma cat_lin2 al be tr a b p q mn sl a' b' p' q' mn' sl' : length a' = length a -> length b' = length b -> length p' = length p -> length q' = length q ->
  lin2 al be (cat_m tr a b p q mn sl) (cat_m tr a' b' p' q' mn' sl') =
  cat_m tr (lin2 al be a a') (lin2 al be b b') (lin2 al be p p') (lin2 al be q q') (Cplus (Cmult al mn) (Cmult be mn')) (Cplus (Cmult al sl) (Cmult be sl')).
Proof.
  intros A1 A2 A3 A4. unfold cat_m. rewrite lin2_app by (rewrite !app_length; lia). rewrite lin2_app by (rewrite !app_length; lia). rewrite lin2_app by assumption.
  rewrite lin2_app by assumption. f_equal. f_equal. destruct tr; reflexivity.
Qed.

Lemma lin2_vec (tr : bool) s al be m k : length m = (2 * (s_nNR s + s_nR s) + 1 + (if tr then 1 else 0))%nat -> length k = length m ->
  all_pm (lin2 al be m k) s = map (fun z => pair2 al be (fst z) (snd z)) (combine (all_pm m s) (all_pm k s)) /\
  m_last (lin2 al be m k) (if tr then 2 else 1)%nat = Cplus (Cmult al (m_last m (if tr then 2 else 1)%nat)) (Cmult be (m_last k (if tr then 2 else 1)%nat)) /\
  (tr = true -> m_last (lin2 al be m k) 1 = Cplus (Cmult al (m_last m 1)) (Cmult be (m_last k 1))).
Proof.
  intros Hm Hk. assert (Hk' := eq_trans Hk Hm).
  destruct (split_m tr _ _ m Hm) as (a & b & p & q & mn & sl & -> & La & Lb & Lp & Lq).
  destruct (split_m tr _ _ k Hk') as (a' & b' & p' & q' & mn' & sl' & -> & La' & Lb' & Lp' & Lq').
  rewrite cat_lin2 by congruence.
  destruct (cat_last tr a b p q mn sl) as [C1 C2]. destruct (cat_last tr a' b' p' q' mn' sl') as [D1 D2].
  match goal with |- context [m_last (cat_m tr ?a ?b ?c ?d ?e ?f) 1] => destruct (cat_last tr a b c d e f) as [F1 F2] end.
  rewrite F1, C1, D1. split; [|split; [reflexivity|intros T; now rewrite (F2 T), (C2 T), (D2 T)]].
  rewrite !cat_pm by (rewrite ?lin2_len; congruence). rewrite !inferred_lin2 by congruence. rewrite !combine_lin2; try congruence.
  - assert (E1 : length (combine a b) = length (combine a' b')) by (rewrite !combine_length; congruence).
    assert (E2 : length (combine p q) = length (combine p' q')) by (rewrite !combine_length; congruence).
    rewrite !combine_app by assumption. now rewrite !map_app.
  - assert (G : forall (f : refstruct -> list C) Rs (x y : list C), length x = length y -> length (inferred_coefs (map f Rs) x) = length (inferred_coefs (map f Rs) y)).
    { clear. unfold inferred_coefs. induction Rs as [|r Rs IH]; intros [|x xs] [|y ys] H; try discriminate; auto. cbn [map combine List.concat fst snd].
      rewrite !app_length, !map_length. f_equal. apply IH. now injection H. }
    apply G. congruence.
  - assert (G : forall (f : refstruct -> list C) Rs (x y : list C), length x = length y -> length (inferred_coefs (map f Rs) x) = length (inferred_coefs (map f Rs) y)).
    { clear. unfold inferred_coefs. induction Rs as [|r Rs IH]; intros [|x xs] [|y ys] H; try discriminate; auto. cbn [map combine List.concat fst snd].
      rewrite !app_length, !map_length. f_equal. apply IH. now injection H. }
    apply G. congruence.
Qed.

(** ** two analyses of the same times *)
Lemma coupled L t u v u' v' lat opts sm sm' c c' :
  analysis L t u v lat opts sm c -> analysis L t u' v' lat opts sm' c' -> map fst sm' = map fst sm -> o_infer (c_opt c') = o_infer (c_opt c) ->
  flags_of (c_opt c') = flags_of (c_opt c) /\ o_notrend (c_opt c') = o_notrend (c_opt c) /\ o_method (c_opt c') = o_method (c_opt c) /\
  exists si si' la s B m m' W W',
    behind L t u v lat opts c si la s B (map snd sm) m W /\ behind L t u' v' lat opts c' si' la s B (map snd sm') m' W' /\
    si_t si = map fst sm /\ si_t si' = map fst sm /\ si_tref si' = si_tref si /\ si_lor si' = si_lor si /\
    (o_twodim (c_opt c) = false -> forall x, In x sm -> snd (snd x) = 0) /\ (o_twodim (c_opt c') = false -> forall x, In x sm' -> snd (snd x) = 0).
Proof.
  intros AN AN' ES EI.
  destruct (analysis_run _ _ _ _ _ _ _ _ AN) as (_ & si & la & s & B & xraw & m & W & BH & S1 & S2 & S3).
  destruct (analysis_run _ _ _ _ _ _ _ _ AN') as (_ & si' & la' & s' & B' & xraw' & m' & W' & BH' & S1' & S2' & S3').
  destruct (solve_opt _ _ _ _ _ _ _ (an_solve _ _ _ _ _ _ _ _ AN)) as (compat & sx & O1 & O2 & O3).
  destruct (solve_opt _ _ _ _ _ _ _ (an_solve _ _ _ _ _ _ _ _ AN')) as (compat' & sx' & O1' & O2' & O3').
  destruct (used_options opts (is2d v) (si_equi sx) (an_keys _ _ _ _ _ _ _ _ AN) compat _ O1 O3) as
      (_ & _ & _ & _ & _ & _ & _ & _ & U1 & U2 & U3 & U4 & U5 & U6 & U7 & _ & U8 & _ & U9 & _ & _).
  destruct (used_options opts (is2d v') (si_equi sx') (an_keys _ _ _ _ _ _ _ _ AN) compat' _ O1' O3') as
      (_ & _ & _ & _ & _ & _ & _ & _ & U1' & U2' & U3' & U4' & U5' & U6' & U7' & _ & U8' & _ & U9' & _ & _).
  assert (SI := bh_slv _ _ _ _ _ _ _ _ _ _ _ _ _ _ BH). assert (SI' := bh_slv _ _ _ _ _ _ _ _ _ _ _ _ _ _ BH').
  rewrite U9', <- U9 in SI'. assert (Et : si_t si = si_t si') by congruence.
  destruct (same_slv _ _ _ _ _ _ _ _ _ _ _ SI SI' Et) as (E1 & E2 & E3).
  assert (EF : flags_of (c_opt c') = flags_of (c_opt c)) by (unfold flags_of; congruence).
  assert (EN : o_notrend (c_opt c') = o_notrend (c_opt c)) by congruence.
  assert (El : la' = la). { assert (X := bh_lat _ _ _ _ _ _ _ _ _ _ _ _ _ _ BH). assert (X' := bh_lat _ _ _ _ _ _ _ _ _ _ _ _ _ _ BH'). congruence. }
  assert (Es : s' = s).
  { assert (X := bh_sel _ _ _ _ _ _ _ _ _ _ _ _ _ _ BH). assert (X' := bh_sel _ _ _ _ _ _ _ _ _ _ _ _ _ _ BH').
    assert (ER : o_rmin (c_opt c') = o_rmin (c_opt c)) by (rewrite U7 in U7'; apply Ok_inj in U7'; congruence).
    rewrite EI, ER, U1', <- U1, E1, E2, X in X'. apply Ok_inj in X'. congruence. }
  subst s' la'.
  destruct (run_rows _ _ _ _ _ _ _ _ _ _ _ _ _ _ BH) as (G & _ & _). destruct (run_rows _ _ _ _ _ _ _ _ _ _ _ _ _ _ BH') as (G' & _ & _).
  assert (EB : B' = B).
  { rewrite E1, E2, <- Et in G'. assert (GR : forall x row, good_row (si_tref si) (si_lor si) la (c_opt c') s x row -> good_row (si_tref si) (si_lor si) la (c_opt c) s x row).
    { intros x row. unfold good_row, is_approx. now rewrite EF, EN, EI. }
    assert (G2 : Forall2 (good_row (si_tref si) (si_lor si) la (c_opt c) s) (si_t si) B') by (clear - G' GR; induction G'; constructor; auto).
    clear G'. rename G2 into G'. eapply forall2_det; [|exact G'|exact G]. intros x y z Hy Hz. unfold good_row in *. rewrite Hy in Hz. now apply somes_inj in Hz. }
  subst B' xraw xraw'. split; [exact EF|]. split; [exact EN|]. split; [congruence|].
  exists si, si', la, s, B, m, m', W, W'. repeat (split; [first [assumption | congruence]|]). assumption.
Qed.

(** the vector of the reported coefficients solves the least squares problem *)
Section Run.
Variables (L : lib) (t : pyarr tarray) (u : pyarr (list xr)) (v : option (pyarr (list xr))) (lat : option R) (opts : dict pyval) (c : coef).
Variables (si : slv) (la : R) (s : sel) (B : list (list C)) (sm : list (R * C)) (m : list C) (W : list xr).
Hypothesis BH : behind L t u v lat opts c si la s B (map snd sm) m W.
Hypothesis HS : sorted_order (opt_value opts "order_constit").
Hypothesis NA : approximate (c_opt c) = false.
Hypothesis LM : lstsq_minimises L.
Hypothesis OLS : o_method (c_opt c) = PStr "ols".
Hypothesis S1 : si_t si = map fst sm.
Hypothesis S3 : o_twodim (c_opt c) = false -> forall x, In x sm -> snd (snd x) = 0.

Lemma own_best : exists k, matches c si s c k /\ best (sys B (map snd sm)) k.
Proof.
  destruct (own_vector _ _ _ _ _ _ _ _ _ _ _ _ _ _ BH HS NA) as (k & M & RV & V & _). exists k. split; [exact M|].
  intros m' Hm. eapply Rle_trans; [|apply (run_best _ _ _ _ _ _ _ _ _ _ _ _ _ _ BH LM OLS m')].
  2: { rewrite Hm, (mt_len _ _ _ _ _ M). symmetry. apply BH. }
  assert (P := paired _ _ _ _ _ _ _ _ _ _ _ _ _ _ BH sm S1). clear - P V S3. unfold sys, nrm, resid.
  revert S3. induction P as [|x row l B' G P IH]; intros S3; [right; reflexivity|]. cbn [map combine]. rewrite !rsum_cons. apply Rplus_le_compat.
  - cbn [fst snd]. rewrite (V _ _ G). unfold vis1. destruct (o_twodim (c_opt c)); [right; reflexivity|].
    assert (H := S3 eq_refl x (or_introl eq_refl)). destruct (cdot row m) as [a b], (snd x) as [y z]. cbn in *. subst z. nra.
  - apply IH. intros T y Hy. apply S3; [exact T|now right].
Qed.

Lemma own_independent (ID : identifiable c (map fst sm)) (ND : NoDup (c_name c)) y : length y = length B -> independent (sys B y) (ncoef (c_opt c) s).
Proof.
  intros Ly. assert (LR := len_rows _ _ _ _ _ _ _ _ _ _ _ _ _ _ BH sm S1 eq_refl).
  assert (IND := run_independent _ _ _ _ _ _ _ _ _ _ _ _ _ _ BH HS NA (map fst sm) ltac:(intros; rewrite S1; tauto) ID ND LR).
  intros d Hd Z. apply (IND d Hd). intros p Hp. unfold sys in *. destruct p as [row z]. cbn [fst].
  assert (exists y', In (row, y') (combine B y)) as (y' & Hy').
  { apply in_combine_l in Hp. clear - Hp Ly. revert y Ly Hp. induction B as [|r B' IH]; intros [|q l] E H; try discriminate; [destruct H..|].
    destruct H as [->|H]; [exists q; now left|]. destruct (IH l ltac:(now injection E) H) as (y' & Hy). exists y'. now right. }
  exact (Z _ Hy').
Qed.

Lemma own_names (ND : NoDup (c_name c)) : NoDup (s_name s) /\ Permutation (c_name c) (s_name s).
Proof.
  assert (SL := run_lens _ _ _ _ _ _ _ _ _ _ _ _ _ _ BH). assert (WF := bh_wf _ _ _ _ _ _ _ _ _ _ _ _ _ _ BH).
  assert (A2 : length (c_lind c) = length (c_name c)) by apply WF.
  assert (TR := bh_tri _ _ _ _ _ _ _ _ _ _ _ _ _ _ BH HS). apply (Permutation_map (fun x => fst (fst x))) in TR.
  rewrite <- !(map_map fst fst) in TR. rewrite triples_fst in TR by assumption.
  rewrite combine_fst in TR by congruence.
  rewrite combine_fst in TR by (rewrite map_length, (bh_pm _ _ _ _ _ _ _ _ _ _ _ _ _ _ BH), combine_length, (ln_lind _ SL); lia).
  rewrite combine_fst in TR by (now rewrite (ln_lind _ SL)). split; [eapply Permutation_NoDup; eauto|exact TR].
Qed.
End Run.

(** ** what follows from a combination of the coefficient vectors *)
Lemma row_at (c : coef) names linds (pq : list (C * C)) r n i : well_formed c -> Permutation (triples c) (combine (combine names linds) pq) ->
  NoDup names -> length linds = length names -> length pq = length names -> In r (rows c) -> w_name r = Some n -> nth_error names i = Some n ->
  w_lind r = nth_error linds i /\ rotary r = nth_error pq i.
Proof.
  intros Wf P ND L1 L2 Hr Hn Hi. apply (in_map triple) in Hr. rewrite triples_rows in Hr by assumption. apply in_map_iff in Hr.
  destruct Hr as ([[n' l'] pq'] & E & Ht). unfold triple in E. cbn [fst snd] in E. injection E as E1 E2 E3. rewrite Hn in E1. injection E1 as ->.
  apply (Permutation_in _ P) in Ht. apply In_nth_error in Ht. destruct Ht as (j & Hj).
  assert (K : nth_error names j = Some n /\ nth_error linds j = Some l' /\ nth_error pq j = Some pq').
  { clear - Hj. revert linds pq j Hj. induction names as [|x ns IH]; intros [|y ls] [|z ps] [|j] H; try discriminate; cbn in H |- *.
    - injection H as -> -> ->. auto.
    - now apply IH. }
  destruct K as (K1 & K2 & K3).
  assert (j = i).
  { eapply NoDup_nth_error; [exact ND| |congruence]. apply nth_error_Some. congruence. }
  subst j. split; congruence.
Qed.

Definition valC (c : coef) (x : R) : option C := option_map (fun z => Cplus z (bgC c x)) (tides c x (rows c)).
Definition xfst (o : option C) : xr := match o with Some z => Fin (fst z) | None => NaN end.
Definition xsnd (o : option C) : xr := match o with Some z => Fin (snd z) | None => NaN end.

Lemma all_some_map {A} (l : list (option A)) r : all_some l = Some r -> l = map Some r.
Proof.
  revert r. induction l as [|[a|] l IH]; intros r H; cbn in H; try discriminate.
  - injection H as <-. reflexivity.
  - destruct (all_some l) as [k|]; [|discriminate]. injection H as <-. cbn. f_equal. now apply IH.
Qed.

Lemma tides_defined c x : well_formed c -> (exists es, map (e_of c x) (c_lind c) = map Some es) \/
  (tides c x (rows c) = None /\ exists i, In i (c_lind c) /\ e_of c x i = None).
Proof.
  intros Wf. destruct (all_some (map (e_of c x) (c_lind c))) as [es|] eqn:E.
  - left. exists es. now apply all_some_map.
  - right. split.
    + unfold rows. rewrite <- (fit_row_tides c x (seq 0 (length (c_name c))) Wf) by (intros i Hi; apply in_seq in Hi; lia).
      assert (A := wf_aligned _ Wf). destruct A as (_ & A2 & _).
      rewrite (map_nth_seq (basis_at (flags_of (c_opt c)) (c_reftime c) (c_lat c) x)) by assumption.
      change (map (basis_at (flags_of (c_opt c)) (c_reftime c) (c_lat c) x) (c_lind c)) with (map (e_of c x) (c_lind c)).
      unfold fit_row. now rewrite E.
    + clear - E. induction (c_lind c) as [|i l IH]; [discriminate|]. cbn [map all_some] in E.
      destruct (e_of c x i) eqn:Ei; [|exists i; split; [now left|exact Ei]].
      destruct (all_some (map (e_of c x) l)) eqn:El; [discriminate|]. destruct (IH eq_refl) as (j & J1 & J2). exists j. split; [now right|exact J2].
Qed.

Lemma recon_valC c x : well_formed c -> recon_u c x = xfst (valC c x) /\ (o_twodim (c_opt c) = true -> recon_v c x = xsnd (valC c x)) /\
  (o_twodim (c_opt c) = false -> forall z, valC c x = Some z -> snd z = 0).
Proof.
  intros Wf. destruct (tides_defined c x Wf) as [(es & E)|(T & _)].
  - destruct (recon_vals c x es Wf E) as (R1 & R2 & R3). destruct (tides_hsum c x es Wf E) as (T & _). unfold valC. rewrite T. cbn [option_map xfst xsnd].
    split; [exact R1|]. split; [exact R2|]. intros D z H. apply (f_equal (fun o => match o with Some w => snd w | None => 0 end)) in H. rewrite <- H. now apply R3.
  - unfold valC. rewrite T. unfold recon_u, recon_v, value_u, value_v. rewrite all_chosen, T. cbn. split; [reflexivity|]. split; [reflexivity|]. intros _ z H. discriminate.
Qed.
