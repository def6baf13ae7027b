(** Least squares: optimality, orthogonality, exact recovery. *)
From Coq Require Import Lia Lra Permutation.
From Verif Require Import M_Base M_Bunch M_Lib M_Tables M_Const M_Options M_Time M_Slvinit M_Harmonics M_Select M_Ellipse
  M_Robust M_Period M_Conf M_Diag M_Solve M_Recon S_Dict S_Options S_Order S_Basis S_Select S_Fit S_Ellipse S_Slv S_Recon S_Model
  L_Base L_Options L_SolveInv L_OptSolve L_Slv2 L_Order L_Select L_Fit L_Align L_SelOrder L_Basis L_Angle L_Ellipse L_Recon L_Recon2 L_Recon3 L_Core
  L_Model L_Lsq L_Model2 L_Model3 L_Model4 L_Model5 L_Model6 L_Model7.
Open Scope R_scope.
Open Scope string_scope.

Lemma inferred_scal w (f : refstruct -> list C) Rs refs : inferred_coefs (map f Rs) (map (Cmult w) refs) = map (Cmult w) (inferred_coefs (map f Rs) refs).
Proof.
  revert refs. induction Rs as [|r Rs IH]; intros [|x refs]; try reflexivity. unfold inferred_coefs in *.
  cbn [map combine List.concat fst snd]. rewrite map_app, IH. f_equal. rewrite map_map. apply map_ext. intros; ring.
Qed.
Lemma cat_scal w tr a b p q mn sl : map (Cmult w) (cat_m tr a b p q mn sl) =
  cat_m tr (map (Cmult w) a) (map (Cmult w) b) (map (Cmult w) p) (map (Cmult w) q) (Cmult w mn) (Cmult w sl).
Proof. unfold cat_m. rewrite !map_app. destruct tr; reflexivity. Qed.
Lemma combine_scal w (a b : list C) : combine (map (Cmult w) a) (map (Cmult w) b) = map (fun pq => (Cmult w (fst pq), Cmult w (snd pq))) (combine a b).
Proof. revert b. induction a as [|x a IH]; intros [|y b]; cbn; auto. now f_equal. Qed.
Lemma cdot_scal row w d : cdot row (map (Cmult w) d) = Cmult w (cdot row d).
Proof.
  unfold cdot, csum. revert d. induction row as [|x row IH]; intros [|y d]; cbn [map combine fold_right fst snd]; try ring.
  rewrite IH. ring.
Qed.

Lemma scale_vec (tr : bool) nNR nR s w k : length k = (2 * (nNR + nR) + 1 + (if tr then 1 else 0))%nat -> s_nNR s = nNR -> s_nR s = nR ->
  all_pm (map (Cmult w) k) s = map (fun pq => (Cmult w (fst pq), Cmult w (snd pq))) (all_pm k s) /\
  m_last (map (Cmult w) k) (if tr then 2 else 1)%nat = Cmult w (m_last k (if tr then 2 else 1)%nat) /\
  (tr = true -> m_last (map (Cmult w) k) 1 = Cmult w (m_last k 1)).
Proof.
  intros Hk E1 E2. destruct (split_m tr nNR nR k Hk) as (a & b & p & q & mn & sl & -> & La & Lb & Lp & Lq). rewrite cat_scal.
  destruct (cat_last tr a b p q mn sl) as [C1 C2].
  destruct (cat_last tr (map (Cmult w) a) (map (Cmult w) b) (map (Cmult w) p) (map (Cmult w) q) (Cmult w mn) (Cmult w sl)) as [D1 D2].
  rewrite C1, D1. split; [|split; [reflexivity|intros T; rewrite (C2 T), (D2 T); reflexivity]].
  rewrite !cat_pm by (rewrite ?map_length; congruence). rewrite !inferred_scal, !combine_scal, !map_app. reflexivity.
Qed.

Lemma zero_pair p q : visible false (p, q) = (RtoC 0, RtoC 0) -> visible false (Cmult (0, -1) p, Cmult (0, -1) q) = (RtoC 0, RtoC 0) ->
  (p, q) = (RtoC 0, RtoC 0).
Proof.
  destruct p as [a b], q as [e d]. unfold visible. cbv zeta. unfold Cplus, Cmult, Cconj, RtoC. cbn [fst snd]. intros H1 H2.
  injection H1 as H1 H1' _ _. injection H2 as H2 H2' _ _. assert (a = 0) by lra. assert (b = 0) by lra. assert (e = 0) by lra. assert (d = 0) by lra.
  subst. reflexivity.
Qed.

Lemma rows_combine (P : R -> list C -> Prop) ts B x : Forall2 P ts B -> length x = length B ->
  forall p, In p (sys B x) -> exists t, In t ts /\ P t (fst p).
Proof.
  unfold sys. intros F. revert x. induction F as [|t r ts B H F IH]; intros [|y x] Hl p Hp; try discriminate; [destruct Hp|].
  destruct Hp as [<-|Hp]; [exists t; split; [now left|exact H]|]. destruct (IH x ltac:(now injection Hl) p Hp) as (t' & T1 & T2).
  exists t'. split; [now right|auto].
Qed.

Section Run.
Variables (L : lib) (t : pyarr tarray) (u : pyarr (list xr)) (v : option (pyarr (list xr))) (lat : option R) (opts : dict pyval) (c : coef).
Variables (si : slv) (la : R) (s : sel) (B : list (list C)) (xraw m : list C) (W : list xr).
Hypothesis BH : behind L t u v lat opts c si la s B xraw m W.
Hypothesis HS : sorted_order (opt_value opts "order_constit").
Hypothesis NA : approximate (c_opt c) = false.

Notation tw := (o_twodim (c_opt c)).
Notation tr := (negb (o_notrend (c_opt c))).
Notation matches := (matches c si s).
Notation good := (good_row (si_tref si) (si_lor si) la (c_opt c) s).

Lemma good_rows : Forall2 good (si_t si) B. Proof. apply (run_rows _ _ _ _ _ _ _ _ _ _ _ _ _ _ BH). Qed.

Lemma run_zero ts k : (forall x, In x ts -> In x (si_t si)) -> (forall x, In x (si_t si) -> In x ts) ->
  identifiable c ts -> NoDup (c_name c) -> length k = ncoef (c_opt c) s -> real_vec c s k ->
  (forall x row, In x (si_t si) -> good x row -> cdot row k = RtoC 0) -> forall z, In z k -> z = RtoC 0.
Proof.
  intros I1 I2 ID ND Hk RV Z. destruct (vector_rival _ _ _ _ _ _ _ _ _ _ _ _ _ _ BH HS NA k Hk ND RV) as (c0 & Rv & M).
  apply (silent_vector _ _ _ _ _ _ _ _ _ _ _ _ _ _ BH NA c0 k (rv_wf _ _ Rv) M); [|apply Rv]. apply ID; auto.
  intros x Hx. apply I1 in Hx. assert (F := good_rows).
  assert (exists row, good x row) as (row & G).
  { clear - F Hx. induction F; [destruct Hx|]. destruct Hx as [<-|Hx]; eauto. }
  assert (Y := matches_yields _ _ _ _ _ _ _ _ _ _ _ _ _ _ BH NA c0 k x row (rv_wf _ _ Rv) (rv_opt _ _ Rv) (rv_reftime _ _ Rv) (rv_lat _ _ Rv) M G).
  rewrite (Z x row Hx G) in Y. destruct Y as [Y1 Y2]. rewrite (rv_opt _ _ Rv) in Y2. split; [exact Y1|]. intros E. now rewrite E in Y2.
Qed.

Lemma run_independent ts : (forall x, In x ts <-> In x (si_t si)) ->
  identifiable c ts -> NoDup (c_name c) -> length xraw = length B -> independent (sys B xraw) (ncoef (c_opt c) s).
Proof.
  intros I ID ND Lx d Hd Z.
  assert (F := good_rows).
  assert (Z' : forall x row, In x (si_t si) -> good x row -> cdot row d = RtoC 0).
  { intros x row Hx G. assert (exists row', In row' B /\ good x row') as (row' & Hr & G').
    { clear - F Hx. induction F; [destruct Hx|]. destruct Hx as [<-|Hx]; [exists y; split; [now left|assumption]|].
      destruct (IHF Hx) as (r & R1 & R2). exists r. split; [now right|auto]. }
    assert (row' = row) by (apply somes_inj; unfold good_row in *; congruence). subst row'.
    assert (exists y, In (row, y) (sys B xraw)) as (y & Hy).
    { clear - Hr Lx. unfold sys. revert xraw Lx. induction B as [|b l IH]; intros [|y x] Lx; try discriminate; [destruct Hr|].
      destruct Hr as [->|Hr]; [exists y; now left|]. destruct (IH Hr x ltac:(now injection Lx)) as (z & Hz). exists z. now right. }
    exact (Z _ Hy). }
  destruct tw eqn:E.
  - apply (run_zero ts); auto; try (intros; now apply I). intros E'. congruence.
  - assert (W1 := run_zero ts).
    assert (Hd' : length d = (2 * (s_nNR s + s_nR s) + 1 + (if tr then 1 else 0))%nat) by (rewrite Hd; unfold ncoef; destruct (o_notrend (c_opt c)); reflexivity).
    destruct (scale_vec tr _ _ s (0, -1) d Hd' eq_refl eq_refl) as (S1 & S2 & S3).
    destruct (visible_part _ _ _ _ _ _ _ _ _ _ _ _ _ _ BH NA d Hd) as (k1 & A1 & A2 & A3 & A4 & A5 & A6).
    destruct (visible_part _ _ _ _ _ _ _ _ _ _ _ _ _ _ BH NA (map (Cmult (0, -1)) d) ltac:(now rewrite map_length)) as (k2 & B1 & B2 & B3 & B4 & B5 & B6).
    assert (Z1 : forall z, In z k1 -> z = RtoC 0).
    { apply (run_zero ts); auto; try (intros; now apply I). intros x row Hx G. rewrite (A6 x row G), (Z' x row Hx G), E. reflexivity. }
    assert (Z2 : forall z, In z k2 -> z = RtoC 0).
    { apply (run_zero ts); auto; try (intros; now apply I). intros x row Hx G. rewrite (B6 x row G), cdot_scal, (Z' x row Hx G), E.
      unfold vis1. apply C_eq; cbn; ring. }
    assert (Zp : forall k, length k = ncoef (c_opt c) s -> (forall z, In z k -> z = RtoC 0) -> (forall pq, In pq (all_pm k s) -> pq = (RtoC 0, RtoC 0)) /\
      m_last k (if tr then 2 else 1)%nat = RtoC 0 /\ (tr = true -> m_last k 1 = RtoC 0)).
    { intros k Hk Zk. destruct (scale_vec tr (s_nNR s) (s_nR s) s (RtoC 0) k) as (T1 & T2 & T3); auto.
      { rewrite Hk; unfold ncoef; destruct (o_notrend (c_opt c)); reflexivity. }
      assert (Ek : map (Cmult (RtoC 0)) k = k).
      { rewrite <- (map_id k) at 2. apply map_ext_in. intros z Hz. rewrite (Zk z Hz). ring. }
      rewrite Ek in T1, T2, T3. split; [|split].
      - intros pq Hq. rewrite T1 in Hq. apply in_map_iff in Hq. destruct Hq as (x & <- & _). f_equal; ring.
      - rewrite T2. ring.
      - intros Ht. rewrite (T3 Ht). ring. }
    destruct (Zp k1 A1 Z1) as (P1 & P2 & P3). destruct (Zp k2 B1 Z2) as (Q1 & Q2 & Q3). rewrite E in *.
    assert (V0 : forall z, vis1 false z = RtoC 0 -> vis1 false (Cmult (0, -1) z) = RtoC 0 -> z = RtoC 0).
    { intros [x y] V1 V2. unfold vis1, RtoC, Cmult in *. cbn [fst snd] in *. injection V1 as V1. injection V2 as V2. f_equal; lra. }
    apply (vector_zero c s d).
    + exact Hd.
    + intros [p q] Hq. apply zero_pair.
      * apply P1. rewrite A3. now apply in_map.
      * apply Q1. rewrite B3, S1, map_map. exact (in_map (fun x : C * C => visible false (Cmult (0, -1) (fst x), Cmult (0, -1) (snd x))) _ _ Hq).
    + apply V0; [rewrite <- A4; exact P2|rewrite <- S2, <- B4; exact Q2].
    + intros Ht. apply V0; [rewrite <- (A5 Ht); exact (P3 Ht)|rewrite <- (S3 Ht), <- (B5 Ht); exact (Q3 Ht)].
Qed.

(** ** optimality *)
Hypothesis LM : lstsq_minimises L.
Hypothesis OLS : o_method (c_opt c) = PStr "ols".

Lemma run_best : best (sys B xraw) m.
Proof.
  destruct (run_rows _ _ _ _ _ _ _ _ _ _ _ _ _ _ BH) as (_ & _ & H). destruct (H OLS) as (r & k & sg & E).
  intros m' Hm. rewrite <- !norm2_sys. eapply LM; eauto.
Qed.

Variable sm : list (R * C).
Hypothesis S1 : si_t si = map fst sm.
Hypothesis S2 : xraw = map snd sm.
Hypothesis S3 : tw = false -> forall x, In x sm -> snd (snd x) = 0.

Lemma len_rows : length xraw = length B.
Proof. rewrite S2, map_length, <- (map_length fst sm), <- S1. assert (F := good_rows); clear - F; induction F; cbn; auto. Qed.

Lemma paired : Forall2 (fun x row => good (fst x) row) sm B.
Proof.
  assert (F := good_rows). rewrite S1 in F. clear - F. revert F. generalize B. induction sm as [|x l IH]; intros B' F; cbn [map] in F; inversion F; subst; constructor; auto.
Qed.

Lemma misfit_of c' (f : list C -> C) : (forall x row, good x row -> yields c' x (f row)) ->
  misfit c' sm (rsum (map (fun p => fst (Cminus (f (fst p)) (snd p)) ^ 2 + snd (Cminus (f (fst p)) (snd p)) ^ 2) (sys B xraw))).
Proof.
  intros Y. exists (map f B). assert (P := paired). split.
  - clear - P Y. induction P; cbn [map]; constructor; auto.
  - unfold norm2, csub, sys. rewrite S2. clear - P. induction P as [|x row l B' H P IH]; cbn [map combine]; [reflexivity|].
    rewrite !rsum_cons, IH. cbn [fst snd]. f_equal. unfold Cminus, Cplus, Copp. cbn [fst snd]. ring.
Qed.

Lemma run_optimal c' : rival c c' -> exists d d', misfit c sm d /\ misfit c' sm d' /\ d <= d'.
Proof.
  intros Rv. destruct (rival_yields _ _ _ _ _ _ _ _ _ _ _ _ _ _ BH HS NA c' Rv) as (k & M & Y).
  eexists _, _. split; [apply (misfit_of c (fun row => vis1 tw (cdot row m))); intros x row G; eapply own_yields; eauto|].
  split; [apply (misfit_of c' (fun row => cdot row k)); exact Y|].
  assert (BST := run_best k ltac:(rewrite (mt_len _ _ _ _ _ M); symmetry; apply BH)).
  eapply Rle_trans; [|exact BST]. unfold nrm, resid. clear - S3 S2 LM.
  assert (H : forall p, In p (sys B xraw) -> tw = false -> snd (snd p) = 0).
  { intros p Hp E. destruct p as [r x]. apply in_combine_r in Hp. cbn [snd]. rewrite S2 in Hp. apply in_map_iff in Hp. destruct Hp as (y & <- & Hy). now apply S3. }
  revert H. generalize (sys B xraw). induction l as [|p l IH]; intros H; [right; reflexivity|]. cbn [map]. rewrite !rsum_cons.
  assert (IH' := IH (fun q Hq => H q (or_intror Hq))). assert (H0 := H p (or_introl eq_refl)). apply Rplus_le_compat; [|exact IH'].
  unfold vis1. destruct tw; [right; reflexivity|]. specialize (H0 eq_refl). destruct (cdot (fst p) m) as [a b], (snd p) as [x y]. cbn in *. subst y. nra.
Qed.

(** ** exact recovery *)
Lemma run_exact c0 : rival c c0 -> Forall (fun x => yields c0 (fst x) (snd x)) sm -> Forall (fun x => yields c (fst x) (snd x)) sm.
Proof.
  intros Rv D. destruct (rival_yields _ _ _ _ _ _ _ _ _ _ _ _ _ _ BH HS NA c0 Rv) as (k & M & Y).
  assert (P := paired). assert (X := best_exact (sys B xraw) m k run_best ltac:(rewrite (mt_len _ _ _ _ _ M); symmetry; apply BH)).
  assert (Z : forall p, In p (sys B xraw) -> resid k p = RtoC 0).
  { unfold sys. rewrite S2. clear - D P Y. induction P as [|x row l B' G P IH]; [intros p []|]. apply Forall_cons_iff in D. destruct D as [D1 D2].
    intros p [<-|Hp]; [|now apply IH]. unfold resid. cbn [fst snd]. rewrite (yields_unique _ _ _ _ (Y _ _ G) D1). ring. }
  specialize (X Z). clear Z D Y M k Rv.
  assert (OY := own_yields _ _ _ _ _ _ _ _ _ _ _ _ _ _ BH HS NA).
  unfold sys in X. rewrite S2 in X. clear - X P S3 OY.
  induction P as [|x row l B' G P IH]; [constructor|]. constructor.
  - assert (R := X (row, snd x) (or_introl eq_refl)). unfold resid in R. cbn [fst snd] in R.
    assert (E : cdot row m = snd x) by (transitivity (Cplus (Cminus (cdot row m) (snd x)) (snd x)); [ring|rewrite R; ring]).
    assert (Y := OY _ _ G). rewrite E in Y. replace (snd x) with (vis1 tw (snd x)); [exact Y|]. unfold vis1. destruct tw eqn:T; auto.
    apply C_eq; [reflexivity|]. cbn. symmetry. apply S3; [reflexivity|now left].
  - apply IH; [intros T; intros; apply S3; [exact T|now right]|]. intros p Hp. apply X. now right.
Qed.

Lemma own_vec : exists k, matches c k /\ real_vec c s k /\ (forall x row, good x row -> cdot row k = vis1 tw (cdot row m)) /\
  all_pm k s = map (visible tw) (all_pm m s).
Proof. eapply own_vector; eauto. Qed.

Lemma run_recover c0 : rival c c0 -> Forall (fun x => yields c0 (fst x) (snd x)) sm -> identifiable c (map fst sm) -> NoDup (c_name c) ->
  exists k, matches c k /\ matches c0 k.
Proof.
  intros Rv D ID ND. destruct (rival_yields _ _ _ _ _ _ _ _ _ _ _ _ _ _ BH HS NA c0 Rv) as (k0 & M0 & Y0).
  destruct own_vec as (k & M & RV & V & _). exists k. split; auto.
  assert (EX := run_exact c0 Rv D).
  assert (I := run_independent (map fst sm) ltac:(intros; rewrite S1; tauto) ID ND len_rows).
  assert (k = k0).
  { apply vadd_zero; [rewrite (mt_len _ _ _ _ _ M), (mt_len _ _ _ _ _ M0); reflexivity|].
    apply I; [rewrite vadd_len; rewrite (mt_len _ _ _ _ _ M); [reflexivity|apply M0]|].
    intros p Hp. rewrite cdot_vadd by (rewrite (mt_len _ _ _ _ _ M), (mt_len _ _ _ _ _ M0); reflexivity).
    assert (P := paired). destruct p as [row y]. cbn [fst].
    assert (exists x, In x sm /\ good (fst x) row) as (x & Hx & G).
    { apply in_combine_l in Hp. clear - P Hp. induction P; [destruct Hp|]. destruct Hp as [<-|Hp]; [exists x; split; [now left|auto]|].
      destruct (IHP Hp) as (w & W1 & W2). exists w. split; [now right|auto]. }
    rewrite Forall_forall in D, EX.
    assert (E1 := yields_unique _ _ _ _ (Y0 _ _ G) (D x Hx)).
    assert (E2 := yields_unique _ _ _ _ (own_yields _ _ _ _ _ _ _ _ _ _ _ _ _ _ BH HS NA _ _ G) (EX x Hx)).
    rewrite (V _ _ G), E1, E2. unfold RtoC, Cplus, Cmult. cbn. destruct (snd x). cbn. f_equal; ring. }
  now subst k0.
Qed.
End Run.
