(** Carrying the coefficients of one analysis over to another: the minimum is reached once only. *)
From Coq Require Import Lia Lra Permutation.
From Verif Require Import M_Base M_Bunch M_Lib M_Tables M_Const M_Options M_Time M_Slvinit M_Harmonics M_Select M_Ellipse
  M_Robust M_Period M_Conf M_Diag M_Solve M_Recon S_Dict S_Options S_Order S_Basis S_Select S_Fit S_Ellipse S_Slv S_Recon S_Model S_Perm S_Choice
  L_Base L_Tables L_Options L_SolveInv L_OptSolve L_Slv L_Slv2 L_Order L_Select L_Fit L_Align L_SelOrder L_Basis L_Angle L_Ellipse L_Recon L_Recon2 L_Recon3 L_Core
  L_Ellipse2 L_Model L_Lsq L_Model2 L_Model3 L_Model4 L_Model5 L_Model6 L_Model7 L_Model8 L_Model9 L_Model10 L_Model11 L_Model12 L_Model15
  L_Units2 L_Super L_Super2 L_Super3 L_Perm.
Open Scope R_scope.
Open Scope string_scope.

(** ** table positions follow from the names *)
Lemma run_indexed L t u v lat opts c si la s B xraw m W : behind L t u v lat opts c si la s B xraw m W -> sorted_order (opt_value opts "order_constit") ->
  forall n l, In (n, l) (combine (c_name c) (c_lind c)) -> nth_error const_name l = Some n.
Proof.
  intros BH HS n l H. assert (SL := run_lens _ _ _ _ _ _ _ _ _ _ _ _ _ _ BH). assert (WF := bh_wf _ _ _ _ _ _ _ _ _ _ _ _ _ _ BH).
  assert (TR := bh_tri _ _ _ _ _ _ _ _ _ _ _ _ _ _ BH HS). apply (Permutation_map fst) in TR. rewrite triples_fst in TR by assumption.
  rewrite combine_fst in TR by (rewrite map_length, (bh_pm _ _ _ _ _ _ _ _ _ _ _ _ _ _ BH), combine_length, (ln_lind _ SL); lia).
  apply (Permutation_in _ TR) in H. clear TR.
  assert (AL : map (fun i => nth_error const_name i) (s_lind s) = map Some (s_name s)).
  { assert (Q := bh_sel _ _ _ _ _ _ _ _ _ _ _ _ _ _ BH). destruct (o_infer (c_opt c)) as [f|].
    - apply sel_infer in Q. exact (proj1 (sl_al _ _ _ _ _ Q)).
    - apply sel_none in Q. destruct Q as (_ & A & _ & E1 & _ & E2 & _). rewrite E1, E2. exact (proj1 A). }
  clear - AL H. revert AL H. generalize (s_name s). induction (s_lind s) as [|i ls IH]; intros [|x ns] AL H; try discriminate; [destruct H..|].
  cbn [map] in AL. injection AL as E1 E2. destruct H as [H|H]; [injection H as <- <-; exact E1|now apply (IH ns)].
Qed.
Lemma pairs_perm (a b : list (string * nat)) : (forall n l, In (n, l) a -> nth_error const_name l = Some n) -> (forall n l, In (n, l) b -> nth_error const_name l = Some n) ->
  Permutation (map fst a) (map fst b) -> Permutation a b.
Proof.
  intros HA HB P. destruct (Permutation_map_inv _ _ (Permutation_sym P)) as (T & E & PT).
  assert (T = b) as <-; [|now exact PT].
  assert (HT : forall n l, In (n, l) T -> nth_error const_name l = Some n) by (intros n l H; apply HA; now apply (Permutation_in _ (Permutation_sym PT))).
  clear - E HB HT. revert b E HB. induction T as [|[n l] T IH]; intros [|[n' l'] b] E HB; try discriminate; [reflexivity|]. cbn [map fst] in E. injection E as En E. subst n'.
  f_equal; [|apply IH; auto; intros; [apply HT|apply HB]; now right]. f_equal.
  apply (index_NoDup n); [apply HT|apply HB]; now left.
Qed.

(** ** maps of the plane *)
(** f acts on values, T on pairs of rotary components *)
Record motion (f : C -> C) (T : C * C -> C * C) : Prop := {
  mo_add : forall a b, f (Cplus a b) = Cplus (f a) (f b);
  mo_scal : forall r a, f (Cmult (RtoC r) a) = Cmult (RtoC r) (f a);
  mo_pair : forall e p, Cplus (Cmult e (fst (T p))) (Cmult (Cconj e) (snd (T p))) = f (Cplus (Cmult e (fst p)) (Cmult (Cconj e) (snd p)));
  mo_norm : forall z, fst (f z) ^ 2 + snd (f z) ^ 2 = fst z ^ 2 + snd z ^ 2 }.
(** for scalar results f and T keep real numbers and conjugate pairs; inferred constituents keep their ratios *)
Definition keeps (f : C -> C) (T : C * C -> C * C) (c : coef) : Prop :=
  (o_twodim (c_opt c) = false -> (forall z, snd z = 0 -> snd (f z) = 0) /\ (forall p, snd p = Cconj (fst p) -> snd (T p) = Cconj (fst (T p)))) /\
  (o_infer (c_opt c) = None \/ forall rp rm p, T (Cmult rp (fst p), Cmult rm (snd p)) = (Cmult rp (fst (T p)), Cmult rm (snd (T p)))).
Definition upon (T : C * C -> C * C) (t : string * nat * (C * C)) : string * nat * (C * C) := (fst t, T (snd t)).

Lemma mo_zero f T : motion f T -> f (RtoC 0) = RtoC 0.
Proof. intros M. assert (H := mo_scal _ _ M 0 (RtoC 0)). replace (Cmult (RtoC 0) (RtoC 0)) with (RtoC 0) in H by ring. rewrite H. ring. Qed.
Lemma mo_hsum f T es : motion f T -> forall pq, f (hsum es pq) = hsum es (map T pq).
Proof.
  intros M. assert (E : forall e es p l, hsum (e :: es) (p :: l) = Cplus (Cplus (Cmult e (fst p)) (Cmult (Cconj e) (snd p))) (hsum es l)) by reflexivity.
  induction es as [|e es IH]; intros [|p pq]; try exact (mo_zero _ _ M). cbn [map]. rewrite !E, (mo_add _ _ M), IH. f_equal. symmetry. apply (mo_pair _ _ M).
Qed.

Lemma pms_len c : length (pms c) = length (c_name c).
Proof. unfold pms. now rewrite map_length, seq_length. Qed.
Lemma pms_real c : well_formed c -> o_twodim (c_opt c) = false -> real_pairs (pms c).
Proof.
  intros W D pq H. eapply pms_conj; eauto.
Qed.

(** ** the coefficients of c, moved and arranged like c' *)
Lemma carried f T c c' : motion f T -> keeps f T c -> well_formed c -> well_formed c' -> same_model c c' -> ties c ->
  Permutation (combine (c_name c) (c_lind c)) (combine (c_name c') (c_lind c')) ->
  exists c0, rival c' c0 /\ Permutation (triples c0) (map (upon T) (triples c)) /\ mnC c0 = f (mnC c) /\ slC c0 = f (slC c) /\
    forall x, valC c0 x = option_map f (valC c x).
Proof.
  intros M [K1 K2] Wc Wc' [E1 E2 E3 E4 E5 E6 _] TI P.
  assert (A2 : length (c_lind c) = length (c_name c)) by apply Wc. assert (A2' : length (c_lind c') = length (c_name c')) by apply Wc'.
  assert (P1 : Permutation (combine (c_name c') (c_lind c')) (map fst (map (upon T) (triples c)))).
  { rewrite map_map. unfold upon. cbn [fst]. rewrite triples_fst by assumption. now apply Permutation_sym. }
  destruct (Permutation_map_inv _ _ P1) as (U & EU & PU).
  set (Q := map snd U). assert (LQ : length Q = length (c_name c')).
  { unfold Q. rewrite map_length, <- (map_length fst U), <- EU, combine_length. lia. }
  assert (RQ : o_twodim (c_opt c') = false -> real_pairs Q).
  { intros D pq H. rewrite E4 in D. unfold Q in H. apply in_map_iff in H. destruct H as (x & <- & Hx). apply (Permutation_in _ (Permutation_sym PU)) in Hx.
    apply in_map_iff in Hx. destruct Hx as (y & <- & Hy). unfold upon. cbn [snd]. apply (proj2 (K1 D)).
    apply (pms_real c Wc D). unfold triples in Hy. destruct y as [y1 y2]. now apply in_combine_r in Hy. }
  set (c0 := with_pms c' Q (f (mnC c)) (f (slC c))).
  assert (W0 : well_formed c0) by now apply with_pms_wf.
  assert (T0 : triples c0 = U).
  { unfold triples, c0. rewrite with_pms_pms by assumption. rewrite vis_id by assumption. cbn [with_pms c_name c_lind]. rewrite EU. apply combine_split. }
  assert (PT : Permutation (triples c0) (map (upon T) (triples c))) by (rewrite T0; now apply Permutation_sym).
  assert (RZ : forall z, o_twodim (c_opt c') = false -> snd z = 0 -> snd (f z) = 0) by (intros z D; apply K1; congruence).
  assert (MN : mnC c0 = f (mnC c)).
  { unfold c0, mnC at 1. cbn [with_pms c_opt c_umean c_vmean c_mean]. destruct (o_twodim (c_opt c')) eqn:D; cbn [oif negb od]; [symmetry; apply surjective_pairing|].
    apply C_eq; [reflexivity|]. symmetry. apply RZ; auto. unfold mnC. rewrite <- E4. reflexivity. }
  assert (SL : slC c0 = f (slC c)).
  { unfold c0, slC at 1. cbn [with_pms c_opt c_uslope c_vslope c_slope]. destruct (o_twodim (c_opt c')) eqn:D; cbn [oif negb od]; [symmetry; apply surjective_pairing|].
    apply C_eq; [reflexivity|]. symmetry. apply RZ; auto. unfold slC. rewrite <- E4. reflexivity. }
  exists c0. split; [|split; [exact PT|split; [exact MN|split; [exact SL|]]]].
  - constructor; try reflexivity; auto. unfold ties. change (c_opt c0) with (c_opt c'). rewrite E3, E4. unfold ties in TI.
    destruct (o_infer (c_opt c)) as [inf|] eqn:EI; [|exact I]. destruct K2 as [K2|K2]; [discriminate|].
    assert (BACK : forall a n, In a (rows c0) -> w_name a = Some n -> exists b p, In b (rows c) /\ w_name b = Some n /\ rotary b = Some p /\ rotary a = Some (T p)).
    { intros a n Ha Hn. destruct (row_rotary c0 a W0 Ha) as (n0 & pq & N1 & N2). rewrite Hn in N1. injection N1 as <-.
      destruct (in_rows_triple c0 a n pq W0 Ha Hn N2) as (x & X1 & X2 & X3). apply (Permutation_in _ PT) in X1. apply in_map_iff in X1. destruct X1 as (y & <- & Hy).
      destruct (in_triples c y Wc Hy) as (b & B1 & B2 & B3). exists b, (snd y). unfold upon in X2, X3. cbn [fst snd] in X2, X3.
      split; [exact B1|]. split; [now rewrite B2, X2|]. split; [exact B3|]. now rewrite N2, X3. }
    intros j i r rp rm Hq a b Ha Hb Na Nb.
    destruct (BACK a i Ha Na) as (a' & pa & A1 & A3 & A4 & A5). destruct (BACK b r Hb Nb) as (b' & pb & B1 & B3 & B4 & B5).
    destruct (TI j i r rp rm Hq a' b' A1 B1 A3 B3) as (p & q & R1 & R2). rewrite B4 in R1. rewrite A4 in R2. apply Some_eq2 in R1. apply Some_eq2 in R2. subst pa pb.
    exists (fst (T (p, q))), (snd (T (p, q))). rewrite B5, A5. split; [now rewrite <- surjective_pairing|]. f_equal. apply (K2 rp rm (p, q)).
  - intros x. unfold valC.
    assert (PP : Permutation (triples c0) (combine (combine (c_name c) (c_lind c)) (map T (pms c)))).
    { rewrite PT. apply Permutation_refl'. unfold triples. generalize (combine (c_name c) (c_lind c)) (pms c). clear.
      induction l as [|y l IH]; intros [|p q]; try reflexivity. cbn [combine map]. rewrite IH. reflexivity. }
    rewrite (tides_terms c0 x _ _ _ W0 PP A2) by (now rewrite map_length, pms_len).
    rewrite (tides_terms c x (c_name c) (c_lind c) (pms c) Wc (Permutation_refl _) A2 (pms_len c)).
    assert (EE : map (e_of c0 x) (c_lind c) = map (e_of c x) (c_lind c)).
    { apply map_ext. intros i. unfold e_of. change (c_opt c0) with (c_opt c'). change (c_reftime c0) with (c_reftime c'). change (c_lat c0) with (c_lat c'). now rewrite E1, E5, E6. }
    rewrite EE. destruct (all_some (map (e_of c x) (c_lind c))) as [es|]; [|reflexivity]. cbn [option_map]. f_equal.
    rewrite (mo_add _ _ M), (mo_hsum _ _ es M). f_equal. unfold bgC. rewrite MN, SL. change (c_opt c0) with (c_opt c'). change (c_reftime c0) with (c_reftime c'). rewrite E2, E5.
    rewrite (mo_add _ _ M). f_equal. destruct (o_notrend (c_opt c)); [symmetry; apply (mo_zero _ _ M)|]. symmetry.
    first [apply (mo_scal _ _ M) | rewrite Cmult_comm, (mo_scal _ _ M); ring].
Qed.

(** ** misfits *)
Lemma yields_valC c x z : well_formed c -> (yields c x z <-> valC c x = Some z).
Proof.
  intros W. destruct (recon_valC c x W) as (H1 & H2 & H3). unfold yields. rewrite H1. split.
  - intros [A B]. destruct (valC c x) as [w|]; [|discriminate]. cbn [xfst] in A. f_equal. apply C_eq; [congruence|].
    destruct (o_twodim (c_opt c)); [rewrite (H2 eq_refl) in B; cbn [xsnd] in B; congruence|]. rewrite B. now apply (H3 eq_refl).
  - intros E. rewrite E. split; [reflexivity|]. destruct (o_twodim (c_opt c)); [rewrite (H2 eq_refl), E; reflexivity|]. now apply (H3 eq_refl).
Qed.
Definition vz (c : coef) (x : R) : C := match valC c x with Some z => z | None => RtoC 0 end.
Definition sq (z : C) : R := fst z ^ 2 + snd z ^ 2.
Lemma misfit_val c sm d : well_formed c ->
  (misfit c sm d <-> (forall s, In s sm -> valC c (fst s) = Some (vz c (fst s))) /\ d = rsum (map (fun s => sq (Cminus (snd s) (vz c (fst s)))) sm)).
Proof.
  intros W. unfold misfit. split.
  - intros (zs & F & ->). split.
    + clear - F W. induction F as [|s z l k Y F IH]; [intros s []|]. intros s' [<-|H]; [|now apply IH]. apply (yields_valC _ _ _ W) in Y. unfold vz. now rewrite Y.
    + unfold norm2, csub. clear - F W. induction F as [|s z l k Y F IH]; [reflexivity|]. cbn [map combine]. rewrite !rsum_cons, IH. f_equal.
      apply (yields_valC _ _ _ W) in Y. unfold vz, sq. rewrite Y. reflexivity.
  - intros [H ->]. exists (map (fun s => vz c (fst s)) sm). split.
    + clear - H W. induction sm as [|s l IH]; cbn [map]; constructor; [apply yields_valC; auto; apply H; now left|]. apply IH. intros; apply H; now right.
    + unfold norm2, csub. clear. induction sm as [|s l IH]; [reflexivity|]. cbn [map combine]. rewrite !rsum_cons, IH. reflexivity.
Qed.
Lemma misfit_perm c sm sm' d : well_formed c -> Permutation sm sm' -> misfit c sm d -> misfit c sm' d.
Proof.
  intros W P H. apply (misfit_val _ _ _ W) in H. apply (misfit_val _ _ _ W). destruct H as [H ->]. split.
  - intros s Hs. apply H. now apply (Permutation_in _ (Permutation_sym P)).
  - apply rsum_perm'. now apply Permutation_map.
Qed.
Lemma misfit_fun c sm d d' : well_formed c -> misfit c sm d -> misfit c sm d' -> d = d'.
Proof. intros W H H'. apply (misfit_val _ _ _ W) in H, H'. destruct H as [_ ->], H' as [_ ->]. reflexivity. Qed.

Definition moved (f : C -> C) (sm : list (R * C)) : list (R * C) := map (fun s => (fst s, f (snd s))) sm.
Lemma mo_sub f T a b : motion f T -> f (Cminus a b) = Cminus (f a) (f b).
Proof.
  intros M. replace (Cminus a b) with (Cplus a (Cmult (RtoC (-1)) b)) by (apply C_eq; cbn; ring). rewrite (mo_add _ _ M), (mo_scal _ _ M). apply C_eq; cbn; ring.
Qed.
Lemma misfit_moved f T c c0 sm d : motion f T -> well_formed c -> well_formed c0 -> (forall x, valC c0 x = option_map f (valC c x)) ->
  misfit c sm d -> misfit c0 (moved f sm) d.
Proof.
  intros M W W0 V H. apply (misfit_val _ _ _ W) in H. apply (misfit_val _ _ _ W0). destruct H as [H ->]. unfold moved. split.
  - intros s Hs. apply in_map_iff in Hs. destruct Hs as (s0 & <- & Hs). cbn [fst]. unfold vz. rewrite V, (H s0 Hs). reflexivity.
  - rewrite map_map. cbn [fst snd]. f_equal. apply map_ext_in. intros s Hs. unfold vz. rewrite V, (H s Hs). cbn [option_map].
    rewrite <- (mo_sub _ _ _ _ M). unfold sq. symmetry. apply (mo_norm _ _ M).
Qed.

Lemma val_same a b : well_formed a -> well_formed b -> Permutation (triples a) (triples b) -> flags_of (c_opt a) = flags_of (c_opt b) ->
  o_notrend (c_opt a) = o_notrend (c_opt b) -> c_reftime a = c_reftime b -> c_lat a = c_lat b -> mnC a = mnC b ->
  (o_notrend (c_opt b) = false -> slC a = slC b) -> forall x, valC a x = valC b x.
Proof.
  intros Wa Wb P E1 E2 E3 E4 E5 E6 x. assert (A2 : length (c_lind b) = length (c_name b)) by apply Wb. unfold valC.
  rewrite (tides_terms a x (c_name b) (c_lind b) (pms b) Wa P A2 (pms_len b)), (tides_terms b x (c_name b) (c_lind b) (pms b) Wb (Permutation_refl _) A2 (pms_len b)).
  assert (EE : map (e_of a x) (c_lind b) = map (e_of b x) (c_lind b)) by (apply map_ext; intros i; unfold e_of; now rewrite E1, E3, E4).
  rewrite EE. destruct (all_some (map (e_of b x) (c_lind b))) as [es|]; [|reflexivity]. cbn [option_map]. do 2 f_equal. unfold bgC. rewrite E5, E2, E3.
  destruct (o_notrend (c_opt b)); [reflexivity|]. now rewrite E6.
Qed.

(** a rival with no larger misfit *)
Lemma rival_same L t u v lat opts sm c c0 d d0 : analysis L t u v lat opts sm c -> approximate (c_opt c) = false -> lstsq_minimises L -> o_method (c_opt c) = PStr "ols" ->
  identifiable c (map fst sm) -> NoDup (c_name c) -> rival c c0 -> misfit c sm d -> misfit c0 sm d0 -> d0 <= d ->
  Permutation (triples c) (triples c0) /\ mnC c = mnC c0 /\ (o_notrend (c_opt c) = false -> slC c = slC c0) /\ forall x, valC c x = valC c0 x.
Proof.
  intros AN NA LM OLS ID ND RV Md Md0 LE. assert (HS := an_sorted _ _ _ _ _ _ _ _ AN).
  destruct (analysis_run _ _ _ _ _ _ _ _ AN) as (_ & si & la & s & B & xraw & m & W & BH & S1 & S2 & S3). subst xraw.
  assert (Wf := bh_wf _ _ _ _ _ _ _ _ _ _ _ _ _ _ BH). assert (W0 := rv_wf _ _ RV).
  destruct (own_best _ _ _ _ _ _ _ _ _ _ _ _ _ _ BH HS NA LM OLS S1 S3) as (k & M & Bk).
  destruct (rival_yields _ _ _ _ _ _ _ _ _ _ _ _ _ _ BH HS NA c0 RV) as (k0 & M0 & Y0).
  assert (Yk : forall x row, good_row (si_tref si) (si_lor si) la (c_opt c) s x row -> yields c x (cdot row k)) by (intros x row G; eapply matches_yields; eauto).
  assert (X := misfit_of _ _ _ _ _ _ _ _ _ _ _ _ _ _ BH sm S1 eq_refl c (fun row => cdot row k) Yk).
  assert (X0 := misfit_of _ _ _ _ _ _ _ _ _ _ _ _ _ _ BH sm S1 eq_refl c0 (fun row => cdot row k0) Y0).
  assert (D := misfit_fun _ _ _ _ Wf Md X). assert (D0 := misfit_fun _ _ _ _ W0 Md0 X0).
  fold (nrm (resid k) (sys B (map snd sm))) in D. fold (nrm (resid k0) (sys B (map snd sm))) in D0.
  change (d = nrm (resid k) (sys B (map snd sm))) in D. change (d0 = nrm (resid k0) (sys B (map snd sm))) in D0.
  assert (Lk : length k0 = length k) by (rewrite (mt_len _ _ _ _ _ M), (mt_len _ _ _ _ _ M0); reflexivity).
  assert (B0 : best (sys B (map snd sm)) k0).
  { intros k' Hk'. apply Rle_trans with (nrm (resid k) (sys B (map snd sm))); [rewrite <- D, <- D0; exact LE|]. apply Bk. congruence. }
  assert (k0 = k).
  { apply (best_unique (sys B (map snd sm))); auto. rewrite (mt_len _ _ _ _ _ M0). eapply own_independent; eauto.
    exact (len_rows _ _ _ _ _ _ _ _ _ _ _ _ _ _ BH sm S1 eq_refl). }
  subst k0. destruct M as [_ M2 M3 M4], M0 as [_ N2 N3 N4].
  assert (PT : Permutation (triples c) (triples c0)) by (rewrite M2; now apply Permutation_sym).
  assert (EM : mnC c = mnC c0) by congruence.
  assert (ES : o_notrend (c_opt c) = false -> slC c = slC c0) by (intros N; rewrite M4, N4; [reflexivity|now rewrite N|now rewrite N]).
  split; [exact PT|]. split; [exact EM|]. split; [exact ES|]. destruct RV as [_ R1 R2 R3 R4 R5 R6]. apply val_same; auto; rewrite R5; auto.
Qed.

(** ** two analyses with the same model, of data moved by f *)
Lemma same_model_sym c c' : same_model c c' -> same_model c' c.
Proof. intros [A1 A2 A3 A4 A5 A6 A7]. constructor; auto. now apply Permutation_sym. Qed.

Lemma carry L t u v lat opts sm c L' t' u' v' lat' opts' sm' c' f T g U :
  analysis L t u v lat opts sm c -> analysis L' t' u' v' lat' opts' sm' c' -> same_model c c' ->
  motion f T -> motion g U -> keeps f T c -> keeps g U c' -> (forall z, g (f z) = z) -> Permutation (moved f sm) sm' ->
  approximate (c_opt c') = false -> lstsq_minimises L -> lstsq_minimises L' -> o_method (c_opt c) = PStr "ols" -> o_method (c_opt c') = PStr "ols" ->
  identifiable c' (map fst sm') -> NoDup (c_name c') ->
  Permutation (triples c') (map (upon T) (triples c)) /\ mnC c' = f (mnC c) /\ (o_notrend (c_opt c') = false -> slC c' = f (slC c)) /\
  forall x, valC c' x = option_map f (valC c x).
Proof.
  intros AN AN' SM Mf Mg Kf Kg GF PS NA' LM LM' OLS OLS' ID ND. assert (HS := an_sorted _ _ _ _ _ _ _ _ AN). assert (HS' := an_sorted _ _ _ _ _ _ _ _ AN').
  assert (Wc := analysis_wf _ _ _ _ _ _ _ _ AN). assert (Wc' := analysis_wf _ _ _ _ _ _ _ _ AN'). assert (SM' := same_model_sym _ _ SM).
  assert (NA : approximate (c_opt c) = false) by (unfold approximate in *; rewrite <- (sm_infer _ _ SM); exact NA').
  assert (NDc : NoDup (c_name c)) by (eapply Permutation_NoDup; [apply Permutation_sym, (sm_names _ _ SM)|exact ND]).
  assert (PP : Permutation (combine (c_name c) (c_lind c)) (combine (c_name c') (c_lind c'))).
  { destruct (analysis_run _ _ _ _ _ _ _ _ AN) as (_ & si & la & s & B & xraw & m & W & BH & _).
    destruct (analysis_run _ _ _ _ _ _ _ _ AN') as (_ & si' & la' & s' & B' & xraw' & m' & W' & BH' & _).
    apply pairs_perm; [eapply run_indexed; eauto|eapply run_indexed; eauto|].
    assert (A2 : length (c_lind c) = length (c_name c)) by apply Wc. assert (A2' : length (c_lind c') = length (c_name c')) by apply Wc'.
    rewrite !combine_fst by congruence. apply SM. }
  destruct (carried f T c c' Mf Kf Wc Wc' SM (proj1 (top_ties _ _ _ _ _ _ _ _ AN NDc)) PP) as (c0 & R0 & T0 & M0 & S0 & V0).
  destruct (carried g U c' c Mg Kg Wc' Wc SM' (proj1 (top_ties _ _ _ _ _ _ _ _ AN' ND)) (Permutation_sym PP)) as (c1 & R1 & T1 & M1 & S1 & V1).
  destruct (top_optimal _ _ _ _ _ _ _ _ _ AN NA LM OLS R1) as (d & d1 & D & D1 & LE).
  assert (D0 : misfit c0 sm' d) by exact (misfit_perm _ _ _ _ (rv_wf _ _ R0) PS (misfit_moved f T c c0 sm d Mf Wc (rv_wf _ _ R0) V0 D)).
  assert (exists d', misfit c' sm' d') as (d' & D').
  { destruct (top_optimal _ _ _ _ _ _ _ _ _ AN' NA' LM' OLS' R0) as (d' & _ & D' & _). eauto. }
  assert (D1' : misfit c1 sm d').
  { assert (PS' : Permutation (moved g sm') sm).
    { apply (Permutation_map (fun s => (fst s, g (snd s)))) in PS. unfold moved in PS. rewrite map_map in PS. cbn [fst snd] in PS.
      rewrite (map_ext _ (fun s => s)), map_id in PS by (intros [x z]; cbn; now rewrite GF). now apply Permutation_sym. }
    exact (misfit_perm _ _ _ _ (rv_wf _ _ R1) PS' (misfit_moved g U c' c1 sm' d' Mg Wc' (rv_wf _ _ R1) V1 D')). }
  assert (d1 = d') by exact (misfit_fun _ _ _ _ (rv_wf _ _ R1) D1 D1'). subst d1.
  destruct (rival_same _ _ _ _ _ _ _ _ _ _ _ AN' NA' LM' OLS' ID ND R0 D' D0 LE) as (Q1 & Q2 & Q3 & Q4).
  split; [now rewrite Q1|]. split; [congruence|]. split; [intros N; rewrite (Q3 N); exact S0|]. intros x. now rewrite Q4.
Qed.
