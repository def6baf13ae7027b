(** The order of the samples. *)
From Coq Require Import Lia Lra Permutation.
From Verif Require Import M_Base M_Bunch M_Lib M_Tables M_Const M_Options M_Time M_Slvinit M_Harmonics M_Select M_Ellipse
  M_Robust M_Period M_Conf M_Diag M_Solve M_Recon S_Dict S_Options S_Order S_Basis S_Select S_Fit S_Ellipse S_Slv S_Recon S_Model S_Perm
  L_Base L_Options L_SolveInv L_OptSolve L_Slv L_Slv2 L_Order L_Select L_Fit L_Align L_SelOrder L_Basis L_Angle L_Ellipse L_Recon L_Recon2 L_Recon3 L_Core
  L_Ellipse2 L_Model L_Lsq L_Model2 L_Model3 L_Model4 L_Model5 L_Model6 L_Model7 L_Model8 L_Model9 L_Model10 L_Model11 L_Model12 L_Model15
  L_Units2 L_Super L_Super2 L_Super3.
Open Scope R_scope.
Open Scope string_scope.

Lemma csum_perm a b : Permutation a b -> csum a = csum b.
Proof. unfold csum. induction 1; cbn [fold_right]; [reflexivity|congruence| |congruence]. ring. Qed.
Lemma rsum_perm' a b : Permutation a b -> rsum a = rsum b.
Proof. unfold rsum. induction 1; cbn [fold_right]; [reflexivity|congruence| |congruence]. ring. Qed.
Lemma best_perm l l' k : Permutation l l' -> best l k -> best l' k.
Proof.
  intros P H k' Hk. assert (E : forall q, nrm (resid q) l' = nrm (resid q) l).
  { intros q. unfold nrm. apply rsum_perm'. apply Permutation_map. now apply Permutation_sym. }
  rewrite !E. now apply H.
Qed.

(** the systems solved *)
Lemma perm_sys (G : R -> list C -> Prop) sm sm' B B' : (forall x r r', G x r -> G x r' -> r = r') -> Permutation sm sm' ->
  Forall2 (fun x r => G (fst x) r) sm B -> Forall2 (fun x r => G (fst x) r) sm' B' -> Permutation (sys B (map snd sm)) (sys B' (map snd sm')).
Proof.
  intros Det P F F'. unfold sys. set (Q := fun (x : R * C) (p : list C * C) => G (fst x) (fst p) /\ snd p = snd x).
  assert (K : forall sm B, Forall2 (fun x r => G (fst x) r) sm B -> Forall2 Q sm (combine B (map snd sm))).
  { clear. intros sm B F. induction F; cbn [map combine]; constructor; auto. split; auto. }
  destruct (Permutation_Forall2 P (K _ _ F)) as (l & P1 & F1). 
  assert (E : l = combine B' (map snd sm')).
  { apply (forall2_det Q sm'); auto. intros x [r y] [r' y'] [H1 H2] [H3 H4]. cbn [fst snd] in *. f_equal; [eauto|congruence]. }
  now rewrite <- E.
Qed.

(** record length *)
Lemma ptp_perm l l' r r' : Permutation l l' -> ptp l = Ok r -> ptp l' = Ok r' -> r = r'.
Proof.
  intros P H H'. destruct (ptp_spec _ _ H) as (lo & hi & A1 & A2 & A3 & ->). destruct (ptp_spec _ _ H') as (lo' & hi' & B1 & B2 & B3 & ->).
  assert (X := fun x (q : In x l) => B3 x (Permutation_in x P q)). assert (Y := fun x (q : In x l') => A3 x (Permutation_in x (Permutation_sym P) q)).
  destruct (X lo A1), (X hi A2), (Y lo' B1), (Y hi' B2). lra.
Qed.
Lemma slv_base L t u v lat opts sm c si : analysis L t u v lat opts sm c -> slvinit (l_parse L) t u v lat (o_epoch (c_opt c)) = Ok si ->
  exists l, times_of L opts t l /\ si_tin si = l /\ si_equi si = o_equi (c_opt c) /\ si_t si = map fst sm /\
    ptp (if o_equi (c_opt c) then l else map fst sm) = Ok (si_lor si) /\ si_tref si = midpoint (if o_equi (c_opt c) then l else map fst sm).
Proof.
  intros AN H. destruct (an_samples _ _ _ _ _ _ _ _ AN) as (e & SE & SM).
  destruct (solve_slv _ _ _ _ _ _ _ (an_keys _ _ _ _ _ _ _ _ AN) (an_solve _ _ _ _ _ _ _ _ AN)) as (si0 & la & _ & H0 & _ & _ & EQ & _).
  rewrite H in H0. apply Ok_inj in H0. subst si0.
  assert (EE : o_epoch (c_opt c) = e).
  { eapply set_epoch; [eapply an_keys; eauto|eapply an_solve; eauto|exact SE]. }
  rewrite EE in H. 
  destruct SM as [n t0 mt us um xs Ho Hn Hl|n t0 mt us um vs vm xs Ho Ho' Hn Hl].
  - destruct (fitted_scalar _ _ _ _ _ _ _ _ _ _ Ho Hn Hl H) as (_ & Ft & _ & FT). exists (valid_times xs). split; [exists e, xs; auto|]. split; [exact FT|]. split; [now symmetry|].
    rewrite map_map. cbn [fst]. split; [exact Ft|].
    unfold slvinit in H. inv_bind H. inv_bind H. match type of H with slv_core ?x ?y ?z = _ => destruct (clean x y z) as [[[T x1] x2] x3] eqn:C end.
    destruct (slv_core_fields _ _ _ _ _ _ _ _ C H) as (A1 & A1' & _ & _ & A2 & A3 & A4 & _). rewrite EQ. rewrite <- A2, <- A1, <- A1', FT, Ft in A3, A4. split; [exact A3|exact A4].
  - destruct (fitted_vector _ _ _ _ _ _ _ _ _ _ _ _ Ho Ho' Hn Hl H) as (Ft & _ & _ & FT). exists (valid_times xs). split; [exists e, xs; auto|]. split; [exact FT|]. split; [now symmetry|].
    rewrite map_map. cbn [fst]. split; [exact Ft|].
    unfold slvinit in H. inv_bind H. inv_bind H. match type of H with slv_core ?x ?y ?z = _ => destruct (clean x y z) as [[[T x1] x2] x3] eqn:C end.
    destruct (slv_core_fields _ _ _ _ _ _ _ _ C H) as (A1 & A1' & _ & _ & A2 & A3 & A4 & _). rewrite EQ. rewrite <- A2, <- A1, <- A1', FT, Ft in A3, A4. split; [exact A3|exact A4].
Qed.
Lemma times_unique L opts t l l' : unique_keys opts -> times_of L opts t l -> times_of L opts t l' -> l = l'.
Proof.
  intros HU (e & xs & S & N & ->) (e' & xs' & S' & N' & ->).
  assert (HD : In "epoch" (keys documented)) by (cbn; auto 20).
  assert (e = e') by (rewrite <- (setting_val _ _ _ HU HD S); exact (setting_val _ _ _ HU HD S')). subst. congruence.
Qed.

(** two analyses of the same samples in another order, with the same reference time *)
Lemma perm_run L t u v t' u' v' lat opts sm sm' c c' :
  analysis L t u v lat opts sm c -> analysis L t' u' v' lat opts sm' c' -> is2d v' = is2d v ->
  reordered L opts t t' sm sm' -> c_reftime c' = c_reftime c -> o_equi (c_opt c') = o_equi (c_opt c) \/ complete L opts t sm ->
  flags_of (c_opt c') = flags_of (c_opt c) /\ o_notrend (c_opt c') = o_notrend (c_opt c) /\ o_method (c_opt c') = o_method (c_opt c) /\ o_infer (c_opt c') = o_infer (c_opt c) /\
  o_twodim (c_opt c') = o_twodim (c_opt c) /\ (o_equi (c_opt c') = o_equi (c_opt c) -> c_opt c' = c_opt c) /\
  exists si si' la s B B' m m' W W',
    behind L t u v lat opts c si la s B (map snd sm) m W /\ behind L t' u' v' lat opts c' si' la s B' (map snd sm') m' W' /\
    si_t si = map fst sm /\ si_t si' = map fst sm' /\ si_tref si' = si_tref si /\ si_lor si' = si_lor si /\
    (o_twodim (c_opt c) = false -> forall x, In x sm -> snd (snd x) = 0) /\ (o_twodim (c_opt c') = false -> forall x, In x sm' -> snd (snd x) = 0) /\
    Permutation (sys B (map snd sm)) (sys B' (map snd sm')).
Proof.
  intros AN AN' D2 (PS & l & l' & TL & TL' & PT) RT EQ. assert (HU := an_keys _ _ _ _ _ _ _ _ AN).
  destruct (analysis_run _ _ _ _ _ _ _ _ AN) as (_ & si & la & s & B & xraw & m & W & BH & S1 & S2 & S3).
  destruct (analysis_run _ _ _ _ _ _ _ _ AN') as (_ & si' & la' & s' & B' & xraw' & m' & W' & BH' & S1' & S2' & S3').
  destruct (solve_opt _ _ _ _ _ _ _ (an_solve _ _ _ _ _ _ _ _ AN)) as (compat & sx & O1 & O2 & O3).
  destruct (solve_opt _ _ _ _ _ _ _ (an_solve _ _ _ _ _ _ _ _ AN')) as (compat' & sx' & O1' & O2' & O3').
  rewrite D2, O1 in O1'. apply Ok_inj in O1'. subst compat'. rewrite D2 in O3'.
  assert (OO : o_equi (c_opt c') = o_equi (c_opt c) -> c_opt c' = c_opt c).
  { intros Q. destruct (used_options opts (is2d v) (si_equi sx) HU compat _ O1 O3) as (_ & _ & _ & X1 & _).
    destruct (used_options opts (is2d v) (si_equi sx') HU compat _ O1 O3') as (_ & _ & _ & X2 & _).
    assert (X : si_equi sx' = si_equi sx) by congruence. rewrite X, O3 in O3'. apply Ok_inj in O3'. congruence. }
  destruct (used_options opts (is2d v) (si_equi sx) HU compat _ O1 O3) as
      (_ & _ & Tw & _ & _ & _ & _ & _ & U1 & U2 & U3 & U4 & U5 & U6 & U7 & _ & U8 & _ & U9 & _ & (i & V1 & V2) & _).
  destruct (used_options opts (is2d v) (si_equi sx') HU compat _ O1 O3') as
      (_ & _ & Tw' & _ & _ & _ & _ & _ & U1' & U2' & U3' & U4' & U5' & U6' & U7' & _ & U8' & _ & U9' & _ & (i' & V1' & V2') & _).
  assert (SI := bh_slv _ _ _ _ _ _ _ _ _ _ _ _ _ _ BH). assert (SI' := bh_slv _ _ _ _ _ _ _ _ _ _ _ _ _ _ BH').
  destruct (slv_base _ _ _ _ _ _ _ _ _ AN SI) as (l0 & TL0 & _ & _ & _ & PP & _). destruct (slv_base _ _ _ _ _ _ _ _ _ AN' SI') as (l0' & TL0' & _ & _ & _ & PP' & _).
  assert (l0 = l) by (eapply times_unique; eauto). assert (l0' = l') by (eapply times_unique; eauto). subst l0 l0'.
  assert (PF : Permutation (map fst sm) (map fst sm')) by now apply Permutation_map.
  assert (E2 : si_lor si' = si_lor si).
  { destruct EQ as [EQ|CM].
    - rewrite EQ in PP'. symmetry. eapply ptp_perm; [|exact PP|exact PP']. destruct (o_equi (c_opt c)); assumption.
    - assert (Q := times_unique _ _ _ _ _ HU CM TL). symmetry. eapply ptp_perm; [|exact PP|exact PP'].
      destruct (o_equi (c_opt c)), (o_equi (c_opt c')); try exact PT; try exact PF; rewrite <- ?Q; try exact PF; rewrite Q; exact PT. }
  assert (E1 : si_tref si' = si_tref si) by (now rewrite <- (bh_tref _ _ _ _ _ _ _ _ _ _ _ _ _ _ BH), <- (bh_tref _ _ _ _ _ _ _ _ _ _ _ _ _ _ BH')).
  assert (EF : flags_of (c_opt c') = flags_of (c_opt c)) by (unfold flags_of; congruence).
  assert (EN : o_notrend (c_opt c') = o_notrend (c_opt c)) by congruence.
  assert (EI : o_infer (c_opt c') = o_infer (c_opt c)).
  { rewrite V1 in V1'. apply Ok_inj in V1'. subst i'. rewrite V2 in V2'. apply Ok_inj in V2'. now symmetry. }
  assert (El : la' = la). { assert (X := bh_lat _ _ _ _ _ _ _ _ _ _ _ _ _ _ BH). assert (X' := bh_lat _ _ _ _ _ _ _ _ _ _ _ _ _ _ BH'). congruence. }
  assert (Es : s' = s).
  { assert (X := bh_sel _ _ _ _ _ _ _ _ _ _ _ _ _ _ BH). assert (X' := bh_sel _ _ _ _ _ _ _ _ _ _ _ _ _ _ BH').
    assert (ER : o_rmin (c_opt c') = o_rmin (c_opt c)) by (rewrite U7 in U7'; apply Ok_inj in U7'; congruence).
    rewrite EI, ER, U1', <- U1, E1, E2, X in X'. apply Ok_inj in X'. congruence. }
  subst s' la' xraw xraw'.
  split; [exact EF|]. split; [exact EN|]. split; [congruence|]. split; [exact EI|]. split; [congruence|]. split; [exact OO|].
  exists si, si', la, s, B, B', m, m', W, W'. repeat (split; [first [assumption | congruence]|]).
  assert (P := paired _ _ _ _ _ _ _ _ _ _ _ _ _ _ BH sm S1). assert (P' := paired _ _ _ _ _ _ _ _ _ _ _ _ _ _ BH' sm' S1').
  eapply (perm_sys (good_row (si_tref si) (si_lor si) la (c_opt c) s)); eauto.
  - intros x r r' H1 H2. unfold good_row in *. rewrite H1 in H2. now apply somes_inj in H2.
  - rewrite E1, E2 in P'. clear - P' EF EN EI. induction P' as [|x row a b G P IH]; constructor; auto. revert G. unfold good_row, is_approx. now rewrite EF, EN, EI.
Qed.

Lemma snd_sys {A D} (B : list A) (x : list D) : length x = length B -> map snd (combine B x) = x.
Proof. revert x. induction B as [|a B IH]; intros [|y x] H; try discriminate; [reflexivity|]. cbn [combine map snd]. f_equal. apply IH. now injection H. Qed.
Lemma fst_sys {A D} (B : list A) (x : list D) : length x = length B -> map fst (combine B x) = B.
Proof. revert x. induction B as [|a B IH]; intros [|y x] H; try discriminate; [reflexivity|]. cbn [combine map fst]. f_equal. apply IH. now injection H. Qed.

Lemma run_names L t u v lat opts c si la s B xraw m W : behind L t u v lat opts c si la s B xraw m W -> sorted_order (opt_value opts "order_constit") ->
  Permutation (c_name c) (s_name s).
Proof.
  intros BH HS. assert (SL := run_lens _ _ _ _ _ _ _ _ _ _ _ _ _ _ BH). assert (WF := bh_wf _ _ _ _ _ _ _ _ _ _ _ _ _ _ BH).
  assert (A2 : length (c_lind c) = length (c_name c)) by apply WF.
  assert (TR := bh_tri _ _ _ _ _ _ _ _ _ _ _ _ _ _ BH HS). apply (Permutation_map (fun x => fst (fst x))) in TR.
  rewrite <- !(map_map fst fst) in TR. rewrite triples_fst in TR by assumption.
  rewrite combine_fst in TR by congruence.
  rewrite combine_fst in TR by (rewrite map_length, (bh_pm _ _ _ _ _ _ _ _ _ _ _ _ _ _ BH), combine_length, (ln_lind _ SL); lia).
  rewrite combine_fst in TR by (now rewrite (ln_lind _ SL)). exact TR.
Qed.

Lemma top_order L t u v t' u' v' lat opts sm sm' c c' :
  analysis L t u v lat opts sm c -> analysis L t' u' v' lat opts sm' c' -> is2d v' = is2d v ->
  reordered L opts t t' sm sm' -> c_reftime c' = c_reftime c -> o_equi (c_opt c') = o_equi (c_opt c) \/ complete L opts t sm ->
  lstsq_minimises L -> o_method (c_opt c) = PStr "ols" -> approximate (c_opt c) = false -> identifiable c (map fst sm) -> NoDup (c_name c) -> same_fit c c'.
Proof.
  intros AN AN' D2 RE RT EQ LM OLS NA ID ND.
  destruct (perm_run _ _ _ _ _ _ _ _ _ _ _ _ _ AN AN' D2 RE RT EQ) as (EF & EN & EM & EI & ET & _ & si & si' & la & s & B & B' & m & m' & W & W' & BH & BH' & S1 & S1' & E1 & E2 & S3 & S3' & PS).
  assert (HS := an_sorted _ _ _ _ _ _ _ _ AN). assert (HS' := an_sorted _ _ _ _ _ _ _ _ AN').
  assert (NA' : approximate (c_opt c') = false) by (unfold approximate in *; now rewrite EI).
  destruct (own_best _ _ _ _ _ _ _ _ _ _ _ _ _ _ BH' HS' NA' LM (eq_trans EM OLS) S1' S3') as (k & M & Bk).
  assert (M1 : matches c si s c' k).
  { destruct M as [M1 M2 M3 M4]. rewrite EN in M3, M4. constructor; auto.
    - rewrite M1. unfold ncoef. now rewrite EN.
    - intros T. rewrite (M4 T), E2. reflexivity. }
  assert (B1 : best (sys B (map snd sm)) k) by (eapply best_perm; [apply Permutation_sym; exact PS|exact Bk]).
  assert (Y : length (map snd sm) = length B) by exact (len_rows _ _ _ _ _ _ _ _ _ _ _ _ _ _ BH sm S1 eq_refl).
  assert (Wf := bh_wf _ _ _ _ _ _ _ _ _ _ _ _ _ _ BH). assert (Wf' := bh_wf _ _ _ _ _ _ _ _ _ _ _ _ _ _ BH').
  assert (Lt : c_lat c' = c_lat c) by (now rewrite (bh_la _ _ _ _ _ _ _ _ _ _ _ _ _ _ BH), (bh_la _ _ _ _ _ _ _ _ _ _ _ _ _ _ BH')).
  assert (D : map snd sm = lin2 (RtoC 1) (RtoC 0) (map snd sm) (map snd sm)).
  { clear. unfold lin2. induction sm as [|[x y] l IH]; [reflexivity|]. cbn [map combine fst snd]. rewrite <- IH. f_equal. ring. }
  destruct (core _ _ _ _ _ _ _ _ _ _ _ _ _ _ BH HS NA LM OLS S1 S3 ID ND c' c' k k _ _ (RtoC 1) (RtoC 0) Wf' Wf' EF EF RT RT Lt Lt EN EN M1 M1 Y Y B1 B1 D) as (H1 & H2 & H3 & H4).
  assert (H2' : mnC c = mnC c') by (rewrite H2; ring).
  split; [|split; [|split; [|split]]].
  - rewrite (run_names _ _ _ _ _ _ _ _ _ _ _ _ _ _ BH HS). apply Permutation_sym. exact (run_names _ _ _ _ _ _ _ _ _ _ _ _ _ _ BH' HS').
  - intros r r' Hr Hr' E. destruct (w_name_some _ _ Hr) as [n Hn]. rewrite Hn in E. symmetry in E.
    destruct (H1 _ _ _ _ Hr' Hr' Hr E E Hn) as ([p q] & [p' q'] & R1 & R2 & R3 & _). exists (p, q). split; [|exact R1].
    rewrite R3. unfold pair2. cbn [fst snd]. do 2 f_equal; ring.
  - intros z. split; intros H.
    + apply mnC_mean; auto. rewrite ET, <- H2'. now apply (mean_mnC _ _ Wf) in H.
    + apply mnC_mean; auto. rewrite H2', <- ET. now apply (mean_mnC _ _ Wf') in H.
  - intros N z. assert (H3' : slC c = slC c') by (rewrite (H3 N); ring). split; intros H.
    + apply slC_slope; auto; [congruence|]. rewrite ET, <- H3'. now apply (slope_slC _ _ Wf) in H.
    + apply slC_slope; auto. rewrite H3', <- ET. now apply (slope_slC _ _ Wf') in H.
  - intros x. destruct (recon_valC c x Wf) as (U1 & U2 & _), (recon_valC c' x Wf') as (U3 & U4 & _).
    assert (V : valC c x = valC c' x) by (rewrite H4; destruct (valC c' x); [f_equal; ring|reflexivity]).
    split; [now rewrite U1, U3, V|]. intros T. rewrite (U2 T), U4, V by congruence. reflexivity.
Qed.

(** ** the whole result *)
Lemma ones_finite {A} (l : list A) : all_finite (map (fun _ => Fin 1) l) = Some (map (fun _ => 1) l).
Proof. unfold all_finite. rewrite map_map. cbn [finite]. induction l as [|x l IH]; [reflexivity|]. cbn [map all_some]. rewrite IH. reflexivity. Qed.
Lemma combine_ones {A D} (l : list A) (y : list D) : length y = length l -> combine l (map (fun _ => 1) y) = map (fun x => (x, 1)) l.
Proof. revert y. induction l as [|a l IH]; intros [|b y] H; try discriminate; [reflexivity|]. cbn [map combine]. f_equal. apply IH. now injection H. Qed.
Lemma combine_maps {A D E} (f : A -> D) (g : A -> E) l : combine (map f l) (map g l) = map (fun x => (f x, g x)) l.
Proof. induction l as [|a l IH]; [reflexivity|]. cbn [map combine]. now rewrite IH. Qed.

Lemma gammas_list L nm (l : list (list C * C)) (g : list C -> C) {A} (y : list A) : length y = length l ->
  gammas L (map fst l) nm (map (fun _ => Fin 1) y) (map snd l) (map g (map fst l)) =
  (let dof := INR (length l) - INR nm in
   do iC <- l_inv L (map (fun a => map (fun b => csum (map (fun p => Cmult (Cmult (nth a (map Cconj (fst p)) (RtoC 0)) (RtoC 1)) (nth b (fst p) (RtoC 0))) l)) (seq 0 nm)) (seq 0 nm));
   do iP <- l_inv L (map (fun a => map (fun b => csum (map (fun p => Cmult (Cmult (nth a (fst p) (RtoC 0)) (RtoC 1)) (nth b (fst p) (RtoC 0))) l)) (seq 0 nm)) (seq 0 nm));
   if Req_EM_T dof 0 then Ok None else
   let varMSM := fst (Cminus (csum (map (fun p => Cmult (Cmult (Cconj (snd p)) (RtoC 1)) (snd p)) l)) (csum (map (fun p => Cmult (Cmult (Cconj (g (fst p))) (RtoC 1)) (snd p)) l))) / dof in
   let fP := Cdiv (Cminus (csum (map (fun p => Cmult (Cmult (snd p) (RtoC 1)) (snd p)) l)) (csum (map (fun p => Cmult (Cmult (g (fst p)) (RtoC 1)) (snd p)) l))) (RtoC dof) in
   Ok (Some (map (map (fun z => Cmult z (RtoC varMSM))) iC, map (map (fun z => Cmult z fP)) iP))).
Proof.
  intros Hy. unfold gammas. rewrite ones_finite, map_length. cbv zeta.
  assert (G1 : gram (cconj_mat (map fst l)) (map fst l) (map (fun _ => 1) y) nm =
    map (fun a => map (fun b => csum (map (fun p => Cmult (Cmult (nth a (map Cconj (fst p)) (RtoC 0)) (RtoC 1)) (nth b (fst p) (RtoC 0))) l)) (seq 0 nm)) (seq 0 nm)).
  { unfold gram, cconj_mat. rewrite map_map, combine_maps, combine_ones by (now rewrite map_length). apply map_ext. intros a. apply map_ext. intros b. now rewrite !map_map. }
  assert (G2 : gram (map fst l) (map fst l) (map (fun _ => 1) y) nm =
    map (fun a => map (fun b => csum (map (fun p => Cmult (Cmult (nth a (fst p) (RtoC 0)) (RtoC 1)) (nth b (fst p) (RtoC 0))) l)) (seq 0 nm)) (seq 0 nm)).
  { unfold gram. rewrite combine_maps, combine_ones by (now rewrite map_length). apply map_ext. intros a. apply map_ext. intros b. now rewrite !map_map. }
  assert (G3 : forall f h : list C * C -> C, wdot (map f l) (map h l) (map (fun _ => 1) y) = csum (map (fun p => Cmult (Cmult (f p) (RtoC 1)) (h p)) l)).
  { intros f h. unfold wdot. rewrite combine_maps, combine_ones by (now rewrite map_length). now rewrite !map_map. }
  rewrite G1, G2. repeat rewrite (map_map _ _ l). now rewrite !G3.
Qed.
Lemma gammas_perm L nm l l' (g : list C -> C) {A D} (y : list A) (y' : list D) : Permutation l l' -> length y = length l -> length y' = length l' ->
  gammas L (map fst l) nm (map (fun _ => Fin 1) y) (map snd l) (map g (map fst l)) =
  gammas L (map fst l') nm (map (fun _ => Fin 1) y') (map snd l') (map g (map fst l')).
Proof.
  intros P H H'. rewrite !gammas_list by assumption. rewrite (Permutation_length P).
  assert (E : forall f : list C * C -> C, csum (map f l) = csum (map f l')) by (intros f; apply csum_perm; now apply Permutation_map).
  assert (E2 : forall f : nat -> nat -> list C * C -> C, map (fun a => map (fun b => csum (map (f a b) l)) (seq 0 nm)) (seq 0 nm) = map (fun a => map (fun b => csum (map (f a b) l')) (seq 0 nm)) (seq 0 nm)).
  { intros f. apply map_ext. intros a. apply map_ext. intros b. apply E. }
  cbv zeta. rewrite (E2 (fun a b p => Cmult (Cmult (nth a (map Cconj (fst p)) (RtoC 0)) (RtoC 1)) (nth b (fst p) (RtoC 0)))),
    (E2 (fun a b p => Cmult (Cmult (nth a (fst p) (RtoC 0)) (RtoC 1)) (nth b (fst p) (RtoC 0)))), !E. reflexivity.
Qed.

Lemma fit_ones L si la s c B x m W : o_method (c_opt c) = PStr "ols" ->
  fit L (si_t si) (si_u si) (si_v si) (si_tref si) (si_lor si) la (c_opt c) s = Ok (B, x, m, W) -> W = map (fun _ => Fin 1) (si_t si).
Proof.
  intros O1 F. unfold fit in F. inv_bind F. destruct (finite_mat a); [|discriminate].
  rewrite O1 in F. cbn [eq_str] in F. rewrite String.eqb_refl in F. inv_bind F. destruct a0 as [[[? ?] ?] ?]. apply Ok_inj in F. congruence.
Qed.
Lemma ones_perm {A D} (x : list A) (y : list D) : length x = length y -> map (fun _ => Fin 1) x = map (fun _ => Fin 1) y.
Proof. revert y. induction x as [|a x IH]; intros [|b y] H; try discriminate; [reflexivity|]. cbn [map]. f_equal. apply IH. now injection H. Qed.

Lemma top_same L t u v t' u' v' lat opts sm sm' c c' :
  analysis L t u v lat opts sm c -> analysis L t' u' v' lat opts sm' c' -> is2d v' = is2d v ->
  reordered L opts t t' sm sm' -> c_reftime c' = c_reftime c -> o_equi (c_opt c') = o_equi (c_opt c) ->
  lstsq_minimises L -> o_method (c_opt c) = PStr "ols" -> approximate (c_opt c) = false -> identifiable c (map fst sm) -> NoDup (c_name c) ->
  o_conf_int (c_opt c) = false \/ o_white (c_opt c) = true -> c' = c.
Proof.
  intros AN AN' D2 RE RT EQ LM OLS NA ID ND Q.
  destruct (perm_run _ _ _ _ _ _ _ _ _ _ _ _ _ AN AN' D2 RE RT (or_introl EQ)) as (_ & _ & _ & _ & _ & OO & si & si' & la & s & B & B' & m & m' & W & W' & BH & BH' & S1 & S1' & E1 & E2 & S3 & S3' & PS).
  specialize (OO EQ). assert (HS := an_sorted _ _ _ _ _ _ _ _ AN).
  assert (LR := len_rows _ _ _ _ _ _ _ _ _ _ _ _ _ _ BH sm S1 eq_refl). assert (LR' := len_rows _ _ _ _ _ _ _ _ _ _ _ _ _ _ BH' sm' S1' eq_refl).
  assert (Lm := bh_len _ _ _ _ _ _ _ _ _ _ _ _ _ _ BH). assert (Lm' := bh_len _ _ _ _ _ _ _ _ _ _ _ _ _ _ BH'). rewrite OO in Lm'.
  assert (IND := run_independent _ _ _ _ _ _ _ _ _ _ _ _ _ _ BH HS NA (map fst sm) ltac:(intros; rewrite S1; tauto) ID ND LR).
  assert (m' = m).
  { apply (best_unique (sys B (map snd sm))).
    - eapply best_perm; [apply Permutation_sym; exact PS|]. eapply run_best; eauto. now rewrite OO.
    - eapply run_best; eauto.
    - congruence.
    - now rewrite Lm'. }
  subst m'.
  assert (EW := fit_ones _ _ _ _ _ _ _ _ _ OLS (bh_fit _ _ _ _ _ _ _ _ _ _ _ _ _ _ BH)). assert (EW' := fit_ones _ _ _ _ _ _ _ _ _ (eq_trans (f_equal o_method OO) OLS) (bh_fit _ _ _ _ _ _ _ _ _ _ _ _ _ _ BH')).
  assert (LN : length sm' = length sm) by (apply Permutation_length, Permutation_sym, RE).
  assert (W' = W) by (rewrite EW, EW', S1, S1'; apply ones_perm; now rewrite !map_length).
  destruct (run_stages _ _ _ _ _ _ _ _ _ _ _ _ _ _ _ AN BH) as (c1 & c2 & P1 & P2 & P3). destruct (run_stages _ _ _ _ _ _ _ _ _ _ _ _ _ _ _ AN' BH') as (c1' & c2' & P1' & P2' & P3').
  rewrite OO in P1', P2', P3'.
  assert (c1' = c1).
  { unfold ci_stage in P1, P1'. rewrite E1, E2, H in P1'. cbv zeta in P1, P1'. destruct (o_conf_int (c_opt c)); [|apply Ok_inj in P1, P1'; congruence].
    destruct Q as [Q|Q]; [discriminate|].
    assert (CE : forall tin t e el tin' t' e' el' nm xs, confidence L (c_opt c) s tin t e el (map snd sm) (model_fit (o_twodim (c_opt c)) B m) W B nm xs =
       confidence L (c_opt c) s tin' t' e' el' (map snd sm') (model_fit (o_twodim (c_opt c)) B' m) W B' nm xs).
    { intros. unfold confidence. rewrite Q. cbn [bind].
      assert (GE : gammas L B nm W (map snd sm) (model_fit (o_twodim (c_opt c)) B m) = gammas L B' nm W (map snd sm') (model_fit (o_twodim (c_opt c)) B' m)).
      { set (g := fun row => if o_twodim (c_opt c) then cdot row m else RtoC (fst (cdot row m))).
        assert (MF : forall B, model_fit (o_twodim (c_opt c)) B m = map g B) by (intros B0; unfold model_fit, g, cmatvec; destruct (o_twodim (c_opt c)); [reflexivity|apply map_map]).
        assert (X := gammas_perm L nm _ _ g (si_t si) (si_t si') PS). unfold sys in X. rewrite !fst_sys, !snd_sys in X by assumption. rewrite !MF, EW. rewrite X.
        - f_equal. apply ones_perm. rewrite S1, S1', !map_length. congruence.
        - rewrite combine_length, S1, map_length. rewrite map_length in LR. rewrite map_length. lia.
        - rewrite combine_length, S1', map_length. rewrite map_length in LR'. rewrite map_length. lia. }
      now rewrite GE. }
    rewrite (CE _ _ _ _ (si_tin si') (si_t si') (resid_parts (o_twodim (c_opt c)) W (map snd sm') (model_fit (o_twodim (c_opt c)) B' m)) (si_elor si')) in P1. congruence. }
  subst c1'. assert (c2' = c2) by congruence. subst c2'. congruence.
Qed.

(** ** the reference time: first and last entries *)
Lemma complete_tref L t u v lat opts sm c : analysis L t u v lat opts sm c -> complete L opts t sm -> c_reftime c = midpoint (map fst sm).
Proof.
  intros AN CM. destruct (analysis_run _ _ _ _ _ _ _ _ AN) as (_ & si & la & s & B & xraw & m & W & BH & _).
  destruct (slv_base _ _ _ _ _ _ _ _ _ AN (bh_slv _ _ _ _ _ _ _ _ _ _ _ _ _ _ BH)) as (l & TL & _ & _ & _ & _ & E).
  rewrite (bh_tref _ _ _ _ _ _ _ _ _ _ _ _ _ _ BH), E.
  assert (Q := times_unique _ _ _ _ _ (an_keys _ _ _ _ _ _ _ _ AN) CM TL). rewrite <- Q. now destruct (o_equi (c_opt c)).
Qed.
Lemma midpoint_ends a b mid : midpoint ((a :: mid) ++ [b]) = / 2 * (a + b).
Proof. unfold midpoint. rewrite last_last. reflexivity. Qed.
Lemma top_ends L t u v lat opts sm c a b mid : analysis L t u v lat opts sm c -> complete L opts t sm -> map fst sm = ((a :: mid) ++ [b])%list ->
  c_reftime c = (a + b) / 2.
Proof. intros AN CM E. rewrite (complete_tref _ _ _ _ _ _ _ _ AN CM), E, midpoint_ends. lra. Qed.
