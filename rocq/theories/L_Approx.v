(** The coefficients found with approximate inference are those of the analysis without inference. *)
From Coq Require Import Lia Lra Permutation.
From Verif Require Import M_Base M_Bunch M_Lib M_Tables M_Const M_Options M_Time M_Slvinit M_Harmonics M_Select M_Ellipse
  M_Robust M_Period M_Conf M_Diag M_Solve M_Recon S_Dict S_Options S_Order S_Basis S_Select S_Fit S_Ellipse S_Slv S_Recon S_Model S_Perm S_Choice S_Approx
  L_Base L_Tables L_Options L_SolveInv L_OptSolve L_Slv L_Slv2 L_Order L_Select L_Fit L_Align L_SelOrder L_Basis L_Angle L_Ellipse L_Recon L_Recon2 L_Recon3 L_Core
  L_Ellipse2 L_Model L_Lsq L_Model2 L_Model3 L_Model4 L_Model5 L_Model6 L_Model7 L_Model8 L_Model9 L_Model10 L_Model11 L_Model12 L_Model13 L_Model14 L_Model15
  L_Units2 L_Super L_Super2 L_Super3 L_Perm L_Carry L_Choice.
Open Scope R_scope.
Open Scope string_scope.

Lemma filter_names {A B} (f : B -> bool) (g : A -> B) l : filter f (map g l) = map g (filter (fun x => f (g x)) l).
Proof. induction l as [|a l IH]; [reflexivity|]. cbn [map filter]. destruct (f (g a)); cbn [map]; now rewrite IH. Qed.

Section Run.
Context L t u v lat opts c si la s B xraw m W (BH : behind L t u v lat opts c si la s B xraw m W).
Context (HS : sorted_order (opt_value opts "order_constit")) inf (Ei : o_infer (c_opt c) = Some inf) (Ap : inf_approx inf = true) (ND : NoDup (c_name c)).
Context c' (Wc' : well_formed c') (IX : forall n l, In (n, l) (combine (c_name c') (c_lind c')) -> nth_error const_name l = Some n) (WI : without_inference c c').
Notation tw := (o_twodim (c_opt c)).
Notation nb := (s_name (L_Model13.bare s)).
Notation lb := (s_lind (L_Model13.bare s)).
Notation T0 := (combine (combine nb lb) (map (visible tw) (all_pm m (L_Model13.bare s)))).
Notation good := (good_row (si_tref si) (si_lor si) la (c_opt c) s).

Lemma bare_len : length lb = length nb.
Proof. apply (ln_lind _ (bare_lens _ (run_lens _ _ _ _ _ _ _ _ _ _ _ _ _ _ BH))). Qed.
Lemma pm_len : length (all_pm m (L_Model13.bare s)) = length nb.
Proof.
  assert (SL := run_lens _ _ _ _ _ _ _ _ _ _ _ _ _ _ BH).
  assert (X := bare_cat (negb (o_notrend (c_opt c)))). destruct (split_m (negb (o_notrend (c_opt c))) (s_nNR s) (s_nR s) m) as (a & b & p & q & mn & sl & -> & La & Lb & Lp & Lq).
  { rewrite (bh_len _ _ _ _ _ _ _ _ _ _ _ _ _ _ BH). unfold ncoef. destruct (o_notrend (c_opt c)); reflexivity. }
  rewrite cat_pm by assumption. unfold L_Model13.bare; cbn [s_R s_name]. rewrite !map_map. cbn [bare_ref r_Rp r_Rm].
  assert (Z : forall (l : list refstruct) z, inferred_coefs (map (fun _ => []) l) z = []).
  { induction l as [|r l IH]; intros [|z zs]; auto. unfold inferred_coefs in *. cbn. apply IH. }
  rewrite !Z. cbn [combine]. rewrite app_nil_r, !app_length, !combine_length, map_length, <- (ln_nR _ SL), (ln_NRn _ SL), <- (ln_nNR _ SL). lia.
Qed.
Lemma T0_len : length T0 = length nb.
Proof. rewrite !combine_length, map_length, pm_len, bare_len. lia. Qed.
Lemma T0_fst : map fst T0 = combine nb lb.
Proof. apply combine_fst. rewrite map_length, pm_len, combine_length, bare_len. lia. Qed.
Lemma T0_kept : Permutation (filter (fun x : string * nat * (C * C) => if in_dec string_dec (fst (fst x)) (inf_inferred inf) then false else true) (triples c)) T0.
Proof.
  destruct (split_triples _ _ _ _ _ _ _ _ _ _ _ _ _ _ BH HS inf Ei ND) as (A & A1 & A2 & A3 & A4).
  assert (P := bh_tri _ _ _ _ _ _ _ _ _ _ _ _ _ _ BH HS). rewrite A2 in P. rewrite <- A3, <- A4. now apply filter_perm.
Qed.
Lemma T0_names : Permutation (not_inferred c) nb.
Proof.
  assert (P := Permutation_map (fun x => fst (fst x)) T0_kept). unfold not_inferred. rewrite Ei.
  rewrite <- (triples_names c (bh_wf _ _ _ _ _ _ _ _ _ _ _ _ _ _ BH)), filter_names. rewrite P. rewrite <- (map_map fst fst), T0_fst, combine_fst by (symmetry; apply bare_len). apply Permutation_refl.
Qed.
Lemma T0_place : Permutation (combine nb lb) (combine (c_name c') (c_lind c')).
Proof.
  apply pairs_perm; [|exact IX|].
  - intros n l H. apply (run_indexed _ _ _ _ _ _ _ _ _ _ _ _ _ _ BH HS). rewrite <- T0_fst in H. apply in_map_iff in H. destruct H as (y & E & Hy).
    apply (Permutation_in _ (Permutation_sym T0_kept)) in Hy. apply filter_In in Hy. destruct Hy as [Hy _]. apply (in_map fst) in Hy. rewrite E, triples_fst in Hy by apply BH. exact Hy.
  - rewrite !combine_fst by (first [symmetry; apply bare_len|symmetry; apply Wc']). rewrite <- T0_names. apply WI.
Qed.

(** c without the inferred constituents, arranged like c' *)
Lemma stripped : exists c0, rival c' c0 /\ Permutation (triples c0) T0 /\ mnC c0 = mnC c /\ slC c0 = slC c.
Proof.
  assert (P1 : Permutation (combine (c_name c') (c_lind c')) (map fst T0)) by (rewrite T0_fst; apply Permutation_sym, T0_place).
  destruct (Permutation_map_inv _ _ P1) as (U & EU & PU). set (Q := map snd U).
  assert (A2' : length (c_lind c') = length (c_name c')) by apply Wc'.
  assert (LQ : length Q = length (c_name c')) by (unfold Q; rewrite map_length, <- (map_length fst U), <- EU, combine_length; lia).
  assert (RQ : o_twodim (c_opt c') = false -> real_pairs Q).
  { intros D pq H. rewrite (wi_twodim _ _ WI) in D. unfold Q in H. apply in_map_iff in H. destruct H as (y & <- & Hy). apply (Permutation_in _ (Permutation_sym PU)) in Hy.
    destruct y as [y1 y2]. apply in_combine_r in Hy. apply in_map_iff in Hy. destruct Hy as (z & <- & _). rewrite D. reflexivity. }
  exists (with_pms c' Q (mnC c) (slC c)). assert (W0 : well_formed (with_pms c' Q (mnC c) (slC c))) by now apply with_pms_wf.
  split; [|split; [|split]].
  - constructor; try reflexivity; auto. unfold ties. change (c_opt (with_pms c' Q (mnC c) (slC c))) with (c_opt c'). rewrite (wi_infer _ _ WI). exact I.
  - unfold triples. rewrite with_pms_pms by assumption. rewrite vis_id by assumption. cbn [with_pms c_name c_lind]. rewrite EU. unfold Q. rewrite combine_split. now apply Permutation_sym.
  - unfold mnC at 1. cbn [with_pms c_opt c_umean c_vmean c_mean]. destruct (o_twodim (c_opt c')) eqn:D; cbn [oif negb od]; [symmetry; apply surjective_pairing|].
    apply C_eq; [reflexivity|]. rewrite (wi_twodim _ _ WI) in D. unfold mnC. now rewrite D.
  - unfold slC at 1. cbn [with_pms c_opt c_uslope c_vslope c_slope]. destruct (o_twodim (c_opt c')) eqn:D; cbn [oif negb od]; [symmetry; apply surjective_pairing|].
    apply C_eq; [reflexivity|]. rewrite (wi_twodim _ _ WI) in D. unfold slC. now rewrite D.
Qed.
Lemma e_same x i : e_of c' x i = e_of c x i.
Proof. unfold e_of. now rewrite (wi_flags _ _ WI), (wi_reftime _ _ WI), (wi_lat _ _ WI). Qed.
Lemma some_all {A} (l : list A) : all_some (map Some l) = Some l.
Proof. induction l as [|a l IH]; [reflexivity|]. cbn. now rewrite IH. Qed.

Lemma stripped_value c0 x row : rival c' c0 -> Permutation (triples c0) T0 -> mnC c0 = mnC c -> slC c0 = slC c -> good x row -> valC c0 x = Some (vis1 tw (cdot row m)).
Proof.
  intros R0 P EM ES G. destruct (approx_row _ _ _ _ _ _ _ _ _ _ _ _ _ _ BH inf Ei Ap x row m G (bh_len _ _ _ _ _ _ _ _ _ _ _ _ _ _ BH)) as (es & E1 & E2 & E3 & E4).
  unfold valC. rewrite (tides_terms c0 x _ _ _ (rv_wf _ _ R0) P bare_len) by (rewrite map_length; apply pm_len).
  assert (EE : map (e_of c0 x) lb = map Some es).
  { rewrite <- E1. apply map_ext. intros i. rewrite <- e_same. unfold e_of. now rewrite (rv_opt _ _ R0), (rv_reftime _ _ R0), (rv_lat _ _ R0). }
  rewrite EE, some_all. cbn [option_map]. f_equal. rewrite visible_sum, E4. unfold bgC. rewrite EM, ES, (rv_opt _ _ R0), (rv_reftime _ _ R0), (wi_notrend _ _ WI), (wi_reftime _ _ WI).
  rewrite (bh_tref _ _ _ _ _ _ _ _ _ _ _ _ _ _ BH).
  assert (MN := bh_mn _ _ _ _ _ _ _ _ _ _ _ _ _ _ BH). assert (SLP := bh_sl _ _ _ _ _ _ _ _ _ _ _ _ _ _ BH). cbv zeta in MN, SLP. rewrite MN.
  destruct (o_notrend (c_opt c)); cbn [negb] in *.
  - unfold vis1. destruct tw; apply C_eq; cbn; ring.
  - rewrite (SLP eq_refl). unfold vis1. generalize (Cdiv (m_last m 1) (RtoC (si_lor si))) (hsum es (all_pm m (L_Model13.bare s))) (m_last m 2). intros z h w.
    destruct tw; apply C_eq; cbn; ring.
Qed.

(** c' in the layout of c *)
Lemma plain_vector : exists d, length d = ncoef (c_opt c) s /\ forall x row, good x row -> valC c' x = Some (cdot row d).
Proof.
  assert (SL := run_lens _ _ _ _ _ _ _ _ _ _ _ _ _ _ BH).
  assert (P1 : Permutation (combine nb lb) (map fst (triples c'))) by (rewrite triples_fst by exact Wc'; apply T0_place).
  destruct (Permutation_map_inv _ _ P1) as (U & EU & PU).
  assert (LU : length (map snd U) = length nb) by (rewrite map_length, <- (map_length fst U), <- EU, combine_length, bare_len; lia).
  set (sa := map fst (map snd U)). set (sb := map snd (map snd U)).
  assert (La : length sa = length lb) by (unfold sa; rewrite map_length, LU; symmetry; apply bare_len).
  assert (Lb : length sb = length lb) by (unfold sb; rewrite map_length, LU; symmetry; apply bare_len).
  destruct (bare_cat (negb (o_notrend (c_opt c))) s sa sb (mnC c') (Cmult (slC c') (RtoC (si_lor si))) SL La Lb) as (D1 & D2 & D3 & D4).
  eexists. assert (NC : forall d : list C, length d = (2 * (s_nNR s + s_nR s) + 1 + (if negb (o_notrend (c_opt c)) then 1 else 0))%nat -> length d = ncoef (c_opt c) s).
  { intros d ->. unfold ncoef. destruct (o_notrend (c_opt c)); reflexivity. }
  split; [exact (NC _ D1)|]. intros x row G. destruct (approx_row _ _ _ _ _ _ _ _ _ _ _ _ _ _ BH inf Ei Ap x row _ G (NC _ D1)) as (es & E1 & E2 & E3 & E4).
  rewrite E4, D2, D3. unfold valC.
  assert (PT : Permutation (triples c') (combine (combine nb lb) (map snd U))) by (rewrite EU, combine_split; exact PU).
  rewrite (tides_terms c' x _ _ _ Wc' PT bare_len LU). rewrite (map_ext _ _ (e_same x)), E1, some_all. cbn [option_map]. f_equal.
  replace (combine sa sb) with (map snd U) by (unfold sa, sb; symmetry; apply combine_split). unfold bgC. rewrite (wi_notrend _ _ WI), (wi_reftime _ _ WI), (bh_tref _ _ _ _ _ _ _ _ _ _ _ _ _ _ BH).
  destruct (o_notrend (c_opt c)); cbn [negb] in *; [ring|]. rewrite (D4 eq_refl). assert (Q' : RtoC (si_lor si) <> RtoC 0) by (intros Hq; apply (E3 eq_refl); now apply RtoC_inj).
  unfold Cdiv. rewrite <- (Cmult_assoc (slC c')), Cinv_r by exact Q'. ring.
Qed.

Lemma stripped_best sm c0 (S1 : si_t si = map fst sm) (S2 : xraw = map snd sm) (S3 : tw = false -> forall x, In x sm -> snd (snd x) = 0) :
  lstsq_minimises L -> o_method (c_opt c) = PStr "ols" ->
  rival c' c0 -> Permutation (triples c0) T0 -> mnC c0 = mnC c -> slC c0 = slC c -> exists d d', misfit c0 sm d /\ misfit c' sm d' /\ d <= d'.
Proof.
  intros LM OLS R0 P EM ES. destruct plain_vector as (k & Lk & Vk).
  assert (Y0 : forall x row, good x row -> yields c0 x (vis1 tw (cdot row m))) by (intros x row G; apply yields_valC; [apply R0|eapply stripped_value; eauto]).
  assert (Y1 : forall x row, good x row -> yields c' x (cdot row k)) by (intros x row G; apply yields_valC; auto).
  assert (X0 := misfit_of _ _ _ _ _ _ _ _ _ _ _ _ _ _ BH sm S1 S2 c0 (fun row => vis1 tw (cdot row m)) Y0).
  assert (X1 := misfit_of _ _ _ _ _ _ _ _ _ _ _ _ _ _ BH sm S1 S2 c' (fun row => cdot row k) Y1).
  eexists. eexists. split; [exact X0|]. split; [exact X1|].
  eapply Rle_trans; [|apply (run_best _ _ _ _ _ _ _ _ _ _ _ _ _ _ BH LM OLS k)].
  2: { rewrite Lk. symmetry. apply BH. }
  assert (PR := paired _ _ _ _ _ _ _ _ _ _ _ _ _ _ BH sm S1). rewrite S2. clear - PR S3. unfold sys, nrm, resid.
  revert S3. induction PR as [|x row l B' G PR IH]; intros S3; [right; reflexivity|]. cbn [map combine]. rewrite !rsum_cons. apply Rplus_le_compat.
  - cbn [fst snd]. unfold vis1. destruct tw; [right; reflexivity|].
    assert (H := S3 eq_refl x (or_introl eq_refl)). destruct (cdot row m) as [a b], (snd x) as [y z]. cbn in *. subst z. nra.
  - apply IH. intros T y Hy. apply S3; [exact T|now right].
Qed.

Lemma kept_tides x es : map (e_of c x) lb = map Some es ->
  tides c x (filter (chosen c (CSeq (not_inferred c)) 0 0) (rows c)) = Some (hsum es (map (visible tw) (all_pm m (L_Model13.bare s)))).
Proof.
  intros E1. assert (Wf := bh_wf _ _ _ _ _ _ _ _ _ _ _ _ _ _ BH).
  set (kp := fun n : string => if in_dec string_dec n (inf_inferred inf) then false else true).
  rewrite (tides_rows c x _ kp Wf).
  - f_equal. transitivity (csum (map (tval c x) T0)); [apply csum_perm, Permutation_map; exact T0_kept|].
    rewrite (hsum_terms _ _ _ _ E1). f_equal. unfold tval. rewrite <- (map_map (fun t : string * nat * (C * C) => (snd (fst t), snd t)) (hterm (e_of c x))). f_equal.
    assert (GG : forall (a : list string) (b : list nat) (q : list (C * C)), length b = length a ->
      map (fun t => (snd (fst t), snd t)) (combine (combine a b) q) = combine b q).
    { clear. induction a as [|y a IH]; intros [|z b] q H; try discriminate; auto. destruct q; cbn; auto. f_equal. apply IH. now injection H. }
    apply GG. apply bare_len.
  - intros r n Hr Hn. unfold chosen. rewrite Hn. unfold not_inferred. rewrite Ei.
    assert (Hc : In n (c_name c)).
    { apply in_map_iff in Hr. destruct Hr as (i & <- & _). unfold crow_of in Hn. cbn [w_name] in Hn. eapply nth_error_In; eauto. }
    fold kp. destruct (in_dec string_dec n (filter kp (c_name c))) as [H|H].
    + apply filter_In in H. symmetry. apply H.
    + destruct (kp n) eqn:Ek; auto. elim H. apply filter_In. auto.
  - intros y Hy Hk. assert (Hy' : In y T0) by (apply (Permutation_in _ T0_kept), filter_In; auto).
    destruct y as [[n i] pq]. cbn [fst snd]. apply in_combine_l, in_combine_r in Hy'.
    apply (in_map (e_of c x)) in Hy'. rewrite E1 in Hy'. apply in_map_iff in Hy'. destruct Hy' as (e & He & _). eauto.
Qed.
Lemma kept_yields x z : Permutation (triples c') T0 -> mnC c' = mnC c -> (o_notrend (c_opt c) = false -> slC c' = slC c) -> yields c' x z -> yields_only c (not_inferred c) x z.
Proof.
  intros P EM ES Y. apply (yields_valC _ _ _ Wc') in Y. unfold valC in Y. rewrite (tides_terms c' x _ _ _ Wc' P bare_len) in Y by (rewrite map_length; apply pm_len).
  rewrite (map_ext _ _ (e_same x)) in Y. destruct (all_some (map (e_of c x) lb)) as [es|] eqn:E; [|discriminate Y]. apply all_some_map in E. cbn [option_map] in Y. apply Some_eq2 in Y. subst z.
  assert (Wf := bh_wf _ _ _ _ _ _ _ _ _ _ _ _ _ _ BH).
  unfold yields_only, value_u, value_v. rewrite (kept_tides x es E). cbv zeta. cbn [option_map]. unfold bgC. rewrite EM, (wi_notrend _ _ WI), (wi_reftime _ _ WI).
  assert (RH : tw = false -> snd (hsum es (map (visible tw) (all_pm m (L_Model13.bare s)))) = 0) by (intros D; rewrite visible_sum, D; reflexivity).
  revert RH. generalize (hsum es (map (visible tw) (all_pm m (L_Model13.bare s)))). intros h RH. unfold background, mnC.
  destruct tw eqn:E2d.
  - destruct (wf_2d _ Wf E2d) as (_ & _ & _ & (mu & Emu) & (mv & Emv) & Wt & _). rewrite Emu, Emv in *. cbn [od] in *.
    destruct (o_notrend (c_opt c)) eqn:En.
    + cbn. split; f_equal; ring.
    + rewrite (ES eq_refl). unfold slC. rewrite E2d. destruct (Wt eq_refl) as ((su & Esu) & (sv & Esv)). rewrite Esu, Esv in *. cbn. split; f_equal; ring.
  - destruct (wf_1d _ Wf E2d) as (_ & _ & (mu & Emu) & Wt & _). rewrite Emu in *. cbn [od] in *. specialize (RH eq_refl).
    destruct (o_notrend (c_opt c)) eqn:En.
    + cbn. split; [f_equal; ring|rewrite RH; ring].
    + rewrite (ES eq_refl). unfold slC. rewrite E2d. destruct (Wt eq_refl) as (su & Esu). rewrite Esu in *. cbn. split; [f_equal; ring|rewrite RH; ring].
Qed.
End Run.

Lemma approx_plain L t u v lat opts sm c inf L' t' u' v' lat' opts' sm' c' :
  analysis L t u v lat opts sm c -> analysis L' t' u' v' lat' opts' sm' c' -> without_inference c c' -> Permutation sm sm' ->
  o_infer (c_opt c) = Some inf -> inf_approx inf = true -> lstsq_minimises L -> lstsq_minimises L' ->
  o_method (c_opt c) = PStr "ols" -> o_method (c_opt c') = PStr "ols" -> NoDup (c_name c) -> identifiable c' (map fst sm') -> same_not_inferred c c'.
Proof.
  intros AN AN' WI PS Ei Ap LM LM' OLS OLS' ND ID. assert (HS := an_sorted _ _ _ _ _ _ _ _ AN). assert (HS' := an_sorted _ _ _ _ _ _ _ _ AN').
  assert (Wc := analysis_wf _ _ _ _ _ _ _ _ AN). assert (Wc' := analysis_wf _ _ _ _ _ _ _ _ AN').
  destruct (analysis_run _ _ _ _ _ _ _ _ AN) as (_ & si & la & s & B & xraw & m & W & BH & S1 & S2 & S3).
  assert (IX : forall n l, In (n, l) (combine (c_name c') (c_lind c')) -> nth_error const_name l = Some n).
  { destruct (analysis_run _ _ _ _ _ _ _ _ AN') as (_ & si' & la' & s' & B' & xraw' & m' & W' & BH' & _). eapply run_indexed; eauto. }
  assert (ND' : NoDup (c_name c')).
  { eapply Permutation_NoDup; [apply (wi_names _ _ WI)|]. unfold not_inferred. rewrite Ei. now apply NoDup_filter. }
  assert (NA' : approximate (c_opt c') = false) by (unfold approximate; now rewrite (wi_infer _ _ WI)).
  destruct (stripped _ _ _ _ _ _ _ _ _ _ _ _ _ _ BH HS inf Ei ND c' Wc' IX WI) as (c0 & R0 & P0 & M0 & L0).
  destruct (stripped_best _ _ _ _ _ _ _ _ _ _ _ _ _ _ BH HS inf Ei Ap ND c' Wc' IX WI sm c0 S1 S2 S3 LM OLS R0 P0 M0 L0) as (d & d' & D & D' & LE).
  destruct (rival_same _ _ _ _ _ _ _ _ _ _ _ AN' NA' LM' OLS' ID ND' R0 (misfit_perm _ _ _ _ Wc' PS D') (misfit_perm _ _ _ _ (rv_wf _ _ R0) PS D) LE) as (Q1 & Q2 & Q3 & Q4).
  assert (PT := Permutation_trans Q1 P0). assert (EM : mnC c' = mnC c) by congruence.
  assert (ES : o_notrend (c_opt c) = false -> slC c' = slC c) by (intros N; rewrite Q3 by (now rewrite (wi_notrend _ _ WI)); exact L0).
  assert (ET := wi_twodim _ _ WI). assert (EN := wi_notrend _ _ WI).
  split; [|split; [|split]].
  - intros r r' Hr Hr' E. destruct (triple_of c r Wc Hr) as (n & l & p & T1 & T2 & T3 & T4). destruct (triple_of c' r' Wc' Hr') as (n' & l' & p' & T1' & T2' & T3' & T4').
    rewrite T2, T2' in E. apply Some_eq2 in E. subst n'. apply (Permutation_in _ PT) in T1'.
    apply (Permutation_in _ (Permutation_sym (T0_kept _ _ _ _ _ _ _ _ _ _ _ _ _ _ BH HS inf Ei ND))) in T1'. apply filter_In in T1'. destruct T1' as [T1' _].
    assert (X := nodup_triple c _ _ Wc ND T1 T1' eq_refl). injection X as _ ->. eauto.
  - intros z. split; intros H.
    + apply mnC_mean; auto. rewrite ET, EM. now apply (mean_mnC _ _ Wc) in H.
    + apply mnC_mean; auto. rewrite <- EM, <- ET. now apply (mean_mnC _ _ Wc') in H.
  - intros N z. split; intros H.
    + apply slC_slope; auto; [congruence|]. rewrite ET, (ES N). now apply (slope_slC _ _ Wc) in H.
    + apply slC_slope; auto. rewrite <- (ES N), <- ET. now apply (slope_slC _ _ Wc') in H.
  - intros x z. eapply kept_yields; eauto.
Qed.

Lemma row_named c n : In n (c_name c) -> exists r, In r (rows c) /\ w_name r = Some n.
Proof.
  intros H. apply In_nth_error in H. destruct H as (i & H). exists (crow_of c i). split; [|exact H].
  unfold rows. apply in_map, in_seq. assert (i < length (c_name c))%nat by (apply nth_error_Some; congruence). lia.
Qed.
Lemma approx_inferred L t u v lat opts sm c inf L' t' u' v' lat' opts' sm' c' j i r rp rm :
  analysis L t u v lat opts sm c -> analysis L' t' u' v' lat' opts' sm' c' -> without_inference c c' -> Permutation sm sm' ->
  o_infer (c_opt c) = Some inf -> inf_approx inf = true -> lstsq_minimises L -> lstsq_minimises L' ->
  o_method (c_opt c) = PStr "ols" -> o_method (c_opt c') = PStr "ols" -> NoDup (c_name c) -> identifiable c' (map fst sm') ->
  request_at inf (o_twodim (c_opt c)) j (i, r, rp, rm) ->
  exists a b, In a (rows c) /\ In b (rows c') /\ w_name a = Some i /\ w_name b = Some r /\ multiple rp rm a b.
Proof.
  intros AN AN' WI PS Ei Ap LM LM' OLS OLS' ND ID RQ.
  destruct (approx_plain _ _ _ _ _ _ _ _ _ _ _ _ _ _ _ _ _ AN AN' WI PS Ei Ap LM LM' OLS OLS' ND ID) as (SA & _).
  destruct (proj2 (top_ties _ _ _ _ _ _ _ _ AN ND) _ _ _ _ _ _ Ei RQ) as (a & b & Ha & Hb & Na & Nb & MU).
  assert (HR : In r (inf_reference inf)).
  { destruct RQ as (i' & r' & x & o & _ & E & _ & _ & Q). apply nth_error_In in E. destruct (o_twodim (c_opt c)).
    - destruct Q as (a2 & o2 & _ & _ & Q). injection Q as -> -> _ _. exact E.
    - injection Q as -> -> _ _. exact E. }
  assert (HC : In r (c_name c')).
  { assert (HS := an_sorted _ _ _ _ _ _ _ _ AN). destruct (analysis_run _ _ _ _ _ _ _ _ AN) as (_ & si & la & s & B & xraw & m & W & BH & _).
    apply (Permutation_in _ (wi_names _ _ WI)). apply (Permutation_in _ (Permutation_sym (T0_names _ _ _ _ _ _ _ _ _ _ _ _ _ _ BH HS inf Ei ND))).
    assert (SE := bh_sel _ _ _ _ _ _ _ _ _ _ _ _ _ _ BH). rewrite Ei in SE. assert (SL := sel_infer _ _ _ _ _ SE).
    unfold L_Model13.bare; cbn [s_name]. apply in_or_app. right. rewrite (sl_refs _ _ _ _ _ SL). now apply (first_occ_spec (inf_reference inf)). }
  destruct (row_named c' r HC) as (b' & Hb' & Nb'). exists a, b'. repeat split; auto.
  destruct (SA b b' Hb Hb') as (p & E1 & E2); [congruence|]. destruct MU as (p1 & q1 & M1 & M2). exists p1, q1. split; [congruence|exact M2].
Qed.

Lemma approx_ratios L1 t1 u1 v1 lat1 opts1 sm1 c1 inf1 L2 t2 u2 v2 lat2 opts2 sm2 c2 inf2 L t u v lat opts sm c :
  analysis L1 t1 u1 v1 lat1 opts1 sm1 c1 -> analysis L2 t2 u2 v2 lat2 opts2 sm2 c2 -> analysis L t u v lat opts sm c ->
  without_inference c1 c -> without_inference c2 c -> Permutation sm1 sm -> Permutation sm2 sm ->
  o_infer (c_opt c1) = Some inf1 -> inf_approx inf1 = true -> o_infer (c_opt c2) = Some inf2 -> inf_approx inf2 = true ->
  lstsq_minimises L1 -> lstsq_minimises L2 -> lstsq_minimises L ->
  o_method (c_opt c1) = PStr "ols" -> o_method (c_opt c2) = PStr "ols" -> o_method (c_opt c) = PStr "ols" ->
  NoDup (c_name c1) -> NoDup (c_name c2) -> identifiable c (map fst sm) -> same_besides_inferred c1 c2.
Proof.
  intros A1 A2 A W1 W2 P1 P2 E1 Q1 E2 Q2 M1 M2 M O1 O2 O N1 N2 ID.
  destruct (approx_plain _ _ _ _ _ _ _ _ _ _ _ _ _ _ _ _ _ A1 A W1 P1 E1 Q1 M1 M O1 O N1 ID) as (X1 & X2 & X3 & _).
  destruct (approx_plain _ _ _ _ _ _ _ _ _ _ _ _ _ _ _ _ _ A2 A W2 P2 E2 Q2 M2 M O2 O N2 ID) as (Y1 & Y2 & Y3 & _).
  split; [|split].
  - intros n r1 r2 Hn H1 H2 F1 F2. apply (Permutation_in _ (wi_names _ _ W1)) in Hn. destruct (row_named c n Hn) as (r & Hr & Fr).
    destruct (X1 r1 r H1 Hr) as (p & G1 & G2); [congruence|]. destruct (Y1 r2 r H2 Hr) as (q & K1 & K2); [congruence|]. exists p. split; [exact G1|congruence].
  - intros z. rewrite X2. symmetry. apply Y2.
  - intros Nt z. rewrite (X3 Nt). symmetry. apply Y3. rewrite <- (wi_notrend _ _ W2), (wi_notrend _ _ W1). exact Nt.
Qed.
