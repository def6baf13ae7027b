(** Approximate inference: the fit ignores the inferred constituents; one inferred constituent per reference. *)
From Coq Require Import Lia Lra Permutation.
From Verif Require Import M_Base M_Bunch M_Lib M_Tables M_Const M_Options M_Time M_Slvinit M_Harmonics M_Select M_Ellipse
  M_Robust M_Period M_Conf M_Diag M_Solve M_Recon S_Dict S_Options S_Order S_Basis S_Select S_Fit S_Ellipse S_Slv S_Recon S_Model
  L_Base L_Options L_SolveInv L_OptSolve L_Slv L_Slv2 L_Order L_Select L_Fit L_Align L_SelOrder L_Basis L_Angle L_Ellipse L_Recon L_Recon2 L_Recon3 L_Core
  L_Ellipse2 L_Model L_Lsq L_Model2 L_Model3 L_Model4 L_Model5 L_Model6 L_Model7 L_Model8 L_Model9 L_Model10 L_Model11 L_Model12 L_Model13.
Open Scope R_scope.
Open Scope string_scope.

Lemma top_approx L t u v lat opts sm c inf : analysis L t u v lat opts sm c -> NoDup (c_name c) ->
  o_infer (c_opt c) = Some inf -> inf_approx inf = true ->
  exists si la s B xraw m W, lat = Some la /\ slvinit (l_parse L) t u v lat (o_epoch (c_opt c)) = Ok si /\
    ut_cnstitsel (si_tref si) (xdiv (Fin (o_rmin (c_opt c))) (Fin (24 * si_lor si))) (o_cnstit (c_opt c)) (o_infer (c_opt c)) = Ok s /\
    fit L (si_t si) (si_u si) (si_v si) (si_tref si) (si_lor si) la (c_opt c) s = Ok (B, xraw, m, W) /\
    Forall2 (fun x z => yields_only c (not_inferred c) (fst x) z) sm (model_fit (o_twodim (c_opt c)) B m).
Proof.
  intros AN ND Ei Ap. destruct (analysis_run _ _ _ _ _ _ _ _ AN) as (_ & si & la & s & B & xraw & m & W & BH & S1 & S2 & S3).
  exists si, la, s, B, xraw, m, W. split; [apply BH|]. split; [apply BH|]. split; [apply BH|]. split; [apply BH|].
  assert (F := paired _ _ _ _ _ _ _ _ _ _ _ _ _ _ BH sm S1).
  assert (OY := approx_yields _ _ _ _ _ _ _ _ _ _ _ _ _ _ BH (an_sorted _ _ _ _ _ _ _ _ AN) inf Ei Ap ND).
  replace (model_fit (o_twodim (c_opt c)) B m) with (map (fun row => vis1 (o_twodim (c_opt c)) (cdot row m)) B).
  2: { unfold model_fit, cmatvec, vis1. destruct (o_twodim (c_opt c)); [reflexivity|]. now rewrite map_map. }
  clear - F OY. induction F as [|x row l B' G F IH]; cbn [map]; constructor; auto.
Qed.

Lemma bare_cat (tr : bool) s sa sb mn sl : sel_lens s -> length sa = length (s_lind (bare s)) -> length sb = length (s_lind (bare s)) ->
  let d := cat_m tr (firstn (s_nNR s) sa) (firstn (s_nNR s) sb) (skipn (s_nNR s) sa) (skipn (s_nNR s) sb) mn sl in
  length d = (2 * (s_nNR s + s_nR s) + 1 + (if tr then 1 else 0))%nat /\ all_pm d (bare s) = combine sa sb /\
  m_last d (if tr then 2 else 1)%nat = mn /\ (tr = true -> m_last d 1 = sl).
Proof.
  intros SL La Lb. cbv zeta.
  assert (LL : length (s_lind (bare s)) = (s_nNR s + s_nR s)%nat) by (unfold bare; cbn [s_lind]; rewrite app_length, map_length, (ln_nNR _ SL), (ln_nR _ SL); reflexivity).
  assert (F : forall x : list C, length x = length (s_lind (bare s)) -> length (firstn (s_nNR s) x) = s_nNR s /\ length (skipn (s_nNR s) x) = s_nR s).
  { intros x Hx. rewrite firstn_length, skipn_length. lia. }
  destruct (F _ La) as [A1 A2]. destruct (F _ Lb) as [B1 B2].
  split; [rewrite cat_m_len; lia|]. split; [|apply cat_last].
  rewrite cat_pm by (unfold bare; cbn [s_nNR s_nR]; assumption). unfold bare; cbn [s_R]. rewrite !map_map. cbn [bare_ref r_Rp r_Rm].
  assert (Z : forall (l : list refstruct) z, inferred_coefs (map (fun _ => []) l) z = []).
  { induction l as [|r l IH]; intros [|z zs]; auto. unfold inferred_coefs in *. cbn. apply IH. }
  rewrite !Z. cbn [combine]. rewrite app_nil_r, <- combine_app by congruence. now rewrite !firstn_skipn.
Qed.

Lemma top_approx_residuals L t u v lat opts sm c inf : analysis L t u v lat opts sm c -> NoDup (c_name c) ->
  o_infer (c_opt c) = Some inf -> inf_approx inf = true -> lstsq_minimises L -> o_method (c_opt c) = PStr "ols" ->
  exists rs, residuals_only c (not_inferred c) sm rs /\ uncorrelated (fun _ => 1) sm rs /\
    (o_notrend (c_opt c) = false -> uncorrelated (fun x => x - c_reftime c) sm rs) /\
    (forall r n i, In r (rows c) -> w_name r = Some n -> In n (not_inferred c) -> w_lind r = Some i ->
       uncorrelated (wave_cos c i) sm rs /\ uncorrelated (wave_sin c i) sm rs).
Proof.
  intros AN ND Ei Ap LM OLS. destruct (analysis_run _ _ _ _ _ _ _ _ AN) as (_ & si & la & s & B & xraw & m & W & BH & S1 & S2 & S3).
  assert (HS := an_sorted _ _ _ _ _ _ _ _ AN). assert (SL := run_lens _ _ _ _ _ _ _ _ _ _ _ _ _ _ BH).
  assert (AR := approx_row _ _ _ _ _ _ _ _ _ _ _ _ _ _ BH inf Ei Ap).
  assert (OY := approx_yields _ _ _ _ _ _ _ _ _ _ _ _ _ _ BH HS inf Ei Ap ND).
  assert (F := paired _ _ _ _ _ _ _ _ _ _ _ _ _ _ BH sm S1).
  exists (rs c B m sm). split.
  { unfold residuals_only, rs. clear - F OY. induction F as [|x row l B' G F IH]; cbn [combine map]; constructor; auto. cbn [fst snd].
    replace (Cminus (snd x) (Cminus (snd x) (vis1 (o_twodim (c_opt c)) (cdot row m)))) with (vis1 (o_twodim (c_opt c)) (cdot row m)) by ring. now apply OY. }
  assert (U : forall w d, length d = ncoef (c_opt c) s ->
    (forall x row, good_row (si_tref si) (si_lor si) la (c_opt c) s x row -> cdot row d = RtoC (w x)) -> uncorrelated w sm (rs c B m sm)).
  { intros w d H1 H2. eapply run_uncorrelated; eauto. }
  assert (NC : forall d : list C, length d = (2 * (s_nNR s + s_nR s) + 1 + (if negb (o_notrend (c_opt c)) then 1 else 0))%nat -> length d = ncoef (c_opt c) s).
  { intros d ->. unfold ncoef. destruct (o_notrend (c_opt c)); reflexivity. }
  set (z := zeros (length (s_lind (bare s)))). assert (Lz : length z = length (s_lind (bare s))) by (unfold z, zeros; apply repeat_length).
  assert (HZ : forall es, hsum es (combine z z) = RtoC 0) by (intros es; unfold z; apply hsum_zeros).
  split.
  { destruct (bare_cat (negb (o_notrend (c_opt c))) s z z (RtoC 1) (RtoC 0) SL Lz Lz) as (D1 & D2 & D3 & D4).
    apply (U _ _ (NC _ D1)). intros x row G. destruct (AR x row _ G (NC _ D1)) as (es & E1 & E2 & E3 & E4). rewrite E4, D2, D3. rewrite HZ.
    destruct (o_notrend (c_opt c)); cbn [negb] in *; [ring|]. rewrite (D4 eq_refl). unfold Cdiv. ring. }
  split.
  { intros N. destruct (bare_cat (negb (o_notrend (c_opt c))) s z z (RtoC 0) (RtoC (si_lor si)) SL Lz Lz) as (D1 & D2 & D3 & D4).
    rewrite (bh_tref _ _ _ _ _ _ _ _ _ _ _ _ _ _ BH).
    apply (U _ _ (NC _ D1)). intros x row G. destruct (AR x row _ G (NC _ D1)) as (es & E1 & E2 & E3 & E4). rewrite E4, D2, D3. rewrite HZ.
    rewrite N in *; cbn [negb] in *. rewrite (D4 eq_refl). specialize (E3 eq_refl). assert (Q' : RtoC (si_lor si) <> RtoC 0) by (intros Hq; apply E3; now apply RtoC_inj).
    field. exact Q'. }
  intros r n i Hr Hn Hi Hl.
  assert (Hin : In i (s_lind (bare s))).
  { assert (Wf := bh_wf _ _ _ _ _ _ _ _ _ _ _ _ _ _ BH). apply (in_map triple) in Hr. rewrite (triples_rows _ Wf) in Hr. apply in_map_iff in Hr.
    destruct Hr as (tt & Et & Ht). unfold triple in Et. rewrite Hn, Hl in Et. injection Et as E1 E2 _.
    destruct (split_triples _ _ _ _ _ _ _ _ _ _ _ _ _ _ BH HS inf Ei ND) as (T0 & T1 & T2 & T3 & T4).
    assert (P := bh_tri _ _ _ _ _ _ _ _ _ _ _ _ _ _ BH HS). rewrite T2 in P. apply (Permutation_in _ P) in Ht.
    assert (Ht' : In tt T0).
    { rewrite <- T4. apply filter_In. split; auto. rewrite E1. unfold not_inferred in Hi. rewrite Ei in Hi. apply filter_In in Hi. apply Hi. }
    rewrite T3 in Ht'. destruct tt as [[n' i'] pq]. cbn [fst snd] in *. subst i'. apply in_combine_l, in_combine_r in Ht'. exact Ht'. }
  apply in_split in Hin. destruct Hin as (l1 & l2 & El).
  assert (WV : forall a b, exists d, length d = ncoef (c_opt c) s /\ forall x row, good_row (si_tref si) (si_lor si) la (c_opt c) s x row ->
     exists e, e_of c x i = Some e /\ cdot row d = Cplus (Cmult e a) (Cmult (Cconj e) b)).
  { intros a b. set (sa := spike (length l1) (length l2) a). set (sb := spike (length l1) (length l2) b).
    assert (La : length sa = length (s_lind (bare s))) by (unfold sa; rewrite spike_len, El, app_length; reflexivity).
    assert (Lb : length sb = length (s_lind (bare s))) by (unfold sb; rewrite spike_len, El, app_length; reflexivity).
    destruct (bare_cat (negb (o_notrend (c_opt c))) s sa sb (RtoC 0) (RtoC 0) SL La Lb) as (D1 & D2 & D3 & D4).
    eexists. split; [exact (NC _ D1)|]. intros x row G. destruct (AR x row _ G (NC _ D1)) as (es & E1 & E2 & E3 & E4).
    rewrite D2, D3 in E4. rewrite El, map_app in E1. cbn [map] in E1.
    assert (Le : length es = (length l1 + S (length l2))%nat).
    { apply (f_equal (@length _)) in E1. rewrite app_length, !map_length in E1. cbn [length] in E1. rewrite map_length in E1. lia. }
    destruct (split_at es _ _ Le) as (e1 & er & -> & Le1 & Ler). destruct er as [|e e2]; [discriminate|].
    rewrite map_app in E1. cbn [map] in E1.
    assert (EE : e_of c x i = Some e).
    { assert (map (e_of c x) l1 = map Some e1 /\ e_of c x i :: map (e_of c x) l2 = Some e :: map Some e2) as [_ H].
      { apply app_inj_len; [rewrite !map_length; lia|exact E1]. }
      now injection H. }
    exists e. split; [exact EE|]. rewrite E4. unfold sa, sb.
    replace (length l1) with (length e1) by lia. replace (length l2) with (length e2) by (cbn in Ler; lia). rewrite hsum_spike.
    destruct (o_notrend (c_opt c)); cbn [negb] in *; [ring|]. unfold sa, sb in D4. replace (length e1) with (length l1) by lia. replace (length e2) with (length l2) by (cbn in Ler; lia). rewrite (D4 eq_refl). unfold Cdiv. ring. }
  split.
  - destruct (WV (RtoC (1/2)) (RtoC (1/2))) as (d & D1 & D2).
    apply (U _ d D1). intros x row G. destruct (D2 x row G) as (e & E1 & E2). unfold wave_cos. unfold e_of in E1. rewrite E1, E2. apply C_eq; cbn; field.
  - destruct (WV (0, -1/2) (0, 1/2)) as (d & D1 & D2).
    apply (U _ d D1). intros x row G. destruct (D2 x row G) as (e & E1 & E2). unfold wave_sin. unfold e_of in E1. rewrite E1, E2. apply C_eq; cbn; field.
Qed.

(** ** one inferred constituent per reference *)
Lemma ref_columns_approx t tref lat g l : (exists cols, mapM (ref_columns t tref lat g true) l = Ok cols /\ forall r, In r l -> length (r_Ifrq r) = 1%nat) \/
  (mapM (ref_columns t tref lat g true) l = Err ValueError /\ exists r, In r l /\ length (r_Ifrq r) <> 1%nat).
Proof.
  induction l as [|r l IH]; cbn [mapM].
  - left. exists []. split; [reflexivity|]. intros r [].
  - unfold ref_columns at 1 3. destruct (Nat.eqb (length (r_Ifrq r)) 1) eqn:E; cbn [bind].
    + apply Nat.eqb_eq in E. destruct IH as [(cols & -> & H)|(-> & q & Hq & Nq)]; cbn [bind].
      * left. eexists. split; [reflexivity|]. intros q [<- |Hq]; auto.
      * right. split; [reflexivity|]. exists q. split; [now right|auto].
    + right. apply Nat.eqb_neq in E. split; [reflexivity|]. exists r. split; [now left|auto].
Qed.

Lemma refs_single tref mr inc inf s : ut_cnstitsel tref mr inc (Some inf) = Ok s ->
  ((forall r, In r (s_R s) -> length (r_Ifrq r) = 1%nat) <-> NoDup (inf_reference inf)).
Proof.
  intros H. assert (SL := sel_infer _ _ _ _ _ H). assert (LN := sel_lens_ok _ _ _ _ _ H).
  assert (LI : length (flat_map r_Iname (s_R s)) = length (inf_reference inf)) by apply SL.
  assert (LR : length (s_R s) = length (first_occ (inf_reference inf))) by (rewrite <- (sl_refs _ _ _ _ _ SL); symmetry; apply map_length).
  destruct (first_occ_spec (inf_reference inf)) as [F1 F2]. assert (HI := ln_I _ LN).
  assert (Pos : forall r, In r (s_R s) -> (1 <= length (r_Iname r))%nat).
  { intros r Hr. destruct (in_mapM _ _ _ _ (sl_R _ _ _ _ _ SL) Hr) as (n & Hn & E).
    destruct (one_ref_spec _ _ _ _ _ E) as (_ & _ & _ & LP & _). rewrite LP. apply F2 in Hn. apply In_nth_error in Hn. destruct Hn as (j & Hj).
    apply positions_In in Hj. destruct (positions (inf_reference inf) n); [destruct Hj|cbn; lia]. }
  split.
  - intros H1. apply (NoDup_incl_NoDup F1).
    + rewrite <- LR, <- LI. clear - H1 HI. revert H1 HI. generalize (s_R s). induction l as [|r l IH]; intros H1 HI; cbn [flat_map length]; auto.
      rewrite app_length. specialize (IH (fun q Hq => H1 q (or_intror Hq)) (fun q Hq => HI q (or_intror Hq))).
      destruct (HI r (or_introl eq_refl)) as (E & _). rewrite (H1 r (or_introl eq_refl)) in E. lia.
    + intros x Hx. now apply F2.
  - intros ND. assert (E : length (first_occ (inf_reference inf)) = length (inf_reference inf)).
    { apply Nat.le_antisymm; (apply NoDup_incl_length; [assumption|intros x Hx; now apply F2]). }
    rewrite <- LR, <- LI in E. clear - E Pos HI. revert E Pos HI. generalize (s_R s). induction l as [|q l IH]; intros E Pos HI r Hr; [destruct Hr|].
    cbn [flat_map length] in E. rewrite app_length in E. assert (P := Pos q (or_introl eq_refl)).
    assert (G : (length l <= length (flat_map r_Iname l))%nat).
    { clear - Pos. induction l as [|a l IH]; cbn; auto. rewrite app_length. assert (P := Pos a (or_intror (or_introl eq_refl))).
      assert ((length l <= length (flat_map r_Iname l))%nat). { apply IH. intros r [<- |Hr]; apply Pos; [now left|right; now right]. } lia. }
    destruct Hr as [<- |Hr].
    + destruct (HI q (or_introl eq_refl)) as (E1 & _). lia.
    + apply IH; auto; [lia| |]; intros; [apply Pos|apply HI]; now right.
Qed.

(** a reference with two inferred constituents is an error *)
Lemma fit_approx_single L t u v tref lor la o s inf r : o_infer o = Some inf -> inf_approx inf = true ->
  (fit L t u v tref lor la o s = Ok r -> forall q, In q (s_R s) -> length (r_Ifrq q) = 1%nat) /\ (bad_empty_index (flags_of o) s = false -> (exists q, In q (s_R s) /\ length (r_Ifrq q) <> 1%nat) -> fit L t u v tref lor la o s = Err ValueError).
Proof.
  intros Ei Ap. unfold fit, basis. rewrite Ei, Ap. destruct (bad_empty_index (flags_of o) s).
  - cbn [bind]. split; discriminate.
  - destruct (ref_columns_approx t tref la (flags_of o) (s_R s)) as [(cols & -> & H)|(-> & q & Hq & Nq)]; cbn [bind]; split; auto; try discriminate.
    intros _ (q & Hq & Nq). elim Nq. auto.
Qed.
Lemma top_approx_single L t u v lat opts c inf : solve L t u v lat opts = Ok c ->
  o_infer (c_opt c) = Some inf -> inf_approx inf = true -> NoDup (inf_reference inf).
Proof.
  intros Hc Ei Ap. destruct (solve_inv _ _ _ _ _ _ _ Hc) as
    [(compat & si & la & o & s & B & xraw & m & W & c1 & c2 & P1 & P2 & -> & P4 & P5 & P6 & P7 & P8 & P9)].
  assert (SB := solve_base _ _ _ _ _ _ _ _ _ _ _ _ P7 P8 P9).
  assert (Ho : c_opt c = o) by (rewrite (sb_opt _ _ SB); reflexivity). rewrite Ho in Ei. rewrite Ei in P5.
  apply (refs_single _ _ _ _ _ P5). exact (proj1 (fit_approx_single _ _ _ _ _ _ _ _ _ _ _ Ei Ap) P6).
Qed.
Lemma fit_approx_error L t u v tref lor la o s inf mr : o_infer o = Some inf -> inf_approx inf = true ->
  ut_cnstitsel tref mr (o_cnstit o) (Some inf) = Ok s -> bad_empty_index (flags_of o) s = false -> ~ NoDup (inf_reference inf) ->
  fit L t u v tref lor la o s = Err ValueError.
Proof.
  intros Ei Ap Hs Hb ND. apply (proj2 (fit_approx_single _ _ _ _ _ _ _ _ _ _ ([], [], [], []) Ei Ap)); auto.
  apply Classical_Pred_Type.not_all_not_ex. intros N. apply ND. apply (refs_single _ _ _ _ _ Hs). intros r Hr.
  destruct (Nat.eq_dec (length (r_Ifrq r)) 1); auto. elim (N r). auto.
Qed.
