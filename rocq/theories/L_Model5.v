(** The coefficient vector of a rival and the rival of a coefficient vector. *)
From Coq Require Import Lia Lra Permutation.
From Verif Require Import M_Base M_Bunch M_Lib M_Tables M_Const M_Options M_Time M_Slvinit M_Harmonics M_Select M_Ellipse
  M_Robust M_Period M_Conf M_Diag M_Solve M_Recon S_Dict S_Options S_Order S_Basis S_Select S_Fit S_Ellipse S_Slv S_Recon S_Model
  L_Base L_Options L_SolveInv L_OptSolve L_Slv2 L_Order L_Select L_Fit L_Align L_SelOrder L_Basis L_Angle L_Ellipse L_Recon L_Recon2 L_Recon3 L_Core
  L_Model L_Lsq L_Model2 L_Model3 L_Model4.
Open Scope R_scope.
Open Scope string_scope.

Lemma infer_attr_dget b d k x : In k required_keys -> infer_attr b d k = Ok x -> dget d k = Some x.
Proof.
  intros Hk. unfold infer_attr. destruct b; [|discriminate]. unfold bunch_getattr.
  destruct Hk as [<-|[<-|[<-|[<-|[]]]]]; cbn; destruct (dget d _); intros H; try discriminate; congruence.
Qed.
Lemma mapM_len {A B} (f : A -> res B) l r : mapM f l = Ok r -> length r = length l.
Proof.
  revert r. induction l as [|a l IH]; cbn [mapM]; intros r H; [injection H as <-; reflexivity|].
  inv_bind H. inv_bind H. injection H as <-. cbn. f_equal. now apply IH.
Qed.
Lemma list_ascii_len s : length (list_ascii_of_string s) = String.length s.
Proof. induction s as [|a s IH]; cbn; auto. Qed.
Lemma as_names_len v n l : pylen v = Ok n -> as_names v = Ok l -> length l = n.
Proof.
  destruct v; cbn; try discriminate; intros H1 H2.
  - injection H1 as <-. injection H2 as <-. rewrite map_length. apply list_ascii_len.
  - injection H1 as <-. eapply mapM_len; eauto.
  - injection H1 as <-. injection H2 as <-. unfold dkeys. apply map_length.
Qed.
Lemma as_nums_len v n l : pylen v = Ok n -> as_nums v = Ok l -> length l = n.
Proof. destruct v; cbn; try discriminate. intros H1 H2. injection H1 as <-. eapply mapM_len; eauto. Qed.

Lemma validated_shape v tw r inf : validate_infer v tw = Ok r -> read_infer r = Ok (Some inf) -> infer_shape inf tw.
Proof.
  intros H R. unfold validate_infer in H. destruct (is_none v || eq_str v "none"); [injection H as <-; discriminate|].
  destruct v; try discriminate. destruct (proper_subset _ _); [discriminate|].
  inv_bind H. rename Ha into A1. inv_bind H. rename Ha into A2. inv_bind H. rename Ha into A3. inv_bind H. rename Ha into A4.
  destruct (Nat.eqb a2 a0) eqn:E1; cbn [negb] in H; [|discriminate].
  inv_bind H. rename Ha into A5. inv_bind H. rename Ha into A6. destruct (Nat.eqb a4 _) eqn:E2 in H; cbn [negb] in H; [|discriminate].
  inv_bind H. rename Ha into A7. inv_bind H. rename Ha into A8. destruct (Nat.eqb a6 _) eqn:E3 in H; cbn [negb] in H; [|discriminate].
  apply Ok_inj in H. subst r. apply Nat.eqb_eq in E1, E2, E3.
  apply infer_attr_dget in A1; [|cbn; tauto]. apply infer_attr_dget in A3; [|cbn; tauto].
  apply infer_attr_dget in A5; [|cbn; tauto]. apply infer_attr_dget in A7; [|cbn; tauto].
  cbn [read_infer] in R. set (d' := if dmem d "approximate" then d else dset d "approximate" (PBool false)) in *.
  assert (D : forall k, k <> "approximate" -> oget d' k = oget d k).
  { intros k Hk. unfold oget, d'. destruct (dmem d "approximate"); auto. now rewrite dget_dset_other. }
  rewrite !D in R by discriminate. unfold oget in R at 1 2 3 4. rewrite A1, A3, A5, A7 in R.
  inv_bind R. inv_bind R. inv_bind R. inv_bind R. apply Ok_inj in R. injection R as <-.
  apply (as_names_len _ _ _ A2) in Ha. apply (as_names_len _ _ _ A4) in Ha0. apply (as_nums_len _ _ _ A6) in Ha1. apply (as_nums_len _ _ _ A8) in Ha2.
  unfold infer_shape. cbn [inf_inferred inf_reference inf_amp inf_off]. cbv zeta. rewrite Ha, Ha0, Ha1, Ha2. auto.
Qed.

(** inferred coefficients are fixed by the ratios *)
Definition tied (Rs : list refstruct) (N2 N3 : list (C * C)) : Prop :=
  forall i r rp rm, In (i, r, rp, rm) (flat_map stored Rs) ->
  forall x y, In (i, x) (combine (flat_map r_Iname Rs) N3) -> In (r, y) (combine (map r_name Rs) N2) ->
  x = (Cmult rp (fst y), Cmult rm (snd y)).
Lemma tied_one (r : string) (y : C * C) (In_ : list string) (Rp Rm : list C) (N : list (C * C)) : length Rp = length In_ -> length Rm = length In_ -> length N = length In_ ->
  (forall i rp rm x, In (i, r, rp, rm) (map (fun q => (fst (fst q), r, snd (fst q), snd q)) (combine (combine In_ Rp) Rm)) ->
     In (i, x) (combine In_ N) -> x = (Cmult rp (fst y), Cmult rm (snd y))) ->
  N = combine (map (fun c => Cmult c (fst y)) Rp) (map (fun c => Cmult c (snd y)) Rm).
Proof.
  revert Rp Rm N. induction In_ as [|i l IH]; intros [|rp Rp] [|rm Rm] [|x N] L1 L2 L3 H; try discriminate; auto.
  cbn [map combine]. f_equal.
  - apply (H i); cbn; auto.
  - apply IH; auto. intros i' rp' rm' x' H1 H2. apply (H i'); cbn; auto.
Qed.
Lemma tied_all Rs N2 N3 : (forall r, In r Rs -> length (r_Rp r) = length (r_Iname r) /\ length (r_Rm r) = length (r_Iname r)) ->
  length N2 = length Rs -> length N3 = length (flat_map r_Iname Rs) -> tied Rs N2 N3 ->
  N3 = combine (inferred_coefs (map r_Rp Rs) (map fst N2)) (inferred_coefs (map r_Rm Rs) (map snd N2)).
Proof.
  revert N2 N3. induction Rs as [|r Rs IH]; intros [|y N2] N3 HI L2 L3 H; try discriminate.
  - destruct N3; [reflexivity|discriminate].
  - cbn [flat_map] in L3. rewrite app_length in L3. destruct (split_at N3 _ _ L3) as (Na & Nb & -> & La & Lb).
    destruct (HI r (or_introl eq_refl)) as [H1 H2].
    unfold inferred_coefs. cbn [map combine List.concat fst snd].
    rewrite combine_app by (rewrite !map_length; congruence). f_equal.
    + apply (tied_one (r_name r) y (r_Iname r)); auto. intros i rp rm x A1 A2. apply (H i (r_name r)).
      * cbn [flat_map]. apply in_or_app. left. exact A1.
      * cbn [flat_map]. rewrite combine_app by auto. apply in_or_app. now left.
      * cbn [map combine]. now left.
    + apply IH; auto. { intros; apply HI; now right. } intros i q rp rm A1 x z A2 A3. apply (H i q).
      * cbn [flat_map]. apply in_or_app. now right.
      * cbn [flat_map]. rewrite combine_app by auto. apply in_or_app. now right.
      * cbn [map combine]. now right.
Qed.

Lemma combine_split {A B} (l : list (A * B)) : combine (map fst l) (map snd l) = l.
Proof. induction l as [|[a b] l IH]; cbn; auto. now f_equal. Qed.
Lemma in_triples c t : well_formed c -> In t (triples c) -> exists r, In r (rows c) /\ w_name r = Some (fst (fst t)) /\ rotary r = Some (snd t).
Proof.
  intros Wf H. apply (in_map (fun t => (Some (fst (fst t)), Some (snd (fst t)), Some (snd t)))) in H.
  rewrite <- triples_rows in H by assumption. apply in_map_iff in H. destruct H as (r & E & Hr). exists r.
  unfold triple in E. injection E as E1 E2 E3. auto.
Qed.
Lemma in_rows_triple c r n pq : well_formed c -> In r (rows c) -> w_name r = Some n -> rotary r = Some pq ->
  exists t, In t (triples c) /\ fst (fst t) = n /\ snd t = pq.
Proof.
  intros Wf H E1 E2. apply (in_map triple) in H. rewrite triples_rows in H by assumption. apply in_map_iff in H.
  destruct H as (t & E & Ht). exists t. unfold triple in E. injection E as E3 E4 E5. split; auto. split; congruence.
Qed.
Lemma row_rotary c r : well_formed c -> In r (rows c) -> exists n pq, w_name r = Some n /\ rotary r = Some pq.
Proof.
  intros Wf H. apply (in_map triple) in H. rewrite triples_rows in H by assumption. apply in_map_iff in H.
  destruct H as (t & E & Ht). unfold triple in E. injection E as E3 E4 E5. eauto.
Qed.

Lemma combine_fst {A B} (a : list A) (b : list B) : length a = length b -> map fst (combine a b) = a.
Proof. revert b. induction a as [|x a IH]; intros [|y b] H; try discriminate; auto. cbn. f_equal. apply IH. now injection H. Qed.
Lemma combine_snd {A B} (a : list A) (b : list B) : length a = length b -> map snd (combine a b) = b.
Proof. revert b. induction a as [|x a IH]; intros [|y b] H; try discriminate; auto. cbn. f_equal. apply IH. now injection H. Qed.

Lemma triples_fst c : well_formed c -> map fst (triples c) = combine (c_name c) (c_lind c).
Proof.
  intros Wf. assert (A1 := wf_aligned _ Wf). destruct A1 as (_ & A1 & _). apply combine_fst.
  rewrite combine_length. unfold pms. rewrite map_length, seq_length. lia.
Qed.

Section Run.
Variables (L : lib) (t : pyarr tarray) (u : pyarr (list xr)) (v : option (pyarr (list xr))) (lat : option R) (opts : dict pyval) (c : coef).
Variables (si : slv) (la : R) (s : sel) (B : list (list C)) (xraw m : list C) (W : list xr).
Hypothesis BH : behind L t u v lat opts c si la s B xraw m W.
Hypothesis HS : sorted_order (opt_value opts "order_constit").
Hypothesis NA : approximate (c_opt c) = false.

Let tw := o_twodim (c_opt c).
Let tr := negb (o_notrend (c_opt c)).

(** what a coefficient vector and a coefficient set of this run have to do with each other *)
Record matches (c' : coef) (k : list C) : Prop := {
  mt_len : length k = ncoef (c_opt c) s;
  mt_tri : Permutation (triples c') (combine (combine (s_name s) (s_lind s)) (all_pm k s));
  mt_mn : mnC c' = m_last k (if tr then 2 else 1)%nat;
  mt_sl : tr = true -> slC c' = Cdiv (m_last k 1) (RtoC (si_lor si)) }.

Lemma run_lens : sel_lens s. Proof. eapply run_sel; eauto. Qed.

Lemma all_pm_run k : length k = ncoef (c_opt c) s -> length (all_pm k s) = length (s_lind s).
Proof.
  intros Hk. assert (SL := run_lens). rewrite (all_pm_len _ _ SL) by (rewrite Hk; unfold ncoef; lia). symmetry. apply (ln_lind _ SL).
Qed.

Lemma tied_rows c' T : well_formed c' -> ties c' -> c_opt c' = c_opt c -> Permutation (triples c') T ->
  forall i r rp rm, In (i, r, rp, rm) (flat_map stored (s_R s)) ->
  forall a b, In a T -> In b T -> fst (fst a) = i -> fst (fst b) = r -> snd a = (Cmult rp (fst (snd b)), Cmult rm (snd (snd b))).
Proof.
  intros Wf Ti Eo P i r rp rm Hq a b Ha Hb E1 E2. destruct (bh_inf _ _ _ _ _ _ _ _ _ _ _ _ _ _ BH) as (inf & V1 & V2).
  assert (Hsel := bh_sel _ _ _ _ _ _ _ _ _ _ _ _ _ _ BH). unfold ties in Ti. rewrite Eo in Ti.
  destruct (o_infer (c_opt c)) as [f|] eqn:Ei.
  - assert (Sh := validated_shape _ _ _ _ V1 V2).
    destruct (stored_requests _ _ _ _ _ _ Sh Hsel) as (js & _ & F2).
    assert (HR : exists j, request_at f (is2d v) j (i, r, rp, rm)).
    { clear - F2 Hq. induction F2; [destruct Hq|]. destruct Hq as [<-|Hq]; eauto. }
    destruct HR as (j & HR). rewrite <- (bh_tw _ _ _ _ _ _ _ _ _ _ _ _ _ _ BH) in HR.
    apply Permutation_sym in P. apply (Permutation_in _ P) in Ha. apply (Permutation_in _ P) in Hb.
    destruct (in_triples _ _ Wf Ha) as (ra & Ra1 & Ra2 & Ra3). destruct (in_triples _ _ Wf Hb) as (rb & Rb1 & Rb2 & Rb3).
    destruct (Ti _ _ _ _ _ HR ra rb Ra1 Rb1) as (p & q & Q1 & Q2); try congruence.
    rewrite Rb3 in Q1. rewrite Ra3 in Q2. injection Q1 as Q1. injection Q2 as Q2. rewrite Q1. exact Q2.
  - rewrite (infer_none_R _ _ _ _ _ Hsel eq_refl) in Hq. destruct Hq.
Qed.

Lemma rival_pairs c' : rival c c' -> Permutation (map fst (triples c')) (combine (s_name s) (s_lind s)).
Proof.
  intros Rv. assert (TR := bh_tri _ _ _ _ _ _ _ _ _ _ _ _ _ _ BH HS). apply (Permutation_map fst) in TR.
  assert (Lsn := ln_lind _ run_lens).
  rewrite combine_fst in TR by (rewrite map_length, (bh_pm _ _ _ _ _ _ _ _ _ _ _ _ _ _ BH), combine_length; lia).
  rewrite <- TR. apply Permutation_refl'. rewrite !triples_fst; [|apply BH|apply Rv].
  now rewrite (rv_name _ _ Rv), (rv_lind _ _ Rv).
Qed.

Lemma rival_vector c' : rival c c' -> exists k, matches c' k.
Proof.
  intros Rv. assert (P := rival_pairs c' Rv). assert (SL := run_lens).
  destruct (Permutation_map_inv _ _ (Permutation_sym P)) as (T & ET & PT). symmetry in ET.
  assert (LT : length T = length (s_name s)).
  { rewrite <- (map_length fst T), ET, combine_length, (ln_lind _ SL). lia. }
  assert (ET' : T = combine (combine (s_name s) (s_lind s)) (map snd T)) by (rewrite <- ET; symmetry; apply combine_split).
  set (N := map snd T) in *. assert (LN : length N = length (s_name s)) by (unfold N; rewrite map_length; exact LT).
  assert (LN' := LN). rewrite (ln_name _ SL), app_length in LN'. destruct (split_at N _ _ LN') as (N1 & Nr & EN & L1 & Lr).
  rewrite app_length in Lr. destruct (split_at Nr _ _ Lr) as (N2 & N3 & ENr & L2 & L3). subst Nr.
  rewrite map_length in L2.
  assert (TA : tied (s_R s) N2 N3).
  { intros i r rp rm Hq x y Hx Hy.
    assert (NT : combine (s_name s) N = (combine (s_NRname s) N1 ++ combine (map r_name (s_R s)) N2 ++ combine (flat_map r_Iname (s_R s)) N3)%list).
    { rewrite (ln_name _ SL), EN, !combine_app; auto. rewrite map_length. auto. }
    assert (F : forall n z, In (n, z) (combine (s_name s) N) -> exists a, In a T /\ fst (fst a) = n /\ snd a = z).
    { intros n z Hz. replace (combine (s_name s) N) with (map (fun a : string * nat * (C * C) => (fst (fst a), snd a)) T) in Hz.
      - apply in_map_iff in Hz. destruct Hz as (a & Ea & Ha). injection Ea as <- <-. eauto.
      - rewrite ET'. clear - LN SL. assert (E := ln_lind _ SL). revert LN E. generalize (s_name s) (s_lind s) N.
        induction l as [|x l IH]; intros [|y k] [|z n] E1 E2; try discriminate; auto. cbn. f_equal. apply IH; cbn in *; lia. }
    destruct (F i x) as (a & Ha & Ea & Eax). { rewrite NT. apply in_or_app; right. apply in_or_app; now right. }
    destruct (F r y) as (b & Hb & Eb & Eby). { rewrite NT. apply in_or_app; right. apply in_or_app; now left. }
    rewrite <- Eax, <- Eby. exact (tied_rows c' T (rv_wf _ _ Rv) (rv_ties _ _ Rv) (rv_opt _ _ Rv) PT i r rp rm Hq a b Ha Hb Ea Eb). }
  apply tied_all in TA; auto; [|intros r Hr; destruct (ln_I _ SL r Hr) as (_ & _ & H1 & H2); auto].
  exists (cat_m tr (map fst N1) (map snd N1) (map fst N2) (map snd N2) (mnC c') (Cmult (RtoC (si_lor si)) (slC c'))).
  assert (LR : length N2 = s_nR s) by (rewrite (ln_nR _ SL); auto).
  assert (LNR : length N1 = s_nNR s) by (rewrite (ln_nNR _ SL), L1; apply (ln_NRn _ SL)).
  destruct (cat_last tr (map fst N1) (map snd N1) (map fst N2) (map snd N2) (mnC c') (Cmult (RtoC (si_lor si)) (slC c'))) as [C1 C2].
  constructor.
  - rewrite cat_m_len, !map_length. unfold ncoef, tr. destruct (o_notrend (c_opt c)); cbn [negb]; lia.
  - rewrite cat_pm by (rewrite map_length; auto). rewrite !combine_split, <- TA, <- EN, <- ET'. exact PT.
  - now rewrite C1.
  - intros Ht. rewrite (C2 Ht).
    assert (Z : si_lor si <> 0).
    { destruct (run_rows _ _ _ _ _ _ _ _ _ _ _ _ _ _ BH) as (F & _).
      assert (Hne := bh_t _ _ _ _ _ _ _ _ _ _ _ _ _ _ BH). destruct F as [|x row]; [congruence|].
      destruct (run_row _ _ _ _ _ _ _ _ _ _ _ _ _ _ BH NA x row m H (bh_len _ _ _ _ _ _ _ _ _ _ _ _ _ _ BH)) as (es & _ & _ & Z & _).
      apply Z. exact Ht. }
    assert (Q' : RtoC (si_lor si) <> RtoC 0) by (intros Hq; apply Z; now apply RtoC_inj). field. exact Q'.
Qed.

(** values of a matching set at the sample times *)
Lemma matches_row c' k x row : well_formed c' -> c_opt c' = c_opt c -> c_reftime c' = c_reftime c -> c_lat c' = c_lat c ->
  matches c' k -> good_row (si_tref si) (si_lor si) la (c_opt c) s x row ->
  recon_u c' x = Fin (fst (cdot row k)) /\ (tw = true -> recon_v c' x = Fin (snd (cdot row k))) /\ (tw = false -> snd (cdot row k) = 0).
Proof.
  intros Wf Eo Er El M G. destruct (run_row _ _ _ _ _ _ _ _ _ _ _ _ _ _ BH NA x row k G (mt_len _ _ M)) as (es & E1 & E2 & E3 & E4).
  destruct (recon_natural c' x es (s_name s) (s_lind s) _ Wf (mt_tri _ _ M)) as (R1 & R2 & R3).
  { symmetry. apply (ln_lind _ run_lens). }
  { apply all_pm_run, M. }
  { rewrite <- E1. apply map_ext. intros i. unfold e_of. now rewrite Eo, Er, El. }
  rewrite Eo in R2, R3.
  assert (Z : Cplus (hsum es (all_pm k s)) (bgC c' x) = cdot row k).
  { rewrite E4. unfold bgC. rewrite Eo, Er, (mt_mn _ _ M), (bh_tref _ _ _ _ _ _ _ _ _ _ _ _ _ _ BH). fold tr.
    assert (Hs := mt_sl _ _ M). destruct (Bool.bool_dec (o_notrend (c_opt c)) true) as [En|En].
    - assert (Etr : tr = false) by (unfold tr; now rewrite En). rewrite Etr, En. ring.
    - apply Bool.not_true_is_false in En. assert (Etr : tr = true) by (unfold tr; now rewrite En).
      rewrite Etr in Hs |- *. rewrite En, (Hs eq_refl). ring. }
  cbv zeta in *. rewrite Z in *. auto.
Qed.
End Run.
