(** Models of which one contains the other. *)
From Coq Require Import Lia Lra Permutation.
From Verif Require Import M_Base M_Bunch M_Lib M_Tables M_Const M_Options M_Time M_Slvinit M_Harmonics M_Select M_Ellipse
  M_Robust M_Period M_Conf M_Diag M_Solve M_Recon S_Dict S_Options S_Order S_Basis S_Select S_Fit S_Ellipse S_Slv S_Recon S_Model S_Perm S_Choice S_Nested S_Output
  L_Base L_Tables L_Options L_SolveInv L_OptSolve L_Slv L_Slv2 L_Order L_Select L_Fit L_Align L_SelOrder L_Basis L_Angle L_Ellipse L_Recon L_Recon2 L_Recon3 L_Core
  L_Ellipse2 L_Model L_Lsq L_Model2 L_Model3 L_Model4 L_Model5 L_Model6 L_Model7 L_Model8 L_Model9 L_Model10 L_Model11 L_Model12 L_Model15
  L_Units2 L_Super L_Super2 L_Super3 L_Perm L_Carry L_Choice L_Output L_Affine2.
Open Scope R_scope.
Open Scope string_scope.

Lemma rsum_all0 l : (forall y, In y l -> y = 0) -> rsum l = 0.
Proof. induction l as [|x l IH]; intros H; [reflexivity|]. rewrite rsum_cons, (H x (or_introl eq_refl)), IH; [ring|]. intros; apply H; now right. Qed.
Lemma rsum_pos l : (forall y, In y l -> 0 <= y) -> 0 <= rsum l.
Proof. induction l as [|x l IH]; intros H; [right; reflexivity|]. rewrite rsum_cons. assert (A := H x (or_introl eq_refl)). assert (B := IH (fun y Hy => H y (or_intror Hy))). lra. Qed.

Lemma perm_rest {A} (l : list A) : forall l', NoDup l -> incl l l' -> exists r, Permutation l' (l ++ r).
Proof.
  induction l as [|x l IH]; intros l' ND I; [exists l'; reflexivity|]. apply NoDup_cons_iff in ND. destruct ND as [N1 N2].
  destruct (in_split x l' (I x (or_introl eq_refl))) as (a & b & ->).
  destruct (IH (a ++ b)%list N2) as (r & P).
  { intros y Hy. assert (Q := I y (or_intror Hy)). apply in_app_iff in Q. apply in_app_iff. destruct Q as [Q|[Q|Q]]; auto. subst y. contradiction. }
  exists r. rewrite <- Permutation_middle. cbn [app]. now constructor.
Qed.

Definition zero_at (p : string * nat) : string * nat * (C * C) := (p, (RtoC 0, RtoC 0)).
Lemma hsum_zero es n : hsum es (repeat (RtoC 0, RtoC 0) n) = RtoC 0.
Proof.
  revert n. induction es as [|e es IH]; intros [|n]; try reflexivity.
  assert (E : hsum (e :: es) (repeat (RtoC 0, RtoC 0) (S n)) = Cplus (Cplus (Cmult e (RtoC 0)) (Cmult (Cconj e) (RtoC 0))) (hsum es (repeat (RtoC 0, RtoC 0) n))) by reflexivity.
  rewrite E, IH. ring.
Qed.
Lemma all_some_app {A} (a b : list (option A)) r : all_some (a ++ b) = Some r -> exists p q, all_some a = Some p /\ all_some b = Some q /\ r = (p ++ q)%list.
Proof.
  revert r. induction a as [|o a IH]; intros r H; [exists [], r; auto|]. cbn [app all_some] in *. destruct o as [x|]; [|discriminate].
  destruct (all_some (a ++ b)) as [s|]; [|discriminate]. destruct (IH s eq_refl) as (p & q & -> & -> & ->). injection H as <-. exists (x :: p), q. auto.
Qed.

Lemma triple_split (ns : list string) (ls : list nat) (ps : list (C * C)) rest : length ls = length ns -> length ps = length ns ->
  combine (combine (ns ++ map fst rest) (ls ++ map snd rest)) (ps ++ repeat (RtoC 0, RtoC 0) (length rest)) = (combine (combine ns ls) ps ++ map zero_at rest)%list.
Proof.
  revert ls ps. induction ns as [|n ns IH]; intros [|l ls] [|p ps] H1 H2; try discriminate.
  - cbn [app combine]. clear. induction rest as [|[a b] r IH]; [reflexivity|]. cbn [map repeat length combine fst snd]. f_equal. exact IH.
  - cbn [app combine]. f_equal. apply IH; [now injection H1|now injection H2].
Qed.

Definition slope_part (c : coef) : C := if o_notrend (c_opt c) then RtoC 0 else slC c.

Lemma extended c c' : well_formed c -> well_formed c' -> wider c c' -> NoDup (c_name c) ->
  (forall n l, In (n, l) (combine (c_name c) (c_lind c)) -> nth_error const_name l = Some n) ->
  (forall n l, In (n, l) (combine (c_name c') (c_lind c')) -> nth_error const_name l = Some n) ->
  exists c0 rest, rival c' c0 /\ Permutation (triples c0) (triples c ++ map zero_at rest) /\
    Permutation (c_name c') (c_name c ++ map fst rest) /\
    mnC c0 = mnC c /\ slC c0 = slope_part c /\ forall x z, valC c0 x = Some z -> valC c x = Some z.
Proof.
  intros Wc Wc' [E1 E4 E5 E6 [I1 I2] ET IN] ND IX IX'.
  assert (A2 : length (c_lind c) = length (c_name c)) by apply Wc. assert (A2' : length (c_lind c') = length (c_name c')) by apply Wc'.
  assert (NP : NoDup (combine (c_name c) (c_lind c))) by (apply (NoDup_map_inv fst); rewrite combine_fst by congruence; exact ND).
  assert (IP : incl (combine (c_name c) (c_lind c)) (combine (c_name c') (c_lind c'))).
  { intros [n l] H. assert (Hn := in_combine_l _ _ _ _ H). apply IN in Hn. rewrite <- (combine_fst (c_name c') (c_lind c')) in Hn by congruence.
    apply in_map_iff in Hn. destruct Hn as ([n' l'] & E & H'). cbn [fst] in E. subst n'. replace l with l'; [exact H'|].
    apply (index_NoDup n); auto. }
  destruct (perm_rest _ _ NP IP) as (rest & PR).
  set (V := (triples c ++ map zero_at rest)%list).
  assert (P1 : Permutation (combine (c_name c') (c_lind c')) (map fst V)).
  { unfold V. rewrite map_app, triples_fst by assumption. rewrite map_map. unfold zero_at. cbn [fst]. now rewrite map_id. }
  destruct (Permutation_map_inv _ _ P1) as (U & EU & PU).
  set (Q := map snd U). assert (LQ : length Q = length (c_name c')).
  { unfold Q. rewrite map_length, <- (map_length fst U), <- EU, combine_length. lia. }
  assert (RQ : o_twodim (c_opt c') = false -> real_pairs Q).
  { intros D pq H. rewrite E4 in D. unfold Q in H. apply in_map_iff in H. destruct H as (x & <- & Hx). apply (Permutation_in _ (Permutation_sym PU)) in Hx.
    unfold V in Hx. apply in_app_iff in Hx. destruct Hx as [Hy|Hy].
    - apply (pms_real c Wc D). unfold triples in Hy. destruct x as [y1 y2]. now apply in_combine_r in Hy.
    - apply in_map_iff in Hy. destruct Hy as (y & <- & _). unfold zero_at. cbn [snd fst]. apply C_eq; cbn; ring. }
  set (c0 := with_pms c' Q (mnC c) (slope_part c)).
  assert (W0 : well_formed c0) by now apply with_pms_wf.
  assert (T0 : triples c0 = U).
  { unfold triples, c0. rewrite with_pms_pms by assumption. rewrite vis_id by assumption. cbn [with_pms c_name c_lind]. rewrite EU. apply combine_split. }
  assert (PT : Permutation (triples c0) V) by (rewrite T0; now apply Permutation_sym).
  assert (MN : mnC c0 = mnC c).
  { unfold c0, mnC at 1. cbn [with_pms c_opt c_umean c_vmean c_mean]. destruct (o_twodim (c_opt c')) eqn:D; cbn [oif negb od]; [symmetry; apply surjective_pairing|].
    apply C_eq; [reflexivity|]. unfold mnC. rewrite <- E4. reflexivity. }
  assert (SL : slC c0 = slope_part c).
  { unfold c0, slC at 1. cbn [with_pms c_opt c_uslope c_vslope c_slope]. destruct (o_twodim (c_opt c')) eqn:D; cbn [oif negb od]; [symmetry; apply surjective_pairing|].
    apply C_eq; [reflexivity|]. unfold slope_part. destruct (o_notrend (c_opt c)); [reflexivity|]. unfold slC. rewrite <- E4. reflexivity. }
  exists c0, rest. split; [|split; [exact PT|split; [|split; [exact MN|split; [exact SL|]]]]].
  - constructor; try reflexivity; auto. unfold ties. change (c_opt c0) with (c_opt c'). rewrite I2. exact I.
  - apply (Permutation_map fst) in PR. rewrite map_app, !combine_fst in PR by congruence. exact PR.
  - intros x z. unfold valC.
    assert (PP : Permutation (triples c0) (combine (combine (c_name c ++ map fst rest) (c_lind c ++ map snd rest)) (pms c ++ repeat (RtoC 0, RtoC 0) (length rest)))).
    { rewrite PT. apply Permutation_refl'. symmetry. apply triple_split; [exact A2|apply pms_len]. }
    rewrite (tides_terms c0 x _ _ _ W0 PP) by (rewrite !app_length, ?map_length, ?repeat_length, ?pms_len; congruence).
    rewrite (tides_terms c x (c_name c) (c_lind c) (pms c) Wc (Permutation_refl _) A2 (pms_len c)).
    assert (EE : forall i, e_of c0 x i = e_of c x i).
    { intros i. unfold e_of. change (c_opt c0) with (c_opt c'). change (c_reftime c0) with (c_reftime c'). change (c_lat c0) with (c_lat c'). now rewrite E1, E5, E6. }
    rewrite map_app, (map_ext _ _ EE (c_lind c)). intros H. destruct (all_some (map (e_of c x) (c_lind c) ++ _)) as [es|] eqn:EA; [|discriminate].
    destruct (all_some_app _ _ _ EA) as (p & q & B1 & B2 & ->). rewrite B1. cbn [option_map] in H |- *. rewrite <- H. f_equal. f_equal.
    + rewrite hsum_app, hsum_zero; [ring|]. rewrite pms_len, <- A2. apply all_some_map in B1. apply (f_equal (@length _)) in B1. rewrite !map_length in B1. congruence.
    + unfold bgC. rewrite MN, SL. change (c_opt c0) with (c_opt c'). change (c_reftime c0) with (c_reftime c'). rewrite E5. f_equal. unfold slope_part.
      destruct (o_notrend (c_opt c')) eqn:N'; [rewrite (ET eq_refl); reflexivity|]. destruct (o_notrend (c_opt c)); [ring|reflexivity].
Qed.

Lemma analysis_indexed L t u v lat opts sm c : analysis L t u v lat opts sm c -> forall n l, In (n, l) (combine (c_name c) (c_lind c)) -> nth_error const_name l = Some n.
Proof.
  intros AN. destruct (analysis_run _ _ _ _ _ _ _ _ AN) as (_ & si & la & s & B & xraw & m & W & BH & _). eapply run_indexed; eauto. eapply an_sorted; eauto.
Qed.

(** ** the wider model is never worse *)
Lemma never_worse L t u v lat opts sm c L' t' u' v' lat' opts' sm' c' :
  analysis L t u v lat opts sm c -> analysis L' t' u' v' lat' opts' sm' c' -> wider c c' -> NoDup (c_name c) -> Permutation sm sm' ->
  lstsq_minimises L' -> o_method (c_opt c') = PStr "ols" ->
  forall L1, exists zs zs', returns L1 c (map fst sm) zs /\ returns L1 c' (map fst sm) zs' /\ distance2 sm zs' <= distance2 sm zs.
Proof.
  intros AN AN' WD ND PS LM' OLS' L1. assert (Wc := analysis_wf _ _ _ _ _ _ _ _ AN). assert (Wc' := analysis_wf _ _ _ _ _ _ _ _ AN').
  destruct (extended c c' Wc Wc' WD ND (analysis_indexed _ _ _ _ _ _ _ _ AN) (analysis_indexed _ _ _ _ _ _ _ _ AN')) as (c0 & rest & RV & _ & _ & _ & _ & V).
  assert (NA' : approximate (c_opt c') = false) by (unfold approximate; rewrite (proj2 (wd_infer _ _ WD)); reflexivity).
  destruct (top_optimal _ _ _ _ _ _ _ _ _ AN' NA' LM' OLS' RV) as (d' & d & D' & D & LE).
  apply (misfit_perm _ _ _ _ Wc' (Permutation_sym PS)) in D'. apply (misfit_perm _ _ _ _ (rv_wf _ _ RV) (Permutation_sym PS)) in D.
  destruct D' as (zs' & Z' & ->), D as (zs & Z & ->). exists zs, zs'. apply forall2_fst in Z, Z'.
  split; [|split; [now apply returns_yields|exact LE]]. apply returns_yields; [exact Wc|]. revert Z. generalize (map fst sm). clear - V Wc RV. intros l Z.
  induction Z as [|x z l zs H _ IH]; constructor; auto. apply (yields_valC _ _ _ Wc). apply V. now apply (yields_valC _ _ _ (rv_wf _ _ RV)).
Qed.

(** ** data that the narrower model explains *)
Lemma absent L t u v lat opts sm c L' t' u' v' lat' opts' sm' c' :
  analysis L t u v lat opts sm c -> analysis L' t' u' v' lat' opts' sm' c' -> wider c c' -> NoDup (c_name c) -> Permutation sm sm' ->
  lstsq_minimises L' -> o_method (c_opt c') = PStr "ols" -> identifiable c' (map fst sm') -> NoDup (c_name c') ->
  (exists L1, returns L1 c (map fst sm) (map snd sm)) -> nothing_more c c'.
Proof.
  intros AN AN' WD ND PS LM' OLS' ID ND' (L1 & H). assert (Wc := analysis_wf _ _ _ _ _ _ _ _ AN). assert (Wc' := analysis_wf _ _ _ _ _ _ _ _ AN').
  destruct (extended c c' Wc Wc' WD ND (analysis_indexed _ _ _ _ _ _ _ _ AN) (analysis_indexed _ _ _ _ _ _ _ _ AN')) as (c0 & rest & RV & PT & PN & MN & SL & V).
  assert (W0 := rv_wf _ _ RV).
  assert (NA' : approximate (c_opt c') = false) by (unfold approximate; rewrite (proj2 (wd_infer _ _ WD)); reflexivity).
  destruct (top_optimal _ _ _ _ _ _ _ _ _ AN' NA' LM' OLS' RV) as (d' & d & D' & D & LE).
  apply returns_yields in H; [|exact Wc]. apply forall_pairs in H.
  assert (D0 : d = 0).
  { apply (misfit_val _ _ _ W0) in D. destruct D as [X ->]. apply rsum_all0.
    intros y Hy. apply in_map_iff in Hy. destruct Hy as (s & <- & Hs). assert (Y := V _ _ (X s Hs)).
    apply (Permutation_in _ (Permutation_sym PS)) in Hs. rewrite Forall_forall in H. apply H in Hs. apply (yields_valC _ _ _ Wc) in Hs. rewrite Y in Hs.
    injection Hs as ->. unfold sq. cbn. ring. }
  assert (G : 0 <= d').
  { destruct D' as (zs & _ & ->). unfold norm2. apply rsum_pos. intros y Hy. apply in_map_iff in Hy. destruct Hy as (z & <- & _).
    assert (A := pow2_ge_0 (fst z)). assert (B := pow2_ge_0 (snd z)). lra. }
  destruct (rival_same _ _ _ _ _ _ _ _ _ _ _ AN' NA' LM' OLS' ID ND' RV D' D ltac:(lra)) as (Q1 & Q2 & Q3 & Q4).
  assert (PC : Permutation (triples c') (triples c ++ map zero_at rest)) by (rewrite Q1; exact PT).
  assert (NN : forall n p, In (n, p) (map (fun t => (fst (fst t), snd t)) (triples c')) -> In (n, p) (map (fun t => (fst (fst t), snd t)) (triples c)) \/ p = (RtoC 0, RtoC 0) /\ In n (map fst rest)).
  { intros n p Hp. apply in_map_iff in Hp. destruct Hp as (x & E & Hx). injection E as <- <-. apply (Permutation_in _ PC) in Hx. apply in_app_iff in Hx. destruct Hx as [Hx|Hx].
    - left. apply in_map_iff. eauto.
    - right. apply in_map_iff in Hx. destruct Hx as (y & <- & Hy). split; [reflexivity|]. unfold zero_at. cbn [fst]. now apply in_map. }
  assert (ET : o_twodim (c_opt c') = o_twodim (c_opt c)) by apply WD.
  split; [|split; [|split; [|split]]].
  - intros r r' Hr Hr' E. destruct (triple_of c r Wc Hr) as (n & l & p & T1 & T2 & T3 & T4). destruct (triple_of c' r' Wc' Hr') as (n' & l' & p' & T1' & T2' & T3' & T4').
    rewrite T2, T2' in E. apply Some_eq2 in E. subst n'.
    assert (T5 : In (n, l, p) (triples c')) by (apply (Permutation_in _ (Permutation_sym PC)), in_app_iff; now left).
    assert (X := nodup_triple c' _ _ Wc' ND' T5 T1' eq_refl). injection X as _ ->. eauto.
  - intros r' n Hr' Hn NI. destruct (triple_of c' r' Wc' Hr') as (n' & l' & p' & T1' & T2' & T3' & T4'). rewrite Hn in T2'. apply Some_eq2 in T2'. subst n'.
    destruct (NN n p') as [X|[X _]]; [apply in_map_iff; exists (n, l', p'); auto| |now rewrite T4', X]. destruct NI.
    apply in_map_iff in X. destruct X as (y & E & Hy). injection E as E _. rewrite <- (triples_names c Wc), <- E. now apply (in_map (fun t => fst (fst t))).
  - intros z. split; intros K.
    + apply mnC_mean; auto. rewrite ET, Q2, MN. now apply (mean_mnC _ _ Wc) in K.
    + apply mnC_mean; auto. rewrite <- MN, <- Q2, <- ET. now apply (mean_mnC _ _ Wc') in K.
  - intros N'. assert (S' := Q3 N'). rewrite SL in S'. unfold slope_part in S'. destruct (o_notrend (c_opt c)) eqn:N.
    + apply slC_slope; auto. rewrite S'. destruct (o_twodim (c_opt c')); reflexivity.
    + intros z. split; intros K.
      * apply slC_slope; auto. rewrite ET, S'. now apply (slope_slC _ _ Wc) in K.
      * apply slC_slope; auto. rewrite <- S', <- ET. now apply (slope_slC _ _ Wc') in K.
  - intros x z K. apply (yields_valC _ _ _ Wc). apply V. rewrite <- Q4. now apply (yields_valC _ _ _ Wc').
Qed.

(** ** data = fit + residual, at right angles *)
Lemma pythagoras L t u v lat opts sm c : analysis L t u v lat opts sm c -> approximate (c_opt c) = false -> NoDup (c_name c) ->
  lstsq_minimises L -> o_method (c_opt c) = PStr "ols" ->
  forall L1, exists zs, returns L1 c (map fst sm) zs /\ norm2 (map snd sm) = norm2 zs + distance2 sm zs.
Proof.
  intros AN NA ND LM OLS L1. assert (Wc := analysis_wf _ _ _ _ _ _ _ _ AN).
  assert (RV : rival c c) by (constructor; try reflexivity; [exact Wc|exact (proj1 (top_ties _ _ _ _ _ _ _ _ AN ND))]).
  destruct (top_residuals _ _ _ _ _ _ _ _ AN NA LM OLS) as (rs & R1 & _ & _ & _ & R5). destruct (R5 c RV) as (zs & Z & E). apply forall2_fst in Z.
  destruct (residuals_out _ _ _ R1) as (zs' & Z' & ->). rewrite <- (pairs_unique _ _ _ _ Z Z') in E.
  exists zs. split; [now apply returns_yields|]. apply Forall2_len in Z. rewrite map_length in Z. unfold distance2, norm2.
  assert (X : rsum (map (fun z => fst z ^ 2 + snd z ^ 2) (map snd sm)) =
    rsum (map (fun z => fst z ^ 2 + snd z ^ 2) zs) + rsum (map (fun z => fst z ^ 2 + snd z ^ 2) (csub (map snd sm) zs)) +
    2 * rsum (map (fun p => fst (fst p) * fst (snd p) + snd (fst p) * snd (snd p)) (combine (csub (map snd sm) zs) zs))); [|rewrite X, E; ring].
  clear - Z. unfold csub. revert zs Z. induction sm as [|s sm IH]; intros [|z zs] Z; try discriminate; [cbn; ring|]. cbn [map combine]. rewrite !rsum_cons. injection Z as Z.
  rewrite (IH zs Z). cbn [fst snd]. destruct (snd s) as [a b], z as [p q]. cbn. ring.
Qed.

Lemma agree_wider L t u v lat opts sm c L' t' u' v' opts' sm' c' :
  analysis L t u v lat opts sm c -> analysis L' t' u' v' lat opts' sm' c' ->
  agree opts opts' ["nodal"; "phase"] -> setting opts "infer" PNone -> setting opts' "infer" PNone ->
  (forall x x', setting opts "trend" x -> setting opts' "trend" x' -> falsy x' -> falsy x) ->
  is2d v' = is2d v -> c_reftime c' = c_reftime c -> incl (c_name c) (c_name c') -> wider c c'.
Proof.
  intros AN AN' AG IF IF' TR ED ER EP. assert (HU := an_keys _ _ _ _ _ _ _ _ AN). assert (HU' := an_keys _ _ _ _ _ _ _ _ AN').
  destruct (analysis_run _ _ _ _ _ _ _ _ AN) as (_ & si & la & s & B & xraw & m & W & BH & _).
  destruct (analysis_run _ _ _ _ _ _ _ _ AN') as (_ & si' & la' & s' & B' & xraw' & m' & W' & BH' & _).
  destruct (solve_opt _ _ _ _ _ _ _ (an_solve _ _ _ _ _ _ _ _ AN)) as (compat & sx & O1 & O2 & O3).
  destruct (solve_opt _ _ _ _ _ _ _ (an_solve _ _ _ _ _ _ _ _ AN')) as (compat' & sx' & O1' & O2' & O3').
  destruct (used_options opts (is2d v) (si_equi sx) HU compat _ O1 O3) as
      (_ & _ & Tw & _ & _ & _ & _ & _ & U1 & U2 & U3 & U4 & U5 & U6 & U7 & _ & U8 & U8b & U9 & _ & (i & V1 & V2) & _).
  destruct (used_options opts' (is2d v') (si_equi sx') HU' compat' _ O1' O3') as
      (_ & _ & Tw' & _ & _ & _ & _ & _ & U1' & U2' & U3' & U4' & U5' & U6' & U7' & _ & U8' & U8b' & U9' & _ & (i' & V1' & V2') & _).
  assert (VV : forall k, In k ["nodal"; "phase"] -> opt_value opts' k = opt_value opts k).
  { intros k Hk. eapply agree_val; eauto. clear - Hk. cbn in Hk |- *. intuition (subst; auto 20). }
  rewrite (VV "nodal") in U3', U4' by (cbn; auto 10).
  rewrite (VV "phase") in U5', U6' by (cbn; auto 10). clear VV.
  constructor; auto; try congruence.
  - unfold flags_of. congruence.
  - rewrite (bh_la _ _ _ _ _ _ _ _ _ _ _ _ _ _ BH), (bh_la _ _ _ _ _ _ _ _ _ _ _ _ _ _ BH').
    assert (Q := bh_lat _ _ _ _ _ _ _ _ _ _ _ _ _ _ BH). assert (Q' := bh_lat _ _ _ _ _ _ _ _ _ _ _ _ _ _ BH'). congruence.
  - split; eapply no_infer; eauto.
  - rewrite U2, U2'. rewrite !Bool.negb_true_iff, !truthy_falsy. apply TR; apply setting_value; auto; cbn; auto 20.
Qed.
