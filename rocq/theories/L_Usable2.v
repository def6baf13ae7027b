(** What reconstruct makes of the result of an analysis. *)
From Coq Require Import Lia Lra Permutation.
From Verif Require Import M_Base M_Lib M_Tables M_Const M_Options M_Time M_Slvinit M_Harmonics M_Select M_Ellipse M_Diag M_Solve M_Recon
  S_Dict S_Options S_Basis S_Slv S_Order S_Select S_Fit S_Recon S_Model S_Usable L_Base L_Select L_Recon L_Recon3 L_Recon4 L_Recon5
  L_Model2 L_Model11 L_Model14 L_Model15 L_Model3 L_Model11 L_Harm3 S_Harm S_Tables L_Range L_Usable.
Open Scope R_scope.
Open Scope string_scope.

Definition picked (c : coef) (k : constit_arg) (mS mP : R) := filter (chosen c k mS mP) (rows c).
Lemma value_fin c k mS mP x : well_formed c -> (exists p, tides c x (picked c k mS mP) = Some p) ->
  is_fin (value_u c k mS mP x) /\ (o_twodim (c_opt c) = true -> is_fin (value_v c k mS mP x)).
Proof.
  intros W [p Hp]. unfold value_u, value_v. fold (picked c k mS mP). rewrite Hp. cbn zeta.
  destruct (o_twodim (c_opt c)) eqn:T.
  - destruct (wf_2d c W T) as (_ & _ & _ & P1 & P2 & P3 & _).
    destruct (background_finite c (c_umean c) (c_uslope c) x P1 (fun H => proj1 (P3 H))) as [b1 ->].
    destruct (background_finite c (c_vmean c) (c_vslope c) x P2 (fun H => proj2 (P3 H))) as [b2 ->].
    cbn. split; [eexists; reflexivity|intros _; eexists; reflexivity].
  - destruct (wf_1d c W T) as (_ & _ & P1 & P2 & _). destruct (background_finite c (c_mean c) (c_slope c) x P1 P2) as [b1 ->].
    cbn. split; [eexists; reflexivity|discriminate].
Qed.
Lemma value_nan c k mS mP x : tides c x (picked c k mS mP) = None -> value_u c k mS mP x = NaN /\ value_v c k mS mP x = NaN.
Proof. intros H. unfold value_u, value_v. fold (picked c k mS mP). rewrite H. split; reflexivity. Qed.

Lemma numbers_of c k mS mP x0 : well_formed c -> known_lind c -> (exists p, tides c x0 (picked c k mS mP) = Some p) ->
  forall L t nd e tn o, normalize_time (l_parse L) t e = Ok tn -> reconstruct L t nd c e k mS mP = Ok o ->
  forall a, In a (outputs (ro_series o)) -> numbers_exactly tn a.
Proof.
  intros W K HT L t nd e tn o Hn H a Ha. split; [exact (proj1 (shape_lemma _ _ _ _ _ _ _ _ _ _ W Hn H a Ha))|].
  destruct (reconstruct_ok _ _ _ _ _ _ _ _ _ W H) as (_ & tn' & Hn' & E). rewrite Hn in Hn'. apply Ok_inj in Hn'. subst tn'.
  rewrite E in Ha. apply outputs_outcome in Ha. destruct Ha as (f & -> & Hf). intros i x y Hx. unfold placed. rewrite !nth_error_map, Hx. cbn [option_map].
  assert (F : forall z, is_fin (f z)).
  { intros z. destruct (value_fin c k mS mP z W (tides_alike c x0 z _ W K (filter_incl _ _) HT)) as [F1 F2]. destruct Hf as [->|[T ->]]; [exact F1|exact (F2 T)]. }
  intros Hy. injection Hy as <-. destruct x as [x| | |]; cbn [finite].
  - destruct (F x) as [r ->]. split; split; intros Hz; eauto; [discriminate|]. exfalso. apply Hz. eauto.
  - split; split; intros Hz; try (destruct Hz; discriminate); auto. intros [r Hr]. discriminate.
  - split; split; intros Hz; try (destruct Hz; discriminate); auto. intros [r Hr]. discriminate.
  - split; split; intros Hz; try (destruct Hz; discriminate); auto. intros [r Hr]. discriminate.
Qed.
Lemma all_or_none c k mS mP : well_formed c -> known_lind c ->
  (forall L t nd e tn o, normalize_time (l_parse L) t e = Ok tn -> reconstruct L t nd c e k mS mP = Ok o ->
     forall a, In a (outputs (ro_series o)) -> numbers_exactly tn a) \/
  (forall L t nd e o, reconstruct L t nd c e k mS mP = Ok o -> forall a, In a (outputs (ro_series o)) -> only_nan a).
Proof.
  intros W K. destruct (tides c 0 (picked c k mS mP)) as [p|] eqn:E.
  - left. apply (numbers_of c k mS mP 0 W K). eauto.
  - right. intros L t nd e o H a Ha. destruct (reconstruct_ok _ _ _ _ _ _ _ _ _ W H) as (_ & tn & Hn & E2).
    rewrite E2 in Ha. apply outputs_outcome in Ha. destruct Ha as (f & -> & Hf). unfold only_nan, placed. apply Forall_forall. intros y Hy.
    apply in_map_iff in Hy. destruct Hy as (o' & <- & _). destruct o' as [x|]; [|reflexivity].
    assert (N : tides c x (picked c k mS mP) = None).
    { destruct (tides c x (picked c k mS mP)) eqn:T; [|reflexivity]. destruct (tides_alike c x 0 _ W K (filter_incl _ _) (ex_intro _ _ T)) as [p0 Hp].
      unfold picked in *. congruence. }
    destruct (value_nan c k mS mP x N) as [N1 N2]. destruct Hf as [->|[_ ->]]; assumption.
Qed.
Lemma accepted_times L t u v lat opts sm c : analysis L t u v lat opts sm c ->
  forall L1 ts nd e tn k mS mP, (nd <= 1)%nat -> normalize_time (l_parse L1) ts e = Ok tn -> exists o, reconstruct L1 ts nd c e k mS mP = Ok o.
Proof.
  intros AN L1 ts nd e tn k mS mP Hn HT. rewrite (reconstruct_eq _ _ _ _ _ _ _ _ (analysis_wf _ _ _ _ _ _ _ _ AN)).
  replace (Nat.ltb 1 nd) with false by (symmetry; apply Nat.ltb_ge; lia). rewrite HT. cbn [bind]. eauto.
Qed.
Lemma fitted_numbers L t u v lat opts sm c : analysis L t u v lat opts sm c -> approximate (c_opt c) = false \/ corrections_finite c ->
  forall L1 ts nd e tn k mS mP o, normalize_time (l_parse L1) ts e = Ok tn -> reconstruct L1 ts nd c e k mS mP = Ok o ->
  forall a, In a (outputs (ro_series o)) -> numbers_exactly tn a.
Proof.
  intros AN AP L1 ts nd e tn k mS mP o HT H. assert (W := analysis_wf _ _ _ _ _ _ _ _ AN). assert (K := analysis_known _ _ _ _ _ _ _ _ AN).
  destruct AP as [AP|CF].
  - destruct (top_model _ _ _ _ _ _ _ _ AN AP) as (si & la & s & B & xr & m & Wt & _ & _ & _ & _ & Y).
    assert (NE := an_some _ _ _ _ _ _ _ _ AN). destruct Y as [|x0 z0 l l' [Y _] _]; [congruence|].
    refine (numbers_of c k mS mP (fst x0) W K _ L1 ts nd e tn o HT H).
    apply (tides_sub c (fst x0) (rows c)); [intros r Hr; now apply filter_In in Hr|].
    unfold recon_u, value_u in Y. rewrite all_chosen in Y. destruct (tides c (fst x0) (rows c)) as [p|]; [eauto|discriminate].
  - refine (numbers_of c k mS mP 0 W K _ L1 ts nd e tn o HT H). apply tides_finite; auto. apply filter_incl.
Qed.
Lemma approx_numbers L t u v lat opts sm c inf : analysis L t u v lat opts sm c -> NoDup (c_name c) ->
  o_infer (c_opt c) = Some inf -> inf_approx inf = true ->
  forall L1 ts nd e tn names mS mP o, (forall n, In n names -> ~ In n (inf_inferred inf)) -> normalize_time (l_parse L1) ts e = Ok tn ->
  reconstruct L1 ts nd c e (CSeq names) mS mP = Ok o -> forall a, In a (outputs (ro_series o)) -> numbers_exactly tn a.
Proof.
  intros AN ND EI AP L1 ts nd e tn names mS mP o HN HT H. assert (W := analysis_wf _ _ _ _ _ _ _ _ AN). assert (K := analysis_known _ _ _ _ _ _ _ _ AN).
  destruct (top_approx _ _ _ _ _ _ _ _ _ AN ND EI AP) as (si & la & s & B & xr & m & Wt & _ & _ & _ & _ & Y).
  assert (NE := an_some _ _ _ _ _ _ _ _ AN). destruct Y as [|x0 z0 l l' [Y _] _]; [congruence|].
  refine (numbers_of c (CSeq names) mS mP (fst x0) W K _ L1 ts nd e tn o HT H).
  apply (tides_sub c (fst x0) (filter (chosen c (CSeq (not_inferred c)) 0 0) (rows c))).
  - intros r Hr. apply filter_In in Hr. destruct Hr as [Hr C]. apply filter_In. split; [exact Hr|]. unfold chosen in *.
    destruct (w_name r) as [n|] eqn:EN; [|discriminate]. destruct (in_dec string_dec n names) as [I|]; [|discriminate].
    destruct (in_dec string_dec n (not_inferred c)) as [|N]; [reflexivity|]. exfalso. apply N. unfold not_inferred. rewrite EI. apply filter_In. split.
    + unfold rows in Hr. apply in_map_iff in Hr. destruct Hr as (i & <- & Hi). cbn [crow_of w_name] in EN. exact (nth_error_In _ _ EN).
    + destruct (in_dec string_dec n (inf_inferred inf)) as [X|]; [destruct (HN n I X)|reflexivity].
  - unfold value_u in Y. destruct (tides c (fst x0) _) as [p|]; [eauto|discriminate].
Qed.
Lemma sampled_tides L t u v lat opts sm c : analysis L t u v lat opts sm c -> approximate (c_opt c) = false -> exists x p, tides c x (rows c) = Some p.
Proof.
  intros AN AP. destruct (top_model _ _ _ _ _ _ _ _ AN AP) as (si & la & s & B & xr & m & Wt & _ & _ & _ & _ & Y).
  assert (NE := an_some _ _ _ _ _ _ _ _ AN). destruct Y as [|x0 z0 l l' [Y _] _]; [congruence|]. exists (fst x0).
  unfold recon_u, value_u in Y. rewrite all_chosen in Y. destruct (tides c (fst x0) (rows c)) as [p|]; [eauto|discriminate].
Qed.
Lemma tides_each c x l p : tides c x l = Some p -> forall r, In r l -> exists q, tide c x r = Some q.
Proof.
  revert p. induction l as [|r l IH]; intros p H r' []; cbn [tides] in H; destruct (tide c x r) eqn:T; try discriminate;
    destruct (tides c x l) eqn:U; try discriminate; [subst; eauto|eapply IH; eauto].
Qed.
