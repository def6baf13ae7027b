(** From the values of the model to the output of reconstruct. *)
From Coq Require Import Lia Lra Permutation.
From Verif Require Import M_Base M_Bunch M_Lib M_Tables M_Const M_Options M_Time M_Slvinit M_Harmonics M_Select M_Ellipse
  M_Robust M_Period M_Conf M_Diag M_Solve M_Recon S_Dict S_Options S_Order S_Fit S_Slv S_Recon S_Model S_Perm S_Super S_Choice S_Output L_SolveInv
  L_Base L_Angle L_Model5 L_Recon L_Recon2 L_Recon3 L_Model L_Model2 L_Model3 L_Model10 L_Model11 L_Model16 L_Affine2 L_Super3 L_Choice L_Perm L_Fill L_Model15 L_Model12.
Open Scope R_scope.
Open Scope string_scope.

Lemma placed_fin f ts : placed f (map finite (map Fin ts)) = map f ts.
Proof. unfold placed. rewrite !map_map. reflexivity. Qed.

Lemma returns_yields L c ts zs : well_formed c -> returns L c ts zs <-> Forall2 (yields c) ts zs.
Proof.
  intros W. unfold returns. rewrite (reconstruct_eq _ _ _ _ _ _ _ _ W). cbn [Nat.ltb Nat.leb].
  replace (normalize_time (l_parse L) (TNum (map Fin ts)) (PStr "python")) with (Ok (map Fin ts)) by reflexivity. cbn [bind].
  assert (E : (exists o, Ok {| ro_t_in := TNum (map Fin ts); ro_t_mpl := if eq_str (PStr "python") "python" then inl (TNum (map Fin ts)) else inr (map Fin ts);
      ro_series := outcome c CNone 0 0 (map finite (map Fin ts)) |} = Ok o /\
      (if o_twodim (c_opt c) then ro_series o = Vector (map (fun z => Fin (fst z)) zs) (map (fun z => Fin (snd z)) zs)
       else ro_series o = Scalar (map (fun z => Fin (fst z)) zs) /\ forall z, In z zs -> snd z = 0)) <->
      (if o_twodim (c_opt c) then map (recon_u c) ts = map (fun z => Fin (fst z)) zs /\ map (recon_v c) ts = map (fun z => Fin (snd z)) zs
       else map (recon_u c) ts = map (fun z => Fin (fst z)) zs /\ forall z, In z zs -> snd z = 0)).
  { unfold outcome. rewrite !placed_fin. unfold recon_u, recon_v. split.
    - intros (o & H & K). injection H as <-. cbn [ro_series] in K. destruct (o_twodim (c_opt c)).
      + split; [exact (f_equal (fun s => match s with Vector a _ => a | Scalar a => a end) K)|exact (f_equal (fun s => match s with Vector _ b => b | Scalar a => a end) K)].
      + destruct K as [K1 K2]. split; [exact (f_equal (fun s => match s with Vector a _ => a | Scalar a => a end) K1)|exact K2].
    - intros K. eexists. split; [reflexivity|]. cbn [ro_series]. destruct (o_twodim (c_opt c)).
      + destruct K as [K1 K2]. exact (f_equal2 Vector K1 K2).
      + destruct K as [K1 K]. split; [exact (f_equal Scalar K1)|exact K]. }
  rewrite E. clear E. unfold yields. destruct (o_twodim (c_opt c)).
  - split.
    + intros [H1 H2]. revert zs H1 H2. induction ts as [|x ts IH]; intros [|z zs] H1 H2; try discriminate; constructor.
      * split; [exact (f_equal (hd NaN) H1)|exact (f_equal (hd NaN) H2)].
      * apply IH; [exact (f_equal (@tl _) H1)|exact (f_equal (@tl _) H2)].
    + induction 1 as [|x z ts zs [H1 H2] _ [IH1 IH2]]; [auto|]. cbn [map]. now rewrite H1, H2, IH1, IH2.
  - split.
    + intros [H1 H2]. revert zs H1 H2. induction ts as [|x ts IH]; intros [|z zs] H1 H2; try discriminate; constructor.
      * split; [exact (f_equal (hd NaN) H1)|apply H2; now left].
      * apply IH; [exact (f_equal (@tl _) H1)|intros; apply H2; now right].
    + induction 1 as [|x z ts zs [H1 H2] _ [IH1 IH2]]; [split; [auto|intros z []]|]. cbn [map]. rewrite H1, IH1. split; [reflexivity|]. intros y [<-|Hy]; auto.
Qed.

Lemma alike c c' : well_formed c -> well_formed c' -> o_twodim (c_opt c') = o_twodim (c_opt c) ->
  (forall x, recon_u c x = recon_u c' x /\ (o_twodim (c_opt c) = true -> recon_v c x = recon_v c' x)) -> predict_alike c c'.
Proof.
  intros W W' T H L t nd e. rewrite !reconstruct_eq by assumption. destruct (Nat.ltb 1 nd); auto. destruct (normalize_time _ _ _) as [tn|]; auto. cbn [bind].
  f_equal. f_equal. unfold outcome. rewrite T. destruct (o_twodim (c_opt c)) eqn:ET.
  - f_equal; unfold placed; apply map_ext; intros [x|]; auto; [apply H|now apply H].
  - f_equal; unfold placed; apply map_ext; intros [x|]; auto; apply H.
Qed.

Lemma forall_pairs c sm : Forall (fun x => yields c (fst x) (snd x)) sm <-> Forall2 (yields c) (map fst sm) (map snd sm).
Proof.
  split.
  - induction 1; cbn [map]; constructor; auto.
  - induction sm as [|x sm IH]; intros H; [constructor|]. inversion H; subst. constructor; auto.
Qed.
Lemma forall2_fst (P : R -> C -> Prop) (sm : list (R * C)) zs : Forall2 (fun s z => P (fst s) z) sm zs <-> Forall2 P (map fst sm) zs.
Proof.
  split.
  - induction 1; cbn [map]; constructor; auto.
  - revert zs. induction sm as [|x sm IH]; intros zs H; inversion H; subst; constructor; auto.
Qed.
Lemma yields_unique c x z z' : yields c x z -> yields c x z' -> z = z'.
Proof.
  intros [H1 H2] [K1 K2]. rewrite H1 in K1. injection K1 as K1. destruct z as [a b], z' as [a' b']. cbn in *. subst a'. destruct (o_twodim (c_opt c)).
  - rewrite H2 in K2. injection K2 as ->. reflexivity.
  - congruence.
Qed.
Lemma pairs_unique c ts : forall zs zs', Forall2 (yields c) ts zs -> Forall2 (yields c) ts zs' -> zs = zs'.
Proof.
  induction ts as [|x ts IH]; intros zs zs' H H'; inversion H; inversion H'; subst; [reflexivity|]. f_equal; [eapply yields_unique; eauto|eapply IH; eauto].
Qed.

Lemma out_least L t u v lat opts sm c c' : analysis L t u v lat opts sm c -> approximate (c_opt c) = false ->
  lstsq_minimises L -> o_method (c_opt c) = PStr "ols" -> rival c c' ->
  forall L1, exists zs zs', returns L1 c (map fst sm) zs /\ returns L1 c' (map fst sm) zs' /\ distance2 sm zs <= distance2 sm zs'.
Proof.
  intros AN NA LM OLS RV L1.
  destruct (top_optimal _ _ _ _ _ _ _ _ _ AN NA LM OLS RV) as (d & d' & (ys & Y1 & ->) & (ys' & Y2 & ->) & Hle).
  apply forall2_fst in Y1, Y2. exists ys, ys'. split; [apply returns_yields; [eapply analysis_wf; eauto|exact Y1]|].
  split; [apply returns_yields; [apply RV|exact Y2]|exact Hle].
Qed.

Lemma out_reproduced L t u v lat opts sm c c0 : analysis L t u v lat opts sm c -> approximate (c_opt c) = false ->
  lstsq_minimises L -> o_method (c_opt c) = PStr "ols" -> rival c c0 ->
  forall L1 L2, returns L1 c0 (map fst sm) (map snd sm) -> returns L2 c (map fst sm) (map snd sm).
Proof.
  intros AN NA LM OLS RV L1 L2 H. apply returns_yields in H; [|apply RV]. apply returns_yields; [eapply analysis_wf; eauto|].
  apply forall_pairs in H. apply forall_pairs. eapply top_exact; eauto.
Qed.
Lemma out_recovered L t u v lat opts sm c c0 : analysis L t u v lat opts sm c -> approximate (c_opt c) = false ->
  lstsq_minimises L -> o_method (c_opt c) = PStr "ols" -> rival c c0 ->
  forall L1, returns L1 c0 (map fst sm) (map snd sm) -> identifiable c (map fst sm) -> NoDup (c_name c) -> predict_alike c c0.
Proof.
  intros AN NA LM OLS RV L1 H ID ND. apply returns_yields in H; [|apply RV]. apply forall_pairs in H.
  destruct (top_recover _ _ _ _ _ _ _ _ _ AN NA LM OLS RV H ID ND) as (K & _).
  apply alike; [eapply analysis_wf; eauto|apply RV|now rewrite (rv_opt _ _ RV)|exact K].
Qed.

Lemma minus_twice (a b : C) : Cminus a (Cminus a b) = b.
Proof. apply C_eq; cbn; ring. Qed.
Lemma less_fst sm zs : length zs = length sm -> map fst (less sm zs) = map fst sm.
Proof.
  unfold less, csub. intros H. rewrite combine_fst; [reflexivity|]. rewrite !map_length, combine_length, map_length. lia.
Qed.
Lemma less_snd sm zs : length zs = length sm -> map snd (less sm zs) = csub (map snd sm) zs.
Proof. unfold less, csub. intros H. rewrite combine_snd; [reflexivity|]. rewrite !map_length, combine_length, map_length. lia. Qed.
Lemma out_residuals c sm zs : Forall2 (yields c) (map fst sm) zs -> residuals c sm (csub (map snd sm) zs).
Proof.
  unfold residuals, csub. revert zs. induction sm as [|x sm IH]; intros zs H; inversion H; subst; cbn [map combine]; constructor; auto.
  cbn [fst snd]. now rewrite minus_twice.
Qed.
Lemma out_again L t u v u' v' lat opts sm c c' zs :
  analysis L t u v lat opts sm c -> (exists L1, returns L1 c (map fst sm) zs) -> analysis L t u' v' lat opts (less sm zs) c' -> is2d v = is2d v' ->
  approximate (c_opt c) = false -> lstsq_minimises L -> o_method (c_opt c) = PStr "ols" ->
  identifiable c (map fst sm) -> NoDup (c_name c) -> Permutation (c_name c') (c_name c) /\ silent c'.
Proof.
  intros AN (L1 & H) AN' D2 NA LM OLS ID ND. apply returns_yields in H; [|eapply analysis_wf; eauto].
  assert (LE : length zs = length sm) by (apply Forall2_len in H; now rewrite map_length in H).
  eapply top_again; eauto; [now apply less_fst|]. rewrite less_snd by exact LE. now apply out_residuals.
Qed.
Lemma residuals_out c sm rs : residuals c sm rs -> exists zs, Forall2 (yields c) (map fst sm) zs /\ rs = csub (map snd sm) zs.
Proof.
  unfold residuals. induction 1 as [|x r sm rs H _ (zs & IH & ->)]; [exists []; split; [constructor|reflexivity]|].
  exists (Cminus (snd x) r :: zs). split; [constructor; assumption|]. unfold csub. cbn [map combine fst snd]. now rewrite minus_twice.
Qed.
Lemma out_uncorrelated L t u v lat opts sm c : analysis L t u v lat opts sm c -> approximate (c_opt c) = false ->
  lstsq_minimises L -> o_method (c_opt c) = PStr "ols" -> forall L1, exists zs, returns L1 c (map fst sm) zs /\
  let rs := csub (map snd sm) zs in
  uncorrelated (fun _ => 1) sm rs /\ (o_notrend (c_opt c) = false -> uncorrelated (fun x => x - c_reftime c) sm rs) /\
  (o_infer (c_opt c) = None -> forall i, In i (c_lind c) -> uncorrelated (wave_cos c i) sm rs /\ uncorrelated (wave_sin c i) sm rs).
Proof.
  intros AN NA LM OLS L1.
  destruct (top_residuals _ _ _ _ _ _ _ _ AN NA LM OLS) as (rs' & R1 & R2 & R3 & R4 & _). destruct (residuals_out _ _ _ R1) as (zs & Z & ->).
  exists zs. split; [apply returns_yields; [eapply analysis_wf; eauto|exact Z]|]. cbv zeta. auto.
Qed.

Lemma out_filled L t u v lat opts sm c ts zs L' t' u' v' lat' opts' sm' c' :
  analysis L t u v lat opts sm c -> lstsq_minimises L -> o_method (c_opt c) = PStr "ols" ->
  analysis L' t' u' v' lat' opts' sm' c' -> lstsq_minimises L' -> o_method (c_opt c') = PStr "ols" -> same_model c c' ->
  (exists L1, returns L1 c ts zs) -> Permutation sm' (sm ++ combine ts zs) -> approximate (c_opt c') = false ->
  identifiable c' (map fst sm') -> NoDup (c_name c') -> same_fit c c' /\ predict_alike c c'.
Proof.
  intros AN LM OLS AN' LM' OLS' SM (L1 & H) P NA ID ND. apply returns_yields in H; [|eapply analysis_wf; eauto].
  assert (F : same_fit c c').
  { assert (F : Forall (fun s => yields c (fst s) (snd s)) (combine ts zs)).
    { apply forall_pairs. assert (LE := Forall2_len _ _ _ H). rewrite combine_fst, combine_snd by assumption. exact H. }
    exact (top_filled _ _ _ _ _ _ _ _ _ _ _ _ _ _ _ _ _ AN LM OLS AN' LM' OLS' SM F P NA ID ND). }
  split; [exact F|]. apply alike; [eapply analysis_wf; eauto..|apply SM|apply F].
Qed.
Lemma out_thinned L t u v lat opts sm c ts zs L' t' u' v' lat' opts' sm' c' :
  analysis L t u v lat opts sm c -> lstsq_minimises L -> o_method (c_opt c) = PStr "ols" ->
  analysis L' t' u' v' lat' opts' sm' c' -> lstsq_minimises L' -> o_method (c_opt c') = PStr "ols" -> same_model c c' ->
  (exists L1, returns L1 c ts zs) -> Permutation sm (sm' ++ combine ts zs) -> approximate (c_opt c') = false ->
  identifiable c' (map fst sm') -> NoDup (c_name c') -> same_fit c c' /\ predict_alike c c'.
Proof.
  intros AN LM OLS AN' LM' OLS' SM (L1 & H) P NA ID ND. apply returns_yields in H; [|eapply analysis_wf; eauto].
  assert (F : same_fit c c').
  { assert (F : Forall (fun s => yields c (fst s) (snd s)) (combine ts zs)).
    { apply forall_pairs. assert (LE := Forall2_len _ _ _ H). rewrite combine_fst, combine_snd by assumption. exact H. }
    exact (top_thinned _ _ _ _ _ _ _ _ _ _ _ _ _ _ _ _ _ AN LM OLS AN' LM' OLS' SM F P NA ID ND). }
  split; [exact F|]. apply alike; [eapply analysis_wf; eauto..|apply SM|apply F].
Qed.

Lemma fit_alike L t u v lat opts sm c L' t' u' v' lat' opts' sm' c' :
  analysis L t u v lat opts sm c -> analysis L' t' u' v' lat' opts' sm' c' -> o_twodim (c_opt c') = o_twodim (c_opt c) ->
  same_fit c c' -> predict_alike c c'.
Proof. intros AN AN' T F. apply alike; [eapply analysis_wf; eauto..|exact T|apply F]. Qed.
Lemma out_choice L t u v lat opts sm c L' t' u' v' lat' opts' sm' c' :
  analysis L t u v lat opts sm c -> analysis L' t' u' v' lat' opts' sm' c' -> same_model c c' -> Permutation sm sm' ->
  approximate (c_opt c) = false -> lstsq_minimises L -> lstsq_minimises L' ->
  o_method (c_opt c) = PStr "ols" -> o_method (c_opt c') = PStr "ols" ->
  identifiable c (map fst sm) -> NoDup (c_name c) -> predict_alike c c'.
Proof. intros AN AN' SM. intros. eapply fit_alike; eauto; [apply SM|]. eapply top_choice; eauto. Qed.

Lemma sum_yields a b c x z z' : sum_of a b c -> o_twodim (c_opt a) = o_twodim (c_opt c) -> o_twodim (c_opt b) = o_twodim (c_opt c) ->
  yields a x z -> yields b x z' -> yields c x (Cplus z z').
Proof.
  intros (_ & _ & _ & H) Ta Tb [A1 A2] [B1 B2]. destruct (H x) as [H1 H2]. unfold yields. rewrite H1, A1, B1. rewrite Ta in A2. rewrite Tb in B2.
  split; [reflexivity|]. destruct (o_twodim (c_opt c)).
  - rewrite H2, A2, B2 by reflexivity. reflexivity.
  - cbn. rewrite A2, B2. ring.
Qed.
Lemma sum_returns a b c La Lb Lc ts za zb : well_formed a -> well_formed b -> well_formed c ->
  sum_of a b c -> o_twodim (c_opt a) = o_twodim (c_opt c) -> o_twodim (c_opt b) = o_twodim (c_opt c) ->
  returns La a ts za -> returns Lb b ts zb -> returns Lc c ts (map (fun p => Cplus (fst p) (snd p)) (combine za zb)).
Proof.
  intros Wa Wb Wc S Ta Tb Ha Hb. apply returns_yields in Ha; [|assumption]. apply returns_yields in Hb; [|assumption]. apply returns_yields; [assumption|].
  revert zb Hb. induction Ha as [|x z ts za H Ha IH]; intros zb Hb; inversion Hb; subst; cbn [combine map]; constructor; auto. eapply sum_yields; eauto.
Qed.
Lemma out_sum L t ua va ub vb uc vc lat opts sa sb sc a b c :
  analysis L t ua va lat opts sa a -> analysis L t ub vb lat opts sb b -> analysis L t uc vc lat opts sc c -> is2d va = is2d vc -> is2d vb = is2d vc ->
  summed sa sb sc -> approximate (c_opt c) = false -> lstsq_minimises L -> o_method (c_opt c) = PStr "ols" ->
  identifiable c (map fst sc) -> NoDup (c_name c) ->
  forall L1 L2 L3 ts za zb, returns L1 a ts za -> returns L2 b ts zb -> returns L3 c ts (map (fun p => Cplus (fst p) (snd p)) (combine za zb)).
Proof.
  intros ANa ANb AN Da Db S NA LM OLS ID ND. intros. destruct (top_sum _ _ _ _ _ _ _ _ _ _ _ _ _ _ _ _ ANa ANb AN Da Db S NA LM OLS ID ND) as (_ & _ & SO).
  eapply (sum_returns a b c); eauto using analysis_wf; eapply same_twodim; eauto.
Qed.
Lemma out_tide L t ua va uc vc lat opts sa sb sc a b c :
  analysis L t ua va lat opts sa a -> analysis L t uc vc lat opts sc c -> is2d va = is2d vc -> rival c b ->
  (exists L1, returns L1 b (map fst sb) (map snd sb)) ->
  summed sa sb sc -> approximate (c_opt c) = false -> lstsq_minimises L -> o_method (c_opt c) = PStr "ols" ->
  identifiable c (map fst sc) -> NoDup (c_name c) ->
  forall L1 L2 L3 ts za zb, returns L1 a ts za -> returns L2 b ts zb -> returns L3 c ts (map (fun p => Cplus (fst p) (snd p)) (combine za zb)).
Proof.
  intros ANa AN Da RV (L0 & H0) S NA LM OLS ID ND. intros. apply returns_yields in H0; [|apply RV]. apply forall_pairs in H0.
  destruct (top_tide_added _ _ _ _ _ _ _ _ _ _ _ _ _ _ ANa AN Da RV H0 S NA LM OLS ID ND) as (_ & SO).
  eapply (sum_returns a b c); eauto using analysis_wf; [apply RV|eapply same_twodim; eauto|now rewrite (rv_opt _ _ RV)].
Qed.
Lemma out_order L t u v t' u' v' lat opts sm sm' c c' :
  analysis L t u v lat opts sm c -> analysis L t' u' v' lat opts sm' c' -> is2d v' = is2d v ->
  reordered L opts t t' sm sm' -> c_reftime c' = c_reftime c -> o_equi (c_opt c') = o_equi (c_opt c) \/ complete L opts t sm ->
  lstsq_minimises L -> o_method (c_opt c) = PStr "ols" -> approximate (c_opt c) = false -> identifiable c (map fst sm) -> NoDup (c_name c) ->
  predict_alike c c'.
Proof.
  intros AN AN' D RO RT EQ LM OLS NA ID ND. assert (F := top_order _ _ _ _ _ _ _ _ _ _ _ _ _ AN AN' D RO RT EQ LM OLS NA ID ND).
  eapply fit_alike; eauto.
  destruct (analysis_run _ _ _ _ _ _ _ _ AN) as (_ & si & la & s & B & xraw & m & W & BH & _).
  destruct (analysis_run _ _ _ _ _ _ _ _ AN') as (_ & si' & la' & s' & B' & xraw' & m' & W' & BH' & _).
  rewrite (bh_tw _ _ _ _ _ _ _ _ _ _ _ _ _ _ BH), (bh_tw _ _ _ _ _ _ _ _ _ _ _ _ _ _ BH'). exact D.
Qed.
