(** Adding, removing and repeating samples. *)
From Coq Require Import Lia Lra Permutation.
From Verif Require Import M_Base M_Bunch M_Lib M_Tables M_Const M_Options M_Time M_Slvinit M_Harmonics M_Select M_Ellipse
  M_Robust M_Period M_Conf M_Diag M_Solve M_Recon S_Dict S_Options S_Order S_Basis S_Select S_Fit S_Ellipse S_Slv S_Recon S_Model S_Perm S_Choice S_Robust
  L_Base L_Tables L_Options L_SolveInv L_OptSolve L_Slv L_Slv2 L_Order L_Select L_Fit L_Align L_SelOrder L_Basis L_Angle L_Ellipse L_Recon L_Recon2 L_Recon3 L_Core
  L_Ellipse2 L_Model L_Lsq L_Model2 L_Model3 L_Model4 L_Model5 L_Model6 L_Model7 L_Model8 L_Model9 L_Model10 L_Model11 L_Model12 L_Model15
  L_Units2 L_Super L_Super2 L_Super3 L_Perm L_Carry L_Choice L_Equal.
Open Scope R_scope.
Open Scope string_scope.

(** where the reconstruction from c has a value, that from a rival has one *)
Lemma rival_defined c c1 x : well_formed c -> rival c c1 -> valC c x <> None -> valC c1 x <> None.
Proof.
  intros Wc RV. destruct RV as [W1 R1 R2 R3 R4 R5 R6]. assert (A2 : length (c_lind c) = length (c_name c)) by apply Wc.
  assert (A3 : length (c_lind c1) = length (c_name c1)) by apply W1. unfold valC.
  rewrite (tides_terms c x (c_name c) (c_lind c) (pms c) Wc (Permutation_refl _) A2 (pms_len c)).
  rewrite (tides_terms c1 x (c_name c1) (c_lind c1) (pms c1) W1 (Permutation_refl _) A3 (pms_len c1)).
  assert (EE : map (e_of c1 x) (c_lind c1) = map (e_of c x) (c_lind c)) by (rewrite R2; apply map_ext; intros i; unfold e_of; now rewrite R5, R3, R4).
  rewrite EE. destruct (all_some (map (e_of c x) (c_lind c))) as [es|]; [discriminate|]. intros H _. now apply H.
Qed.
Lemma defined_vz c x : valC c x <> None -> valC c x = Some (vz c x).
Proof. unfold vz. destruct (valC c x); [reflexivity|congruence]. Qed.

(** residual of c times the difference of c1 and c *)
Definition cross (c c1 : coef) (s : R * C) : R :=
  let e := Cminus (vz c (fst s)) (snd s) in let d := Cminus (vz c1 (fst s)) (vz c (fst s)) in fst e * fst d + snd e * snd d.
Definition gap (c c1 : coef) (s : R * C) : R := sq (Cminus (vz c1 (fst s)) (vz c (fst s))).
Definition miss (c : coef) (s : R * C) : R := sq (Cminus (snd s) (vz c (fst s))).
Lemma miss_split c c1 sm : rsum (map (miss c1) sm) = rsum (map (miss c) sm) + 2 * rsum (map (cross c c1) sm) + rsum (map (gap c c1) sm).
Proof.
  induction sm as [|s sm IH]; [unfold rsum; cbn; ring|]. cbn [map]. rewrite !rsum_cons, IH. unfold miss, cross, gap, sq. cbn. ring.
Qed.
Lemma gap_nonneg c c1 sm : 0 <= rsum (map (gap c c1) sm).
Proof. induction sm as [|s sm IH]; [unfold rsum; cbn; lra|]. cbn [map]. rewrite rsum_cons. assert (0 <= gap c c1 s); [|lra]. unfold gap, sq. assert (H := pow2_ge_0 (fst (Cminus (vz c1 (fst s)) (vz c (fst s))))). assert (H' := pow2_ge_0 (snd (Cminus (vz c1 (fst s)) (vz c (fst s))))). lra. Qed.

Lemma ols_cross L t u v lat opts sm c c1 : analysis L t u v lat opts sm c -> approximate (c_opt c) = false -> lstsq_minimises L -> o_method (c_opt c) = PStr "ols" ->
  rival c c1 -> rsum (map (cross c c1) sm) = 0 /\ forall s, In s sm -> valC c (fst s) = Some (vz c (fst s)) /\ valC c1 (fst s) = Some (vz c1 (fst s)).
Proof.
  intros AN NA LM OLS RV. assert (HS := an_sorted _ _ _ _ _ _ _ _ AN).
  destruct (analysis_run _ _ _ _ _ _ _ _ AN) as (_ & si & la & s & B & xraw & m & W & BH & S1 & S2 & S3). subst xraw.
  assert (Wf := bh_wf _ _ _ _ _ _ _ _ _ _ _ _ _ _ BH). assert (W1 := rv_wf _ _ RV).
  destruct (own_best _ _ _ _ _ _ _ _ _ _ _ _ _ _ BH HS NA LM OLS S1 S3) as (k & M & Bk).
  destruct (rival_yields _ _ _ _ _ _ _ _ _ _ _ _ _ _ BH HS NA c1 RV) as (k1 & M1 & Y1).
  assert (Yk : forall x row, good_row (si_tref si) (si_lor si) la (c_opt c) s x row -> yields c x (cdot row k)) by (intros x row G; eapply matches_yields; eauto).
  assert (Lk : length k1 = length k) by (rewrite (mt_len _ _ _ _ _ M), (mt_len _ _ _ _ _ M1); reflexivity).
  assert (O := best_orth _ _ Bk (vadd k1 k (RtoC (-1))) ltac:(rewrite vadd_len; auto)).
  assert (P := paired _ _ _ _ _ _ _ _ _ _ _ _ _ _ BH sm S1).
  assert (V : forall x row, good_row (si_tref si) (si_lor si) la (c_opt c) s x row -> valC c x = Some (cdot row k) /\ valC c1 x = Some (cdot row k1)).
  { intros x row G. split; [apply (yields_valC _ _ _ Wf); auto|apply (yields_valC _ _ _ W1); auto]. }
  clear - O P V Lk. split.
  - rewrite <- O. unfold ip, sys. clear O. induction P as [|x row l B' G P IH]; [reflexivity|]. cbn [map combine]. rewrite !rsum_cons, IH. f_equal.
    cbn [fst snd]. destruct (V _ _ G) as [V1 V2]. unfold cross, vz. rewrite V1, V2, cdot_vadd by auto. unfold resid. cbn [fst snd]. cbn. ring.
  - intros x Hx. clear O. induction P as [|y row l B' G P IH]; [destruct Hx|]. destruct Hx as [<-|Hx]; [|now apply IH].
    destruct (V _ _ G) as [V1 V2]. unfold vz. rewrite V1, V2. auto.
Qed.

(** samples on which c and its residuals are still optimal *)
Lemma cross_best c c1 sm : well_formed c -> rival c c1 -> (forall s, In s sm -> valC c (fst s) = Some (vz c (fst s)) /\ valC c1 (fst s) = Some (vz c1 (fst s))) ->
  rsum (map (cross c c1) sm) = 0 -> exists d d1, misfit c sm d /\ misfit c1 sm d1 /\ d <= d1.
Proof.
  intros Wf RV V Z. exists (rsum (map (miss c) sm)), (rsum (map (miss c1) sm)).
  split; [apply (misfit_val _ _ _ Wf); split; [intros s Hs; now apply V|reflexivity]|].
  split; [apply (misfit_val _ _ _ (rv_wf _ _ RV)); split; [intros s Hs; now apply V|reflexivity]|].
  rewrite (miss_split c c1), Z. assert (N := gap_nonneg c c1 sm). lra.
Qed.
Lemma cross_exact c c1 ex : well_formed c -> rival c c1 -> Forall (fun s => yields c (fst s) (snd s)) ex ->
  rsum (map (cross c c1) ex) = 0 /\ forall s, In s ex -> valC c (fst s) = Some (vz c (fst s)) /\ valC c1 (fst s) = Some (vz c1 (fst s)).
Proof.
  intros Wf RV F. induction F as [|s ex Y F [IH1 IH2]]; [split; [reflexivity|intros s []]|]. apply (yields_valC _ _ _ Wf) in Y.
  assert (N : valC c (fst s) <> None) by (rewrite Y; discriminate). split.
  - cbn [map]. rewrite rsum_cons, IH1. unfold cross, vz. rewrite Y. cbn. ring.
  - intros s' [<-|H]; [|now apply IH2]. split; apply defined_vz; [exact N|]. now apply (rival_defined c).
Qed.
Lemma rsum_split (f : R * C -> R) a b : rsum (map f (a ++ b)) = rsum (map f a) + rsum (map f b).
Proof. induction a as [|x a IH]; [unfold rsum; cbn; ring|]. cbn [map app]. rewrite !rsum_cons, IH. ring. Qed.

(** ** values that lie on the reconstruction *)
Lemma top_filled L t u v lat opts sm c ex L' t' u' v' lat' opts' sm' c' :
  analysis L t u v lat opts sm c -> lstsq_minimises L -> o_method (c_opt c) = PStr "ols" ->
  analysis L' t' u' v' lat' opts' sm' c' -> lstsq_minimises L' -> o_method (c_opt c') = PStr "ols" -> same_model c c' ->
  Forall (fun s => yields c (fst s) (snd s)) ex -> Permutation sm' (sm ++ ex) -> approximate (c_opt c') = false ->
  identifiable c' (map fst sm') -> NoDup (c_name c') -> same_fit c c'.
Proof.
  intros AN LM OLS AN' LM' OLS' SM F PS NA' ID ND. assert (Wc := analysis_wf _ _ _ _ _ _ _ _ AN).
  assert (NA : approximate (c_opt c) = false) by (unfold approximate in *; rewrite <- (sm_infer _ _ SM); exact NA').
  eapply best_same; eauto. intros c1 RV. destruct (ols_cross _ _ _ _ _ _ _ _ _ AN NA LM OLS RV) as [Z V]. destruct (cross_exact _ _ _ Wc RV F) as [Z' V'].
  apply cross_best; auto.
  - intros s Hs. apply (Permutation_in _ PS) in Hs. apply in_app_iff in Hs. destruct Hs; auto.
  - rewrite (rsum_perm' _ _ (Permutation_map _ PS)), rsum_split, Z, Z'. ring.
Qed.
Lemma top_thinned L t u v lat opts sm c ex L' t' u' v' lat' opts' sm' c' :
  analysis L t u v lat opts sm c -> lstsq_minimises L -> o_method (c_opt c) = PStr "ols" ->
  analysis L' t' u' v' lat' opts' sm' c' -> lstsq_minimises L' -> o_method (c_opt c') = PStr "ols" -> same_model c c' ->
  Forall (fun s => yields c (fst s) (snd s)) ex -> Permutation sm (sm' ++ ex) -> approximate (c_opt c') = false ->
  identifiable c' (map fst sm') -> NoDup (c_name c') -> same_fit c c'.
Proof.
  intros AN LM OLS AN' LM' OLS' SM F PS NA' ID ND. assert (Wc := analysis_wf _ _ _ _ _ _ _ _ AN).
  assert (NA : approximate (c_opt c) = false) by (unfold approximate in *; rewrite <- (sm_infer _ _ SM); exact NA').
  eapply best_same; eauto. intros c1 RV. destruct (ols_cross _ _ _ _ _ _ _ _ _ AN NA LM OLS RV) as [Z V]. destruct (cross_exact _ _ _ Wc RV F) as [Z' V'].
  apply cross_best; auto.
  - intros s Hs. apply V. apply (Permutation_in _ (Permutation_sym PS)). apply in_app_iff. now left.
  - rewrite (rsum_perm' _ _ (Permutation_map _ PS)), rsum_split, Z' in Z. lra.
Qed.

(** ** every sample n times *)
Notation times n sm := (concat (repeat sm n)).
Lemma times_sum (f : R * C -> R) n (sm : list (R * C)) : rsum (map f (times n sm)) = INR n * rsum (map f sm).
Proof. induction n as [|n IH]; [unfold rsum; cbn; ring|]. cbn [repeat concat]. rewrite rsum_split, IH, S_INR. ring. Qed.
Lemma times_in n (sm : list (R * C)) s : In s (times n sm) -> In s sm.
Proof. induction n as [|n IH]; [intros []|]. cbn [repeat concat]. rewrite in_app_iff. intros [H|H]; auto. Qed.

(** ** two records with the same fit *)
Lemma top_combined L1 t1 u1 v1 lat1 opts1 sm1 c1 L2 t2 u2 v2 lat2 opts2 sm2 c2 L' t' u' v' lat' opts' sm' c' n1 n2 :
  analysis L1 t1 u1 v1 lat1 opts1 sm1 c1 -> lstsq_minimises L1 -> o_method (c_opt c1) = PStr "ols" ->
  analysis L2 t2 u2 v2 lat2 opts2 sm2 c2 -> lstsq_minimises L2 -> o_method (c_opt c2) = PStr "ols" ->
  analysis L' t' u' v' lat' opts' sm' c' -> lstsq_minimises L' -> o_method (c_opt c') = PStr "ols" ->
  same_model c1 c2 -> same_model c1 c' -> (forall x, valC c1 x = valC c2 x) -> Permutation sm' (times n1 sm1 ++ times n2 sm2) ->
  approximate (c_opt c') = false -> identifiable c' (map fst sm') -> NoDup (c_name c') -> same_fit c1 c'.
Proof.
  intros AN1 LM1 OLS1 AN2 LM2 OLS2 AN' LM' OLS' SM SM' VV PS NA' ID ND.
  assert (HS := an_sorted _ _ _ _ _ _ _ _ AN1). assert (HS2 := an_sorted _ _ _ _ _ _ _ _ AN2).
  assert (W1 := analysis_wf _ _ _ _ _ _ _ _ AN1). assert (W2 := analysis_wf _ _ _ _ _ _ _ _ AN2).
  assert (NA1 : approximate (c_opt c1) = false) by (unfold approximate in *; rewrite <- (sm_infer _ _ SM'); exact NA').
  assert (NA2 : approximate (c_opt c2) = false) by (unfold approximate in *; rewrite (sm_infer _ _ SM); exact NA1).
  eapply best_same; eauto. intros r RV. destruct (ols_cross _ _ _ _ _ _ _ _ _ AN1 NA1 LM1 OLS1 RV) as [Z V].
  assert (PP : Permutation (combine (c_name r) (c_lind r)) (combine (c_name c2) (c_lind c2))).
  { rewrite (rv_name _ _ RV), (rv_lind _ _ RV).
    destruct (analysis_run _ _ _ _ _ _ _ _ AN1) as (_ & si & la & s & B & xraw & m & W & BH & _).
    destruct (analysis_run _ _ _ _ _ _ _ _ AN2) as (_ & si' & la' & s' & B' & xraw' & m' & W' & BH' & _).
    apply pairs_perm; [eapply run_indexed; eauto|eapply run_indexed; eauto|].
    assert (A2 : length (c_lind c1) = length (c_name c1)) by apply W1. assert (A2' : length (c_lind c2) = length (c_name c2)) by apply W2.
    rewrite !combine_fst by congruence. apply SM. }
  assert (SMr : same_model r c2).
  { destruct RV as [_ R1 R2 R3 R4 R5 R6], SM as [E1 E2 E3 E4 E5 E6 E7]. constructor; rewrite ?R5, ?R3, ?R4, ?R1; auto. }
  destruct (carried _ _ r c2 id_motion (id_keeps r) (rv_wf _ _ RV) W2 SMr (rv_ties _ _ RV) PP) as (r2 & RV2 & _ & _ & _ & V2).
  destruct (ols_cross _ _ _ _ _ _ _ _ _ AN2 NA2 LM2 OLS2 RV2) as [Z2 D2].
  assert (VR : forall x, valC r2 x = valC r x) by (intros x; rewrite V2; destruct (valC r x); reflexivity).
  apply cross_best; auto.
  - intros s Hs. apply (Permutation_in _ PS) in Hs. apply in_app_iff in Hs. destruct Hs as [Hs|Hs]; apply times_in in Hs; [now apply V|].
    destruct (D2 s Hs) as [Q1 Q2]. rewrite <- VV in Q1. rewrite VR in Q2. split; apply defined_vz; congruence.
  - rewrite (rsum_perm' _ _ (Permutation_map _ PS)), rsum_split, !times_sum, Z.
    assert (E : rsum (map (cross c1 r) sm2) = rsum (map (cross c2 r2) sm2)) by (f_equal; apply map_ext; intros s; unfold cross, vz; now rewrite VV, VR).
    rewrite E, Z2. ring.
Qed.

Lemma same_fit_val c c' : well_formed c -> well_formed c' -> same_model c c' -> same_fit c c' -> forall x, valC c x = valC c' x.
Proof.
  intros W W' SM (_ & _ & _ & _ & H) x. destruct (H x) as [Hu Hv]. destruct (recon_valC c x W) as (A1 & A2 & A3). destruct (recon_valC c' x W') as (B1 & B2 & B3).
  assert (T := sm_twodim _ _ SM). rewrite A1, B1 in Hu.
  destruct (valC c x) as [z|] eqn:E, (valC c' x) as [z'|] eqn:E'; cbn [xfst] in Hu; try discriminate; [|reflexivity].
  f_equal. apply C_eq; [congruence|]. destruct (o_twodim (c_opt c)).
  - specialize (Hv eq_refl). rewrite (A2 eq_refl), (B2 T) in Hv. cbn [xsnd] in Hv. congruence.
  - rewrite (A3 eq_refl _ eq_refl), (B3 T _ eq_refl). reflexivity.
Qed.
Lemma top_union L1 t1 u1 v1 lat1 opts1 sm1 c1 L2 t2 u2 v2 lat2 opts2 sm2 c2 L' t' u' v' lat' opts' sm' c' :
  analysis L1 t1 u1 v1 lat1 opts1 sm1 c1 -> lstsq_minimises L1 -> o_method (c_opt c1) = PStr "ols" ->
  analysis L2 t2 u2 v2 lat2 opts2 sm2 c2 -> lstsq_minimises L2 -> o_method (c_opt c2) = PStr "ols" ->
  analysis L' t' u' v' lat' opts' sm' c' -> lstsq_minimises L' -> o_method (c_opt c') = PStr "ols" ->
  same_model c1 c2 -> same_model c1 c' -> same_fit c1 c2 -> Permutation sm' (sm1 ++ sm2) ->
  approximate (c_opt c') = false -> identifiable c' (map fst sm') -> NoDup (c_name c') -> same_fit c1 c'.
Proof.
  intros AN1 LM1 O1 AN2 LM2 O2 AN' LM' O' SM SM' SF PS. eapply (top_combined _ _ _ _ _ _ sm1 c1 _ _ _ _ _ _ sm2 c2 _ _ _ _ _ _ sm' c' 1 1); eauto.
  - apply same_fit_val; auto; eapply analysis_wf; eauto.
  - cbn [repeat concat]. now rewrite !app_nil_r.
Qed.
Lemma same_model_refl c : same_model c c.
Proof. constructor; reflexivity. Qed.
Lemma top_repeated L t u v lat opts sm c L' t' u' v' lat' opts' sm' c' n :
  analysis L t u v lat opts sm c -> lstsq_minimises L -> o_method (c_opt c) = PStr "ols" ->
  analysis L' t' u' v' lat' opts' sm' c' -> lstsq_minimises L' -> o_method (c_opt c') = PStr "ols" -> same_model c c' ->
  Permutation sm' (concat (repeat sm n)) -> approximate (c_opt c') = false -> identifiable c' (map fst sm') -> NoDup (c_name c') -> same_fit c c'.
Proof.
  intros AN LM O AN' LM' O' SM PS. eapply (top_combined _ _ _ _ _ _ sm c _ _ _ _ _ _ sm c _ _ _ _ _ _ sm' c' n 0); eauto using same_model_refl.
  cbn [repeat concat]. now rewrite app_nil_r.
Qed.
