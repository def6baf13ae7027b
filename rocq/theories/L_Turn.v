(** Current data in turned or mirrored axes. *)
From Coq Require Import Lia Lra Permutation.
From Verif Require Import M_Base M_Bunch M_Lib M_Tables M_Const M_Options M_Time M_Slvinit M_Harmonics M_Select M_Ellipse
  M_Robust M_Period M_Conf M_Diag M_Solve M_Recon S_Dict S_Options S_Order S_Basis S_Select S_Fit S_Ellipse S_Slv S_Recon S_Model S_Perm S_Choice S_Turn
  L_Base L_Tables L_Options L_SolveInv L_OptSolve L_Slv L_Slv2 L_Order L_Select L_Fit L_Align L_SelOrder L_Basis L_Angle L_Ellipse L_Recon L_Recon2 L_Recon3 L_Core
  L_Ellipse2 L_Model L_Lsq L_Model2 L_Model3 L_Model4 L_Model5 L_Model6 L_Model7 L_Model8 L_Model9 L_Model10 L_Model11 L_Model12 L_Model15
  L_Units2 L_Super L_Super2 L_Super3 L_Super4 L_Perm L_Carry L_Choice.
Open Scope R_scope.
Open Scope string_scope.

Lemma turn_eq phi z : turn phi z = Cmult (cis (rad phi)) z.
Proof. unfold turn, cis. apply C_eq; cbn; ring. Qed.
Lemma mirror_eq phi z : mirror phi z = Cmult (cis (rad phi)) (Cconj z).
Proof. unfold mirror, cis. apply C_eq; cbn; ring. Qed.

Lemma turned_num phi a b th g a' b' th' g' : Rabs b <= a -> Rabs b' <= a' ->
  Cmult (cis (rad phi)) (Cmult (RtoC ((a + b) / 2)) (cis (rad (th - g)))) = Cmult (RtoC ((a' + b') / 2)) (cis (rad (th' - g'))) ->
  Cmult (cis (rad phi)) (Cmult (RtoC ((a - b) / 2)) (cis (rad (th + g)))) = Cmult (RtoC ((a' - b') / 2)) (cis (rad (th' + g'))) ->
  a' = a /\ b' = b /\ (Rabs b < a -> exists k : Z, th' = th + phi + 180 * IZR k /\ same_angle 360 g' (g + 180 * IZR k)).
Proof.
  intros Hb Hb' H1 H2.
  assert (C1 : forall r x, Cmult (cis (rad phi)) (Cmult (RtoC r) (cis (rad x))) = Cmult (RtoC r) (cis (rad (phi + x)))) by (intros; rewrite rad_add, cis_add; ring).
  rewrite C1 in H1, H2. clear C1.
  assert (B1 : 0 <= a + b /\ 0 <= a - b) by (unfold Rabs in Hb; destruct (Rcase_abs b); lra).
  assert (B2 : 0 <= a' + b' /\ 0 <= a' - b') by (unfold Rabs in Hb'; destruct (Rcase_abs b'); lra).
  assert (E1 : (a + b) / 2 = (a' + b') / 2).
  { assert (M := f_equal Cmod H1). rewrite !mod_cis in M; lra. }
  assert (E2 : (a - b) / 2 = (a' - b') / 2).
  { assert (M := f_equal Cmod H2). rewrite !mod_cis in M; lra. }
  split; [lra|]. split; [lra|]. intros Hn.
  assert (B3 : 0 < a + b /\ 0 < a - b) by (unfold Rabs in Hn; destruct (Rcase_abs b); lra).
  apply polar_inj in H1; [|lra|lra]. apply polar_inj in H2; [|lra|lra]. destruct H1 as [_ [i H1]], H2 as [_ [j H2]].
  assert (P := PI_RGT_0). unfold rad in *.
  assert (F1 : (phi + (th - g)) * PI = (th' - g' + 360 * IZR i) * PI) by lra. apply Rmult_eq_reg_r in F1; [|lra].
  assert (F2 : (phi + (th + g)) * PI = (th' + g' + 360 * IZR j) * PI) by lra. apply Rmult_eq_reg_r in F2; [|lra].
  exists (- (i + j))%Z. rewrite opp_IZR, plus_IZR. split; [lra|]. exists i. lra.
Qed.

(** rows *)
Definition turnT (phi : R) (p : C * C) : C * C := (Cmult (cis (rad phi)) (fst p), Cmult (cis (rad phi)) (snd p)).
Definition mirrorT (phi : R) (p : C * C) : C * C := (Cmult (cis (rad phi)) (Cconj (snd p)), Cmult (cis (rad phi)) (Cconj (fst p))).
Lemma conj_cis r x : Cconj (Cmult (RtoC r) (cis (rad x))) = Cmult (RtoC r) (cis (rad (- x))).
Proof. rewrite rad_opp. unfold cis. rewrite cos_neg, sin_neg. apply C_eq; cbn; ring. Qed.

Lemma row_turned phi r r' p : row_ranges r -> row_ranges r' -> w_Lsmaj r <> None -> w_Lsmaj r' <> None ->
  rotary r = Some p -> rotary r' = Some (turnT phi p) -> ellipse_by 1 phi r r'.
Proof.
  intros (_ & _ & B1 & _) (_ & _ & B2 & _) N1 N2 R1 R2. assert (Q1 := rotary_shape _ _ R1). assert (Q2 := rotary_shape _ _ R2).
  destruct (w_Lsmaj r) eqn:E1; [|congruence]. destruct (w_Lsmaj r') eqn:E2; [|congruence].
  destruct Q1 as (a & b & th & g & M1 & M2 & M3 & M4), Q2 as (a' & b' & th' & g' & K1 & K2 & K3 & K4).
  unfold rotary in R1, R2. rewrite M1, M2, M3, M4 in R1. rewrite K1, K2, K3, K4 in R2. apply Some_eq2 in R1. subst p. apply some_pair in R2. destruct R2 as [R2 R3]. cbn [fst snd] in R2, R3.
  rewrite M1 in E1. rewrite K1 in E2. apply Some_eq2 in E1, E2. subst.
  destruct (turned_num phi a b th g a' b' th' g' (B1 _ _ eq_refl M2) (B2 _ _ eq_refl K2) (eq_sym R2) (eq_sym R3)) as (H1 & H2 & H3).
  exists a, b, th, g, a', b', th', g'. repeat (split; [first [assumption|lra]|]). intros Hb. destruct (H3 Hb) as (k & F1 & F2). exists k. split; [lra|exact F2].
Qed.
Lemma row_mirrored phi r r' p : row_ranges r -> row_ranges r' -> w_Lsmaj r <> None -> w_Lsmaj r' <> None ->
  rotary r = Some p -> rotary r' = Some (mirrorT phi p) -> ellipse_by (-1) phi r r'.
Proof.
  intros (_ & _ & B1 & _) (_ & _ & B2 & _) N1 N2 R1 R2. assert (Q1 := rotary_shape _ _ R1). assert (Q2 := rotary_shape _ _ R2).
  destruct (w_Lsmaj r) eqn:E1; [|congruence]. destruct (w_Lsmaj r') eqn:E2; [|congruence].
  destruct Q1 as (a & b & th & g & M1 & M2 & M3 & M4), Q2 as (a' & b' & th' & g' & K1 & K2 & K3 & K4).
  unfold rotary in R1, R2. rewrite M1, M2, M3, M4 in R1. rewrite K1, K2, K3, K4 in R2. apply Some_eq2 in R1. subst p. apply some_pair in R2. destruct R2 as [R2 R3]. cbn [fst snd] in R2, R3.
  rewrite conj_cis in R2, R3. rewrite M1 in E1. rewrite K1 in E2. apply Some_eq2 in E1, E2. subst. assert (BB := B1 _ _ eq_refl M2).
  destruct (turned_num phi a (- b) (- th) g a' b' th' g') as (H1 & H2 & H3); [now rewrite Rabs_Ropp|exact (B2 _ _ eq_refl K2)| | |].
  - rewrite R2. replace (a + - b) with (a - b) by ring. replace (- th - g) with (- (th + g)) by ring. reflexivity.
  - rewrite R3. replace (a - - b) with (a + b) by ring. replace (- th + g) with (- (th - g)) by ring. reflexivity.
  - exists a, b, th, g, a', b', th', g'. repeat (split; [first [assumption|lra]|]). rewrite Rabs_Ropp in H3. intros Hb.
    destruct (H3 Hb) as (k & F1 & F2). exists k. split; [lra|exact F2].
Qed.
Lemma row_motion f T r r' p : motion f T -> w_Lsmaj r <> None -> w_Lsmaj r' <> None -> rotary r = Some p -> rotary r' = Some (T p) -> same_motion f r r'.
Proof.
  intros M N1 N2 R1 R2. assert (Q1 := rotary_shape _ _ R1). assert (Q2 := rotary_shape _ _ R2).
  destruct (w_Lsmaj r) eqn:E1; [|congruence]. destruct (w_Lsmaj r') eqn:E2; [|congruence].
  destruct Q1 as (a & b & th & g & M1 & M2 & M3 & M4), Q2 as (a' & b' & th' & g' & K1 & K2 & K3 & K4).
  exists a, b, th, g, a', b', th', g'. repeat (split; [assumption|]). intros n phi.
  unfold rotary in R1, R2. rewrite M1, M2, M3, M4 in R1. rewrite K1, K2, K3, K4 in R2. apply Some_eq2 in R1, R2.
  rewrite <- !pm2_value. assert (X := mo_pair _ _ M (Cmult (RtoC n) (cis phi)) p). rewrite <- R2, <- R1 in X. cbn [fst snd] in X. exact X.
Qed.

(** the two motions *)
Lemma cis_unit x z : fst (Cmult (cis x) z) ^ 2 + snd (Cmult (cis x) z) ^ 2 = fst z ^ 2 + snd z ^ 2.
Proof.
  unfold cis. cbn [Cmult fst snd]. assert (S := sin2_cos2 x). unfold Rsqr in S.
  replace (_ + _) with ((sin x * sin x + cos x * cos x) * (fst z ^ 2 + snd z ^ 2)) by ring. rewrite S. ring.
Qed.
Lemma turn_motion phi : motion (turn phi) (turnT phi).
Proof.
  constructor.
  - intros. rewrite !turn_eq. ring.
  - intros. rewrite !turn_eq. ring.
  - intros. rewrite turn_eq. unfold turnT. cbn [fst snd]. ring.
  - intros. rewrite turn_eq. apply cis_unit.
Qed.
Lemma conj_add a b : Cconj (Cplus a b) = Cplus (Cconj a) (Cconj b). Proof. apply C_eq; cbn; ring. Qed.
Lemma conj_mul a b : Cconj (Cmult a b) = Cmult (Cconj a) (Cconj b). Proof. apply C_eq; cbn; ring. Qed.
Lemma conj_conj a : Cconj (Cconj a) = a. Proof. apply C_eq; cbn; ring. Qed.
Lemma conj_real r : Cconj (RtoC r) = RtoC r. Proof. apply C_eq; cbn; ring. Qed.
Lemma mirror_motion phi : motion (mirror phi) (mirrorT phi).
Proof.
  constructor.
  - intros. rewrite !mirror_eq, conj_add. ring.
  - intros. rewrite !mirror_eq, conj_mul, conj_real. ring.
  - intros. rewrite mirror_eq. unfold mirrorT. cbn [fst snd]. rewrite conj_add, !conj_mul, conj_conj. ring.
  - intros. rewrite mirror_eq, cis_unit. cbn. ring.
Qed.
Lemma turn_back phi z : turn (- phi) (turn phi z) = z.
Proof. rewrite !turn_eq, Cmult_assoc, <- cis_add, <- rad_add. replace (- phi + phi) with 0 by ring. unfold rad, cis. replace (0 * PI / 180) with 0 by field. rewrite cos_0, sin_0. apply C_eq; cbn; ring. Qed.
Lemma turn_forth phi z : turn phi (turn (- phi) z) = z.
Proof. assert (H := turn_back (- phi) z). now rewrite Ropp_involutive in H. Qed.
Lemma mirror_back phi z : mirror phi (mirror phi z) = z.
Proof.
  rewrite !mirror_eq, conj_mul, conj_conj, Cmult_assoc. replace (Cconj (cis (rad phi))) with (cis (rad (- phi))).
  - rewrite <- cis_add, <- rad_add. replace (phi + - phi) with 0 by ring. unfold rad, cis. replace (0 * PI / 180) with 0 by field. rewrite cos_0, sin_0. apply C_eq; cbn; ring.
  - rewrite rad_opp. unfold cis. now rewrite cos_neg, sin_neg.
Qed.

(** ** whole analyses *)
Lemma result_from L t u v lat opts sm c L' t' u' v' lat' opts' sm' c' f T h sg phi :
  analysis L t u v lat opts sm c -> analysis L' t' u' v' lat' opts' sm' c' -> same_model c c' -> motion f T -> o_twodim (c_opt c) = true ->
  (forall z, h (f z) = z) -> NoDup (c_name c') ->
  (forall r r' p, row_ranges r -> row_ranges r' -> w_Lsmaj r <> None -> w_Lsmaj r' <> None -> rotary r = Some p -> rotary r' = Some (T p) -> ellipse_by sg phi r r') ->
  Permutation (triples c') (map (upon T) (triples c)) /\ mnC c' = f (mnC c) /\ (o_notrend (c_opt c') = false -> slC c' = f (slC c)) /\
    (forall x, valC c' x = option_map f (valC c x)) ->
  result_by f sg phi c c'.
Proof.
  intros AN AN' SM M TW HF ND RW (H1 & H2 & H3 & H4). assert (W := analysis_wf _ _ _ _ _ _ _ _ AN). assert (W' := analysis_wf _ _ _ _ _ _ _ _ AN').
  assert (TW' : o_twodim (c_opt c') = true) by (now rewrite (sm_twodim _ _ SM)). split; [apply SM|]. split; [|split; [|split]].
  - intros r r' Hr Hr' En. destruct (triple_of c r W Hr) as (n & l & p & T1 & T2 & T3 & T4). destruct (triple_of c' r' W' Hr') as (n' & l' & p' & T1' & T2' & T3' & T4').
    rewrite T2, T2' in En. apply Some_eq2 in En. subst n'.
    apply (in_map (upon T)) in T1. apply (Permutation_in _ (Permutation_sym H1)) in T1. unfold upon in T1. cbn [fst snd] in T1.
    assert (X := nodup_triple c' _ _ W' ND T1 T1' eq_refl). assert (p' = T p) by (apply (f_equal snd) in X; cbn [snd] in X; congruence). subst p'.
    assert (N1 : w_Lsmaj r <> None) by (intros E; apply (rows_Lsmaj c r W Hr) in E; congruence).
    assert (N2 : w_Lsmaj r' <> None) by (intros E; apply (rows_Lsmaj c' r' W' Hr') in E; congruence).
    split; [|eapply row_motion; eauto]. eapply RW; eauto; eapply solve_ranges; eauto; [apply (an_solve _ _ _ _ _ _ _ _ AN)|apply (an_solve _ _ _ _ _ _ _ _ AN')].
  - intros z H. apply mnC_mean; auto. apply (mean_mnC _ _ W) in H. rewrite H2, <- H, TW, TW'. reflexivity.
  - intros N z H. assert (N' : o_notrend (c_opt c') = false) by (now rewrite (sm_notrend _ _ SM)). apply slC_slope; auto. apply (slope_slC _ _ W) in H. rewrite (H3 N'), <- H, TW, TW'. reflexivity.
  - intros x z. rewrite (yields_valC _ _ _ W), (yields_valC _ _ _ W'), H4. split; intros H.
    + rewrite H. reflexivity.
    + destruct (valC c x) as [w|]; cbn [option_map] in H; [|discriminate]. apply Some_eq2 in H. apply (f_equal h) in H. rewrite !HF in H. now rewrite H.
Qed.

Lemma turn_keeps phi c : o_twodim (c_opt c) = true -> keeps (turn phi) (turnT phi) c.
Proof. intros T. split; [congruence|]. right. intros. unfold turnT. cbn [fst snd]. f_equal; ring. Qed.
Lemma mirror_keeps phi c : o_twodim (c_opt c) = true -> o_infer (c_opt c) = None -> keeps (mirror phi) (mirrorT phi) c.
Proof. intros T N. split; [congruence|]. now left. Qed.

Lemma top_turned L t u v lat opts sm c L' t' u' v' lat' opts' sm' c' phi :
  analysis L t u v lat opts sm c -> analysis L' t' u' v' lat' opts' sm' c' -> same_model c c' -> is2d v = true -> values_by (turn phi) sm sm' ->
  approximate (c_opt c) = false -> lstsq_minimises L -> lstsq_minimises L' -> o_method (c_opt c) = PStr "ols" -> o_method (c_opt c') = PStr "ols" ->
  identifiable c' (map fst sm') -> NoDup (c_name c) -> result_by (turn phi) 1 phi c c'.
Proof.
  intros AN AN' SM D PS NA LM LM' O O' ID ND. assert (TW : o_twodim (c_opt c) = true) by (rewrite (twodim_of _ _ _ _ _ _ _ _ AN); exact D).
  assert (TW' : o_twodim (c_opt c') = true) by (now rewrite (sm_twodim _ _ SM)).
  assert (ND' : NoDup (c_name c')) by (eapply Permutation_NoDup; [apply (sm_names _ _ SM)|exact ND]).
  assert (NA' : approximate (c_opt c') = false) by (unfold approximate in *; now rewrite (sm_infer _ _ SM)).
  eapply (result_from L t u v lat opts sm c L' t' u' v' lat' opts' sm' c' (turn phi) (turnT phi) (turn (- phi))); eauto using turn_motion, turn_back.
  - intros. eapply row_turned; eauto.
  - eapply (carry L t u v lat opts sm c L' t' u' v' lat' opts' sm' c' (turn phi) (turnT phi) (turn (- phi)) (turnT (- phi))); eauto using turn_motion, turn_back, turn_keeps.
Qed.
Lemma top_mirrored L t u v lat opts sm c L' t' u' v' lat' opts' sm' c' phi :
  analysis L t u v lat opts sm c -> analysis L' t' u' v' lat' opts' sm' c' -> same_model c c' -> is2d v = true -> values_by (mirror phi) sm sm' ->
  o_infer (c_opt c) = None -> lstsq_minimises L -> lstsq_minimises L' -> o_method (c_opt c) = PStr "ols" -> o_method (c_opt c') = PStr "ols" ->
  identifiable c' (map fst sm') -> NoDup (c_name c) -> result_by (mirror phi) (-1) phi c c'.
Proof.
  intros AN AN' SM D PS NI LM LM' O O' ID ND. assert (TW : o_twodim (c_opt c) = true) by (rewrite (twodim_of _ _ _ _ _ _ _ _ AN); exact D).
  assert (TW' : o_twodim (c_opt c') = true) by (now rewrite (sm_twodim _ _ SM)).
  assert (ND' : NoDup (c_name c')) by (eapply Permutation_NoDup; [apply (sm_names _ _ SM)|exact ND]).
  assert (NI' : o_infer (c_opt c') = None) by (now rewrite (sm_infer _ _ SM)).
  assert (NA' : approximate (c_opt c') = false) by (unfold approximate; now rewrite NI').
  eapply (result_from L t u v lat opts sm c L' t' u' v' lat' opts' sm' c' (mirror phi) (mirrorT phi) (mirror phi)); eauto using mirror_motion, mirror_back.
  - intros. eapply row_mirrored; eauto.
  - eapply (carry L t u v lat opts sm c L' t' u' v' lat' opts' sm' c' (mirror phi) (mirrorT phi) (mirror phi) (mirrorT phi)); eauto using mirror_motion, mirror_back, mirror_keeps.
Qed.
(** the components exchanged *)
Lemma mirror_90 z : mirror 90 z = (snd z, fst z).
Proof. unfold mirror, rad. replace (90 * PI / 180) with (PI / 2) by field. rewrite cos_PI2, sin_PI2. apply C_eq; cbn; ring. Qed.
Lemma mirror_0 z : mirror 0 z = (fst z, - snd z).
Proof. unfold mirror, rad. replace (0 * PI / 180) with 0 by field. rewrite cos_0, sin_0. apply C_eq; cbn; ring. Qed.
Lemma mirror_180 z : mirror 180 z = (- fst z, snd z).
Proof. unfold mirror, rad. replace (180 * PI / 180) with PI by field. rewrite cos_PI, sin_PI. apply C_eq; cbn; ring. Qed.
