(** The mean alone and M2 with the mean, fitted to the same samples. *)
From Coq Require Import Lia Lra Permutation.
From Verif Require Import M_Base M_Lib M_Tables M_Const M_Options M_Time M_Slvinit M_Harmonics M_Select M_Ellipse
  M_Robust M_Period M_Conf M_Diag M_Solve M_Recon S_Dict S_Options S_Slv S_Order S_Basis S_Select S_Fit S_Ellipse S_Recon S_Model S_Perm S_Robust S_RobustKw S_Choice S_Nested S_Output
  L_Base L_Angle L_Options L_SolveInv L_OptSolve L_Slv L_Slv2 L_Tables L_Order L_Select L_Fit L_Align L_SelOrder L_Order2 L_Order3 L_Recon L_Example L_Example3 L_Example4 L_Example5
  L_Model L_Model2 L_Model11 L_Model15 L_Robust L_Robust2 L_Robust3 L_Robust5 L_Example13 L_Super L_Carry L_Choice L_Example21 L_Example22 L_Output L_Nested.
Open Scope R_scope.
Open Scope string_scope.

Definition middle (p : C) (r : R) : R := (fst (tide p r 0) + fst (tide p r 1) + fst (tide p r 2) + fst (tide p r 4)) / 4.
Lemma mean_m2 p r : exists c, ols_run ex_t (m2_u p r) (m2_sm p r) c (middle p r).
Proof.
  assert (RF : false = false -> forall z, In z (zs (tide p r 0) (tide p r 1) (tide p r 2) (tide p r 4)) -> snd z = 0).
  { intros _ z Hz. repeat (destruct Hz as [<-|Hz]; [apply tide_real|]). destruct Hz. }
  destruct (four_slv false (tide p r 0) (tide p r 1) (tide p r 2) (tide p r 4) RF) as (si & S1 & S2 & S3 & S4 & S5).
  rewrite sm_four. unfold m2_u, middle. revert S1 S2 S3 S4 S5 RF. generalize (tide p r 0) (tide p r 1) (tide p r 2) (tide p r 4). intros z0 z1 z2 z3 S1 S2 S3 S4 S5 RF.
  eapply (mean_run ex_t _ _ si ext 4 _ _ S1 S2 S3 S4 (four_samples false _ _ _ _ RF) (four_basis (si_lor si))); [discriminate|reflexivity|discriminate|].
  unfold col_m, colS, colA, rsum. cbn. field.
Qed.
Lemma still r x : tide (RtoC 0) r x = RtoC r.
Proof. unfold tide, ex_row, mm. cbn [map app]. generalize (ex_e x 47). intros [a b]. unfold cdot, csum. apply C_eq; cbn; ring. Qed.

Lemma m2_wider L p r c c' a : ols_run ex_t (m2_u p r) (m2_sm p r) c a -> m2_fit L p r c' -> wider c c' /\ NoDup (c_name c) /\ NoDup (c_name c').
Proof.
  intros (A & _ & _ & _ & _ & N & _ & RT & _) Mf. split; [|rewrite N, (mf_name _ _ _ _ Mf); split; repeat constructor; intros []].
  eapply agree_wider; [exact A|apply Mf| | | | |reflexivity|rewrite RT; apply Mf|rewrite N; intros q []].
  - intros q Hq. cbn [In] in Hq. repeat (destruct Hq as [<-|Hq]; [eexists; split; (first [left; cbn; tauto | right; split; [cbn; intros K; repeat (destruct K as [K|K]; [discriminate|]); exact K|cbn; tauto]])|]). destruct Hq.
  - first [left; cbn; tauto | right; split; [cbn; intros K; repeat (destruct K as [K|K]; [discriminate|]); exact K|cbn; tauto]].
  - first [left; cbn; tauto | right; split; [cbn; intros K; repeat (destruct K as [K|K]; [discriminate|]); exact K|cbn; tauto]].
  - intros x x' H _ _. assert (U := an_keys _ _ _ _ _ _ _ _ A). apply (setting_val _ "trend" _ U ltac:(cbn; tauto)) in H. rewrite <- H. rewrite <- truthy_falsy. reflexivity.
Qed.
Lemma still_returns r c a : ols_run ex_t (m2_u (RtoC 0) r) (m2_sm (RtoC 0) r) c a -> a = r -> returns colL c (map fst (m2_sm (RtoC 0) r)) (map snd (m2_sm (RtoC 0) r)).
Proof.
  intros A ->. apply returns_yields; [eapply analysis_wf; apply A|]. apply forall_pairs. unfold m2_sm. apply Forall_forall. intros x Hx.
  apply in_map_iff in Hx. destruct Hx as (y & <- & _). cbn [fst snd]. rewrite still. eapply mean_yields; eauto.
Qed.
