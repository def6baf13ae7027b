(** Calls with inference that give no result; nodal corrections that never vanish; examples. *)
From Coq Require Import Lia Lra Permutation QArith Qreals.
From Verif Require Import M_Base M_Bunch M_Lib M_Tables M_Const M_Options M_Time M_Slvinit M_Harmonics M_Select M_Ellipse
  M_Robust M_Period M_Conf M_Diag M_Solve M_Recon S_Harm S_Tables S_Dict S_Options S_Order S_Basis S_Select S_Fit S_Ellipse S_Slv S_Recon S_Model S_Errors S_Perm S_Period S_Noise S_Nodal S_Accept S_InferAccept
  L_Base L_Options L_SolveInv L_OptSolve L_Slv L_Slv2 L_Tables L_Order L_Select L_Fit L_Align L_SelOrder L_Order2 L_Basis L_Harm L_Harm2 L_Harm3 L_Angle L_Ellipse L_Recon L_Recon2 L_Recon3 L_Recon4 L_Core
  L_Ellipse2 L_Nodal L_Nodal2 L_Model L_Lsq L_Model2 L_Model3 L_Model4 L_Model5 L_Model6 L_Model7 L_Model8 L_Noise2 L_Example L_Accept L_InferAccept L_InferAccept2 L_InferAccept3.
Open Scope R_scope.
Open Scope string_scope.

Lemma nobody_else L t u v la opts sm I Rf ap names c : inference_call L t u v opts sm I Rf ap ->
  setting opts "constit" (PSeq (map PStr names)) -> (forall n, In n names -> In n I \/ In n Rf) ->
  (exists x, setting opts "nodal" x /\ ~ falsy x) \/ (exists x, setting opts "phase" x /\ x <> PStr "raw") ->
  solve L t u v (Some la) opts <> Ok c.
Proof.
  intros DC SC HN CR H. assert (U := ic_keys _ _ _ _ _ _ _ _ _ DC).
  assert (IQ := ic_infer _ _ _ _ _ _ _ _ _ DC). change (match v with Some _ => true | None => false end) with (is2d v) in IQ.
  destruct (solve_inv _ _ _ _ _ _ _ H) as [(compat & si & la0 & o & s & B & y & m & W & c1 & c2 & P1 & P2 & P3 & P4 & P5 & P6 & _)].
  destruct (used_options opts (is2d v) (si_equi si) U compat o P1 P4) as
   (_ & _ & _ & _ & _ & _ & _ & _ & U5 & _ & _ & U7 & _ & U8 & _ & _ & _ & _ & _ & _ & (d & U11 & U12) & _).
  destruct (asked opts (is2d v) I Rf ap U IQ) as (d' & inf & A1 & A2 & A3 & A4 & A5 & A6).
  rewrite A1 in U11. apply Ok_inj in U11. subst d'. rewrite A2 in U12. apply Ok_inj in U12. rewrite <- U12 in P5.
  assert (EC : o_cnstit o = PSeq (map PStr names)) by (rewrite U5; apply setting_val; [exact U|cbn; tauto|exact SC]).
  assert (LO := sel_infer _ _ _ _ _ P5). destruct (sl_NR _ _ _ _ _ LO) as (l0 & ri & E1 & E2 & E3).
  assert (NR : s_NRlind s = []).
  { destruct (s_NRlind s) as [|i l] eqn:EL; [reflexivity|]. exfalso.
    assert (X : In i (i :: l)) by now left. rewrite E3 in X. apply filter_In in X. destruct X as [X1 X2]. apply Bool.negb_true_iff in X2.
    rewrite EC in E1. unfold initial_lind in E1. cbn [eq_str] in E1. rewrite as_names_seq in E1. cbn [bind] in E1. apply mapM_index in E1.
    assert (Y := in_map (fun i => nth_error const_name i) _ _ X1). cbv beta in Y. rewrite E1 in Y. apply in_map_iff in Y. destruct Y as (n & En & Hn).
    assert (Z : In n (inf_inferred inf ++ inf_reference inf)) by (rewrite A3, A4; apply in_or_app; now apply HN).
    apply (in_map Some) in Z. rewrite <- (mapM_index _ _ E2) in Z. apply in_map_iff in Z. destruct Z as (j & Ej & Hj).
    assert (j = i) by (eapply index_NoDup; [exact Ej|now symmetry]). subst j. apply existsb_natb_In in Hj. congruence. }
  assert (NA : s_NRarr s = false).
  { clear - P5. unfold ut_cnstitsel in P5. do 5 inv_bind P5. apply Ok_inj in P5. now subst s. }
  assert (BD : bad_empty_index (flags_of o) s = true).
  { unfold bad_empty_index. rewrite NR, NA. cbn [length Nat.eqb negb andb flags_of NodsatNone GwchNone]. rewrite U7, U8.
    destruct CR as [(x & Sx & Fx)|(x & Sx & Fx)].
    - rewrite (setting_val opts "nodal" x U ltac:(cbn; tauto) Sx). destruct (truthy x) eqn:T; [|apply truthy_falsy in T; contradiction].
      cbn [negb]. now rewrite Bool.andb_false_r.
    - rewrite (setting_val opts "phase" x U ltac:(cbn; tauto) Sx). destruct (eq_str x "raw") eqn:E; [|now rewrite Bool.andb_false_r].
      exfalso. apply Fx. destruct x; try discriminate E. cbn in E. apply String.eqb_eq in E. now subst. }
  unfold fit, basis in P6. rewrite BD in P6. discriminate.
Qed.

Lemma unknown_part L t u v la opts c d I Rf n : unique_keys opts -> setting opts "infer" (PDict true d) -> unique_keys d ->
  entry d "inferred_names" (PSeq (map PStr I)) -> entry d "reference_names" (PSeq (map PStr Rf)) -> In n I \/ In n Rf -> ~ In n const_name ->
  solve L t u v (Some la) opts <> Ok c.
Proof.
  intros U SD Ud D1 D2 Hn NK H.
  destruct (solve_inv _ _ _ _ _ _ _ H) as [(compat & si & la0 & o & s & B & y & m & W & c1 & c2 & P1 & P2 & P3 & P4 & P5 & P6 & _)].
  destruct (used_options opts (is2d v) (si_equi si) U compat o P1 P4) as
   (_ & _ & _ & _ & _ & _ & _ & _ & U5 & _ & _ & U7 & _ & U8 & _ & _ & _ & _ & _ & _ & (d' & U11 & U12) & _).
  rewrite (setting_val opts "infer" _ U ltac:(cbn; tauto) SD) in U11. apply validate_infer_ok_iff in U11; [|exact Ud]. destruct U11 as [_ ->].
  destruct (validated_frame d Ud) as (V1 & V2 & V3).
  assert (G : forall k x, entry d k x -> oget (validated d) k = x).
  { intros k x Hx. assert (K : In k (keys d)) by exact (in_map fst _ _ Hx). apply (V2 k x K) in Hx. unfold oget. apply (dget_In _ _ _ V1) in Hx. now rewrite Hx. }
  unfold read_infer in U12. rewrite (G _ _ D1), (G _ _ D2), !as_names_seq in U12. cbn [bind] in U12. inv_bind U12. inv_bind U12. apply Ok_inj in U12.
  rewrite <- U12 in P5. destruct (sl_NR _ _ _ _ _ (sel_infer _ _ _ _ _ P5)) as (l0 & ri & E1 & E2 & E3). cbn [inf_inferred inf_reference] in E2.
  rewrite (mapM_index_err (I ++ Rf) n (in_or_app _ _ _ Hn) NK) in E2. discriminate.
Qed.

(** ** corrections that never vanish *)
Lemma csum_bound l : Cmod (csum l) <= rsum (map Cmod l).
Proof.
  unfold csum. induction l as [|z l IH]; cbn [fold_right map].
  - rewrite Cmod_0. unfold rsum. cbn. lra.
  - eapply Rle_trans; [apply Cmod_triangle|]. change (rsum (Cmod z :: map Cmod l)) with (Cmod z + rsum (map Cmod l)). lra.
Qed.
Lemma term_size la j jd : Cmod (satellite_term la j jd) = Rabs (Q2R (nth j sat_amprat 0%Q) * latitude_factor la (nth j sat_ilatfac 0%nat)).
Proof.
  unfold satellite_term. rewrite Cmod_mult, Cmod_R. assert (T := turn_norm (satellite_phase j jd)).
  assert (E : Cmod (turn (satellite_phase j jd)) = 1).
  { unfold Cmod. replace (fst (turn (satellite_phase j jd)) ^ 2 + snd (turn (satellite_phase j jd)) ^ 2) with 1 by lra. apply sqrt_1. }
  rewrite E. lra.
Qed.
Lemma small_lasts la jd k :
  rsum (map (fun j => Rabs (Q2R (nth j sat_amprat 0%Q) * latitude_factor la (nth j sat_ilatfac 0%nat))) (satellites k)) < 1 ->
  nodal_primary la jd k <> RtoC 0.
Proof.
  intros S E. unfold nodal_primary in E. set (z := csum (map (fun j => satellite_term la j jd) (satellites k))) in *.
  assert (B : Cmod z < 1).
  { eapply Rle_lt_trans; [apply csum_bound|]. rewrite map_map. erewrite map_ext; [exact S|]. intros j. apply term_size. }
  assert (X : Cmod z = 1); [|lra].
  replace z with (Copp (RtoC 1)).
  - rewrite Cmod_opp, Cmod_R. apply Rabs_R1.
  - destruct z as [a b]. injection E as E1 E2. unfold Copp, RtoC in *. cbn [fst snd] in *. f_equal; lra.
Qed.
Lemma small_lasting la n k : constit_index n = Ok k -> is_primary k -> k <> 117%nat ->
  rsum (map (fun j => Rabs (Q2R (nth j sat_amprat 0%Q) * latitude_factor la (nth j sat_ilatfac 0%nat))) (satellites k)) < 1 -> lasting la n.
Proof. intros I P K S. exists k. split; [exact I|]. split; [exact K|]. intros jd. rewrite (nodal_prim la jd k P). now apply small_lasts. Qed.
