(** Calls with M2 at four days, for a library whose least-squares routine and inverse always return. *)
From Coq Require Import Lia Lra Permutation.
From Verif Require Import M_Base M_Lib M_Tables M_Const M_Options M_Time M_Slvinit M_Harmonics M_Select M_Ellipse
  M_Robust M_Period M_Conf M_Diag M_Solve M_Recon S_Dict S_Options S_Slv S_Order S_Basis S_Select S_Fit S_Ellipse S_Recon S_Model S_Errors S_Perm S_Period S_Noise S_Accept
  L_Base L_Options L_SolveInv L_OptSolve L_Slv L_Slv2 L_Tables L_Order L_Select L_Fit L_Align L_SelOrder L_Order2 L_Order3 L_Recon L_Example L_Example3 L_Example4
  L_Model L_Model2 L_Model3 L_Model11 L_Model5 L_Model5 L_Perm L_Example13 L_LombEx L_Accept L_Accept2 L_Accept3.
Open Scope R_scope.
Open Scope string_scope.

Definition retL : lib :=
  {| l_parse := fun _ => None; l_lstsq := fun B x _ => match B with [] => Err LinAlgError | row :: _ =>
       if forallb (fun r => Nat.eqb (length r) (length row)) B then Ok (map (fun _ => RtoC 0) row, [], length row, []) else Err LinAlgError end;
     l_pinv := fun X => Ok X; l_inv := fun M => Ok M;
     l_svd := fun M => Ok (M, map (fun _ => 0) M, M); l_eigvals := fun M => Ok (map (fun _ => RtoC 0) M);
     l_is_PD := fun _ => true; l_spacing := fun _ => 0;
     l_mvn := fun _ m _ n => Ok (repeat m n); l_lomb := fun t x f => map (power_at t x) f;
     l_argsort := ins_argsort |}.
Lemma ret_shape : lstsq_shape retL.
Proof.
  intros B x rc m r k s H row Hr. cbn [retL l_lstsq] in H. destruct B as [|b B]; [destruct Hr|]. destruct (forallb _ _) eqn:E; [|discriminate].
  rewrite forallb_forall in E. assert (K := E row Hr). apply Nat.eqb_eq in K. injection H as <- _ _ _. now rewrite map_length.
Qed.
Lemma ret_returns : lstsq_returns retL.
Proof.
  intros B x rc NE _ H. cbn [retL l_lstsq]. destruct B as [|b B]; [congruence|].
  replace (forallb _ (b :: B)) with true; [eauto|]. symmetry. apply forallb_forall. intros r Hr. apply Nat.eqb_eq. apply H; [exact Hr|now left].
Qed.
Lemma ret_inv : inv_returns retL.
Proof. intros n M _ _. exists M. reflexivity. Qed.
Lemma ret_lomb : lomb_contract retL.
Proof. now apply power_contract. Qed.
Lemma ret_perm : argsort_perm retL.
Proof. exact (ex_perm []). Qed.
Lemma ret_sorts : argsort_sorts retL.
Proof. exact (ex_sorts []). Qed.

Definition ac_opts (cf : string) : dict pyval :=
  [("conf_int", PStr cf); ("constit", PSeq [PStr "M2"]); ("nodal", PBool false); ("phase", PStr "raw"); ("trend", PBool false); ("white", PBool false); ("epoch", PStr "python")].
Definition ac_m : list C := [RtoC 1; RtoC 1; RtoC 0].
Definition ac_u := ex_u [47%nat] ac_m.
Definition ac_sm : list (R * C) := map (fun s => (fst s, RtoC (snd s))) (combine ext (map fst (cmatvec (ex_B [47%nat]) ac_m))).
Ltac set_tac := first [left; cbn; tauto | right; split; [cbn; intros K; repeat (destruct K as [K|K]; [discriminate|]); exact K|cbn; tauto]].

Lemma ac_keys cf : unique_keys (ac_opts cf).
Proof. unfold ac_opts. unique_tac. Qed.
Lemma ac_unique cf k x y : In k (keys documented) -> setting (ac_opts cf) k x -> setting (ac_opts cf) k y -> x = y.
Proof. apply setting_unique. apply ac_keys. Qed.
Lemma ac_samples : samples (l_parse retL) (PStr "python") ex_t ac_u None ac_sm.
Proof.
  assert (E : ac_sm = map (fun s => (fst s, RtoC (snd s))) (valid_scalar (map Fin ext) (map (fun z => Fin (fst z)) (cmatvec (ex_B [47%nat]) ac_m)) [])) by reflexivity.
  rewrite E. unfold ex_t, ac_u, ex_u. apply scalar_samples; [|reflexivity|reflexivity]. split; [reflexivity|now left].
Qed.
Lemma ac_call cf : cf = "none" \/ cf = "linear" -> documented_call retL ex_t ac_u None (ac_opts cf) ac_sm.
Proof.
  intros CF. constructor; [constructor|set_tac].
  - apply ac_keys.
  - intros k Hk. cbn in Hk. cbn. tauto.
  - set_tac.
  - exists 1. set_tac.
  - intros x y H _. assert (E : setting (ac_opts cf) "order_constit" PNone) by set_tac.
    rewrite (fun K => ac_unique _ _ _ _ K H E) by (cbn; tauto). split; [left; reflexivity|discriminate].
  - right. exists ["M2"]. split; [|set_tac]. intros n [<-|[]]. vm_compute. tauto.
  - exists (PStr "python"). split; [set_tac|exact ac_samples].
  - discriminate.
Qed.
Lemma ac_eval cf : evaluable 45 (ac_opts cf) ac_sm.
Proof.
  assert (U := ac_keys cf). constructor.
  - intros x H N. exfalso. apply N. assert (E : setting (ac_opts cf) "nodal" (PBool false)) by set_tac.
    rewrite (fun K => ac_unique _ _ _ _ K H E) by (cbn; tauto). apply truthy_falsy. reflexivity.
  - intros x H N. exfalso. apply N. assert (E : setting (ac_opts cf) "trend" (PBool false)) by set_tac.
    rewrite (fun K => ac_unique _ _ _ _ K H E) by (cbn; tauto). apply truthy_falsy. reflexivity.
  - intros H. exfalso. assert (E : setting (ac_opts cf) "constit" (PSeq [PStr "M2"])) by set_tac. 
    assert (K := fun K => ac_unique _ _ _ _ K H E). discriminate (K ltac:(cbn; tauto)).
Qed.
Lemma ac_same : options_but_intervals (ac_opts "linear") (ac_opts "none").
Proof.
  intros k x K1 _ _. unfold setting. cbn [ac_opts In keys map fst]. 
  split; (intros [H|H]; [left|right]); [destruct H as [H|H]; [congruence|now right]|exact H|destruct H as [H|H]; [congruence|now right]|exact H].
Qed.
Lemma ac_orderly cf : orderly retL (ac_opts cf) ex_t ac_sm.
Proof.
  exists ext. split; [exists (PStr "python"), (map Fin ext); split; [set_tac|]; split; reflexivity|]. split; [|split].
  - intros i Hi. cbn in Hi. destruct i as [|[|[|i]]]; [cbn; lra..|lia].
  - cbn. lia.
  - intros d Hd. change (map fst ac_sm) with ext in Hd. cbn in Hd. repeat (destruct Hd as [<-|Hd]; [lra|]). destruct Hd.
Qed.
Lemma ac_run4 : exists c, analysis retL ex_t ac_u None (Some 45) (ac_opts "none") ac_sm c /\ identifiable c (map fst ac_sm) /\ NoDup (c_name c) /\ params c = 3%nat.
Proof.
  destruct (accept_none retL ex_t ac_u None 45 (ac_opts "none") ac_sm ret_shape ret_returns ret_perm (ac_call _ (or_introl eq_refl)) (ac_eval _) ltac:(set_tac)) as [c Hc].
  exists c. assert (AN : analysis retL ex_t ac_u None (Some 45) (ac_opts "none") ac_sm c).
  { constructor.
    - exact ret_shape.
    - exact ret_perm.
    - apply ac_keys.
    - intros x H. assert (E : setting (ac_opts "none") "order_constit" PNone) by set_tac. rewrite (fun K => ac_unique _ _ _ _ K H E) by (cbn; tauto). left; reflexivity.
    - exists (PStr "python"). split; [set_tac|exact ac_samples].
    - discriminate.
    - exact Hc. }
  split; [exact AN|]. destruct (analysis_run _ _ _ _ _ _ _ _ AN) as (_ & si & la & s & B & x & m & W & BH & S1 & _ & _).
  assert (U := ac_keys "none").
  destruct (run_options _ _ _ _ _ _ _ U Hc) as (k0 & q0 & K1 & K2).
  destruct (used_options (ac_opts "none") _ _ U k0 _ K1 K2) as
   (_ & _ & U1 & Ue & _ & U2 & U3 & U4 & U5 & U6 & Ul & U7 & _ & U8 & Ur & U9 & U10 & Uk & Up & _ & (inf & U11 & U12) & U13 & _).
  cbn in U5, U6, U7, U8, Up, U11, U10. injection U11 as <-. injection U12 as U12.
  assert (SL := bh_slv _ _ _ _ _ _ _ _ _ _ _ _ _ _ BH). rewrite Up in SL.
  destruct (ex_slv [47%nat] ac_m false) as (si' & E1 & _ & E3 & _).
  assert (si' = si) by (unfold ac_u in SL; cbn [l_parse retL] in SL; rewrite E1 in SL; now apply Ok_inj in SL). subst si'.
  assert (SE := bh_sel _ _ _ _ _ _ _ _ _ _ _ _ _ _ BH). rewrite U5, <- U12, E3, m2_select in SE. apply Ok_inj in SE. subst s.
  assert (HS := an_sorted _ _ _ _ _ _ _ _ AN).
  assert (NM := run_names _ _ _ _ _ _ _ _ _ _ _ _ _ _ BH HS). apply Permutation_sym, Permutation_length_1_inv in NM.
  assert (LI : c_lind c = [47%nat]).
  { assert (TR := bh_tri _ _ _ _ _ _ _ _ _ _ _ _ _ _ BH HS). apply (Permutation_map (fun z => snd (fst z))) in TR.
    assert (WF := bh_wf _ _ _ _ _ _ _ _ _ _ _ _ _ _ BH). rewrite <- !(map_map fst snd) in TR. rewrite triples_fst in TR by assumption.
    rewrite combine_snd in TR by (symmetry; apply WF).
    assert (PM := bh_pm _ _ _ _ _ _ _ _ _ _ _ _ _ _ BH). revert TR PM. generalize (all_pm m m2_sel). intros pm TR PM. destruct pm as [|p [|]]; try discriminate PM.
    cbn [m2_sel ex_sel s_name s_lind combine map fst snd] in TR. now apply Permutation_sym, Permutation_length_1_inv in TR. }
  split; [|split; [rewrite NM; repeat constructor; cbn; tauto|]].
  - change (map fst ac_sm) with ext. apply c_identifiable; auto.
    rewrite (bh_tref _ _ _ _ _ _ _ _ _ _ _ _ _ _ BH). exact E3.
  - unfold params. rewrite NM, U6. reflexivity.
Qed.
Lemma ac_run : exists c, analysis retL ex_t ac_u None (Some 45) (ac_opts "none") ac_sm c /\ identifiable c (map fst ac_sm) /\ NoDup (c_name c).
Proof. destruct ac_run4 as (c & A & I & N & _). eauto. Qed.

(** ** default options but for the constituents and the intervals *)
Definition df_opts (names : list string) : dict pyval := [("conf_int", PStr "none"); ("constit", PSeq (map PStr names)); ("epoch", PStr "python")].
Lemma df_call names t u sm : (forall n, In n names -> In n const_name) -> samples (l_parse retL) (PStr "python") t u None sm -> sm <> [] ->
  documented_call retL t u None (df_opts names) sm.
Proof.
  intros HN SM NE. assert (U : unique_keys (df_opts names)) by (unfold df_opts; unique_tac). constructor; [constructor|set_tac].
  - exact U.
  - intros k Hk. cbn in Hk. cbn. tauto.
  - set_tac.
  - exists 1. set_tac.
  - intros x y H _. assert (E : setting (df_opts names) "order_constit" PNone) by set_tac.
    rewrite (fun K => setting_unique _ _ _ _ U K H E) by (cbn; tauto). split; [left; reflexivity|discriminate].
  - right. exists names. split; [exact HN|set_tac].
  - exists (PStr "python"). split; [set_tac|exact SM].
  - exact NE.
Qed.
(** two values at one time *)
Definition t_one : pyarr tarray := NdArr [2%nat] (TNum [Fin 1; Fin 1]) [].
Definition u_one : pyarr (list xr) := NdArr [2%nat] [Fin 0; Fin 5] [].
Lemma one_samples : samples (l_parse retL) (PStr "python") t_one u_one None [(1, RtoC 0); (1, RtoC 5)].
Proof.
  assert (E : [(1, RtoC 0); (1, RtoC 5)] = map (fun s => (fst s, RtoC (snd s))) (valid_scalar [Fin 1; Fin 1] [Fin 0; Fin 5] [])) by reflexivity.
  rewrite E. unfold t_one, u_one. apply scalar_samples; [|reflexivity|reflexivity]. split; [reflexivity|now left].
Qed.
Lemma K1_index : constit_index "K1" = Ok 20%nat.
Proof. vm_compute. reflexivity. Qed.
