(** Robust analyses of the values -1 -1 1 1 and of M2 at four days, with exact linear algebra. *)
From Coq Require Import Lia Lra Permutation.
From Verif Require Import M_Base M_Lib M_Tables M_Const M_Options M_Time M_Slvinit M_Harmonics M_Select M_Ellipse
  M_Robust M_Period M_Conf M_Diag M_Solve M_Recon S_Dict S_Options S_Slv S_Order S_Basis S_Select S_Fit S_Ellipse S_Recon S_Model S_Errors S_Perm S_Robust S_RobustKw S_Accept S_RobustAccept
  L_Base L_Options L_SolveInv L_OptSolve L_Slv L_Slv2 L_Tables L_Order L_Select L_Fit L_Align L_SelOrder L_Order2 L_Order3 L_Recon L_Example L_Example3 L_Example4
  L_Model L_Model2 L_Model3 L_Model11 L_Model5 L_Perm L_Robust5 L_Robust6 L_Example13 L_Example17 L_Accept L_Accept2 L_Accept3 L_RobustAccept L_RobustAccept2 L_RobustAccept3 L_Example23 L_Exact.
Open Scope R_scope.
Open Scope string_scope.

Definition rb_opts (m : dict pyval) (names : list pyval) : dict pyval :=
  (m ++ [("conf_int", PStr "none"); ("constit", PSeq names); ("nodal", PBool false); ("phase", PStr "raw"); ("trend", PBool false); ("epoch", PStr "python")])%list.
Definition rob : dict pyval := [("method", PStr "robust")].
Definition rob1 : dict pyval := [("method", PStr "robust"); ("robust_kw", PDict false [("weight_function", PStr "talwar"); ("maxit", PNum 1)])].
Definition methods : list (dict pyval) := [[]; rob; rob1].
Ltac each M := destruct M as [<-|[<-|[<-|[]]]].
Lemma rb_keys m names : In m methods -> unique_keys (rb_opts m names).
Proof. intros M. each M; unfold rb_opts; cbn [app rob rob1]; unique_tac. Qed.
Lemma rb_unique m names k x y : In m methods -> In k (keys documented) -> setting (rb_opts m names) k x -> setting (rb_opts m names) k y -> x = y.
Proof. intros M. apply setting_unique. now apply rb_keys. Qed.
Ltac drop H := cbn in H; repeat (destruct H as [H|H]; [discriminate|]); exact H.
Ltac rset := first [left; cbn; tauto | right; split; [let K := fresh in intros K; drop K|cbn; tauto]].

Section Data.
Variables (names : list string) (u : pyarr (list xr)) (sm : list (R * C)).
Hypothesis KN : forall n, In n names -> In n const_name.
Hypothesis SM : samples (fun _ => None) (PStr "python") ex_t u None sm.
Hypothesis SOME : sm <> [].
Lemma rb_input m : In m methods -> documented_input exactL ex_t u None (rb_opts m (map PStr names)) sm.
Proof.
  intros M. constructor.
  - now apply rb_keys.
  - intros k Hk. each M; cbn in Hk; cbn; tauto.
  - each M; rset.
  - exists 1. each M; rset.
  - intros x y H _. assert (E : setting (rb_opts m (map PStr names)) "order_constit" PNone) by (each M; rset).
    rewrite (fun K => rb_unique _ _ _ _ _ M K H E) by (cbn; tauto). split; [left; reflexivity|discriminate].
  - right. exists names. split; [exact KN|]. each M; rset.
  - exists (PStr "python"). split; [each M; rset|exact SM].
  - exact SOME.
Qed.
Lemma rb_eval m : In m methods -> evaluable 45 (rb_opts m (map PStr names)) sm.
Proof.
  intros M. constructor.
  - intros x H N. exfalso. apply N. assert (E : setting (rb_opts m (map PStr names)) "nodal" (PBool false)) by (each M; rset).
    rewrite (fun K => rb_unique _ _ _ _ _ M K H E) by (cbn; tauto). apply truthy_falsy. reflexivity.
  - intros x H N. exfalso. apply N. assert (E : setting (rb_opts m (map PStr names)) "trend" (PBool false)) by (each M; rset).
    rewrite (fun K => rb_unique _ _ _ _ _ M K H E) by (cbn; tauto). apply truthy_falsy. reflexivity.
  - intros _. split; [each M; rset|]. intros x H. assert (E : setting (rb_opts m (map PStr names)) "nodal" (PBool false)) by (each M; rset).
    rewrite (fun K => rb_unique _ _ _ _ _ M K H E) by (cbn; tauto). apply truthy_falsy. reflexivity.
Qed.
Lemma rb_same m : In m methods -> options_but_method (rb_opts m (map PStr names)) (rb_opts [] (map PStr names)).
Proof.
  intros M k x K1 K2 _ _ _. unfold setting, entry. each M; cbn [rb_opts rob rob1 app In keys map fst]; try tauto.
  - split; (intros [H|H]; [left|right]).
    + destruct H as [H|H]; [congruence|exact H].
    + split; [|apply H]. intros Q. apply (proj1 H). now right.
    + now right.
    + split; [|apply H]. intros [Q|Q]; [congruence|]. now apply (proj1 H).
  - split; (intros [H|H]; [left|right]).
    + destruct H as [H|[H|H]]; [congruence|congruence|exact H].
    + split; [|apply H]. intros Q. apply (proj1 H). now right; right.
    + now right; right.
    + split; [|apply H]. intros [Q|[Q|Q]]; [congruence|congruence|]. now apply (proj1 H).
Qed.
Lemma rb_analysis m c : In m methods -> solve exactL ex_t u None (Some 45) (rb_opts m (map PStr names)) = Ok c ->
  analysis exactL ex_t u None (Some 45) (rb_opts m (map PStr names)) sm c.
Proof.
  intros M Hc. constructor.
  - exact exact_shape.
  - exact exact_perm.
  - now apply rb_keys.
  - intros x H. assert (E : setting (rb_opts m (map PStr names)) "order_constit" PNone) by (each M; rset). rewrite (fun K => rb_unique _ _ _ _ _ M K H E) by (cbn; tauto). left; reflexivity.
  - exists (PStr "python"). split; [each M; rset|exact SM].
  - exact SOME.
  - exact Hc.
Qed.
Lemma rb_ols : exists c, analysis exactL ex_t u None (Some 45) (rb_opts [] (map PStr names)) sm c.
Proof.
  assert (M : In [] methods) by now left. 
  destruct (accept_none exactL ex_t u None 45 (rb_opts [] (map PStr names)) sm exact_shape exact_returns exact_perm) as [c Hc].
  - constructor; [now apply rb_input|]. rset.
  - now apply rb_eval.
  - rset.
  - exists c. now apply rb_analysis.
Qed.
End Data.

(** what the analyses share *)
Lemma rb_facts names u sm m c : In m methods -> analysis exactL ex_t u None (Some 45) (rb_opts m (map PStr names)) sm c ->
  o_nodsatnone (c_opt c) = true /\ o_gwchnone (c_opt c) = true /\ o_notrend (c_opt c) = true /\ o_infer (c_opt c) = None /\ o_twodim (c_opt c) = false.
Proof.
  intros M AN. assert (U := rb_keys m (map PStr names) M). assert (Hc := an_solve _ _ _ _ _ _ _ _ AN).
  destruct (run_options _ _ _ _ _ _ _ U Hc) as (k0 & q0 & K1 & K2).
  destruct (used_options (rb_opts m (map PStr names)) _ _ U k0 _ K1 K2) as
   (_ & _ & U1 & Ue & _ & U2 & U3 & U4 & U5 & U6 & Ul & U7 & _ & U8 & Ur & U9 & U10 & Uk & Up & _ & (inf & U11 & U12) & U13 & _).
  each M; cbn in U1, U5, U6, U7, U8, U11; injection U11 as <-; injection U12 as U12; repeat split; auto.
Qed.

Lemma smp_samples : samples (fun _ => None) (PStr "python") ex_t up None smp.
Proof. exact (four_samples false (RtoC (-1)) (RtoC (-1)) (RtoC 1) (RtoC 1) ltac:(intros _ z Hz; repeat (destruct Hz as [<-|Hz]; [reflexivity|]); destruct Hz)). Qed.
Lemma smp_some : smp <> []. Proof. discriminate. Qed.
Lemma rb_sel names m c : In m methods -> analysis exactL ex_t up None (Some 45) (rb_opts m (map PStr names)) smp c ->
  exists mr s mm, ut_cnstitsel ex_tref mr (PSeq (map PStr names)) None = Ok s /\ c_reftime c = ex_tref /\ Permutation (c_name c) (s_name s) /\
    length (all_pm mm s) = length (s_lind s) /\
    Permutation (triples c) (combine (combine (s_name s) (s_lind s)) (map (visible (o_twodim (c_opt c))) (all_pm mm s))).
Proof.
  intros M AN. destruct (analysis_run _ _ _ _ _ _ _ _ AN) as (_ & si & la & s & B & x & mm & W & BH & S1 & _ & _).
  assert (U := rb_keys m (map PStr names) M). assert (Hc := an_solve _ _ _ _ _ _ _ _ AN).
  destruct (run_options _ _ _ _ _ _ _ U Hc) as (k0 & q0 & K1 & K2).
  destruct (used_options (rb_opts m (map PStr names)) _ _ U k0 _ K1 K2) as
   (_ & _ & U1 & Ue & _ & U2 & U3 & U4 & U5 & U6 & Ul & U7 & _ & U8 & Ur & U9 & U10 & Uk & Up & _ & (inf & U11 & U12) & U13 & _).
  assert (E5 : o_cnstit (c_opt c) = PSeq (map PStr names)) by (each M; exact U5). assert (EP : o_epoch (c_opt c) = PStr "python") by (each M; exact Up).
  assert (EI : o_infer (c_opt c) = None) by apply (rb_facts _ _ _ _ _ M AN).
  assert (SL := bh_slv _ _ _ _ _ _ _ _ _ _ _ _ _ _ BH). rewrite EP in SL.
  destruct (four_slv false (RtoC (-1)) (RtoC (-1)) (RtoC 1) (RtoC 1)) as (si' & E1 & _ & E3 & _).
  { intros _ z Hz. repeat (destruct Hz as [<-|Hz]; [reflexivity|]). destruct Hz. }
  assert (si' = si). { unfold up in SL. cbn [l_parse exactL] in SL. cbn [four_v] in E1. rewrite E1 in SL. now apply Ok_inj in SL. } subst si'.
  assert (SE := bh_sel _ _ _ _ _ _ _ _ _ _ _ _ _ _ BH). rewrite E5, EI, E3 in SE.
  assert (HS := an_sorted _ _ _ _ _ _ _ _ AN).
  eexists _, s, mm. split; [exact SE|]. split; [rewrite (bh_tref _ _ _ _ _ _ _ _ _ _ _ _ _ _ BH); exact E3|].
  split; [exact (run_names _ _ _ _ _ _ _ _ _ _ _ _ _ _ BH HS)|]. split; [exact (bh_pm _ _ _ _ _ _ _ _ _ _ _ _ _ _ BH)|exact (bh_tri _ _ _ _ _ _ _ _ _ _ _ _ _ _ BH HS)].
Qed.
Lemma rb_m2 m c : In m methods -> analysis exactL ex_t up None (Some 45) (rb_opts m (map PStr ["M2"])) smp c -> c_name c = ["M2"] /\ identifiable c (map fst smp).
Proof.
  intros M AN. destruct (rb_facts _ _ _ _ _ M AN) as (F1 & F2 & F3 & F4 & F5). destruct (rb_sel _ _ _ M AN) as (mr & s & mm & SE & Rt & NM & PM & TR).
  cbn [map] in SE. rewrite m2_select in SE. apply Ok_inj in SE. subst s. apply Permutation_sym, Permutation_length_1_inv in NM.
  assert (WF : well_formed c). { destruct (analysis_run _ _ _ _ _ _ _ _ AN) as (_ & si & la & s & B & x & m0 & W & BH & _). exact (bh_wf _ _ _ _ _ _ _ _ _ _ _ _ _ _ BH). }
  assert (LI : c_lind c = [47%nat]).
  { apply (Permutation_map (fun z => snd (fst z))) in TR. rewrite <- !(map_map fst snd) in TR. rewrite triples_fst in TR by assumption.
    rewrite combine_snd in TR by (symmetry; apply WF).
    revert TR PM. generalize (all_pm mm m2_sel). intros pm TR PM. destruct pm as [|p [|]]; try discriminate PM.
    cbn [m2_sel ex_sel s_name s_lind combine map fst snd] in TR. now apply Permutation_sym, Permutation_length_1_inv in TR. }
  split; [exact NM|]. change (map fst smp) with ext. apply c_identifiable; auto.
Qed.
Lemma rb_mean m c : In m methods -> analysis exactL ex_t up None (Some 45) (rb_opts m []) smp c -> c_name c = [].
Proof.
  intros M AN. destruct (rb_sel [] _ _ M AN) as (mr & s & mm & SE & _ & NM & _). cbn [map] in SE. rewrite none_select in SE. apply Ok_inj in SE. subst s.
  apply Permutation_sym, Permutation_nil in NM. exact NM.
Qed.
(** with the mean alone every value is the mean *)
Lemma mean_value c x : well_formed c -> c_name c = [] -> o_notrend (c_opt c) = true -> recon_u c x = Fin (fst (mnC c)).
Proof.
  intros W N NT. assert (LI : c_lind c = []) by (apply length_zero_iff_nil; destruct (wf_aligned _ W) as (_ & A & _); rewrite N in A; cbn in *; lia).
  destruct (recon_vals c x [] W) as (R1 & _); [rewrite LI; reflexivity|]. cbv zeta in R1. rewrite R1. f_equal. unfold bgC, hsum. rewrite NT. unfold csum. cbn. ring.
Qed.
Lemma mean_silent c : well_formed c -> c_name c = [] -> o_notrend (c_opt c) = true -> o_twodim (c_opt c) = false -> fst (mnC c) = 0 -> silent c.
Proof.
  intros W N NT T Z. split; [|split].
  - unfold rows. rewrite N. intros r [].
  - unfold mean_is. rewrite T. destruct (wf_1d _ W T) as (_ & _ & (m & Hm) & _). unfold mnC in Z. rewrite T, Hm in Z. cbn in Z. now rewrite Hm, Z.
  - congruence.
Qed.
Lemma rb_spare m c : In m methods -> analysis exactL ex_t up None (Some 45) (rb_opts m []) smp c -> spare c smp.
Proof.
  intros M AN a s b E c1 Rv H. destruct (rb_facts [] _ _ _ _ M AN) as (F1 & F2 & F3 & F4 & F5). assert (NM := rb_mean _ _ M AN).
  assert (NE : exists x, In x (map fst (a ++ b)%list)).
  { destruct (a ++ b)%list as [|p l] eqn:Q; [|exists (fst p); now left]. exfalso. apply (f_equal (@length _)) in E, Q. rewrite app_length in E, Q. cbn in E, Q. lia. }
  destruct NE as (x & Hx). destruct (H x Hx) as [V _].
  assert (W := rv_wf _ _ Rv). assert (EO := rv_opt _ _ Rv). rewrite <- EO in F3, F5. assert (N1 : c_name c1 = []) by (rewrite (rv_name _ _ Rv); exact NM).
  apply mean_silent; auto. rewrite mean_value in V by assumption. congruence.
Qed.
Lemma rb_scattered m c : In m methods -> analysis exactL ex_t up None (Some 45) (rb_opts m []) smp c -> scattered c smp.
Proof.
  intros M AN c1 met rest Rv P Y. destruct (rb_facts [] _ _ _ _ M AN) as (F1 & F2 & F3 & F4 & F5). assert (NM := rb_mean _ _ M AN).
  assert (W := rv_wf _ _ Rv). assert (EO := rv_opt _ _ Rv). rewrite <- EO in F3, F5. assert (N1 : c_name c1 = []) by (rewrite (rv_name _ _ Rv); exact NM).
  set (d := fst (mnC c1)). set (f := fun s : R * C => if Req_EM_T (fst (snd s)) d then false else true).
  assert (Z : filter f met = []).
  { clear P. induction Y as [|s l Hs _ IH]; [reflexivity|]. cbn [filter]. unfold f at 1. destruct Hs as [Hs _]. rewrite mean_value in Hs by assumption. injection Hs as Hs.
    destruct (Req_EM_T _ _) as [_|K]; [exact IH|]. exfalso. apply K. symmetry. exact Hs. }
  assert (LP := Permutation_length P). rewrite app_length in LP. change (length smp) with 4%nat in LP.
  assert (LF : (2 <= length (filter f rest))%nat).
  { assert (Q : length (filter f smp) = length (filter f rest)).
    { transitivity (length (filter f (met ++ rest))); [|rewrite filter_app, Z; reflexivity]. clear - P. induction P; cbn [filter]; auto; repeat (destruct (f _)); cbn [length]; congruence. }
    rewrite <- Q. unfold smp, four_sm, ext, zs. cbn [combine filter]. unfold f. cbn [fst snd RtoC].
    destruct (Req_EM_T (-1) d), (Req_EM_T 1 d); cbn [length]; try lia. exfalso. lra. }
  assert (LE : (length (filter f rest) <= length rest)%nat) by (clear; induction rest as [|s l IH]; cbn [filter]; [lia|]; destruct (f s); cbn [length]; lia). lia.
Qed.

(** the settings *)
Lemma default_settings : robust_settings [("weight_function", PStr "cauchy")] "cauchy" None (PNum 1) 0.001 50.
Proof.
  constructor.
  - intros k [<-|[]]; cbn; auto.
  - left. cbn. auto.
  - right. split; [cbn; intuition discriminate|cbn; tauto].
  - right. split; [cbn; intuition discriminate|cbn; tauto].
  - exists (PNum 0.001). split; [right; split; [cbn; intuition discriminate|cbn; tauto]|constructor].
  - exists (PNum 50). split; [right; split; [cbn; intuition discriminate|cbn; tauto]|]. replace (INR 50) with 50 by (rewrite INR_IZR_INZ; reflexivity). constructor.
Qed.
Lemma single_settings : robust_settings [("weight_function", PStr "talwar"); ("maxit", PNum 1)] "talwar" None (PNum 1) 0.001 1.
Proof.
  constructor.
  - intros k [<-|[<-|[]]]; cbn; auto 10.
  - left. cbn. auto.
  - right. split; [cbn; intuition discriminate|cbn; tauto].
  - right. split; [cbn; intuition discriminate|cbn; tauto].
  - exists (PNum 0.001). split; [right; split; [cbn; intuition discriminate|cbn; tauto]|constructor].
  - exists (PNum 1). split; [left; cbn; auto|]. replace (INR 1) with 1 by reflexivity. constructor.
Qed.
Lemma rob_in : In rob methods. Proof. cbn. auto. Qed.
Lemma rob1_in : In rob1 methods. Proof. cbn. auto. Qed.
Lemma no_names n : In n (@nil string) -> In n const_name. Proof. intros []. Qed.
Lemma m2_names n : In n ["M2"] -> In n const_name. Proof. intros [<-|[]]. vm_compute. tauto. Qed.
