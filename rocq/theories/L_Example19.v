(** Runs that differ in the way the constituents are chosen and in the options outside the fit. *)
From Coq Require Import QArith Qreals Lia Lra Permutation.
From Verif Require Import M_Base M_Lib M_Tables M_Const M_Options M_Time M_Slvinit M_Harmonics M_Select M_Ellipse
  M_Robust M_Period M_Conf M_Diag M_Solve M_Recon S_Dict S_Options S_Slv S_Order S_Basis S_Tables S_Harm S_Select S_Fit S_Ellipse S_Recon S_Model S_Perm S_Choice
  L_Base L_Options L_SolveInv L_OptSolve L_Slv L_Slv2 L_Tables L_Order L_Select L_Fit L_Align L_SelOrder L_Order2 L_Order3 L_Basis L_Recon
  L_Harm L_Bands L_Example L_Model L_Model2 L_Model11 L_Example3 L_Example4 L_Example5 L_Example13 L_Example18 L_Choice.
Open Scope R_scope.
Open Scope string_scope.

(** automatic selection with a Rayleigh criterion that only M2 meets, without intervals *)
Definition auto_opts : dict pyval := (("conf_int", PStr "none") :: ("order_constit", PStr "frequency") :: ("Rayleigh_min", PNum (24 / 5)) :: base_opts)%list.
Definition auto_sel : sel := ex_sel [47%nat] ["M2"] true.
Lemma plain_auto : plain false auto_opts auto_sel None.
Proof.
  assert (Hu : unique_keys auto_opts) by unique_tac. split; [exact Hu|].
  split; [left; cbn; auto|]. split; [left; cbn; auto 20|].
  destruct (process_opts auto_opts false) as [compat|] eqn:E; [|discriminate].
  exists compat. split; [reflexivity|]. split; [injection E as <-; reflexivity|]. intros equi.
  destruct (read_opt (slv_opts false equi compat)) as [o|] eqn:E2; [|injection E as <-; discriminate].
  exists o. split; [reflexivity|].
  destruct (used_options auto_opts false equi Hu compat o E E2) as
   (_ & _ & U1 & _ & _ & U2 & U3 & U4 & U5 & U6 & _ & U7 & _ & U8 & Ur & U9 & U10 & _ & _ & _ & (inf & U11 & U12) & U13 & _).
  cbn in U2, U3, U4, U5, U6, U7, U8, Ur, U9, U10, U11, U13. injection U11 as <-. injection U12 as <-. injection Ur as <-. rewrite U5, ex_select_auto.
  repeat split; auto. congruence.
Qed.
Lemma auto_run p r : exists c, analysis (tryL [mm p r]) ex_t (m2_u p r) None (Some 45) auto_opts (m2_sm p r) c /\
  o_method (c_opt c) = PStr "ols" /\ o_infer (c_opt c) = None /\ o_twodim (c_opt c) = false /\ o_nodsatnone (c_opt c) = true /\ o_gwchnone (c_opt c) = true /\
  o_notrend (c_opt c) = true /\ c_reftime c = ex_tref /\ c_name c = ["M2"] /\ c_lind c = [47%nat].
Proof.
  destruct (four_run [mm p r] false (tide p r 0) (tide p r 1) (tide p r 2) (tide p r 4) auto_opts) with (s := auto_sel) (inf := @None infer_r)
    (B := ex_B [47%nat]) (m := mm p r) as (c & A & E1 & E2 & E3 & E4 & E5 & E6 & E7 & E8 & E9 & E10).
  - intros _ z Hz. repeat (destruct Hz as [<-|Hz]; [apply tide_real|]). destruct Hz.
  - apply plain_auto.
  - cbn. lia.
  - intros. now apply ex_basis.
  - now left.
  - intros m [<-|[]]. reflexivity.
  - exact ex_B_rows.
  - reflexivity.
  - exists c. apply Permutation_sym in E9, E10. apply Permutation_length_1_inv in E9. apply Permutation_length_1_inv in E10. repeat (split; [assumption|]). assumption.
Qed.

(** chosen automatically, without intervals, samples in one order; named, with intervals, samples in the other order *)
Lemma choice_runs p r : let L := tryL [mm p r] in exists c k,
  analysis L ex_t (m2_u p r) None (Some 45) auto_opts (m2_sm p r) c /\ analysis L t_b (u_b p r) None (Some 45) (q_opts true) (sm_b p r) k /\
  Permutation (m2_sm p r) (sm_b p r) /\ same_model c k /\ o_method (c_opt c) = PStr "ols" /\ o_method (c_opt k) = PStr "ols" /\ approximate (c_opt c) = false /\
  identifiable c (map fst (m2_sm p r)) /\ NoDup (c_name c).
Proof.
  cbv zeta. destruct (auto_run p r) as (c & A & H1 & H2 & H3 & H4 & H5 & H6 & H7 & H8 & H9).
  destruct (q_run [mm p r] 0 2 1 4 ex_tref (md p r 0) (md p r 2) (md p r 1) (md p r 4) true ptp4' eq_refl (mm p r)) as (k' & m' & _ & _ & AN' & G1 & G2 & G3 & G4 & G5 & G6 & G7 & G8 & G9 & G10 & G11 & G12 & _).
  { now left. } { intros m' [<-|[]]. reflexivity. } { unfold q_B. cbn [map]. rewrite !md_tide, !q_row_ex. reflexivity. }
  exists c, k'. split; [exact A|]. split; [exact AN'|].
  split. { unfold m2_sm, sm_b, q_sm, ext. cbn [combine map]. rewrite !md_tide. apply perm_skip, perm_swap. }
  split. { eapply agree_model; [exact A|exact AN'| |reflexivity|congruence|rewrite H8, G11; apply Permutation_refl].
    intros k Hk. cbn [In] in Hk. repeat (destruct Hk as [<-|Hk]; [eexists; split; (first [left; cbn; tauto | right; split; [cbn; intros K; repeat (destruct K as [K|K]; [discriminate|]); exact K|cbn; tauto]])|]). destruct Hk. }
  split; [exact H1|]. split; [exact G9|]. split; [now apply approximate_none|]. split.
  - change (map fst (m2_sm p r)) with ext. now apply c_identifiable.
  - rewrite H8. repeat constructor. cbn. tauto.
Qed.

(** the same samples analysed with intervals and without *)
Lemma options_runs p r : let L := tryL [mm p r] in exists c k,
  analysis L t_a (u_a p r) None (Some 45) off_opts (m2_sm p r) c /\ analysis L t_a (u_a p r) None (Some 45) (q_opts true) (sm_a p r) k /\ agree off_opts (q_opts true) fit_options.
Proof.
  cbv zeta. destruct (m2_run [mm p r] p r) as (c & [A _ _ _ _ _ _ _ _ _]); [now left|intros m [<-|[]]; reflexivity|].
  destruct (swapped_runs p r) as (k & _ & A1 & _). exists c, k. split; [exact A|]. split; [exact A1|].
  intros q Hk. cbn [fit_options In] in Hk. repeat (destruct Hk as [<-|Hk]; [eexists; split; (first [left; cbn; tauto | right; split; [cbn; intros K; repeat (destruct K as [K|K]; [discriminate|]); exact K|cbn; tauto]])|]). destruct Hk.
Qed.
