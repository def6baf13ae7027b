(** Which constituents a reconstruction is made of. *)
From Coq Require Import Lia Lra Permutation.
From Verif Require Import M_Base M_Lib M_Time M_Options M_Slvinit M_Select M_Diag M_Solve M_Recon S_Dict S_Options S_Slv S_Order S_Fit S_Recon L_Base L_Options L_Align L_Order2 L_Order3 L_Order4 L_SolveInv L_Recon L_Recon2 L_Recon3 L_Recon4 L_Recon5
  L_OptSolve L_Order L_SelOrder L_Example L_Example2.
Open Scope R_scope.
Open Scope string_scope.

Lemma made_chosen L t nd c e k mS mP o tn : well_formed c -> normalize_time (l_parse L) t e = Ok tn ->
  reconstruct L t nd c e k mS mP = Ok o -> made_of c (filter (chosen c k mS mP) (rows c)) tn (ro_series o).
Proof.
  intros W E H. rewrite reconstruct_eq in H by auto. destruct (Nat.ltb 1 nd); [discriminate|]. rewrite E in H. cbn [bind] in H.
  injection H as <-. reflexivity.
Qed.

Lemma made_named L t nd c e l mS mP o tn : well_formed c -> normalize_time (l_parse L) t e = Ok tn ->
  reconstruct L t nd c e (CSeq l) mS mP = Ok o -> exists keep,
  (forall r, In r (rows c) -> (keep r = true <-> exists n, w_name r = Some n /\ In n l)) /\
  made_of c (filter keep (rows c)) tn (ro_series o).
Proof. intros W E H. exists (chosen c (CSeq l) mS mP). split; [|eapply made_chosen; eauto]. intros. now apply chosen_seq. Qed.

Lemma made_thresholds L t nd c e mS mP o tn : well_formed c -> normalize_time (l_parse L) t e = Ok tn ->
  reconstruct L t nd c e CNone mS mP = Ok o -> exists keep,
  (forall r, In r (rows c) -> (keep r = true <->
     o_nodiagn (c_opt c) = true \/ (mS = 0 /\ mP = 0) \/
     (xge (snr r) (Fin mS) = true /\ xge (share (energy r) (total c)) (Fin mP) = true))) /\
  made_of c (filter keep (rows c)) tn (ro_series o).
Proof. intros W E H. exists (chosen c CNone mS mP). split; [|eapply made_chosen; eauto]. intros. now apply chosen_rule. Qed.

Lemma made_mono L t nd c e s p s' p' o o' tn : well_formed c -> normalize_time (l_parse L) t e = Ok tn ->
  0 <= s <= s' -> 0 <= p <= p' ->
  reconstruct L t nd c e CNone s p = Ok o -> reconstruct L t nd c e CNone s' p' = Ok o' ->
  exists keep keep', made_of c (filter keep (rows c)) tn (ro_series o) /\ made_of c (filter keep' (rows c)) tn (ro_series o') /\
  forall r, keep' r = true -> keep r = true.
Proof.
  intros W E Hs Hp H H'. exists (chosen c CNone s p), (chosen c CNone s' p').
  split; [eapply made_chosen; eauto|]. split; [eapply made_chosen; eauto|]. intros r. now apply chosen_mono.
Qed.

Lemma filter_pairs {A B} (h : A -> B) (p : B -> bool) l : map fst (filter (fun q => p (snd q)) (map (fun a => (a, h a)) l)) = filter (fun a => p (h a)) l.
Proof. induction l as [|a l IH]; cbn; auto. destruct (p (h a)); cbn; now rewrite IH. Qed.
Lemma nth_combine3 {A B D} (l : list A) (f : A -> B) (g : A -> D) :
  combine l (combine (map f l) (map g l)) = map (fun a => (a, (f a, g a))) l.
Proof. induction l; cbn; auto. now rewrite IHl. Qed.

(** rows with the values reported for them *)
Lemma made_reported L t u v lat opts x y a b : lstsq_shape L -> argsort_perm L -> arrays_ok t u v -> unique_keys opts ->
  sorted_order x -> (sorted_order y \/ exists l, y = PSeq (map PStr l) /\ NoDup l /\ Permutation l (c_name a)) ->
  ~ setting opts "conf_int" (PStr "none") ->
  solve L t u v lat (dset opts "order_constit" x) = Ok a -> solve L t u v lat (dset opts "order_constit" y) = Ok b ->
  c_weights a <> [] -> exists PE SNR, c_PE b = Some PE /\ c_SNR b = Some SNR /\
  length PE = length (rows b) /\ length SNR = length (rows b) /\
  forall ts nd e mS mP o tn, ~ (mS = 0 /\ mP = 0) -> normalize_time (l_parse L) ts e = Ok tn ->
  reconstruct L ts nd b e CNone mS mP = Ok o ->
  made_of b (map fst (filter (fun q => xge (snd (snd q)) (Fin mS) && xge (fst (snd q)) (Fin mP)) (combine (rows b) (combine PE SNR)))) tn (ro_series o).
Proof.
  intros HL HP Ha Hu Hx Hy Hn H1 H2 HW.
  assert (Hu' : forall z, unique_keys (dset opts "order_constit" z)) by (intros; now apply unique_dset).
  destruct (second_opt _ _ _ _ _ _ _ _ _ _ HL Ha Hu H1 H2 HW) as [_ EW].
  assert (HWb : c_weights b <> []) by now rewrite EW.
  assert (Wf := solve_well_formed L t u v lat _ b HL Ha (Hu' y) H2 HWb).
  destruct (reported L t u v lat opts x y a b HL HP Ha Hu Hx Hy Hn H1 H2 HW) as [E1 E2].
  eexists. eexists. split; [exact E1|]. split; [exact E2|]. rewrite !map_length. split; auto. split; auto.
  intros ts nd e mS mP o tn Hz En Hr.
  rewrite nth_combine3.
  assert (Nd : o_nodiagn (c_opt b) = false).
  { destruct (o_nodiagn (c_opt b)) eqn:En'; auto. exfalso. apply Hn.
    assert (Sv := setting_value opts "conf_int" Hu). destruct (set_conf L t u v lat (dset opts "order_constit" y) (Hu' y) b H2 _ (setting_value _ "conf_int" (Hu' y) ltac:(cbn; tauto))) as (_ & _ & K & _).
    apply K in En'. rewrite opt_value_dset in En' by discriminate. rewrite En' in Sv. apply Sv. cbn; tauto. }
  assert (M := made_chosen _ _ _ _ _ _ _ _ _ _ Wf En Hr).
  replace (map fst _) with (filter (chosen b CNone mS mP) (rows b)); [exact M|].
  set (pp := fun r => xge (snr r) (Fin mS) && xge (share (energy r) (total b)) (Fin mP)).
  transitivity (filter pp (rows b)).
  - apply filter_ext_in. intros r Hin. apply Bool.eq_true_iff_eq. rewrite (chosen_rule b mS mP r Hin). unfold pp. rewrite Nd, andb_true_iff.
    split; [intros [Q|[Q|Q]]; [discriminate|contradiction|exact Q] | tauto].
  - unfold pp. symmetry. apply (filter_pairs (fun r => (share (energy r) (total b), snr r)) (fun q => xge (snd q) (Fin mS) && xge (fst q) (Fin mP))).
Qed.

Lemma made_subset : exists b r,
  ex_call [47%nat; 56%nat] m_scalar false (dset ex_opts "order_constit" (PSeq [PStr "M2"])) = Ok b /\
  c_weights b <> [] /\ rows b = [r] /\ w_name r = Some "M2" /\ c_PE b = Some [Fin 20] /\ well_formed b /\
  forall L t nd e mS o tn, mS <> 0 -> normalize_time (l_parse L) t e = Ok tn -> reconstruct L t nd b e CNone mS 50 = Ok o ->
    made_of b (if xge (snr r) (Fin mS) then [r] else []) tn (ro_series o).
Proof.
  destruct subset_reported as (b & r & E & HW & Er & En & Ep & Hc). exists b, r. repeat (split; [assumption|]).
  assert (Wf : well_formed b).
  { eapply (solve_well_formed (exL m_scalar) ex_t _ _ (Some 45)); [apply ex_shape|exact (ex_arrays [47%nat; 56%nat] m_scalar false)|apply unique_dset; exact (proj1 (ex_variant_linear false))|exact E|exact HW]. }
  split; auto. intros L t nd e mS o tn Hm Et Ho. assert (M := made_chosen _ _ _ _ _ _ _ _ _ _ Wf Et Ho).
  rewrite Er in M. cbn [filter] in M. rewrite (Hc mS Hm) in M. destruct (xge (snr r) (Fin mS)); exact M.
Qed.

(** without confidence intervals every constituent takes part, whatever the thresholds *)
Lemma made_none L t u v lat opts c : lstsq_shape L -> arrays_ok t u v -> unique_keys opts ->
  solve L t u v lat opts = Ok c -> c_weights c <> [] -> setting opts "conf_int" (PStr "none") ->
  forall ts nd e mS mP o tn, normalize_time (l_parse L) ts e = Ok tn -> reconstruct L ts nd c e CNone mS mP = Ok o ->
  made_of c (rows c) tn (ro_series o).
Proof.
  intros HL Ha Hu H HW Hs ts nd e mS mP o tn Et Ho.
  assert (Wf := solve_well_formed L t u v lat _ c HL Ha Hu H HW).
  destruct (set_conf _ _ _ _ _ _ Hu _ H _ Hs) as (_ & _ & K & _). assert (Nd : o_nodiagn (c_opt c) = true) by now apply K.
  destruct (made_thresholds _ _ _ _ _ _ _ _ _ Wf Et Ho) as (keep & Hk & M).
  replace (rows c) with (filter keep (rows c)); auto. clear M. assert (A : forall r, In r (rows c) -> keep r = true) by (intros r Hr; apply Hk; auto).
  clear Hk. revert A. generalize (rows c). intros l. induction l as [|r l IH]; cbn; auto. intros A. rewrite A by auto. f_equal. apply IH. auto.
Qed.

Lemma equator_nan : exists c, well_formed c /\ known_lind c /\ c_lat c = 0 /\ c_name c = ["K1"] /\
  forall L t nd e tn o, normalize_time (l_parse L) t e = Ok tn -> reconstruct L t nd c e CNone 0 0 = Ok o ->
  out_u (ro_series o) = map (fun _ => NaN) tn.
Proof.
  exists (eq_coef 0). split; [apply eq_wf|]. split; [apply eq_known|]. split; [reflexivity|]. split; [reflexivity|].
  intros L t nd e tn o E H. rewrite reconstruct_eq in H by apply eq_wf. destruct (Nat.ltb 1 nd); [discriminate|]. rewrite E in H.
  cbn [bind] in H. injection H as <-. cbn [ro_series]. rewrite out_u_outcome. unfold placed. rewrite map_map. apply map_ext.
  intros x. destruct (finite x); auto. now apply eq_nan.
Qed.
Lemma background_run L t nd c e s p o tn : well_formed c -> normalize_time (l_parse L) t e = Ok tn ->
  reconstruct L t nd c e (CSeq []) s p = Ok o ->
  out_u (ro_series o) = placed (fun x => plus (Some 0) (if o_twodim (c_opt c) then background c (c_umean c) (c_uslope c) x else background c (c_mean c) (c_slope c) x)) (map finite tn) /\
  out_v (ro_series o) = if o_twodim (c_opt c) then Some (placed (fun x => plus (Some 0) (background c (c_vmean c) (c_vslope c) x)) (map finite tn)) else None.
Proof.
  intros W E H. rewrite reconstruct_eq in H by auto. destruct (Nat.ltb 1 nd); [discriminate|]. rewrite E in H.
  cbn [bind] in H. injection H as <-. cbn [ro_series]. unfold outcome.
  assert (U : forall l, placed (value_u c (CSeq []) s p) l = placed (fun x => plus (Some 0) (if o_twodim (c_opt c) then background c (c_umean c) (c_uslope c) x else background c (c_mean c) (c_slope c) x)) l).
  { intros l. unfold placed. apply map_ext. intros [x|]; auto. apply empty_selection. }
  assert (V : forall l, placed (value_v c (CSeq []) s p) l = placed (fun x => plus (Some 0) (background c (c_vmean c) (c_vslope c) x)) l).
  { intros l. unfold placed. apply map_ext. intros [x|]; auto. apply empty_selection_v. }
  rewrite !U, !V. destruct (o_twodim (c_opt c)); cbn [out_u out_v]; auto.
Qed.
