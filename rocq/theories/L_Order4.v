(** Name sequences: all names; PE and SNR of the named rows; scaling of the energies. *)
From Coq Require Import Lia Lra Sorting Permutation.
From Verif Require Import M_Base M_Lib M_Tables M_Const M_Options M_Time M_Slvinit M_Harmonics M_Select M_Ellipse
  M_Robust M_Period M_Conf M_Diag M_Solve S_Dict S_Options L_Base L_Options L_SolveInv L_OptSolve S_Slv L_Slv L_Slv2
  L_Tables S_Order L_Order S_Select L_Select S_Fit L_Fit L_Align L_SelOrder L_Order2 L_Order3.
Open Scope R_scope.
Open Scope string_scope.

Lemma conf_diag opts : unique_keys opts -> ~ setting opts "conf_int" (PStr "none") ->
  eq_str (opt_value opts "conf_int") "none" = false.
Proof.
  intros Hu Hn. destruct (eq_str (opt_value opts "conf_int") "none") eqn:E; auto. exfalso. apply Hn.
  apply setting_iff; auto; [cbn; auto|]. unfold eq_str in E. destruct (opt_value opts "conf_int"); try discriminate.
  apply String.eqb_eq in E. now subst.
Qed.

Lemma perm_full ind n : NoDup ind -> length ind = n -> (forall i, In i ind -> (i < n)%nat) -> Permutation ind (seq 0 n).
Proof.
  intros H1 H2 H3. apply NoDup_Permutation_bis; auto.
  - rewrite seq_length. lia.
  - intros i Hi. apply in_seq. specialize (H3 i Hi). lia.
Qed.

Lemma name_full L t u v lat opts x l a b : lstsq_shape L -> argsort_perm L -> arrays_ok t u v -> unique_keys opts ->
  sorted_order x ->
  solve L t u v lat (dset opts "order_constit" x) = Ok a ->
  solve L t u v lat (dset opts "order_constit" (PSeq (map PStr l))) = Ok b ->
  c_weights a <> [] -> NoDup l -> Permutation l (c_name a) ->
  same_result a b /\ (~ setting opts "conf_int" (PStr "none") -> Permutation (drows a) (drows b)).
Proof.
  intros HL HP Ha Hu Hx H1 H2 HW Hnd Hl.
  destruct (solve_ran _ _ _ _ _ _ _ HL Ha (unique_dset _ _ _ Hu) H1 HW) as (cN & si & s & Rn).
  destruct (second_run _ _ _ _ _ _ _ _ _ _ _ _ _ Hu Rn H2) as (y' & b0 & V & Er & ->).
  assert (Ea := rn_ord _ _ _ _ _ _ _ _ _ _ Rn). assert (A := rn_al _ _ _ _ _ _ _ _ _ _ Rn).
  injection V as <-. destruct (name_order _ _ _ _ Er) as (N1 & ind & N2 & N3 & N4).
  assert (Sx := set_sorting _ _ _ _ Hx (rn_val _ _ _ _ _ _ _ _ _ _ Rn)).
  destruct (reorder_rows _ _ _ _ HP A Sx Ea) as [P1 P2].
  assert (Li : length ind = length l).
  { apply (f_equal (@length _)) in N2. unfold rows in N2. rewrite !map_length, seq_length in N2. congruence. }
  assert (Mi : map (fun i => nth_error (c_name cN) i) ind = map Some l).
  { assert (E := f_equal (map w_name) N2). rewrite map_map in E. cbn [crow_of w_name] in E. rewrite <- E.
    unfold rows. rewrite map_map. cbn [crow_of w_name]. rewrite N1. clear. rewrite <- (map_map (fun x => x) Some).
    generalize (eq_refl : skipn 0 l = l). intros _.
    assert (G : forall (k : list string) p, map (fun i => nth_error (p ++ k)%list i) (seq (length p) (length k)) = map Some k).
    { induction k as [|n k IH]; intros p; cbn; auto. f_equal.
      - rewrite nth_error_app2, Nat.sub_diag by lia. reflexivity.
      - specialize (IH (p ++ [n])%list). rewrite app_length in IH. cbn in IH. rewrite Nat.add_1_r in IH. rewrite <- IH.
        apply map_ext. intros i. now rewrite <- app_assoc. }
    rewrite map_id. exact (G l []). }
  assert (Pi : Permutation ind (seq 0 (length (c_name cN)))).
  { apply perm_full; auto.
    - apply (NoDup_map_inv (fun i => nth_error (c_name cN) i)). rewrite Mi. apply FinFun.Injective_map_NoDup; auto. intros p q E. congruence.
    - rewrite Li. rewrite (Permutation_length Hl). apply (Permutation_length P2). }
  assert (Ba := reorder_base _ _ _ _ Ea). assert (Bb := reorder_base _ _ _ _ Er).
  assert (Da := reorder_diag _ _ _ _ Ea). assert (Db := reorder_diag _ _ _ _ Er). split.
  - constructor; cbn [with_opt c_reftime c_lat c_weights c_mean c_slope c_umean c_vmean c_uslope c_vslope c_diagn];
      try (destruct Ba, Bb; congruence). rewrite rows_with_opt, N2. refine (perm_trans P1 _). unfold rows.
    apply Permutation_map. now apply Permutation_sym.
  - intros Hn. assert (E := conf_diag _ Hu Hn).
    assert (Hnod : o_nodiagn (c_opt a) = false) by (rewrite (rn_nod _ _ _ _ _ _ _ _ _ _ Rn), opt_value_dset by discriminate; exact E).
    destruct (natural_diag _ _ _ _ _ _ _ _ _ _ Rn) as [_ D]. destruct (D Hnod) as (D1 & _).
    assert (D2 : c_PE cN <> None) by congruence.
    change (drows (with_opt b0 (with_order (c_opt cN) (PSeq (map PStr l))))) with (drows b0). rewrite N3.
    refine (perm_trans (reorder_drows _ _ _ _ HP A D2 Sx Ea) _). unfold drows. apply Permutation_map. now apply Permutation_sym.
Qed.

(** the rows named in a sequence keep their PE and SNR *)
Lemma name_drows L t u v lat opts x l a b : lstsq_shape L -> argsort_perm L -> arrays_ok t u v -> unique_keys opts ->
  sorted_order x -> ~ setting opts "conf_int" (PStr "none") ->
  solve L t u v lat (dset opts "order_constit" x) = Ok a ->
  solve L t u v lat (dset opts "order_constit" (PSeq (map PStr l))) = Ok b ->
  c_weights a <> [] -> incl (drows b) (drows a).
Proof.
  intros HL HP Ha Hu Hx Hn H1 H2 HW.
  destruct (solve_ran _ _ _ _ _ _ _ HL Ha (unique_dset _ _ _ Hu) H1 HW) as (cN & si & s & Rn).
  destruct (second_run _ _ _ _ _ _ _ _ _ _ _ _ _ Hu Rn H2) as (y' & b0 & V & Er & ->).
  assert (Ea := rn_ord _ _ _ _ _ _ _ _ _ _ Rn). assert (A := rn_al _ _ _ _ _ _ _ _ _ _ Rn).
  injection V as <-. destruct (name_order _ _ _ _ Er) as (N1 & ind & N2 & N3 & N4).
  assert (Sx := set_sorting _ _ _ _ Hx (rn_val _ _ _ _ _ _ _ _ _ _ Rn)).
  assert (Hnod : o_nodiagn (c_opt a) = false)
    by (rewrite (rn_nod _ _ _ _ _ _ _ _ _ _ Rn), opt_value_dset by discriminate; exact (conf_diag _ Hu Hn)).
  destruct (natural_diag _ _ _ _ _ _ _ _ _ _ Rn) as [_ D]. destruct (D Hnod) as (D1 & _).
  assert (D2 : c_PE cN <> None) by congruence.
  change (drows (with_opt b0 (with_order (c_opt cN) (PSeq (map PStr l))))) with (drows b0). rewrite N3.
  assert (P := reorder_drows _ _ _ _ HP A D2 Sx Ea). intros r Hr. apply in_map_iff in Hr. destruct Hr as (i & <- & Hi).
  apply Permutation_sym in P. eapply Permutation_in; [exact P|]. unfold drows. apply in_map. apply in_seq. specialize (N4 i Hi). lia.
Qed.

(** *** energies *)
Lemma share_scale k e tot : k <> 0 -> share (k * e) (k * tot) = share e tot.
Proof.
  intros Hk. unfold share. destruct (Req_EM_T tot 0) as [-> |H].
  - rewrite Rmult_0_r. destruct (Req_EM_T 0 0); [reflexivity|lra].
  - destruct (Req_EM_T (k * tot) 0) as [E|E]; [exfalso; apply H; apply Rmult_integral in E; tauto|].
    f_equal. field. auto.
Qed.
Lemma shares_scaled a b k : k <> 0 -> map energy (rows b) = map (fun r => k * energy r) (rows a) ->
  map (fun r => share (energy r) (total b)) (rows b) = map (fun r => share (energy r) (total a)) (rows a).
Proof.
  intros Hk H.
  assert (T : total b = k * total a).
  { unfold total. rewrite H. clear. induction (rows a) as [|r l IH]; cbn; [ring|]. rewrite IH. ring. }
  rewrite <- (map_map energy (fun e => share e (total b))), H, map_map, T.
  apply map_ext. intros r. now apply share_scale.
Qed.
Lemma no_energy c : total c = 0 -> map (fun r => share (energy r) (total c)) (rows c) = map (fun _ => NaN) (rows c).
Proof. intros H. apply map_ext. intros r. unfold share. destruct (Req_EM_T (total c) 0); [reflexivity|contradiction]. Qed.

Lemma PE_present L t u v lat opts c : lstsq_shape L -> arrays_ok t u v -> unique_keys opts ->
  solve L t u v lat opts = Ok c -> c_weights c <> [] -> ~ setting opts "conf_int" (PStr "none") ->
  c_PE c <> None /\ c_SNR c <> None.
Proof.
  intros HL Ha Hu Hc HW Hn. destruct (solve_ran _ _ _ _ _ _ _ HL Ha Hu Hc HW) as (cN & si & s & Rn).
  assert (Hnod : o_nodiagn (c_opt c) = false) by (rewrite (rn_nod _ _ _ _ _ _ _ _ _ _ Rn); exact (conf_diag _ Hu Hn)).
  destruct (natural_diag _ _ _ _ _ _ _ _ _ _ Rn) as [_ D]. destruct (D Hnod) as (D1 & D2 & _).
  assert (Ea := rn_ord _ _ _ _ _ _ _ _ _ _ Rn). destruct (reorder_inv _ _ _ _ Ea) as (c' & ind & R1 & R2 & R3).
  assert (E : c_PE c' <> None /\ c_SNR c' <> None).
  { destruct R3 as [-> |(_ & E & _)]; [|congruence]. split; congruence. }
  unfold apply_order in R2. inv_bind R2. inv_bind R2. inv_bind R2. do 12 inv_bind R2. injection R2 as <-. cbn [c_PE c_SNR].
  destruct E as [E1 E2]. unfold take_opt in Ha1, Ha2.
  destruct (c_PE c'); [|congruence]. destruct (c_SNR c'); [|congruence]. inv_bind Ha1. inv_bind Ha2.
  injection Ha1 as <-. injection Ha2 as <-. split; discriminate.
Qed.

Lemma diagn_any_order L t u v lat opts x y a b : lstsq_shape L -> argsort_perm L -> arrays_ok t u v -> unique_keys opts ->
  sorted_order x -> (sorted_order y \/ exists l, y = PSeq (map PStr l)) ->
  solve L t u v lat (dset opts "order_constit" x) = Ok a -> solve L t u v lat (dset opts "order_constit" y) = Ok b ->
  c_weights a <> [] -> c_diagn b = c_diagn a.
Proof.
  intros HL HP Ha Hu Hx [Hy|[l ->]] H1 H2 HW.
  - symmetry. apply (sr_diagn _ _ (proj1 (orders_agree L t u v lat opts x y a b HL HP Ha Hu Hx Hy H1 H2 HW))).
  - apply (name_rows L t u v lat opts x l a b HL HP Ha Hu Hx H1 H2 HW).
Qed.

(** ** The reported percentages *)
Section Reported.
Variables (L : lib) (t : pyarr tarray) (u : pyarr (list xr)) (v : option (pyarr (list xr))) (lat : option R) (opts : dict pyval)
  (c : coef) (x : pyval) (pe : list xr).
Hypotheses (HL : lstsq_shape L) (HP : argsort_perm L) (Ha : arrays_ok t u v) (Hu : unique_keys opts)
  (Hs : setting opts "order_constit" x) (Hx : sorted_order x) (H : solve L t u v lat opts = Ok c) (HW : c_weights c <> [])
  (HE : c_PE c = Some pe).
Lemma PE_eq : pe = map (fun r => share (energy r) (total c)) (rows c).
Proof. exact (percent_energy L t u v lat opts c x pe HL HP Ha Hu Hs Hx H HW HE). Qed.
Lemma PE_sum : total c <> 0 -> xsum pe = Fin 100.
Proof. rewrite PE_eq. apply shares_sum. Qed.
Lemma energy_nonneg r : 0 <= energy r.
Proof. unfold energy. destruct (w_Lsmaj r) as [[]|]; destruct (w_Lsmin r) as [[]|]; destruct (w_A r) as [[]|]; nra. Qed.
Lemma energy_le_total l r : In r l -> energy r <= fold_right Rplus 0 (map energy l).
Proof.
  induction l as [|a l IH]; [intros []|]. assert (P : 0 <= fold_right Rplus 0 (map energy l)).
  { clear IH. induction l as [|b l IH]; cbn; [lra|]. generalize (energy_nonneg b). lra. }
  intros [-> |Hr]; cbn; [lra|]. generalize (energy_nonneg a) (IH Hr). lra.
Qed.
Lemma PE_range : total c <> 0 -> Forall (fun q => exists p, q = Fin p /\ 0 <= p <= 100) pe.
Proof.
  intros Ht. rewrite PE_eq. apply Forall_forall. intros q Hq. apply in_map_iff in Hq. destruct Hq as (r & <- & Hr).
  assert (E := energy_le_total _ _ Hr). fold (total c) in E. assert (E0 := energy_nonneg r).
  unfold share. destruct (Req_EM_T (total c) 0); [contradiction|]. eexists. split; [reflexivity|].
  assert (0 < total c) by lra. split.
  - apply Rmult_le_pos; [nra|]. left. now apply Rinv_0_lt_compat.
  - apply (Rmult_le_reg_r (total c)); auto. unfold Rdiv. rewrite Rmult_assoc, Rinv_l by auto. nra.
Qed.
Lemma PE_NaN : total c = 0 -> pe = map (fun _ => NaN) (c_name c).
Proof. intros E. rewrite PE_eq, (no_energy _ E). unfold rows. rewrite map_map. generalize (crow_of c). intros f. clear.
  generalize 0%nat. induction (c_name c) as [|a l IH]; intros k; cbn; auto. f_equal. apply IH. Qed.
End Reported.
Lemma PE_scaled L t u v lat opts c x pe L' t' u' v' lat' opts' c' x' pe' k :
  lstsq_shape L -> argsort_perm L -> arrays_ok t u v -> unique_keys opts ->
  setting opts "order_constit" x -> sorted_order x -> solve L t u v lat opts = Ok c -> c_weights c <> [] ->
  c_PE c = Some pe ->
  lstsq_shape L' -> argsort_perm L' -> arrays_ok t' u' v' -> unique_keys opts' ->
  setting opts' "order_constit" x' -> sorted_order x' -> solve L' t' u' v' lat' opts' = Ok c' -> c_weights c' <> [] ->
  c_PE c' = Some pe' ->
  k <> 0 -> map energy (rows c') = map (fun r => k * energy r) (rows c) -> pe' = pe.
Proof.
  intros HL HP Ha Hu Hs Hx H HW HE HL' HP' Ha' Hu' Hs' Hx' H' HW' HE' Hk E.
  rewrite (PE_eq L t u v lat opts c x pe), (PE_eq L' t' u' v' lat' opts' c' x' pe') by assumption. now apply (shares_scaled c c' k).
Qed.
