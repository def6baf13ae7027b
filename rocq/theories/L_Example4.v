(** Concrete runs with M2 alone and with S2 inferred from M2. *)
From Coq Require Import QArith Qreals Lia Lra Permutation.
From Verif Require Import M_Base M_Lib M_Tables M_Const M_Options M_Time M_Slvinit M_Harmonics M_Select M_Ellipse
  M_Robust M_Period M_Conf M_Diag M_Solve M_Recon S_Dict S_Options S_Slv S_Order S_Basis S_Tables S_Harm S_Select S_Fit S_Ellipse S_Recon S_Model
  L_Base L_Options L_SolveInv L_OptSolve L_Slv L_Slv2 L_Tables L_Order L_Select L_Fit L_Align L_SelOrder L_Order2 L_Order3 L_Basis L_Recon
  L_Harm L_Bands L_Example L_Model L_Model2 L_Model11 L_Example3.
Open Scope R_scope.
Open Scope string_scope.

(** ** options *)
Definition off_opts : dict pyval := (("conf_int", PStr "none") :: ("order_constit", PStr "frequency") :: ("constit", PSeq [PStr "M2"]) :: base_opts)%list.
Definition m2_infer (ap : bool) : pyval := PDict true
  [("inferred_names", PSeq [PStr "S2"]); ("reference_names", PSeq [PStr "M2"]); ("amp_ratios", PSeq [PNum (/ 2)]);
   ("phase_offsets", PSeq [PNum 0]); ("approximate", PBool ap)].
Definition inf_opts (ap : bool) : dict pyval := (("infer", m2_infer ap) :: off_opts)%list.
Definition m2_inf (ap : bool) : infer_r :=
  {| inf_inferred := ["S2"]; inf_reference := ["M2"]; inf_amp := [/ 2]; inf_off := [0]; inf_approx := ap |}.
Definition m2_sel : sel := ex_sel [47%nat] ["M2"] false.
Definition half : C := Cmult (RtoC (/ 2)) (cis (0 * PI / 180)).
Definition inf_ref : refstruct :=
  {| r_name := "M2"; r_lind := 47; r_frq := ex_f 47; r_Rp := [half]; r_Rm := [Cconj half]; r_Iname := ["S2"]; r_Ilind := [56%nat]; r_Ifrq := [ex_f 56] |}.
Definition inf_sel : sel :=
  {| s_NRname := []; s_NRlind := []; s_NRarr := false; s_NRfrq := []; s_R := [inf_ref]; s_name := ["M2"; "S2"]; s_frq := [ex_f 47; ex_f 56];
     s_lind := [47%nat; 56%nat]; s_nNR := 0; s_nR := 1; s_nI := 1 |}.

Lemma freq_at k : (k < 146)%nat -> seq_get (linearized_freqs ex_tref) k = Ok (ex_f k).
Proof.
  intros Hk. unfold seq_get, ex_f. assert (L := lin_len ex_tref). revert L. generalize (linearized_freqs ex_tref). intros l L.
  rewrite (nth_error_nth' l 0 (n := k)) by lia. reflexivity.
Qed.
Lemma m2_select m : ut_cnstitsel ex_tref m (PSeq [PStr "M2"]) None = Ok m2_sel.
Proof.
  unfold ut_cnstitsel, initial_lind. cbn [eq_str as_names mapM bind]. rewrite M2_index. cbn [bind].
  assert (F : take_idx (linearized_freqs ex_tref) [47%nat] = Ok [ex_f 47]).
  { apply take_idx_intro. cbn [map]. assert (L := lin_len ex_tref). unfold ex_f. revert L. generalize (linearized_freqs ex_tref). intros l L.
    rewrite (nth_error_nth' l 0 (n := 47)) by lia. reflexivity. }
  rewrite F. cbn [bind].
  assert (N : take_idx const_name [47%nat] = Ok ["M2"]) by (vm_compute; reflexivity). rewrite N. cbn [bind]. reflexivity.
Qed.
Lemma inf_select m ap : ut_cnstitsel ex_tref m (PSeq [PStr "M2"]) (Some (m2_inf ap)) = Ok inf_sel.
Proof.
  assert (F47 := freq_at 47 ltac:(lia)). assert (F56 := freq_at 56 ltac:(lia)).
  unfold ut_cnstitsel, initial_lind. cbv zeta. revert F47 F56. generalize (linearized_freqs ex_tref) as fr. intros fr F47 F56.
  cbn [eq_str as_names mapM bind]. rewrite M2_index. cbn [bind m2_inf inf_inferred inf_reference app mapM]. rewrite S2_index, M2_index.
  cbn [bind filter existsb Nat.eqb orb negb take_idx mapM length]. unfold take_idx. cbn [mapM bind].
  change (first_occ ["M2"]) with ["M2"]. cbn [mapM]. unfold one_ref. rewrite M2_index. cbn [bind]. rewrite F47. cbn [bind inf_reference m2_inf].
  change (map fst (filter (fun p : nat * string => String.eqb "M2" (snd p)) (enumerate ["M2"]))) with [0%nat]. cbn [mapM].
  unfold one_inferred. cbn [inf_amp inf_off inf_inferred m2_inf length Nat.ltb Nat.leb]. 
  change (seq_get [/ 2] 0) with (Ok (/ 2)). change (seq_get [0] 0) with (Ok 0). change (seq_get ["S2"] 0) with (Ok "S2"). cbn [bind].
  rewrite S2_index. cbn [bind]. rewrite F56. cbn [bind]. reflexivity.
Qed.

Lemma plain_m2 tw : plain tw off_opts m2_sel None.
Proof.
  assert (Hu : unique_keys off_opts) by unique_tac. split; [exact Hu|].
  split; [left; cbn; auto|]. split; [left; cbn; auto 20|].
  destruct (process_opts off_opts tw) as [compat|] eqn:E; [|destruct tw; discriminate].
  exists compat. split; [reflexivity|]. split; [destruct tw; injection E as <-; reflexivity|]. intros equi.
  destruct (read_opt (slv_opts tw equi compat)) as [o|] eqn:E2; [|destruct tw; injection E as <-; discriminate].
  exists o. split; [reflexivity|].
  destruct (used_options off_opts tw equi Hu compat o E E2) as
   (_ & _ & U1 & _ & _ & U2 & U3 & U4 & U5 & U6 & _ & U7 & _ & U8 & Ur & U9 & U10 & _ & _ & _ & (inf & U11 & U12) & U13 & _).
  cbn in U2, U3, U4, U5, U6, U7, U8, Ur, U9, U10, U11, U13. injection U11 as <-. injection U12 as <-. rewrite U5, m2_select. 
  repeat split; auto. congruence.
Qed.
Lemma plain_inf ap : plain false (inf_opts ap) inf_sel (Some (m2_inf ap)).
Proof.
  assert (Hu : unique_keys (inf_opts ap)) by unique_tac. split; [exact Hu|].
  split; [left; cbn; auto|]. split; [left; cbn; auto 20|].
  destruct (process_opts (inf_opts ap) false) as [compat|] eqn:E; [|discriminate].
  exists compat. split; [reflexivity|]. split; [injection E as <-; reflexivity|]. intros equi.
  destruct (read_opt (slv_opts false equi compat)) as [o|] eqn:E2; [|injection E as <-; discriminate].
  exists o. split; [reflexivity|].
  destruct (used_options (inf_opts ap) false equi Hu compat o E E2) as
   (_ & _ & U1 & _ & _ & U2 & U3 & U4 & U5 & U6 & _ & U7 & _ & U8 & Ur & U9 & U10 & _ & _ & _ & (inf & U11 & U12) & U13 & _).
  cbn in U2, U3, U4, U5, U6, U7, U8, Ur, U9, U10, U11, U13. injection U11 as <-. cbn in U12. injection U12 as <-. rewrite U5, inf_select.
  repeat split; auto. congruence.
Qed.

(** ** M2 alone: the tide 2 Re (e(x) p) + r *)
Definition mm (p : C) (r : R) : list C := [p; Cconj p; RtoC r].
Definition tide (p : C) (r : R) (x : R) : C := cdot (ex_row [47%nat] x) (mm p r).
Definition m2_u (p : C) (r : R) : pyarr (list xr) := four_u (tide p r 0) (tide p r 1) (tide p r 2) (tide p r 4).
Definition m2_sm (p : C) (r : R) : list (R * C) := map (fun x => (x, tide p r x)) ext.
Lemma tide_real p r x : snd (tide p r x) = 0.
Proof. unfold tide, ex_row, mm. cbn [map app]. generalize (ex_e x 47). intros [a b]. destruct p. unfold cdot, csum. cbn. ring. Qed.
Lemma sm_four p r : m2_sm p r = four_sm (tide p r 0) (tide p r 1) (tide p r 2) (tide p r 4).
Proof. reflexivity. Qed.
Lemma inf_nil_basis o : o_nodsatnone o = true -> o_gwchnone o = true -> o_notrend o = true -> o_infer o = None ->
  basis ext ex_tref 4 45 o m2_sel = Ok (map (map Some) (ex_B [47%nat])).
Proof. intros. now apply ex_basis. Qed.
Lemma ex_B_rows row : In row (ex_B [47%nat]) -> length row = 3%nat.
Proof. unfold ex_B. intros H. apply in_map_iff in H. destruct H as (x & <- & _). reflexivity. Qed.

Record m2_fit (L : lib) (p : C) (r : R) (c : coef) : Prop := {
  mf_an : analysis L ex_t (m2_u p r) None (Some 45) off_opts (m2_sm p r) c;
  mf_tw : o_twodim (c_opt c) = false; mf_nn : o_nodsatnone (c_opt c) = true; mf_gn : o_gwchnone (c_opt c) = true;
  mf_nt : o_notrend (c_opt c) = true; mf_in : o_infer (c_opt c) = None; mf_me : o_method (c_opt c) = PStr "ols";
  mf_tref : c_reftime c = ex_tref; mf_name : c_name c = ["M2"]; mf_lind : c_lind c = [47%nat] }.
Lemma m2_run ms p r : In (mm p r) ms -> (forall m, In m ms -> length m = 3%nat) -> exists c, m2_fit (tryL ms) p r c.
Proof.
  intros Hm Hl.
  destruct (four_run ms false (tide p r 0) (tide p r 1) (tide p r 2) (tide p r 4) off_opts) with (s := m2_sel) (inf := @None infer_r)
    (B := ex_B [47%nat]) (m := mm p r) as (c & A & E1 & E2 & E3 & E4 & E5 & E6 & E7 & E8 & E9 & E10).
  - intros _ z Hz. repeat (destruct Hz as [<-|Hz]; [apply tide_real|]). destruct Hz.
  - apply plain_m2.
  - cbn. lia.
  - apply inf_nil_basis.
  - exact Hm.
  - exact Hl.
  - exact ex_B_rows.
  - reflexivity.
  - exists c. apply Permutation_sym in E9, E10. apply Permutation_length_1_inv in E9. apply Permutation_length_1_inv in E10. constructor; auto.
Qed.

Lemma e_raw c x i : o_nodsatnone (c_opt c) = true -> o_gwchnone (c_opt c) = true -> c_reftime c = ex_tref -> e_of c x i = Some (ex_e x i).
Proof.
  intros H1 H2 H3. unfold e_of, basis_at, F_at, U_at, V_at, flags_of. cbn [NodsatNone GwchNone]. rewrite H1, H2, H3. unfold wave, ex_e, ex_wave, ex_f.
  generalize (nth i (linearized_freqs ex_tref) 0). intros f. f_equal. unfold cis, Cmult, RtoC. cbn [fst snd].
  replace (2 * PI * (0 + 24 * (x - ex_tref) * f)) with ((0 + 24 * (x - ex_tref) * f) * (2 * PI)) by ring. f_equal; ring.
Qed.

Lemma M2_freq : 7 / 96 < ex_f 47 < 8 / 96.
Proof.
  assert (P : is_primary 47) by (eexists; vm_compute; reflexivity).
  unfold ex_f. rewrite (lin_primary ex_tref 47 [2; 0; 0; 0; 0; 0]%Z P) by (vm_compute; reflexivity).
  unfold doodson_sum. cbn [seq map fold_right nth]. rewrite ader_eq. cbv zeta. cbn [nth]. rewrite daten_val. unfold ex_tref. lra.
Qed.
