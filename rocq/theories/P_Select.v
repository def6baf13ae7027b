(** Properties C15-C20: selection of the constituents. *)
From Coq Require Import Lia Lra QArith Qreals Permutation.
From Verif Require Import M_Base M_Lib M_Tables M_Const M_Options M_Time M_Slvinit M_Harmonics M_Select M_Diag M_Solve
  S_Dict S_Options S_Slv S_Tables S_Order S_Select S_Fit L_Tables L_Options L_SolveInv L_Slv L_Slv2 L_Select L_Select2 L_SelOrder L_Select3 L_Example.
Open Scope R_scope.
Open Scope string_scope.

(** C15.  Automatic selection: the table rows with separation >= the resolution, in table order. *)
Theorem C15_automatic_selection : forall tref m,
  exists s, ut_cnstitsel tref (Fin m) (PStr "auto") None = Ok s /\ s_name s = map fst (passing m).
Proof. exact (fun tref m => let (s, H) := auto_sel_ok tref m in ex_intro _ s (conj H (auto_sel tref m s H))). Qed.
Print Assumptions C15_automatic_selection.

Theorem C15_selected_iff_separated : forall tref m s n, ut_cnstitsel tref (Fin m) (PStr "auto") None = Ok s ->
  (In n (s_name s) <-> exists i f d, tabulated i n f d /\ m <= d).
Proof. exact auto_iff. Qed.
Print Assumptions C15_selected_iff_separated.

(** the whole of solve: the reported names are those that pass with Rayleigh_min / (24 * record length) *)
Theorem C15_names_of_a_run : forall L t u v lat opts c r si x,
  lstsq_shape L -> argsort_perm L -> arrays_ok t u v -> unique_keys opts ->
  setting opts "constit" (PStr "auto") -> setting opts "infer" PNone -> setting opts "Rayleigh_min" (PNum r) ->
  setting opts "order_constit" x -> sorted_order x ->
  solve L t u v lat opts = Ok c -> c_weights c <> [] ->
  slvinit (l_parse L) t u v lat (o_epoch (c_opt c)) = Ok si -> si_lor si <> 0 ->
  Permutation (c_name c) (map fst (passing (r / (24 * si_lor si)))).
Proof. exact auto_solve. Qed.
Print Assumptions C15_names_of_a_run.

(** a finer resolution loses no constituent *)
Theorem C15_longer_records_lose_nothing : forall tref tref' m m' s s' n, m' <= m ->
  ut_cnstitsel tref (Fin m) (PStr "auto") None = Ok s -> ut_cnstitsel tref' (Fin m') (PStr "auto") None = Ok s' ->
  In n (s_name s) -> In n (s_name s').
Proof. exact auto_mono. Qed.
Print Assumptions C15_longer_records_lose_nothing.

Example C15_example_only_M2 : s_name (ex_sel [47%nat] ["M2"] true) = ["M2"] /\
  ut_cnstitsel ex_tref (xdiv (Fin (24 / 5)) (Fin (24 * 4))) (PStr "auto") None = Ok (ex_sel [47%nat] ["M2"] true).
Proof. exact (conj eq_refl ex_select_auto). Qed.
Example C15_example_run : lstsq_shape (exL m_auto) /\ argsort_perm (exL m_auto) /\ unique_keys ex_opts_auto /\
  exists c, ex_call [47%nat] m_auto false (dset ex_opts_auto "order_constit" PNone) = Ok c /\ c_weights c <> [].
Proof.
  split; [apply ex_shape|]. split; [apply ex_perm|]. split; [exact (proj1 (ex_variant_auto false))|].
  exact (run_variant [47%nat] ["M2"] true m_auto false ex_opts_auto PNone eq_refl ex_good_auto (ex_variant_auto false) eq_refl (or_introl eq_refl)).
Qed.

(** C16.  Two selected constituents differ in frequency by at least the resolution, except K1 and M2;
    without exception when the resolution is at most 0.0387306 cycles/hour. *)
Theorem C16_selected_pairs_resolved : forall tref m s i n f d j n' f' d', ut_cnstitsel tref (Fin m) (PStr "auto") None = Ok s ->
  tabulated i n f d -> tabulated j n' f' d' -> (i < j)%nat -> In n (s_name s) -> In n' (s_name s) ->
  (m <= 387306 / 10^7 \/ ~ (n = "K1" /\ n' = "M2")) -> m <= f' - f.
Proof. exact auto_resolved. Qed.
Print Assumptions C16_selected_pairs_resolved.

Theorem C16_pairs_of_a_run : forall L t u v lat opts c r si x,
  lstsq_shape L -> argsort_perm L -> arrays_ok t u v -> unique_keys opts ->
  setting opts "constit" (PStr "auto") -> setting opts "infer" PNone -> setting opts "Rayleigh_min" (PNum r) ->
  setting opts "order_constit" x -> sorted_order x ->
  solve L t u v lat opts = Ok c -> c_weights c <> [] ->
  slvinit (l_parse L) t u v lat (o_epoch (c_opt c)) = Ok si -> si_lor si <> 0 ->
  forall i n f d j n' f' d', tabulated i n f d -> tabulated j n' f' d' -> (i < j)%nat ->
    In n (c_name c) -> In n' (c_name c) ->
    (r / (24 * si_lor si) <= 387306 / 10^7 \/ ~ (n = "K1" /\ n' = "M2")) -> r / (24 * si_lor si) <= f' - f.
Proof. exact auto_pairs. Qed.
Print Assumptions C16_pairs_of_a_run.

(** K1 and M2 are selected together although closer than the criterion *)
Theorem C16_K1_M2_refuted : exists m s f d f' d', 0 < m /\ ut_cnstitsel 0 (Fin m) (PStr "auto") None = Ok s /\
  In "K1" (s_name s) /\ In "M2" (s_name s) /\ tabulated 20 "K1" f d /\ tabulated 47 "M2" f' d' /\ f' - f < m.
Proof. exact K1_M2_selected. Qed.
Print Assumptions C16_K1_M2_refuted.

(** the criterion is met by S2 and K2 for a record of 182.7 days *)
Example C16_example : exists i f d j f' d', tabulated i "S2" f d /\ tabulated j "K2" f' d' /\ (i < j)%nat /\
  / (24 * 183) <= d /\ / (24 * 183) <= d'.
Proof.
  exists 56%nat. do 2 eexists. exists 58%nat. do 2 eexists. split; [repeat split; reflexivity|]. split; [repeat split; reflexivity|].
  split; [lia|]. replace (/ (24 * 183)) with (Q2R (1 # 4392)) by (unfold Q2R; cbn [Qnum Qden]; lra).
  split; apply Qle_Rle; vm_compute; congruence.
Qed.

(** C17.  Separations are frequency differences to the comparison constituent; selection is not closed
    under comparison. *)
Theorem C17_separation_is_a_difference : forall i n f d k n' f' d',
  tabulated i n f d -> tabulated k n' f' d' -> compared_with i k -> i <> 0%nat -> d = Rabs (f - f').
Proof. exact separation. Qed.
Print Assumptions C17_separation_is_a_difference.

Theorem C17_without_comparison_zero : forall i n f d, tabulated i n f d -> nth_error const_ikmpr i = Some None -> d = 0.
Proof. exact no_comparison. Qed.
Print Assumptions C17_without_comparison_zero.

Theorem C17_Z0_separation_zero : forall f d, tabulated 0 "Z0" f d -> d = 0.
Proof. exact Z0_sep. Qed.
Print Assumptions C17_Z0_separation_zero.

Theorem C17_comparison_selected_refuted : exists m s, 0 < m /\ ut_cnstitsel 0 (Fin m) (PStr "auto") None = Ok s /\
  compared_with 60 58 /\ nth_error const_name 60 = Some "ETA2" /\ nth_error const_name 58 = Some "K2" /\
  In "ETA2" (s_name s) /\ ~ In "K2" (s_name s).
Proof. exact ETA2_without_K2. Qed.
Print Assumptions C17_comparison_selected_refuted.

Example C17_example : exists f d f' d', tabulated 56 "S2" f d /\ tabulated 47 "M2" f' d' /\ compared_with 56 47.
Proof. do 4 eexists. split; [repeat split; reflexivity|]. split; [repeat split; reflexivity|]. reflexivity. Qed.
Example C17_example_none : exists i n f d, tabulated i n f d /\ nth_error const_ikmpr i = Some None.
Proof. exists 25%nat. do 3 eexists. split; [repeat split; reflexivity|]. reflexivity. Qed.

(** C18.  Explicit names. *)
Theorem C18_explicit_names : forall tref m names, (forall n, In n names -> In n const_name) ->
  exists s, ut_cnstitsel tref m (PSeq (map PStr names)) None = Ok s /\ s_name s = names.
Proof. exact (fun tref m names H => let (s, E) := explicit_ok tref m names H in ex_intro _ s (conj E (explicit_sel tref m names s E))). Qed.
Print Assumptions C18_explicit_names.

Theorem C18_names_of_a_run : forall L t u v lat opts c names x,
  lstsq_shape L -> argsort_perm L -> arrays_ok t u v -> unique_keys opts ->
  setting opts "constit" (PSeq (map PStr names)) -> setting opts "infer" PNone ->
  setting opts "order_constit" x -> sorted_order x ->
  solve L t u v lat opts = Ok c -> c_weights c <> [] -> Permutation (c_name c) names.
Proof. exact explicit_solve. Qed.
Print Assumptions C18_names_of_a_run.

Theorem C18_unknown_name : forall tref m names n inf, In n names -> ~ In n const_name ->
  ut_cnstitsel tref m (PSeq (map PStr names)) inf = Err KeyError.
Proof. exact explicit_unknown. Qed.
Print Assumptions C18_unknown_name.

(** the same for solve, when the preparations before the selection succeed *)
Theorem C18_unknown_name_in_a_run : forall L t u v lat opts names n si o, unique_keys opts ->
  setting opts "constit" (PSeq (map PStr names)) -> In n names -> ~ In n const_name ->
  (exists compat, process_opts opts (is2d v) = Ok compat /\
     slvinit (l_parse L) t u v lat (oget compat "epoch") = Ok si /\
     read_opt (slv_opts (is2d v) (si_equi si) compat) = Ok o) ->
  solve L t u v lat opts = Err KeyError.
Proof. exact explicit_unknown_solve. Qed.
Print Assumptions C18_unknown_name_in_a_run.

Example C18_example_run : exists c, ex_call [47%nat; 56%nat] m_scalar false (dset ex_opts "order_constit" (PStr "frequency")) = Ok c /\ c_weights c <> [].
Proof.
  exact (run_variant [47%nat; 56%nat] ["M2"; "S2"] false m_scalar false ex_opts (PStr "frequency") eq_refl
    ex_good_scalar (ex_variant_linear false) eq_refl (or_intror (or_intror (or_intror eq_refl)))).
Qed.
Example C18_example_unknown : ~ In "M99" const_name.
Proof. intros H. apply constit_index_known in H. destruct H as [i H]. vm_compute in H. discriminate. Qed.

(** C19.  Layout of the constituents with inference. *)
Theorem C19_layout : forall tref minres inc inf s names, requested minres inc names ->
  length (inf_inferred inf) = length (inf_reference inf) ->
  ut_cnstitsel tref (Fin minres) inc (Some inf) = Ok s ->
  s_name s = (others inf names ++ distinct (inf_reference inf) ++
              flat_map (inferred_from inf) (distinct (inf_reference inf)))%list /\
  s_nNR s = length (others inf names) /\ s_nR s = length (distinct (inf_reference inf)) /\
  s_nI s = length (inf_inferred inf) /\ (s_nNR s + s_nR s + s_nI s)%nat = length (s_name s) /\
  lin_aligned tref (s_name s) (s_lind s) (s_frq s).
Proof. exact layout. Qed.
Print Assumptions C19_layout.

Theorem C19_first_group_disjoint : forall tref minres inc inf s n, 
  ut_cnstitsel tref minres inc (Some inf) = Ok s -> In n (s_NRname s) ->
  ~ In n (inf_inferred inf) /\ ~ In n (inf_reference inf).
Proof. exact (fun tref minres inc inf s n H => NR_disjoint tref minres inc inf s n (sel_infer _ _ _ _ _ H)). Qed.
Print Assumptions C19_first_group_disjoint.

Theorem C19_known_names_accepted : forall tref minres names inf tw inc, requested minres inc names ->
  (forall n, In n (names ++ inf_inferred inf ++ inf_reference inf)%list -> In n const_name) -> infer_shape inf tw ->
  exists s, ut_cnstitsel tref (Fin minres) inc (Some inf) = Ok s.
Proof. exact infer_sel_ok. Qed.
Print Assumptions C19_known_names_accepted.

Theorem C19_unknown_names_KeyError : forall tref minres names inf inc n, requested minres inc names ->
  In n (inf_inferred inf ++ inf_reference inf)%list -> ~ In n const_name ->
  ut_cnstitsel tref (Fin minres) inc (Some inf) = Err KeyError.
Proof. exact infer_unknown. Qed.
Print Assumptions C19_unknown_names_KeyError.

(** K2 and T2 inferred from S2, P1 from K1; P1 and S2 also asked for explicitly *)
Definition ex_inf : infer_r :=
  {| inf_inferred := ["K2"; "P1"; "T2"]; inf_reference := ["S2"; "K1"; "S2"];
     inf_amp := [1 / 4; 1 / 3; 1 / 20]; inf_off := [10; 20; 30]; inf_approx := false |}.
Definition ex_names5 := ["P1"; "M2"; "S2"; "O1"].
Lemma all_known l : forallb (fun n => match constit_index n with Ok _ => true | Err _ => false end) l = true ->
  forall n, In n l -> In n const_name.
Proof.
  intros H n Hn. rewrite forallb_forall in H. apply H in Hn. destruct (constit_index n) eqn:E; [|discriminate].
  apply constit_index_iff in E. eapply nth_error_In; eauto.
Qed.
Example C19_example : exists s, ut_cnstitsel 0 (Fin 0) (PSeq (map PStr ex_names5)) (Some ex_inf) = Ok s /\
  s_name s = ["M2"; "O1"; "S2"; "K1"; "K2"; "T2"; "P1"].
Proof.
  assert (Q : requested 0 (PSeq (map PStr ex_names5)) ex_names5) by (left; reflexivity).
  assert (K : forall n, In n (ex_names5 ++ inf_inferred ex_inf ++ inf_reference ex_inf)%list -> In n const_name)
    by (apply all_known; vm_compute; reflexivity).
  destruct (infer_sel_ok 0 0 ex_names5 ex_inf false _ Q K) as [s Hs]; [repeat split; reflexivity|].
  exists s. split; auto. rewrite (proj1 (layout 0 0 (PSeq (map PStr ex_names5)) ex_inf s ex_names5 Q eq_refl Hs)). vm_compute. reflexivity.
Qed.

(** C20.  Every inference request is stored exactly once, with its own ratio and offset, under its own
    reference. *)
Theorem C20_requests_kept_together : forall tref minres inc inf s tw, infer_shape inf tw ->
  ut_cnstitsel tref minres inc (Some inf) = Ok s ->
  exists js, Permutation js (seq 0 (length (inf_inferred inf))) /\
    Forall2 (request_at inf tw) js (flat_map stored (s_R s)).
Proof. exact stored_requests. Qed.
Print Assumptions C20_requests_kept_together.

Example C20_example : infer_shape ex_inf false /\
  exists s, ut_cnstitsel 0 (Fin 0) (PSeq (map PStr ex_names5)) (Some ex_inf) = Ok s.
Proof. split; [repeat split; reflexivity|]. destruct C19_example as (s & H & _). eauto. Qed.
