(** Success of the selection with inference; resolution of pairs at the level of whole runs. *)
From Coq Require Import Lia Lra Permutation.
From Verif Require Import M_Base M_Lib M_Tables M_Const M_Options M_Time M_Slvinit M_Harmonics M_Select M_Ellipse
  M_Robust M_Conf M_Diag M_Solve S_Dict S_Options L_Base L_Options L_SolveInv S_Slv L_Slv L_Tables S_Order L_Order S_Select
  L_Select L_Select2 S_Fit L_Fit L_Align L_SelOrder.
Open Scope R_scope.
Open Scope string_scope.

Lemma seq_get_ok {A} (l : list A) i : (i < length l)%nat -> exists x, seq_get l i = Ok x.
Proof. intros H. unfold seq_get. destruct (nth_error l i) eqn:E; eauto. apply nth_error_None in E. lia. Qed.
Lemma mapM_all_ok {A B} (f : A -> res B) l : (forall x, In x l -> exists y, f x = Ok y) -> exists r, mapM f l = Ok r.
Proof.
  induction l as [|x l IH]; intros H; cbn; [eauto|]. destruct (H x (or_introl eq_refl)) as [y ->]. cbn [bind].
  destruct IH as [r ->]; [intros; apply H; now right|]. cbn [bind]. eauto.
Qed.
Lemma freq_of_index tref n i : constit_index n = Ok i -> exists f, seq_get (linearized_freqs tref) i = Ok f.
Proof. intros H. apply constit_index_iff in H. apply seq_get_ok. rewrite lin_len. eapply names_lt; eauto. Qed.

Lemma one_inferred_ok tref inf tw ilk : infer_shape inf tw -> (forall n, In n (inf_inferred inf) -> In n const_name) ->
  (ilk < length (inf_inferred inf))%nat ->
  exists x, one_inferred (linearized_freqs tref) inf (length (inf_inferred inf)) ilk = Ok x.
Proof.
  intros (H1 & H2 & H3) Hk Hi. unfold one_inferred.
  destruct (seq_get_ok (inf_amp inf) ilk) as [a ->]; [rewrite H2; destruct tw; lia|].
  destruct (seq_get_ok (inf_off inf) ilk) as [o ->]; [rewrite H3; destruct tw; lia|]. cbn [bind].
  assert (E : exists rm, (if Nat.ltb (length (inf_inferred inf)) (length (inf_amp inf)) then
              do a2 <- seq_get (inf_amp inf) (ilk + length (inf_inferred inf));
              do o2 <- seq_get (inf_off inf) (ilk + length (inf_inferred inf));
              Ok (Cmult (RtoC a2) (cis (- (o2 * PI / 180))))
            else Ok (Cconj (Cmult (RtoC a) (cis (o * PI / 180))))) = Ok rm).
  { destruct (Nat.ltb_spec (length (inf_inferred inf)) (length (inf_amp inf))) as [H|H]; [|eauto].
    destruct tw; [|lia].
    destruct (seq_get_ok (inf_amp inf) (ilk + length (inf_inferred inf))) as [a2 ->]; [lia|].
    destruct (seq_get_ok (inf_off inf) (ilk + length (inf_inferred inf))) as [o2 ->]; [lia|]. cbn [bind]. eauto. }
  destruct E as [rm ->]. cbn [bind]. unfold seq_get at 1.
  destruct (nth_error (inf_inferred inf) ilk) as [n|] eqn:En; [|apply nth_error_None in En; lia]. cbn [bind].
  destruct (constit_index_known n (Hk _ (nth_error_In _ _ En))) as [i Hi2]. rewrite Hi2. cbn [bind].
  destruct (freq_of_index tref _ _ Hi2) as [f ->]. cbn [bind]. eauto.
Qed.

Lemma infer_sel_ok tref minres names inf tw inc : requested minres inc names ->
  (forall n, In n (names ++ inf_inferred inf ++ inf_reference inf) -> In n const_name) -> infer_shape inf tw ->
  exists s, ut_cnstitsel tref (Fin minres) inc (Some inf) = Ok s.
Proof.
  intros Hq Hk Sh. unfold ut_cnstitsel.
  assert (E : exists l0, initial_lind (Fin minres) inc = Ok l0 /\ Forall (fun i => (i < 146)%nat) l0).
  { destruct Hq as [-> |[-> _]].
    - unfold initial_lind. cbn [eq_str]. rewrite as_names_seq. cbn [bind].
      destruct (mapM_index_ok names) as [r Hr]; [intros; apply Hk, in_or_app; auto|]. exists r. split; auto.
      apply mapM_index in Hr. apply Forall_forall. intros i Hi. apply In_nth_error in Hi. destruct Hi as [k Hki].
      apply (map_nth_error (fun i => nth_error const_name i)) in Hki. rewrite Hr in Hki. rewrite nth_error_map in Hki.
      destruct (nth_error names k); [|discriminate]. cbn [option_map] in Hki. apply (names_lt _ s). congruence.
    - unfold initial_lind. cbn [eq_str String.eqb Ascii.eqb Bool.eqb]. eexists. split; [reflexivity|].
      apply Forall_forall. intros i Hi. apply In_nth_error in Hi. destruct Hi as [k Hki].
      apply (map_nth_error (fun i => nth_error const_name i)) in Hki. rewrite auto_names in Hki. rewrite nth_error_map in Hki.
      destruct (nth_error (map fst (passing minres)) k); [|discriminate]. cbn [option_map] in Hki. apply (names_lt _ s). congruence. }
  destruct E as (l0 & -> & F). cbn [bind].
  destruct (mapM_index_ok (inf_inferred inf ++ inf_reference inf)%list) as [ri Hri]; [intros; apply Hk, in_or_app; auto|].
  rewrite Hri. cbn [bind]. set (l := filter _ l0).
  assert (Fl : Forall (fun i => (i < 146)%nat) l) by (apply Forall_forall; intros i Hi; apply filter_In in Hi; rewrite Forall_forall in F; now apply F).
  assert (T : exists ns, take_idx const_name l = Ok ns).
  { clear - Fl. unfold take_idx. apply mapM_all_ok. intros i Hi. rewrite Forall_forall in Fl. apply Fl in Hi.
    destruct (nth_error const_name i) eqn:E; eauto. apply nth_error_None in E. rewrite names_len in E. cbv in E. lia. }
  destruct T as [ns T]. rewrite (take_freq tref _ _ T), T. cbn [bind].
  assert (M : exists Rs, mapM (one_ref (linearized_freqs tref) inf (length (inf_inferred inf))) (first_occ (inf_reference inf)) = Ok Rs).
  { apply mapM_all_ok. intros n Hn. apply (proj2 (first_occ_spec (inf_reference inf))) in Hn. unfold one_ref.
    destruct (constit_index_known n) as [i Hi]; [apply Hk, in_or_app; right; apply in_or_app; auto|]. rewrite Hi. cbn [bind].
    destruct (freq_of_index tref _ _ Hi) as [f ->]. cbn [bind]. fold (positions (inf_reference inf) n).
    destruct (mapM_all_ok (one_inferred (linearized_freqs tref) inf (length (inf_inferred inf))) (positions (inf_reference inf) n)) as [it ->].
    - intros j Hj. apply positions_In in Hj. eapply one_inferred_ok; eauto.
      + intros; apply Hk, in_or_app; right; apply in_or_app; auto.
      + destruct Sh as [<- _]. apply nth_error_Some. congruence.
    - cbn [bind]. eauto. }
  destruct M as [Rs ->]. cbn [bind]. eauto.
Qed.

(** unknown names in the inference specification *)
Lemma infer_unknown tref minres names inf inc n : requested minres inc names ->
  In n (inf_inferred inf ++ inf_reference inf) -> ~ In n const_name ->
  ut_cnstitsel tref (Fin minres) inc (Some inf) = Err KeyError.
Proof.
  intros Hq Hn Hk. unfold ut_cnstitsel.
  assert (E : (exists l0, initial_lind (Fin minres) inc = Ok l0) \/ initial_lind (Fin minres) inc = Err KeyError).
  { destruct Hq as [-> |[-> _]]; unfold initial_lind.
    - cbn [eq_str]. rewrite as_names_seq. cbn [bind]. clear. induction names as [|x l IH]; cbn [mapM]; [eauto|].
      destruct (in_dec string_dec x const_name) as [H|H].
      + destruct (constit_index_known x H) as [i ->]. cbn [bind]. destruct IH as [[l0 ->]| ->]; cbn [bind]; eauto.
      + rewrite constit_index_unknown by exact H. auto.
    - cbn [eq_str String.eqb Ascii.eqb Bool.eqb]. eauto. }
  destruct E as [[l0 ->]| ->]; [|reflexivity]. cbn [bind]. now rewrite (mapM_index_err _ _ Hn Hk).
Qed.

(** pairs selected in a run *)
Lemma gap_resolved m i n f d j n' f' d' : m <= 387306 / 10^7 ->
  tabulated i n f d -> tabulated j n' f' d' -> (i < j)%nat -> m <= d -> m <= d' -> m <= f' - f.
Proof.
  intros Hm A B Hij Hd Hd'. destruct (string_dec n "K1") as [-> |N]; [destruct (string_dec n' "M2") as [-> |N']|].
  - assert (i = 20%nat) by (eapply index_NoDup; [apply A|vm_compute; reflexivity]).
    assert (j = 47%nat) by (eapply index_NoDup; [apply B|vm_compute; reflexivity]). subst.
    pose proof (K1_M2_gap _ _ _ _ A B). lra.
  - eapply resolved_pair; eauto. tauto.
  - eapply resolved_pair; eauto. tauto.
Qed.

Lemma tab_unique i j n f d f' d' : tabulated i n f d -> tabulated j n f' d' -> i = j /\ f = f' /\ d = d'.
Proof. intros (A1 & A2 & A3) (B1 & B2 & B3). assert (i = j) by (eapply index_NoDup; eauto). subst. repeat split; congruence. Qed.

Lemma auto_pairs L t u v lat opts c r si x : lstsq_shape L -> argsort_perm L -> arrays_ok t u v -> unique_keys opts ->
  setting opts "constit" (PStr "auto") -> setting opts "infer" PNone -> setting opts "Rayleigh_min" (PNum r) ->
  setting opts "order_constit" x -> sorted_order x ->
  solve L t u v lat opts = Ok c -> c_weights c <> [] ->
  slvinit (l_parse L) t u v lat (o_epoch (c_opt c)) = Ok si -> si_lor si <> 0 ->
  forall i n f d j n' f' d', tabulated i n f d -> tabulated j n' f' d' -> (i < j)%nat ->
    In n (c_name c) -> In n' (c_name c) ->
    (r / (24 * si_lor si) <= 387306 / 10^7 \/ ~ (n = "K1" /\ n' = "M2")) -> r / (24 * si_lor si) <= f' - f.
Proof.
  intros HL HP Ha Hu H1 H2 H3 H4 H5 Hc HW Hsi Hl i n f d j n' f' d' A B Hij N N' Hx.
  assert (P := auto_solve L t u v lat opts c r si x HL HP Ha Hu H1 H2 H3 H4 H5 Hc HW Hsi Hl).
  assert (D : forall k m g e, tabulated k m g e -> In m (c_name c) -> r / (24 * si_lor si) <= e).
  { intros k m g e T I. apply (Permutation_in _ P) in I. apply passing_In in I. destruct I as (k' & g' & e' & T' & I).
    destruct (tab_unique _ _ _ _ _ _ _ T T') as (_ & _ & ->). exact I. }
  destruct Hx as [Hx|Hx].
  - exact (gap_resolved _ i n f d j n' f' d' Hx A B Hij (D _ _ _ _ A N) (D _ _ _ _ B N')).
  - exact (resolved_pair _ i n f d j n' f' d' A B Hij (D _ _ _ _ A N) (D _ _ _ _ B N') Hx).
Qed.
Lemma K1_M2_selected : exists m s f d f' d', 0 < m /\ ut_cnstitsel 0 (Fin m) (PStr "auto") None = Ok s /\
  In "K1" (s_name s) /\ In "M2" (s_name s) /\ tabulated 20 "K1" f d /\ tabulated 47 "M2" f' d' /\ f' - f < m.
Proof.
  destruct K1_M2 as (f & d & f' & d' & A & B & G1 & G2 & G3).
  destruct (auto_sel_ok 0 (Rmin d d')) as [s Hs].
  exists (Rmin d d'), s, f, d, f', d'. assert (N := auto_sel _ _ _ Hs). rewrite N.
  assert (f' - f < Rmin d d') by (apply Rmin_glb_lt; assumption).
  repeat split; try apply A; try apply B; auto; try lra.
  - apply passing_In. exists 20%nat, f, d. split; auto. apply Rmin_l.
  - apply passing_In. exists 47%nat, f', d'. split; auto. apply Rmin_r.
Qed.
Lemma ETA2_without_K2 : exists m s, 0 < m /\ ut_cnstitsel 0 (Fin m) (PStr "auto") None = Ok s /\
  compared_with 60 58 /\ nth_error const_name 60 = Some "ETA2" /\ nth_error const_name 58 = Some "K2" /\
  In "ETA2" (s_name s) /\ ~ In "K2" (s_name s).
Proof.
  destruct ETA2_K2 as (f & d & f' & d' & m & A & B & Hc & Hm & G1 & G2).
  destruct (auto_sel_ok 0 m) as [s Hs]. exists m, s. rewrite (auto_sel _ _ _ Hs).
  split; auto. split; auto. split; auto. split; [apply A|]. split; [apply B|]. split.
  - apply passing_In. exists 60%nat, f, d. auto.
  - intros I. apply passing_In in I. destruct I as (k & g & e & T & I).
    destruct (tab_unique _ _ _ _ _ _ _ B T) as (_ & _ & ->). lra.
Qed.

(** ** Statements about what automatic selection returns *)
Lemma auto_iff tref m s n : ut_cnstitsel tref (Fin m) (PStr "auto") None = Ok s ->
  (In n (s_name s) <-> exists i f d, tabulated i n f d /\ m <= d).
Proof. intros H. rewrite (auto_sel tref m s H). apply passing_In. Qed.
Lemma auto_mono tref tref' m m' s s' n : m' <= m ->
  ut_cnstitsel tref (Fin m) (PStr "auto") None = Ok s -> ut_cnstitsel tref' (Fin m') (PStr "auto") None = Ok s' ->
  In n (s_name s) -> In n (s_name s').
Proof. intros Hm H H'. rewrite (auto_sel _ _ _ H), (auto_sel _ _ _ H'). now apply passing_mono. Qed.
Lemma tab_name i n f d i' f' d' : tabulated i n f d -> tabulated i' n f' d' -> d = d'.
Proof. intros A B. now destruct (tab_unique _ _ _ _ _ _ _ A B) as (_ & _ & ->). Qed.
Lemma auto_resolved tref m s i n f d j n' f' d' : ut_cnstitsel tref (Fin m) (PStr "auto") None = Ok s ->
  tabulated i n f d -> tabulated j n' f' d' -> (i < j)%nat -> In n (s_name s) -> In n' (s_name s) ->
  (m <= 387306 / 10^7 \/ ~ (n = "K1" /\ n' = "M2")) -> m <= f' - f.
Proof.
  intros H A B Hij N N' Hx. apply (auto_iff _ _ _ _ H) in N, N'. destruct N as (i1 & f1 & d1 & T1 & M1), N' as (i2 & f2 & d2 & T2 & M2).
  rewrite <- (tab_name _ _ _ _ _ _ _ A T1) in M1. rewrite <- (tab_name _ _ _ _ _ _ _ B T2) in M2. destruct Hx as [Hx|Hx].
  - exact (gap_resolved _ i n f d j n' f' d' Hx A B Hij M1 M2).
  - exact (resolved_pair _ i n f d j n' f' d' A B Hij M1 M2 Hx).
Qed.
