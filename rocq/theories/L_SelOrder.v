(** Selection and ordering at the level of solve. *)
From Coq Require Import Lia Lra Sorting Permutation.
From Verif Require Import M_Base M_Lib M_Tables M_Const M_Options M_Time M_Slvinit M_Harmonics M_Select M_Ellipse
  M_Robust M_Period M_Conf M_Diag M_Solve S_Dict S_Options L_Base L_Options L_SolveInv L_OptSolve S_Slv L_Slv L_Slv2
  L_Tables S_Order L_Order S_Select L_Select S_Fit L_Fit L_Align.
Open Scope R_scope.
Open Scope string_scope.

Definition sorting (x : pyval) : Prop := x = PStr "PE" \/ x = PStr "SNR" \/ x = PStr "frequency".

Lemma validate_sorting x snr x' : sorted_order x -> validate_order_constit x snr = Ok x' -> sorting x'.
Proof.
  intros [-> |[-> |[-> | ->]]]; unfold validate_order_constit, sorting; cbn.
  - intros H. injection H as <-. auto.
  - intros H. injection H as <-. auto.
  - destruct snr; cbn; [|discriminate]. intros H. injection H as <-. auto.
  - intros H. injection H as <-. auto.
Qed.

(** a successful run, in terms of its natural-order result *)
Record ran (L : lib) (t : pyarr tarray) (u : pyarr (list xr)) (v : option (pyarr (list xr))) (lat : option R)
    (opts : dict pyval) (c cN : coef) (si : slv) (s : sel) : Prop := {
  rn_nat : natural L t u v lat opts cN;
  rn_al : aligned cN;
  rn_opt : c_opt cN = c_opt c;
  rn_ord : reorder L cN (o_ordercnstit (c_opt c)) = Ok c;
  rn_val : validate_order_constit (opt_value opts "order_constit") (negb (eq_str (opt_value opts "conf_int") "none"))
            = Ok (o_ordercnstit (c_opt c));
  rn_si : slvinit (l_parse L) t u v lat (opt_value opts "epoch") = Ok si;
  rn_sel : ut_cnstitsel (si_tref si) (xdiv (Fin (o_rmin (c_opt c))) (Fin (24 * si_lor si)))
      (o_cnstit (c_opt c)) (o_infer (c_opt c)) = Ok s;
  rn_name : c_name cN = s_name s; rn_frq : c_frq cN = s_frq s; rn_lind : c_lind cN = s_lind s;
  rn_cn : o_cnstit (c_opt c) = opt_value opts "constit";
  rn_rm : as_num (opt_value opts "Rayleigh_min") = Ok (o_rmin (c_opt c));
  rn_inf : exists inf, validate_infer (opt_value opts "infer") (is2d v) = Ok inf /\ read_infer inf = Ok (o_infer (c_opt c));
  rn_nod : o_nodiagn (c_opt c) = eq_str (opt_value opts "conf_int") "none";
  rn_len : length (c_weights c) = length (si_t si) }.

Lemma solve_ran L t u v lat opts c : lstsq_shape L -> arrays_ok t u v -> unique_keys opts ->
  solve L t u v lat opts = Ok c -> c_weights c <> [] -> exists cN si s, ran L t u v lat opts c cN si s.
Proof.
  intros HL Ha Hu Hc HW. destruct (solve_natural _ _ _ _ _ _ _ Hc) as (cN & N & Eo & Er).
  assert (EW : c_weights c = c_weights cN) by apply (sb_weights _ _ (reorder_base _ _ _ _ Er)).
  destruct (natural_aligned L t u v lat opts cN HL Ha N ltac:(congruence)) as (A & compat & si & s & N1 & N2 & N3 & N4 & N5 & N6 & N7).
  assert (Hro : exists e, read_opt (slv_opts (is2d v) e compat) = Ok (c_opt cN)).
  { destruct N as [(compat2 & si2 & la & s2 & B & xraw & m & W & c1 & P1 & P2 & -> & P4 & _)].
    rewrite N1 in P1. injection P1 as <-. eauto. }
  destruct Hro as [e Hro].
  destruct (used_options opts (is2d v) e Hu compat _ N1 Hro) as
    (_ & _ & _ & _ & _ & _ & _ & U8 & U9 & _ & _ & _ & _ & _ & U15 & _ & _ & _ & Ep1 & Ep2 & U21 & U22 & _).
  exists cN, si, s. rewrite Eo in *. constructor; auto; try congruence.
  all: rewrite ?Eo; auto; congruence.
Qed.

Lemma ran_perm L t u v lat opts c cN si s : argsort_perm L -> ran L t u v lat opts c cN si s ->
  sorted_order (opt_value opts "order_constit") ->
  Permutation (rows c) (rows cN) /\ Permutation (c_name c) (s_name s).
Proof.
  intros HL Rn Hs. assert (Hx := validate_sorting _ _ _ Hs (rn_val _ _ _ _ _ _ _ _ _ _ Rn)).
  destruct (reorder_rows _ _ _ _ HL (rn_al _ _ _ _ _ _ _ _ _ _ Rn) Hx (rn_ord _ _ _ _ _ _ _ _ _ _ Rn)) as [P1 P2].
  split; auto. now rewrite <- (rn_name _ _ _ _ _ _ _ _ _ _ Rn).
Qed.

Lemma setting_val opts k v : unique_keys opts -> In k (keys documented) -> setting opts k v -> opt_value opts k = v.
Proof. intros H1 H2 H3. symmetry. now apply setting_iff. Qed.

(** C15 *)
Lemma passing_mono m m' n : m' <= m -> In n (map fst (passing m)) -> In n (map fst (passing m')).
Proof. rewrite !passing_In. intros H (i & f & d & H1 & H2). exists i, f, d. split; auto. lra. Qed.

Lemma auto_solve L t u v lat opts c r si x : lstsq_shape L -> argsort_perm L -> arrays_ok t u v -> unique_keys opts ->
  setting opts "constit" (PStr "auto") -> setting opts "infer" PNone -> setting opts "Rayleigh_min" (PNum r) ->
  setting opts "order_constit" x -> sorted_order x ->
  solve L t u v lat opts = Ok c -> c_weights c <> [] ->
  slvinit (l_parse L) t u v lat (o_epoch (c_opt c)) = Ok si -> si_lor si <> 0 ->
  Permutation (c_name c) (map fst (passing (r / (24 * si_lor si)))).
Proof.
  intros HL HP Ha Hu H1 H2 H3 H4 H5 Hc HW Hsi Hl.
  destruct (solve_ran _ _ _ _ _ _ _ HL Ha Hu Hc HW) as (cN & si' & s & Rn).
  destruct (solve_slv _ _ _ _ _ _ _ Hu Hc) as (si2 & la & E & Hsi2 & _).
  assert (Hep : o_epoch (c_opt c) = opt_value opts "epoch").
  { destruct (solve_opt _ _ _ _ _ _ _ Hc) as (compat & si3 & P1 & P2 & P3).
    destruct (used_options opts (is2d v) (si_equi si3) Hu compat _ P1 P3) as
    (_ & _ & _ & _ & _ & _ & _ & U8 & U9 & _ & _ & _ & _ & _ & U15 & _ & _ & _ & Ep1 & Ep2 & _). exact Ep1. }
  assert (E2 := rn_si _ _ _ _ _ _ _ _ _ _ Rn). rewrite <- Hep in E2. rewrite E2 in Hsi. injection Hsi as ->.
  assert (K : forall k v', setting opts k v' -> In k (keys documented) -> opt_value opts k = v').
  { intros k v' A B. now apply setting_val. }
  assert (Hd : forall k, In k ["constit"; "infer"; "Rayleigh_min"; "order_constit"] -> In k (keys documented)).
  { cbn. intros k Hk. tauto. }
  destruct (ran_perm _ _ _ _ _ _ _ _ _ _ HP Rn) as [_ P].
  { rewrite (K _ _ H4); auto. apply Hd; cbn; auto. }
  rewrite P. assert (S := rn_sel _ _ _ _ _ _ _ _ _ _ Rn).
  rewrite (rn_cn _ _ _ _ _ _ _ _ _ _ Rn), (K _ _ H1) in S by (apply Hd; cbn; auto).
  assert (R1 := rn_rm _ _ _ _ _ _ _ _ _ _ Rn). rewrite (K _ _ H3) in R1 by (apply Hd; cbn; auto).
  cbn in R1. injection R1 as R1. rewrite <- R1 in S.
  destruct (rn_inf _ _ _ _ _ _ _ _ _ _ Rn) as (inf & V1 & V2). rewrite (K _ _ H2) in V1 by (apply Hd; cbn; auto).
  cbn in V1. injection V1 as <-. cbn in V2. injection V2 as V2. rewrite <- V2 in S.
  replace (xdiv (Fin r) (Fin (24 * si_lor si))) with (Fin (r / (24 * si_lor si))) in S.
  - now rewrite (auto_sel _ _ _ S).
  - unfold xdiv. destruct (Req_EM_T (24 * si_lor si) 0); [lra|reflexivity].
Qed.

(** C18 at the level of solve *)
Lemma explicit_solve L t u v lat opts c names x : lstsq_shape L -> argsort_perm L -> arrays_ok t u v -> unique_keys opts ->
  setting opts "constit" (PSeq (map PStr names)) -> setting opts "infer" PNone ->
  setting opts "order_constit" x -> sorted_order x ->
  solve L t u v lat opts = Ok c -> c_weights c <> [] -> Permutation (c_name c) names.
Proof.
  intros HL HP Ha Hu H1 H2 H4 H5 Hc HW.
  destruct (solve_ran _ _ _ _ _ _ _ HL Ha Hu Hc HW) as (cN & si & s & Rn).
  assert (Hd : forall k, In k ["constit"; "infer"; "Rayleigh_min"; "order_constit"] -> In k (keys documented)).
  { cbn. intros k Hk. tauto. }
  destruct (ran_perm _ _ _ _ _ _ _ _ _ _ HP Rn) as [_ P].
  { rewrite (setting_val _ _ _ Hu (Hd "order_constit" ltac:(cbn; auto)) H4); auto. }
  rewrite P. assert (S := rn_sel _ _ _ _ _ _ _ _ _ _ Rn).
  rewrite (rn_cn _ _ _ _ _ _ _ _ _ _ Rn), (setting_val _ _ _ Hu (Hd "constit" ltac:(cbn; auto)) H1) in S.
  destruct (rn_inf _ _ _ _ _ _ _ _ _ _ Rn) as (inf & V1 & V2).
  rewrite (setting_val _ _ _ Hu (Hd "infer" ltac:(cbn; auto)) H2) in V1.
  cbn in V1. injection V1 as <-. cbn in V2. injection V2 as V2. rewrite <- V2 in S.
  now rewrite (explicit_sel _ _ _ _ S).
Qed.

Lemma explicit_unknown_solve L t u v lat opts names n si o : unique_keys opts ->
  setting opts "constit" (PSeq (map PStr names)) -> In n names -> ~ In n const_name ->
  (exists compat, process_opts opts (is2d v) = Ok compat /\
     slvinit (l_parse L) t u v lat (oget compat "epoch") = Ok si /\
     read_opt (slv_opts (is2d v) (si_equi si) compat) = Ok o) ->
  solve L t u v lat opts = Err KeyError.
Proof.
  intros Hu H1 Hn Hn2 (compat & P1 & P2 & P3).
  destruct (used_options opts (is2d v) (si_equi si) Hu compat _ P1 P3) as
    (_ & _ & _ & _ & _ & _ & _ & _ & U9 & _).
  assert (Hd : In "constit" (keys documented)) by (cbn; auto).
  rewrite (setting_val _ _ _ Hu Hd H1) in U9.
  unfold solve. fold (is2d v). rewrite P1. cbn [bind]. unfold solv1. fold (is2d v). rewrite P2. cbn [bind].
  unfold slvinit in P2. assert (HL : lat <> None).
  { intros ->. cbn in P2. discriminate. }
  destruct lat as [la|]; [|congruence]. cbn [bind]. rewrite P3. cbn [bind]. rewrite U9.
  now rewrite (explicit_unknown _ _ _ _ _ Hn Hn2).
Qed.
