(** The reconstruction at the sample times is the fitted model; coefficient vectors of rivals. *)
From Coq Require Import Lia Lra Permutation.
From Verif Require Import M_Base M_Lib M_Tables M_Const M_Options M_Time M_Slvinit M_Harmonics M_Select M_Ellipse
  M_Robust M_Period M_Conf M_Diag M_Solve M_Recon S_Dict S_Options S_Order S_Basis S_Select S_Fit S_Ellipse S_Slv S_Recon S_Model
  L_Base L_Options L_SolveInv L_OptSolve L_Slv2 L_Order L_Select L_Fit L_Align L_SelOrder L_Basis L_Angle L_Ellipse L_Recon L_Recon2 L_Recon3 L_Core
  L_Model L_Lsq L_Model2 L_Model3.
Open Scope R_scope.
Open Scope string_scope.

Definition good_row (tref lor la : R) (o : optr) (s : sel) (x : R) (row : list C) : Prop :=
  model_row (is_approx o) (negb (o_notrend o)) (basis_at (flags_of o) tref la x) (trend_entry tref lor x) s = map Some row.

Lemma fit_rows L t u v tref lor la o s B xraw m W : sel_lin tref s -> (o_infer o = None -> s_R s = []) ->
  fit L t u v tref lor la o s = Ok (B, xraw, m, W) ->
  Forall2 (good_row tref lor la o s) t B /\ xraw = raw_data u v /\
  (o_method o = PStr "ols" -> exists r k sg, l_lstsq L B xraw PNone = Ok (m, r, k, sg)).
Proof.
  intros SL Hn. unfold fit. intros H. inv_bind H. apply (basis_rows _ _ _ _ _ _ _ SL Hn) in Ha.
  destruct (finite_mat a) as [B'|] eqn:EB; [|discriminate]. apply finite_mat_map in EB. rewrite Ha in EB.
  assert (G : Forall2 (good_row tref lor la o s) t B').
  { clear - EB. revert B' EB. induction t as [|x t IH]; intros [|r B'] EB; cbn [map] in EB; try discriminate; constructor.
    - unfold good_row. now injection EB.
    - apply IH. now injection EB. }
  destruct (eq_str (o_method o) "ols") eqn:Em; inv_bind H.
  - destruct a0 as [[[m' r] k] sg]. apply Ok_inj in H. injection H as <- <- <- <-. split; auto. split; auto. intros _. eauto.
  - apply Ok_inj in H. injection H as <- <- <- <-. split; auto. split; auto. intros E. rewrite E in Em. discriminate.
Qed.

Lemma perm_finite (e : nat -> option C) l l' es : Permutation l l' -> map e l' = map Some es -> exists es', map e l = map Some es'.
Proof.
  intros P H. assert (Q : Permutation (map e l) (map Some es)) by (rewrite <- H; now apply Permutation_map).
  apply Permutation_sym, Permutation_sym in Q. destruct (Permutation_map_inv _ _ Q) as (es' & E & _). eauto.
Qed.

Lemma triples_lind c l k : well_formed c -> Permutation (triples c) (combine l k) -> length l = length k ->
  Permutation (c_lind c) (map snd l).
Proof.
  intros W P Hl. apply (Permutation_map (fun t => snd (fst t))) in P. 
  assert (G : forall (a : list (string * nat)) (b : list (C * C)), length a = length b -> map (fun t => snd (fst t)) (combine a b) = map snd a).
  { induction a as [|x a IH]; intros [|y b] H; try discriminate; auto. cbn. f_equal. apply IH. now injection H. }
  rewrite (G _ _ Hl) in P. rewrite <- P. assert (A := wf_aligned _ W). destruct A as (_ & A2 & _). unfold triples.
  rewrite G by (rewrite combine_length, A2, Nat.min_id; unfold pms; now rewrite map_length, seq_length).
  clear - A2. revert A2. generalize (c_lind c) (c_name c). induction l as [|x l IH]; intros [|y k] H; try discriminate; auto.
  cbn. apply perm_skip. apply IH. now injection H.
Qed.

(** values of a well-formed coefficient set whose triples are known up to order *)
Lemma recon_natural c x es names linds N : well_formed c -> Permutation (triples c) (combine (combine names linds) N) ->
  length names = length linds -> length N = length linds ->
  map (e_of c x) linds = map Some es ->
  let z := Cplus (hsum es N) (bgC c x) in
  recon_u c x = Fin (fst z) /\ (o_twodim (c_opt c) = true -> recon_v c x = Fin (snd z)) /\
  (o_twodim (c_opt c) = false -> snd z = 0).
Proof.
  intros W P L1 L2 H. cbv zeta.
  assert (Lc : length (combine names linds) = length linds) by (rewrite combine_length; lia).
  assert (PL := triples_lind _ _ _ W P ltac:(congruence)).
  assert (SN : forall (a : list string) (b : list nat), length a = length b -> map snd (combine a b) = b).
  { induction a as [|q a IH]; intros [|y b] E; try discriminate; auto. cbn. f_equal. apply IH. now injection E. }
  rewrite SN in PL by assumption. destruct (perm_finite _ _ _ _ PL H) as (es' & H').
  assert (R := recon_vals c x es' W H'). cbv zeta in R.
  replace (hsum es N) with (hsum es' (pms c)); auto.
  rewrite (hsum_terms _ _ _ _ H'), (hsum_terms _ _ _ _ H). apply csum_perm, Permutation_map.
  rewrite <- (triples_pairs _ W). apply (Permutation_map (fun t => (snd (fst t), snd t))) in P. rewrite P.
  apply Permutation_refl'. clear - L1 L2. revert linds N L1 L2.
  induction names as [|a names IH]; intros [|b linds] [|q N] L1 L2; try discriminate; auto. cbn. f_equal. apply IH; cbn in *; lia.
Qed.

(** ** C35 *)
Section Run.
Variables (L : lib) (t : pyarr tarray) (u : pyarr (list xr)) (v : option (pyarr (list xr))) (lat : option R) (opts : dict pyval) (c : coef).
Variables (si : slv) (la : R) (s : sel) (B : list (list C)) (xraw m : list C) (W : list xr).
Hypothesis BH : behind L t u v lat opts c si la s B xraw m W.
Hypothesis HS : sorted_order (opt_value opts "order_constit").
Hypothesis NA : approximate (c_opt c) = false.

Let tw := o_twodim (c_opt c).
Let tr := negb (o_notrend (c_opt c)).

Lemma run_sel : sel_lens s /\ sel_lin (si_tref si) s /\ (o_infer (c_opt c) = None -> s_R s = []).
Proof.
  assert (H := bh_sel _ _ _ _ _ _ _ _ _ _ _ _ _ _ BH).
  split; [eapply sel_lens_ok; eauto|]. split; [eapply sel_lin_ok; eauto|]. intros. eapply infer_none_R; eauto.
Qed.
Lemma run_rows : Forall2 (good_row (si_tref si) (si_lor si) la (c_opt c) s) (si_t si) B /\ xraw = raw_data (si_u si) (si_v si) /\
  (o_method (c_opt c) = PStr "ols" -> exists r k sg, l_lstsq L B xraw PNone = Ok (m, r, k, sg)).
Proof. destruct run_sel as (_ & S2 & S3). eapply fit_rows; eauto. apply BH. Qed.

(** a row times any coefficient vector *)
Lemma run_row x row k : good_row (si_tref si) (si_lor si) la (c_opt c) s x row -> length k = ncoef (c_opt c) s ->
  exists es, map (e_of c x) (s_lind s) = map Some es /\ length es = length (all_pm k s) /\ (tr = true -> si_lor si <> 0) /\
  cdot row k = Cplus (Cplus (hsum es (all_pm k s)) (m_last k (if tr then 2 else 1)%nat))
                     (if tr then Cmult (RtoC (x - si_tref si)) (Cdiv (m_last k 1) (RtoC (si_lor si))) else RtoC 0).
Proof.
  intros G Lk. destruct run_sel as (S1 & S2 & S3). unfold good_row in G.
  replace (is_approx (c_opt c)) with false in G by (rewrite <- NA; reflexivity).
  fold tr in G.
  destruct (row_sum tr _ _ _ _ k S1 (sn_lind _ _ S2) G) as (es & E1 & E2 & E3 & E4).
  { rewrite Lk. unfold ncoef, tr. destruct (o_notrend (c_opt c)); reflexivity. }
  exists es. split.
  { rewrite <- E1. apply map_ext. intros i. unfold e_of. now rewrite (bh_tref _ _ _ _ _ _ _ _ _ _ _ _ _ _ BH), (bh_la _ _ _ _ _ _ _ _ _ _ _ _ _ _ BH). }
  split; auto.
  assert (Z : tr = true -> si_lor si <> 0).
  { intros T. destruct (E3 T) as [w Hw]. unfold trend_entry in Hw. destruct (Req_EM_T (si_lor si) 0); [discriminate|auto]. }
  split; auto. rewrite E4. f_equal. destruct tr; auto. unfold trend_entry. destruct (Req_EM_T (si_lor si) 0) as [Q|Q]; [now elim Z|].
  assert (Q' : RtoC (si_lor si) <> RtoC 0) by (intros Hq; apply Q; now apply RtoC_inj).
  rewrite RtoC_div by exact Q. field. exact Q'.
Qed.

(** the reconstruction at a sample time is the model row times the fitted coefficients *)
Lemma own_row x row : good_row (si_tref si) (si_lor si) la (c_opt c) s x row ->
  recon_u c x = Fin (fst (cdot row m)) /\ (tw = true -> recon_v c x = Fin (snd (cdot row m))).
Proof.
  intros G. destruct (run_row x row m G (bh_len _ _ _ _ _ _ _ _ _ _ _ _ _ _ BH)) as (es & E1 & E2 & E3 & E4).
  destruct run_sel as (S1 & _). assert (PM := bh_pm _ _ _ _ _ _ _ _ _ _ _ _ _ _ BH).
  assert (TR := bh_tri _ _ _ _ _ _ _ _ _ _ _ _ _ _ BH HS).
  destruct (recon_natural c x es (s_name s) (s_lind s) _ (bh_wf _ _ _ _ _ _ _ _ _ _ _ _ _ _ BH) TR) as (R1 & R2 & _); auto.
  { symmetry. apply (ln_lind _ S1). }
  { now rewrite map_length. }
  rewrite R1. fold tw in R1, R2. rewrite visible_sum. rewrite visible_sum in R2. fold tw.
  unfold bgC in *. rewrite (bh_mn _ _ _ _ _ _ _ _ _ _ _ _ _ _ BH). rewrite (bh_mn _ _ _ _ _ _ _ _ _ _ _ _ _ _ BH) in R2.
  rewrite (bh_tref _ _ _ _ _ _ _ _ _ _ _ _ _ _ BH). rewrite (bh_tref _ _ _ _ _ _ _ _ _ _ _ _ _ _ BH) in R2.
  cbv zeta in *. fold tw in R2 |- *. rewrite E4. unfold tr in *.
  destruct (o_notrend (c_opt c)) eqn:En; cbn [negb] in *.
  - destruct tw; [split; [|intros _; rewrite R2 by reflexivity]; f_equal; cbn; ring|].
    split; [f_equal; cbn; ring|discriminate].
  - rewrite (bh_sl _ _ _ _ _ _ _ _ _ _ _ _ _ _ BH En). rewrite (bh_sl _ _ _ _ _ _ _ _ _ _ _ _ _ _ BH En) in R2. cbv zeta in *. fold tw in R2 |- *.
    destruct tw; [split; [|intros _; rewrite R2 by reflexivity]; f_equal; unfold Cplus; cbn [fst snd]; ring|].
    split; [f_equal; unfold Cplus, Cmult, RtoC; cbn [fst snd]; ring|discriminate].
Qed.
End Run.
