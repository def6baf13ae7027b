(** The rival of a coefficient vector; independent columns from identifiable coefficients. *)
From Coq Require Import Lia Lra Permutation.
From Verif Require Import M_Base M_Bunch M_Lib M_Tables M_Const M_Options M_Time M_Slvinit M_Harmonics M_Select M_Ellipse
  M_Robust M_Period M_Conf M_Diag M_Solve M_Recon S_Dict S_Options S_Order S_Basis S_Select S_Fit S_Ellipse S_Slv S_Recon S_Model
  L_Base L_Options L_SolveInv L_OptSolve L_Slv2 L_Order L_Select L_Fit L_Align L_SelOrder L_Basis L_Angle L_Ellipse L_Recon L_Recon2 L_Recon3 L_Core
  L_Model L_Lsq L_Model2 L_Model3 L_Model4 L_Model5.
Open Scope R_scope.
Open Scope string_scope.

Lemma turn_conj o : turn (- o) = Cconj (turn o).
Proof. unfold turn, cis, Cconj. cbn [fst snd]. f_equal; [rewrite <- cos_neg|rewrite <- sin_neg]; f_equal; unfold rad; field. Qed.

Lemma Cconj_mult a b : Cconj (Cmult a b) = Cmult (Cconj a) (Cconj b).
Proof. unfold Cconj, Cmult. cbn [fst snd]. f_equal; ring. Qed.
Lemma Cconj_plus a b : Cconj (Cplus a b) = Cplus (Cconj a) (Cconj b).
Proof. unfold Cconj, Cplus. cbn [fst snd]. f_equal; ring. Qed.
Lemma Cconj_R x : Cconj (RtoC x) = RtoC x.
Proof. unfold Cconj, RtoC. cbn [fst snd]. f_equal; ring. Qed.
Lemma Cconj_conj z : Cconj (Cconj z) = z.
Proof. unfold Cconj. cbn [fst snd]. destruct z; cbn [fst snd]; f_equal; ring. Qed.

Lemma visible_tied tw pq rp rm : (tw = false -> rm = Cconj rp) ->
  visible tw (Cmult rp (fst pq), Cmult rm (snd pq)) = (Cmult rp (fst (visible tw pq)), Cmult rm (snd (visible tw pq))).
Proof.
  intros H. unfold visible. destruct tw; [reflexivity|]. rewrite (H eq_refl). cbv zeta. cbn [fst snd].
  rewrite ?Cconj_mult, ?Cconj_plus, ?Cconj_mult, ?Cconj_R, ?Cconj_conj. f_equal; ring.
Qed.

Lemma inferred_visible tw Rs p q : (forall r, In r Rs -> length (r_Rp r) = length (r_Rm r)) ->
  (tw = false -> forall r, In r Rs -> r_Rm r = map Cconj (r_Rp r)) -> length p = length Rs -> length q = length Rs ->
  map (visible tw) (combine (inferred_coefs (map r_Rp Rs) p) (inferred_coefs (map r_Rm Rs) q)) =
  combine (inferred_coefs (map r_Rp Rs) (map fst (map (visible tw) (combine p q))))
          (inferred_coefs (map r_Rm Rs) (map snd (map (visible tw) (combine p q)))).
Proof.
  revert p q. induction Rs as [|r Rs IH]; intros [|p0 p] [|q0 q] H1 H2 Lp Lq; try discriminate; [reflexivity|].
  unfold inferred_coefs in *. cbn [map combine List.concat fst snd].
  rewrite !combine_app by (rewrite !map_length; auto using in_eq). rewrite map_app. f_equal.
  - assert (E := H2). assert (Hl := H1 r (or_introl eq_refl)).
    assert (E' : tw = false -> r_Rm r = map Cconj (r_Rp r)) by (intros T; apply E; [exact T|now left]).
    clear - Hl E'. revert Hl E'. generalize (r_Rp r) (r_Rm r).
    induction l as [|x l IH]; intros [|y k] Hl E; try discriminate; [reflexivity|]. cbn [map combine].
    change (p0, q0) with (p0, q0) in *. f_equal.
    + apply (visible_tied tw (p0, q0)). intros T. specialize (E T). now injection E.
    + apply IH; [now injection Hl|]. intros T. specialize (E T). now injection E.
  - apply IH; try (intros; auto using in_cons).
Qed.

Section Run.
Variables (L : lib) (t : pyarr tarray) (u : pyarr (list xr)) (v : option (pyarr (list xr))) (lat : option R) (opts : dict pyval) (c : coef).
Variables (si : slv) (la : R) (s : sel) (B : list (list C)) (xraw m : list C) (W : list xr).
Hypothesis BH : behind L t u v lat opts c si la s B xraw m W.

Definition vis1 (tw : bool) (z : C) : C := if tw then z else RtoC (fst z).

Lemma run_stored f : o_infer (c_opt c) = Some f -> exists js, Permutation js (seq 0 (length (inf_inferred f))) /\
    Forall2 (request_at f (o_twodim (c_opt c))) js (flat_map stored (s_R s)).
Proof.
  intros Ei. destruct (bh_inf _ _ _ _ _ _ _ _ _ _ _ _ _ _ BH) as (inf & V1 & V2).
  assert (Hsel := bh_sel _ _ _ _ _ _ _ _ _ _ _ _ _ _ BH). rewrite Ei in *.
  rewrite (bh_tw _ _ _ _ _ _ _ _ _ _ _ _ _ _ BH). exact (stored_requests _ _ _ _ _ _ (validated_shape _ _ _ _ V1 V2) Hsel).
Qed.
Lemma run_request f j q : o_infer (c_opt c) = Some f -> request_at f (o_twodim (c_opt c)) j q -> In q (flat_map stored (s_R s)).
Proof.
  intros Ei H. destruct (run_stored f Ei) as (js & P & F).
  assert (Hj : In j js).
  { apply (Permutation_in _ (Permutation_sym P)). apply in_seq. destruct H as (i & r & a & o & H & _).
    split; [lia|]. apply nth_error_Some. cbn. congruence. }
  assert (U : forall q', request_at f (o_twodim (c_opt c)) j q' -> q' = q).
  { intros q' H'. destruct H as (i & r & a & o & A1 & A2 & A3 & A4 & A5), H' as (i' & r' & a' & o' & B1 & B2 & B3 & B4 & B5).
    assert (i' = i) by congruence. assert (r' = r) by congruence. assert (a' = a) by congruence. assert (o' = o) by congruence. subst.
    destruct (o_twodim (c_opt c)); [|congruence].
    destruct A5 as (x & y & X1 & X2 & ->), B5 as (x' & y' & Y1 & Y2 & ->).
    assert (x' = x) by congruence. assert (y' = y) by congruence. now subst. }
  clear P. induction F as [|j' q' js l H' F IH]; [destruct Hj|]. destruct Hj as [->|Hj]; [left; now apply U|right; auto].
Qed.
Lemma run_conj : o_twodim (c_opt c) = false -> forall r, In r (s_R s) -> r_Rm r = map Cconj (r_Rp r).
Proof.
  intros T r Hr. assert (Hsel := bh_sel _ _ _ _ _ _ _ _ _ _ _ _ _ _ BH).
  destruct (o_infer (c_opt c)) as [f|] eqn:Ei; [|rewrite (infer_none_R _ _ _ _ _ Hsel eq_refl) in Hr; destruct Hr].
  destruct (run_stored f Ei) as (js & _ & F).
  assert (H : forall q, In q (flat_map stored (s_R s)) -> snd q = Cconj (snd (fst q))).
  { intros q Hq. assert (exists j, request_at f (o_twodim (c_opt c)) j q) as (j & Hj).
    { clear - F Hq. induction F; [destruct Hq|]. destruct Hq as [<-|Hq]; eauto. }
    destruct Hj as (i & r' & a & o & _ & _ & _ & _ & Hj). rewrite T in Hj. rewrite Hj. cbn [fst snd].
    rewrite turn_conj, Cconj_mult, Cconj_R. reflexivity. }
  assert (H' : forall q, In q (stored r) -> snd q = Cconj (snd (fst q))) by (intros q Hq; apply H; apply in_flat_map; eauto).
  destruct (ln_I _ (run_lens _ _ _ _ _ _ _ _ _ _ _ _ _ _ BH) r Hr) as (_ & _ & L1 & L2). unfold stored in H'. clear - H' L1 L2.
  revert H' L1 L2. generalize (r_Iname r) (r_Rp r) (r_Rm r). induction l as [|n l IH]; intros [|p P] [|q Q] H L1 L2; try discriminate; auto.
  cbn [map]. f_equal.
  - exact (H _ (or_introl eq_refl)).
  - apply IH; auto. intros x Hx. apply H. now right.
Qed.

Let tr := negb (o_notrend (c_opt c)).

Lemma mvis k : length k = ncoef (c_opt c) s -> exists k', length k' = ncoef (c_opt c) s /\
  all_pm k' s = map (visible (o_twodim (c_opt c))) (all_pm k s) /\
  m_last k' (if tr then 2 else 1)%nat = vis1 (o_twodim (c_opt c)) (m_last k (if tr then 2 else 1)%nat) /\
  (tr = true -> m_last k' 1 = vis1 (o_twodim (c_opt c)) (m_last k 1)).
Proof.
  intros Hk. set (tw := o_twodim (c_opt c)).
  destruct (split_m tr (s_nNR s) (s_nR s) k) as (a & b & p & q & mn & sl & -> & La & Lb & Lp & Lq).
  { rewrite Hk. unfold ncoef, tr. destruct (o_notrend (c_opt c)); reflexivity. }
  assert (SL := run_lens _ _ _ _ _ _ _ _ _ _ _ _ _ _ BH).
  exists (cat_m tr (map fst (map (visible tw) (combine a b))) (map snd (map (visible tw) (combine a b)))
                (map fst (map (visible tw) (combine p q))) (map snd (map (visible tw) (combine p q))) (vis1 tw mn) (vis1 tw sl)).
  split; [|split].
  - rewrite cat_m_len in *. rewrite !map_length, !combine_length. lia.
  - rewrite !cat_pm by (rewrite ?map_length, ?combine_length; lia). rewrite !combine_split, !map_app. f_equal. f_equal.
    symmetry. apply inferred_visible.
    + intros r Hr. destruct (ln_I _ SL r Hr) as (_ & _ & L1 & L2). congruence.
    + intros T. now apply run_conj.
    + rewrite <- (ln_nR _ SL). exact Lp.
    + rewrite <- (ln_nR _ SL). exact Lq.
  - destruct (cat_last tr a b p q mn sl) as [C1 C2].
    destruct (cat_last tr (map fst (map (visible tw) (combine a b))) (map snd (map (visible tw) (combine a b)))
                (map fst (map (visible tw) (combine p q))) (map snd (map (visible tw) (combine p q))) (vis1 tw mn) (vis1 tw sl)) as [D1 D2].
    rewrite C1, D1. split; auto. intros T. rewrite (C2 T), (D2 T). reflexivity.
Qed.

(** ratios between the coefficients of inferred constituents and those of their references *)
Lemma stored_coefs Rs (N2 : list (C * C)) : (forall r, In r Rs -> length (r_Rp r) = length (r_Iname r) /\ length (r_Rm r) = length (r_Iname r)) ->
  length N2 = length Rs -> forall i r rp rm, In (i, r, rp, rm) (flat_map stored Rs) ->
  exists y, In (r, y) (combine (map r_name Rs) N2) /\
    In (i, (Cmult rp (fst y), Cmult rm (snd y))) (combine (flat_map r_Iname Rs)
      (combine (inferred_coefs (map r_Rp Rs) (map fst N2)) (inferred_coefs (map r_Rm Rs) (map snd N2)))).
Proof.
  revert N2. induction Rs as [|r0 Rs IH]; intros [|y N2] HI L2 i r rp rm H; try discriminate; [destruct H|].
  destruct (HI r0 (or_introl eq_refl)) as [H1 H2].
  cbn [flat_map] in H. apply in_app_or in H. unfold inferred_coefs. cbn [map combine List.concat flat_map fst snd].
  rewrite combine_app by (rewrite !map_length; congruence). rewrite combine_app by (rewrite combine_length, !map_length; lia).
  destruct H as [H|H].
  - exists y. unfold stored in H. apply in_map_iff in H. destruct H as ([[n x] z] & E & H). cbn [fst snd] in E. injection E as <- <- <- <-.
    split; [now left|]. apply in_or_app. left. clear - H H1 H2. revert H H1 H2. generalize (r_Iname r0) (r_Rp r0) (r_Rm r0).
    induction l as [|w l IH]; intros [|p P] [|q Q] H H1 H2; try discriminate; [destruct H|].
    cbn [combine map] in *. destruct H as [H|H]; [left; congruence|right; apply IH; auto].
  - destruct (IH N2 (fun r Hr => HI r (or_intror Hr)) ltac:(now injection L2) i r rp rm H) as (z & Z1 & Z2).
    exists z. split; [now right|]. apply in_or_app. right. exact Z2.
Qed.

Lemma nodup_pair {A D} (l : list A) (k : list D) a x y : NoDup l -> In (a, x) (combine l k) -> In (a, y) (combine l k) -> x = y.
Proof.
  revert k. induction l as [|b l IH]; intros [|z k] N H1 H2; cbn [combine] in H1, H2; try (destruct H1; fail).
  apply NoDup_cons_iff in N. destruct N as [N1 N2].
  destruct H1 as [H1|H1], H2 as [H2|H2].
  - congruence.
  - injection H1 as -> ->. elim N1. now apply in_combine_l in H2.
  - injection H2 as -> ->. elim N1. now apply in_combine_l in H1.
  - eauto.
Qed.

Lemma names_vis tw k : length k = ncoef (c_opt c) s -> tw = o_twodim (c_opt c) -> NoDup (s_name s) ->
  forall i r rp rm, In (i, r, rp, rm) (flat_map stored (s_R s)) ->
  forall x y, In (i, x) (combine (s_name s) (all_pm k s)) -> In (r, y) (combine (s_name s) (all_pm k s)) ->
  x = (Cmult rp (fst y), Cmult rm (snd y)).
Proof.
  intros Hk _ ND i r rp rm H x y Hx Hy. assert (SL := run_lens _ _ _ _ _ _ _ _ _ _ _ _ _ _ BH).
  destruct (split_m tr (s_nNR s) (s_nR s) k) as (a & b & p & q & mn & sl & -> & La & Lb & Lp & Lq).
  { rewrite Hk. unfold ncoef, tr. destruct (o_notrend (c_opt c)); reflexivity. }
  rewrite cat_pm in Hx, Hy by assumption.
  assert (HI : forall r, In r (s_R s) -> length (r_Rp r) = length (r_Iname r) /\ length (r_Rm r) = length (r_Iname r)).
  { intros r' Hr. destruct (ln_I _ SL r' Hr) as (_ & _ & H1 & H2). auto. }
  destruct (stored_coefs (s_R s) (combine p q) HI ltac:(rewrite combine_length, <- (ln_nR _ SL); lia) i r rp rm H) as (z & Z1 & Z2).
  rewrite combine_fst, combine_snd in Z2 by congruence.
  assert (E : forall w, combine (s_name s) (combine a b ++ combine p q ++ w)%list =
    (combine (s_NRname s) (combine a b) ++ combine (map r_name (s_R s)) (combine p q) ++ combine (flat_map r_Iname (s_R s)) w)%list).
  { intros w. rewrite (ln_name _ SL), !combine_app; auto; rewrite ?map_length, combine_length.
    - rewrite <- (ln_nR _ SL). lia.
    - rewrite (ln_NRn _ SL), <- (ln_nNR _ SL). lia. }
  rewrite E in Hx, Hy.
  assert (y = z). { eapply (nodup_pair (s_name s)); eauto. rewrite E. exact Hy. rewrite E. apply in_or_app; right. apply in_or_app; now left. }
  subst z. eapply (nodup_pair (s_name s)); eauto. rewrite E. exact Hx. rewrite E. apply in_or_app; right. apply in_or_app; now right.
Qed.

(** a coefficient set whose rows come from a vector has the prescribed inference *)
Lemma vector_ties c' k : well_formed c' -> c_opt c' = c_opt c -> length k = ncoef (c_opt c) s -> NoDup (s_name s) ->
  Permutation (triples c') (combine (combine (s_name s) (s_lind s)) (all_pm k s)) -> ties c'.
Proof.
  intros Wf Eo Hk ND P. unfold ties. rewrite Eo. destruct (o_infer (c_opt c)) as [f|] eqn:Ei; auto.
  intros j i r rp rm Hq a b Ha Hb Na Nb. apply (run_request _ _ _ Ei) in Hq.
  destruct (row_rotary _ _ Wf Ha) as (na & pa & Na' & Ra). destruct (row_rotary _ _ Wf Hb) as (nb & pb & Nb' & Rb).
  assert (F : forall w n pq, In w (rows c') -> w_name w = Some n -> rotary w = Some pq -> In (n, pq) (combine (s_name s) (all_pm k s))).
  { intros w n pq Hw Hn Hpq. destruct (in_rows_triple _ _ _ _ Wf Hw Hn Hpq) as (tt & T1 & T2 & T3).
    apply (Permutation_in _ P) in T1. assert (SL := run_lens _ _ _ _ _ _ _ _ _ _ _ _ _ _ BH).
    assert (G : In (fst (fst tt), snd tt) (map (fun a : string * nat * (C * C) => (fst (fst a), snd a)) (combine (combine (s_name s) (s_lind s)) (all_pm k s)))).
    { exact (in_map (fun a : string * nat * (C * C) => (fst (fst a), snd a)) _ _ T1). }
    rewrite T2, T3 in G. clear - G SL. assert (E := ln_lind _ SL). revert E G. generalize (s_name s) (s_lind s) (all_pm k s).
    induction l as [|x l IH]; intros [|y k'] [|z n'] E G; try discriminate; try destruct G.
    - left. exact H.
    - right. eapply IH; eauto. }
  exists (fst pb), (snd pb). split; [rewrite Rb; f_equal; apply surjective_pairing|]. rewrite Ra. f_equal.
  eapply names_vis; eauto; eapply F; eauto.
Qed.
End Run.
