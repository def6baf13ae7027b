(** Approximate inference. *)
From Coq Require Import Lia Lra Permutation.
From Verif Require Import M_Base M_Bunch M_Lib M_Tables M_Const M_Options M_Time M_Slvinit M_Harmonics M_Select M_Ellipse
  M_Robust M_Period M_Conf M_Diag M_Solve M_Recon S_Dict S_Options S_Order S_Basis S_Select S_Fit S_Ellipse S_Slv S_Recon S_Model
  L_Base L_Options L_SolveInv L_OptSolve L_Slv L_Slv2 L_Order L_Select L_Fit L_Align L_SelOrder L_Basis L_Angle L_Ellipse L_Recon L_Recon2 L_Recon3 L_Core
  L_Ellipse2 L_Model L_Lsq L_Model2 L_Model3 L_Model4 L_Model5 L_Model6 L_Model7 L_Model8 L_Model9 L_Model10 L_Model11 L_Model12.
Open Scope R_scope.
Open Scope string_scope.

Lemma filter_no {A} (p : A -> bool) l : (forall x, In x l -> p x = false) -> filter p l = [].
Proof. induction l as [|a l IH]; intros H; cbn; auto. rewrite H by now left. apply IH. intros; apply H; now right. Qed.

Lemma filter_perm {A} (p : A -> bool) l k : Permutation l k -> Permutation (filter p l) (filter p k).
Proof.
  induction 1; cbn [filter]; auto.
  - destruct (p x); auto.
  - destruct (p x), (p y); auto. apply perm_swap.
  - eapply Permutation_trans; eauto.
Qed.

(** ** rows one at a time *)
Lemma tides_app c x a b : tides c x (a ++ b) = match tides c x a, tides c x b with
  | Some p, Some q => Some (fst p + fst q, snd p + snd q) | _, _ => None end.
Proof.
  induction a as [|r a IH]; cbn [app tides].
  - destruct (tides c x b) as [[p q]|]; auto. cbn. f_equal. f_equal; ring.
  - rewrite IH. destruct (tide c x r), (tides c x a), (tides c x b); auto. cbn. f_equal. f_equal; ring.
Qed.
Lemma row_tide c x r : well_formed c -> In r (rows c) -> exists n i pq, triple r = (Some n, Some i, Some pq) /\
  tide c x r = option_map (fun e => Cplus (Cmult e (fst pq)) (Cmult (Cconj e) (snd pq))) (e_of c x i).
Proof.
  intros W H. apply in_map_iff in H. destruct H as (i & <- & Hi). apply in_seq in Hi.
  assert (A := wf_aligned _ W). destruct A as (_ & A2 & _).
  exists (nth i (c_name c) EmptyString), (nth i (c_lind c) 0%nat), (pm_of c i). split.
  - unfold triple. rewrite rotary_row by (auto; lia). unfold crow_of. cbn [w_name w_lind].
    rewrite (nth_error_at (c_name c) i EmptyString), (nth_error_at (c_lind c) i 0%nat) by lia. reflexivity.
  - rewrite tide_row by (auto; lia). reflexivity.
Qed.

(** sum over chosen triples *)
Definition tval (c : coef) (x : R) (t : string * nat * (C * C)) : C := hterm (e_of c x) (snd (fst t), snd t).
Lemma tides_rows c x (ch : crow -> bool) (p : string -> bool) : well_formed c ->
  (forall r n, In r (rows c) -> w_name r = Some n -> ch r = p n) ->
  (forall t, In t (triples c) -> p (fst (fst t)) = true -> exists e, e_of c x (snd (fst t)) = Some e) ->
  tides c x (filter ch (rows c)) = Some (csum (map (tval c x) (filter (fun t => p (fst (fst t))) (triples c)))).
Proof.
  intros W Hp He. assert (T := triples_rows c W). assert (RT := fun r => row_tide c x r W). revert T Hp He RT.
  generalize (rows c) (triples c). induction l as [|r l IH]; intros [|t tl] T Hp He RT; try discriminate; [reflexivity|].
  cbn [map] in T. injection T as T1 T2 T3 T4.
  specialize (IH tl T4 (fun r n Hr => Hp r n (or_intror Hr)) (fun t Ht => He t (or_intror Ht)) (fun r Hr => RT r (or_intror Hr))).
  cbn [filter]. rewrite (Hp r (fst (fst t)) (or_introl eq_refl) T1). destruct (p (fst (fst t))) eqn:Ep; [|exact IH].
  cbn [tides map]. rewrite IH, csum_cons'. destruct (RT r (or_introl eq_refl)) as (n & i & pq & R1 & R2).
  unfold triple in R1. rewrite T1, T2, T3 in R1. injection R1 as R1 R3 R4.
  destruct (He t (or_introl eq_refl) Ep) as (e & E). rewrite R2, <- R3, E. cbn [option_map]. f_equal.
  unfold tval, hterm. cbn [fst snd]. rewrite E, <- R4. reflexivity.
Qed.

(** ** leaving out the inferred constituents *)
Definition bare_ref (r : refstruct) : refstruct :=
  {| r_name := r_name r; r_lind := r_lind r; r_frq := r_frq r; r_Rp := []; r_Rm := []; r_Iname := []; r_Ilind := []; r_Ifrq := [] |}.
Definition bare (s : sel) : sel :=
  {| s_NRname := s_NRname s; s_NRlind := s_NRlind s; s_NRarr := s_NRarr s; s_NRfrq := s_NRfrq s; s_R := map bare_ref (s_R s);
     s_name := (s_NRname s ++ map r_name (s_R s))%list; s_frq := map (fun _ => 0) (s_NRname s ++ map r_name (s_R s));
     s_lind := (s_NRlind s ++ map r_lind (s_R s))%list; s_nNR := s_nNR s; s_nR := s_nR s; s_nI := 0 |}.

Lemma flat_bare {A} (f : refstruct -> list A) l : (forall r, f (bare_ref r) = []) -> flat_map f (map bare_ref l) = [].
Proof. intros H. induction l as [|r l IH]; cbn; auto. now rewrite H, IH. Qed.
Lemma bare_lens s : sel_lens s -> sel_lens (bare s).
Proof.
  intros S. constructor; unfold bare; cbn [s_NRname s_NRlind s_NRfrq s_R s_name s_frq s_lind s_nNR s_nR].
  - apply S. - apply S. - apply S. - rewrite map_length. apply S.
  - intros r Hr. apply in_map_iff in Hr. destruct Hr as (r' & <- & _). repeat split.
  - apply map_length.
  - rewrite !app_length, !map_length, (ln_NRn _ S). reflexivity.
  - rewrite (flat_bare r_Iname) by reflexivity. rewrite map_map. cbn [bare_ref r_name]. now rewrite app_nil_r.
Qed.
Lemma bare_lind s : s_lind (bare s) = (s_NRlind (bare s) ++ map r_lind (s_R (bare s)) ++ flat_map r_Ilind (s_R (bare s)))%list.
Proof.
  unfold bare; cbn [s_NRlind s_R s_lind]. rewrite (flat_bare r_Ilind) by reflexivity. rewrite map_map. cbn [bare_ref r_lind]. now rewrite app_nil_r.
Qed.
Lemma bare_row tr e te s : model_row true tr e te s = model_row false tr e te (bare s).
Proof.
  unfold model_row. cbn [bare s_NRlind s_R]. rewrite !map_map.
  assert (P : forall r, ref_p true e r = ref_p false e (bare_ref r)).
  { intros r. unfold ref_p. cbn [bare_ref r_lind r_Ilind r_Rp map]. unfold etil_p. destruct (e (r_lind r)) as [z|]; cbn; auto.
    f_equal. unfold RtoC. apply C_eq; cbn; ring. }
  assert (Q : forall r, oconj (ref_m true e r) = oconj (ref_m false e (bare_ref r))).
  { intros r. f_equal. unfold ref_m. cbn [bare_ref r_lind r_Ilind r_Rm map]. unfold etil_m. destruct (e (r_lind r)) as [z|]; cbn; auto.
    f_equal. unfold RtoC. apply C_eq; cbn; ring. }
  rewrite (map_ext _ _ P), (map_ext _ _ Q). reflexivity.
Qed.
Lemma bare_pm (tr : bool) s m : sel_lens s -> length m = (2 * (s_nNR s + s_nR s) + 1 + (if tr then 1 else 0))%nat ->
  exists I, all_pm m s = (all_pm m (bare s) ++ I)%list.
Proof.
  intros S Lm. destruct (split_m tr _ _ _ Lm) as (a & b & p & q & mn & sl & -> & La & Lb & Lp & Lq).
  rewrite !cat_pm by assumption. unfold bare; cbn [s_R]. rewrite !map_map. cbn [bare_ref r_Rp r_Rm].
  assert (Z : forall (l : list refstruct) z, inferred_coefs (map (fun _ => []) l) z = []).
  { induction l as [|r l IH]; intros [|z zs]; auto. unfold inferred_coefs in *. cbn. apply IH. }
  rewrite !Z. cbn [combine]. rewrite app_nil_r. eexists. rewrite app_assoc. reflexivity.
Qed.

Section Run.
Variables (L : lib) (t : pyarr tarray) (u : pyarr (list xr)) (v : option (pyarr (list xr))) (lat : option R) (opts : dict pyval) (c : coef).
Variables (si : slv) (la : R) (s : sel) (B : list (list C)) (xraw m : list C) (W : list xr).
Hypothesis BH : behind L t u v lat opts c si la s B xraw m W.
Hypothesis HS : sorted_order (opt_value opts "order_constit").
Variable inf : infer_r.
Hypothesis Ei : o_infer (c_opt c) = Some inf.
Hypothesis Ap : inf_approx inf = true.
Hypothesis ND : NoDup (c_name c).

Notation tw := (o_twodim (c_opt c)).
Notation tr := (negb (o_notrend (c_opt c))).

Lemma approx_row x row k : good_row (si_tref si) (si_lor si) la (c_opt c) s x row -> length k = ncoef (c_opt c) s ->
  exists es, map (e_of c x) (s_lind (bare s)) = map Some es /\ length es = length (all_pm k (bare s)) /\ (tr = true -> si_lor si <> 0) /\
  cdot row k = Cplus (Cplus (hsum es (all_pm k (bare s))) (m_last k (if tr then 2 else 1)%nat))
                     (if tr then Cmult (RtoC (x - si_tref si)) (Cdiv (m_last k 1) (RtoC (si_lor si))) else RtoC 0).
Proof.
  intros G Lk. destruct (run_sel _ _ _ _ _ _ _ _ _ _ _ _ _ _ BH) as (S1 & S2 & S3). unfold good_row in G.
  replace (is_approx (c_opt c)) with true in G by (unfold is_approx; now rewrite Ei). rewrite bare_row in G.
  destruct (row_sum tr _ _ _ _ k (bare_lens _ S1) (bare_lind s) G) as (es & E1 & E2 & E3 & E4).
  { rewrite Lk. unfold ncoef. unfold bare; cbn [s_nNR s_nR]. destruct (o_notrend (c_opt c)); reflexivity. }
  exists es. split.
  { rewrite <- E1. apply map_ext. intros i. unfold e_of. now rewrite (bh_tref _ _ _ _ _ _ _ _ _ _ _ _ _ _ BH), (bh_la _ _ _ _ _ _ _ _ _ _ _ _ _ _ BH). }
  split; auto.
  assert (Z : tr = true -> si_lor si <> 0).
  { intros T. destruct (E3 T) as [w Hw]. unfold trend_entry in Hw. destruct (Req_EM_T (si_lor si) 0); [discriminate|auto]. }
  split; auto. rewrite E4. f_equal. destruct tr; auto. unfold trend_entry. destruct (Req_EM_T (si_lor si) 0) as [Q|Q]; [now elim Z|].
  assert (Q' : RtoC (si_lor si) <> RtoC 0) by (intros Hq; apply Q; now apply RtoC_inj).
  rewrite RtoC_div by exact Q. field. exact Q'.
Qed.

Lemma names_perm : Permutation (c_name c) (s_name s).
Proof.
  assert (P := bh_tri _ _ _ _ _ _ _ _ _ _ _ _ _ _ BH HS). assert (SL := run_lens _ _ _ _ _ _ _ _ _ _ _ _ _ _ BH).
  assert (Wf := bh_wf _ _ _ _ _ _ _ _ _ _ _ _ _ _ BH).
  assert (LP := all_pm_run _ _ _ _ _ _ _ _ _ _ _ _ _ _ BH m (bh_len _ _ _ _ _ _ _ _ _ _ _ _ _ _ BH)).
  apply (Permutation_map fst) in P. rewrite triples_fst in P by assumption.
  rewrite combine_fst in P by (rewrite map_length, combine_length, LP, (ln_lind _ SL); lia).
  apply (Permutation_map fst) in P. rewrite combine_fst in P by (assert (A := wf_aligned _ Wf); destruct A as (_ & A & _); now rewrite A).
  rewrite combine_fst in P by now rewrite (ln_lind _ SL). exact P.
Qed.

(** the inferred names are those stored under the references *)
Lemma inferred_names n : In n (inf_inferred inf) <-> In n (flat_map r_Iname (s_R s)).
Proof.
  destruct (run_stored _ _ _ _ _ _ _ _ _ _ _ _ _ _ BH inf Ei) as (js & P & F).
  assert (SL := run_lens _ _ _ _ _ _ _ _ _ _ _ _ _ _ BH).
  assert (E : map (fun q : request => fst (fst (fst q))) (flat_map stored (s_R s)) = flat_map r_Iname (s_R s)).
  { assert (HI := ln_I _ SL). revert HI. generalize (s_R s). clear. induction l as [|r l IH]; intros HI; auto. cbn [flat_map]. rewrite map_app, (IH (fun q Hq => HI q (or_intror Hq))). f_equal.
    destruct (HI r (or_introl eq_refl)) as (_ & _ & H1 & H2). unfold stored. rewrite map_map. cbn [fst snd].
    revert H1 H2. generalize (r_Iname r) (r_Rp r) (r_Rm r). clear. induction l as [|a l IH]; intros [|b lb] [|d ld] H1 H2; try discriminate; auto.
    cbn. f_equal. apply IH; [now injection H1|now injection H2]. }
  rewrite <- E. split.
  - intros H. apply In_nth_error in H. destruct H as (j & Hj).
    assert (Hin : In j js). { apply (Permutation_in _ (Permutation_sym P)). apply in_seq. split; [lia|]. apply nth_error_Some. cbn. congruence. }
    clear - F Hin Hj. induction F as [|j' q js qs Hq F IH]; [destruct Hin|]. destruct Hin as [<- |Hin]; [|right; auto].
    left. destruct Hq as (i & r & a & o & H1 & H2 & H3 & H4 & H5). destruct (o_twodim (c_opt c)).
    + destruct H5 as (a2 & o2 & _ & _ & ->). cbn [fst snd]. congruence.
    + subst q. cbn [fst snd]. congruence.
  - intros H. clear - F H. induction F as [|j' q js qs Hq F IH]; [destruct H|]. destruct H as [H|H]; [|auto].
    destruct Hq as (i & r & a & o & H1 & H2 & H3 & H4 & H5). apply nth_error_In in H1. destruct (o_twodim (c_opt c)).
    + destruct H5 as (a2 & o2 & _ & _ & ->). cbn [fst snd] in H. congruence.
    + subst q. cbn [fst snd] in H. congruence.
Qed.

Definition keep (n : string) : bool := if in_dec string_dec n (inf_inferred inf) then false else true.
Lemma split_triples : exists T0 T1, combine (combine (s_name s) (s_lind s)) (map (visible tw) (all_pm m s)) = (T0 ++ T1)%list /\
  T0 = combine (combine (s_name (bare s)) (s_lind (bare s))) (map (visible tw) (all_pm m (bare s))) /\
  filter (fun x : string * nat * (C * C) => keep (fst (fst x))) (T0 ++ T1) = T0.
Proof.
  assert (SL := run_lens _ _ _ _ _ _ _ _ _ _ _ _ _ _ BH). destruct (run_sel _ _ _ _ _ _ _ _ _ _ _ _ _ _ BH) as (_ & SN & _).
  destruct (bare_pm tr s m SL) as (I & HI).
  { rewrite (bh_len _ _ _ _ _ _ _ _ _ _ _ _ _ _ BH). unfold ncoef. destruct (o_notrend (c_opt c)); reflexivity. }
  assert (LB : length (all_pm m (bare s)) = length (s_lind (bare s))).
  { destruct (split_m tr (s_nNR s) (s_nR s) m) as (a & b & p & q & mn & sl & -> & La & Lb & Lp & Lq).
    { rewrite (bh_len _ _ _ _ _ _ _ _ _ _ _ _ _ _ BH). unfold ncoef. destruct (o_notrend (c_opt c)); reflexivity. }
    rewrite cat_pm by assumption. unfold bare; cbn [s_R s_lind]. rewrite !map_map. cbn [bare_ref r_Rp r_Rm].
    assert (Z : forall (l : list refstruct) z, inferred_coefs (map (fun _ => []) l) z = []).
    { induction l as [|r l IH]; intros [|z zs]; auto. unfold inferred_coefs in *. cbn. apply IH. }
    rewrite !Z. cbn [combine]. rewrite app_nil_r, !app_length, !combine_length, map_length, <- (ln_nR _ SL), <- (ln_nNR _ SL). lia. }
  set (n0 := (s_NRname s ++ map r_name (s_R s))%list). set (l0 := (s_NRlind s ++ map r_lind (s_R s))%list).
  set (n1 := flat_map r_Iname (s_R s)). set (l1 := flat_map r_Ilind (s_R s)).
  assert (L0 : length n0 = length l0) by (unfold n0, l0; rewrite !app_length, !map_length, (ln_NRn _ SL); reflexivity).
  assert (EN : s_name s = (n0 ++ n1)%list) by (unfold n0, n1; now rewrite (ln_name _ SL), app_assoc).
  assert (EL : s_lind s = (l0 ++ l1)%list) by (unfold l0, l1; now rewrite (sn_lind _ _ SN), app_assoc).
  exists (combine (combine n0 l0) (map (visible tw) (all_pm m (bare s)))), (combine (combine n1 l1) (map (visible tw) I)).
  split; [|split; [reflexivity|]].
  - rewrite EN, EL, HI, map_app, combine_app by exact L0. apply combine_app. rewrite map_length, LB, combine_length. change (s_lind (bare s)) with l0. lia.
  - assert (ND' := Permutation_NoDup names_perm ND). rewrite EN in ND'.
    rewrite filter_app. rewrite filter_all, filter_no; [apply app_nil_r| |].
    + intros [[n i] pq] Hx. cbn [fst]. apply in_combine_l, in_combine_l in Hx. unfold keep. destruct (in_dec string_dec n (inf_inferred inf)) as [|N]; auto.
      elim N. now apply inferred_names.
    + intros [[n i] pq] Hx. cbn [fst]. apply in_combine_l, in_combine_l in Hx. unfold keep. destruct (in_dec string_dec n (inf_inferred inf)) as [N|]; auto.
      apply inferred_names in N. exfalso. clear - ND' Hx N. fold n1 in N. induction n0 as [|a n0' IH]; [destruct Hx|]. cbn in ND'. inversion ND'; subst.
      destruct Hx as [<- |Hx]; [|auto]. apply H1. apply in_or_app. now right.
Qed.
Lemma approx_yields x row : good_row (si_tref si) (si_lor si) la (c_opt c) s x row ->
  yields_only c (not_inferred c) x (vis1 tw (cdot row m)).
Proof.
  intros G. destruct (approx_row x row m G (bh_len _ _ _ _ _ _ _ _ _ _ _ _ _ _ BH)) as (es & E1 & E2 & E3 & E4).
  assert (Wf := bh_wf _ _ _ _ _ _ _ _ _ _ _ _ _ _ BH). assert (SL := run_lens _ _ _ _ _ _ _ _ _ _ _ _ _ _ BH).
  destruct split_triples as (T0 & T1 & T2 & T3 & T4).
  assert (P := bh_tri _ _ _ _ _ _ _ _ _ _ _ _ _ _ BH HS). rewrite T2 in P.
  assert (L3 : length (combine (s_name (bare s)) (s_lind (bare s))) = length (s_lind (bare s))).
  { rewrite combine_length. rewrite <- (ln_lind _ (bare_lens _ SL)). apply Nat.min_id. }
  assert (L4 : length (map (visible tw) (all_pm m (bare s))) = length (s_lind (bare s))).
  { rewrite map_length, <- E2. apply (f_equal (@length _)) in E1. now rewrite !map_length in E1. }
  assert (TD : tides c x (filter (chosen c (CSeq (not_inferred c)) 0 0) (rows c)) = Some (hsum es (map (visible tw) (all_pm m (bare s))))).
  { rewrite (tides_rows c x _ keep Wf).
    - f_equal. transitivity (csum (map (tval c x) T0)).
      { apply csum_perm, Permutation_map. rewrite <- T4. now apply filter_perm. }
      rewrite (hsum_terms _ _ _ _ E1). f_equal. rewrite T3. unfold tval. rewrite <- (map_map (fun t : string * nat * (C * C) => (snd (fst t), snd t)) (hterm (e_of c x))). f_equal.
      assert (GG : forall (a : list string) (b : list nat) (q : list (C * C)), length b = length a ->
        map (fun t => (snd (fst t), snd t)) (combine (combine a b) q) = combine b q).
      { clear. induction a as [|y a IH]; intros [|z b] q H; try discriminate; auto. destruct q; cbn; auto. f_equal. apply IH. now injection H. }
      apply GG. apply (ln_lind _ (bare_lens _ SL)).
    - intros r n Hr Hn. unfold chosen. rewrite Hn. unfold not_inferred. rewrite Ei.
      assert (Hc : In n (c_name c)).
      { apply in_map_iff in Hr. destruct Hr as (i & <- & _). unfold crow_of in Hn. cbn [w_name] in Hn. eapply nth_error_In; eauto. }
      fold keep. change (fun n0 : string => if in_dec string_dec n0 (inf_inferred inf) then false else true) with keep.
      destruct (in_dec string_dec n (filter keep (c_name c))) as [H|H].
      + apply filter_In in H. symmetry. apply H.
      + destruct (keep n) eqn:Ek; auto. elim H. apply filter_In. auto.
    - intros y Hy Hk. apply (Permutation_in _ P) in Hy.
      assert (Hy' : In y T0) by (rewrite <- T4; apply filter_In; auto).
      rewrite T3 in Hy'. destruct y as [[n i] pq]. cbn [fst snd]. apply in_combine_l, in_combine_r in Hy'.
      apply (in_map (e_of c x)) in Hy'. rewrite E1 in Hy'. apply in_map_iff in Hy'. destruct Hy' as (e & He & _). eauto. }
  unfold yields_only, value_u, value_v. rewrite TD. cbv zeta. cbn [option_map]. rewrite visible_sum, E4.
  assert (MN := bh_mn _ _ _ _ _ _ _ _ _ _ _ _ _ _ BH). assert (SLP := bh_sl _ _ _ _ _ _ _ _ _ _ _ _ _ _ BH). cbv zeta in MN, SLP.
  unfold mnC, slC in *. unfold background. rewrite (bh_tref _ _ _ _ _ _ _ _ _ _ _ _ _ _ BH). unfold vis1.
  clear TD E1 E2 E4 P T2 T3 T4 L3 L4. generalize (hsum es (all_pm m (bare s))). intros h.
  destruct tw eqn:E2d.
  - destruct (wf_2d _ Wf E2d) as (_ & _ & _ & (mu & Emu) & (mv & Emv) & Wt & _). rewrite Emu, Emv in *. cbn [od] in *.
    destruct (o_notrend (c_opt c)) eqn:En; cbn [negb] in *.
    + rewrite <- MN. cbn. split; f_equal; ring.
    + destruct (Wt eq_refl) as ((su & Esu) & (sv & Esv)). rewrite Esu, Esv in *. specialize (SLP eq_refl). cbn [od] in SLP. rewrite <- MN, <- SLP. cbn. split; f_equal; ring.
  - destruct (wf_1d _ Wf E2d) as (_ & _ & (mu & Emu) & Wt & _). rewrite Emu in *. cbn [od] in *.
    split; [|reflexivity].
    destruct (o_notrend (c_opt c)) eqn:En; cbn [negb] in *.
    + apply (f_equal fst) in MN. cbn [fst RtoC] in MN. cbn. rewrite MN. f_equal. ring.
    + destruct (Wt eq_refl) as (su & Esu). rewrite Esu in *. specialize (SLP eq_refl). cbn [od] in SLP.
      apply (f_equal fst) in MN. apply (f_equal fst) in SLP. cbn [fst RtoC] in MN, SLP.
      assert (F : forall a b : C, fst (Cplus a b) = fst a + fst b) by reflexivity.
      assert (F2 : forall r z, fst (Cmult (RtoC r) z) = r * fst z) by (intros; cbn; ring).
      rewrite !F, F2, <- MN, <- SLP. cbn. f_equal. ring.
Qed.
End Run.
