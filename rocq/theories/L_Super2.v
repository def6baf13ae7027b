(** Combinations of data: rows, means, slopes and reconstructions. *)
From Coq Require Import Lia Lra Permutation.
From Verif Require Import M_Base M_Bunch M_Lib M_Tables M_Const M_Options M_Time M_Slvinit M_Harmonics M_Select M_Ellipse
  M_Robust M_Period M_Conf M_Diag M_Solve M_Recon S_Dict S_Options S_Order S_Basis S_Select S_Fit S_Ellipse S_Slv S_Recon S_Model
  L_Base L_Options L_SolveInv L_OptSolve L_Slv L_Slv2 L_Order L_Select L_Fit L_Align L_SelOrder L_Basis L_Angle L_Ellipse L_Recon L_Recon2 L_Recon3 L_Core
  L_Ellipse2 L_Model L_Lsq L_Model2 L_Model3 L_Model4 L_Model5 L_Model6 L_Model7 L_Model8 L_Model9 L_Model10 L_Model11 L_Model12 L_Model15 L_Super.
Open Scope R_scope.
Open Scope string_scope.

Lemma all_some_none {A D} (f : A -> option D) l i : In i l -> f i = None -> all_some (map f l) = None.
Proof.
  induction l as [|a l IH]; [intros []|]. intros [->|H] E; cbn [map all_some]; [now rewrite E|]. rewrite IH by assumption. destruct (f a); reflexivity.
Qed.
Lemma all_some_all {A D} (f : A -> option D) l : (forall i, In i l -> f i <> None) -> exists es, all_some (map f l) = Some es.
Proof.
  induction l as [|a l IH]; intros H; [exists []; reflexivity|]. cbn [map all_some]. destruct (f a) eqn:E; [|destruct (H a (or_introl eq_refl) E)].
  destruct IH as (es & ->); [intros i Hi; apply H; now right|]. eexists; reflexivity.
Qed.

Lemma tides_terms c x names linds (pq : list (C * C)) : well_formed c -> Permutation (triples c) (combine (combine names linds) pq) ->
  length linds = length names -> length pq = length names ->
  tides c x (rows c) = option_map (fun es => hsum es pq) (all_some (map (e_of c x) linds)).
Proof.
  intros Wf P L1 L2.
  assert (PP : Permutation (combine (c_lind c) (pms c)) (combine linds pq)).
  { apply (Permutation_map (fun t => (snd (fst t), snd t))) in P. rewrite triples_pairs in P by assumption. rewrite P. apply Permutation_refl'.
    clear - L1 L2. revert linds pq L1 L2. induction names as [|n ns IH]; intros [|l ls] [|p ps] H1 H2; try discriminate; auto. cbn [combine map fst snd]. f_equal. apply IH; cbn in *; lia. }
  assert (A := wf_aligned _ Wf). destruct A as (_ & A2 & _).
  assert (PL : Permutation (c_lind c) linds).
  { apply (Permutation_map fst) in PP. rewrite !combine_fst in PP; auto; [congruence|]. rewrite A2. unfold pms. now rewrite map_length, seq_length. }
  destruct (tides_defined c x Wf) as [(es & E)|(T & i & I1 & I2)].
  - destruct (all_some_all (e_of c x) linds) as (es' & E').
    { intros i Hi. apply (Permutation_in _ (Permutation_sym PL)) in Hi. apply (in_map (e_of c x)) in Hi. rewrite E in Hi. apply in_map_iff in Hi.
      destruct Hi as (z & <- & _). discriminate. }
    rewrite E'. cbn [option_map]. apply all_some_map in E'.
    destruct (tides_hsum c x es Wf E) as (T & _). rewrite T. f_equal.
    rewrite (hsum_terms (e_of c x) (c_lind c) es (pms c) E), (hsum_terms (e_of c x) linds es' pq E'). apply csum_perm. now apply Permutation_map.
  - rewrite T. rewrite (all_some_none _ _ i); auto. apply (Permutation_in _ PL I1).
Qed.

Lemma hsum_pair2 al be es : forall p q, length q = length p -> hsum es (map (fun z => pair2 al be (fst z) (snd z)) (combine p q)) = Cplus (Cmult al (hsum es p)) (Cmult be (hsum es q)).
Proof.
  induction es as [|e es IH]; intros [|x p] [|y q] H; try discriminate; cbn [map combine]; try (unfold hsum; cbn; ring).
  assert (E : forall y l, hsum (e :: es) (y :: l) = Cplus (Cplus (Cmult e (fst y)) (Cmult (Cconj e) (snd y))) (hsum es l)) by reflexivity.
  rewrite !E, IH by now injection H. unfold pair2. cbn [fst snd]. ring.
Qed.

(** coefficient sets of three analyses whose vectors are combined *)
Section Combined.
Variables (s : sel) (lor : R) (tr : bool) (a b c : coef) (ka kb : list C) (al be : C).
Hypotheses (Wa : well_formed a) (Wb : well_formed b) (Wc : well_formed c).
Hypotheses (Ea : flags_of (c_opt a) = flags_of (c_opt c)) (Eb : flags_of (c_opt b) = flags_of (c_opt c)).
Hypotheses (Ra : c_reftime a = c_reftime c) (Rb : c_reftime b = c_reftime c) (La : c_lat a = c_lat c) (Lb : c_lat b = c_lat c).
Hypotheses (Na : o_notrend (c_opt a) = negb tr) (Nb : o_notrend (c_opt b) = negb tr) (Nc : o_notrend (c_opt c) = negb tr).
Hypothesis SL : sel_lens s.
Hypotheses (Lka : length ka = (2 * (s_nNR s + s_nR s) + 1 + (if tr then 1 else 0))%nat) (Lkb : length kb = length ka).
Notation kc := (lin2 al be ka kb).
Hypotheses (Ta : Permutation (triples a) (combine (combine (s_name s) (s_lind s)) (all_pm ka s)))
  (Tb : Permutation (triples b) (combine (combine (s_name s) (s_lind s)) (all_pm kb s)))
  (Tc : Permutation (triples c) (combine (combine (s_name s) (s_lind s)) (all_pm kc s))).
Hypotheses (Ma : mnC a = m_last ka (if tr then 2 else 1)%nat) (Mb : mnC b = m_last kb (if tr then 2 else 1)%nat) (Mc : mnC c = m_last kc (if tr then 2 else 1)%nat).
Hypotheses (Sa : tr = true -> slC a = Cdiv (m_last ka 1) (RtoC lor)) (Sb : tr = true -> slC b = Cdiv (m_last kb 1) (RtoC lor))
  (Sc : tr = true -> slC c = Cdiv (m_last kc 1) (RtoC lor)).

Lemma combined_mean : mnC c = Cplus (Cmult al (mnC a)) (Cmult be (mnC b)).
Proof. destruct (lin2_vec tr s al be ka kb Lka Lkb) as (_ & H & _). rewrite Mc, H, Ma, Mb. reflexivity. Qed.
Lemma combined_slope : tr = true -> slC c = Cplus (Cmult al (slC a)) (Cmult be (slC b)).
Proof.
  intros T. destruct (lin2_vec tr s al be ka kb Lka Lkb) as (_ & _ & H). rewrite (Sc T), (H T), (Sa T), (Sb T). unfold Cdiv. ring.
Qed.

Lemma pm_lens : length (all_pm ka s) = length (s_name s) /\ length (all_pm kb s) = length (s_name s) /\ length (s_lind s) = length (s_name s).
Proof.
  assert (G : forall k, length k = (2 * (s_nNR s + s_nR s) + 1 + (if tr then 1 else 0))%nat -> length (all_pm k s) = length (s_name s)).
  { intros k Hk. rewrite (all_pm_len _ _ SL) by (rewrite Hk; lia). rewrite <- (ln_lind _ SL) || idtac. reflexivity || (symmetry; apply (ln_lind _ SL)). }
  split; [now apply G|]. split; [apply G; congruence|]. now rewrite (ln_lind _ SL).
Qed.

Lemma combined_row ra rb rc n : NoDup (s_name s) -> In ra (rows a) -> In rb (rows b) -> In rc (rows c) ->
  w_name ra = Some n -> w_name rb = Some n -> w_name rc = Some n ->
  exists p q, rotary ra = Some p /\ rotary rb = Some q /\ rotary rc = Some (pair2 al be p q) /\ w_lind ra = w_lind rc /\ w_lind rb = w_lind rc.
Proof.
  intros ND Ha Hb Hc Na' Nb' Nc'. destruct pm_lens as (L1 & L2 & L3). destruct (lin2_vec tr s al be ka kb Lka Lkb) as (E & _).
  assert (L4 : length (all_pm kc s) = length (s_name s)) by (rewrite E, map_length, combine_length; lia).
  assert (In n (s_name s)) as Hn.
  { apply (in_map triple) in Hc. rewrite triples_rows in Hc by assumption. apply in_map_iff in Hc.
    destruct Hc as ([[n' l'] pq'] & E' & Ht). unfold triple in E'. cbn [fst snd] in E'. injection E' as E1 E2 E3. rewrite Nc' in E1. injection E1 as ->.
    apply (Permutation_in _ Tc) in Ht. apply in_combine_l in Ht. now apply in_combine_l in Ht. }
  apply In_nth_error in Hn. destruct Hn as (i & Hi).
  destruct (row_at a _ _ _ ra n i Wa Ta ND L3 L1 Ha Na' Hi) as (Fa & Ga). destruct (row_at b _ _ _ rb n i Wb Tb ND L3 L2 Hb Nb' Hi) as (Fb & Gb).
  destruct (row_at c _ _ _ rc n i Wc Tc ND L3 L4 Hc Nc' Hi) as (Fc & Gc).
  assert (Hlt : (i < length (s_name s))%nat) by (apply nth_error_Some; congruence).
  destruct (nth_error (all_pm ka s) i) as [p|] eqn:Ep; [|apply nth_error_None in Ep; lia].
  destruct (nth_error (all_pm kb s) i) as [q|] eqn:Eq; [|apply nth_error_None in Eq; lia].
  exists p, q. split; [exact Ga|]. split; [exact Gb|]. split; [|split; congruence].
  rewrite Gc, E, nth_error_map. 
  assert (X : nth_error (combine (all_pm ka s) (all_pm kb s)) i = Some (p, q)).
  { clear - Ep Eq. revert Ep Eq. generalize (all_pm ka s) (all_pm kb s). induction i as [|i IH]; intros [|x l] [|y k] H1 H2; try discriminate; cbn in *; [congruence|now apply IH]. }
  rewrite X. reflexivity.
Qed.

Lemma combined_val x : valC c x = match valC a x, valC b x with Some za, Some zb => Some (Cplus (Cmult al za) (Cmult be zb)) | _, _ => None end.
Proof.
  destruct pm_lens as (L1 & L2 & L3). destruct (lin2_vec tr s al be ka kb Lka Lkb) as (E & _).
  assert (L4 : length (all_pm kc s) = length (s_name s)) by (rewrite E, map_length, combine_length; lia).
  unfold valC. rewrite (tides_terms a x _ _ _ Wa Ta L3 L1), (tides_terms b x _ _ _ Wb Tb L3 L2), (tides_terms c x _ _ _ Wc Tc L3 L4).
  assert (Qa : map (e_of a x) (s_lind s) = map (e_of c x) (s_lind s)) by (apply map_ext; intros i; unfold e_of; now rewrite Ea, Ra, La).
  assert (Qb : map (e_of b x) (s_lind s) = map (e_of c x) (s_lind s)) by (apply map_ext; intros i; unfold e_of; now rewrite Eb, Rb, Lb).
  rewrite Qa, Qb. destruct (all_some (map (e_of c x) (s_lind s))) as [es|]; cbn [option_map]; [|reflexivity]. f_equal.
  rewrite E, hsum_pair2 by congruence. unfold bgC. assert (CS := combined_slope). rewrite Na, Nb, Nc, Ra, Rb, combined_mean. clear - CS.
  destruct tr; cbn [negb]; [rewrite CS by reflexivity|]; ring.
Qed.
End Combined.
