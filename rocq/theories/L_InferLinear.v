(** Linearised intervals of analyses with inference. *)
From Coq Require Import Lia Lra Permutation.
From Verif Require Import M_Base M_Bunch M_Lib M_Tables M_Const M_Options M_Time M_Slvinit M_Harmonics M_Select M_Ellipse
  M_Robust M_Period M_Conf M_Diag M_Solve M_Recon S_Dict S_Options S_Order S_Basis S_Select S_Fit S_Ellipse S_Slv S_Recon S_Model S_Robust S_RobustKw S_Errors S_Perm S_Period S_Noise S_Accept S_RobustAccept S_WeightAccept S_InferAccept S_InferLinear
  L_Base L_Options L_SolveInv L_OptSolve L_Slv L_Slv2 L_Tables L_Order L_Select L_Fit L_Align L_SelOrder L_Order2 L_Basis L_Harm L_Harm2 L_Harm3 L_Angle L_Ellipse L_Recon L_Recon2 L_Recon3 L_Recon4 L_Core
  L_Ellipse2 L_Model L_Lsq L_Model2 L_Model3 L_Model4 L_Model5 L_Model6 L_Model7 L_Model8 L_Model9 L_Model10 L_Model11 L_Gauss L_Errors L_Errors3 L_Errors5 L_Super L_Super3 L_Choice L_Period L_Period3 L_Noise L_Noise2 L_Perm L_Example
  L_Robust L_Robust2 L_RobustKw L_RobErr L_RobErr2 L_Accept L_Accept2 L_Sub L_RobustAccept L_RobustAccept2 L_RobustAccept3 L_McAccept L_WeightAccept L_WeightAccept2 L_InferAccept L_InferAccept2.
Open Scope R_scope.
Open Scope string_scope.

(** ** conjugate columns *)
Definition swap2 (n r a : nat) : nat := if Nat.ltb a (n + n) then swapP n a else (n + n + swapP r (a - (n + n)))%nat.
Lemma swap2_sum n r k f : Sm (n + n + (r + r + k)) (fun a => f (swap2 n r a)) = Sm (n + n + (r + r + k)) f.
Proof.
  rewrite !(Sm_add (n + n)). f_equal.
  - rewrite <- (Nat.add_0_r (n + n)), <- (swapP_sum n 0 f). apply Sm_ext. intros a Ha. unfold swap2. destruct (Nat.ltb_spec a (n + n)); [reflexivity|lia].
  - rewrite <- (swapP_sum r k (fun a => f (n + n + a)%nat)). apply Sm_ext. intros a Ha. unfold swap2. destruct (Nat.ltb_spec (n + n + a) (n + n)); [lia|]. do 2 f_equal. f_equal. lia.
Qed.
Lemma conj_block es (rest : list C) a : (a < length es + length es)%nat ->
  nth (swapP (length es) a) (es ++ map Cconj es ++ rest) (RtoC 0) = Cconj (nth a (es ++ map Cconj es ++ rest) (RtoC 0)).
Proof.
  intros Ha. unfold swapP. destruct (Nat.ltb_spec a (length es)) as [A|A].
  - rewrite app_nth2, app_nth1, (app_nth1 es) by (rewrite ?map_length; lia). replace (a + length es - length es)%nat with a by lia.
    rewrite <- conj0 at 1. now rewrite map_nth.
  - destruct (Nat.ltb_spec a (length es + length es)); [|lia].
    rewrite app_nth1, (app_nth2 es), app_nth1 by (rewrite ?map_length; lia). rewrite <- conj0 at 2. now rewrite map_nth, Cconj_conj.
Qed.
Lemma conj_row es fs tl a : (forall z, In z tl -> Cconj z = z) -> (a < length es + length es + (length fs + length fs + length tl))%nat ->
  nth (swap2 (length es) (length fs) a) (es ++ map Cconj es ++ fs ++ map Cconj fs ++ tl) (RtoC 0) =
  Cconj (nth a (es ++ map Cconj es ++ fs ++ map Cconj fs ++ tl) (RtoC 0)).
Proof.
  intros HT Ha. unfold swap2. destruct (Nat.ltb_spec a (length es + length es)) as [A|A]; [now apply conj_block|].
  assert (X : forall i, nth (length es + length es + i) (es ++ map Cconj es ++ fs ++ map Cconj fs ++ tl) (RtoC 0) = nth i (fs ++ map Cconj fs ++ tl) (RtoC 0)).
  { intros i. rewrite !app_nth2 by (rewrite ?map_length; lia). rewrite map_length. f_equal. lia. }
  rewrite X. replace a with (length es + length es + (a - (length es + length es)))%nat at 2 by lia. rewrite X.
  set (b := (a - (length es + length es))%nat) in *. assert (Hb : (b < length fs + length fs + length tl)%nat) by (unfold b; lia).
  destruct (Nat.ltb_spec b (length fs + length fs)) as [D|D]; [now apply conj_block|].
  unfold swapP. destruct (Nat.ltb_spec b (length fs)); [lia|]. destruct (Nat.ltb_spec b (length fs + length fs)); [lia|].
  rewrite !app_nth2 by (rewrite ?map_length; lia). rewrite map_length. symmetry. apply HT, nth_In. lia.
Qed.

Lemma ref_same ap e r : r_Rm r = map Cconj (r_Rp r) -> ref_m ap e r = ref_p ap e r.
Proof.
  intros H. unfold ref_m, ref_p. destruct ap; [reflexivity|]. rewrite H. unfold etil_m, etil_p. do 3 f_equal.
  generalize (map e (r_Ilind r)). generalize (r_Rp r). induction l as [|x l IH]; intros [|y k]; cbn [map combine]; auto. f_equal; [|apply IH].
  cbn [fst snd]. now rewrite Cconj_conj.
Qed.

Section Run.
Variables (L : lib) (t : pyarr tarray) (u : pyarr (list xr)) (v : option (pyarr (list xr))) (lat : option R) (opts : dict pyval) (c : coef).
Variables (si : slv) (la : R) (s : sel) (B : list (list C)) (m : list C) (W : list xr) (sm : list (R * C)).
Hypothesis BH : behind L t u v lat opts c si la s B (map snd sm) m W.
Hypothesis HS : sorted_order (opt_value opts "order_constit").
Hypothesis NA : approximate (c_opt c) = false.
Hypothesis S1 : si_t si = map fst sm.
Hypothesis ND : NoDup (c_name c).
Hypothesis HC : forall r, In r (s_R s) -> r_Rm r = map Cconj (r_Rp r).

Lemma row_conj x row : good_row (si_tref si) (si_lor si) la (c_opt c) s x row ->
  forall a, (a < length row)%nat -> nth (swap2 (s_nNR s) (s_nR s) a) row (RtoC 0) = Cconj (nth a row (RtoC 0)).
Proof.
  intros G. unfold good_row, model_row in G. set (e := basis_at _ _ _ _) in *. set (ap := is_approx (c_opt c)) in *.
  assert (ER : map (fun r => oconj (ref_m ap e r)) (s_R s) = map oconj (map (ref_p ap e) (s_R s))).
  { rewrite map_map. apply map_ext_in. intros r Hr. now rewrite ref_same by auto. }
  rewrite ER in G. rewrite <- !app_assoc in G.
  destruct (somes_app _ _ _ G) as (k1 & k2 & -> & G1 & G2). destruct (somes_app _ _ _ G2) as (k3 & k4 & -> & G3 & G4).
  destruct (somes_app _ _ _ G4) as (k5 & k6 & -> & G5 & G6). destruct (somes_app _ _ _ G6) as (k7 & k8 & -> & G7 & G8).
  rewrite G1, oconj_some in G3. apply somes_inj in G3. subst k3. rewrite G5, oconj_some in G7. apply somes_inj in G7. subst k7.
  assert (SL := run_lens _ _ _ _ _ _ _ _ _ _ _ _ _ _ BH).
  assert (L1 : length k1 = s_nNR s). { apply (f_equal (@length _)) in G1. rewrite !map_length in G1. rewrite <- G1. symmetry. apply SL. }
  assert (L2 : length k5 = s_nR s). { apply (f_equal (@length _)) in G5. rewrite !map_length in G5. rewrite <- G5. symmetry. apply SL. }
  intros a Ha. rewrite <- L1, <- L2. apply conj_row.
  - intros z Hz. destruct (negb (o_notrend (c_opt c))); cbn [app] in G8.
    + destruct k8 as [|z1 [|z2 [|]]]; try discriminate. cbn [map] in G8. injection G8 as <- G8. unfold trend_entry in G8.
      destruct (Req_EM_T (si_lor si) 0); [discriminate|]. injection G8 as <-. destruct Hz as [<-|[<-|[]]]; apply Cconj_R.
    + destruct k8 as [|z1 [|]]; try discriminate. cbn [map] in G8. injection G8 as <-. destruct Hz as [<-|[]]. apply Cconj_R.
  - rewrite !app_length, !map_length in Ha. lia.
Qed.

Lemma infer_ranks w : dims (length sm) (ncoef (c_opt c) s) B -> length w = length sm -> Forall (fun a => 0 <= a) w -> identifiable c (heeded w sm) ->
  full_rank (ncoef (c_opt c) s) (gram (cconj_mat B) B w (ncoef (c_opt c) s)) /\ full_rank (ncoef (c_opt c) s) (gram B B w (ncoef (c_opt c) s)).
Proof.
  intros D Lw W0 ID.
  assert (LB := proj1 D). rewrite <- LB in D.
  assert (GG : forall k, (k < length sm)%nat -> good_row (si_tref si) (si_lor si) la (c_opt c) s (fst (nth k sm (0, RtoC 0))) (nth k B [])).
  { assert (GR := good_rows _ _ _ _ _ _ _ _ _ _ _ _ _ _ BH). rewrite S1 in GR. clear - GR. generalize dependent B. clear B. induction sm as [|p l IH]; intros B0 GR k K2; [cbn in K2; lia|].
    inversion GR; subst. destruct k; [assumption|]. cbn [nth]. apply IH; auto. cbn in K2. lia. }
  assert (IND : forall d, length d = ncoef (c_opt c) s -> (forall k, (k < length B)%nat -> 0 < nth k w 0 -> cdot (nth k B []) d = RtoC 0) -> forall z, In z d -> z = RtoC 0).
  { intros d Hd Z. apply (sub_independent _ _ _ _ _ _ _ _ _ _ _ _ _ _ BH HS NA (heeded w sm) d); auto.
    - intros x Hx. apply in_heeded in Hx; [|exact Lw]. destruct Hx as (k & K2 & _ & ->). rewrite S1. apply in_map, nth_In. exact K2.
    - intros x row Hx G. apply in_heeded in Hx; [|exact Lw]. destruct Hx as (k & K2 & K3 & ->).
      assert (G' := GG k K2).
      assert (row = nth k B []) as -> by (apply somes_inj; unfold good_row in *; congruence). apply Z; [lia|exact K3]. }
  split.
  - apply conj_rank_w; auto; lia.
  - assert (EN : ncoef (c_opt c) s = (s_nNR s + s_nNR s + (s_nR s + s_nR s + (if o_notrend (c_opt c) then 1 else 2)))%nat) by (unfold ncoef; destruct (o_notrend (c_opt c)); lia).
    apply plain_rank_w with (P := swap2 (s_nNR s) (s_nR s)); auto; [lia| |].
    + intros f. rewrite EN. apply swap2_sum.
    + intros k a Hk Ha. unfold bf. apply (row_conj _ _ (GG k ltac:(lia))). destruct D as [_ D]. rewrite (D (nth k B [])); [exact Ha|apply nth_In; exact Hk].
Qed.
End Run.

(** ** the intervals *)
Lemma linear_ok L opts t si o s B m w sm : inv_returns L -> unique_keys opts -> si_t si = map fst sm -> times_of L opts t (si_tin si) -> kept (map fst sm) (si_tin si) ->
  length B = length sm -> length w = length sm -> o_linci o = true -> (forall x, setting opts "white" x -> o_white o = truthy x) ->
  full_rank (ncoef o s) (gram (cconj_mat B) B w (ncoef o s)) -> full_rank (ncoef o s) (gram B B w (ncoef o s)) ->
  ((exists x, setting opts "white" x /\ ~ falsy x) \/ (lomb_contract L /\ orderly L opts t sm)) ->
  exists cis, confidence L o s (si_tin si) (si_t si) (resid_parts (o_twodim o) (map Fin w) (map snd sm) (model_fit (o_twodim o) B m))
     (si_elor si) (map snd sm) (model_fit (o_twodim o) B m) (map Fin w) B (ncoef o s) (conf_input (o_twodim o) m s) = Ok cis.
Proof.
  intros IR U FT FTI FK LB Lw FL FW R1 R2 WH.
  assert (AF : all_finite (map Fin w) = Some w) by (now apply all_finite_spec).
  assert (GM : exists gam, gammas L B (ncoef o s) (map Fin w) (map snd sm) (model_fit (o_twodim o) B m) = Ok gam).
  { unfold gammas. rewrite AF. destruct (IR _ _ (gram_square _ _ _ _) R1) as [iC ->]. cbn [bind]. destruct (IR _ _ (gram_square _ _ _ _) R2) as [iP ->]. cbn [bind].
    destruct (Req_EM_T _ 0); eauto. }
  destruct GM as [gam GM].
  assert (NP : exists p, (if o_white o then Ok None
           else match resid_parts (o_twodim o) (map Fin w) (map snd sm) (model_fit (o_twodim o) B m) with
                | Some (eu, ev) =>
                    do p <- band_averaged_psd_by_constit L (si_tin si) (si_t si) eu ev (si_elor si) (s_frq s) (o_equi o) (o_twodim o);
                    Ok (Some p)
                | None => Ok (Some ([], None))
                end) = Ok p).
  { destruct (o_white o) eqn:EW; [eauto|]. destruct WH as [(x & X1 & X2)|(LC & l & T1 & T2 & T3 & T4)].
    { exfalso. apply X2, truthy_falsy. symmetry. exact (FW _ X1). }
    destruct (resid_some (o_twodim o) w (map snd sm) (model_fit (o_twodim o) B m)) as (eu & ev & E1 & E2 & E3).
    { now rewrite !map_length. }
    { unfold model_fit, cmatvec. destruct (o_twodim o); rewrite !map_length; exact LB. }
    rewrite E1. rewrite map_length in E2, E3.
    assert (ET : si_tin si = l) by (eapply times_unique; [exact U|exact FTI|exact T1]). rewrite <- ET in T2.
    rewrite FT.
    destruct (noise_ok L (si_tin si) (map fst sm) eu ev (si_elor si) (s_frq s) (o_equi o) (o_twodim o) LC T2 FK) as [p ->].
    - now rewrite map_length.
    - exact T4.
    - now rewrite map_length.
    - intros e E. rewrite map_length. now apply E3.
    - cbn [bind]. eauto. }
  destruct NP as [p NP].
  unfold confidence. rewrite NP. cbn [bind]. rewrite GM. cbn [bind].
  destruct (mapM_idx_ok (fun k x => conf_one L o gam p (length (conf_input (o_twodim o) m s)) k (x_Xu x) (x_Yu x) (x_Xv x) (x_Yv x) (x_g x) (x_theta x)) (conf_input (o_twodim o) m s)) with (i := 0%nat) as [cis ->].
  - intros i x. unfold conf_one. rewrite FL. eauto.
  - cbn [bind]. destruct (o_infer o); [rewrite FL|]; eauto.
Qed.

Lemma twice_nth {A} (l : list A) j x y : nth_error (l ++ l) j = Some x -> nth_error (l ++ l) (j + length l) = Some y -> (j < length l)%nat -> y = x.
Proof. intros H1 H2 Hj. rewrite nth_error_app1 in H1 by exact Hj. rewrite nth_error_app2 in H2 by lia. replace (j + length l - length l)%nat with j in H2 by lia. congruence. Qed.
Lemma both_conj L t u v lat opts c si la s B xraw m W f : behind L t u v lat opts c si la s B xraw m W -> o_infer (c_opt c) = Some f -> same_both_ways f ->
  forall r, In r (s_R s) -> r_Rm r = map Cconj (r_Rp r).
Proof.
  intros BH Ei (A & O & EA & EO & LA & LO) r Hr. destruct (run_stored _ _ _ _ _ _ _ _ _ _ _ _ _ _ BH f Ei) as (js & _ & F).
  assert (H : forall q, In q (flat_map stored (s_R s)) -> snd q = Cconj (snd (fst q))).
  { intros q Hq. assert (exists j, request_at f (o_twodim (c_opt c)) j q) as (j & Hj).
    { clear - F Hq. induction F; [destruct Hq|]. destruct Hq as [<-|Hq]; eauto. }
    destruct Hj as (i & r' & a & o & J1 & _ & J3 & J4 & Hj).
    assert (JL : (j < length (inf_inferred f))%nat) by (apply nth_error_Some; congruence).
    destruct (o_twodim (c_opt c)).
    - destruct Hj as (a2 & o2 & J5 & J6 & ->). cbn [fst snd]. rewrite EA, <- LA in J5. rewrite EA in J3. rewrite EO, <- LO in J6. rewrite EO in J4.
      rewrite (twice_nth _ _ _ _ J3 J5) by lia. rewrite (twice_nth _ _ _ _ J4 J6) by lia. rewrite turn_conj, Cconj_mult, Cconj_R. reflexivity.
    - rewrite Hj. cbn [fst snd]. rewrite turn_conj, Cconj_mult, Cconj_R. reflexivity. }
  assert (H' : forall q, In q (stored r) -> snd q = Cconj (snd (fst q))) by (intros q Hq; apply H; apply in_flat_map; eauto).
  destruct (ln_I _ (run_lens _ _ _ _ _ _ _ _ _ _ _ _ _ _ BH) r Hr) as (_ & _ & L1 & L2). unfold stored in H'. clear - H' L1 L2.
  revert H' L1 L2. generalize (r_Iname r) (r_Rp r) (r_Rm r). induction l as [|n l IH]; intros [|p P] [|q Q] H L1 L2; try discriminate; auto.
  cbn [map]. f_equal.
  - exact (H _ (or_introl eq_refl)).
  - apply IH; auto. intros x Hx. apply H. now right.
Qed.

(** ** from an analysis without intervals *)
Lemma accept_infer_linear L t u v la opts opts0 sm c0 I Rf w :
  analysis L t u v (Some la) opts0 sm c0 -> inference_input L t u v opts sm I Rf false -> options_but_intervals opts opts0 ->
  (o_twodim (c_opt c0) = false \/ exists inf, o_infer (c_opt c0) = Some inf /\ same_both_ways inf) ->
  NoDup (c_name c0) -> inv_returns L -> setting opts "conf_int" (PStr "linear") -> c_weights c0 = map Fin w -> identifiable c0 (heeded w sm) ->
  ((exists x, setting opts "white" x /\ ~ falsy x) \/ (lomb_contract L /\ orderly L opts t sm)) -> exists c, solve L t u v (Some la) opts = Ok c.
Proof.
  intros AN DI SB SW ND IR CF HW ID WH. assert (U0 := an_keys _ _ _ _ _ _ _ _ AN). assert (U := ii_keys _ _ _ _ _ _ _ _ _ DI). assert (HS := an_sorted _ _ _ _ _ _ _ _ AN).
  destruct (analysis_run _ _ _ _ _ _ _ _ AN) as (_ & si & la0 & s & B & x0 & m & W & BH & S1 & S2 & S3). subst x0.
  assert (El := bh_lat _ _ _ _ _ _ _ _ _ _ _ _ _ _ BH). injection El as <-.
  assert (EW : W = map Fin w) by (rewrite <- HW; symmetry; apply BH). subst W.
  set (cf := PStr "linear") in *.
  assert (SO : setting opts "order_constit" (opt_value opts "order_constit")) by (apply setting_value; [exact U|cbn; tauto]).
  destruct (ii_order _ _ _ _ _ _ _ _ _ DI _ _ SO CF) as [OS OC].
  assert (IQ := ii_infer _ _ _ _ _ _ _ _ _ DI). change (match v with Some _ => true | None => false end) with (is2d v) in IQ.
  destruct (process_asked opts (is2d v) I Rf false U (ii_known _ _ _ _ _ _ _ _ _ DI) IQ _ _ SO CF ltac:(auto)) as (compat & PO).
  { unfold order_ok. destruct OS as [->|[->|[E| ->]]]; auto. rewrite E in *. auto 10. }
  destruct (ii_samples _ _ _ _ _ _ _ _ _ DI) as (e & SE & SM).
  destruct (ii_rayleigh _ _ _ _ _ _ _ _ _ DI) as [r SR].
  destruct (read_asked opts (is2d v) (si_equi si) compat r I Rf false U PO IQ SR) as [o RO].
  destruct (used_options opts (is2d v) (si_equi si) U compat o PO RO) as
   (_ & _ & U1 & Ue & _ & U2 & U3 & U4 & U5 & U6 & Ul & U7 & Ug & U8 & Ur & U9 & U10 & Uk & Uep & Up & (d & U11 & U12) & U13 & _).
  assert (V : forall k x, In k (keys documented) -> setting opts k x -> opt_value opts k = x) by (intros; now apply setting_val).
  destruct (asked opts (is2d v) I Rf false U IQ) as (d' & inf & A1 & A2 & A3 & A4 & A5 & A6).
  rewrite A1 in U11. apply Ok_inj in U11. subst d'. rewrite A2 in U12. apply Ok_inj in U12. symmetry in U12.
  destruct (solve_inv _ _ _ _ _ _ _ (an_solve _ _ _ _ _ _ _ _ AN)) as
    [(compat0 & si' & la' & o' & s' & B' & xraw' & m' & W' & c1 & c2 & P1 & P2 & P3 & P4 & P5 & P6 & P7 & P8 & P9)].
  assert (Ho : c_opt c0 = o') by (rewrite (sb_opt _ _ (solve_base _ _ _ _ _ _ _ _ _ _ _ _ P7 P8 P9)); reflexivity). subst o'. clear P3 P5 P6 P7 P8 P9.
  destruct (used_options opts0 (is2d v) (si_equi si') U0 compat0 _ P1 P4) as
      (_ & _ & X1 & Xe & _ & _ & _ & _ & X5 & X6 & Xl & X7 & Xg & X8 & Xr & Wh & X10 & Xk & Xep & Xp & (i & V1 & V2) & _).
  assert (SV : forall k, In k (keys documented) -> k <> "conf_int" -> k <> "order_constit" -> k <> "white" -> opt_value opts0 k = opt_value opts k).
  { intros k K N1 N2 N3. apply (setting_val opts0 k); [exact U0|exact K|]. apply SB; auto. apply setting_value; [exact U|exact K]. }
  rewrite SV in X5, X6, Xl, Xg, X8, Xr, X10, Xk, Xep, V1 by (first [discriminate|cbn; tauto]). rewrite (SV "nodal") in X7 by (first [discriminate|cbn; tauto]).
  rewrite A1 in V1. apply Ok_inj in V1. subst i. rewrite A2 in V2. apply Ok_inj in V2. symmetry in V2.
  assert (NA : approximate (c_opt c0) = false) by (unfold approximate; now rewrite V2).
  assert (NT : o_notrend (c_opt c0) = o_notrend o) by congruence.
  assert (FL : flags_of (c_opt c0) = flags_of o) by (unfold flags_of; congruence).
  assert (ER : o_rmin (c_opt c0) = o_rmin o) by (rewrite Ur in Xr; apply Ok_inj in Xr; congruence).
  assert (ES := bh_slv _ _ _ _ _ _ _ _ _ _ _ _ _ _ BH). rewrite Xep, <- Up in ES.
  assert (EC := bh_sel _ _ _ _ _ _ _ _ _ _ _ _ _ _ BH). rewrite ER, X5, V2, <- U5, <- U12 in EC.
  assert (EF := bh_fit _ _ _ _ _ _ _ _ _ _ _ _ _ _ BH). rewrite (fit_opts _ _ _ _ _ _ _ o (c_opt c0)) in EF by congruence.
  assert (NM : ncoef (c_opt c0) s = ncoef o s) by (unfold ncoef; now rewrite NT).
  destruct (fit_len _ _ _ _ _ _ _ _ _ _ _ _ _ (an_shape _ _ _ _ _ _ _ _ AN) (run_lens _ _ _ _ _ _ _ _ _ _ _ _ _ _ BH)
      (infer_none_R _ _ _ _ _ (bh_sel _ _ _ _ _ _ _ _ _ _ _ _ _ _ BH))
      (slv_data _ _ _ _ _ _ _ (an_arrays _ _ _ _ _ _ _ _ AN) (bh_slv _ _ _ _ _ _ _ _ _ _ _ _ _ _ BH))
      (bh_fit _ _ _ _ _ _ _ _ _ _ _ _ _ _ BH)) as (D & FL').
  rewrite S1, map_length in D. assert (Lw : length w = length sm) by (clear - FL' S1; rewrite S1, !map_length in FL'; lia).
  assert (W0 : Forall (fun a => 0 <= a) w).
  { assert (Rg := fit_ranged _ _ _ _ _ _ _ _ _ _ _ _ _ (bh_fit _ _ _ _ _ _ _ _ _ _ _ _ _ _ BH)). apply Forall_forall. intros x Hx. apply Rg. now apply in_map. }
  assert (HC : forall r, In r (s_R s) -> r_Rm r = map Cconj (r_Rp r)).
  { destruct SW as [SW|(f & F1 & F2)]; [exact (run_conj _ _ _ _ _ _ _ _ _ _ _ _ _ _ BH SW)|]. exact (both_conj _ _ _ _ _ _ _ _ _ _ _ _ _ _ f BH F1 F2). }
  destruct (infer_ranks _ _ _ _ _ _ _ _ _ _ _ _ _ _ BH HS NA S1 ND HC w D Lw W0 ID) as [R1 R2]. rewrite NM in R1, R2.
  assert (SVe := ES). rewrite Up, (V "epoch" e) in SVe by (try (cbn; tauto); exact SE).
  destruct (samples_base _ _ _ _ _ _ _ _ SM SVe) as (xs & N1 & N2 & N3 & N4).
  assert (ECI : o_conf_int o = true) by (rewrite U2, (V "conf_int" cf) by (try (cbn; tauto); exact CF); reflexivity).
  destruct (linear_ok L opts t si o s B m w sm IR U S1) as [cis CI]; auto.
  - exists e, xs. auto.
  - now rewrite N2.
  - apply D.
  - rewrite U3, (V "conf_int" cf) by (try (cbn; tauto); exact CF). reflexivity.
  - intros y Hy. rewrite U9, (V "white" y) by (try (cbn; tauto); exact Hy). reflexivity.
  - eapply (finish_any L t u v la opts cf compat si o s B (map snd sm) m (map Fin w)); eauto.
    + apply AN.
    + rewrite <- NM. apply BH.
    + rewrite U4, (V "conf_int" cf) by (try (cbn; tauto); exact CF). reflexivity.
    + destruct OS as [E|[E|[E|E]]]; rewrite E in U13; cbn [validate_order_constit] in U13.
      * injection U13 as U13. rewrite <- U13. split; [auto|discriminate].
      * destruct (negb (eq_str (opt_value opts "conf_int") "none")); injection U13 as U13; rewrite <- U13; split; auto; discriminate.
      * split; [|intros _; now apply OC]. destruct (negb (eq_str (opt_value opts "conf_int") "none")); [injection U13 as U13|discriminate]. auto.
      * destruct (negb (eq_str (opt_value opts "conf_int") "none")); injection U13 as U13; rewrite <- U13; split; auto; discriminate.
    + unfold ci_stage. rewrite ECI. unfold ncoef in CI. rewrite CI. reflexivity.
Qed.

(** ** what intervals say about the samples *)
Lemma infer_needed L t u v la opts sm c w inf : analysis L t u v (Some la) opts sm c -> inv_exact L -> o_infer (c_opt c) = Some inf -> inf_approx inf = false ->
  setting opts "conf_int" (PStr "linear") -> c_weights c = map Fin w -> identifiable c (heeded w sm).
Proof.
  intros AN IX NI IA CI HW c1 Rv Z0. assert (HU := an_keys _ _ _ _ _ _ _ _ AN). assert (HS := an_sorted _ _ _ _ _ _ _ _ AN).
  destruct (analysis_run _ _ _ _ _ _ _ _ AN) as (_ & si & la0 & s & B & x0 & m & W & BH & S1 & S2 & S3). subst x0.
  assert (El := bh_lat _ _ _ _ _ _ _ _ _ _ _ _ _ _ BH). injection El as <-.
  assert (NA : approximate (c_opt c) = false) by (unfold approximate; now rewrite NI).
  assert (EW : W = map Fin w) by (rewrite <- HW; symmetry; apply BH). subst W.
  assert (HG : exists gam, gammas L B (ncoef (c_opt c) s) (map Fin w) (map snd sm) (model_fit (o_twodim (c_opt c)) B m) = Ok gam).
  { destruct (solve_inv _ _ _ _ _ _ _ (an_solve _ _ _ _ _ _ _ _ AN)) as
      [(compat0 & si' & la' & o' & s' & B' & xraw' & m' & W' & k1 & k2 & P1 & P2 & P3 & P4 & P5 & P6 & P7 & P8 & P9)].
    injection P3 as <-.
    assert (Ho : c_opt c = o') by (rewrite (sb_opt _ _ (solve_base _ _ _ _ _ _ _ _ _ _ _ _ P7 P8 P9)); reflexivity). subst o'.
    destruct (used_options opts (is2d v) (si_equi si') HU compat0 _ P1 P4) as
      (_ & _ & X1 & Xe & _ & X2 & X3 & _ & X5 & X6 & Xl & X7 & Xg & X8 & Xr & Wh & X10 & Xk & Xep & Xp & _).
    assert (ES := bh_slv _ _ _ _ _ _ _ _ _ _ _ _ _ _ BH). rewrite Xep, <- Xp, P2 in ES. apply Ok_inj in ES. subst si'.
    assert (EC := bh_sel _ _ _ _ _ _ _ _ _ _ _ _ _ _ BH). rewrite P5 in EC. apply Ok_inj in EC. subst s'.
    assert (EF := bh_fit _ _ _ _ _ _ _ _ _ _ _ _ _ _ BH). rewrite P6 in EF. apply Ok_inj in EF. injection EF as -> -> -> ->.
    unfold ci_stage in P7. rewrite X2, (setting_val opts "conf_int" (PStr "linear") HU ltac:(cbn; tauto) CI) in P7. cbn [eq_str String.eqb Ascii.eqb Bool.eqb negb] in P7.
    inv_bind P7. unfold confidence in Ha. inv_bind Ha. inv_bind Ha. unfold ncoef. eauto. }
  destruct HG as [gam HG]. unfold gammas in HG. assert (AF : all_finite (map Fin w) = Some w) by (now apply all_finite_spec). rewrite AF in HG. inv_bind HG.
  destruct (IX _ _ _ (gram_square _ _ _ _) Ha) as [_ PI].
  destruct (rival_yields _ _ _ _ _ _ _ _ _ _ _ _ _ _ BH HS NA c1 Rv) as (q & M & Y).
  apply (vector_silent c si s c1 q Rv M).
  destruct (fit_len _ _ _ _ _ _ _ _ _ _ _ _ _ (an_shape _ _ _ _ _ _ _ _ AN) (run_lens _ _ _ _ _ _ _ _ _ _ _ _ _ _ BH)
      (infer_none_R _ _ _ _ _ (bh_sel _ _ _ _ _ _ _ _ _ _ _ _ _ _ BH))
      (slv_data _ _ _ _ _ _ _ (an_arrays _ _ _ _ _ _ _ _ AN) (bh_slv _ _ _ _ _ _ _ _ _ _ _ _ _ _ BH))
      (bh_fit _ _ _ _ _ _ _ _ _ _ _ _ _ _ BH)) as (D & FL').
  assert (Lw : length w = length sm) by (clear - FL' S1; rewrite S1, !map_length in FL'; lia).
  assert (W0 : Forall (fun a => 0 <= a) w).
  { assert (Rg := fit_ranged _ _ _ _ _ _ _ _ _ _ _ _ _ (bh_fit _ _ _ _ _ _ _ _ _ _ _ _ _ _ BH)). apply Forall_forall. intros x Hx. apply Rg. now apply in_map. }
  assert (LB := B_len _ _ _ _ _ _ _ _ _ _ _ _ _ _ BH sm S1).
  assert (Lq := mt_len _ _ _ _ _ M).
  assert (GR := good_rows _ _ _ _ _ _ _ _ _ _ _ _ _ _ BH). rewrite S1 in GR.
  assert (BZ : forall k, (k < length B)%nat -> 0 < nth k w 0 -> cdot (nth k B []) q = RtoC 0).
  { intros k Hk Wk. assert (G : good_row (si_tref si) (si_lor si) la (c_opt c) s (fst (nth k sm (0, RtoC 0))) (nth k B [])).
    { assert (K2 : (k < length sm)%nat) by lia. clear - GR K2. revert k K2. generalize dependent B. induction sm as [|p l IH]; intros B0 GR k K2; [cbn in K2; lia|].
      inversion GR; subst. destruct k; [assumption|]. cbn [nth]. apply IH; auto. cbn in K2. lia. }
    destruct (Y _ _ G) as [Y1 Y2]. destruct (Z0 (fst (nth k sm (0, RtoC 0)))) as [Z1 Z2].
    { apply in_heeded; [exact Lw|]. exists k. repeat split; auto. lia. }
    rewrite Z1 in Y1. rewrite (rv_opt _ _ Rv) in Y2.
    apply C_eq; [cbn; congruence|]. destruct (o_twodim (c_opt c)); [rewrite (Z2 eq_refl) in Y2; cbn; congruence|exact Y2]. }
  rewrite S1, map_length, <- LB in D.
  assert (LC : length (cconj_mat B) = length B) by (unfold cconj_mat; apply map_length).
  eapply inverse_zero; [apply gram_square|exact PI|exact Lq|]. intros i Hi.
  rewrite (Sm_ext _ _ (fun b => Sm (length B) (fun k => Cmult (RtoC (nth k w 0)) (Cmult (Cmult (bf (cconj_mat B) k i) (bf B k b)) (nth b q (RtoC 0)))))).
  2: { intros b Hb. rewrite gram_entry_w by (auto; lia). rewrite <- Sm_r, LC. apply Sm_ext. intros. ring. }
  rewrite Sm_swap. apply Sm_0. intros k Hk.
  transitivity (Cmult (Cmult (RtoC (nth k w 0)) (bf (cconj_mat B) k i)) (cdot (nth k B []) q)).
  - rewrite (fit_vec B _ q k D Lq Hk), <- Sm_l. apply Sm_ext. intros. ring.
  - destruct (Rlt_dec 0 (nth k w 0)) as [P|P]; [rewrite (BZ k Hk P); ring|].
    assert (E : nth k w 0 = 0). { rewrite Forall_forall in W0. assert (0 <= nth k w 0) by (apply W0, nth_In; lia). lra. } rewrite E. ring.
Qed.
