(** Consequences of the row-wise form of the reconstruction. *)
From Coq Require Import Lia Lra Permutation.
From Verif Require Import M_Base M_Lib M_Tables M_Const M_Options M_Time M_Slvinit M_Harmonics M_Select M_Ellipse
  M_Robust M_Period M_Conf M_Diag M_Solve M_Recon S_Dict S_Options L_Base L_Options L_SolveInv L_OptSolve S_Slv L_Slv L_Slv2
  L_Tables S_Order L_Order S_Select L_Select S_Fit L_Fit L_Align L_SelOrder L_Order2 L_Order3 L_Order4 S_Basis L_Basis S_Recon L_Recon L_Recon2.
Open Scope R_scope.

(** ** order *)
Lemma tides_perm c x l l' : Permutation l l' -> tides c x l = tides c x l'.
Proof.
  induction 1; cbn [tides]; auto.
  - now rewrite IHPermutation.
  - destruct (tide c x x0), (tide c x y), (tides c x l); cbn [fst snd]; auto. do 2 f_equal; ring.
  - congruence.
Qed.
Lemma filter_perm {A} (p : A -> bool) l l' : Permutation l l' -> Permutation (filter p l) (filter p l').
Proof.
  induction 1; cbn; auto.
  - destruct (p x); auto.
  - destruct (p x), (p y); auto. constructor.
  - eapply perm_trans; eauto.
Qed.

Lemma with_order_frame o x : flags_of (with_order o x) = flags_of o. Proof. reflexivity. Qed.

Lemma outcome_same a b y constit mS mP t : same_result a b -> c_opt b = with_order (c_opt a) y ->
  outcome a constit mS mP t = outcome b constit mS mP t.
Proof.
  intros S E. assert (T : forall x r, tide a x r = tide b x r).
  { intros x r. unfold tide. rewrite E, with_order_frame. cbn [with_order o_twodim]. rewrite <- (sr_reftime _ _ S), <- (sr_lat _ _ S). reflexivity. }
  assert (TS : forall x l, tides a x l = tides b x l).
  { intros x l. induction l; cbn [tides]; auto. now rewrite T, IHl. }
  assert (C : forall r, chosen a constit mS mP r = chosen b constit mS mP r).
  { intros r. unfold chosen. rewrite E, (total_perm _ _ (sr_rows _ _ S)). reflexivity. }
  assert (Fl : forall x, tides a x (filter (chosen a constit mS mP) (rows a)) = tides b x (filter (chosen b constit mS mP) (rows b))).
  { intros x. rewrite TS. rewrite (filter_ext _ _ C). apply tides_perm, filter_perm, S. }
  assert (B : forall m s x, background a m s x = background b m s x).
  { intros m s x. unfold background. rewrite E. cbn [with_order o_notrend]. now rewrite (sr_reftime _ _ S). }
  assert (Hu : forall x, value_u a constit mS mP x = value_u b constit mS mP x).
  { intros x. unfold value_u. rewrite Fl, E. cbn [with_order o_twodim]. rewrite <- !B.
    now rewrite (sr_umean _ _ S), (sr_uslope _ _ S), (sr_mean _ _ S), (sr_slope _ _ S). }
  assert (Hv : forall x, value_v a constit mS mP x = value_v b constit mS mP x).
  { intros x. unfold value_v. rewrite Fl, <- !B. now rewrite (sr_vmean _ _ S), (sr_vslope _ _ S). }
  unfold outcome. rewrite E. cbn [with_order o_twodim]. unfold placed.
  destruct (o_twodim (c_opt a)); f_equal; apply map_ext; intros [x|]; auto.
Qed.

(** reconstruct in closed form *)
Lemma reconstruct_eq L t nd c epoch constit mS mP : well_formed c ->
  reconstruct L t nd c epoch constit mS mP =
  if Nat.ltb 1 nd then Err ValueError else
  do tn <- normalize_time (l_parse L) t epoch;
  Ok {| ro_t_in := t; ro_t_mpl := if eq_str epoch "python" then inl t else inr tn;
        ro_series := outcome c constit mS mP (map finite tn) |}.
Proof.
  intros W. unfold reconstruct. destruct (Nat.ltb 1 nd); auto. destruct (normalize_time _ _ _) as [tn|]; cbn [bind]; auto.
  assert (M : masked_invalid tn [] = map finite tn) by (clear; induction tn as [|x tn IH]; cbn; auto; now rewrite IH).
  cbv zeta. rewrite M, (core_outcome _ _ constit mS mP W). reflexivity.
Qed.

Lemma reconstruct_same L t nd a b y epoch constit mS mP : well_formed a -> well_formed b -> same_result a b ->
  c_opt b = with_order (c_opt a) y ->
  reconstruct L t nd a epoch constit mS mP = reconstruct L t nd b epoch constit mS mP.
Proof.
  intros Wa Wb S E. rewrite !reconstruct_eq by assumption. destruct (Nat.ltb 1 nd); auto.
  destruct (normalize_time _ _ _) as [tn|]; cbn [bind]; auto. now rewrite (outcome_same a b y).
Qed.

(** C44 *)
Definition keeps_all (a : coef) (y : pyval) : Prop :=
  sorted_order y \/ exists l, y = PSeq (map PStr l) /\ Permutation l (c_name a).

Lemma second_opt L t u v lat opts x y a b : lstsq_shape L -> arrays_ok t u v -> unique_keys opts ->
  solve L t u v lat (dset opts "order_constit" x) = Ok a -> solve L t u v lat (dset opts "order_constit" y) = Ok b ->
  c_weights a <> [] -> (exists y', c_opt b = with_order (c_opt a) y') /\ c_weights b = c_weights a.
Proof.
  intros HL Ha Hu H1 H2 HW.
  destruct (solve_ran _ _ _ _ _ _ _ HL Ha (unique_dset _ _ _ Hu) H1 HW) as (cN & si & s & Rn).
  destruct (second_run _ _ _ _ _ _ _ _ _ _ _ _ _ Hu Rn H2) as (y' & b0 & V & Er & ->). cbn.
  rewrite (rn_opt _ _ _ _ _ _ _ _ _ _ Rn). split; [eauto|]. assert (Bb := reorder_base _ _ _ _ Er).
  assert (Ba := reorder_base _ _ _ _ (rn_ord _ _ _ _ _ _ _ _ _ _ Rn)). destruct Ba, Bb; congruence.
Qed.

Lemma order_irrelevant L t u v lat opts x y a b : lstsq_shape L -> argsort_perm L -> arrays_ok t u v -> unique_keys opts ->
  sorted_order x -> (sorted_order y \/ exists l, y = PSeq (map PStr l) /\ NoDup l /\ Permutation l (c_name a)) ->
  solve L t u v lat (dset opts "order_constit" x) = Ok a -> solve L t u v lat (dset opts "order_constit" y) = Ok b ->
  c_weights a <> [] ->
  forall ts nd epoch constit mS mP,
    reconstruct L ts nd a epoch constit mS mP = reconstruct L ts nd b epoch constit mS mP.
Proof.
  intros HL HP Ha Hu Hx Hy H1 H2 HW ts nd epoch constit mS mP.
  destruct (second_opt _ _ _ _ _ _ _ _ _ _ HL Ha Hu H1 H2 HW) as [[y' E] EW].
  assert (S : same_result a b).
  { destruct Hy as [Hy|(l & -> & Hn & Hl)].
    - exact (proj1 (orders_agree _ _ _ _ _ _ _ _ _ _ HL HP Ha Hu Hx Hy H1 H2 HW)).
    - exact (proj1 (name_full _ _ _ _ _ _ _ _ _ _ HL HP Ha Hu Hx H1 H2 HW Hn Hl)). }
  assert (Hu' : forall z, unique_keys (dset opts "order_constit" z)) by (intros; now apply unique_dset).
  apply (reconstruct_same L ts nd a b y'); auto.
  - exact (solve_well_formed L t u v lat _ a HL Ha (Hu' x) H1 HW).
  - apply (solve_well_formed L t u v lat _ b HL Ha (Hu' y) H2). now rewrite EW.
Qed.

(** ** entries *)

Lemma placed_len f t : length (placed f t) = length t.
Proof. apply map_length. Qed.
Lemma placed_app f a b : placed f (a ++ b) = (placed f a ++ placed f b)%list.
Proof. apply map_app. Qed.

(** ** C49 *)
Lemma chosen_seq c l mS mP r : In r (rows c) -> (chosen c (CSeq l) mS mP r = true <-> exists n, w_name r = Some n /\ In n l).
Proof.
  intros Hr. destruct (w_name_some _ _ Hr) as [n E]. unfold chosen. rewrite E. destruct (in_dec string_dec n l); split; eauto.
  - discriminate.
  - intros (m & H & Hm). injection H as <-. contradiction.
Qed.
Lemma filter_chosen_eq c k1 k2 s1 p1 s2 p2 : (forall r, In r (rows c) -> chosen c k1 s1 p1 r = chosen c k2 s2 p2 r) ->
  filter (chosen c k1 s1 p1) (rows c) = filter (chosen c k2 s2 p2) (rows c).
Proof. intros H. apply filter_ext_in. auto. Qed.
Lemma outcome_chosen c k1 k2 s1 p1 s2 p2 t : (forall r, In r (rows c) -> chosen c k1 s1 p1 r = chosen c k2 s2 p2 r) ->
  outcome c k1 s1 p1 t = outcome c k2 s2 p2 t.
Proof.
  intros H. unfold outcome, placed, value_u, value_v. now rewrite (filter_chosen_eq _ _ _ _ _ _ _ H).
Qed.
Lemma same_names c l l' s1 p1 s2 p2 t : (forall n, In n (c_name c) -> (In n l <-> In n l')) ->
  outcome c (CSeq l) s1 p1 t = outcome c (CSeq l') s2 p2 t.
Proof.
  intros H. apply outcome_chosen. intros r Hr. apply eq_true_iff_eq. rewrite !chosen_seq by assumption.
  assert (Hn : forall n, w_name r = Some n -> In n (c_name c)).
  { unfold rows in Hr. apply in_map_iff in Hr. destruct Hr as (i & <- & _). cbn. intros n E. eapply nth_error_In; eauto. }
  split; intros (n & E & Hi); exists n; split; auto; apply H; auto.
Qed.

Lemma reconstruct_names L t nd c epoch l l' s1 p1 s2 p2 : well_formed c -> (forall n, In n (c_name c) -> (In n l <-> In n l')) ->
  reconstruct L t nd c epoch (CSeq l) s1 p1 = reconstruct L t nd c epoch (CSeq l') s2 p2.
Proof.
  intros W H. rewrite !reconstruct_eq by assumption. destruct (Nat.ltb 1 nd); auto.
  destruct (normalize_time _ _ _) as [tn|]; cbn [bind]; auto. now rewrite (same_names c l l' s1 p1 s2 p2).
Qed.

(** ** C50 *)
Lemma xge_trans a b c : xge a b = true -> xge b c = true -> xge a c = true.
Proof.
  destruct a, b, c; cbn; auto; try discriminate; repeat match goal with |- context [if ?d then _ else _] => destruct d end; auto; try discriminate.
  intros _ _. lra.
Qed.
Lemma xge_fin_mono a m m' : m <= m' -> xge a (Fin m') = true -> xge a (Fin m) = true.
Proof.
  intros H Ha. eapply xge_trans; eauto. cbn. destruct (Rle_dec m m'); auto; try lra.
Qed.

Lemma chosen_mono c s p s' p' r : 0 <= s <= s' -> 0 <= p <= p' ->
  chosen c CNone s' p' r = true -> chosen c CNone s p r = true.
Proof.
  intros Hs Hp. unfold chosen. destruct (w_name r); auto. destruct (o_nodiagn (c_opt c)); auto.
  assert (K : xge (snr r) (Fin s') && xge (share (energy r) (total c)) (Fin p') = true ->
    xge (snr r) (Fin s) && xge (share (energy r) (total c)) (Fin p) = true).
  { intros H. apply andb_prop in H. destruct H as [H1 H2]. apply andb_true_intro. split; eapply xge_fin_mono; eauto; lra. }
  destruct (Req_EM_T s 0) as [->|]; destruct (Req_EM_T p 0) as [->|]; auto;
  destruct (Req_EM_T s' 0) as [->|]; destruct (Req_EM_T p' 0) as [->|]; auto; lra.
Qed.

(** the diagnostics used are the reported ones *)
Definition drow_good (tot : R) (d : crow * option (option xr) * option (option xr)) : Prop :=
  snd (fst d) = Some (Some (share (energy (fst (fst d))) tot)) /\ snd d = Some (Some (snr (fst (fst d)))).
Lemma drows_good c pe sn : aligned c -> c_PE c = Some pe -> c_SNR c = Some sn ->
  (Forall (drow_good (total c)) (drows c) <->
   pe = map (fun r => share (energy r) (total c)) (rows c) /\ sn = map snr (rows c)).
Proof.
  intros A EP ES. destruct A as (_ & _ & _ & _ & _ & _ & _ & _ & _ & _ & _ & _ & A1 & A2).
  specialize (A1 _ EP). specialize (A2 _ ES). unfold drows, rows. rewrite !map_map. split.
  - intros H. assert (G : forall i, (i < length (c_name c))%nat -> drow_good (total c) (drow_of c i)).
    { intros i Hi. rewrite Forall_forall in H. apply H. apply in_map. apply in_seq. lia. }
    split; apply list_rows; auto; intros i Hi; destruct (G i Hi) as [G1 G2]; cbn [drow_of fst snd] in G1, G2.
    + rewrite EP in G1. cbn [at_ option_map] in G1. now injection G1.
    + rewrite ES in G2. cbn [at_ option_map] in G2. now injection G2.
  - intros [-> ->]. apply Forall_forall. intros d Hd. apply in_map_iff in Hd. destruct Hd as (i & <- & Hi). apply in_seq in Hi.
    unfold drow_good. cbn [drow_of fst snd]. rewrite EP, ES. cbn [at_ option_map].
    rewrite !nth_error_map, nth_error_seq by lia. split; reflexivity.
Qed.

Lemma reported L t u v lat opts x y a b : lstsq_shape L -> argsort_perm L -> arrays_ok t u v -> unique_keys opts ->
  sorted_order x -> (sorted_order y \/ exists l, y = PSeq (map PStr l) /\ NoDup l /\ Permutation l (c_name a)) ->
  ~ setting opts "conf_int" (PStr "none") ->
  solve L t u v lat (dset opts "order_constit" x) = Ok a -> solve L t u v lat (dset opts "order_constit" y) = Ok b ->
  c_weights a <> [] ->
  c_PE b = Some (map (fun r => share (energy r) (total b)) (rows b)) /\ c_SNR b = Some (map snr (rows b)).
Proof.
  intros HL HP Ha Hu Hx Hy Hn H1 H2 HW.
  assert (Hu' : forall z, unique_keys (dset opts "order_constit" z)) by (intros; now apply unique_dset).
  assert (Hn' : forall z, ~ setting (dset opts "order_constit" z) "conf_int" (PStr "none")).
  { intros z Hs. apply Hn. apply setting_iff; auto; [cbn; tauto|]. apply (setting_val _ "conf_int" _ (Hu' z)) in Hs; [|cbn; tauto].
    rewrite opt_value_dset in Hs by discriminate. congruence. }
  destruct (second_opt _ _ _ _ _ _ _ _ _ _ HL Ha Hu H1 H2 HW) as [[y' E] EW].
  assert (HWb : c_weights b <> []) by now rewrite EW.
  assert (SP : same_result a b /\ Permutation (drows a) (drows b)).
  { destruct Hy as [Hy|(l & -> & Hnd & Hl)].
    - destruct (orders_agree _ _ _ _ _ _ _ _ _ _ HL HP Ha Hu Hx Hy H1 H2 HW). auto.
    - destruct (name_full _ _ _ _ _ _ _ _ _ _ HL HP Ha Hu Hx H1 H2 HW Hnd Hl). auto. }
  destruct SP as [S P].
  assert (Wa := solve_well_formed L t u v lat _ a HL Ha (Hu' x) H1 HW).
  assert (Wb := solve_well_formed L t u v lat _ b HL Ha (Hu' y) H2 HWb).
  destruct (PE_present _ _ _ _ _ _ _ HL Ha (Hu' x) H1 HW (Hn' x)) as [A1 A2].
  destruct (PE_present _ _ _ _ _ _ _ HL Ha (Hu' y) H2 HWb (Hn' y)) as [B1 B2].
  destruct (c_PE a) as [pa|] eqn:EPa; [|congruence]. destruct (c_SNR a) as [sa|] eqn:ESa; [|congruence].
  destruct (c_PE b) as [pb|] eqn:EPb; [|congruence]. destruct (c_SNR b) as [sb|] eqn:ESb; [|congruence].
  assert (Ga : Forall (drow_good (total a)) (drows a)).
  { apply (drows_good a pa sa); auto; [apply Wa|]. split.
    - eapply (percent_energy L t u v lat (dset opts "order_constit" x) a x); eauto.
      apply setting_iff; auto; [cbn; tauto|]. now rewrite opt_value_set.
    - eapply (snr_reported L t u v lat (dset opts "order_constit" x) a); eauto. }
  assert (Gb : Forall (drow_good (total b)) (drows b)).
  { rewrite <- (total_perm _ _ (sr_rows _ _ S)). apply Forall_forall. intros d Hd. rewrite Forall_forall in Ga. apply Ga.
    apply (Permutation_in d (Permutation_sym P) Hd). }
  apply (drows_good b pb sb) in Gb; auto; [|apply Wb]. destruct Gb as [-> ->]. auto.
Qed.

(** ** C51 *)

Lemma tides_split c x p q l : (forall r, In r l -> p r = true -> q r = true -> False) ->
  tides c x (filter (fun r => p r || q r) l) =
  match tides c x (filter p l), tides c x (filter q l) with
  | Some a, Some b => Some (fst a + fst b, snd a + snd b)
  | _, _ => None
  end.
Proof.
  intros H. induction l as [|r l IH]; cbn [filter].
  - cbn. do 2 f_equal; ring.
  - assert (IH' := IH (fun r' Hr => H r' (or_intror Hr))). clear IH.
    assert (N := H r (or_introl eq_refl)). destruct (p r), (q r); cbn [orb]; try (exfalso; now apply N).
    + cbn [tides]. rewrite IH'. destruct (tide c x r), (tides c x (filter p l)), (tides c x (filter q l)); cbn [fst snd]; auto.
      do 2 f_equal; ring.
    + cbn [tides]. rewrite IH'. destruct (tide c x r), (tides c x (filter p l)), (tides c x (filter q l)); cbn [fst snd]; auto.
      do 2 f_equal; ring.
    + exact IH'.
Qed.

Lemma chosen_app c A B mS mP r : chosen c (CSeq (A ++ B)) mS mP r = chosen c (CSeq A) mS mP r || chosen c (CSeq B) mS mP r.
Proof.
  unfold chosen. destruct (w_name r) as [n|]; auto.
  destruct (in_dec string_dec n (A ++ B)) as [H|H], (in_dec string_dec n A), (in_dec string_dec n B); cbn; auto;
    rewrite in_app_iff in H; tauto.
Qed.
Lemma chosen_nil c mS mP r : chosen c (CSeq []) mS mP r = false.
Proof. unfold chosen. destruct (w_name r); auto. Qed.


Lemma plus_split (za zb z : option (R * R)) b (pr : R * R -> R) :
  z = match za, zb with Some a, Some b => Some (fst a + fst b, snd a + snd b) | _, _ => None end ->
  (pr = fst \/ pr = snd) ->
  plus (option_map pr z) b =
  xminus (xadd (plus (option_map pr za) b) (plus (option_map pr zb) b)) (plus (option_map pr (Some (0, 0))) b).
Proof.
  intros -> Hp. destruct za as [a|], zb as [a'|], b as [m|]; cbn; auto. f_equal. destruct Hp as [-> | ->]; cbn; ring.
Qed.

Lemma filter_false {A} (l : list A) : filter (fun _ => false) l = [].
Proof. induction l; auto. Qed.

Lemma additive c A B s p x : (forall n, In n A -> In n B -> False) ->
  value_u c (CSeq (A ++ B)) s p x =
    xminus (xadd (value_u c (CSeq A) s p x) (value_u c (CSeq B) s p x)) (value_u c (CSeq []) s p x) /\
  value_v c (CSeq (A ++ B)) s p x =
    xminus (xadd (value_v c (CSeq A) s p x) (value_v c (CSeq B) s p x)) (value_v c (CSeq []) s p x).
Proof.
  intros H.
  assert (D : tides c x (filter (chosen c (CSeq (A ++ B)) s p) (rows c)) =
    match tides c x (filter (chosen c (CSeq A) s p) (rows c)), tides c x (filter (chosen c (CSeq B) s p) (rows c)) with
    | Some a, Some b => Some (fst a + fst b, snd a + snd b) | _, _ => None end).
  { rewrite <- tides_split.
    - f_equal. apply filter_ext. intros r. apply chosen_app.
    - intros r Hr. rewrite !chosen_seq by assumption. intros (n & E1 & I1) (n' & E2 & I2). rewrite E1 in E2. injection E2 as <-. eauto. }
  assert (Z : tides c x (filter (chosen c (CSeq []) s p) (rows c)) = Some (0, 0)).
  { rewrite (filter_ext _ (fun _ => false)) by (intros; apply chosen_nil). now rewrite filter_false. }
  unfold value_u, value_v. rewrite Z. split; apply plus_split; auto.
Qed.
