(** Every per-constituent array of a result has one entry per constituent. *)
From Coq Require Import Lia Permutation.
From Verif Require Import M_Base M_Lib M_Options M_Time M_Slvinit M_Harmonics M_Select M_Ellipse
  M_Robust M_Period M_Conf M_Diag M_Solve L_Base L_SolveInv S_Slv L_Slv L_Slv2 L_Tables S_Order L_Order S_Select L_Select
  S_Fit L_Fit.
Open Scope R_scope.

Lemma cslice_len m i n : (i + n <= length m)%nat -> length (cslice m i n) = n.
Proof. intros H. unfold cslice. rewrite firstn_length, skipn_length. lia. Qed.
Lemma ap_len m a b : (2 * a + b <= length m)%nat -> length (ap_of m a b) = (a + b)%nat.
Proof. intros H. unfold ap_of. rewrite app_length, !cslice_len; lia. Qed.
Lemma am_len m a b : (2 * a + 2 * b <= length m)%nat -> length (am_of m a b) = (a + b)%nat.
Proof. intros H. unfold am_of. rewrite app_length, !cslice_len; lia. Qed.

Lemma inferred_len {X} (Rs : list X) (f : X -> list C) refs : length refs = length Rs ->
  length (inferred_coefs (map f Rs) refs) = list_sum (map (fun r => length (f r)) Rs).
Proof.
  unfold inferred_coefs. revert refs. induction Rs as [|r Rs IH]; intros [|x refs] H; cbn in *; try discriminate; auto.
  rewrite app_length, map_length. f_equal. auto.
Qed.
Lemma flat_map_len {A B} (f : A -> list B) l : length (flat_map f l) = list_sum (map (fun x => length (f x)) l).
Proof. induction l as [|a l IH]; cbn; auto. rewrite app_length, IH. reflexivity. Qed.

Lemma combine_len_eq {A B} (a : list A) (b : list B) n : length a = n -> length b = n -> length (combine a b) = n.
Proof. intros. rewrite combine_length. lia. Qed.

Lemma all_pm_len m s : sel_lens s -> (2 * s_nNR s + 2 * s_nR s <= length m)%nat ->
  length (all_pm m s) = length (s_name s).
Proof.
  intros SL Hm. unfold all_pm. rewrite app_length.
  rewrite (combine_len_eq _ _ (s_nNR s + s_nR s)) by (rewrite ?ap_len, ?am_len; lia).
  assert (HR : forall f : refstruct -> list C, (forall r, In r (s_R s) -> length (f r) = length (r_Iname r)) -> forall refs, length refs = s_nR s ->
     length (inferred_coefs (map f (s_R s)) refs) = length (flat_map r_Iname (s_R s))).
  { intros f Hf refs Hr. rewrite inferred_len by (rewrite Hr; apply SL). rewrite flat_map_len. f_equal.
    apply map_ext_in. exact Hf. }
  rewrite (combine_len_eq _ _ (length (flat_map r_Iname (s_R s)))).
  - rewrite (ln_name _ SL), !app_length, map_length, (ln_NRn _ SL), (ln_nNR _ SL), (ln_nR _ SL). lia.
  - apply HR; [intros r Hr; now apply (ln_I _ SL)|]. rewrite skipn_length, ap_len; lia.
  - apply HR; [intros r Hr; now apply (ln_I _ SL)|]. rewrite skipn_length, am_len; lia.
Qed.

Lemma oif_len {A} b (l : list A) n : length l = n -> len_ok n (oif b l).
Proof. intros H l' E. destruct b; [injection E as <-; exact H|discriminate]. Qed.
Lemma None_len {A} n : len_ok n (@None (list A)).
Proof. intros l E. discriminate. Qed.
Lemma Some_len {A} n (l : list A) : length l = n -> len_ok n (Some l).
Proof. intros H l' E. injection E as <-. exact H. Qed.
#[global] Hint Resolve oif_len None_len Some_len : lens.

Lemma core_aligned tref lor la o s m W : sel_lens s -> (2 * s_nNR s + 2 * s_nR s <= length m)%nat ->
  aligned (coef_core tref lor la o s m W).
Proof.
  intros SL Hm. assert (E := all_pm_len m s SL Hm). unfold aligned, coef_core. cbn.
  split; [apply SL|]. split; [apply SL|]. split; [now rewrite !map_length|].
  repeat split; eauto with lens; apply oif_len; now rewrite !map_length.
Qed.

Lemma mapM_idx_len {A B} (f : nat -> A -> res B) i l r : mapM_idx f i l = Ok r -> length r = length l.
Proof.
  revert i r. induction l as [|x l IH]; cbn; intros i r H; [now injection H as <-|].
  inv_bind H. inv_bind H. injection H as <-. cbn. f_equal. eauto.
Qed.

Lemma confidence_len L o s tin t e el xraw xmod W B nm xs cis : sel_lens s -> length xs = (s_nNR s + s_nR s)%nat ->
  (o_infer o = None -> s_R s = []) ->
  confidence L o s tin t e el xraw xmod W B nm xs = Ok cis -> length cis = length (s_name s).
Proof.
  intros SL Hx Hn H. unfold confidence in H. inv_bind H. inv_bind H. inv_bind H. apply mapM_idx_len in Ha1.
  destruct (o_infer o).
  - destruct (o_linci o); [|discriminate]. injection H as <-. rewrite app_length, Ha1, Hx.
    rewrite (ln_name _ SL), !app_length, map_length, (ln_NRn _ SL), (ln_nNR _ SL), (ln_nR _ SL), <- Nat.add_assoc. do 2 f_equal.
    assert (Hr : length (skipn (length (s_NRlind s)) (combine xs a1)) = length (s_R s)).
    { rewrite skipn_length, combine_length, Ha1, Hx, (ln_nNR _ SL), (ln_nR _ SL). lia. }
    assert (HI := ln_I _ SL). revert Hr HI. generalize (skipn (length (s_NRlind s)) (combine xs a1)). generalize (s_R s). clear.
    induction l as [|r l IH]; intros [|[x c] l0] Hr HI; cbn in *; try discriminate; auto.
    rewrite !app_length. f_equal.
    + unfold conf_inferred. rewrite map_length, combine_length. destruct (HI r (or_introl eq_refl)) as (_ & _ & -> & ->). apply Nat.min_id.
    + apply IH; auto.
  - injection H as <-. rewrite Ha1, Hx, (ln_name _ SL), !app_length, map_length, (ln_NRn _ SL), (ln_nNR _ SL), (ln_nR _ SL), Hn; auto.
Qed.

Lemma conf_input_len tw m s : (2 * s_nNR s + 2 * s_nR s <= length m)%nat ->
  length (conf_input tw m s) = (s_nNR s + s_nR s)%nat.
Proof. intros H. unfold conf_input. rewrite map_length. apply combine_len_eq; [apply ap_len|apply am_len]; lia. Qed.

Lemma ci_stage_aligned L o s si la B xraw m W c1 : sel_lens s -> (2 * s_nNR s + 2 * s_nR s <= length m)%nat ->
  (o_infer o = None -> s_R s = []) -> ci_stage L o s si la B xraw m W = Ok c1 ->
  aligned c1 /\ c_name c1 = s_name s /\ c_frq c1 = s_frq s /\ c_lind c1 = s_lind s /\ c_PE c1 = None /\ c_SNR c1 = None /\ c_diagn c1 = None.
Proof.
  intros SL Hm Hn. unfold ci_stage. assert (A := core_aligned (si_tref si) (si_lor si) la o s m W SL Hm).
  destruct (o_conf_int o); intros H.
  - inv_bind H. injection H as <-. apply confidence_len in Ha; auto; [|now apply conf_input_len].
    split; [|repeat split]. destruct A as (A1 & A2 & A3 & A4 & A5 & A6 & A7 & _).
    unfold aligned, set_ci. cbn in *. split; auto. split; auto. split; auto. split; auto. split; auto. split; auto. split; auto.
    assert (Hmap : forall f : ci -> xr, length (map f a) = length (s_name s)) by (intros; now rewrite map_length).
    repeat match goal with |- _ /\ _ => split end; eauto with lens.
  - injection H as <-. split; auto.  cbn. repeat split.
Qed.

Lemma energies_len c E : aligned c -> energies c = Ok E -> length E = length (c_name c).
Proof.
  intros (_ & _ & _ & A4 & A5 & A6 & _). unfold energies. destruct (c_Lsmaj c) as [maj|].
  - intros H. inv_bind H. injection H as <-. unfold map2. rewrite map_length. apply combine_len_eq; [now apply A5|].
    destruct (c_Lsmin c); [|discriminate]. injection Ha as ->. now apply A6.
  - intros H. inv_bind H. injection H as <-. rewrite map_length. destruct (c_A c); [|discriminate]. injection Ha as ->. now apply A4.
Qed.
Lemma PE_len c pe : aligned c -> PE_of c = Ok pe -> length pe = length (c_name c).
Proof.
  intros A. unfold PE_of. intros H. inv_bind H. apply energies_len in Ha; auto. injection H as <-.
  destruct (c_Lsmaj c); now rewrite map_length.
Qed.
Lemma noises_len c N : aligned c -> noises c = Ok N -> length N = length (c_name c).
Proof.
  intros (_ & _ & _ & _ & _ & _ & _ & _ & A4 & A5 & A6 & _). unfold noises. destruct (c_Lsmaj c) as [maj|].
  - intros H. inv_bind H. inv_bind H. injection H as <-. unfold map2. rewrite map_length.
    apply combine_len_eq; [destruct (c_Lsmaj_ci c); [|discriminate]; injection Ha as ->; now apply A5
      |destruct (c_Lsmin_ci c); [|discriminate]; injection Ha0 as ->; now apply A6].
  - intros H. inv_bind H. injection H as <-. rewrite map_length. destruct (c_A_ci c); [|discriminate]. injection Ha as ->. now apply A4.
Qed.
Lemma SNR_len c snr : aligned c -> SNR_of c = Ok snr -> length snr = length (c_name c).
Proof.
  intros A. unfold SNR_of. intros H. inv_bind H. inv_bind H. apply energies_len in Ha; auto. apply noises_len in Ha0; auto.
  injection H as <-. unfold map2. rewrite map_length. now apply combine_len_eq.
Qed.

Lemma set_diag_aligned c pe snr d : aligned c -> len_ok (length (c_name c)) pe -> len_ok (length (c_name c)) snr ->
  aligned (set_diag c pe snr d).
Proof. unfold aligned. cbn. intuition. Qed.

Lemma diag_stage_aligned L o c1 c2 : aligned c1 -> diag_stage L o c1 = Ok c2 ->
  aligned c2 /\ c_name c2 = c_name c1 /\ c_frq c2 = c_frq c1 /\ c_lind c2 = c_lind c1.
Proof.
  intros A. unfold diag_stage. destruct (o_nodiagn o); intros H.
  - injection H as <-. auto.
  - inv_bind H. inv_bind H. inv_bind H. injection H as <-. split; [|repeat split].
    apply set_diag_aligned; auto; apply Some_len; [eapply PE_len|eapply SNR_len]; eauto.
Qed.

Lemma infer_none_R tref mr inc inf s : ut_cnstitsel tref mr inc inf = Ok s -> inf = None -> s_R s = [].
Proof. intros H ->. now destruct (sel_none _ _ _ _ H) as (_ & _ & ? & _). Qed.

(** a successful solve with at least one sample *)
Lemma natural_aligned L t u v lat opts cN : lstsq_shape L -> arrays_ok t u v -> natural L t u v lat opts cN ->
  c_weights cN <> [] ->
  aligned cN /\ exists compat si s,
    process_opts opts (is2d v) = Ok compat /\
    slvinit (l_parse L) t u v lat (oget compat "epoch") = Ok si /\
    ut_cnstitsel (si_tref si) (xdiv (Fin (o_rmin (c_opt cN))) (Fin (24 * si_lor si)))
      (o_cnstit (c_opt cN)) (o_infer (c_opt cN)) = Ok s /\
    c_name cN = s_name s /\ c_frq cN = s_frq s /\ c_lind cN = s_lind s /\
    length (c_weights cN) = length (si_t si).
Proof.
  intros HL Ha [(compat & si & la & s & B & xraw & m & W & c1 & P1 & P2 & -> & P4 & P5 & P6 & P7 & P8)] HW.
  assert (SL := sel_lens_ok _ _ _ _ _ P5). assert (Hn := infer_none_R _ _ _ _ _ P5).
  assert (EW : c_weights cN = W).
  { rewrite (sb_weights _ _ (diag_stage_base _ _ _ _ P8)), (sb_weights _ _ (ci_stage_base _ _ _ _ _ _ _ _ _ _ P7)). reflexivity. }
  destruct (fit_len _ _ _ _ _ _ _ _ _ _ _ _ _ HL SL Hn (slv_data _ _ _ _ _ _ _ Ha P2) P6) as (_ & F1 & _ & F2).
  assert (Hm : length m = ncoef (c_opt cN) s).
  { apply F2. intros E. rewrite E in F1. destruct W; [congruence|discriminate]. }
  assert (Hm2 : (2 * s_nNR s + 2 * s_nR s <= length m)%nat) by (rewrite Hm; unfold ncoef; lia).
  destruct (ci_stage_aligned _ _ _ _ _ _ _ _ _ _ SL Hm2 Hn P7) as (A1 & N1 & N2 & N3 & _).
  destruct (diag_stage_aligned _ _ _ _ A1 P8) as (A2 & M1 & M2 & M3).
  split; auto. exists compat, si, s. repeat (split; [congruence|]). congruence.
Qed.

(** ** re-ordering with one of the sorting orders *)
Lemma order_perm L c x' c' ind : argsort_perm L -> aligned c ->
  x' = PStr "PE" \/ x' = PStr "SNR" \/ x' = PStr "frequency" ->
  order_stage L c x' = Ok (c', ind) -> Permutation ind (seq 0 (length (c_name c))).
Proof.
  intros HL A Hx. assert (Hf := proj1 A). assert (HPE : len_ok (length (c_name c)) (c_PE c)) by (unfold aligned in A; intuition).
  assert (HSNR : len_ok (length (c_name c)) (c_SNR c)) by (unfold aligned in A; intuition).
  destruct Hx as [-> | [-> | ->]]; unfold order_stage; cbn.
  - intros H. inv_bind H. inv_bind H. injection H as <- <-. rewrite <- Permutation_rev. refine (perm_trans (HL _) _).
    assert (E : length a0 = length (c_name c)).
    { destruct (c_PE c) as [pe|] eqn:EP.
      - injection Ha as <-. rewrite EP in Ha0. injection Ha0 as <-. now apply HPE.
      - inv_bind Ha. injection Ha as <-. cbn in Ha0. injection Ha0 as <-. eapply PE_len; eauto. }
    now rewrite E.
  - intros H. inv_bind H. injection H as <- <-. rewrite <- Permutation_rev. refine (perm_trans (HL _) _).
    destruct (c_SNR c); [|discriminate]. injection Ha as <-. now rewrite (HSNR _ eq_refl).
  - intros H. injection H as <- <-. refine (perm_trans (HL _) _). now rewrite map_length, Hf.
Qed.

Lemma order_stage_rows L c x' c' ind : order_stage L c x' = Ok (c', ind) ->
  (forall i, crow_of c' i = crow_of c i) /\ c_name c' = c_name c /\ same_base c c' /\ c_diagn c' = c_diagn c.
Proof.
  intros H. destruct (order_stage_inv _ _ _ _ _ H) as [-> |(_ & _ & pe & _ & ->)].
  - repeat split.
  - repeat split.
Qed.

Lemma reorder_rows L c x' b : argsort_perm L -> aligned c ->
  x' = PStr "PE" \/ x' = PStr "SNR" \/ x' = PStr "frequency" ->
  reorder L c x' = Ok b -> Permutation (rows b) (rows c) /\ Permutation (c_name b) (c_name c).
Proof.
  intros HL A Hx H. destruct (reorder_inv _ _ _ _ H) as (c' & ind & H1 & H2 & _).
  assert (P := order_perm _ _ _ _ _ HL A Hx H1). destruct (order_stage_rows _ _ _ _ _ H1) as (R1 & R2 & _).
  assert (PR : Permutation (rows b) (rows c)).
  { rewrite (apply_order_rows' _ _ _ H2). rewrite (map_ext _ _ R1). unfold rows. now apply Permutation_map. }
  split; auto.
  assert (N : forall z, map (fun r => w_name r) (rows z) = map Some (c_name z)).
  { intros z. unfold rows. rewrite map_map. cbn. apply (map_seq_nth_error (c_name z) (fun j => nth_error (c_name z) j) Some). auto. }
  apply (Permutation_map (fun r => w_name r)) in PR. rewrite !N in PR.
  apply Permutation_map_inv in PR. destruct PR as (l & E & P2).
  assert (G : forall (a b : list string), map Some a = map Some b -> a = b) by (intros; now apply map_Some_inj).
  apply G in E. subst l. now symmetry.
Qed.
