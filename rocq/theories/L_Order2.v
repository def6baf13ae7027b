(** Orders, percent energy and the diagnostics table at the level of solve. *)
From Coq Require Import Lia Lra Sorting Permutation.
From Verif Require Import M_Base M_Lib M_Tables M_Const M_Options M_Time M_Slvinit M_Harmonics M_Select M_Ellipse
  M_Robust M_Period M_Conf M_Diag M_Solve S_Dict S_Options L_Base L_Options L_SolveInv L_OptSolve S_Slv L_Slv L_Slv2
  L_Tables S_Order L_Order S_Select L_Select S_Fit L_Fit L_Align L_SelOrder.
Open Scope R_scope.
Open Scope string_scope.

(** ** lists and options *)
Lemma nth_error_seq n i : (i < n)%nat -> nth_error (seq 0 n) i = Some i.
Proof. intros H. rewrite nth_error_nth' with (d := 0%nat) by now rewrite seq_length. now rewrite seq_nth. Qed.
Lemma list_rows {A} (l : list A) n (f : nat -> A) : length l = n -> (forall i, (i < n)%nat -> nth_error l i = Some (f i)) ->
  l = map f (seq 0 n).
Proof.
  revert n f. induction l as [|a l IH]; intros n f Hl H.
  - destruct n; [reflexivity|discriminate].
  - destruct n as [|n]; [discriminate|]. cbn. f_equal.
    + specialize (H 0%nat ltac:(lia)). now injection H.
    + rewrite <- seq_shift, map_map. apply IH; [now injection Hl|]. intros i Hi. apply (H (S i)). lia.
Qed.
Lemma nth_error_map2 {A B D} (f : A -> B -> D) a b i x y : nth_error a i = Some x -> nth_error b i = Some y ->
  nth_error (map2 f a b) i = Some (f x y).
Proof.
  unfold map2. revert b i. induction a as [|p a IH]; intros [|q b] [|i] H1 H2; cbn in *; try discriminate.
  - injection H1 as ->. injection H2 as ->. reflexivity.
  - auto.
Qed.
Lemma nth_error_some {A} (l : list A) i : (i < length l)%nat -> exists x, nth_error l i = Some x.
Proof. intros H. destruct (nth_error l i) eqn:E; [eauto|]. apply nth_error_None in E. lia. Qed.

(** ** energies *)
Lemma energies_rows c E : aligned c -> energies c = Ok E -> E = map energy (rows c).
Proof.
  intros A H. assert (HE := energies_len _ _ A H). unfold rows. rewrite map_map. apply list_rows; auto.
  intros i Hi. destruct A as (_ & _ & _ & A4 & A5 & A6 & _). unfold energies in H. unfold energy, crow_of. cbn.
  destruct (c_Lsmaj c) as [maj|] eqn:E1.
  - inv_bind H. injection H as <-. destruct (c_Lsmin c) as [mi|] eqn:E2; [|discriminate]. injection Ha as ->. cbn.
    destruct (nth_error_some maj i) as [x Hx]; [now rewrite (A5 _ eq_refl)|].
    destruct (nth_error_some a i) as [y Hy]; [now rewrite (A6 _ eq_refl)|].
    rewrite (nth_error_map2 _ _ _ _ _ _ Hx Hy), Hx, Hy. reflexivity.
  - inv_bind H. injection H as <-. destruct (c_A c) as [aa|] eqn:E2; [|discriminate]. injection Ha as ->. cbn.
    destruct (nth_error_some a i) as [x Hx]; [now rewrite (A4 _ eq_refl)|].
    rewrite nth_error_map, Hx. reflexivity.
Qed.
Lemma energy_nonneg r : 0 <= energy r.
Proof.
  unfold energy. destruct (w_Lsmaj r) as [[a|]|], (w_Lsmin r) as [[b|]|], (w_A r) as [[x|]|]; try lra;
    try (pose proof (Rle_0_sqr a); pose proof (Rle_0_sqr b); unfold Rsqr in *; lra);
    (pose proof (Rle_0_sqr x); unfold Rsqr in *; lra).
Qed.
Lemma rsum_zero (l : list R) : (forall x, In x l -> 0 <= x) -> rsum l = 0 -> forall x, In x l -> x = 0.
Proof.
  assert (G : forall l, (forall x, In x l -> 0 <= x) -> 0 <= rsum l).
  { induction l0 as [|a l0 IH]; cbn; intros; [lra|]. assert (0 <= a) by auto. specialize (IH ltac:(auto)). unfold rsum in IH. lra. }
  induction l as [|a l IH]; cbn; intros H1 H2 x Hx; [destruct Hx|destruct Hx as [<-|Hx]].
  - specialize (G l ltac:(auto)). assert (0 <= a) by auto. unfold rsum in G. lra.
  - specialize (G l ltac:(auto)). assert (0 <= a) by auto. apply IH; auto. unfold rsum in *. lra.
Qed.
Lemma PE_rows c pe : aligned c -> PE_of c = Ok pe -> pe = map (fun r => share (energy r) (total c)) (rows c).
Proof.
  intros A H. unfold PE_of in H. inv_bind H. apply energies_rows in Ha; auto. injection H as <-.
  assert (T : rsum a = total c) by (rewrite Ha; reflexivity).
  assert (Z : total c = 0 -> forall e, In e a -> e = 0).
  { intros T0. apply rsum_zero; [|congruence]. intros x Hx. rewrite Ha in Hx. apply in_map_iff in Hx.
    destruct Hx as (r & <- & _). apply energy_nonneg. }
  rewrite T. rewrite Ha in Z |- *. clear Ha T.
  destruct (c_Lsmaj c); rewrite map_map; apply map_ext_in; intros r Hr; unfold share;
    assert (Zr := fun T0 => Z T0 (energy r) (in_map energy _ _ Hr)); unfold xdiv; destruct (Req_EM_T (total c) 0) as [T0|T0].
  - rewrite (Zr T0). unfold sgn_inf. destruct (Rlt_dec 0 100); [|lra]. cbn. unfold sgn_inf.
    destruct (Rlt_dec 0 0); [lra|]. destruct (Rlt_dec 0 0); [lra|reflexivity].
  - cbn. f_equal. field. assumption.
  - rewrite (Zr T0). unfold sgn_inf. rewrite Rmult_0_r. destruct (Rlt_dec 0 0); [lra|]. destruct (Rlt_dec 0 0); [lra|reflexivity].
  - reflexivity.
Qed.
Lemma noises_rows c N : aligned c -> noises c = Ok N -> N = map noise_energy (rows c).
Proof.
  intros A H. assert (HE := noises_len _ _ A H). unfold rows. rewrite map_map. apply list_rows; auto.
  intros i Hi. destruct A as (_ & _ & _ & _ & A5' & _ & _ & _ & A4 & A5 & A6 & _). unfold noises in H. unfold noise_energy, crow_of. cbn.
  destruct (c_Lsmaj c) as [maj|] eqn:E1.
  - inv_bind H. inv_bind H. injection H as <-. destruct (c_Lsmaj_ci c) as [m1|] eqn:E2; [|discriminate]. injection Ha as ->. 
    destruct (c_Lsmin_ci c) as [m2|] eqn:E3; [|discriminate]. injection Ha0 as ->. cbn.
    destruct (nth_error_some a i) as [x Hx]; [now rewrite (A5 _ eq_refl)|].
    destruct (nth_error_some a0 i) as [y Hy]; [now rewrite (A6 _ eq_refl)|].
    rewrite (nth_error_map2 _ _ _ _ _ _ Hx Hy), Hx, Hy. reflexivity.
  - inv_bind H. injection H as <-. destruct (c_A_ci c) as [aa|] eqn:E2; [|discriminate]. injection Ha as ->. cbn.
    destruct (nth_error_some a i) as [x Hx]; [now rewrite (A4 _ eq_refl)|].
    rewrite nth_error_map, Hx. reflexivity.
Qed.
Lemma map2_map {X A B D} (f : A -> B -> D) (g : X -> A) (h : X -> B) l :
  map2 f (map g l) (map h l) = map (fun x => f (g x) (h x)) l.
Proof. unfold map2. induction l; cbn; auto. f_equal. auto. Qed.
Lemma SNR_rows c s : aligned c -> SNR_of c = Ok s -> s = map snr (rows c).
Proof.
  intros A H. unfold SNR_of in H. inv_bind H. inv_bind H. apply energies_rows in Ha; auto. apply noises_rows in Ha0; auto.
  injection H as <-. subst. apply map2_map.
Qed.

(** diagnostics of the natural-order result *)
Definition has_diag (c : coef) (pe : option (list xr)) (s : option (list xr)) : Prop := c_PE c = pe /\ c_SNR c = s.

Lemma same_rows c1 c2 : (forall i, crow_of c2 i = crow_of c1 i) -> c_name c2 = c_name c1 -> rows c2 = rows c1.
Proof. intros H E. unfold rows. rewrite E. now apply map_ext. Qed.
Lemma same_total c1 c2 : rows c2 = rows c1 -> total c2 = total c1.
Proof. unfold total. now intros ->. Qed.

Lemma natural_diag L t u v lat opts cN si s c : ran L t u v lat opts c cN si s ->
  (o_nodiagn (c_opt c) = true -> c_PE cN = None /\ c_SNR cN = None /\ c_diagn cN = None) /\
  (o_nodiagn (c_opt c) = false ->
     c_PE cN = Some (map (fun r => share (energy r) (total cN)) (rows cN)) /\
     c_SNR cN = Some (map snr (rows cN)) /\
     exists d c1, diagn_of L c1 = Ok d /\ c_diagn cN = Some d /\ aligned c1 /\ rows c1 = rows cN /\
       c_name c1 = c_name cN /\ PE_of c1 = Ok (map (fun r => share (energy r) (total cN)) (rows cN)) /\
       SNR_of c1 = Ok (map snr (rows cN))).
Proof.
  intros Rn. assert (A := rn_al _ _ _ _ _ _ _ _ _ _ Rn).
  destruct (rn_nat _ _ _ _ _ _ _ _ _ _ Rn) as [(compat & si2 & la & s2 & B & xraw & m & W & c1 & P1 & P2 & -> & P4 & P5 & P6 & P7 & P8)].
  rewrite (rn_opt _ _ _ _ _ _ _ _ _ _ Rn) in *.
  assert (N1 : c_PE c1 = None /\ c_SNR c1 = None /\ c_diagn c1 = None).
  { unfold ci_stage in P7. destruct (o_conf_int (c_opt c)).
    - inv_bind P7. injection P7 as <-. repeat split.
    - injection P7 as <-. repeat split. }
  unfold diag_stage in P8. split; intros Hn; rewrite Hn in P8.
  - injection P8 as <-. tauto.
  - inv_bind P8. inv_bind P8. inv_bind P8. injection P8 as <-.
    rename a into d, a0 into pe, a1 into sn, Ha into Hd, Ha0 into Hpe, Ha1 into Hsn.
    set (c2 := set_diag c1 (Some pe) (Some sn) (Some d)) in *.
    assert (A1 : aligned c1).
    { destruct A as (B1 & B2 & B3 & B4 & B5 & B6 & B7 & B8 & B9 & B10 & B11 & B12 & _). destruct N1 as (N1 & N2 & _).
      unfold aligned. rewrite N1, N2. cbn in *. repeat match goal with |- _ /\ _ => split end; auto with lens. }
    assert (RR : rows c2 = rows c1) by reflexivity. assert (TT : total c2 = total c1) by reflexivity.
    assert (X1 := PE_rows _ _ A1 Hpe). assert (X2 := SNR_rows _ _ A1 Hsn).
    split; [|split].
    + cbn [c_PE c2 set_diag]. rewrite TT, RR. now f_equal.
    + cbn [c_SNR c2 set_diag]. rewrite RR. now f_equal.
    + exists d, c1. rewrite TT, RR, <- X1, <- X2. auto 10.
Qed.

(** ** the re-ordered result *)
Lemma apply_order_at c ind b j i : apply_order c ind = Ok b -> nth_error ind j = Some i ->
  at_ (c_PE b) j = at_ (c_PE c) i /\ at_ (c_SNR b) j = at_ (c_SNR c) i /\ crow_of b j = crow_of c i.
Proof.
  intros H Hj. destruct (apply_order_rows _ _ _ H) as (_ & _ & H2 & _). specialize (H2 j i Hj).
  assert (E1 := f_equal (fun q => snd (fst q)) H2). assert (E2 := f_equal snd H2). assert (E3 := f_equal (fun q => fst (fst q)) H2).
  cbn [fst snd drow_of] in *. auto.
Qed.

Lemma total_perm c1 c2 : Permutation (rows c1) (rows c2) -> total c1 = total c2.
Proof.
  intros H. unfold total. apply (Permutation_map energy) in H.
  induction H; cbn; try lra.
Qed.

Lemma at_Some {A} (o : option (list A)) i x : at_ o i = Some (Some x) <-> exists l, o = Some l /\ nth_error l i = Some x.
Proof.
  destruct o as [l|]; cbn; split.
  - intros H. injection H as H. eauto.
  - intros (l' & E & H). injection E as <-. now rewrite H.
  - discriminate.
  - intros (l' & E & _). discriminate.
Qed.

(** PE of each constituent of the final result, when PE is reported *)
Lemma final_PE L t u v lat opts c cN si s : argsort_perm L -> ran L t u v lat opts c cN si s ->
  sorted_order (opt_value opts "order_constit") -> forall pe, c_PE c = Some pe ->
  pe = map (fun r => share (energy r) (total c)) (rows c).
Proof.
  intros HL Rn Hs pe Hpe. assert (A := rn_al _ _ _ _ _ _ _ _ _ _ Rn).
  destruct (ran_perm _ _ _ _ _ _ _ _ _ _ HL Rn Hs) as [P _].
  destruct (natural_diag _ _ _ _ _ _ _ _ _ _ Rn) as [D1 D2].
  destruct (reorder_inv _ _ _ _ (rn_ord _ _ _ _ _ _ _ _ _ _ Rn)) as (c' & ind & H1 & H2 & H3).
  destruct (order_stage_rows _ _ _ _ _ H1) as (R1 & R2 & _ & _).
  assert (RR := same_rows _ _ R1 R2).
  assert (PE' : c_PE c' = None \/ c_PE c' = Some (map (fun r => share (energy r) (total cN)) (rows cN))).
  { destruct H3 as [-> |(_ & E & pe' & E2 & ->)].
    - destruct (o_nodiagn (c_opt c)); [left; now apply D1|right; now apply D2].
    - right. cbn. f_equal. now apply PE_rows. }
  assert (HB := apply_order_rows _ _ _ H2). destruct HB as (B1 & B2 & B3 & B4).
  assert (Lpe : length pe = length (c_name c)).
  { destruct B2 as (_ & _ & _ & _ & _ & _ & _ & _ & _ & _ & _ & _ & X & _). now apply X. }
  unfold rows at 1. rewrite map_map. apply list_rows; auto. intros j Hj.
  destruct (nth_error_some ind j) as [i Hi]; [lia|].
  destruct (apply_order_at _ _ _ _ _ H2 Hi) as (Q1 & _ & Q3).
  rewrite Q3, R1, (total_perm _ _ P).
  destruct PE' as [E|E]; rewrite E, Hpe in Q1; [discriminate|]. cbn in Q1. injection Q1 as ->.
  assert (Hi2 : (i < length (c_name cN))%nat) by (rewrite <- R2; apply B4; eapply nth_error_In; eauto).
  unfold rows. rewrite map_map, nth_error_map, nth_error_seq by assumption. reflexivity.
Qed.

Lemma final_SNR L t u v lat opts c cN si s : argsort_perm L -> ran L t u v lat opts c cN si s ->
  forall sn, c_SNR c = Some sn -> sn = map snr (rows c).
Proof.
  intros HL Rn pe Hpe.
  destruct (natural_diag _ _ _ _ _ _ _ _ _ _ Rn) as [D1 D2].
  destruct (reorder_inv _ _ _ _ (rn_ord _ _ _ _ _ _ _ _ _ _ Rn)) as (c' & ind & H1 & H2 & H3).
  destruct (order_stage_rows _ _ _ _ _ H1) as (R1 & R2 & _ & _).
  assert (PE' : c_SNR c' = None \/ c_SNR c' = Some (map snr (rows cN))).
  { destruct H3 as [-> |(_ & E & pe' & E2 & ->)];
    (destruct (o_nodiagn (c_opt c)); [left; now apply D1|right; now apply D2]). }
  destruct (apply_order_rows _ _ _ H2) as (B1 & B2 & B3 & B4).
  assert (Lpe : length pe = length (c_name c)).
  { destruct B2 as (_ & _ & _ & _ & _ & _ & _ & _ & _ & _ & _ & _ & _ & X). now apply X. }
  unfold rows. rewrite map_map. apply list_rows; auto. intros j Hj.
  destruct (nth_error_some ind j) as [i Hi]; [lia|].
  destruct (apply_order_at _ _ _ _ _ H2 Hi) as (_ & Q1 & Q3).
  rewrite Q3, R1.
  destruct PE' as [E|E]; rewrite E, Hpe in Q1; [discriminate|]. cbn in Q1. injection Q1 as ->.
  assert (Hi2 : (i < length (c_name cN))%nat) by (rewrite <- R2; apply B4; eapply nth_error_In; eauto).
  unfold rows. rewrite map_map, nth_error_map, nth_error_seq by assumption. reflexivity.
Qed.

(** ** sortedness *)
Lemma SS_nth {A} (P : A -> A -> Prop) l i j x y : StronglySorted P l -> (i < j)%nat ->
  nth_error l i = Some x -> nth_error l j = Some y -> P x y.
Proof.
  intros H. revert i j. induction H as [|a l H IH F]; intros i j Hij Hi Hj.
  - destruct i; discriminate.
  - destruct j as [|j]; [lia|]. destruct i as [|i]; cbn in *.
    + injection Hi as ->. rewrite Forall_forall in F. apply F. eapply nth_error_In; eauto.
    + exact (IH i j ltac:(lia) Hi Hj).
Qed.
Lemma nth_error_rev {A} (l : list A) i : (i < length l)%nat -> nth_error (rev l) i = nth_error l (length l - 1 - i).
Proof.
  intros H. destruct (nth_error_some l (length l - 1 - i) ltac:(lia)) as [d Hd].
  rewrite (nth_error_nth' (rev l) d) by now rewrite rev_length. rewrite rev_nth by assumption.
  rewrite (nth_error_nth' l d) by lia. now replace (length l - S i)%nat with (length l - 1 - i)%nat by lia.
Qed.
Lemma taken_sorted L l r : argsort_sorts L -> take_idx l (l_argsort L l) = Ok r -> StronglySorted xle r.
Proof.
  intros HS H. assert (E : r = map (fun i => nth i l NaN) (l_argsort L l)); [|rewrite E; apply HS].
  destruct (take_idx_spec _ _ _ H) as [E1 E2]. revert r H E1 E2. generalize (l_argsort L l).
  induction l0 as [|i l0 IH]; intros [|x r] H E1 E2; cbn in *; try discriminate; auto.
  inv_bind H. inv_bind H. injection H as <- <-. f_equal.
  - destruct (nth_error l i) eqn:E; [|discriminate]. injection Ha as <-. symmetry. now apply nth_error_nth.
  - apply IH; auto. intros j i' Hj. exact (E2 (S j) i' Hj).
Qed.
Lemma take_idx_rev {A} (l : list A) ind r : take_idx l (rev ind) = Ok r -> take_idx l ind = Ok (rev r).
Proof.
  intros H. apply take_idx_map in H. apply take_idx_intro. rewrite !map_rev in *.
  apply (f_equal (@rev _)) in H. rewrite !rev_involutive in H. rewrite H. reflexivity.
Qed.
Lemma rev_sorted L l r : argsort_sorts L -> take_idx l (rev (l_argsort L l)) = Ok r -> non_increasing r.
Proof.
  intros HS H. apply take_idx_rev in H. apply (taken_sorted _ _ _ HS) in H.
  intros i j x y Hij Hi Hj Hx Hy.
  assert (Li : (j < length r)%nat) by (apply nth_error_Some; congruence).
  assert (X : xle y x).
  { apply (SS_nth xle (rev r) (length r - 1 - j) (length r - 1 - i)); auto; [lia| |];
    rewrite nth_error_rev by lia.
    - now replace (length r - 1 - (length r - 1 - j))%nat with j by lia.
    - now replace (length r - 1 - (length r - 1 - i))%nat with i by lia. }
  destruct X as [->|(_ & _ & X)]; [congruence|exact X].
Qed.

(** which order was applied *)
Lemma final_order L t u v lat opts c cN si s : argsort_sorts L -> ran L t u v lat opts c cN si s ->
  ((o_ordercnstit (c_opt c) = PStr "PE") -> exists pe, c_PE c = Some pe /\ non_increasing pe) /\
  ((o_ordercnstit (c_opt c) = PStr "SNR") -> exists sn, c_SNR c = Some sn /\ non_increasing sn) /\
  ((o_ordercnstit (c_opt c) = PStr "frequency") -> non_decreasing (c_frq c)).
Proof.
  intros HS Rn. assert (R1 := rn_ord _ _ _ _ _ _ _ _ _ _ Rn). rewrite reorder_eq in R1. unfold order_stage in R1.
  split; [|split]; intros E; rewrite E in R1; cbn in R1.
  - inv_bind R1. inv_bind Ha. inv_bind Ha. injection Ha as <-. cbn [fst snd] in R1.
    unfold apply_order in R1. inv_bind R1. inv_bind R1. do 13 inv_bind R1. injection R1 as <-. cbn [c_PE].
    destruct (c_PE a0) as [pe|]; [|discriminate]. injection Ha1 as <-. cbn in Ha2. inv_bind Ha2. injection Ha2 as <-.
    eexists; split; [reflexivity|]. eapply rev_sorted; eauto.
  - inv_bind R1. inv_bind Ha. injection Ha as <-. cbn [fst snd] in R1.
    unfold apply_order in R1. inv_bind R1. inv_bind R1. inv_bind R1. do 12 inv_bind R1. injection R1 as <-. cbn [c_SNR].
    destruct (c_SNR cN) as [pe|]; [|discriminate]. injection Ha0 as <-. cbn in Ha2. inv_bind Ha2. injection Ha2 as <-.
    eexists; split; [reflexivity|]. eapply rev_sorted; eauto.
  - unfold apply_order in R1. do 15 inv_bind R1. injection R1 as <-. cbn [c_frq]. clear - HS Ha12.
    assert (H : take_idx (map Fin (c_frq cN)) (l_argsort L (map Fin (c_frq cN))) = Ok (map Fin a12)).
    { apply take_idx_map in Ha12. apply take_idx_intro. apply (f_equal (map (option_map Fin))) in Ha12. rewrite !map_map in *.
      cbn in Ha12. rewrite <- Ha12. apply map_ext. intros i. now rewrite nth_error_map. }
    apply (taken_sorted _ _ _ HS) in H. intros i j x y Hij Hi Hj.
    assert (X : xle (Fin x) (Fin y)).
    { apply (SS_nth xle _ i j _ _ H Hij); rewrite nth_error_map; [rewrite Hi|rewrite Hj]; reflexivity. }
    destruct X as [X|(_ & _ & X)]; [discriminate|]. cbn in X. destruct (Rle_dec x y); [assumption|discriminate].
Qed.

(** ** name sequences *)
Lemma name_index_nth names n i : name_index names n = Ok i -> nth_error names i = Some n.
Proof.
  unfold name_index. destruct (find_index (String.eqb n) names) as [k|] eqn:E; [|discriminate]. intros H. injection H as ->.
  revert i E. induction names as [|a names IH]; cbn; intros i E; [discriminate|].
  destruct (String.eqb_spec n a) as [->|]; [injection E as <-; reflexivity|].
  destruct (find_index _ _); [|discriminate]. injection E as <-. cbn. auto.
Qed.
Lemma name_index_err names n : ~ In n names -> name_index names n = Err ValueError.
Proof.
  unfold name_index. intros H. replace (find_index (String.eqb n) names) with (@None nat); auto.
  induction names as [|a names IH]; cbn; auto. destruct (String.eqb_spec n a) as [->|]; [exfalso; apply H; now left|].
  rewrite <- IH; auto. intros X; apply H; now right.
Qed.
Lemma order_names_seq l : order_names (PSeq (map PStr l)) = Ok l.
Proof. cbn. induction l as [|a l IH]; cbn; auto. rewrite IH. reflexivity. Qed.

Lemma name_order L c l b : reorder L c (PSeq (map PStr l)) = Ok b ->
  c_name b = l /\ exists ind, rows b = map (crow_of c) ind /\ drows b = map (drow_of c) ind /\
    (forall i, In i ind -> (i < length (c_name c))%nat).
Proof.
  rewrite reorder_eq. unfold order_stage. cbn [eq_str]. rewrite order_names_seq. cbn [bind]. intros H. inv_bind H.
  inv_bind Ha. injection Ha as <-. cbn [fst snd] in H.
  destruct (apply_order_rows _ _ _ H) as (B1 & B2 & B3 & B4). split.
  - assert (E : take_idx (c_name c) a0 = Ok (c_name b)).
    { unfold apply_order in H. inv_bind H. do 14 inv_bind H. injection H as <-. exact Ha. }
    assert (E2 : take_idx (c_name c) a0 = Ok l).
    { apply take_idx_intro. clear - Ha0. revert a0 Ha0. induction l as [|n l IH]; cbn [mapM]; intros ind H.
      - injection H as <-. reflexivity.
      - inv_bind H. inv_bind H. injection H as <-. cbn. apply name_index_nth in Ha. rewrite Ha. f_equal. auto. }
    rewrite E in E2. now injection E2.
  - exists a0. split; [now apply apply_order_rows'|]. split; auto. now apply apply_order_drows.
Qed.

Lemma name_order_err L c l n : In n l -> ~ In n (c_name c) -> reorder L c (PSeq (map PStr l)) = Err ValueError.
Proof.
  intros H1 H2. rewrite reorder_eq. unfold order_stage. cbn [eq_str]. rewrite order_names_seq. cbn [bind].
  replace (mapM (name_index (c_name c)) l) with (@Err (list nat) ValueError); [reflexivity|].
  induction l as [|a l IH]; [destruct H1|]. cbn.
  destruct (in_dec string_dec a (c_name c)) as [Ha|Ha].
  - destruct H1 as [->|H1]; [contradiction|]. specialize (IH H1).
    destruct (name_index (c_name c) a) eqn:E; cbn [bind].
    + rewrite <- IH. reflexivity.
    + unfold name_index in E. destruct (find_index _ _); [discriminate|]. now injection E as <-.
  - now rewrite (name_index_err _ _ Ha).
Qed.
