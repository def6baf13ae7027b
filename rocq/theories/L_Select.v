(** Constituent selection. *)
From Coq Require Import Lia Lra QArith Qabs Qreals Sorting Permutation.
From Verif Require Import M_Base M_Tables M_Const M_Options M_Harmonics M_Select S_Dict S_Tables S_Select
  L_Base L_Bunch L_Tables.
Open Scope R_scope.
Open Scope string_scope.

(** ** index lists *)
Lemma take_idx_map {A} (l : list A) ind r : take_idx l ind = Ok r -> map (fun i => nth_error l i) ind = map Some r.
Proof.
  revert r. induction ind as [|i ind IH]; cbn; intros r H; [injection H as <-; reflexivity|].
  inv_bind H. inv_bind H. injection H as <-. destruct (nth_error l i) eqn:E; [|discriminate].
  injection Ha as <-. cbn. f_equal. auto.
Qed.
Lemma take_idx_intro {A} (l : list A) ind r : map (fun i => nth_error l i) ind = map Some r -> take_idx l ind = Ok r.
Proof.
  revert r. induction ind as [|i ind IH]; intros [|y r] H; cbn in *; try discriminate; auto.
  injection H as H1 H2. specialize (IH r H2). unfold take_idx in *. cbn. rewrite H1. cbn. rewrite IH. reflexivity.
Qed.
Lemma take_idx_len {A} (l : list A) ind r : take_idx l ind = Ok r -> length r = length ind.
Proof. intros H. apply take_idx_map in H. apply (f_equal (@length _)) in H. rewrite !map_length in H. auto. Qed.

Lemma mapM_index names r : mapM constit_index names = Ok r -> map (fun i => nth_error const_name i) r = map Some names.
Proof.
  revert r. induction names as [|n names IH]; cbn [mapM]; intros r H; [injection H as <-; reflexivity|].
  inv_bind H. inv_bind H. injection H as <-. cbn [map]. rewrite (proj1 (constit_index_iff n a) Ha). f_equal. auto.
Qed.
Lemma mapM_index_take names r : mapM constit_index names = Ok r -> take_idx const_name r = Ok names.
Proof. intros H. apply take_idx_intro. now apply mapM_index. Qed.

Lemma lin_len tref : length (linearized_freqs tref) = 146%nat.
Proof.
  unfold linearized_freqs. set (x := map _ (combine freqR const_doodson)).
  assert (Hx : length x = 146%nat) by reflexivity.
  rewrite <- Hx. apply (sh_fold_length 0 (fun ik v => v * sh_coef ik) rsum).
Qed.

Lemma names_lt i n : nth_error const_name i = Some n -> (i < 146)%nat.
Proof. intros H. rewrite <- names_len. apply nth_error_Some. congruence. Qed.

Lemma take_freq tref ind names : take_idx const_name ind = Ok names ->
  take_idx (linearized_freqs tref) ind = Ok (map (fun i => nth i (linearized_freqs tref) 0) ind).
Proof.
  intros H. apply take_idx_map in H. apply take_idx_intro. rewrite map_map.
  revert names H. induction ind as [|i ind IH]; intros [|n names] H; cbn [map] in *; try discriminate; auto.
  injection H as H1 H2. f_equal; eauto. apply nth_error_nth'. rewrite lin_len. eapply names_lt; eauto.
Qed.

(** ** automatic selection *)
Lemma xge_fin d m : xge (Fin d) (Fin m) = (if Rle_dec m d then true else false).
Proof. reflexivity. Qed.

Lemma filter_enum {A} (p : A -> bool) (l : list A) (ns : list string) k : (length ns = length l)%nat ->
  map (fun i => nth_error ns (i - k)) (map fst (filter (fun q => p (snd q)) (combine (seq k (length l)) l))) =
  map Some (map fst (filter (fun q => p (snd q)) (combine ns l))).
Proof.
  revert ns k. induction l as [|x l IH]; intros [|n ns] k H; cbn in *; try discriminate; auto.
  injection H as H. specialize (IH ns (S k) H).
  assert (E : forall ind, (forall i, In i ind -> (S k <= i)%nat) ->
     map (fun i => nth_error (n :: ns) (i - k)) ind = map (fun i => nth_error ns (i - S k)) ind).
  { intros ind Hi. apply map_ext_in. intros i Hin. specialize (Hi i Hin).
    replace (i - k)%nat with (S (i - S k)) by lia. reflexivity. }
  assert (B : forall i, In i (map fst (filter (fun q => p (snd q)) (combine (seq (S k) (length l)) l))) -> (S k <= i)%nat).
  { intros i Hi. apply in_map_iff in Hi. destruct Hi as ([i' y] & <- & Hi). apply filter_In in Hi. destruct Hi as [Hi _].
    apply in_combine_l in Hi. apply in_seq in Hi. cbn. lia. }
  destruct (p x); cbn.
  - rewrite Nat.sub_diag. cbn. f_equal. rewrite E by exact B. exact IH.
  - rewrite E by exact B. exact IH.
Qed.

Lemma map_Some_inj {A} (a b : list A) : map Some a = map Some b -> a = b.
Proof. revert b. induction a as [|x a IH]; intros [|y b] H; cbn in H; try discriminate; auto. injection H as -> H. f_equal. auto. Qed.

Lemma dfR_len : length dfR = 146%nat.
Proof. unfold dfR. rewrite map_length. apply tab_len. Qed.

Lemma auto_names m : map (fun i => nth_error const_name i) (auto_lind (Fin m)) = map Some (map fst (passing m)).
Proof.
  unfold auto_lind, passing, enumerate.
  rewrite <- (filter_enum (fun d => if Rle_dec m d then true else false) dfR const_name 0) by (rewrite names_len, dfR_len; reflexivity).
  rewrite !map_map. apply map_ext_in. intros q _. now rewrite Nat.sub_0_r.
Qed.

Lemma auto_sel tref m s : ut_cnstitsel tref (Fin m) (PStr "auto") None = Ok s ->
  s_name s = map fst (passing m).
Proof.
  unfold ut_cnstitsel, initial_lind. cbn [eq_str String.eqb Ascii.eqb Bool.eqb bind]. intros H.
  inv_bind H. inv_bind H. injection H as <-. cbn [s_name].
  apply take_idx_map in Ha0. rewrite auto_names in Ha0.
  symmetry. now apply map_Some_inj.
Qed.
Lemma auto_sel_ok tref m : exists s, ut_cnstitsel tref (Fin m) (PStr "auto") None = Ok s.
Proof.
  unfold ut_cnstitsel, initial_lind. cbn [eq_str String.eqb Ascii.eqb Bool.eqb bind].
  assert (H := take_idx_intro _ _ _ (auto_names m)). rewrite (take_freq tref _ _ H), H. cbn [bind]. eauto.
Qed.

Lemma passing_In m n : In n (map fst (passing m)) <-> exists i f d, tabulated i n f d /\ m <= d.
Proof.
  unfold passing, tabulated. rewrite in_map_iff. split.
  - intros ([n' d] & E & H). cbn in E. subst n'. apply filter_In in H. destruct H as [H1 H2]. cbn in H2.
    apply entry_combine_nth in H1. destruct H1 as (i & H3 & H4).
    destruct (nth_error freqR i) as [f|] eqn:Ef.
    + exists i, f, d. destruct (Rle_dec m d); [auto|discriminate].
    + exfalso. apply nth_error_None in Ef. apply names_lt in H3. rewrite freqR_len in Ef. lia.
  - intros (i & f & d & (H1 & H2 & H3) & Hm). exists (n, d). split; auto. apply filter_In. split.
    + eapply nth_entry_combine; eauto.
    + cbn. destruct (Rle_dec m d); [reflexivity|contradiction].
Qed.

(** ** mutual resolution *)
Lemma qpairs_ok :
  forallb (fun i => forallb (fun j =>
    (Nat.leb j i || (Nat.eqb i 20 && Nat.eqb j 47) ||
     let d := Qminus (nth j const_freq 0%Q) (nth i const_freq 0%Q) in
     Qle_bool (nth i const_df 0%Q) d || Qle_bool (nth j const_df 0%Q) d)%bool) (seq 0 146)) (seq 0 146) = true.
Proof. vm_compute. reflexivity. Qed.

Lemma dfR_nth i d : nth_error dfR i = Some d -> d = Q2R (nth i const_df 0%Q).
Proof.
  unfold dfR. intros H. apply nth_error_nth with (d := 0) in H. rewrite <- H.
  replace 0 with (Q2R 0%Q) by (unfold Q2R; cbn; lra). now rewrite map_nth.
Qed.
Lemma freqR_nth i f : nth_error freqR i = Some f -> f = Q2R (nth i const_freq 0%Q).
Proof.
  unfold freqR. intros H. apply nth_error_nth with (d := 0) in H. rewrite <- H.
  replace 0 with (Q2R 0%Q) by (unfold Q2R; cbn; lra). now rewrite map_nth.
Qed.

Lemma qpair i j : (i < 146)%nat -> (j < 146)%nat -> (i < j)%nat ->
  (i = 20%nat /\ j = 47%nat) \/
  (nth i const_df 0 <= nth j const_freq 0 - nth i const_freq 0)%Q \/
  (nth j const_df 0 <= nth j const_freq 0 - nth i const_freq 0)%Q.
Proof.
  intros Hi Hj Hij. assert (C := qpairs_ok). rewrite forallb_forall in C.
  specialize (C i). rewrite in_seq in C. specialize (C (conj (Nat.le_0_l _) Hi)).
  rewrite forallb_forall in C. specialize (C j). rewrite in_seq in C. specialize (C (conj (Nat.le_0_l _) Hj)).
  cbv zeta in C. rewrite !orb_true_iff, andb_true_iff, !Nat.eqb_eq, Nat.leb_le, !Qle_bool_iff in C. 
  destruct C as [[C|C]|C]; [lia|left; exact C|right; exact C].
Qed.
Lemma name20 n : nth_error const_name 20 = Some n -> n = "K1".
Proof. assert (H : nth_error const_name 20 = Some "K1") by (vm_compute; reflexivity). rewrite H. congruence. Qed.
Lemma name47 n : nth_error const_name 47 = Some n -> n = "M2".
Proof. assert (H : nth_error const_name 47 = Some "M2") by (vm_compute; reflexivity). rewrite H. congruence. Qed.

Lemma resolved_pair m i n f d j n' f' d' : tabulated i n f d -> tabulated j n' f' d' -> (i < j)%nat ->
  m <= d -> m <= d' -> ~ (n = "K1" /\ n' = "M2") -> m <= f' - f.
Proof.
  intros (A1 & A2 & A3) (B1 & B2 & B3) Hij Hd Hd' Hex.
  assert (C := qpair i j (names_lt _ _ A1) (names_lt _ _ B1) Hij).
  apply freqR_nth in A2, B2. apply dfR_nth in A3, B3. rewrite A2, B2. rewrite A3 in Hd. rewrite B3 in Hd'. clear A2 B2 A3 B3.
  destruct C as [[-> ->]|C].
  - exfalso. apply Hex. split; [now apply name20|now apply name47].
  - rewrite <- Q2R_minus. destruct C as [C|C]; apply Qle_Rle in C; [exact (Rle_trans _ _ _ Hd C)|exact (Rle_trans _ _ _ Hd' C)].
Qed.

Lemma K1_M2 : exists f d f' d', tabulated 20 "K1" f d /\ tabulated 47 "M2" f' d' /\
  0 < f' - f /\ f' - f < d /\ f' - f < d'.
Proof.
  do 4 eexists. unfold tabulated. split; [repeat split; reflexivity|]. split; [repeat split; reflexivity|].
  rewrite <- Q2R_minus. replace 0 with (Q2R 0%Q) by (unfold Q2R; cbn; lra).
  repeat split; apply Qlt_Rlt; vm_compute; reflexivity.
Qed.
Lemma K1_M2_gap f d f' d' : tabulated 20 "K1" f d -> tabulated 47 "M2" f' d' ->
  387306 / 10^7 < f' - f < 387307 / 10^7.
Proof.
  intros (A1 & A2 & A3) (B1 & B2 & B3). apply freqR_nth in A2, B2. subst. rewrite <- Q2R_minus.
  replace (387306 / 10^7) with (Q2R (387306 # 10000000)) by (unfold Q2R; cbn [Qnum Qden]; lra).
  replace (387307 / 10^7) with (Q2R (387307 # 10000000)) by (unfold Q2R; cbn [Qnum Qden]; lra).
  split; apply Qlt_Rlt; vm_compute; reflexivity.
Qed.

(** ** separations *)
Lemma sep_ok :
  forallb (fun i => match nth i const_ikmpr None with
                    | Some (S k) => (Nat.eqb i 0 || (Nat.ltb k 146 &&
                        Qeq_bool (nth i const_df 0%Q) (Qabs (Qminus (nth i const_freq 0%Q) (nth k const_freq 0%Q)))))%bool
                    | Some O => false
                    | None => Qeq_bool (nth i const_df 0%Q) 0
                    end) (seq 0 146) = true.
Proof. vm_compute. reflexivity. Qed.

Lemma Qabs_Q2R q : Q2R (Qabs q) = Rabs (Q2R q).
Proof.
  destruct (Qlt_le_dec q 0) as [H|H].
  - rewrite Qabs_neg by now apply Qlt_le_weak. apply Qlt_Rlt in H. rewrite Q2R_opp.
    replace (Q2R 0) with 0 in H by (unfold Q2R; cbn; lra). rewrite Rabs_left; lra.
  - rewrite Qabs_pos by assumption. apply Qle_Rle in H.
    replace (Q2R 0) with 0 in H by (unfold Q2R; cbn; lra). rewrite Rabs_right; lra.
Qed.

Lemma Qeq_Q2R a b : Qeq_bool a b = true -> Q2R a = Q2R b.
Proof. intros H. apply Qeq_eqR. now apply Qeq_bool_iff. Qed.

Lemma sep_at i : (i < 146)%nat ->
  match nth i const_ikmpr None with
  | Some (S k) => (Nat.eqb i 0 || (Nat.ltb k 146 &&
      Qeq_bool (nth i const_df 0%Q) (Qabs (Qminus (nth i const_freq 0%Q) (nth k const_freq 0%Q)))))%bool
  | Some O => false
  | None => Qeq_bool (nth i const_df 0%Q) 0
  end = true.
Proof.
  intros Hi. assert (C := sep_ok). rewrite forallb_forall in C. exact (C i (proj2 (in_seq 146 0 i) (conj (Nat.le_0_l _) Hi))).
Qed.

Lemma separation i n f d k n' f' d' : tabulated i n f d -> tabulated k n' f' d' -> compared_with i k -> i <> 0%nat ->
  d = Rabs (f - f').
Proof.
  intros (A1 & A2 & A3) (B1 & B2 & B3) Hc Hi. assert (S := sep_at i (names_lt _ _ A1)).
  unfold compared_with in Hc. rewrite (nth_error_nth _ _ None Hc) in S.
  apply orb_prop in S. destruct S as [S|S]; [apply Nat.eqb_eq in S; contradiction|].
  apply andb_prop in S. destruct S as [_ S]. apply Qeq_Q2R in S. rewrite Qabs_Q2R, Q2R_minus in S.
  apply freqR_nth in A2, B2. apply dfR_nth in A3. rewrite A2, B2, A3. exact S.
Qed.

Lemma no_comparison i n f d : tabulated i n f d -> nth_error const_ikmpr i = Some None -> d = 0.
Proof.
  intros (A1 & A2 & A3) Hc. assert (S := sep_at i (names_lt _ _ A1)).
  rewrite (nth_error_nth _ _ None Hc) in S. apply Qeq_Q2R in S. apply dfR_nth in A3. rewrite A3, S. unfold Q2R. cbn. lra.
Qed.
Lemma Z0_sep f d : tabulated 0 "Z0" f d -> d = 0.
Proof. intros (_ & _ & A3). apply dfR_nth in A3. rewrite A3. vm_compute (nth 0 const_df 0%Q). unfold Q2R. cbn. lra. Qed.

Lemma ETA2_K2 : exists f d f' d' m, tabulated 60 "ETA2" f d /\ tabulated 58 "K2" f' d' /\ compared_with 60 58 /\
  0 < m /\ m <= d /\ d' < m.
Proof.
  do 4 eexists. exists (/ 1000). split; [repeat split; reflexivity|]. split; [repeat split; reflexivity|].
  split; [reflexivity|]. split; [lra|].
  replace (/ 1000) with (Q2R (1 # 1000)) by (unfold Q2R; cbn [Qnum Qden]; lra).
  split; [apply Qle_Rle|apply Qlt_Rlt]; vm_compute; congruence.
Qed.

(** ** explicit lists *)
Lemma as_names_seq names : as_names (PSeq (map PStr names)) = Ok names.
Proof. cbn. induction names as [|n l IH]; cbn; auto. rewrite IH. reflexivity. Qed.

Lemma explicit_sel tref m names s : ut_cnstitsel tref m (PSeq (map PStr names)) None = Ok s -> s_name s = names.
Proof.
  unfold ut_cnstitsel, initial_lind. cbn [eq_str]. rewrite as_names_seq. cbn [bind]. intros H. do 3 inv_bind H.
  injection H as <-. cbn [s_name]. apply mapM_index_take in Ha. rewrite Ha in Ha1. now injection Ha1.
Qed.
Lemma mapM_index_ok names : (forall n, In n names -> In n const_name) -> exists r, mapM constit_index names = Ok r.
Proof.
  induction names as [|n l IH]; intros H; cbn; [eauto|].
  destruct (constit_index_known n (H n (or_introl eq_refl))) as [i ->]. cbn [bind].
  destruct (IH (fun n Hn => H n (or_intror Hn))) as [r ->]. cbn [bind]. eauto.
Qed.
Lemma mapM_index_err names n : In n names -> ~ In n const_name -> mapM constit_index names = Err KeyError.
Proof.
  induction names as [|n' l IH]; intros Hin Hn; [destruct Hin|]. cbn.
  destruct (in_dec string_dec n' const_name) as [H|H].
  - destruct (constit_index_known n' H) as [i ->]. cbn [bind]. destruct Hin as [->|Hin]; [contradiction|].
    rewrite IH by auto. reflexivity.
  - rewrite constit_index_unknown by exact H. reflexivity.
Qed.
Lemma explicit_ok tref m names : (forall n, In n names -> In n const_name) ->
  exists s, ut_cnstitsel tref m (PSeq (map PStr names)) None = Ok s.
Proof.
  intros H. unfold ut_cnstitsel, initial_lind. cbn [eq_str]. rewrite as_names_seq. cbn [bind].
  destruct (mapM_index_ok names H) as [r Hr]. rewrite Hr. cbn [bind]. apply mapM_index_take in Hr.
  rewrite (take_freq tref _ _ Hr), Hr. cbn [bind]. eauto.
Qed.
Lemma explicit_unknown tref m names n inf : In n names -> ~ In n const_name ->
  ut_cnstitsel tref m (PSeq (map PStr names)) inf = Err KeyError.
Proof.
  intros H1 H2. unfold ut_cnstitsel, initial_lind. cbn [eq_str]. rewrite as_names_seq. cbn [bind].
  rewrite (mapM_index_err _ _ H1 H2). reflexivity.
Qed.

(** ** alignment of names, table positions and frequencies *)
Lemma lin_aligned_app tref n1 l1 f1 n2 l2 f2 : lin_aligned tref n1 l1 f1 -> lin_aligned tref n2 l2 f2 ->
  lin_aligned tref (n1 ++ n2) (l1 ++ l2) (f1 ++ f2).
Proof. intros [A ->] [B ->]. split; rewrite !map_app; congruence. Qed.

Lemma seq_get_freq tref i n f : nth_error const_name i = Some n -> seq_get (linearized_freqs tref) i = Ok f ->
  f = nth i (linearized_freqs tref) 0.
Proof.
  unfold seq_get. intros _ H. destruct (nth_error _ i) eqn:E; [|discriminate]. injection H as ->.
  symmetry. now apply nth_error_nth.
Qed.

(** one inferred constituent *)
Lemma one_inferred_spec tref inf nI ilk Rp Rm n l f :
  one_inferred (linearized_freqs tref) inf nI ilk = Ok (Rp, Rm, n, l, f) ->
  nth_error (inf_inferred inf) ilk = Some n /\ lin_aligned tref [n] [l] [f] /\
  exists a o, nth_error (inf_amp inf) ilk = Some a /\ nth_error (inf_off inf) ilk = Some o /\
    Rp = Cmult (RtoC a) (turn o) /\
    ((nI < length (inf_amp inf))%nat -> exists a2 o2, nth_error (inf_amp inf) (ilk + nI) = Some a2 /\
        nth_error (inf_off inf) (ilk + nI) = Some o2 /\ Rm = Cmult (RtoC a2) (turn (- o2))) /\
    ((length (inf_amp inf) <= nI)%nat -> Rm = Cmult (RtoC a) (turn (- o))).
Proof.
  unfold one_inferred. intros H. inv_bind H. inv_bind H. inv_bind H. inv_bind H. inv_bind H. inv_bind H.
  injection H as <- <- <- <- <-.
  unfold seq_get in Ha, Ha0, Ha2. destruct (nth_error (inf_amp inf) ilk) as [a'|] eqn:E1; [|discriminate].
  destruct (nth_error (inf_off inf) ilk) as [o'|] eqn:E2; [|discriminate].
  destruct (nth_error (inf_inferred inf) ilk) as [n'|] eqn:E3; [|discriminate].
  injection Ha as ->. injection Ha0 as ->. injection Ha2 as ->.
  apply constit_index_iff in Ha3. split; auto. split.
  { split; cbn [map]; [now rewrite Ha3|]. f_equal. eapply seq_get_freq; eauto. }
  exists a, a0. split; auto. split; auto. split; [reflexivity|].
  destruct (Nat.ltb_spec nI (length (inf_amp inf))) as [Hl|Hl]; split; intros Hl'; try lia.
  - do 2 inv_bind Ha1. injection Ha1 as <-. unfold seq_get in Ha, Ha0.
    destruct (nth_error (inf_amp inf) (ilk + nI)) as [aa|]; [|discriminate].
    destruct (nth_error (inf_off inf) (ilk + nI)) as [oo|]; [|discriminate].
    injection Ha as ->. injection Ha0 as ->. do 2 eexists. split; [reflexivity|]. split; [reflexivity|].
    unfold turn. do 2 f_equal. unfold Rdiv. ring.
  - injection Ha1 as <-. unfold turn, cis, Cconj, Cmult, RtoC. cbn.
    replace (- a0 * PI / 180) with (- (a0 * PI / 180)) by (unfold Rdiv; ring).
    rewrite cos_neg, sin_neg. f_equal; ring.
Qed.

(** positions whose reference is [name] *)
Definition positions (refs : list string) (name : string) : list nat :=
  map fst (filter (fun p => String.eqb name (snd p)) (enumerate refs)).

Lemma positions_In refs name j : In j (positions refs name) <-> nth_error refs j = Some name.
Proof.
  unfold positions, enumerate. rewrite in_map_iff. split.
  - intros ([j' n] & E & H). cbn in E. subst j'. apply filter_In in H. destruct H as [H1 H2]. cbn in H2.
    apply String.eqb_eq in H2. subst n.
    apply In_nth_error in H1. destruct H1 as [k Hk].
    assert (Hk2 : nth_error (seq 0 (length refs)) k = Some j /\ nth_error refs k = Some name).
    { clear - Hk. revert Hk. generalize (seq 0 (length refs)). intros l. revert l k.
      induction refs as [|r refs IH]; intros [|x l] [|k] H; cbn in *; try discriminate.
      - injection H as -> ->. auto.
      - auto. }
    destruct Hk2 as [Hk1 Hk2]. assert (k < length refs)%nat by (apply nth_error_Some; congruence).
    apply nth_error_nth with (d := 0%nat) in Hk1. rewrite seq_nth in Hk1 by assumption. cbn in Hk1. now subst k.
  - intros H. exists (j, name). split; auto. apply filter_In. split; [|cbn; apply String.eqb_refl].
    assert (Hj : (j < length refs)%nat) by (apply nth_error_Some; congruence).
    replace (j, name) with (nth j (combine (seq 0 (length refs)) refs) (0%nat, "")).
    + apply nth_In. rewrite combine_length, seq_length. lia.
    + rewrite combine_nth by apply seq_length. rewrite seq_nth by assumption. cbn. f_equal. now apply nth_error_nth.
Qed.
Lemma NoDup_map_fst_filter {A B} (p : A * B -> bool) (l : list (A * B)) : NoDup (map fst l) -> NoDup (map fst (filter p l)).
Proof.
  induction l as [|[a b] l IH]; cbn; auto. intros H. inversion H as [|? ? H1 H2]; subst.
  destruct (p (a, b)); cbn; auto. constructor; auto. intros X. apply H1.
  apply in_map_iff in X. destruct X as (q & <- & X). apply filter_In in X. apply in_map. tauto.
Qed.
Lemma positions_NoDup refs name : NoDup (positions refs name).
Proof.
  apply NoDup_map_fst_filter. unfold enumerate. rewrite map_fst_combine by now rewrite seq_length. apply seq_NoDup.
Qed.

Lemma first_occ_spec l : NoDup (first_occ l) /\ forall x, In x (first_occ l) <-> In x l.
Proof.
  unfold first_occ. assert (G : forall acc, NoDup acc ->
    NoDup (fold_left (fun acc x => if mem_str x acc then acc else acc ++ [x])%list l acc) /\
    forall x, In x (fold_left (fun acc x => if mem_str x acc then acc else acc ++ [x])%list l acc) <-> In x acc \/ In x l).
  { induction l as [|a l IH]; intros acc Hacc; cbn [fold_left]; [split; [exact Hacc|intros x; cbn; tauto]|].
    destruct (mem_str a acc) eqn:E.
    - destruct (IH acc Hacc) as [I1 I2]. split; auto. intros x. rewrite I2. apply existsb_eqb_In in E. cbn.
      split; [tauto|]. intros [H|[<-|H]]; auto.
    - assert (Hna : ~ In a acc). { intros H. apply existsb_eqb_In in H. unfold mem_str in E. congruence. }
      destruct (IH (acc ++ [a])%list) as [I1 I2].
      { apply (Permutation_NoDup (Permutation_cons_append acc a)). now constructor. }
      split; auto. intros x. rewrite I2, in_app_iff. cbn. tauto. }
  destruct (G [] (NoDup_nil _)) as [G1 G2]. split; auto. intros x. rewrite G2. cbn. tauto.
Qed.

Lemma NoDup_flat_map {A B} (f : A -> list B) l : NoDup l -> (forall x, In x l -> NoDup (f x)) ->
  (forall x y b, In x l -> In y l -> In b (f x) -> In b (f y) -> x = y) -> NoDup (flat_map f l).
Proof.
  induction l as [|a l IH]; cbn; intros H1 H2 H3; [constructor|]. inversion H1 as [|? ? Ha Hl]; subst.
  assert (G : forall (l1 l2 : list B), NoDup l1 -> NoDup l2 -> (forall b, In b l1 -> ~ In b l2) -> NoDup (l1 ++ l2)).
  { induction l1 as [|x l1 IH1]; cbn; intros l2 N1 N2 D; auto. inversion N1; subst. constructor.
    - rewrite in_app_iff. intros [X|X]; [contradiction|]. exact (D x (or_introl eq_refl) X).
    - apply IH1; auto. }
  apply G.
  - apply H2. now left.
  - apply IH; auto. intros x y b Hx Hy. apply H3; now right.
  - intros b Hb Hb2. apply in_flat_map in Hb2. destruct Hb2 as (y & Hy & Hb2).
    assert (a = y) by (apply (H3 a y b); auto). subst y. contradiction.
Qed.

Lemma group_perm refs : Permutation (flat_map (positions refs) (first_occ refs)) (seq 0 (length refs)).
Proof.
  destruct (first_occ_spec refs) as [F1 F2]. apply NoDup_Permutation.
  - apply NoDup_flat_map; auto.
    + intros x _. apply positions_NoDup.
    + intros x y b _ _ Hx Hy. apply positions_In in Hx, Hy. congruence.
  - apply seq_NoDup.
  - intros j. rewrite in_flat_map, in_seq. split.
    + intros (x & _ & Hj). apply positions_In in Hj. split; [lia|]. apply nth_error_Some. cbn. congruence.
    + intros [_ Hj]. destruct (nth_error refs j) as [x|] eqn:E; [|apply nth_error_None in E; cbn in Hj; lia].
      exists x. split; [apply F2; eapply nth_error_In; eauto|now apply positions_In].
Qed.

(** what is stored for one reference *)
Definition item := (C * C * string * nat * R)%type.

Lemma one_ref_spec tref inf nI name r : one_ref (linearized_freqs tref) inf nI name = Ok r ->
  r_name r = name /\ lin_aligned tref [name] [r_lind r] [r_frq r] /\
  lin_aligned tref (r_Iname r) (r_Ilind r) (r_Ifrq r) /\
  length (r_Iname r) = length (positions (inf_reference inf) name) /\
  length (r_Rp r) = length (r_Iname r) /\ length (r_Rm r) = length (r_Iname r) /\
  exists items, mapM (one_inferred (linearized_freqs tref) inf nI) (positions (inf_reference inf) name) = Ok items /\
    r_Iname r = map (fun x => snd (fst (fst x))) items /\
    stored r = map (fun x => (snd (fst (fst x)), name, fst (fst (fst (fst x))), snd (fst (fst (fst x))))) items.
Proof.
  unfold one_ref. fold (positions (inf_reference inf) name). intros H. inv_bind H. inv_bind H. inv_bind H. injection H as <-. cbn [r_name r_lind r_frq r_Iname r_Ilind r_Ifrq r_Rp r_Rm].
  rename a1 into items. apply constit_index_iff in Ha. split; [reflexivity|]. split.
  { split; cbn [map]; [now rewrite Ha|]. f_equal. eapply seq_get_freq; eauto. }
  split.
  { clear - Ha1. revert items Ha1. generalize (positions (inf_reference inf) name).
    induction l as [|j l IH]; cbn [mapM]; intros items H.
    - injection H as <-. split; reflexivity.
    - inv_bind H. inv_bind H. injection H as <-. destruct a as [[[[Rp Rm] n] li] f].
      destruct (one_inferred_spec _ _ _ _ _ _ _ _ _ Ha) as (_ & A & _).
      exact (lin_aligned_app _ _ _ _ _ _ _ A (IH _ Ha0)). }
  rewrite !map_length. split; [eapply mapM_length; eauto|]. split; auto. split; auto.
  exists items. split; auto. split; auto. unfold stored. cbn [r_name r_Iname r_Rp r_Rm]. clear.
  induction items as [|x items IH]; cbn [map combine fst snd]; auto. f_equal. exact IH.
Qed.

(** ** the whole selection *)
Lemma mapM_flat {A B D} (f : A -> res B) (g : B -> list D) (h : A -> list D) l r :
  mapM f l = Ok r -> (forall a b, f a = Ok b -> g b = h a) -> flat_map g r = flat_map h l.
Proof.
  revert r. induction l as [|a l IH]; cbn; intros r H E; [injection H as <-; reflexivity|].
  inv_bind H. inv_bind H. injection H as <-. cbn. f_equal; auto.
Qed.

Record sel_layout (tref : R) (minres : xr) (incnstit : pyval) (inf : infer_r) (s : sel) : Prop := {
  sl_NR : exists lind0 ri, initial_lind minres incnstit = Ok lind0 /\
    mapM constit_index (inf_inferred inf ++ inf_reference inf) = Ok ri /\
    s_NRlind s = filter (fun i => negb (existsb (Nat.eqb i) ri)) lind0;
  sl_NRal : lin_aligned tref (s_NRname s) (s_NRlind s) (s_NRfrq s);
  sl_name : s_name s = (s_NRname s ++ map r_name (s_R s) ++ flat_map r_Iname (s_R s))%list;
  sl_refs : map r_name (s_R s) = first_occ (inf_reference inf);
  sl_R : mapM (one_ref (linearized_freqs tref) inf (length (inf_inferred inf))) (first_occ (inf_reference inf)) = Ok (s_R s);
  sl_al : lin_aligned tref (s_name s) (s_lind s) (s_frq s);
  sl_nNR : s_nNR s = length (s_NRname s);
  sl_nR : s_nR s = length (s_R s);
  sl_nI : s_nI s = length (inf_inferred inf);
  sl_I : length (flat_map r_Iname (s_R s)) = length (inf_reference inf);
  sl_frq : s_frq s = (s_NRfrq s ++ map r_frq (s_R s) ++ flat_map r_Ifrq (s_R s))%list;
  sl_lind : s_lind s = (s_NRlind s ++ map r_lind (s_R s) ++ flat_map r_Ilind (s_R s))%list }.

Lemma refs_aligned tref inf nI names Rs : mapM (one_ref (linearized_freqs tref) inf nI) names = Ok Rs ->
  map r_name Rs = names /\ lin_aligned tref names (map r_lind Rs) (map r_frq Rs) /\
  lin_aligned tref (flat_map r_Iname Rs) (flat_map r_Ilind Rs) (flat_map r_Ifrq Rs).
Proof.
  revert Rs. induction names as [|n names IH]; cbn [mapM]; intros Rs H.
  - injection H as <-. repeat split.
  - inv_bind H. inv_bind H. injection H as <-. destruct (one_ref_spec _ _ _ _ _ Ha) as (E & A & B & _).
    destruct (IH _ Ha0) as (I1 & I2 & I3). cbn [map flat_map]. rewrite E, I1. split; auto. split.
    + exact (lin_aligned_app _ _ _ _ _ _ _ A I2).
    + now apply lin_aligned_app.
Qed.

Lemma Ok_inj {A} (x y : A) : Ok x = Ok y -> x = y.
Proof. intros H. now injection H. Qed.
Lemma take_aligned tref lind frq names : take_idx (linearized_freqs tref) lind = Ok frq ->
  take_idx const_name lind = Ok names -> lin_aligned tref names lind frq.
Proof.
  intros H1 H2. split; [now apply take_idx_map|]. rewrite (take_freq tref _ _ H2) in H1. exact (eq_sym (Ok_inj _ _ H1)).
Qed.

Lemma sel_infer tref minres inc inf s : ut_cnstitsel tref minres inc (Some inf) = Ok s -> sel_layout tref minres inc inf s.
Proof.
  unfold ut_cnstitsel. intros H. inv_bind H. inv_bind H. inv_bind H. inv_bind H. inv_bind H. apply Ok_inj in H. subst s.
  inv_bind Ha0. apply Ok_inj in Ha0. subst a0. rename Ha into H0, Ha1 into HF, Ha2 into HN, Ha3 into HR, Ha4 into HI.
  destruct (refs_aligned _ _ _ _ _ HR) as (R1 & R2 & R3). assert (NA := take_aligned _ _ _ _ HF HN).
  constructor; cbn [s_NRlind s_NRname s_NRfrq s_name s_R s_frq s_lind s_nNR s_nR s_nI].
  - eauto.
  - exact NA.
  - now rewrite R1.
  - exact R1.
  - exact HR.
  - apply lin_aligned_app; auto. apply lin_aligned_app; auto.
  - destruct NA as [N1 N2]. apply (f_equal (@length _)) in N1, N2. rewrite !map_length in *. congruence.
  - apply mapM_length in HR. congruence.
  - reflexivity.
  - assert (E : length (flat_map r_Iname a3) = length (flat_map (positions (inf_reference inf)) (first_occ (inf_reference inf)))).
    { clear - HR. revert a3 HR. generalize (first_occ (inf_reference inf)). induction l as [|n l IH]; cbn [mapM]; intros Rs H.
      - injection H as <-. reflexivity.
      - inv_bind H. inv_bind H. injection H as <-. cbn [flat_map]. rewrite !app_length.
        destruct (one_ref_spec _ _ _ _ _ Ha) as (_ & _ & _ & L & _). rewrite L. f_equal. auto. }
    rewrite E, (Permutation_length (group_perm _)). now rewrite seq_length.
  - reflexivity.
  - reflexivity.
Qed.

Lemma sel_none tref minres inc s : ut_cnstitsel tref minres inc None = Ok s ->
  initial_lind minres inc = Ok (s_NRlind s) /\ lin_aligned tref (s_NRname s) (s_NRlind s) (s_NRfrq s) /\
  s_R s = [] /\ s_name s = s_NRname s /\ s_frq s = s_NRfrq s /\ s_lind s = s_NRlind s /\
  s_nNR s = length (s_NRname s) /\ s_nR s = 0%nat /\ s_nI s = 0%nat.
Proof.
  unfold ut_cnstitsel. intros H. inv_bind H. inv_bind H. inv_bind H. inv_bind H. apply Ok_inj in H. subst s. apply Ok_inj in Ha0. subst a0. cbn [s_NRlind s_NRname s_NRfrq s_name s_R s_frq s_lind s_nNR s_nR s_nI].
  assert (NA := take_aligned _ _ _ _ Ha1 Ha2). repeat split; auto; try apply NA.
  destruct NA as [N1 N2]. apply (f_equal (@length _)) in N1, N2. rewrite !map_length in *. congruence.
Qed.

(** no name of the first group is an inferred or reference name *)
Lemma NR_disjoint tref minres inc inf s n : sel_layout tref minres inc inf s -> In n (s_NRname s) ->
  ~ In n (inf_inferred inf) /\ ~ In n (inf_reference inf).
Proof.
  intros SL Hn. destruct (sl_NR _ _ _ _ _ SL) as (l0 & ri & _ & Hri & Hl). destruct (sl_NRal _ _ _ _ _ SL) as [NA _].
  apply In_nth_error in Hn. destruct Hn as [k Hk].
  assert (Hk2 : nth_error (map Some (s_NRname s)) k = Some (Some n)) by now apply map_nth_error.
  rewrite <- NA in Hk2. rewrite nth_error_map in Hk2. destruct (nth_error (s_NRlind s) k) as [i|] eqn:Ei; [|discriminate].
  cbn in Hk2. injection Hk2 as Hi. apply nth_error_In in Ei. rewrite Hl in Ei. apply filter_In in Ei. destruct Ei as [_ Ei].
  apply negb_true_iff in Ei. 
  assert (G : ~ In n (inf_inferred inf ++ inf_reference inf)).
  { intros Hin. apply mapM_index in Hri. apply In_nth_error in Hin. destruct Hin as [j Hj].
    assert (Hj2 : nth_error (map Some (inf_inferred inf ++ inf_reference inf)) j = Some (Some n)) by now apply map_nth_error.
    rewrite <- Hri, nth_error_map in Hj2. destruct (nth_error ri j) as [i'|] eqn:Ei'; [|discriminate].
    cbn in Hj2. injection Hj2 as Hi'. assert (i' = i) by (eapply index_NoDup; eauto). subst i'.
    apply nth_error_In in Ei'. apply existsb_natb_In in Ei'. congruence. }
  rewrite in_app_iff in G. tauto.
Qed.

(** every request is stored exactly once under its own reference *)
Lemma mapM_positions tref inf tw name l items : infer_shape inf tw ->
  (forall j, In j l -> nth_error (inf_reference inf) j = Some name) ->
  mapM (one_inferred (linearized_freqs tref) inf (length (inf_inferred inf))) l = Ok items ->
  Forall2 (request_at inf tw) l
    (map (fun x => (snd (fst (fst x)), name, fst (fst (fst (fst x))), snd (fst (fst (fst x))))) items).
Proof.
  intros (S1 & S2 & S3). revert items. induction l as [|j l IH]; cbn [mapM]; intros items Hp H.
  - injection H as <-. constructor.
  - inv_bind H. inv_bind H. injection H as <-. cbn [map]. constructor; [|apply IH; auto; intros; apply Hp; now right].
    destruct a as [[[[Rp Rm] n] li] f]. cbn [fst snd].
    destruct (one_inferred_spec _ _ _ _ _ _ _ _ _ Ha) as (E1 & _ & a & o & E2 & E3 & -> & E4 & E5).
    exists n, name, a, o. split; auto. split; [apply Hp; now left|]. split; auto. split; auto.
    assert (Hj : (j < length (inf_inferred inf))%nat) by (apply nth_error_Some; congruence).
    destruct tw.
    + destruct (E4 ltac:(lia)) as (a2 & o2 & X1 & X2 & ->). eauto.
    + rewrite (E5 ltac:(lia)). reflexivity.
Qed.

Lemma Forall2_flat {A B X} (P : A -> B -> Prop) (f : X -> list A) (g : X -> list B) l :
  (forall x, In x l -> Forall2 P (f x) (g x)) -> Forall2 P (flat_map f l) (flat_map g l).
Proof.
  induction l as [|x l IH]; cbn; intros H; [constructor|]. apply Forall2_app; auto.
Qed.

Lemma stored_requests tref minres inc inf s tw : infer_shape inf tw ->
  ut_cnstitsel tref minres inc (Some inf) = Ok s ->
  exists js, Permutation js (seq 0 (length (inf_inferred inf))) /\
    Forall2 (request_at inf tw) js (flat_map stored (s_R s)).
Proof.
  intros Sh H. assert (SL := sel_infer _ _ _ _ _ H).
  exists (flat_map (positions (inf_reference inf)) (first_occ (inf_reference inf))).
  split. { destruct Sh as (E & _). rewrite <- E. apply group_perm. }
  assert (HR := sl_R _ _ _ _ _ SL). revert HR. generalize (s_R s). generalize (first_occ (inf_reference inf)).
  induction l as [|n l IH]; cbn [mapM]; intros Rs HR.
  - injection HR as <-. constructor.
  - inv_bind HR. inv_bind HR. injection HR as <-. cbn [flat_map]. apply Forall2_app; auto.
    destruct (one_ref_spec _ _ _ _ _ Ha) as (_ & _ & _ & _ & _ & _ & items & I1 & _ & ->).
    eapply mapM_positions; eauto. intros j Hj. now apply positions_In.
Qed.
