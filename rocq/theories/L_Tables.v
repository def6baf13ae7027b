(** Facts about the constituent tables, by computation. *)
From Coq Require Import Lia Lra QArith Qreals Sorting Permutation.
From Verif Require Import M_Base M_Tables M_Const M_Slvinit M_Harmonics S_Dict S_Tables L_Base L_Bunch.
Open Scope R_scope.

Lemma names_len : length const_name = 146%nat.
Proof. reflexivity. Qed.
Lemma names_NoDup : NoDup const_name.
Proof.
  assert (E : nodup string_dec const_name = const_name) by (vm_compute; reflexivity).
  rewrite <- E. apply NoDup_nodup.
Qed.

Lemma dict_eq : constit_index_dict = combine const_name (seq 0 146).
Proof. vm_compute. reflexivity. Qed.

Lemma nth_error_combine_seq {A} (l : list A) i x k : nth_error l i = Some x -> In (x, (k + i)%nat) (combine l (seq k (length l))).
Proof.
  revert i k. induction l as [|a l IH]; intros [|i] k H; cbn in *; try discriminate.
  - injection H as ->. left. f_equal. lia.
  - right. specialize (IH i (S k) H). now replace (k + S i)%nat with (S k + i)%nat by lia.
Qed.
Lemma in_combine_seq {A} (l : list A) x k j : In (x, j) (combine l (seq k (length l))) -> (k <= j)%nat /\ nth_error l (j - k) = Some x.
Proof.
  revert k. induction l as [|a l IH]; intros k H; cbn in *; [destruct H|].
  destruct H as [H|H].
  - injection H as -> ->. split; [lia|]. now rewrite Nat.sub_diag.
  - destruct (IH _ H) as [H1 H2]. split; [lia|]. replace (j - k)%nat with (S (j - S k)) by lia. exact H2.
Qed.

Lemma map_fst_combine {A B} (a : list A) (b : list B) : length a = length b -> map fst (combine a b) = a.
Proof. revert b. induction a; intros [|y b]; cbn; intros H; try discriminate; auto. f_equal. auto. Qed.

Lemma constit_index_iff n i : constit_index n = Ok i <-> nth_error const_name i = Some n.
Proof.
  unfold constit_index. rewrite dict_eq. set (d := combine const_name (seq 0 146)).
  assert (Hd : NoDup (dkeys d)).
  { unfold dkeys, d. rewrite map_fst_combine by reflexivity. apply names_NoDup. }
  split.
  - destruct (dget d n) as [j|] eqn:E; [|discriminate]. intros H. injection H as ->.
    apply dget_In in E; auto. unfold d in E.
    apply (in_combine_seq const_name n 0 i) in E. destruct E as [_ E]. now rewrite Nat.sub_0_r in E.
  - intros H. apply (nth_error_combine_seq const_name i n 0) in H. cbn [Nat.add] in H.
    change (combine const_name (seq 0 (length const_name))) with d in H.
    apply dget_In in H; auto. now rewrite H.
Qed.
Lemma constit_index_unknown n : ~ In n const_name -> constit_index n = Err KeyError.
Proof.
  intros H. destruct (constit_index n) as [i|e] eqn:E.
  - apply constit_index_iff in E. apply nth_error_In in E. tauto.
  - unfold constit_index in E. destruct (dget _ _); congruence.
Qed.
Lemma constit_index_known n : In n const_name -> exists i, constit_index n = Ok i.
Proof. intros H. apply In_nth_error in H. destruct H as [i H]. exists i. now apply constit_index_iff. Qed.

(** frequencies *)
Fixpoint q_increasing (l : list Q) : bool :=
  match l with
  | a :: ((b :: _) as l') => (Qle_bool a b && negb (Qeq_bool a b))%bool && q_increasing l'
  | _ => true
  end.
Lemma q_increasing_sound l : q_increasing l = true -> StronglySorted Rlt (map Q2R l).
Proof.
  intros H. apply Sorted_StronglySorted. { intros x y z; lra. }
  induction l as [|a l IH]; cbn; constructor.
  - apply IH. destruct l; auto. cbn in H. apply andb_prop in H. tauto.
  - destruct l as [|b l]; constructor. cbn in H. apply andb_prop in H. destruct H as [H _].
    apply andb_prop in H. destruct H as [H1 H2]. apply Qle_bool_iff in H1. apply negb_true_iff in H2.
    apply Qlt_Rlt. apply Qle_lteq in H1. destruct H1 as [H1|H1]; auto.
    apply Qeq_bool_iff in H1. congruence.
Qed.
Lemma freq_increasing : StronglySorted Rlt freqR.
Proof. apply q_increasing_sound. vm_compute. reflexivity. Qed.

Lemma freq_head : hd 1 freqR = 0 /\ hd_error const_name = Some "Z0"%string.
Proof. split; [|reflexivity]. cbn. unfold Q2R. cbn. lra. Qed.

Lemma freqR_len : length freqR = 146%nat.
Proof. reflexivity. Qed.

(** dictionaries built from unique keys *)
Lemma dset_new {V} (d : dict V) k v : ~ In k (dkeys d) -> dset d k v = (d ++ [(k, v)])%list.
Proof.
  induction d as [|[k' v'] d IH]; intros H; cbn; auto.
  destruct (String.eqb_spec k k') as [->|]; [cbn in H; tauto|]. f_equal. apply IH. cbn in H. tauto.
Qed.
Lemma fold_dset {V} (l : list (string * V)) : forall d, NoDup (dkeys d ++ dkeys l)%list ->
  fold_left (fun d p => dset d (fst p) (snd p)) l d = (d ++ l)%list.
Proof.
  induction l as [|[k v] l IH]; intros d H; cbn; [now rewrite app_nil_r|].
  rewrite dset_new.
  - rewrite IH. { now rewrite <- app_assoc. }
    unfold dkeys in *. rewrite map_app. cbn. rewrite <- app_assoc. exact H.
  - cbn in H. apply NoDup_remove_2 in H. intros C. apply H. apply in_or_app. now left.
Qed.

Lemma cycles_eq : cycles_per_hour = combine const_name freqR.
Proof.
  unfold cycles_per_hour. rewrite fold_dset; auto. cbn [dkeys map app].
  unfold dkeys. rewrite map_fst_combine by reflexivity. apply names_NoDup.
Qed.
Lemma hours_eq : hours_per_cycle = combine const_name (map (fun f => xdiv (Fin 1) (Fin f)) freqR).
Proof.
  unfold hours_per_cycle. rewrite fold_dset; auto. cbn [dkeys map app].
  unfold dkeys. rewrite map_fst_combine by (rewrite map_length; reflexivity). apply names_NoDup.
Qed.

Lemma freq_nonneg f : In f freqR -> 0 <= f.
Proof.
  intros H. assert (S := freq_increasing). destruct freqR as [|f0 l] eqn:E; [destruct H|].
  assert (f0 = 0) by (rewrite <- (proj1 freq_head), E; reflexivity). subst f0.
  destruct H as [<-|H]; [lra|]. inversion S as [|? ? ? F]; subst. rewrite Forall_forall in F.
  specialize (F f H). lra.
Qed.

Lemma entry_combine_nth {A} n (x : A) (ns : list string) (l : list A) : In (n, x) (combine ns l) ->
  exists i, nth_error ns i = Some n /\ nth_error l i = Some x.
Proof.
  revert l. induction ns as [|a ns IH]; intros [|b l] H; cbn in H; try tauto.
  destruct H as [H|H]; [injection H as -> ->; exists 0%nat; auto|].
  destruct (IH _ H) as [i Hi]. exists (S i). auto.
Qed.
Lemma nth_entry_combine {A} n (x : A) i (ns : list string) (l : list A) :
  nth_error ns i = Some n -> nth_error l i = Some x -> In (n, x) (combine ns l).
Proof.
  revert i l. induction ns as [|a ns IH]; intros [|i] [|b l] H1 H2; cbn in *; try discriminate.
  - left. congruence.
  - right. eauto.
Qed.

Lemma freq_zero_iff i : nth_error freqR i = Some 0 <-> i = 0%nat.
Proof.
  split.
  - intros H. destruct i as [|i]; auto. exfalso. assert (S := freq_increasing).
    destruct freqR as [|f0 l] eqn:E; [discriminate|].
    assert (f0 = 0) by (rewrite <- (proj1 freq_head), E; reflexivity). subst f0.
    inversion S as [|? ? ? F]; subst. rewrite Forall_forall in F. cbn in H. apply nth_error_In in H.
    specialize (F _ H). lra.
  - intros ->. rewrite <- (proj1 freq_head). reflexivity.
Qed.

Lemma hours_lemma n f : entry cycles_per_hour n f ->
  (n = "Z0"%string /\ f = 0 /\ entry hours_per_cycle n PInf) \/
  (n <> "Z0"%string /\ 0 < f /\ entry hours_per_cycle n (Fin (1 / f))).
Proof.
  unfold entry. rewrite cycles_eq, hours_eq. intros H.
  apply entry_combine_nth in H. destruct H as (i & H1 & H2).
  assert (H3 : nth_error (map (fun f => xdiv (Fin 1) (Fin f)) freqR) i = Some (xdiv (Fin 1) (Fin f)))
    by exact (map_nth_error (fun f => xdiv (Fin 1) (Fin f)) i freqR H2).
  assert (P := freq_nonneg f (nth_error_In _ _ H2)).
  assert (E := nth_entry_combine _ _ _ _ _ H1 H3).
  destruct (Req_EM_T f 0) as [Hf|Hf].
  - left. subst f. apply freq_zero_iff in H2. subst i. cbn in H1. injection H1 as <-.
    split; auto. split; auto. replace (xdiv (Fin 1) (Fin 0)) with PInf in E; [exact E|].
    cbn. destruct (Req_EM_T 0 0); [|congruence]. unfold sgn_inf. destruct (Rlt_dec 0 1); [reflexivity|lra].
  - right. replace (xdiv (Fin 1) (Fin f)) with (Fin (1 / f)) in E by (cbn; destruct (Req_EM_T f 0); [congruence|reflexivity]).
    split; [|split; [lra|exact E]]. intros ->.
    assert (i = 0%nat).
    { assert (nth_error const_name 0 = Some "Z0"%string) by reflexivity.
      apply (proj1 (NoDup_nth_error const_name) names_NoDup i 0%nat).
      - apply nth_error_Some. congruence.
      - congruence. }
    subst i. apply Hf. assert (nth_error freqR 0 = Some 0) by now apply freq_zero_iff. congruence.
Qed.

(** ** shallow-water table *)
Definition in_natb (x : nat) (l : list nat) : bool := existsb (Nat.eqb x) l.

Definition shallow_check : bool :=
  forallb (fun '(i0, n, k) =>
    ((k <? 146) && (0 <? n) &&
     forallb (fun ik => (ik <? length shallow_coef) && (0 <? nth ik shallow_iname 0) &&
                        (sh_j ik <? 146) && negb (in_natb (sh_j ik) kshallow) &&
                        (nth ik shallow_iconst 0 =? S k))%nat (seq i0 n))%nat%bool) shallow_loop.
Lemma shallow_check_ok : shallow_check = true.
Proof. vm_compute. reflexivity. Qed.

Lemma kshallow_NoDup : NoDup kshallow.
Proof.
  assert (E : nodup Nat.eq_dec kshallow = kshallow) by (vm_compute; reflexivity).
  rewrite <- E. apply NoDup_nodup.
Qed.
Lemma loop_ks : map snd shallow_loop = kshallow.
Proof. vm_compute. reflexivity. Qed.

Lemma in_natb_iff x l : in_natb x l = true <-> In x l.
Proof.
  unfold in_natb. rewrite existsb_exists. split.
  - intros (y & H & E). apply Nat.eqb_eq in E. now subst.
  - intros H. exists x. split; auto. apply Nat.eqb_refl.
Qed.

Lemma loop_facts i0 n k : In (i0, n, k) shallow_loop -> (k < 146)%nat /\ (0 < n)%nat /\
  forall ik, (i0 <= ik < i0 + n)%nat -> (ik < length shallow_coef)%nat /\ (sh_j ik < 146)%nat /\
    (0 < nth ik shallow_iname 0)%nat /\ ~ In (sh_j ik) kshallow /\ nth ik shallow_iconst 0%nat = S k.
Proof.
  intros H. assert (C := shallow_check_ok). unfold shallow_check in C.
  rewrite forallb_forall in C. specialize (C _ H). cbn beta iota in C.
  apply andb_prop in C. destruct C as [C1 C3]. apply andb_prop in C1. destruct C1 as [C1 C2].
  apply Nat.ltb_lt in C1, C2. split; auto. split; auto. intros ik Hik.
  rewrite forallb_forall in C3. specialize (C3 ik). rewrite in_seq in C3. specialize (C3 Hik).
  repeat (apply andb_prop in C3; destruct C3 as [C3 ?]).
  apply Nat.ltb_lt in C3. apply Nat.ltb_lt in H3. apply Nat.ltb_lt in H2. apply negb_true_iff in H1. apply Nat.eqb_eq in H0.
  repeat split; auto. intros X. apply in_natb_iff in X. congruence.
Qed.

(** ** evaluation of shallow-water constituents *)
Section Fold.
Context {A B : Type} (d : A) (G : nat -> A -> B) (H : list B -> A).
Definition sh_val (cur : list A) (i0 n : nat) : A := H (map (fun ik => G ik (nth (sh_j ik) cur d)) (seq i0 n)).
Definition sh_step (cur : list A) (p : nat * nat * nat) : list A :=
  let '(i0, n, k) := p in list_set cur k (sh_val cur i0 n).

Lemma list_set_length (l : list A) i v : length (list_set l i v) = length l.
Proof. revert i. induction l; intros [|i]; cbn; auto. Qed.
Lemma nth_list_set (l : list A) i v j : nth j (list_set l i v) d =
  if (Nat.eqb j i && Nat.ltb i (length l))%bool then v else nth j l d.
Proof.
  revert i j. induction l as [|x l IH]; intros i j; cbn.
  - rewrite andb_false_r. destruct i; reflexivity.
  - destruct i as [|i], j as [|j]; cbn; auto. rewrite IH. cbn.
    change (S i <? S (length l))%nat with (i <? length l)%nat. reflexivity.
Qed.

Lemma sh_fold_length l : forall x, length (fold_left sh_step l x) = length x.
Proof. induction l as [|[[i0 n] k] l IH]; intros x; cbn; auto. rewrite IH. apply list_set_length. Qed.

Lemma sh_val_ext x y i0 n : (forall ik, (i0 <= ik < i0 + n)%nat -> nth (sh_j ik) x d = nth (sh_j ik) y d) ->
  sh_val x i0 n = sh_val y i0 n.
Proof.
  intros E. unfold sh_val. f_equal. apply map_ext_in. intros ik Hik. apply in_seq in Hik. now rewrite E.
Qed.

Lemma sh_fold_gen l : (forall p, In p l -> In p shallow_loop) -> NoDup (map snd l) ->
  forall x, length x = 146%nat ->
  (forall j, ~ In j (map snd l) -> nth j (fold_left sh_step l x) d = nth j x d) /\
  (forall i0 n k, In (i0, n, k) l -> nth k (fold_left sh_step l x) d = sh_val x i0 n).
Proof.
  induction l as [|[[i1 n1] k1] l IH]; intros Hin Hnd x Hx; [split; [auto|intros ? ? ? []]|].
  cbn [map snd] in Hnd. inversion Hnd as [|? ? Hk Hnd']; subst.
  set (x' := list_set x k1 (sh_val x i1 n1)).
  assert (Hx' : length x' = 146%nat) by (unfold x'; now rewrite list_set_length).
  destruct (IH (fun p Hp => Hin p (or_intror Hp)) Hnd' x' Hx') as [I1 I2].
  destruct (loop_facts i1 n1 k1 (Hin _ (or_introl eq_refl))) as (K1 & _ & _).
  assert (Hk1 : In k1 kshallow).
  { rewrite <- loop_ks. apply (in_map snd) with (x := (i1, n1, k1)). apply Hin. now left. }
  assert (Hsame : forall j, j <> k1 -> nth j x' d = nth j x d).
  { intros j Hj. unfold x'. rewrite nth_list_set. destruct (Nat.eqb_spec j k1); [congruence|]. reflexivity. }
  cbn [fold_left sh_step]. fold x'. split.
  - intros j Hj. cbn in Hj. rewrite I1 by tauto. apply Hsame. intros ->. tauto.
  - intros i0 n k [E|Hl].
    + injection E as -> -> ->. rewrite I1 by exact Hk. unfold x'. rewrite nth_list_set, Nat.eqb_refl, Hx.
      now rewrite (proj2 (Nat.ltb_lt k 146) K1).
    + rewrite (I2 i0 n k Hl). apply sh_val_ext. intros ik Hik.
      destruct (loop_facts i0 n k (Hin _ (or_intror Hl))) as (_ & _ & F). destruct (F ik Hik) as (_ & _ & _ & F' & _).
      apply Hsame. intros E. rewrite E in F'. tauto.
Qed.

Lemma sh_fold x : length x = 146%nat ->
  (forall j, ~ In j kshallow -> nth j (fold_left sh_step shallow_loop x) d = nth j x d) /\
  (forall i0 n k, In (i0, n, k) shallow_loop -> nth k (fold_left sh_step shallow_loop x) d = sh_val x i0 n).
Proof.
  intros Hx. rewrite <- loop_ks. apply sh_fold_gen; auto. rewrite loop_ks. apply kshallow_NoDup.
Qed.

(** the order of evaluation does not matter *)
Lemma nth_ext' (a b : list A) : length a = length b -> (forall j, nth j a d = nth j b d) -> a = b.
Proof. intros Hl Hn. eapply nth_ext; eauto. Qed.

Lemma sh_fold_perm x l : length x = 146%nat -> Permutation l shallow_loop ->
  fold_left sh_step l x = fold_left sh_step shallow_loop x.
Proof.
  intros Hx Hp. apply nth_ext'. { now rewrite !sh_fold_length. }
  assert (Hnd : NoDup (map snd l)).
  { eapply Permutation_NoDup; [apply Permutation_sym, Permutation_map, Hp|]. rewrite loop_ks. apply kshallow_NoDup. }
  destruct (sh_fold_gen l (fun p => Permutation_in p Hp) Hnd x Hx) as [A1 A2].
  destruct (sh_fold x Hx) as [B1 B2]. intros j.
  destruct (in_dec Nat.eq_dec j kshallow) as [Hj|Hj].
  - rewrite <- loop_ks in Hj. apply in_map_iff in Hj. destruct Hj as ([[i0 n] k] & <- & Hin).
    cbn [snd]. rewrite (B2 _ _ _ Hin). apply A2. eapply Permutation_in; [apply Permutation_sym, Hp|exact Hin].
  - rewrite B1 by exact Hj. apply A1. intros X. apply Hj. rewrite <- loop_ks.
    eapply Permutation_in; [apply Permutation_map, Hp|exact X].
Qed.
End Fold.

(** ** classification *)
Lemma class_check : forallb (fun k =>
   (Bool.eqb (is_good (nth k const_ishallow None)) (in_natb k kshallow) &&
    Bool.eqb (is_good (nth k const_nshallow None)) (in_natb k kshallow) &&
    Bool.eqb (is_good (nth k const_doodson None)) (negb (in_natb k kshallow)) &&
    Bool.eqb (is_good (nth k const_semi None)) (negb (in_natb k kshallow)) &&
    match nth k const_doodson None with Some l => Nat.eqb (length l) 6 | None => true end))%bool (seq 0 146) = true.
Proof. vm_compute. reflexivity. Qed.

Lemma class_k k : (k < 146)%nat ->
  is_good (nth k const_ishallow None) = in_natb k kshallow /\
  is_good (nth k const_nshallow None) = in_natb k kshallow /\
  is_good (nth k const_doodson None) = negb (in_natb k kshallow) /\
  is_good (nth k const_semi None) = negb (in_natb k kshallow) /\
  match nth k const_doodson None with Some l => length l = 6%nat | None => True end.
Proof.
  intros Hk. assert (C := class_check). rewrite forallb_forall in C. specialize (C k).
  rewrite in_seq in C. specialize (C ltac:(lia)).
  apply andb_prop in C. destruct C as [C C5]. apply andb_prop in C. destruct C as [C C4].
  apply andb_prop in C. destruct C as [C C3]. apply andb_prop in C. destruct C as [C1 C2].
  apply eqb_prop in C1, C2, C3, C4. repeat split; auto.
  destruct (nth k const_doodson None); auto. now apply Nat.eqb_eq.
Qed.

Lemma tab_len : length const_ishallow = 146%nat /\ length const_doodson = 146%nat /\ length const_semi = 146%nat /\
  length const_nshallow = 146%nat /\ length const_ikmpr = 146%nat /\ length const_df = 146%nat.
Proof. repeat split. Qed.

Lemma shallow_in k : is_shallow k <-> In k kshallow.
Proof.
  unfold is_shallow. split.
  - intros [i Hi]. assert (k < 146)%nat.
    { rewrite <- (proj1 tab_len). apply nth_error_Some. congruence. }
    destruct (class_k k H) as [C _]. rewrite (nth_error_nth _ _ None Hi) in C. apply in_natb_iff. now rewrite <- C.
  - intros Hk. assert (H : (k < 146)%nat).
    { rewrite <- loop_ks in Hk. apply in_map_iff in Hk. destruct Hk as ([[i0 n] k'] & <- & Hin).
      destruct (loop_facts _ _ _ Hin) as [X _]. exact X. }
    destruct (class_k k H) as [C _]. rewrite (proj2 (in_natb_iff k kshallow) Hk) in C.
    destruct (nth k const_ishallow None) as [i|] eqn:E; [|discriminate]. exists i.
    rewrite <- E. apply nth_error_nth'. rewrite (proj1 tab_len). exact H.
Qed.

Lemma primary_in k : is_primary k <-> (k < 146)%nat /\ ~ In k kshallow.
Proof.
  unfold is_primary. split.
  - intros [i Hi]. assert (H : (k < 146)%nat).
    { rewrite <- (proj1 (proj2 tab_len)). apply nth_error_Some. congruence. }
    split; auto. destruct (class_k k H) as (_ & _ & C & _). rewrite (nth_error_nth _ _ None Hi) in C.
    intros X. apply in_natb_iff in X. rewrite X in C. discriminate.
  - intros [H Hk]. destruct (class_k k H) as (_ & _ & C & _).
    destruct (in_natb k kshallow) eqn:X; [apply in_natb_iff in X; tauto|].
    destruct (nth k const_doodson None) as [i|] eqn:E; [|discriminate]. exists i.
    rewrite <- E. apply nth_error_nth'. rewrite (proj1 (proj2 tab_len)). exact H.
Qed.

(** rows of the shallow table *)
Lemma row_of_loop i0 n k ik : In (i0, n, k) shallow_loop -> (i0 <= ik < i0 + n)%nat ->
  shallow_row ik k (sh_j ik) (nth ik shallow_coef 0%Q).
Proof.
  intros Hin Hik. destruct (loop_facts _ _ _ Hin) as (_ & _ & F). destruct (F ik Hik) as (F1 & F2 & F3 & F4 & F5).
  assert (L1 : length shallow_iconst = length shallow_coef) by (vm_compute; reflexivity).
  assert (L2 : length shallow_iname = length shallow_coef) by (vm_compute; reflexivity).
  unfold shallow_row. repeat split.
  - rewrite <- F5. apply nth_error_nth'. now rewrite L1.
  - unfold sh_j. rewrite Nat.succ_pred by lia. apply nth_error_nth'. now rewrite L2.
  - now apply nth_error_nth'.
Qed.

(** every row belongs to the loop entry of its constituent *)
Definition rows_check : bool :=
  forallb (fun r => existsb (fun '(i0, n, k) => (Nat.eqb (nth r shallow_iconst 0) (S k) && (i0 <=? r) && (r <? i0 + n))%nat%bool)
                    shallow_loop) (seq 0 (length shallow_coef)).
Lemma rows_check_ok : rows_check = true.
Proof. vm_compute. reflexivity. Qed.

Lemma loop_of_row r k j c : shallow_row r k j c -> exists i0 n, In (i0, n, k) shallow_loop /\ (i0 <= r < i0 + n)%nat /\
  sh_j r = j /\ nth r shallow_coef 0%Q = c.
Proof.
  intros (H1 & H2 & H3). assert (Hr : (r < length shallow_coef)%nat) by (apply nth_error_Some; congruence).
  assert (C := rows_check_ok). unfold rows_check in C. rewrite forallb_forall in C.
  specialize (C r). rewrite in_seq in C. specialize (C ltac:(lia)).
  apply existsb_exists in C. destruct C as ([[i0 n] k'] & Hin & C).
  apply andb_prop in C. destruct C as [C C3]. apply andb_prop in C. destruct C as [C1 C2].
  apply Nat.eqb_eq in C1. apply Nat.leb_le in C2. apply Nat.ltb_lt in C3.
  rewrite (nth_error_nth _ _ 0%nat H1) in C1. assert (k' = k) by lia. subst k'.
  exists i0, n. split; auto. split; [lia|]. split.
  - unfold sh_j. rewrite (nth_error_nth _ _ 0%nat H2). reflexivity.
  - now apply nth_error_nth.
Qed.

Lemma row_facts r k j c : shallow_row r k j c -> is_shallow k /\ is_primary j.
Proof.
  intros Hr. destruct (loop_of_row _ _ _ _ Hr) as (i0 & n & Hin & Hb & Hj & _).
  destruct (loop_facts _ _ _ Hin) as (_ & _ & F). destruct (F r Hb) as (_ & F2 & _ & F4 & _). subst j.
  split; [|exact (proj2 (primary_in _) (conj F2 F4))].
  apply (proj2 (shallow_in k)).
  rewrite <- loop_ks. apply in_map_iff. exists (i0, n, k). auto.
Qed.

Lemma shallow_has_row k : is_shallow k -> exists r j c, shallow_row r k j c.
Proof.
  intros Hk. apply (proj1 (shallow_in k)) in Hk. rewrite <- loop_ks in Hk. apply in_map_iff in Hk.
  destruct Hk as ([[i0 n] k'] & <- & Hin). destruct (loop_facts _ _ _ Hin) as (_ & Hn & _).
  exists i0, (sh_j i0), (nth i0 shallow_coef 0%Q). eapply row_of_loop; eauto. lia.
Qed.

(** integer multipliers except M7 *)
Lemma coef_int_check : forallb (fun r =>
   (Nat.eqb (nth r shallow_iconst 0%nat) 118 || Z.eqb (Qnum (nth r shallow_coef 0%Q) mod Zpos (Qden (nth r shallow_coef 0%Q))) 0)%bool)
   (seq 0 (length shallow_coef)) = true.
Proof. vm_compute. reflexivity. Qed.

Lemma Q2R_int q : (Qnum q mod Zpos (Qden q) = 0)%Z -> exists z, Q2R q = IZR z.
Proof.
  intros H. apply Z.mod_divide in H; [|discriminate]. destruct H as [z Hz]. exists z.
  unfold Q2R. rewrite Hz, mult_IZR. field. apply not_0_IZR. discriminate.
Qed.

Lemma sh_coef_int r k j c : shallow_row r k j c -> nth_error const_name k <> Some "M7"%string ->
  exists z, Q2R c = IZR z.
Proof.
  intros Hr Hk. assert (H := Hr). destruct H as (H1 & H2 & H3).
  assert (Hl : (r < length shallow_coef)%nat) by (apply nth_error_Some; congruence).
  assert (C := coef_int_check). rewrite forallb_forall in C. specialize (C r). rewrite in_seq in C. specialize (C ltac:(lia)).
  rewrite (nth_error_nth _ _ 0%nat H1), (nth_error_nth _ _ 0%Q H3) in C. apply orb_prop in C. destruct C as [C|C].
  - apply Nat.eqb_eq in C. injection C as ->. exfalso. apply Hk. reflexivity.
  - apply Z.eqb_eq in C. now apply Q2R_int.
Qed.

Lemma M7_row : shallow_row 178 117 47 (7 # 2) /\ nth_error const_name 117 = Some "M7"%string /\
  nth_error const_name 47 = Some "M2"%string.
Proof. vm_compute. repeat split; reflexivity. Qed.

(** ** the loops in the form "value of a shallow constituent = combination of its parents' values" *)
Definition loop_rows_check : bool :=
  forallb (fun '(i0, n, k) => if list_eq_dec Nat.eq_dec (seq i0 n) (rows_of k) then true else false) shallow_loop.
Lemma loop_rows_ok : loop_rows_check = true.
Proof. vm_compute. reflexivity. Qed.
Lemma loop_rows i0 n k : In (i0, n, k) shallow_loop -> seq i0 n = rows_of k.
Proof.
  intros H. assert (C := loop_rows_ok). unfold loop_rows_check in C. rewrite forallb_forall in C.
  specialize (C _ H). cbn beta iota in C. destruct (list_eq_dec _ _ _); [assumption|discriminate].
Qed.

Lemma sh_j_parent r : sh_j r = row_parent r.
Proof. unfold sh_j, row_parent. lia. Qed.

Lemma shallow_loop_of k : is_shallow k -> exists i0 n, In (i0, n, k) shallow_loop.
Proof.
  intros Hk. apply (proj1 (shallow_in k)) in Hk. rewrite <- loop_ks in Hk. apply in_map_iff in Hk.
  destruct Hk as ([[i0 n] k'] & <- & Hin). eauto.
Qed.

Lemma row_parent_primary k r : In r (rows_of k) -> is_shallow k -> is_primary (row_parent r).
Proof.
  intros Hr Hk. destruct (shallow_loop_of k Hk) as (i0 & n & Hin). rewrite <- (loop_rows _ _ _ Hin) in Hr.
  apply in_seq in Hr. rewrite <- sh_j_parent.
  exact (proj2 (row_facts _ _ _ _ (row_of_loop _ _ _ _ Hin Hr))).
Qed.

Lemma sh_fold_eq {A B} (d : A) (G : nat -> A -> B) (H : list B -> A) x : length x = 146%nat ->
  let y := fold_left (sh_step d G H) shallow_loop x in
  (forall k, is_primary k -> nth k y d = nth k x d) /\
  (forall k, is_shallow k -> nth k y d = H (map (fun r => G r (nth (row_parent r) y d)) (rows_of k))).
Proof.
  intros Hx y. destruct (sh_fold d G H x Hx) as [S1 S2].
  assert (P1 : forall k, is_primary k -> nth k y d = nth k x d).
  { intros k Hk. apply S1. exact (proj2 (proj1 (primary_in k) Hk)). }
  split; auto. intros k Hk. destruct (shallow_loop_of k Hk) as (i0 & n & Hin).
  unfold y. rewrite (S2 _ _ _ Hin). unfold sh_val. rewrite (loop_rows _ _ _ Hin). f_equal.
  apply map_ext_in. intros r Hr. rewrite sh_j_parent. f_equal. symmetry. apply P1.
  eapply row_parent_primary; eauto.
Qed.

Lemma shallow_or_primary k : (k < 146)%nat -> is_shallow k \/ is_primary k.
Proof.
  intros H. destruct (in_dec Nat.eq_dec k kshallow) as [Hk|Hk].
  - left. exact (proj2 (shallow_in k) Hk).
  - right. exact (proj2 (primary_in k) (conj H Hk)).
Qed.
Lemma shallow_not_primary k : is_shallow k -> ~ is_primary k.
Proof. intros H1 H2. apply (proj1 (shallow_in k)) in H1. apply (proj1 (primary_in k)) in H2. tauto. Qed.
Lemma shallow_lt k : is_shallow k -> (k < 146)%nat.
Proof.
  intros [i Hi]. assert (X : (k < length const_ishallow)%nat) by (apply nth_error_Some; congruence).
  now rewrite (proj1 tab_len) in X.
Qed.

Lemma lin_freq_eq tref k : is_shallow k ->
  nth k (linearized_freqs tref) 0 = rsum (map (fun r => nth (row_parent r) (linearized_freqs tref) 0 * row_coef r) (rows_of k)).
Proof.
  intros Hk. unfold linearized_freqs. set (x := map _ (combine freqR const_doodson)).
  assert (Hx : length x = 146%nat) by reflexivity.
  exact (proj2 (sh_fold_eq 0 (fun ik v => v * sh_coef ik) rsum x Hx) k Hk).
Qed.
Lemma V_col_eq jd k : is_shallow k ->
  nth k (V_col jd) None = osum (map (fun r => omul (nth (row_parent r) (V_col jd) None) (Some (row_coef r))) (rows_of k)).
Proof.
  intros Hk. unfold V_col. set (x := map _ (combine const_doodson const_semi)).
  assert (Hx : length x = 146%nat) by reflexivity.
  exact (proj2 (sh_fold_eq None (fun ik v => omul v (Some (sh_coef ik))) osum x Hx) k Hk).
Qed.
Lemma sat_F_len jd lat : length (sat_F jd lat) = 146%nat.
Proof. unfold sat_F. rewrite map_length, seq_length. reflexivity. Qed.
Lemma U_col_eq jd lat k : is_shallow k ->
  nth k (U_col jd lat) None = osum (map (fun r => omul (nth (row_parent r) (U_col jd lat) None) (Some (row_coef r))) (rows_of k)).
Proof.
  intros Hk. unfold U_col. set (x := map _ (sat_F jd lat)).
  assert (Hx : length x = 146%nat) by (unfold x; rewrite map_length; apply sat_F_len).
  exact (proj2 (sh_fold_eq None (fun ik v => omul v (Some (sh_coef ik))) osum x Hx) k Hk).
Qed.
Lemma F_col_eq jd lat k : is_shallow k ->
  nth k (F_col jd lat) None =
  oprod (map (fun r => option_map (fun f => rpow f (Rabs (row_coef r))) (nth (row_parent r) (F_col jd lat) None)) (rows_of k)).
Proof.
  intros Hk. unfold F_col. set (x := map _ (sat_F jd lat)).
  assert (Hx : length x = 146%nat) by (unfold x; rewrite map_length; apply sat_F_len).
  exact (proj2 (sh_fold_eq None (fun ik v => option_map (fun f => rpow f (Rabs (sh_coef ik))) v) oprod x Hx) k Hk).
Qed.

Lemma entry_cycles n f : entry cycles_per_hour n f <-> exists i, nth_error const_name i = Some n /\ nth_error freqR i = Some f.
Proof.
  unfold entry. rewrite cycles_eq. split; [apply entry_combine_nth|]. intros (i & H1 & H2). eapply nth_entry_combine; eauto.
Qed.
Lemma sorted_nth (l : list R) : StronglySorted Rlt l -> forall i j x y, (i < j)%nat -> nth_error l i = Some x ->
  nth_error l j = Some y -> x < y.
Proof.
  induction 1 as [|a l S IH F]; intros [|i] [|j] x y Hij Hx Hy; cbn in *; try lia; try discriminate.
  - injection Hx as <-. rewrite Forall_forall in F. apply F. eapply nth_error_In; eauto.
  - exact (IH i j x y (proj2 (Nat.succ_lt_mono i j) Hij) Hx Hy).
Qed.
Lemma freq_nth i j x y : (i < j)%nat -> nth_error freqR i = Some x -> nth_error freqR j = Some y -> x < y.
Proof. apply sorted_nth, freq_increasing. Qed.

Lemma index_NoDup n i j : nth_error const_name i = Some n -> nth_error const_name j = Some n -> i = j.
Proof.
  intros H1 H2. apply (proj1 (NoDup_nth_error const_name) names_NoDup).
  - apply nth_error_Some. congruence.
  - congruence.
Qed.
