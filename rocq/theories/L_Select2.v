(** The layout of the selection in terms of names. *)
From Coq Require Import Lia Lra Permutation.
From Verif Require Import M_Base M_Lib M_Tables M_Const M_Options M_Harmonics M_Select L_Base L_Tables S_Select L_Select.
Open Scope R_scope.
Open Scope string_scope.

Lemma remove_filter x l : remove string_dec x l = filter (fun y => negb (String.eqb x y)) l.
Proof.
  induction l as [|y l IH]; cbn; auto. destruct (string_dec x y) as [->|n].
  - now rewrite String.eqb_refl.
  - rewrite (proj2 (String.eqb_neq x y) n). cbn. now rewrite IH.
Qed.
Lemma filter_filter {A} (p q : A -> bool) l : filter p (filter q l) = filter (fun x => q x && p x) l.
Proof. induction l as [|x l IH]; cbn; auto. destruct (q x); cbn; [destruct (p x); now rewrite IH|auto]. Qed.
Lemma mem_app x a b : mem_str x (a ++ b)%list = (mem_str x a || mem_str x b)%bool.
Proof. apply existsb_app. Qed.

Lemma first_occ_distinct l : first_occ l = distinct l.
Proof.
  unfold first_occ.
  assert (G : forall acc, fold_left (fun acc x => if mem_str x acc then acc else acc ++ [x])%list l acc =
      (acc ++ filter (fun x => negb (mem_str x acc)) (distinct l))%list).
  { induction l as [|x l IH]; intros acc; cbn [fold_left distinct filter]; [now rewrite app_nil_r|].
    rewrite IH. rewrite remove_filter, filter_filter. destruct (mem_str x acc) eqn:E; cbn [negb].
    - f_equal. apply filter_ext. intros y. destruct (String.eqb_spec x y) as [<- |n]; cbn; auto. now rewrite E.
    - rewrite <- app_assoc. cbn [app]. f_equal. f_equal. apply filter_ext. intros y. rewrite mem_app.
      unfold mem_str at 2. cbn [existsb]. rewrite orb_false_r, negb_orb, andb_comm. f_equal. f_equal. apply String.eqb_sym. }
  rewrite G. cbn. clear. generalize (distinct l). intros k. induction k as [|x k IH]; cbn; [|rewrite IH]; reflexivity.
Qed.

Lemma mapM_names tref inf nI l items : mapM (one_inferred (linearized_freqs tref) inf nI) l = Ok items ->
  map (fun j => nth_error (inf_inferred inf) j) l = map Some (map (fun x => snd (fst (fst x))) items).
Proof.
  revert items. induction l as [|j l IH]; cbn [mapM]; intros items H.
  - injection H as <-. reflexivity.
  - inv_bind H. inv_bind H. injection H as <-. destruct a as [[[[Rp Rm] n] li] f].
    destruct (one_inferred_spec _ _ _ _ _ _ _ _ _ Ha) as (A & _). cbn [map fst snd]. rewrite A, (IH _ Ha0). reflexivity.
Qed.

Lemma group_names tref inf nI name r : length (inf_inferred inf) = length (inf_reference inf) ->
  one_ref (linearized_freqs tref) inf nI name = Ok r -> r_Iname r = inferred_from inf name.
Proof.
  intros HL H. destruct (one_ref_spec _ _ _ _ _ H) as (_ & _ & _ & _ & _ & _ & items & I1 & -> & _).
  apply map_Some_inj. rewrite <- (mapM_names _ _ _ _ _ I1). unfold positions, enumerate, inferred_from.
  assert (E := filter_enum (fun n => String.eqb name n) (inf_reference inf) (inf_inferred inf) 0 HL).
  erewrite map_ext; [rewrite E|].
  - f_equal. f_equal. apply filter_ext. intros [a b]. cbn [fst snd]. destruct (String.eqb_spec name b), (string_dec b name); congruence.
  - intros j. cbn. now rewrite Nat.sub_0_r.
Qed.

Lemma groups tref inf nI names Rs : length (inf_inferred inf) = length (inf_reference inf) ->
  mapM (one_ref (linearized_freqs tref) inf nI) names = Ok Rs -> map r_Iname Rs = map (inferred_from inf) names.
Proof.
  intros HL. revert Rs. induction names as [|n names IH]; cbn [mapM]; intros Rs H.
  - injection H as <-. reflexivity.
  - inv_bind H. inv_bind H. injection H as <-. cbn. now rewrite (group_names _ _ _ _ _ HL Ha), (IH _ Ha0).
Qed.

Lemma filter_names (lind ri : list nat) names rn : map (fun i => nth_error const_name i) lind = map Some names ->
  map (fun i => nth_error const_name i) ri = map Some rn ->
  map (fun i => nth_error const_name i) (filter (fun i => negb (existsb (Nat.eqb i) ri)) lind) =
  map Some (filter (fun n => if in_dec string_dec n rn then false else true) names).
Proof.
  intros H Hr. revert names H. induction lind as [|i lind IH]; intros [|n names] H; cbn [map] in H; try discriminate; auto.
  apply (f_equal (@hd_error _)) in H as H1. apply (f_equal (@tl _)) in H as H2. cbn [hd_error tl] in H1, H2.
  assert (H1' : nth_error const_name i = Some n) by congruence. clear H1.
  cbn [filter].
  assert (E : negb (existsb (Nat.eqb i) ri) = (if in_dec string_dec n rn then false else true)).
  { destruct (in_dec string_dec n rn) as [Hin|Hni].
    - apply In_nth_error in Hin. destruct Hin as [j Hj].
      assert (Hj2 : nth_error (map Some rn) j = Some (Some n)) by now apply map_nth_error.
      rewrite <- Hr, nth_error_map in Hj2. destruct (nth_error ri j) as [i'|] eqn:Ei'; [|discriminate].
      cbn [option_map] in Hj2. assert (Hi' : nth_error const_name i' = Some n) by congruence.
      assert (i' = i) by (eapply index_NoDup; eauto). subst i'.
      apply negb_false_iff. apply nth_error_In in Ei'. apply existsb_natb_In. exact Ei'.
    - apply negb_true_iff. destruct (existsb (Nat.eqb i) ri) eqn:Ex; auto. exfalso. apply Hni.
      apply existsb_natb_In in Ex. apply In_nth_error in Ex. destruct Ex as [j Hj].
      assert (Hj2 : nth_error (map (fun i => nth_error const_name i) ri) j = Some (nth_error const_name i)) by (now rewrite nth_error_map, Hj).
      rewrite Hr, H1', nth_error_map in Hj2. destruct (nth_error rn j) as [q|] eqn:Eq; [|discriminate].
      cbn in Hj2. injection Hj2 as ->. eapply nth_error_In; eauto. }
  rewrite E. destruct (in_dec string_dec n rn); cbn [map]; [now apply IH|].
  rewrite H1'. f_equal. now apply IH.
Qed.

Lemma lind_names minres inc names lind : requested minres inc names -> initial_lind (Fin minres) inc = Ok lind ->
  map (fun i => nth_error const_name i) lind = map Some names.
Proof.
  unfold initial_lind. intros [-> |[-> ->]] H.
  - cbn [eq_str] in H. rewrite as_names_seq in H. cbn [bind] in H. now apply mapM_index.
  - cbn [eq_str String.eqb Ascii.eqb Bool.eqb] in H. apply Ok_inj in H. subst lind. apply auto_names.
Qed.

Lemma layout tref minres inc inf s names : requested minres inc names ->
  length (inf_inferred inf) = length (inf_reference inf) ->
  ut_cnstitsel tref (Fin minres) inc (Some inf) = Ok s ->
  s_name s = (others inf names ++ distinct (inf_reference inf) ++
              flat_map (inferred_from inf) (distinct (inf_reference inf)))%list /\
  s_nNR s = length (others inf names) /\ s_nR s = length (distinct (inf_reference inf)) /\
  s_nI s = length (inf_inferred inf) /\ (s_nNR s + s_nR s + s_nI s)%nat = length (s_name s) /\
  lin_aligned tref (s_name s) (s_lind s) (s_frq s).
Proof.
  intros Hq HL H. assert (SL := sel_infer _ _ _ _ _ H). destruct SL.
  destruct sl_NR as (l0 & ri & I1 & I2 & I3).
  assert (N : s_NRname s = others inf names).
  { apply map_Some_inj. destruct sl_NRal as [<- _]. rewrite I3. apply filter_names.
    - eapply lind_names; eauto.
    - now apply mapM_index. }
  assert (G := groups _ _ _ _ _ HL sl_R). rewrite first_occ_distinct in *.
  split; [|split; [|split; [|split; [|split]]]]; auto.
  - rewrite sl_name, N, sl_refs, !flat_map_concat_map, G. reflexivity.
  - now rewrite sl_nNR, N.
  - rewrite sl_nR, <- sl_refs. now rewrite map_length.
  - rewrite sl_name, !app_length, map_length, sl_nNR, sl_nR, sl_nI, sl_I. lia.
Qed.
