(** Proofs about the Bunch container (utide/utilities.py). *)
From Coq Require Import Lia Ascii Sorted Permutation.
From Verif Require Import M_Base M_Bunch S_Dict L_Base.

Lemma given_snoc {V} (ds : list (dict V)) d k v :
  given (ds ++ [d]) k v <-> entry d k v \/ (~ In k (keys d) /\ given ds k v).
Proof.
  split.
  - intros (b & e & a & Heq & He & Hn).
    destruct a as [|x a] using rev_ind.
    + apply app_inj_tail in Heq. destruct Heq as [_ ->]. now left.
    + clear IHa. rewrite app_comm_cons, app_assoc in Heq. apply app_inj_tail in Heq.
      destruct Heq as [-> ->]. right. split.
      * apply Hn. apply in_or_app. right. now left.
      * exists b, e, a. repeat split; auto. intros d' Hd'. apply Hn. apply in_or_app. now left.
  - intros [He | [Hn (b & e & a & -> & He & Ha)]].
    + exists ds, d, []. repeat split; auto.
    + exists b, e, (a ++ [d]). rewrite <- app_assoc. repeat split; auto.
      intros d' Hd'. apply in_app_or in Hd'. destruct Hd' as [|[<-|[]]]; auto.
Qed.

Lemma not_given_snoc {V} (ds : list (dict V)) d k :
  not_given (ds ++ [d]) k <-> ~ In k (keys d) /\ not_given ds k.
Proof.
  unfold not_given. split.
  - intros H. split; [apply H; apply in_or_app; right; now left|].
    intros e He. apply H. apply in_or_app. now left.
  - intros [Hd H] e He. apply in_app_or in He. destruct He as [|[<-|[]]]; auto.
Qed.

Lemma merge_given {V} (ds : list (dict V)) : (forall d, In d ds -> unique_keys d) ->
  forall k, (forall v, dget (fold_left dupdate ds []) k = Some v <-> given ds k v)
            /\ (dget (fold_left dupdate ds []) k = None <-> not_given ds k).
Proof.
  induction ds as [|d ds IH] using rev_ind; intros Hu k.
  - simpl. split.
    + intros v. split; [discriminate|]. intros (b & e & a & Heq & _). now destruct b.
    + split; auto. intros _ d [].
  - destruct (IH (fun d' Hd' => Hu d' (in_or_app _ _ _ (or_introl Hd'))) k) as [IH1 IH2].
    assert (Hd : unique_keys d) by (apply Hu; apply in_or_app; right; now left).
    rewrite fold_left_app. simpl. rewrite dget_dupdate by exact Hd. split.
    + intros v. rewrite given_snoc, <- IH1. unfold entry. rewrite <- (dget_In d k v Hd).
      change (keys d) with (dkeys d). rewrite <- dget_None.
      destruct (dget d k); intuition congruence.
    + rewrite not_given_snoc, <- IH2. change (keys d) with (dkeys d). rewrite <- dget_None.
      destruct (dget d k); intuition congruence.
Qed.

Lemma merge_keys {V} (ds : list (dict V)) : unique_keys (fold_left dupdate ds []).
Proof.
  assert (H : forall acc, unique_keys acc -> unique_keys (fold_left dupdate ds acc)).
  { induction ds as [|d ds IH]; simpl; auto. intros acc Hacc. apply IH. now apply NoDup_dupdate. }
  apply H. constructor.
Qed.

Lemma without_ddel {V} k (d : dict V) : ddel d k = without k d.
Proof.
  unfold ddel, without. apply filter_ext. intros [a b]. simpl. now rewrite String.eqb_sym.
Qed.

Lemma without_unique {V} k (d : dict V) : unique_keys d -> unique_keys (without k d).
Proof. intros H. exact (NoDup_filter_keys (fun a => negb (String.eqb a k)) d H). Qed.

Definition strict_of (kw : dict pyval) : bool := fst (pop_strict kw).

Lemma upd_merge args kw :
  dupdate (fold_left dupdate args []) (snd (pop_strict kw))
  = fold_left dupdate (args ++ [without "strict" kw]) [].
Proof. unfold pop_strict. simpl. rewrite fold_left_app. simpl. now rewrite without_ddel. Qed.

Section Upd.
Variables (self : dict pyval) (args : list (dict pyval)) (kw : dict pyval).
Hypothesis Hself : unique_keys self.
Hypothesis Hargs : forall d, In d args -> unique_keys d.
Hypothesis Hkw : unique_keys kw.

Let ds := args ++ [without "strict" kw].
Let newkw := fold_left dupdate ds [].

Lemma ds_unique d : In d ds -> unique_keys d.
Proof.
  intros H. apply in_app_or in H. destruct H as [|[<-|[]]]; auto using without_unique.
Qed.

Lemma new_dget k v : dget newkw k = Some v <-> given ds k v.
Proof. apply (merge_given ds ds_unique k). Qed.
Lemma new_none k : dget newkw k = None <-> not_given ds k.
Proof. apply (merge_given ds ds_unique k). Qed.

Lemma bad_keys_nil : bad_keys self newkw = [] <-> (forall k, In k (keys newkw) -> In k (keys self)).
Proof.
  unfold bad_keys. split.
  - intros H k Hk. destruct (dmem self k) eqn:E; [now apply dmem_In|].
    exfalso. assert (In k (filter (fun k => negb (dmem self k)) (dkeys newkw))) as Hin.
    { apply filter_In. rewrite E. auto. }
    rewrite H in Hin. destruct Hin.
  - intros H. destruct (filter _ _) as [|k l] eqn:E; auto.
    assert (Hin : In k (filter (fun k => negb (dmem self k)) (dkeys newkw))) by (rewrite E; now left).
    apply filter_In in Hin. destruct Hin as [Hk Hm]. apply H in Hk. apply dmem_In in Hk.
    rewrite Hk in Hm. discriminate.
Qed.

Lemma newkw_keys k : In k (keys newkw) <-> exists v, given ds k v.
Proof.
  change (keys newkw) with (dkeys newkw). rewrite <- dmem_In. unfold dmem. split.
  - destruct (dget newkw k) eqn:E; [|discriminate]. exists p. now apply new_dget.
  - intros [v Hv]. apply new_dget in Hv. now rewrite Hv.
Qed.

Lemma upd_ok_iff (f : dict pyval -> dict pyval) :
  (match check_strict self (strict_of kw) newkw with
   | Err e => (self, Err e) | Ok _ => (f newkw, Ok tt) end : dict pyval * res unit)
  = if (strict_of kw && negb (forallb (fun k => existsb (String.eqb k) (keys self)) (keys newkw)))%bool
    then (self, Err KeyError) else (f newkw, Ok tt).
Proof.
  unfold check_strict. destruct (strict_of kw); simpl; auto.
  destruct (forallb _ _) eqn:E; simpl.
  - rewrite forallb_forall in E. destruct (bad_keys self newkw) eqn:E2; auto.
    assert (bad_keys self newkw = []) as H.
    { apply bad_keys_nil. intros k Hk. apply existsb_eqb_In. now apply E. }
    congruence.
  - destruct (bad_keys self newkw) eqn:E2; auto. exfalso.
    apply Bool.not_true_iff_false in E. apply E. apply forallb_forall. intros k Hk.
    apply existsb_eqb_In. now apply (proj1 bad_keys_nil E2).
Qed.

Lemma strict_reject_iff :
  (strict_of kw && negb (forallb (fun k => existsb (String.eqb k) (keys self)) (keys newkw)))%bool = true
  <-> strict_of kw = true /\ exists k v, given ds k v /\ ~ In k (keys self).
Proof.
  rewrite Bool.andb_true_iff, Bool.negb_true_iff. split.
  - intros [-> H]. split; auto. apply Bool.not_true_iff_false in H.
    assert (Hex : exists k, In k (keys newkw) /\ ~ In k (keys self)).
    { clear -H. induction (keys newkw) as [|k l IH]; simpl in H; [congruence|].
      destruct (existsb (String.eqb k) (keys self)) eqn:E; simpl in H.
      - destruct (IH H) as [x [Hx1 Hx2]]. exists x. split; [now right|auto].
      - exists k. split; [now left|]. intros Hin. apply existsb_eqb_In in Hin. congruence. }
    destruct Hex as [k [Hk Hn]]. apply newkw_keys in Hk. destruct Hk as [v Hv]. eauto.
  - intros [-> (k & v & Hg & Hn)]. split; auto. apply Bool.not_true_iff_false. intros H.
    rewrite forallb_forall in H. apply Hn. apply existsb_eqb_In. apply H.
    apply newkw_keys. eauto.
Qed.

Lemma update_values_eq :
  update_values self args kw =
  if (strict_of kw && negb (forallb (fun k => existsb (String.eqb k) (keys self)) (keys newkw)))%bool
  then (self, Err KeyError)
  else (dupdate self (filter (fun kv => dmem self (fst kv)) newkw), Ok tt).
Proof.
  rewrite <- (upd_ok_iff (fun n => dupdate self (filter (fun kv => dmem self (fst kv)) n))).
  unfold update_values, strict_of. destruct (pop_strict kw) as [b kw'] eqn:E.
  replace kw' with (snd (pop_strict kw)) by now rewrite E. rewrite upd_merge. reflexivity.
Qed.

Lemma update_None_eq :
  update_None self args kw =
  if (strict_of kw && negb (forallb (fun k => existsb (String.eqb k) (keys self)) (keys newkw)))%bool
  then (self, Err KeyError)
  else (dupdate self (filter (fun kv => match dget self (fst kv) with
                                        | Some v => is_none v | None => false end) newkw), Ok tt).
Proof.
  rewrite <- (upd_ok_iff (fun n => dupdate self (filter (fun kv => match dget self (fst kv) with
                                        | Some v => is_none v | None => false end) n))).
  unfold update_None, strict_of. destruct (pop_strict kw) as [b kw'] eqn:E.
  replace kw' with (snd (pop_strict kw)) by now rewrite E. rewrite upd_merge. reflexivity.
Qed.

(** common part: update by the entries of newkw whose key satisfies p, all such keys in self *)
Lemma upd_sub (p : string -> bool) : (forall k, p k = true -> In k (keys self)) ->
  let r := dupdate self (filter (fun kv => p (fst kv)) newkw) in
  keys r = keys self /\
  forall k v, entry r k v <->
    (p k = true /\ given ds k v) \/ (entry self k v /\ (p k = false \/ not_given ds k)).
Proof.
  intros Hp r.
  assert (Hf : unique_keys (filter (fun kv => p (fst kv)) newkw)).
  { apply (NoDup_filter_keys p). apply merge_keys. }
  assert (Hk : keys r = keys self).
  { apply dkeys_dupdate_sub. intros k Hin. apply (dkeys_filter p) in Hin. apply Hp. tauto. }
  split; auto. intros k v. unfold entry.
  rewrite <- (dget_In r k v) by (unfold dkeys; fold (keys r); rewrite Hk; exact Hself).
  rewrite <- (dget_In self k v) by exact Hself.
  unfold r. rewrite dget_dupdate by exact Hf. rewrite (dget_filter p).
  rewrite <- (new_dget k v), <- (new_none k).
  destruct (p k) eqn:E; destruct (dget newkw k); intuition congruence.
Qed.
End Upd.

Lemma strict_of_true kw : unique_keys kw ->
  (strict_of kw = true <-> exists v, entry kw "strict" v /\ truthy v = true).
Proof.
  intros H. unfold strict_of, pop_strict. simpl. split.
  - destruct (dget kw "strict") eqn:E; [|discriminate]. intros Ht. exists p. split; auto.
    now apply dget_In.
  - intros [v [Hv Ht]]. apply dget_In in Hv; auto. now rewrite Hv.
Qed.

Lemma update_values_lemma self args kw :
  unique_keys self -> (forall d, In d args -> unique_keys d) -> unique_keys kw ->
  forall r o, update_values self args kw = (r, o) ->
  let ds := args ++ [without "strict" kw] in
  ((exists v, entry kw "strict" v /\ truthy v = true) /\
   (exists k v, given ds k v /\ ~ In k (keys self)) /\ o = Err KeyError /\ r = self)
  \/
  (((~ exists v, entry kw "strict" v /\ truthy v = true) \/
    (forall k v, given ds k v -> In k (keys self))) /\
   o = Ok tt /\ keys r = keys self /\
   forall k v, entry r k v <->
     (In k (keys self) /\ given ds k v) \/ (entry self k v /\ not_given ds k)).
Proof.
  intros Hs Ha Hk r o H ds. rewrite update_values_eq in H.
  destruct (strict_of kw && _)%bool eqn:E in H; injection H as <- <-.
  - apply strict_reject_iff in E; auto. destruct E as [E1 E2]. left.
    rewrite <- strict_of_true; auto.
  - right.
    assert (Hnot : ~ (strict_of kw = true /\ exists k v, given ds k v /\ ~ In k (keys self))).
    { intros Hc. apply strict_reject_iff in Hc; auto. congruence. }
    split.
    { rewrite <- strict_of_true by auto. destruct (strict_of kw); [right|left; congruence].
      intros k v Hg. destruct (in_dec string_dec k (keys self)); auto.
      exfalso. apply Hnot. eauto. }
    split; auto.
    destruct (upd_sub self args kw Hs Ha Hk (dmem self) (fun k => proj1 (dmem_In self k)))
      as [U1 U2]. split; auto. intros k v. etransitivity; [exact (U2 k v)|]. fold ds.
    change (keys self) with (dkeys self). rewrite <- dmem_In.
    split; [intros [?|[? [Hm|?]]]; auto|intros [?|[? ?]]; auto].
    exfalso. apply Bool.not_true_iff_false in Hm. apply Hm. apply dmem_In.
    now apply (in_map fst) in H.
Qed.

Lemma update_None_lemma self args kw :
  unique_keys self -> (forall d, In d args -> unique_keys d) -> unique_keys kw ->
  forall r o, update_None self args kw = (r, o) ->
  let ds := args ++ [without "strict" kw] in
  ((exists v, entry kw "strict" v /\ truthy v = true) /\
   (exists k v, given ds k v /\ ~ In k (keys self)) /\ o = Err KeyError /\ r = self)
  \/
  (((~ exists v, entry kw "strict" v /\ truthy v = true) \/
    (forall k v, given ds k v -> In k (keys self))) /\
   o = Ok tt /\ keys r = keys self /\
   forall k v, entry r k v <->
     (entry self k PNone /\ given ds k v) \/ (entry self k v /\ (v <> PNone \/ not_given ds k))).
Proof.
  intros Hs Ha Hk r o H ds. rewrite update_None_eq in H.
  destruct (strict_of kw && _)%bool eqn:E in H; injection H as <- <-.
  - apply strict_reject_iff in E; auto. destruct E as [E1 E2]. left.
    rewrite <- strict_of_true; auto.
  - right.
    assert (Hnot : ~ (strict_of kw = true /\ exists k v, given ds k v /\ ~ In k (keys self))).
    { intros Hc. apply strict_reject_iff in Hc; auto. congruence. }
    split.
    { rewrite <- strict_of_true by auto. destruct (strict_of kw); [right|left; congruence].
      intros k v Hg. destruct (in_dec string_dec k (keys self)); auto.
      exfalso. apply Hnot. eauto. }
    split; auto.
    set (p := fun k => match dget self k with Some v => is_none v | None => false end).
    assert (Hp : forall k, p k = true <-> entry self k PNone).
    { intros k. unfold p, entry. rewrite <- dget_In by exact Hs.
      destruct (dget self k) as [[]|]; simpl; intuition congruence. }
    assert (Hp' : forall k, p k = true -> In k (keys self)).
    { intros k Hpk. apply Hp in Hpk. now apply (in_map fst) in Hpk. }
    destruct (upd_sub self args kw Hs Ha Hk p Hp') as [U1 U2]. split; auto.
    intros k v. etransitivity; [exact (U2 k v)|]. fold ds. rewrite Hp.
    split; [intros [?|[He [Hm|?]]]; auto|intros [?|[He [Hm|?]]]; auto].
    + right. split; auto. left. intros ->. apply Hp in He. congruence.
    + right. split; auto. left. apply Bool.not_true_iff_false. intros Hpk. apply Hp in Hpk.
      unfold entry in *. apply dget_In in Hpk; auto. apply dget_In in He; auto. congruence.
Qed.

(** ** Attributes *)
Lemma getattr_setattr {V} (d : dict V) n v : ~ In n class_attrs ->
  bunch_getattr (bunch_setattr d n v) n = Ok (AItem v).
Proof.
  intros Hn. unfold bunch_getattr, bunch_setattr. rewrite dget_dset_same.
  destruct (existsb _ _) eqn:E; [apply existsb_eqb_In in E; tauto|].
  now destruct (String.eqb n "t_mpl").
Qed.

Lemma setattr_frame {V} (d : dict V) n v : unique_keys d ->
  unique_keys (bunch_setattr d n v) /\
  (forall v', entry (bunch_setattr d n v) n v' <-> v' = v) /\
  (forall k v', k <> n -> (entry (bunch_setattr d n v) k v' <-> entry d k v')).
Proof.
  intros H. unfold bunch_setattr, entry.
  assert (Hd : unique_keys (dset d n v)) by (apply NoDup_dset; auto).
  split; [exact Hd|]. split.
  - intros v'. rewrite <- dget_In by exact Hd. rewrite dget_dset_same. intuition congruence.
  - intros k v' Hk. rewrite <- !dget_In by (try exact Hd; exact H).
    now rewrite dget_dset_other.
Qed.

Lemma getattr_item {V} (d : dict V) n v : unique_keys d -> ~ In n class_attrs ->
  (bunch_getattr d n = Ok (AItem v) <-> entry d n v).
Proof.
  intros Hd Hn. unfold bunch_getattr, entry. rewrite <- dget_In by exact Hd.
  destruct (existsb _ _) eqn:E; [apply existsb_eqb_In in E; tauto|].
  destruct (String.eqb n "t_mpl"); destruct (dget d n); intuition congruence.
Qed.

Lemma getattr_missing {V} (d : dict V) n : ~ In n class_attrs -> n <> "t_mpl"%string ->
  (bunch_getattr d n = Err AttributeError <-> ~ In n (keys d)).
Proof.
  intros Hn Ht. unfold bunch_getattr. change (keys d) with (dkeys d). rewrite <- dget_None.
  destruct (existsb _ _) eqn:E; [apply existsb_eqb_In in E; tauto|].
  destruct (String.eqb_spec n "t_mpl"); [tauto|].
  destruct (dget d n); intuition congruence.
Qed.

Lemma getattr_t_mpl {V} (d : dict V) : ~ In "t_mpl"%string (keys d) ->
  bunch_getattr d "t_mpl" = Err KeyError.
Proof.
  intros H. unfold bunch_getattr. simpl. change (keys d) with (dkeys d) in H.
  apply dget_None in H. now rewrite H.
Qed.

Lemma getattr_method {V} (d : dict V) n : In n dict_method_names ->
  bunch_getattr d n = Ok (AMethod n).
Proof.
  intros H. unfold bunch_getattr. replace (existsb _ _) with true; auto. symmetry.
  apply existsb_eqb_In. simpl in *. tauto.
Qed.

(** ** Printing *)
Lemma str_le_spec a : forall b, str_le a b = true <-> str_before a b.
Proof.
  induction a as [|c a IH]; intros [|d b]; simpl.
  - split; auto; constructor.
  - split; auto; constructor.
  - split; [discriminate|]. intros H; inversion H.
  - destruct (Nat.ltb_spec (nat_of_ascii c) (nat_of_ascii d)) as [Hl|Hl].
    + split; auto. intros _. now constructor.
    + destruct (Nat.ltb_spec (nat_of_ascii d) (nat_of_ascii c)) as [Hr|Hr].
      * split; [discriminate|]. intros H; inversion H; subst; lia.
      * assert (c = d) as ->.
        { rewrite <- (ascii_nat_embedding c), <- (ascii_nat_embedding d). f_equal. lia. }
        rewrite IH. split; intros H; [now constructor|]. inversion H; subst; [lia|auto].
Qed.

Lemma str_before_total a : forall b, str_before a b \/ str_before b a.
Proof.
  induction a as [|c a IH]; intros [|d b]; try (left; constructor; fail); try (right; constructor; fail).
  destruct (lt_eq_lt_dec (nat_of_ascii c) (nat_of_ascii d)) as [[H|H]|H].
  - left. now constructor.
  - assert (c = d) as ->.
    { rewrite <- (ascii_nat_embedding c), <- (ascii_nat_embedding d). now f_equal. }
    destruct (IH b); [left|right]; now constructor.
  - right. now constructor.
Qed.

Lemma str_before_trans a b c : str_before a b -> str_before b c -> str_before a c.
Proof.
  intros H. revert c. induction H as [s|x y a b Hxy|x a b Hab IH]; intros c Hc.
  - constructor.
  - inversion Hc; subst; apply sb_lt; lia.
  - inversion Hc; subst; [now apply sb_lt|apply sb_eq; auto].
Qed.

Definition key_le {V} (x y : string * V) : Prop := str_before (fst x) (fst y).

Lemma insert_item_perm {V} (x : string * V) l : Permutation (insert_item x l) (x :: l).
Proof.
  induction l as [|y l IH]; simpl; auto. destruct (str_le _ _); auto.
  rewrite IH. constructor.
Qed.

Lemma insert_item_sorted {V} (x : string * V) l :
  StronglySorted key_le l -> StronglySorted key_le (insert_item x l).
Proof.
  induction l as [|y l IH]; simpl; intros H; [repeat constructor|].
  inversion H as [|? ? Hl Hy]; subst. destruct (str_le (fst x) (fst y)) eqn:E.
  - apply str_le_spec in E. constructor; auto. constructor; auto.
    eapply Forall_impl; [|exact Hy]. intros z Hz. eapply str_before_trans; eauto.
  - assert (Hyx : str_before (fst y) (fst x)).
    { destruct (str_before_total (fst x) (fst y)) as [H1|]; auto.
      apply str_le_spec in H1. congruence. }
    constructor; auto. rewrite Forall_forall in *. intros z Hz.
    apply (Permutation_in _ (insert_item_perm x l)) in Hz. destruct Hz as [<-|Hz]; auto.
Qed.

Lemma sort_items_perm {V} (l : dict V) : Permutation (sort_items l) l.
Proof. induction l as [|x l IH]; simpl; auto. rewrite insert_item_perm. now constructor. Qed.
Lemma sort_items_sorted {V} (l : dict V) : StronglySorted key_le (sort_items l).
Proof. induction l as [|x l IH]; simpl; [constructor|]. now apply insert_item_sorted. Qed.

Lemma spaces_blanks n : blanks (spaces n).
Proof. induction n; simpl; constructor; auto. Qed.

Lemma concat_map_Forall2 {A} (f : A -> string) l : Forall2 (fun x s => s = f x) l (map f l).
Proof. induction l; simpl; constructor; auto. Qed.

Open Scope string_scope.

Lemma str_app_assoc a b c : ((a ++ b) ++ c) = (a ++ (b ++ c)).
Proof. induction a; simpl; auto. now rewrite IHa. Qed.

Lemma spaces_length n : String.length (spaces n) = n.
Proof. induction n; simpl; auto. Qed.

Lemma fold_max_spec l : forall x, let m := fold_left Nat.max l x in
  (forall y, In y (x :: l) -> y <= m)%nat /\ In m (x :: l).
Proof.
  induction l as [|y l IH]; intros x; cbn [fold_left].
  - split; [|now left]. intros y [->|[]]. lia.
  - destruct (IH (Nat.max x y)) as [H1 H2]. split.
    + intros z [->|[->|Hz]].
      * specialize (H1 (Nat.max z y) (or_introl eq_refl)). lia.
      * specialize (H1 (Nat.max x z) (or_introl eq_refl)). lia.
      * apply H1. now right.
    + destruct H2 as [H2|H2]; [|right; now right].
      rewrite <- H2. destruct (Nat.max_spec x y) as [[_ ->]|[_ ->]]; [right; now left|now left].
Qed.

Lemma nmax_width (f : string -> nat) lim ts m : (forall t, f t = String.length t) ->
  nmax (map f ts) = Ok m -> column_width lim ts (Nat.min lim m).
Proof.
  intros Hf H. destruct ts as [|t0 ts]; [discriminate|]. cbn [map nmax] in H.
  assert (Hm : m = fold_left Nat.max (map f ts) (f t0)) by congruence.
  destruct (fold_max_spec (map f ts) (f t0)) as [H1 H2]. rewrite <- Hm in H1, H2.
  unfold column_width. split; [lia|]. split.
  - destruct (Nat.le_gt_cases lim m) as [L|L]; [left; lia|right]. intros t Ht.
    assert (In (f t) (f t0 :: map f ts)) as Hi by (change (In (f t) (map f (t0 :: ts))); now apply in_map).
    specialize (H1 _ Hi). rewrite Hf in H1. lia.
  - change (In m (map f (t0 :: ts))) in H2. apply in_map_iff in H2. destruct H2 as (t & E & Ht).
    exists t. split; [exact Ht|]. rewrite <- Hf, E. lia.
Qed.

Lemma column_width_perm lim ts us w : Permutation ts us -> column_width lim ts w -> column_width lim us w.
Proof.
  intros P (H1 & H2 & t & Ht & H3). split; [exact H1|]. split.
  - destruct H2 as [H2|H2]; [now left|right]. intros u Hu. apply H2. eapply Permutation_in; [|exact Hu]. now symmetry.
  - exists t. split; [|exact H3]. eapply Permutation_in; eassumption.
Qed.

Lemma formatted_lemma {V} (vstr : V -> string) (d : dict V) : d <> [] ->
  exists items lines out kw vw,
    formatted vstr d = Ok out /\ out = String.concat "" lines /\
    Permutation items d /\ StronglySorted (fun x y => str_before (fst x) (fst y)) items /\
    column_width 20 (keys d) kw /\ column_width 40 (map (fun kv => vstr (snd kv)) d) vw /\
    Forall2 (fun kv line => exists p q, blanks p /\ blanks q /\
               String.length p = (kw - String.length (fst kv))%nat /\
               String.length q = (vw - String.length (vstr (snd kv)))%nat /\
               line = fst kv ++ p ++ " : " ++ q ++ vstr (snd kv) ++ newline) items lines.
Proof.
  intros Hd. unfold formatted.
  assert (Hs : sort_items d <> []).
  { intros H. assert (P := sort_items_perm d). rewrite H in P. apply Permutation_nil in P. auto. }
  assert (Hmax : forall f : string * V -> nat, exists m, nmax (map f (sort_items d)) = Ok m).
  { intros f. destruct (sort_items d); [congruence|]. simpl. eauto. }
  destruct (Hmax (fun kv => String.length (fst kv))) as [km Hkm].
  destruct (Hmax (fun kv => String.length (vstr (snd kv)))) as [vm Hvm].
  assert (Hk : column_width 20 (keys d) (Nat.min 20 km)).
  { apply (column_width_perm _ (keys (sort_items d))).
    - unfold keys. apply Permutation_map, sort_items_perm.
    - apply (nmax_width String.length); [reflexivity|]. rewrite <- Hkm. unfold keys. now rewrite map_map. }
  assert (Hv : column_width 40 (map (fun kv => vstr (snd kv)) d) (Nat.min 40 vm)).
  { apply (column_width_perm _ (map (fun kv => vstr (snd kv)) (sort_items d))).
    - apply Permutation_map, sort_items_perm.
    - apply (nmax_width String.length); [reflexivity|]. rewrite <- Hvm. now rewrite map_map. }
  rewrite Hkm, Hvm. cbn [bind].
  eexists (sort_items d), _, _, _, _. split; [reflexivity|]. split; [reflexivity|].
  split; [apply sort_items_perm|]. split; [apply sort_items_sorted|].
  split; [exact Hk|]. split; [exact Hv|].
  match goal with |- Forall2 _ ?l (map ?f ?l) => generalize (concat_map_Forall2 f l) end.
  intros H. eapply Forall2_imp; [|exact H]. intros [k v] s ->. unfold ljust, rjust.
  cbn [fst snd].
  do 2 eexists. split; [apply spaces_blanks|]. split; [apply spaces_blanks|].
  split; [apply spaces_length|]. split; [apply spaces_length|].
  now rewrite !str_app_assoc.
Qed.

Lemma construct_lemma {V} (args : list (dict V)) (kw : dict V) :
  (forall d, In d args -> unique_keys d) -> unique_keys kw ->
  unique_keys (bunch_init args kw) /\
  forall k v, entry (bunch_init args kw) k v <-> given (args ++ [kw])%list k v.
Proof.
  intros Ha Hk.
  assert (E : bunch_init args kw = fold_left dupdate (args ++ [kw])%list []).
  { unfold bunch_init. now rewrite fold_left_app. }
  assert (Hu : forall d, In d (args ++ [kw])%list -> unique_keys d).
  { intros d Hd. apply in_app_or in Hd. destruct Hd as [Hd|[<-|[]]]; auto. }
  rewrite E. split; [apply merge_keys|]. intros k v. unfold entry.
  rewrite <- (dget_In (fold_left dupdate (args ++ [kw])%list []) k v) by apply merge_keys.
  apply (merge_given _ Hu k).
Qed.

Lemma formatted_empty {V} (vstr : V -> string) : formatted vstr [] = Err ValueError.
Proof. reflexivity. Qed.

Lemma class_attrs_eq : class_attrs = (dict_method_names ++ bunch_names)%list.
Proof. reflexivity. Qed.

Lemma getattr_method' {V} (d : dict V) n : In n (dict_method_names ++ bunch_names)%list ->
  bunch_getattr d n = Ok (AMethod n).
Proof.
  intros H. unfold bunch_getattr. rewrite class_attrs_eq. apply existsb_eqb_In in H. now rewrite H.
Qed.

Lemma attribute_access_lemma {V} (d : dict V) n v :
  unique_keys d -> ~ In n (dict_method_names ++ bunch_names)%list ->
  let d' := bunch_setattr d n v in
  unique_keys d' /\
  (forall v', entry d' n v' <-> v' = v) /\
  (forall k v', k <> n -> (entry d' k v' <-> entry d k v')) /\
  bunch_getattr d' n = Ok (AItem v) /\
  (forall v', bunch_getattr d n = Ok (AItem v') <-> entry d n v').
Proof.
  intros Hd Hn d'. destruct (setattr_frame d n v Hd) as (H1 & H2 & H3).
  repeat split; auto; try (now apply H2); try (now apply H3).
  - now apply getattr_setattr.
  - now apply getattr_item.
  - now apply getattr_item.
Qed.

Lemma missing_attribute_refuted_lemma :
  ~ (forall (d : dict pyval) n, ~ In n (dict_method_names ++ bunch_names)%list ->
       ~ In n (keys d) -> bunch_getattr d n = Err AttributeError).
Proof.
  intros H. specialize (H [] "t_mpl"). discriminate H; simpl; intuition discriminate.
Qed.
