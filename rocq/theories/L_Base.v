(** General lemmas: dictionaries, lists, result monad. *)
From Coq Require Import Lia.
From Verif Require Import M_Base.

Lemma bind_Ok {A B} (x : res A) (f : A -> res B) b :
  bind x f = Ok b -> exists a, x = Ok a /\ f a = Ok b.
Proof. destruct x as [a|e]; simpl; intros H; [eauto | discriminate]. Qed.

Ltac inv_bind H :=
  let a := fresh "a" in let Ha := fresh "Ha" in
  apply bind_Ok in H; destruct H as [a [Ha H]].

(** ** Dictionaries *)
Section Dict.
Context {V : Type}.
Implicit Types d : dict V.

Lemma dget_dset_same d k v : dget (dset d k v) k = Some v.
Proof.
  induction d as [|[k' v'] d IH]; simpl.
  - now rewrite String.eqb_refl.
  - destruct (String.eqb k k') eqn:E; simpl; rewrite E; auto.
Qed.

Lemma dget_dset_other d k k2 v : k2 <> k -> dget (dset d k v) k2 = dget d k2.
Proof.
  intros Hn. induction d as [|[k' v'] d IH]; simpl.
  - destruct (String.eqb_spec k2 k); congruence.
  - destruct (String.eqb_spec k k'); simpl.
    + subst k'. destruct (String.eqb_spec k2 k); congruence.
    + destruct (String.eqb_spec k2 k'); auto.
Qed.

Lemma dget_dset d k k2 v : dget (dset d k v) k2 = if String.eqb k2 k then Some v else dget d k2.
Proof.
  destruct (String.eqb_spec k2 k); subst; auto using dget_dset_same, dget_dset_other.
Qed.

Lemma dget_In d k v : NoDup (dkeys d) -> dget d k = Some v <-> In (k, v) d.
Proof.
  unfold dkeys. induction d as [|[k' v'] d IH]; simpl; intros Hd; [easy|].
  apply NoDup_cons_iff in Hd. destruct Hd as [Hn Hd].
  destruct (String.eqb_spec k k') as [->|Hk]; rewrite ?IH; auto.
  - split; [intros [= ->]; auto|]. intros [[= ->]|Hin]; auto.
    exfalso. apply Hn. now apply (in_map fst) in Hin.
  - split; auto. intros [[= ? ?]|]; auto; congruence.
Qed.

Lemma dget_None d k : dget d k = None <-> ~ In k (dkeys d).
Proof.
  unfold dkeys. induction d as [|[k' v'] d IH]; simpl; [tauto|].
  destruct (String.eqb_spec k k') as [->|Hk]; [split; [discriminate|tauto]|].
  rewrite IH. split; [intros H [E|E]; [congruence|tauto]|tauto].
Qed.

Lemma dget_Some_In d k v : dget d k = Some v -> In (k, v) d.
Proof.
  induction d as [|[k' v'] d IH]; simpl; [easy|].
  destruct (String.eqb_spec k k') as [->|Hk]; [intros [= ->]; auto|auto].
Qed.

Lemma dmem_In d k : dmem d k = true <-> In k (dkeys d).
Proof.
  unfold dmem. destruct (dget d k) eqn:E.
  - split; auto. intros _. apply dget_Some_In in E. now apply (in_map fst) in E.
  - apply dget_None in E. split; [discriminate|tauto].
Qed.

Lemma dkeys_dset d k v : dkeys (dset d k v) = if dmem d k then dkeys d else (dkeys d ++ [k])%list.
Proof.
  unfold dmem, dkeys. induction d as [|[k' v'] d IH]; simpl; auto.
  destruct (String.eqb_spec k k') as [->|Hk]; simpl; auto.
  rewrite IH. destruct (dget d k); auto.
Qed.

Lemma NoDup_dset d k v : NoDup (dkeys d) -> NoDup (dkeys (dset d k v)).
Proof.
  intros Hd. rewrite dkeys_dset. destruct (dmem d k) eqn:E; auto.
  assert (~ In k (dkeys d)) by (rewrite <- dmem_In; congruence).
  apply NoDup_rev in Hd. rewrite <- (rev_involutive (_ ++ _)). apply NoDup_rev.
  rewrite rev_app_distr. simpl. constructor; auto. rewrite <- in_rev. auto.
Qed.

Lemma dset_In_keys d k v k2 : In k2 (dkeys (dset d k v)) <-> k2 = k \/ In k2 (dkeys d).
Proof.
  rewrite dkeys_dset. destruct (dmem d k) eqn:E.
  - apply dmem_In in E. split; auto. intros [->|]; auto.
  - rewrite in_app_iff. simpl. intuition congruence.
Qed.

Lemma NoDup_dupdate d2 : forall d, NoDup (dkeys d) -> NoDup (dkeys (dupdate d d2)).
Proof. unfold dupdate. induction d2 as [|kv d2 IH]; simpl; auto using NoDup_dset. Qed.

Lemma dget_app d1 d2 k :
  dget (d1 ++ d2) k = match dget d1 k with Some v => Some v | None => dget d2 k end.
Proof.
  induction d1 as [|[k' v'] d1 IH]; simpl; auto. destruct (String.eqb k k'); auto.
Qed.

Lemma dget_dupdate_rev d2 : forall d k,
  dget (dupdate d d2) k = match dget (rev d2) k with Some v => Some v | None => dget d k end.
Proof.
  unfold dupdate. induction d2 as [|[k' v'] d2 IH]; simpl; intros d k; auto.
  rewrite IH, dget_app, dget_dset. simpl. destruct (dget (rev d2) k); auto.
  destruct (String.eqb k k'); auto.
Qed.

Lemma dget_rev d k : NoDup (dkeys d) -> dget (rev d) k = dget d k.
Proof.
  intros Hd. assert (Hr : NoDup (dkeys (rev d))).
  { unfold dkeys in *. rewrite map_rev. now apply NoDup_rev. }
  destruct (dget d k) eqn:E.
  - apply dget_In; auto. apply -> in_rev. now apply dget_In.
  - apply dget_None. apply dget_None in E. unfold dkeys in *. rewrite map_rev.
    now rewrite <- in_rev.
Qed.

Lemma dget_dupdate d d2 k : NoDup (dkeys d2) ->
  dget (dupdate d d2) k = match dget d2 k with Some v => Some v | None => dget d k end.
Proof. intros H. now rewrite dget_dupdate_rev, dget_rev. Qed.

Lemma dkeys_dupdate d2 : forall d k, In k (dkeys (dupdate d d2)) <-> In k (dkeys d) \/ In k (dkeys d2).
Proof.
  unfold dupdate. induction d2 as [|[k' v'] d2 IH]; simpl; intros d k; [tauto|].
  rewrite IH, dset_In_keys. intuition congruence.
Qed.

Lemma dkeys_dupdate_sub d2 : forall d, (forall k, In k (dkeys d2) -> In k (dkeys d)) ->
  dkeys (dupdate d d2) = dkeys d.
Proof.
  unfold dupdate. induction d2 as [|[k' v'] d2 IH]; simpl; intros d H; auto.
  assert (Hk : dkeys (dset d k' v') = dkeys d).
  { rewrite dkeys_dset. replace (dmem d k') with true; auto. symmetry. apply dmem_In. auto. }
  rewrite IH, Hk; auto. intros k Hin. rewrite Hk. auto.
Qed.

Lemma dget_filter (p : string -> bool) d k :
  dget (filter (fun kv => p (fst kv)) d) k = if p k then dget d k else None.
Proof.
  induction d as [|[k' v'] d IH]; simpl; [now destruct (p k)|].
  destruct (p k') eqn:E; simpl; rewrite IH; destruct (String.eqb_spec k k') as [->|]; auto;
    rewrite E; auto.
Qed.

Lemma NoDup_filter_keys (p : string -> bool) d :
  NoDup (dkeys d) -> NoDup (dkeys (filter (fun kv => p (fst kv)) d)).
Proof.
  unfold dkeys. induction d as [|[k' v'] d IH]; simpl; auto. intros H.
  apply NoDup_cons_iff in H. destruct H as [Hn Hd].
  destruct (p k'); simpl; auto. constructor; auto. intros Hin. apply Hn.
  apply in_map_iff in Hin. destruct Hin as [[a b] [Hf Hin]]. apply filter_In in Hin.
  apply in_map_iff. exists (a, b). tauto.
Qed.

Lemma dkeys_filter (p : string -> bool) d k :
  In k (dkeys (filter (fun kv => p (fst kv)) d)) <-> In k (dkeys d) /\ p k = true.
Proof.
  unfold dkeys. rewrite !in_map_iff. split.
  - intros [[a b] [Hf Hin]]. apply filter_In in Hin. simpl in *. subst a. split; [|tauto].
    exists (k, b). tauto.
  - intros [[[a b] [Hf Hin]] Hp]. simpl in *. subst a. exists (k, b). rewrite filter_In. auto.
Qed.

Lemma dget_ddel d k k2 : dget (ddel d k) k2 = if String.eqb k k2 then None else dget d k2.
Proof.
  unfold ddel. rewrite (dget_filter (fun k' => negb (String.eqb k k'))).
  now destruct (String.eqb k k2).
Qed.
End Dict.

Lemma Forall2_len {A B} (P : A -> B -> Prop) l r : Forall2 P l r -> length l = length r.
Proof. induction 1; simpl; auto. Qed.

(** ** mapM *)
Lemma mapM_Ok {A B} (f : A -> res B) l r :
  mapM f l = Ok r <-> Forall2 (fun x y => f x = Ok y) l r.
Proof.
  revert r. induction l as [|x l IH]; simpl; intros r.
  - split; [intros [= <-]; constructor | intros H; inversion H; auto].
  - split.
    + intros H. inv_bind H. inv_bind H. injection H as <-. constructor; auto. now apply IH.
    + intros H. inversion H as [|? ? ? ? Hx Hl]; subst. rewrite Hx. simpl.
      apply IH in Hl. rewrite Hl. reflexivity.
Qed.

Lemma mapM_ext {A B} (f g : A -> res B) l :
  (forall x, In x l -> f x = g x) -> mapM f l = mapM g l.
Proof.
  induction l as [|x l IH]; simpl; intros H; auto.
  rewrite H, IH; auto.
Qed.

Lemma mapM_Err {A B} (f : A -> res B) l e :
  mapM f l = Err e -> exists x, In x l /\ f x = Err e.
Proof.
  induction l as [|x l IH]; simpl; [discriminate|].
  destruct (f x) eqn:E; simpl.
  - destruct (mapM f l) eqn:E2; simpl; [discriminate|]. intros [= ->].
    destruct (IH eq_refl) as [y [Hy1 Hy2]]; eauto.
  - intros [= ->]. eauto.
Qed.

Lemma mapM_length {A B} (f : A -> res B) l r : mapM f l = Ok r -> length r = length l.
Proof. intros H. apply mapM_Ok in H. now apply Forall2_len in H. Qed.

Lemma mapM_total {A B} (f : A -> res B) (g : A -> B) l :
  (forall x, In x l -> f x = Ok (g x)) -> mapM f l = Ok (map g l).
Proof.
  induction l as [|x l IH]; simpl; intros H; auto.
  rewrite H by auto. simpl. rewrite IH by auto. reflexivity.
Qed.

Lemma mapM_In {A B} (f : A -> res B) l r y :
  mapM f l = Ok r -> In y r -> exists x, In x l /\ f x = Ok y.
Proof.
  intros H. apply mapM_Ok in H. induction H as [|x z l r Hx Hl IH]; simpl; [easy|].
  intros [->|Hin]; eauto. destruct (IH Hin) as [x' [? ?]]; eauto.
Qed.

Lemma existsb_eqb_In (s : string) l : existsb (String.eqb s) l = true <-> In s l.
Proof.
  rewrite existsb_exists. split.
  - intros [x [Hx E]]. apply String.eqb_eq in E. now subst.
  - intros H. exists s. now rewrite String.eqb_refl.
Qed.

Lemma existsb_natb_In (n : nat) l : existsb (Nat.eqb n) l = true <-> In n l.
Proof.
  rewrite existsb_exists. split.
  - intros [x [Hx E]]. apply Nat.eqb_eq in E. now subst.
  - intros H. exists n. now rewrite Nat.eqb_refl.
Qed.

Lemma Forall2_imp {A B} (P Q : A -> B -> Prop) l l' :
  (forall a b, P a b -> Q a b) -> Forall2 P l l' -> Forall2 Q l l'.
Proof. intros H F. induction F; constructor; auto. Qed.
