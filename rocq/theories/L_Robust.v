(** Proofs about the robust fit (utide/robustfit.py). *)
From Coq Require Import Lia Lra Psatz Sorted Permutation.
From Verif Require Import M_Base M_Lib M_Robust S_Recon S_Model S_Robust L_Base L_Slv2 L_Model L_Lsq L_Ellipse L_Example.
Open Scope R_scope.
Open Scope string_scope.

(** ** weight functions *)
Lemma Some_eq {A} (a b : A) : Some a = Some b -> a = b.
Proof. congruence. Qed.
Lemma sixth : 6745 / 10 ^ 4 = 0.6745.
Proof. lra. Qed.

Definition wf_of (name : string) : option (xr -> xr) :=
  if String.eqb name "bisquare" then Some w_bisquare
  else if String.eqb name "cauchy" then Some w_cauchy
  else if String.eqb name "fair" then Some w_fair
  else if String.eqb name "ols" then Some w_ols
  else if String.eqb name "talwar" then Some w_talwar
  else if String.eqb name "welsch" then Some w_welsch
  else None.

(** destruct the string tests on name *)
Ltac byname name :=
  repeat match goal with
  | H : context [String.eqb name ?s] |- _ => let E := fresh "E" in destruct (String.eqb name s) eqn:E; [apply String.eqb_eq in E; subst name; cbn -[pow] in *|clear E]
  | |- context [String.eqb name ?s] => let E := fresh "E" in destruct (String.eqb name s) eqn:E; [apply String.eqb_eq in E; subst name; cbn -[pow] in *|clear E]
  end.

Lemma wfunc_spec name f : wfunc name = Ok f ->
  (In name ["andrews"; "huber"; "logistic"] /\ forall r, f r = Err ValueError) \/
  (exists w phi, wf_of name = Some w /\ weight_formula name = Some phi /\ forall r, f r = Ok (map w r)).
Proof.
  unfold wfunc. intros H. byname name; try discriminate; apply Ok_inj in H || (injection H as <-); subst;
    first [left; split; [cbn; tauto|reflexivity] | right; do 2 eexists; split; [reflexivity|]; split; [reflexivity|reflexivity]].
Qed.

Lemma wf_phi name w phi : wf_of name = Some w -> weight_formula name = Some phi ->
  forall r, 0 <= r -> w (Fin r) = Fin (phi r).
Proof.
  unfold wf_of, weight_formula. intros H1 H2 r Hr.
  byname name; try discriminate; injection H1 as <-; injection H2 as <-.
  - unfold w_bisquare, xlt, xbool, xsq, xsub, x1. cbn. destruct (Rle_dec 1 r), (Rlt_dec r 1); try lra; cbn; f_equal; ring.
  - unfold w_cauchy, x1, xsq. cbn. destruct (Req_EM_T (1 + r * r) 0); [nra|]. f_equal. f_equal. ring.
  - unfold w_fair, x1. cbn. destruct (Req_EM_T (1 + r) 0); [lra|]. reflexivity.
  - reflexivity.
  - unfold w_talwar, xlt, xbool, x1. cbn. destruct (Rle_dec 1 r), (Rlt_dec r 1); try lra; reflexivity.
  - unfold w_welsch, xsq. cbn. f_equal. f_equal. ring.
Qed.

Lemma phi_facts name phi : weight_formula name = Some phi ->
  phi 0 = 1 /\ (forall r, 0 <= r -> 0 <= phi r <= 1) /\ (forall r s, 0 <= r -> r <= s -> phi s <= phi r).
Proof.
  unfold weight_formula. intros H. byname name; try discriminate; apply Some_eq in H; subst phi; cbv beta.
  - split; [destruct (Rlt_dec 0 1); lra|]. split.
    + intros r Hr. destruct (Rlt_dec r 1); [|lra]. assert (0 <= r ^ 2 <= 1) by (split; nra). split; nra.
    + intros r s Hr Hs. destruct (Rlt_dec s 1), (Rlt_dec r 1); try lra.
      * assert (0 <= 1 - s ^ 2) by nra. assert (1 - s ^ 2 <= 1 - r ^ 2) by nra. nra.
      * apply pow2_ge_0.
  - split; [field|]. split.
    + intros r Hr. assert (0 < 1 + r ^ 2) by nra. split.
      * left. unfold Rdiv. rewrite Rmult_1_l. now apply Rinv_0_lt_compat.
      * apply Rmult_le_reg_r with (1 + r ^ 2); auto. unfold Rdiv. rewrite Rmult_assoc, Rinv_l by lra. nra.
    + intros r s Hr Hs. unfold Rdiv. rewrite !Rmult_1_l. apply Rinv_le_contravar; nra.
  - split; [field|]. split.
    + intros r Hr. split.
      * left. unfold Rdiv. rewrite Rmult_1_l. apply Rinv_0_lt_compat. lra.
      * apply Rmult_le_reg_r with (1 + r); [lra|]. unfold Rdiv. rewrite Rmult_assoc, Rinv_l by lra. lra.
    + intros r s Hr Hs. unfold Rdiv. rewrite !Rmult_1_l. apply Rinv_le_contravar; lra.
  - split; [reflexivity|]. split; intros; lra.
  - split; [destruct (Rlt_dec 0 1); lra|]. split.
    + intros r Hr. destruct (Rlt_dec r 1); lra.
    + intros r s Hr Hs. destruct (Rlt_dec s 1), (Rlt_dec r 1); lra.
  - split; [replace (- 0 ^ 2) with 0 by ring; apply exp_0|]. split.
    + intros r Hr. split; [left; apply exp_pos|]. rewrite <- exp_0.
      destruct (Req_dec (- r ^ 2) 0) as [->|N]; [lra|]. left. apply exp_increasing. nra.
    + intros r s Hr Hs. destruct (Req_dec (- s ^ 2) (- r ^ 2)) as [->|N]; [lra|]. left. apply exp_increasing.
      assert (r ^ 2 <= s ^ 2) by nra. lra.
Qed.

(** whatever the (non-negative) argument, a finite weight lies in [0,1] *)
Definition nonneg (x : xr) : Prop := match x with Fin r => 0 <= r | PInf | NaN => True | NInf => False end.
Lemma wf_range name w x r : wf_of name = Some w -> nonneg x -> w x = Fin r -> 0 <= r <= 1.
Proof.
  intros H Hx E.
  assert (exists phi, weight_formula name = Some phi) as [phi Hp].
  { revert H. unfold wf_of, weight_formula. byname name; eauto; discriminate. }
  destruct x as [a| | |]; try tauto.
  - rewrite (wf_phi _ _ _ H Hp a Hx) in E. injection E as <-. now apply (phi_facts _ _ Hp).
  - clear Hp. revert H E. unfold wf_of. byname name; intros H E'; try discriminate; apply Some_eq in H; subst w; cbn in E';
      unfold sgn_inf in E'; repeat match type of E' with context [Rlt_dec ?a ?b] => destruct (Rlt_dec a b) end; try discriminate; try lra;
      injection E' as <-; lra.
  - clear Hp. revert H E. unfold wf_of. byname name; intros H E'; try discriminate; apply Some_eq in H; subst w; cbn in E';
      unfold sgn_inf in E'; repeat match type of E' with context [Rlt_dec ?a ?b] => destruct (Rlt_dec a b) end; try discriminate; try lra;
      injection E' as <-; lra.
Qed.

(** ** medians *)
Lemma rle_t a b : rle a b = true -> a <= b.
Proof. unfold rle. destruct (Rle_dec a b); [auto|discriminate]. Qed.
Lemma rle_f a b : rle a b = false -> b <= a.
Proof. unfold rle. destruct (Rle_dec a b); [discriminate|intros _; lra]. Qed.
Lemma cle_t a b : cle a b = true -> lex a b.
Proof.
  unfold cle, lex, rle. destruct (Rlt_dec (fst a) (fst b)); [now left|]. destruct (Rlt_dec (fst b) (fst a)); [discriminate|].
  destruct (Rle_dec (snd a) (snd b)); [|discriminate]. intros _. right. split; lra.
Qed.
Lemma cle_f a b : cle a b = false -> lex b a.
Proof.
  unfold cle, lex, rle. destruct (Rlt_dec (fst a) (fst b)); [discriminate|]. destruct (Rlt_dec (fst b) (fst a)); [now left|].
  destruct (Rle_dec (snd a) (snd b)); [discriminate|]. intros _. right. split; lra.
Qed.
Lemma lex_trans a b c : lex a b -> lex b c -> lex a c.
Proof. unfold lex. intros [H|[H H']] [K|[K K']]; [left; lra|left; lra|left; lra|right; split; lra]. Qed.
Lemma lex_anti a b : lex a b -> lex b a -> a = b.
Proof. unfold lex. destruct a as [p q], b as [r s]. cbn. intros [H|[H H']] [K|[K K']]; try lra. f_equal; lra. Qed.

Lemma sorted_unique {A} (Q : A -> A -> Prop) : (forall a b, Q a b -> Q b a -> a = b) ->
  forall s t, Permutation s t -> StronglySorted Q s -> StronglySorted Q t -> s = t.
Proof.
  intros AS. induction s as [|a s IH]; intros t P S T.
  - apply Permutation_nil in P. auto.
  - destruct t as [|b t]; [apply Permutation_sym, Permutation_nil in P; discriminate|].
    inversion S as [|? ? S1 S2]; inversion T as [|? ? T1 T2]; subst.
    assert (E : a = b).
    { assert (Ha : In a (b :: t)) by (apply (Permutation_in _ P); now left).
      assert (Hb : In b (a :: s)) by (apply (Permutation_in _ (Permutation_sym P)); now left).
      destruct Ha as [->|Ha]; auto. destruct Hb as [->|Hb]; auto.
      rewrite Forall_forall in S2, T2. auto. }
    subst b. f_equal. apply IH; auto. now apply Permutation_cons_inv in P.
Qed.

Lemma median_spec l m : median_is l m <-> m = median l.
Proof.
  assert (SS : StronglySorted Rle (sort_by rle l)).
  { apply sort_sorted; [apply rle_t|apply rle_f|]. intros a b c. apply Rle_trans. }
  assert (LL : length (sort_by rle l) = length l) by (apply Permutation_length, sort_perm).
  unfold median, mid. rewrite LL. split.
  - intros (s & P & S & ->).
    assert (E : s = sort_by rle l).
    { apply (sorted_unique Rle); auto using Rle_antisym. rewrite <- P. apply Permutation_sym, sort_perm. }
    now subst s.
  - intros ->. exists (sort_by rle l). split; [apply Permutation_sym, sort_perm|]. auto.
Qed.
Lemma cmedian_spec l m : cmedian_is l m <-> m = cmedian l.
Proof.
  assert (SS : StronglySorted lex (sort_by cle l)).
  { apply sort_sorted; [apply cle_t|apply cle_f|apply lex_trans]. }
  assert (LL : length (sort_by cle l) = length l) by (apply Permutation_length, sort_perm).
  unfold cmedian, mid. rewrite LL.
  assert (F : forall a b : C, Cdiv (Cplus a b) (RtoC 2) = Cmult (RtoC (1 / 2)) (Cplus a b)).
  { intros [a b] [c d]. apply injective_projections; cbn; field. }
  split.
  - intros (s & P & S & ->).
    assert (E : s = sort_by cle l).
    { apply (sorted_unique lex); auto using lex_anti. rewrite <- P. apply Permutation_sym, sort_perm. }
    subst s. now rewrite F.
  - intros ->. exists (sort_by cle l). split; [apply Permutation_sym, sort_perm|]. split; auto.
Qed.
Lemma scale_spec z s : scale_is z s <-> s = sigma_hat z.
Proof.
  unfold scale_is, sigma_hat. rewrite sixth. split.
  - intros (c & d & Hc & Hd & ->). apply cmedian_spec in Hc. subst c. apply median_spec in Hd. now subst d.
  - intros ->. do 2 eexists. split; [apply cmedian_spec; reflexivity|]. split; [apply median_spec; reflexivity|]. reflexivity.
Qed.

Lemma nth_in_or {A} (d : A) n s : In (nth n s d) s \/ nth n s d = d.
Proof. destruct (nth_in_or_default n s d); auto. Qed.
Lemma median_nonneg l m : median_is l m -> Forall (fun x => 0 <= x) l -> 0 <= m.
Proof.
  intros (s & P & _ & ->) F. rewrite Forall_forall in F.
  assert (G : forall n, 0 <= nth n s 0).
  { intros n. destruct (nth_in_or 0 n s) as [H| ->]; [|lra]. apply F. apply (Permutation_in _ (Permutation_sym P)). exact H. }
  assert (A := G ((length l - 1) / 2)%nat). assert (B := G (length l / 2)%nat). lra.
Qed.
Lemma scale_nonneg z s : scale_is z s -> 0 <= s.
Proof.
  intros (c & d & _ & Hd & ->). apply median_nonneg in Hd; [lra|]. apply Forall_forall. intros x Hx.
  apply in_map_iff in Hx. destruct Hx as (y & <- & _). apply Cmod_ge_0.
Qed.

Lemma SS_map_mono {A B} (f : A -> B) (Q : A -> A -> Prop) (Q' : B -> B -> Prop) l :
  (forall a b, Q a b -> Q' (f a) (f b)) -> StronglySorted Q l -> StronglySorted Q' (map f l).
Proof.
  intros M. induction 1 as [|a l S IH F]; cbn; constructor; auto. rewrite Forall_forall in *. intros b Hb.
  apply in_map_iff in Hb. destruct Hb as (x & <- & Hx). auto.
Qed.
Lemma SS_snoc {A} (Q : A -> A -> Prop) l x : StronglySorted Q l -> Forall (fun y => Q y x) l -> StronglySorted Q (l ++ [x]).
Proof.
  induction 1 as [|a l S IH F]; intros H; cbn; [repeat constructor|]. inversion H; subst. constructor; auto.
  rewrite Forall_forall in *. intros b Hb. apply in_app_or in Hb. destruct Hb as [Hb|[<-|[]]]; auto.
Qed.
Lemma SS_rev {A} (Q : A -> A -> Prop) l : StronglySorted Q l -> StronglySorted (fun a b => Q b a) (rev l).
Proof.
  induction 1 as [|a l S IH F]; cbn; [constructor|]. apply SS_snoc; auto. rewrite Forall_forall in *.
  intros b Hb. apply in_rev in Hb. auto.
Qed.

(** a map that keeps or reverses the order, and averages, moves the median along *)
Lemma cmedian_shift l m c : l <> [] -> cmedian_is l m -> cmedian_is (map (Cplus c) l) (Cplus c m).
Proof.
  intros N (s & P & S & ->). exists (map (Cplus c) s). split; [now apply Permutation_map|]. split.
  - eapply SS_map_mono; [|exact S]. unfold lex, Cplus. cbn. intros a b [H|[H H']]; [left; lra|right; split; lra].
  - assert (LP := Permutation_length P). assert (0 < length l)%nat by (destruct l; [congruence|cbn; lia]).
    rewrite map_length.
    assert (L1 : ((length l - 1) / 2 < length s)%nat) by (rewrite <- LP; apply Nat.div_lt_upper_bound; lia).
    assert (L2 : (length l / 2 < length s)%nat) by (rewrite <- LP; apply Nat.div_lt_upper_bound; lia).
    rewrite !(nth_indep (map _ s) (RtoC 0) (Cplus c (RtoC 0))) by (rewrite map_length; auto).
    rewrite !map_nth. generalize (nth ((length l - 1) / 2) s (RtoC 0)) (nth (length l / 2) s (RtoC 0)).
    intros [a b] [e f]. apply injective_projections; cbn; field.
Qed.
Lemma half_mirror n : (0 < n)%nat -> (n - S ((n - 1) / 2) = n / 2)%nat /\ (n - S (n / 2) = (n - 1) / 2)%nat.
Proof.
  intros H. destruct (Nat.Even_or_Odd n) as [[k ->]|[k ->]].
  - rewrite (Nat.mul_comm 2 k), Nat.div_mul by lia.
    replace (k * 2 - 1)%nat with (1 + (k - 1) * 2)%nat by lia. rewrite Nat.div_add by lia. change (1 / 2)%nat with 0%nat. lia.
  - replace (2 * k + 1 - 1)%nat with (k * 2)%nat by lia. replace (2 * k + 1)%nat with (1 + k * 2)%nat by lia.
    rewrite Nat.div_mul, Nat.div_add by lia. change (1 / 2)%nat with 0%nat. lia.
Qed.
Lemma cmedian_scale l m c : l <> [] -> cmedian_is l m -> cmedian_is (map (Cmult (RtoC c)) l) (Cmult (RtoC c) m).
Proof.
  intros N (s & P & S & ->).
  assert (LP := Permutation_length P). assert (P0 : (0 < length l)%nat) by (destruct l; [congruence|cbn; lia]).
  assert (L1 : ((length l - 1) / 2 < length s)%nat) by (rewrite <- LP; apply Nat.div_lt_upper_bound; lia).
  assert (L2 : (length l / 2 < length s)%nat) by (rewrite <- LP; apply Nat.div_lt_upper_bound; lia).
  assert (Z : RtoC 0 = Cmult (RtoC c) (RtoC 0)) by (apply injective_projections; cbn; ring).
  destruct (Rle_dec 0 c) as [Hc|Hc].
  - exists (map (Cmult (RtoC c)) s). split; [now apply Permutation_map|]. split.
    + eapply SS_map_mono; [|exact S]. unfold lex, Cmult, RtoC. cbn. intros a b [H|[H H']].
      * destruct (Req_dec c 0) as [->|]; [right; split; lra|left; nra].
      * right. split; nra.
    + rewrite map_length, Z, !map_nth. rewrite <- Z.
      generalize (nth ((length l - 1) / 2) s (RtoC 0)) (nth (length l / 2) s (RtoC 0)).
      intros [a b] [e f]. apply injective_projections; cbn; field.
  - exists (map (Cmult (RtoC c)) (rev s)). split; [apply Permutation_map; rewrite P; apply Permutation_rev|]. split.
    + eapply SS_map_mono; [|apply SS_rev; exact S]. unfold lex, Cmult, RtoC. cbn. intros a b [H|[H H']]; [left; nra|right; split; nra].
    + rewrite map_length, Z, !map_nth. rewrite <- Z. rewrite !rev_nth by auto.
      destruct (half_mirror (length l) P0) as [M1 M2]. rewrite <- LP. rewrite M1, M2.
      generalize (nth ((length l - 1) / 2) s (RtoC 0)) (nth (length l / 2) s (RtoC 0)).
      intros [a b] [e f]. apply injective_projections; cbn; field.
Qed.
Lemma median_scale l m c : 0 <= c -> median_is l m -> median_is (map (Rmult c) l) (c * m).
Proof.
  intros Hc (s & P & S & ->). exists (map (Rmult c) s). split; [now apply Permutation_map|]. split.
  - eapply SS_map_mono; [|exact S]. cbn. intros a b H. nra.
  - rewrite map_length. assert (E : forall k, nth k (map (Rmult c) s) 0 = c * nth k s 0).
    { intros k. rewrite <- (map_nth (Rmult c)). f_equal. ring. }
    rewrite !E. field.
Qed.

Lemma scale_shift z s c : z <> [] -> scale_is z s -> scale_is (map (Cplus c) z) s.
Proof.
  intros N (m & d & Hm & Hd & ->). exists (Cplus c m), d. split; [now apply cmedian_shift|]. split; [|reflexivity].
  rewrite map_map. erewrite map_ext; [exact Hd|]. intros x. cbn beta. f_equal. ring.
Qed.
Lemma scale_scale z s c : z <> [] -> scale_is z s -> scale_is (map (Cmult (RtoC c)) z) (Rabs c * s).
Proof.
  intros N (m & d & Hm & Hd & ->). exists (Cmult (RtoC c) m), (Rabs c * d). split; [now apply cmedian_scale|].
  split; [|unfold Rdiv; ring].
  apply (median_scale _ _ (Rabs c)) in Hd; [|apply Rabs_pos]. rewrite map_map in Hd |- *. erewrite map_ext; [exact Hd|].
  intros x. cbn beta. rewrite <- Cmod_R, <- Cmod_mult. f_equal. ring.
Qed.
