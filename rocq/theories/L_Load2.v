(** Listing the contents of a loaded file. *)
From Coq Require Import Ascii Lia Permutation Sorted.
From Verif Require Import M_Base M_Bunch M_Load S_Dict S_Load L_Base L_Bunch L_Load.
Open Scope nat_scope.
Open Scope string_scope.

(** leaves in the order of the dictionaries *)
Fixpoint paths (v : pobj) : list (list string * pobj) :=
  match v with
  | ODict true items =>
      (fix go (l : list (string * pobj)) : list (list string * pobj) :=
         match l with [] => [] | (k, w) :: l' => (map (fun e => (k :: fst e, snd e)) (paths w) ++ go l')%list end) items
  | _ => [([], v)]
  end.
Definition item_paths (items : list (string * pobj)) : list (list string * pobj) :=
  flat_map (fun kv => map (fun e => (fst kv :: fst e, snd e)) (paths (snd kv))) items.
Lemma paths_dict items : paths (ODict true items) = item_paths items.
Proof. cbn [paths]. induction items as [|[k w] l IH]; [reflexivity|]. cbn [item_paths flat_map fst snd]. unfold item_paths in IH. rewrite <- IH. reflexivity. Qed.
Lemma paths_leaf v : ~ is_bunch v -> paths v = [([], v)].
Proof. intros H. destruct v as [| | | |[|] items| |]; try reflexivity. exfalso. apply H. eexists. reflexivity. Qed.
Lemma bunch_dec v : (exists items, v = ODict true items) \/ ~ is_bunch v.
Proof. destruct v as [| | | |[|] items| |]; [right|right|right|right|left|right|right|right]; try (intros [? ?]; discriminate). eauto. Qed.

Lemma paths_spec v : forall p r, In (p, r) (paths v) <-> bunch_at v p r /\ ~ is_bunch r.
Proof.
  induction v as [x|s|k sh d mk _|sh recs _|y items IH|l _|a b] using pobj_ind'; intros p r.
  all: try (cbn [paths]; split; [intros [H|[]]; injection H as <- <-; split; [constructor|intros [? ?]; discriminate]|intros [H _]; inversion H; subst; now left]).
  destruct y.
  - rewrite paths_dict. unfold item_paths. rewrite in_flat_map. rewrite Forall_forall in IH. split.
    + intros ([k w] & Hi & H). cbn [fst snd] in H. apply in_map_iff in H. destruct H as ([p' r'] & H & H'). injection H as <- <-.
      apply (IH _ Hi) in H'. cbn [snd fst] in *. destruct H' as [H1 H2]. split; [econstructor; eauto|exact H2].
    + intros [H NB]. inversion H as [|k w items' p' r' Hi H']; subst; [exfalso; apply NB; eexists; reflexivity|].
      exists (k, w). split; [exact Hi|]. cbn [fst snd]. apply in_map_iff. exists (p', r). split; [reflexivity|]. apply (IH _ Hi). auto.
  - cbn [paths]. split; [intros [H|[]]; injection H as <- <-; split; [constructor|intros [? ?]; discriminate]|intros [H _]; inversion H; subst; now left].
Qed.
Lemma tree_item items k v : tree_ok (ODict true items) -> In (k, v) items -> tree_ok v.
Proof. intros T Hi p it H. apply (T (k :: p)). econstructor; eauto. Qed.
Lemma NoDup_app_intro {A} (l l' : list A) : NoDup l -> NoDup l' -> (forall x, In x l -> ~ In x l') -> NoDup (l ++ l').
Proof.
  induction l as [|x l IH]; intros H1 H2 H; [exact H2|]. inversion H1; subst. cbn. constructor.
  - rewrite in_app_iff. intros [K|K]; [contradiction|]. exact (H x (or_introl eq_refl) K).
  - apply IH; auto. intros y Hy. apply H. now right.
Qed.
Lemma paths_nodup v : tree_ok v -> NoDup (map fst (paths v)).
Proof.
  induction v as [x|s|k sh d mk _|sh recs _|y items IH|l _|a b] using pobj_ind'; intros T.
  all: try (cbn [paths map fst]; repeat constructor; intros []).
  destruct y; [|cbn [paths map fst]; repeat constructor; intros []].
  rewrite paths_dict. assert (UK := T [] _ (ba_here _)). assert (TI := fun k v => tree_item items k v T). clear T. unfold unique_keys, keys in UK.
  induction items as [|[k w] items IHi]; [constructor|]. cbn [item_paths flat_map fst snd]. rewrite map_app, map_map. cbn [fst map] in *.
  inversion UK as [|? ? NI ND]; subst. inversion IH as [|? ? IH1 IH2]; subst. cbn [snd] in IH1. apply NoDup_app_intro.
  - assert (N := IH1 (TI _ _ (or_introl eq_refl))). rewrite <- (map_map fst (cons k)). apply FinFun.Injective_map_NoDup; [|exact N]. intros a b E. now injection E.
  - apply IHi; auto. intros; eapply TI; right; eauto.
  - intros p H K. apply in_map_iff in H. destruct H as ([p1 r1] & <- & _). cbn [fst] in K. apply in_map_iff in K. destruct K as ([p2 r2] & E & K). cbn [fst] in E.
    unfold item_paths in K. apply in_flat_map in K. destruct K as ([k2 w2] & Hi & K). apply in_map_iff in K. destruct K as (e & E2 & _). cbn [fst snd] in E2.
    injection E2 as <- _. injection E as <- _. apply NI. apply in_map_iff. exists (k2, w2). auto.
Qed.

(** ** sorting pairs *)
Definition pair_before (a b : string * string) : Prop := str_before (fst a) (fst b) /\ (fst a = fst b -> str_before (snd a) (snd b)).
Lemma str_before_antisym a : forall b, str_before a b -> str_before b a -> a = b.
Proof.
  induction a as [|c a IH]; intros b H K; inversion H; subst; inversion K; subst; try reflexivity; try lia. f_equal. auto.
Qed.
Lemma str_before_refl a : str_before a a. Proof. destruct (str_before_total a a); auto. Qed.
Lemma pair_le_spec a b : pair_le a b = true <-> pair_before a b.
Proof.
  unfold pair_le, pair_before. destruct (String.eqb_spec (fst a) (fst b)) as [E|E]; rewrite str_le_spec.
  - rewrite E. split; [intros H; split; [apply str_before_refl|auto]|intros []; auto].
  - split; [intros H; split; [exact H|contradiction]|intros []; auto].
Qed.
Lemma pair_before_trans a b c : pair_before a b -> pair_before b c -> pair_before a c.
Proof.
  intros [H1 H2] [K1 K2]. split; [eapply str_before_trans; eauto|]. intros E. rewrite E in *. assert (F := str_before_antisym _ _ H1 K1).
  eapply str_before_trans; [apply H2|apply K2]; congruence.
Qed.
Lemma pair_before_total a b : pair_before a b \/ pair_before b a.
Proof.
  unfold pair_before. destruct (String.eqb_spec (fst a) (fst b)) as [E|E].
  - destruct (str_before_total (snd a) (snd b)); [left|right]; split; auto; rewrite E; apply str_before_refl.
  - destruct (str_before_total (fst a) (fst b)); [left|right]; split; auto; intros; congruence.
Qed.
Lemma insert_pair_perm x l : Permutation (insert_pair x l) (x :: l).
Proof. induction l as [|y l IH]; cbn; auto. destruct (pair_le x y); auto. rewrite IH. constructor. Qed.
Lemma insert_pair_sorted x l : StronglySorted pair_before l -> StronglySorted pair_before (insert_pair x l).
Proof.
  induction l as [|y l IH]; cbn; intros H; [repeat constructor|]. inversion H as [|? ? Hl Hy]; subst. destruct (pair_le x y) eqn:E.
  - apply pair_le_spec in E. constructor; auto. constructor; auto. eapply Forall_impl; [|exact Hy]. intros z Hz. eapply pair_before_trans; eauto.
  - assert (Hyx : pair_before y x). { destruct (pair_before_total x y) as [H1|]; auto. apply pair_le_spec in H1. congruence. }
    constructor; auto. rewrite Forall_forall in *. intros z Hz. apply (Permutation_in _ (insert_pair_perm x l)) in Hz. destruct Hz as [<-|Hz]; auto.
Qed.
Lemma sort_pairs_perm l : Permutation (sort_pairs l) l.
Proof. induction l as [|x l IH]; cbn; auto. rewrite insert_pair_perm. now constructor. Qed.
Lemma sort_pairs_sorted l : StronglySorted pair_before (sort_pairs l).
Proof. induction l as [|x l IH]; cbn; [constructor|]. now apply insert_pair_sorted. Qed.

(** ** the list of elements *)
Definition dots (p : list string) : string := fold_right (fun k s => "." ++ k ++ s) "" p.
Definition row_text (tx : texts) (origin : string) (e : list string * pobj) : string * string := (origin ++ dots (fst e), entry_text tx (snd e)).
Lemma str_app_nil s : s ++ "" = s. Proof. induction s; cbn; congruence. Qed.
Definition show_all (tx : texts) (origin : string) : list (string * pobj) -> list (string * string) -> list (string * string) :=
  fix go l el := match l with [] => el | (k, w) :: l' => go l' (show_items tx w (origin ++ "." ++ k) el) end.
Lemma show_perm tx v : forall origin el, Permutation (show_items tx v origin el) (el ++ map (row_text tx origin) (paths v)).
Proof.
  induction v as [x|s|k sh d mk _|sh recs _|y items IH|l _|a b] using pobj_ind'; intros origin el.
  all: try (cbn [paths map row_text fst snd dots fold_right]; unfold row_text; cbn [fst snd dots fold_right]; rewrite str_app_nil; reflexivity).
  destruct y; [|cbn [paths map]; unfold row_text; cbn [fst snd dots fold_right]; rewrite str_app_nil; reflexivity].
  rewrite paths_dict. change (show_items tx (ODict true items) origin el) with (sort_pairs (show_all tx origin items el)). rewrite sort_pairs_perm.
  revert el. induction items as [|[k w] items IHi]; intros el; cbn [show_all item_paths flat_map map]; [now rewrite app_nil_r|].
  inversion IH as [|? ? IH1 IH2]; subst. cbn [snd] in IH1. fold (show_all tx origin). rewrite (IHi IH2), (IH1 (origin ++ "." ++ k) el), map_app, map_map, app_assoc. cbn [fst snd].
  apply Permutation_app_tail. apply Permutation_app_head. apply Permutation_refl'. apply map_ext. intros [p r]. unfold row_text. cbn [fst snd dots fold_right]. now rewrite !str_app_assoc.
Qed.
Lemma list_sorted tx b : StronglySorted pair_before (showmatbunch_list tx b).
Proof. apply sort_pairs_sorted. Qed.

Lemma dots_dotted p : p <> [] -> dots p = "." ++ dotted p.
Proof.
  induction p as [|k p IH]; intros H; [congruence|]. cbn [dots fold_right dotted]. f_equal. destruct p as [|k2 p]; [cbn; apply str_app_nil|].
  change (fold_right (fun k s => "." ++ k ++ s) "" (k2 :: p)) with (dots (k2 :: p)). rewrite IH by discriminate. reflexivity.
Qed.
Lemma entry_shown tx v : shown tx v (entry_text tx v).
Proof.
  destruct v as [x|s|k sh d [m|]|sh recs|y items|l|a b]; cbn [entry_text]; try (constructor; fail); try (apply sh_other; [intros [? ?]; discriminate|exact (fun f => f)]).
  destruct (Nat.ltb_spec (String.length s) 50); constructor; assumption.
Qed.
Lemma shown_fun tx v a b : shown tx v a -> shown tx v b -> a = b.
Proof.
  intros H K. inversion H; subst; inversion K; subst; try reflexivity; try lia; exfalso; match goal with N : ~ is_text _ |- _ => try (apply N; eexists; reflexivity) end;
    match goal with N : ~ is_array _ |- _ => apply N; exact I end.
Qed.

Lemma show_lemma tx b : tree_ok (ODict true b) -> forall text, showmatbunch tx b = Ok text ->
  exists rows lines w, NoDup (map (fun e => fst (fst e)) rows) /\
    (forall p v s, In (p, v, s) rows <-> leaf b p v /\ shown tx v s) /\
    StronglySorted (fun e e' => str_before (dotted (fst (fst e))) (dotted (fst (fst e'))) /\
      (dotted (fst (fst e)) = dotted (fst (fst e')) -> str_before (snd e) (snd e'))) rows /\
    column_width 40 (map (fun e => "." ++ dotted (fst (fst e))) rows) w /\
    Forall2 (fun e line => line_of w (dotted (fst (fst e))) (snd e) line) rows lines /\ text = String.concat "" lines.
Proof.
  intros T text H. unfold showmatbunch in H. cbv zeta in H.
  assert (P := show_perm tx (ODict true b) "" []). cbn [app] in P. change (show_items tx (ODict true b) "" []) with (showmatbunch_list tx b) in P.
  apply Permutation_map_inv in P. destruct P as (rs & E & P). assert (S := list_sorted tx b). rewrite E in H, S. clear E.
  rewrite map_map in H. destruct (nmax _) as [m|] eqn:M; [|discriminate]. cbn [bind] in H. injection H as <-.
  assert (NE : forall e, In e rs -> fst e <> []).
  { intros [p v] Hi. apply (Permutation_in _ (Permutation_sym P)), paths_spec in Hi. destruct Hi as [H1 H2]. cbn. intros ->. inversion H1; subst. apply H2. eexists; reflexivity. }
  set (row := fun e : list string * pobj => (e, entry_text tx (snd e))). exists (map row rs). rewrite map_map in *. rewrite !map_map. cbn [fst snd row].
  exists (map (fun e => ljust (Nat.min 40 m) (drop1 (dots (fst e))) ++ " : " ++ entry_text tx (snd e) ++ newline) rs), (Nat.min 40 m).
  split; [exact (Permutation_NoDup (Permutation_map fst P) (paths_nodup _ T))|]. split; [|split; [|split; [|split]]].
  - intros p v s. rewrite in_map_iff. unfold leaf. rewrite <- paths_spec. split.
    + intros ([p' v'] & K & Hi). unfold row in K. cbn in K. injection K as <- <- <-. split; [apply (Permutation_in _ (Permutation_sym P)); exact Hi|apply entry_shown].
    + intros [Hi Hs]. exists (p, v). split; [|apply (Permutation_in _ P); exact Hi]. unfold row. cbn. f_equal. exact (shown_fun _ _ _ _ (entry_shown _ _) Hs).
  - clear - S NE. induction rs as [|e rs IH]; [constructor|]. cbn [map] in *. inversion S as [|? ? S1 S2]; subst. constructor; [apply IH; [exact S1|intros; apply NE; now right]|].
    rewrite Forall_map in *. rewrite Forall_forall in *. intros e' He'. specialize (S2 e' He'). unfold pair_before, row_text in S2. cbn [fst snd append row] in *.
    rewrite (dots_dotted (fst e)), (dots_dotted (fst e')) in S2 by (apply NE; cbn; auto). destruct S2 as [S2 S3]. split.
    + inversion S2; subst; [lia|assumption].
    + intros E. apply S3. now rewrite E.
  - apply (nmax_width String.length); [reflexivity|]. rewrite <- M. rewrite map_map. f_equal. apply map_ext_in. intros e He. unfold row_text. cbn [fst append]. rewrite (dots_dotted _ (NE _ He)). reflexivity.
  - clear - NE. induction rs as [|e rs IH]; [constructor|]. cbn [map]. constructor; [|apply IH; intros; apply NE; now right].
    cbn [row fst snd]. rewrite (dots_dotted (fst e)) by (apply NE; now left). cbn [append drop1]. unfold ljust. exists (spaces (Nat.min 40 m - String.length (dotted (fst e)))).
    split; [apply spaces_blanks|]. split; [apply spaces_length|]. rewrite str_app_assoc. reflexivity.
  - f_equal.
Qed.
Lemma show_err tx b : (forall p v, ~ leaf b p v) <-> showmatbunch tx b = Err ValueError.
Proof.
  unfold showmatbunch. cbv zeta. assert (P := show_perm tx (ODict true b) "" []). cbn [app] in P. change (show_items tx (ODict true b) "" []) with (showmatbunch_list tx b) in P. split.
  - intros H. assert (E : paths (ODict true b) = []).
    { destruct (paths (ODict true b)) as [|[p v] l] eqn:E; [reflexivity|]. exfalso. apply (H p v). apply paths_spec. rewrite E. now left. }
    rewrite E in P. cbn [map] in P. apply Permutation_sym, Permutation_nil in P. now rewrite P.
  - intros H p v L. apply paths_spec in L. apply (in_map (row_text tx "")) in L. apply (Permutation_in _ (Permutation_sym P)) in L.
    destruct (showmatbunch_list tx b); [exact L|]. discriminate H.
Qed.
Lemma show_errors tx b e : showmatbunch tx b = Err e -> e = ValueError.
Proof.
  unfold showmatbunch. cbv zeta. destruct (map _ (showmatbunch_list tx b)) as [|x l]; cbn [nmax bind]; intros H; [now injection H as <-|discriminate H].
Qed.
