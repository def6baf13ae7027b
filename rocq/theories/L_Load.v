(** Lemmas about loaded files. *)
From Coq Require Import Ascii Lia Permutation Sorted.
From Verif Require Import M_Base M_Bunch M_Load S_Dict S_Load L_Base L_Bunch.
Open Scope nat_scope.
Open Scope string_scope.

(** induction over objects *)
Lemma pobj_ind' (P : pobj -> Prop) : (forall x, P (ONum x)) -> (forall s, P (OStr s)) -> (forall k sh d m, Forall P d -> P (OArr k sh d m)) ->
  (forall sh recs, Forall (Forall (fun e => P (snd e))) recs -> P (OVoid sh recs)) ->
  (forall y items, Forall (fun e => P (snd e)) items -> P (ODict y items)) ->
  (forall l, Forall P l -> P (OTuple l)) -> (forall a b, P (OOther a b)) -> forall o, P o.
Proof.
  intros H1 H2 H3 H4 H5 H6 H7. fix IH 1. intros [x|s|k sh d m|sh recs|y items|l|a b].
  - apply H1.
  - apply H2.
  - apply H3. induction d as [|e d IHd]; constructor; [apply IH|exact IHd].
  - apply H4. induction recs as [|r recs IHr]; constructor; [|exact IHr]. clear IHr. induction r as [|[k v] r IHr]; constructor; [apply IH|exact IHr].
  - apply H5. induction items as [|[k v] r IHr]; constructor; [apply IH|exact IHr].
  - apply H6. induction l as [|e d IHd]; constructor; [apply IH|exact IHd].
  - apply H7.
Qed.

(** building a dictionary entry by entry *)
Definition trav (f : pobj -> res pobj) : list (string * pobj) -> dict pobj -> res (dict pobj) :=
  fix go l acc := match l with [] => Ok acc | (k, v) :: l' => do w <- f v; go l' (dset acc k w) end.
Definition same_entry (f : pobj -> res pobj) (e e' : string * pobj) : Prop := fst e = fst e' /\ f (snd e) = Ok (snd e').
Lemma dset_new (d : dict pobj) k v : ~ In k (keys d) -> dset d k v = (d ++ [(k, v)])%list.
Proof.
  induction d as [|[k' v'] d IH]; intros H; cbn [dset app]; [reflexivity|]. cbn in H. destruct (String.eqb_spec k k'); [exfalso; apply H; left; congruence|].
  rewrite IH; [reflexivity|]. intros K. apply H. now right.
Qed.
Lemma keys_app {V} (a b : list (string * V)) : keys (a ++ b) = (keys a ++ keys b)%list.
Proof. apply map_app. Qed.
Lemma trav_ok f l : forall acc out, NoDup (keys acc ++ keys l) -> trav f l acc = Ok out ->
  exists ws, Forall2 (same_entry f) l ws /\ out = (acc ++ ws)%list.
Proof.
  induction l as [|[k v] l IH]; intros acc out ND H; cbn [trav] in H.
  - injection H as <-. exists []. rewrite app_nil_r. split; [constructor|reflexivity].
  - destruct (f v) as [w|] eqn:E; [|discriminate]. cbn [bind] in H. change (trav f l (dset acc k w) = Ok out) in H.
    assert (NI : ~ In k (keys acc)). { cbn [keys map fst] in ND. intros K. apply NoDup_remove_2 in ND. apply ND. rewrite in_app_iff. left. exact K. }
    rewrite dset_new in H by exact NI. apply IH in H.
    + destruct H as (ws & H1 & H2). exists ((k, w) :: ws). split; [constructor; [split; auto|exact H1]|]. rewrite H2, <- app_assoc. reflexivity.
    + rewrite keys_app. cbn [keys map fst]. rewrite <- app_assoc. exact ND.
Qed.
Lemma trav_total f l : (forall k v, In (k, v) l -> exists w, f v = Ok w) -> forall acc, exists out, trav f l acc = Ok out.
Proof.
  induction l as [|[k v] l IH]; intros H acc; cbn [trav]; [eauto|]. destruct (H k v (or_introl eq_refl)) as [w ->]. cbn [bind]. apply IH. intros; eapply H; right; eauto.
Qed.
Lemma trav_err f l e : forall acc, trav f l acc = Err e -> exists k v, In (k, v) l /\ f v = Err e.
Proof.
  induction l as [|[k v] l IH]; intros acc H; cbn [trav] in H; [discriminate|]. destruct (f v) as [w|e'] eqn:E; cbn [bind] in H.
  - destruct (IH _ H) as (k' & v' & K & K'). exists k', v'. split; [now right|exact K'].
  - injection H as <-. exists k, v. split; [now left|exact E].
Qed.
Lemma same_keys f l ws : Forall2 (same_entry f) l ws -> keys ws = keys l.
Proof. induction 1 as [|e e' l ws [H _] _ IH]; [reflexivity|]. unfold keys in *. cbn. now rewrite IH, H. Qed.
Lemma same_in f l ws k v : Forall2 (same_entry f) l ws -> In (k, v) l -> exists w, In (k, w) ws /\ f v = Ok w.
Proof.
  induction 1 as [|[k1 v1] [k2 v2] l ws [H H'] _ IH]; [intros []|]. cbn in H, H'. intros [K|K].
  - injection K as -> ->. exists v2. subst. split; [now left|exact H'].
  - destruct (IH K) as (w & K1 & K2). exists w. split; [now right|exact K2].
Qed.

(** ** one value *)
Lemma product_one shape : product shape = 1 <-> Forall (eq 1) shape.
Proof.
  induction shape as [|n s IH]; cbn; [split; auto|]. split.
  - intros H. apply Nat.eq_mul_1 in H. destruct H as [H1 H2]. constructor; [auto|]. apply IH. exact H2.
  - intros H. inversion H as [|? ? H1 H2]; subst. apply IH in H2. unfold product in H2. rewrite H2. reflexivity.
Qed.
Lemma squeeze_remove shape : squeeze shape = remove Nat.eq_dec 1 shape.
Proof.
  induction shape as [|n s IH]; [reflexivity|]. cbn [squeeze filter remove]. destruct (Nat.eqb_spec n 1) as [->|N]; cbn [negb].
  - destruct (Nat.eq_dec 1 1); [exact IH|lia].
  - destruct (Nat.eq_dec 1 n); [lia|]. f_equal. exact IH.
Qed.
Lemma invalid_spec o : invalid o = false <-> finite_number o.
Proof. destruct o as [[]| | | | | |]; cbn; intuition discriminate. Qed.
Lemma existsb_invalid d : existsb (fun b => b) (map invalid d) = false <-> Forall finite_number d.
Proof.
  induction d as [|x d IH]; cbn; [split; auto|]. rewrite Bool.orb_false_iff, IH, invalid_spec. split; [intros []; constructor; auto|inversion 1; auto].
Qed.
Lemma mask_spec d : Forall2 (fun x b => b = false <-> finite_number x) d (map invalid d).
Proof. induction d; constructor; auto. apply invalid_spec. Qed.

Lemma crunch_loaded m o w : well_formed o -> is_array o -> crunch m o = Ok w -> loaded m o w.
Proof.
  intros WF A H. specialize (WF [] o (fa_here o)). destruct o as [| |k sh d mk|sh recs| | |]; try contradiction; cbn in H.
  - fold (product sh) in H. change (asize sh) with (product sh) in H. destruct (Nat.eqb_spec (product sh) 1) as [E|E].
    + rewrite E in WF. destruct d as [|x [|]]; try discriminate. injection H as <-. constructor. now apply product_one.
    + rewrite product_one in E. destruct m; cbn [andb] in H; [|injection H as <-; rewrite squeeze_remove; apply ld_plain; auto].
      destruct k; [|injection H as <-; rewrite squeeze_remove; apply ld_plain; auto; right; left; discriminate..].
      destruct (existsb _ _) eqn:X; injection H as <-; rewrite squeeze_remove.
      * apply ld_masked; auto; [|apply mask_spec]. intros K. apply existsb_invalid in K. congruence.
      * apply ld_plain; auto. right; right. now apply existsb_invalid.
  - destruct WF as [WF _]. change (asize sh) with (product sh) in H. destruct (Nat.eqb_spec (product sh) 1) as [E|E].
    + rewrite E in WF. destruct recs as [|x [|]]; try discriminate. injection H as <-. constructor. now apply product_one.
    + injection H as <-. rewrite squeeze_remove. constructor. now rewrite <- product_one.
Qed.
Lemma crunch_total m o : well_formed o -> is_array o -> exists w, crunch m o = Ok w.
Proof.
  intros WF A. specialize (WF [] o (fa_here o)). destruct o as [| |k sh d mk|sh recs| | |]; try contradiction; cbn.
  - change (asize sh) with (product sh). destruct (Nat.eqb_spec (product sh) 1) as [E|E].
    + rewrite E in WF. destruct d; [discriminate|eauto].
    + destruct (m && _)%bool; [destruct (existsb _ _)|]; eauto.
  - destruct WF as [WF _]. change (asize sh) with (product sh). destruct (Nat.eqb_spec (product sh) 1) as [E|E]; [|eauto]. rewrite E in WF. destruct recs; [discriminate|eauto].
Qed.

(** ** structures *)
Definition struct_of (o : pobj) : option (list (string * pobj)) :=
  match o with OVoid [1; 1] [x] => Some x | _ => None end.
Lemma struct_of_spec o x : struct_of o = Some x <-> o = OVoid [1; 1] [x].
Proof.
  split; [|intros ->; reflexivity]. destruct o as [| | |sh recs| | |]; try discriminate. cbn.
  destruct sh as [|[|[|]] [|[|[|]] [|]]]; try discriminate. destruct recs as [|y [|]]; try discriminate. intros H. injection H as ->. reflexivity.
Qed.
Lemma stb_struct m x : structured_to_bunch m (OVoid [1; 1] [x]) = (do b <- trav (structured_to_bunch m) x []; Ok (ODict true b)).
Proof. reflexivity. Qed.
Lemma stb_other m o : struct_of o = None -> ~ is_text o -> structured_to_bunch m o = crunch m o.
Proof.
  intros H T. destruct o as [| | |sh recs| | |]; try reflexivity; [exfalso; apply T; eexists; reflexivity|].
  cbn in H. destruct sh as [|[|[|]] [|[|[|]] [|]]]; try reflexivity. destruct recs as [|y [|]]; try reflexivity. discriminate.
Qed.
Lemma wf_field o x k v : well_formed o -> o = OVoid [1; 1] [x] -> In (k, v) x -> well_formed v.
Proof. intros WF -> Hi p r H. apply (WF (k :: p)). econstructor; eauto. Qed.
Lemma wf_unique x : well_formed (OVoid [1; 1] [x]) -> unique_keys x.
Proof. intros WF. destruct (WF [] _ (fa_here _)) as [_ H]. now inversion H. Qed.

Lemma stb_paths m o : forall w, well_formed o -> structured_to_bunch m o = Ok w -> forall p r, file_at o p r -> exists q, bunch_at w p q /\ converted m r q.
Proof.
  induction o as [x|s|k sh d mk _|sh recs IH|y items _|l _|a b] using pobj_ind'; intros w WF H p r F.
  1, 5, 6, 7: discriminate H.
  - injection H as <-. inversion F; subst. exists (OStr s). split; [constructor|]. right. split; [intros [? ?]; discriminate|constructor].
  - inversion F; subst. exists w. split; [constructor|]. right. split; [intros [? ?]; discriminate|]. apply crunch_loaded; auto. exact I.
  - destruct (struct_of (OVoid sh recs)) as [x|] eqn:E.
    + apply struct_of_spec in E. injection E as -> ->. rewrite stb_struct in H. destruct (trav _ x []) as [bb|] eqn:T; [|discriminate]. injection H as <-.
      apply trav_ok in T; [|exact (wf_unique _ WF)]. destruct T as (ws & T1 & T2). cbn [app] in T2. subst bb.
      inversion F as [|k v x' p' r' Hi F']; subst.
      * exists (ODict true ws). split; [constructor|]. left. exists x, ws. split; [reflexivity|]. split; [reflexivity|]. exact (same_keys _ _ _ T1).
      * destruct (same_in _ _ _ _ _ T1 Hi) as (w & W1 & W2). inversion IH as [|? ? IHx _]; subst. rewrite Forall_forall in IHx.
        destruct (IHx _ Hi w (wf_field _ _ _ _ WF eq_refl Hi) W2 _ _ F') as (q & Q1 & Q2). exists q. split; [econstructor; eauto|exact Q2].
    + assert (NS : ~ is_struct (OVoid sh recs)) by (intros [x K]; apply struct_of_spec in K; congruence).
      rewrite stb_other in H by (auto; intros [? ?]; discriminate). inversion F as [|k v x' p' r' Hi F' K]; subst.
      * exists w. split; [constructor|]. right. split; [exact NS|]. apply crunch_loaded; auto. exact I.
      * exfalso. apply NS. eexists. reflexivity.
Qed.
Lemma stb_total m o : well_formed o -> (forall p r, file_at o p r -> is_text r \/ is_array r) -> exists w, structured_to_bunch m o = Ok w.
Proof.
  induction o as [x|s|k sh d mk _|sh recs IH|y items _|l _|a b] using pobj_ind'; intros WF H.
  1, 5, 6, 7: destruct (H [] _ (fa_here _)) as [[? K]|K]; [discriminate|contradiction].
  - eexists. reflexivity.
  - apply crunch_total; auto. exact I.
  - destruct (struct_of (OVoid sh recs)) as [x|] eqn:E.
    + apply struct_of_spec in E. injection E as -> ->. rewrite stb_struct. inversion IH as [|? ? IHx _]; subst. rewrite Forall_forall in IHx.
      destruct (trav_total (structured_to_bunch m) x) with (acc := @nil (string * pobj)) as [out ->]; [|cbn; eauto].
      intros k v Hi. apply (IHx _ Hi); [exact (wf_field _ _ _ _ WF eq_refl Hi)|]. intros p r F. apply (H (k :: p)). econstructor; eauto.
    + rewrite stb_other by (auto; intros [? ?]; discriminate). apply crunch_total; auto. exact I.
Qed.
Lemma stb_err m o : forall e, well_formed o -> structured_to_bunch m o = Err e -> e = AttributeError /\ exists p r, file_at o p r /\ ~ is_text r /\ ~ is_array r.
Proof.
  induction o as [x|s|k sh d mk _|sh recs IH|y items _|l _|a b] using pobj_ind'; intros e WF H.
  1, 5, 6, 7: injection H as <-; split; [reflexivity|]; eexists [], _; split; [constructor|]; split; [intros [? ?]; discriminate|exact (fun x => x)].
  - discriminate.
  - exfalso. destruct (crunch_total m _ WF I) as [w K]. cbn [structured_to_bunch] in H. congruence.
  - destruct (struct_of (OVoid sh recs)) as [x|] eqn:E.
    + apply struct_of_spec in E. injection E as -> ->. rewrite stb_struct in H. destruct (trav _ x []) as [bb|e'] eqn:T; [discriminate|]. cbn in H. injection H as ->.
      apply trav_err in T. destruct T as (k & v & Hi & T). inversion IH as [|? ? IHx _]; subst. rewrite Forall_forall in IHx.
      destruct (IHx _ Hi e (wf_field _ _ _ _ WF eq_refl Hi) T) as (-> & p & r & F & N). split; [reflexivity|]. exists (k :: p), r. split; [econstructor; eauto|exact N].
    + rewrite stb_other in H by (auto; intros [? ?]; discriminate). exfalso. destruct (crunch_total m _ WF I) as [w K]. congruence.
Qed.

(** ** files *)
Lemma ends_with_spec s suf : ends_with s suf = true <-> exists base, s = base ++ suf.
Proof.
  induction s as [|c s IH]; cbn [ends_with].
  - rewrite Bool.orb_false_r. split.
    + intros H. apply String.eqb_eq in H. exists "". exact H.
    + intros [base H]. destruct base; cbn in H; [|discriminate]. rewrite H. apply String.eqb_refl.
  - rewrite Bool.orb_true_iff, IH. split.
    + intros [H|[base ->]]; [apply String.eqb_eq in H; exists ""; exact H|exists (String c base); reflexivity].
    + intros [[|d base] H]; [left; cbn in H; rewrite H; apply String.eqb_refl|right]. cbn in H. injection H as -> ->. eauto.
Qed.
Lemma prefix_spec p : forall s, prefix_of p s = true <-> exists rest, s = p ++ rest.
Proof.
  induction p as [|c p IH]; intros s; cbn [prefix_of].
  - split; [intros _; exists s; reflexivity|reflexivity].
  - destruct s as [|d s]; [split; [discriminate|intros [? H]; discriminate]|]. rewrite Bool.andb_true_iff, IH. split.
    + intros [E [rest ->]]. apply Ascii.eqb_eq in E. subst d. exists rest. reflexivity.
    + intros [rest H]. cbn in H. injection H as -> ->. split; [apply Ascii.eqb_refl|eauto].
Qed.
Definition visible (kv : string * pobj) : bool := negb (prefix_of "__" (fst kv)).
Lemma loadbunch_eq mat npz fname m : loadbunch mat npz fname m =
  (do xx <- (if ends_with fname ".mat" then mat fname else if ends_with fname ".npz" then npz fname else Err ValueError);
   trav (structured_to_bunch m) (filter visible xx) []).
Proof. reflexivity. Qed.
Lemma visible_spec k v : visible (k, v) = true <-> ~ hidden k.
Proof.
  unfold visible. cbn [fst]. rewrite Bool.negb_true_iff. unfold hidden. rewrite <- prefix_spec. destruct (prefix_of "__" k); intuition congruence.
Qed.
Lemma unique_filter (f : string * pobj -> bool) xx : unique_keys xx -> unique_keys (filter f xx).
Proof.
  unfold unique_keys, keys. induction xx as [|e xx IH]; intros H; [exact H|]. inversion H as [|? ? N ND]; subst. cbn. destruct (f e); cbn; [|auto].
  constructor; [|auto]. intros K. apply N. rewrite in_map_iff in *. destruct K as (z & Z1 & Z2). apply filter_In in Z2. exists z. tauto.
Qed.
Lemma mat_not_npz base base' : base ++ ".mat" <> base' ++ ".npz".
Proof.
  intros H. revert base' H. induction base as [|c b IH]; intros [|c' b'] H; cbn in H; try discriminate.
  - destruct b' as [|? [|? [|? [|? b']]]]; discriminate.
  - destruct b as [|? [|? [|? [|? b]]]]; discriminate.
  - injection H as _ H. exact (IH _ H).
Qed.
Lemma contents_spec mat npz fname xx : file_contents mat npz fname xx <->
  (if ends_with fname ".mat" then mat fname else if ends_with fname ".npz" then npz fname else Err ValueError) = Ok xx.
Proof.
  unfold file_contents. destruct (ends_with fname ".mat") eqn:E1; [|destruct (ends_with fname ".npz") eqn:E2].
  - apply ends_with_spec in E1. destruct E1 as [b E]. split; [|left; exists b; auto]. intros [(b' & _ & H)|(b' & H & _)]; [exact H|]. exfalso. rewrite E in H. exact (mat_not_npz _ _ H).
  - apply ends_with_spec in E2. destruct E2 as [b E]. split; [|right; exists b; auto]. intros [(b' & H & _)|(b' & _ & H)]; [|exact H]. exfalso. rewrite E in H. exact (mat_not_npz _ _ (eq_sym H)).
  - split; [|discriminate]. intros [(b & H & _)|(b & H & _)]; exfalso; [assert (ends_with fname ".mat" = true) by (apply ends_with_spec; eauto)|assert (ends_with fname ".npz" = true) by (apply ends_with_spec; eauto)]; congruence.
Qed.

Lemma load_contents mat npz fname m xx out : file_contents mat npz fname xx -> unique_keys xx -> (forall k v, entry xx k v -> well_formed v) ->
  loadbunch mat npz fname m = Ok out ->
  keys out = filter (fun k => negb (String.prefix "__" k)) (keys xx) /\
  forall k v, entry xx k v -> ~ hidden k -> exists w, entry out k w /\
    forall p r, file_at v p r -> exists q, bunch_at w p q /\ converted m r q.
Proof.
  intros FC UK WF H. rewrite loadbunch_eq in H. apply contents_spec in FC. rewrite FC in H. cbn [bind] in H.
  apply trav_ok in H; [|exact (unique_filter _ _ UK)]. destruct H as (ws & H1 & ->). cbn [app]. split.
  - rewrite (same_keys _ _ _ H1). clear. symmetry.
    + induction xx as [|[k v] xx IH]; [reflexivity|]. cbn [keys map fst filter]. replace (visible (k, v)) with (negb (String.prefix "__" k)).
      * destruct (String.prefix "__" k); cbn [negb keys map fst]; fold (keys xx); fold (keys (filter visible xx)); rewrite IH; reflexivity.
      * unfold visible. cbn [fst]. f_equal. destruct (prefix_of "__" k) eqn:E.
        { apply prefix_spec in E. destruct E as [r ->]. destruct r; reflexivity. }
        { destruct (String.prefix "__" k) eqn:E2; [|reflexivity]. exfalso. destruct k as [|a [|b k]]; cbn [String.prefix] in E2; [discriminate E2|destruct (ascii_dec "_" a); discriminate E2|].
          destruct (ascii_dec "_" a) as [<-|]; [|discriminate E2]. destruct (ascii_dec "_" b) as [<-|]; [|discriminate E2]. discriminate E. }
  - intros k v He Hh. assert (Hi : In (k, v) (filter visible xx)) by (apply filter_In; split; [exact He|apply visible_spec; exact Hh]).
    destruct (same_in _ _ _ _ _ H1 Hi) as (w & W1 & W2). exists w. split; [exact W1|]. intros p r F. exact (stb_paths _ _ _ (WF _ _ He) W2 _ _ F).
Qed.
Lemma load_succeeds mat npz fname m xx : file_contents mat npz fname xx -> unique_keys xx -> (forall k v, entry xx k v -> well_formed v) ->
  (forall k v p r, entry xx k v -> ~ hidden k -> file_at v p r -> is_text r \/ is_array r) -> exists out, loadbunch mat npz fname m = Ok out.
Proof.
  intros FC UK WF H. rewrite loadbunch_eq. apply contents_spec in FC. rewrite FC. cbn [bind]. apply trav_total. intros k v Hi. apply filter_In in Hi. destruct Hi as [Hi Hv].
  apply visible_spec in Hv. apply stb_total; [exact (WF _ _ Hi)|]. intros p r F. exact (H _ _ _ _ Hi Hv F).
Qed.
Lemma load_fails mat npz fname m e : (forall xx, file_contents mat npz fname xx -> unique_keys xx /\ forall k v, entry xx k v -> well_formed v) ->
  loadbunch mat npz fname m = Err e ->
  ((forall base, fname <> base ++ ".mat" /\ fname <> base ++ ".npz") /\ e = ValueError) \/
  ((exists base, fname = base ++ ".mat") /\ mat fname = Err e) \/ ((exists base, fname = base ++ ".npz") /\ npz fname = Err e) \/
  (e = AttributeError /\ exists xx k v p r, file_contents mat npz fname xx /\ entry xx k v /\ ~ hidden k /\ file_at v p r /\ ~ is_text r /\ ~ is_array r).
Proof.
  intros WF H. rewrite loadbunch_eq in H.
  destruct (if ends_with fname ".mat" then _ else _) as [xx|e'] eqn:E; cbn [bind] in H.
  - right; right; right. assert (FC : file_contents mat npz fname xx) by (apply contents_spec; exact E). destruct (WF _ FC) as [UK W].
    apply trav_err in H. destruct H as (k & v & Hi & H). apply filter_In in Hi. destruct Hi as [Hi Hv]. apply visible_spec in Hv.
    destruct (stb_err _ _ _ (W _ _ Hi) H) as (-> & p & r & F & N). split; [reflexivity|]. exists xx, k, v, p, r. auto.
  - injection H as <-. destruct (ends_with fname ".mat") eqn:E1; [|destruct (ends_with fname ".npz") eqn:E2].
    + right; left. apply ends_with_spec in E1. auto.
    + right; right; left. apply ends_with_spec in E2. auto.
    + left. injection E as <-. split; [|reflexivity]. intros base. split; intros K; [assert (ends_with fname ".mat" = true) by (apply ends_with_spec; eauto)|assert (ends_with fname ".npz" = true) by (apply ends_with_spec; eauto)]; congruence.
Qed.
