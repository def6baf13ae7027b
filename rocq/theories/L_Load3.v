(** Clean-up of string arrays. *)
From Coq Require Import Ascii Lia Permutation Sorted.
From Verif Require Import M_Base M_Bunch M_Tables M_Const M_Load S_Dict S_Load L_Base L_Bunch L_Load.
Open Scope nat_scope.
Open Scope string_scope.

Lemma is_space_spec c : is_space c = true <-> white_space c.
Proof.
  unfold is_space, white_space. set (n := nat_of_ascii c). clearbody n. cbv zeta.
  rewrite !Bool.orb_true_iff, !Bool.andb_true_iff, !Nat.leb_le, !Nat.eqb_eq. cbn [In]. lia.
Qed.
Lemma snoc_inj a : forall c b d, a ++ String c "" = b ++ String d "" -> c = d.
Proof.
  induction a as [|x a IH]; intros c [|y b] d H; cbn in H; try (injection H as H; congruence).
  - injection H as _ H. destruct b; discriminate.
  - injection H as _ H. destruct a; discriminate.
  - injection H as _ H. eauto.
Qed.
Lemma py_rstrip_spec s : stripped s (py_rstrip s).
Proof.
  induction s as [|c s IH]; cbn [py_rstrip].
  - split; [exists ""; split; [reflexivity|constructor]|]. intros [|? a] c H; discriminate.
  - destruct IH as [(ws & E & W) N]. destruct (py_rstrip s) as [|d r].
    + cbn in E. subst ws. destruct (is_space c) eqn:S.
      * split; [exists (String c s); split; [reflexivity|]; constructor; [now apply is_space_spec|exact W]|]. intros [|? a] d H; discriminate.
      * split; [exists s; split; [reflexivity|exact W]|]. intros a d H. assert (c = d).
        { apply (snoc_inj "" c a d). exact H. }
        subst d. rewrite <- is_space_spec. congruence.
    + split; [exists ws; split; [cbn; f_equal; exact E|exact W]|]. intros [|x a] e H; [discriminate|]. cbn in H. injection H as _ H. exact (N a e H).
Qed.
Lemma stripped_fix s t : stripped s t -> stripped t t.
Proof. intros [_ H]. split; [exists ""; split; [clear; induction t; cbn; congruence|constructor]|exact H]. Qed.
Lemma white_app a b : all_white (a ++ b) -> all_white b.
Proof. induction a as [|c a IH]; intros H; [exact H|]. inversion H; auto. Qed.
Lemma snoc_cases s : s = "" \/ exists a c, s = a ++ String c "".
Proof. induction s as [|c s [->|(a & d & ->)]]; [left; reflexivity|right; exists "", c; reflexivity|right; exists (String c a), d; reflexivity]. Qed.
Lemma white_tail a c b : all_white b -> forall t, t ++ b = a ++ String c "" -> b = "" \/ white_space c.
Proof.
  intros W t E. destruct (snoc_cases b) as [->|(x & d & ->)]; [auto|]. right. rewrite <- str_app_assoc in E. apply snoc_inj in E. subst d.
  apply white_app in W. now inversion W.
Qed.
Lemma app_len a b : String.length (a ++ b) = String.length a + String.length b.
Proof. induction a; cbn; auto. Qed.
Lemma app_prefix a : forall b x y, a ++ x = b ++ y -> String.length a <= String.length b -> exists m, b = a ++ m /\ x = m ++ y.
Proof.
  induction a as [|c a IH]; intros b x y E L; [exists b; auto|]. destruct b as [|d b]; [cbn in L; lia|]. cbn in E. injection E as -> E. cbn in L.
  destruct (IH b x y E ltac:(lia)) as (m & -> & ->). exists m. auto.
Qed.
Lemma stripped_le s t u : stripped s t -> stripped s u -> String.length t <= String.length u -> t = u.
Proof.
  intros [(ws & E & W) N] [(ws' & E' & W') N'] L. rewrite E in E'. destruct (app_prefix _ _ _ _ E' L) as (m & -> & ->).
  destruct (snoc_cases m) as [->|(a & c & ->)]; [clear; induction t; cbn; congruence|]. exfalso. apply (N' (t ++ a) c); [symmetry; apply str_app_assoc|].
  rewrite str_app_assoc in W. apply white_app in W. now inversion W.
Qed.
Lemma stripped_unique s t u : stripped s t -> stripped s u -> t = u.
Proof. intros H K. destruct (Nat.le_ge_cases (String.length t) (String.length u)); [eapply stripped_le; eauto|symmetry; eapply stripped_le; eauto]. Qed.
Lemma rstrip_idem s : py_rstrip (py_rstrip s) = py_rstrip s.
Proof. apply (stripped_unique (py_rstrip s)); [apply py_rstrip_spec|]. apply (stripped_fix s), py_rstrip_spec. Qed.

Lemma strip_obj_spec o : stripped_obj o (strip_obj o).
Proof. destruct o; cbn; try (apply so_other; intros [? ?]; discriminate). constructor. apply py_rstrip_spec. Qed.
Lemma unbox_spec o : unboxed o (unbox o).
Proof.
  destruct o as [| |k sh d m| | | |]; cbn; try (apply ub_other; intros; discriminate).
  destruct k; try (apply ub_other; intros; discriminate). destruct d as [|s [|]]; try (apply ub_other; intros; discriminate).
  change (asize sh) with (product sh). destruct (Nat.eqb_spec (product sh) 1) as [E|E].
  - constructor. now apply product_one.
  - apply ub_other. intros sh' s' m' K. injection K as <- _ _. now rewrite <- product_one.
Qed.
Lemma forall2_map_r {A B} (P : A -> B -> Prop) f l : (forall x, P x (f x)) -> Forall2 P l (map f l).
Proof. intros H. induction l; constructor; auto. Qed.

Lemma convert_dict y items : convert_value (ODict y items) = (do b <- trav convert_value items []; Ok (ODict true b)).
Proof. reflexivity. Qed.
Lemma dicts_item y items k v : dicts_ok (ODict y items) -> In (k, v) items -> dicts_ok v.
Proof. intros T Hi p z it H. apply (T (k :: p) z). econstructor; eauto. Qed.

Lemma convert_cleaned v : forall w, dicts_ok v -> convert_value v = Ok w -> cleaned v w.
Proof.
  induction v as [x|s|k sh d mk _|sh recs _|y items IH|l _|a b] using pobj_ind'; intros w D H.
  all: try (injection H as <-; apply cl_other; exact I).
  - destruct k.
    + injection H as <-. apply cl_other. exact I.
    + cbn in H. destruct sh as [|n [|n' sh]]; injection H as <-; [apply cl_other; exact I| |apply cl_other; exact I].
      constructor. apply forall2_map_r, strip_obj_spec.
    + cbn in H. destruct sh as [|n [|n' sh]]; [discriminate| |]; injection H as <-; constructor. apply forall2_map_r, unbox_spec.
    + injection H as <-. apply cl_other. exact I.
  - rewrite convert_dict in H. destruct (trav convert_value items []) as [bb|] eqn:T; [|discriminate]. injection H as <-.
    apply trav_ok in T; [|exact (D [] y items (da_here _))]. destruct T as (ws & T & ->). cbn [app]. constructor.
    assert (DI := fun k v => dicts_item _ _ k v D). clear D. induction T as [|e e' items ws [H1 H2] T IHT]; constructor.
    + split; [exact H1|]. inversion IH as [|? ? IH1 _]; subst. apply IH1; [|exact H2]. destruct e. eapply DI. left. reflexivity.
    + inversion IH; subst. apply IHT; auto. intros. eapply DI. right. eauto.
Qed.
Lemma convert_total v : (forall p d m, ~ dict_at v p (OArr KObj [] d m)) -> exists w, convert_value v = Ok w.
Proof.
  induction v as [x|s|k sh d mk _|sh recs _|y items IH|l _|a b] using pobj_ind'; intros H; try (eexists; reflexivity).
  - destruct k; try (eexists; reflexivity).
    + destruct sh as [|? [|]]; eexists; reflexivity.
    + destruct sh as [|? [|]]; try (eexists; reflexivity). exfalso. eapply H. constructor.
  - rewrite convert_dict. destruct (trav_total convert_value items) with (acc := @nil (string * pobj)) as [out ->]; [|eexists; reflexivity].
    intros k v Hi. rewrite Forall_forall in IH. apply (IH _ Hi). intros p d m K. apply (H (k :: p) d m). econstructor; eauto.
Qed.
Lemma convert_err v : forall e, convert_value v = Err e -> e = TypeError /\ exists p d m, dict_at v p (OArr KObj [] d m).
Proof.
  induction v as [x|s|k sh d mk _|sh recs _|y items IH|l _|a b] using pobj_ind'; intros e H; try discriminate.
  - destruct k; try discriminate; destruct sh as [|? [|]]; try discriminate. injection H as <-. split; [reflexivity|]. exists [], d, mk. constructor.
  - rewrite convert_dict in H. destruct (trav convert_value items []) as [|e'] eqn:T; [discriminate|]. injection H as ->. apply trav_err in T.
    destruct T as (k & v & Hi & T). rewrite Forall_forall in IH. destruct (IH _ Hi _ T) as (E & p & d & m & K). split; [exact E|]. exists (k :: p), d, m. econstructor; eauto.
Qed.

(** ** a second clean-up changes nothing *)
Lemma strings_ok_unbox x : unbox (unbox x) = unbox x \/ exists sh s m, x = OArr KText sh [s] m /\ ~ is_text s.
Proof.
  destruct x as [| |k sh d m| | | |]; try (left; reflexivity). destruct k; try (left; reflexivity). destruct d as [|s [|]]; try (left; reflexivity).
  cbn [unbox]. destruct (Nat.eqb (asize sh) 1) eqn:E; [|left; cbn [unbox]; rewrite E; reflexivity].
  destruct s as [|s| | | | |]; try (right; eexists _, _, _; split; [reflexivity|intros [? ?]; discriminate]). left. reflexivity.
Qed.
Lemma strip_unbox d : Forall is_text d -> map unbox (map strip_obj d) = map strip_obj d.
Proof. induction 1 as [|x l [s ->] _ IH]; [reflexivity|]. cbn [map strip_obj unbox]. now rewrite IH. Qed.
Lemma unbox_twice d : (fix all (l : list pobj) : Prop := match l with [] => True | x :: l' => texts_ok x /\ all l' end) d -> map unbox (map unbox d) = map unbox d.
Proof.
  induction d as [|x d IH]; intros H; [reflexivity|]. destruct H as [H1 H2]. cbn [map]. rewrite (IH H2). f_equal.
  destruct (strings_ok_unbox x) as [E|(sh & s & m & -> & N)]; [exact E|]. exfalso. cbn in H1. inversion H1; subst. contradiction.
Qed.
Lemma unique_same f l ws : Forall2 (same_entry f) l ws -> unique_keys l -> unique_keys ws.
Proof. intros H U. unfold unique_keys. now rewrite (same_keys _ _ _ H). Qed.
Lemma trav_fixed f ws : unique_keys ws -> Forall (fun e => f (snd e) = Ok (snd e)) ws -> trav f ws [] = Ok ws.
Proof.
  intros U H. destruct (trav_total f ws) with (acc := @nil (string * pobj)) as [out E].
  { intros k v Hi. rewrite Forall_forall in H. exists v. exact (H _ Hi). }
  rewrite E. apply trav_ok in E; [|exact U]. destruct E as (ws' & E & ->). cbn [app]. f_equal. clear U. induction E as [|[k v] [k' v'] l l' [E1 E2] E IH]; [reflexivity|].
  inversion H as [|? ? H1 H2]; subst. cbn in *. rewrite (IH H2). congruence.
Qed.
Lemma convert_idem v : forall w, dicts_ok v -> texts_ok v -> convert_value v = Ok w -> convert_value w = Ok w.
Proof.
  induction v as [x|s|k sh d mk _|sh recs _|y items IH|l _|a b] using pobj_ind'; intros w D T H.
  all: try (injection H as <-; reflexivity).
  - destruct k.
    + injection H as <-. reflexivity.
    + cbn in H. destruct sh as [|n [|n' sh]]; injection H as <-; try reflexivity. cbn [convert_value]. cbn in T. now rewrite strip_unbox.
    + cbn in H. destruct sh as [|n [|n' sh]]; [discriminate| |]; injection H as <-; try reflexivity. cbn [convert_value]. cbn in T. now rewrite unbox_twice.
    + injection H as <-. reflexivity.
  - rewrite convert_dict in H. destruct (trav convert_value items []) as [bb|] eqn:E; [|discriminate]. injection H as <-.
    assert (U := D [] y items (da_here _)). apply trav_ok in E; [|exact U]. destruct E as (ws & E & ->). cbn [app]. rewrite convert_dict.
    rewrite trav_fixed; [reflexivity|exact (unique_same _ _ _ E U)|]. assert (DI := fun k v => dicts_item _ _ k v D). clear D U.
    induction E as [|[k v] [k' v'] items ws [H1 H2] E IHE]; constructor.
    + cbn in *. destruct T as [T1 T2]. inversion IH as [|? ? IH1 _]; subst. apply (IH1 v'); auto. eapply DI. left. reflexivity.
    + cbn in T. destruct T as [T1 T2]. inversion IH; subst. apply IHE; auto. intros. eapply DI. right. eauto.
Qed.
Lemma convert_top b out : convert_unicode_arrays b = Ok out <-> convert_value (ODict false b) = Ok (ODict true out).
Proof.
  unfold convert_unicode_arrays. rewrite convert_dict. destruct (trav convert_value b []); cbn; [|split; discriminate]. split; intros H; injection H as ->; reflexivity.
Qed.
Lemma convert_top_err b e : convert_unicode_arrays b = Err e <-> convert_value (ODict false b) = Err e.
Proof. unfold convert_unicode_arrays. rewrite convert_dict. destruct (trav convert_value b []); cbn; split; intros H; try discriminate; injection H as ->; reflexivity. Qed.

(** ** the constants *)
Lemma names_stripped : map strip_obj (map OStr const_name_raw) = map OStr const_name.
Proof. vm_compute. reflexivity. Qed.
Lemma float_kept k sh d m : k = KFloat \/ k = KOther -> convert_value (OArr k sh d m) = Ok (OArr k sh d m).
Proof. intros [-> | ->]; reflexivity. Qed.
Lemma file_dict_single o p r : ~ is_struct o -> file_at o p r -> p = [] /\ r = o.
Proof. intros N H. inversion H; subst; [auto|]. exfalso. apply N. eexists. reflexivity. Qed.
Lemma entry_in_same f l ws k w : Forall2 (same_entry f) l ws -> unique_keys l -> In (k, w) ws -> exists v, In (k, v) l /\ f v = Ok w.
Proof.
  induction 1 as [|[k1 v1] [k2 v2] l ws [H H'] _ IH]; intros U; [intros []|]. cbn in H, H'. inversion U; subst. intros [K|K].
  - injection K as -> ->. exists v1. split; [now left|exact H'].
  - destruct (IH ltac:(assumption) K) as (v & K1 & K2). exists v. split; [now right|exact K2].
Qed.
Lemma in_unique {V} (d : list (string * V)) k v w : unique_keys d -> In (k, v) d -> In (k, w) d -> v = w.
Proof.
  unfold unique_keys, keys. induction d as [|[k' v'] d IH]; intros U; [intros []|]. cbn in U. inversion U as [|? ? N ND]; subst. intros [H|H] [K|K].
  - congruence.
  - injection H as -> ->. exfalso. apply N. apply in_map_iff. exists (k, w). auto.
  - injection K as -> ->. exfalso. apply N. apply in_map_iff. exists (k, v). auto.
  - auto.
Qed.
Lemma constants_loaded mat npz xx d out out' : npz "ut_constants.npz" = Ok xx -> unique_keys xx -> entry xx "const" (OArr KObj [] [d] None) ->
  forall items, d = ODict true items -> unique_keys items -> entry items "name" (OArr KText [146] (map OStr const_name_raw) None) ->
  loadbunch mat npz "ut_constants.npz" false = Ok out -> convert_unicode_arrays out = Ok out' ->
  exists items', entry out' "const" (ODict true items') /\ keys items' = keys items /\
    entry items' "name" (OArr KObj [146] (map OStr const_name) None) /\
    forall k sh data m, entry items k (OArr KFloat sh data m) -> entry items' k (OArr KFloat sh data m).
Proof.
  intros Hx UX Hc items -> UI Hn Hl Hv. rewrite loadbunch_eq in Hl. change (ends_with "ut_constants.npz" ".mat") with false in Hl. change (ends_with "ut_constants.npz" ".npz") with true in Hl.
  cbv iota in Hl. rewrite Hx in Hl. cbn [bind] in Hl. assert (UF := unique_filter visible xx UX). apply trav_ok in Hl; [|exact UF]. destruct Hl as (ws & F & ->). cbn [app] in *.
  assert (Hi : In ("const", OArr KObj [] [ODict true items] None) (filter visible xx)) by (apply filter_In; split; [exact Hc|reflexivity]).
  destruct (same_in _ _ _ _ _ F Hi) as (w & W1 & W2). cbn in W2. injection W2 as <-.
  apply convert_top in Hv. rewrite convert_dict in Hv. destruct (trav convert_value ws []) as [bb|] eqn:T; [|discriminate]. injection Hv as ->.
  apply trav_ok in T; [|exact (unique_same _ _ _ F UF)]. destruct T as (vs & G & ->). cbn [app].
  destruct (same_in _ _ _ _ _ G W1) as (z & Z1 & Z2). rewrite convert_dict in Z2. destruct (trav convert_value items []) as [ii|] eqn:T2; [|discriminate]. injection Z2 as <-.
  apply trav_ok in T2; [|exact UI]. destruct T2 as (is' & G2 & ->). cbn [app] in *. exists is'. split; [exact Z1|]. split; [exact (same_keys _ _ _ G2)|]. split.
  - destruct (same_in _ _ _ _ _ G2 Hn) as (z & Y1 & Y2). cbn [convert_value] in Y2. rewrite names_stripped in Y2. injection Y2 as <-. exact Y1.
  - intros k sh data m He. destruct (same_in _ _ _ _ _ G2 He) as (z & Y1 & Y2). rewrite float_kept in Y2 by auto. injection Y2 as <-. exact Y1.
Qed.
Lemma clean_lemma b out : dicts_ok (ODict false b) -> convert_unicode_arrays b = Ok out -> cleaned (ODict false b) (ODict true out).
Proof. intros D H. apply convert_cleaned; [exact D|]. now apply convert_top. Qed.
Lemma clean_errors b : ((exists e, convert_unicode_arrays b = Err e) <-> exists p d m, dict_at (ODict false b) p (OArr KObj [] d m)) /\
  forall e, convert_unicode_arrays b = Err e -> e = TypeError.
Proof.
  split; [|intros e H; apply convert_top_err, convert_err in H; tauto]. split.
  - intros [e H]. apply convert_top_err, convert_err in H. tauto.
  - intros (p & d & m & H). destruct (convert_unicode_arrays b) as [out|e] eqn:E; [exfalso|eauto]. apply convert_top in E.
    assert (G : forall v p, dict_at v p (OArr KObj [] d m) -> forall w, convert_value v <> Ok w).
    { clear. induction v as [x|s|k sh d' mk _|sh recs _|y items IH|l _|a b] using pobj_ind'; intros p H w E.
      1, 2, 4, 6, 7: inversion H.
      - inversion H; subst. discriminate.
      - inversion H as [|z k v it p' r Hi F]; subst. rewrite Forall_forall in IH. rewrite convert_dict in E. destruct (trav convert_value items []) as [bb|] eqn:T; [|discriminate].
        assert (N := IH _ Hi _ F). cbn [snd] in N. clear - T Hi N. revert T. generalize (@nil (string * pobj)). induction items as [|[k' v'] items IH]; intros acc T; [contradiction|].
        cbn [trav] in T. destruct (convert_value v') as [x|] eqn:X; [|discriminate]. cbn [bind] in T. destruct Hi as [Hi|Hi]; [injection Hi as -> ->; exact (N _ X)|exact (IH Hi _ T)]. }
    exact (G _ _ H _ E).
Qed.
Lemma clean_idem b out : dicts_ok (ODict false b) -> texts_ok (ODict false b) -> convert_unicode_arrays b = Ok out -> convert_unicode_arrays out = Ok out.
Proof.
  intros D T H. apply convert_top in H. assert (K := convert_idem _ _ D T H). apply convert_top. rewrite <- K. reflexivity.
Qed.
Lemma single_lemma : exists b out w, entry b "name" (OArr KText [1] [OStr "M2"] None) /\
  convert_unicode_arrays b = Ok out /\ entry out "name" w /\ ~ is_text w.
Proof. exists [("name", OArr KText [1] [OStr "M2"] None)]. do 2 eexists. split; [now left|]. split; [reflexivity|]. split; [now left|]. intros [? ?]. discriminate. Qed.
Lemma white_lemma : exists b out s, entry b "name" (OArr KObj [1] [OArr KText [1] [OStr s] None] None) /\
  convert_unicode_arrays b = Ok out /\ entry out "name" (OArr KObj [1] [OStr s] None) /\ ~ stripped s s.
Proof.
  exists [("name", OArr KObj [1] [OArr KText [1] [OStr "M2 "] None] None)]. eexists. exists "M2 ". split; [now left|]. split; [reflexivity|]. split; [now left|].
  intros [_ H]. apply (H "M2" " "%char eq_refl). cbn. tauto.
Qed.
