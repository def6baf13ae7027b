(** Proofs about option processing (utide/_solve.py:16-119). *)
From Coq Require Import Lia Lra.
From Verif Require Import M_Base M_Bunch M_Options S_Dict S_Options L_Base L_Bunch.
Open Scope R_scope.
Open Scope string_scope.

(** executable version of [setting] *)
Definition opt_value (opts : dict pyval) (k : string) : pyval :=
  match dget opts k with Some v => v | None => oget documented k end.

Lemma documented_unique : unique_keys documented.
Proof. unfold unique_keys. simpl. repeat constructor; simpl; intuition discriminate. Qed.

Lemma default_same_keys k : In k (keys default_opts) <-> In k (keys documented).
Proof. simpl. intuition. Qed.

Lemma default_unique : unique_keys default_opts.
Proof. unfold unique_keys. simpl. repeat constructor; simpl; intuition discriminate. Qed.

Lemma default_documented k : oget default_opts k = oget documented k.
Proof.
  unfold oget. simpl.
  repeat match goal with |- context [String.eqb k ?s] => destruct (String.eqb_spec k s); [subst k; simpl; reflexivity|] end.
  reflexivity.
Qed.

Lemma setting_iff opts k v : unique_keys opts -> In k (keys documented) ->
  (setting opts k v <-> v = opt_value opts k).
Proof.
  intros Hu Hk. unfold setting, opt_value, entry, oget.
  change (keys opts) with (dkeys opts). rewrite <- dget_None.
  rewrite <- (dget_In opts k v Hu).
  rewrite <- (dget_In documented k v documented_unique).
  destruct (dget opts k) as [p|]; [intuition congruence|].
  destruct (dget documented k) eqn:E; [intuition congruence|].
  apply dget_None in E. tauto.
Qed.

Lemma setting_value opts k : unique_keys opts -> In k (keys documented) ->
  setting opts k (opt_value opts k).
Proof. intros. now apply setting_iff. Qed.

Lemma setting_keys opts k v : setting opts k v -> In k (keys opts) \/ In k (keys documented).
Proof. intros [H|[_ H]]; apply (in_map fst) in H; auto. Qed.

Definition unknown (opts : dict pyval) : Prop :=
  exists k, In k (keys opts) /\ ~ In k (keys documented).

Definition known_b (opts : dict pyval) : bool :=
  forallb (fun k => existsb (String.eqb k) (keys documented)) (keys opts).

Lemma known_b_false opts : known_b opts = false <-> unknown opts.
Proof.
  unfold known_b, unknown. generalize (keys documented) as D. intros D.
  induction (keys opts) as [|k l IH]; simpl.
  - split; [discriminate|]. intros (k & [] & _).
  - destruct (existsb (String.eqb k) D) eqn:E; cbn [andb].
    + rewrite IH. apply existsb_eqb_In in E. split.
      * intros (x & H1 & H2). exists x. split; [now right|auto].
      * intros (x & [<-|H1] & H2); [tauto|]. eauto.
    + split; auto. intros _. exists k. split; [now left|]. intros H.
      apply existsb_eqb_In in H. congruence.
Qed.

Lemma oget_dset d k k' v : oget (dset d k v) k' = if String.eqb k' k then v else oget d k'.
Proof. unfold oget. rewrite dget_dset. now destruct (String.eqb k' k). Qed.

Lemma given_single {V} (d : dict V) k v : given [d] k v <-> entry d k v.
Proof.
  split.
  - intros (b & e & a & Heq & He & _). destruct b as [|x b]; simpl in Heq.
    + now injection Heq as <- _.
    + injection Heq as _ Heq. now destruct b.
  - intros H. exists [], d, []. repeat split; auto.
Qed.

Lemma not_given_single {V} (d : dict V) k : not_given [d] k <-> ~ In k (keys d).
Proof.
  unfold not_given. split; [intros H; apply H; now left|]. intros H e [<-|[]]; auto.
Qed.

Lemma without_dset {V} (d : dict V) k v : ~ In k (keys d) -> without k (dset d k v) = d.
Proof.
  intros H. induction d as [|[k' v'] d IH]; simpl in *.
  - now rewrite String.eqb_refl.
  - destruct (String.eqb_spec k k') as [->|Hn]; [tauto|]. simpl.
    destruct (String.eqb_spec k' k) as [->|_]; [congruence|]. simpl. rewrite IH; tauto.
Qed.

(** The user options merged into the defaults. *)
Lemma merge_defaults opts : unique_keys opts -> ~ In "strict" (keys opts) ->
  exists r, update_values (bunch_init [default_opts] []) [] (dset opts "strict" (PBool true))
            = (r, if known_b opts then Ok tt else Err KeyError)
   /\ keys r = keys default_opts
   /\ (known_b opts = true ->
       forall k, In k (keys documented) -> oget r k = opt_value opts k).
Proof.
  intros Hu Hs. set (kw := dset opts "strict" (PBool true)).
  assert (Hkw : unique_keys kw) by (apply NoDup_dset; exact Hu).
  assert (Hb : bunch_init [default_opts] [] = default_opts) by reflexivity.
  rewrite Hb. destruct (update_values default_opts [] kw) as [r o] eqn:E.
  assert (Hst : exists v, entry kw "strict" v /\ truthy v = true).
  { exists (PBool true). split; auto. apply dget_In; auto. apply dget_dset_same. }
  destruct (update_values_lemma default_opts [] kw default_unique (fun d H => match H with end) Hkw r o E)
    as [H|H]; simpl app in H; unfold kw in H; rewrite without_dset in H by exact Hs;
    change (dset opts "strict" (PBool true)) with kw in H.
  - destruct H as (_ & (k & v & Hg & Hn) & -> & ->). exists default_opts.
    assert (Hk : known_b opts = false).
    { apply known_b_false. exists k. apply given_single in Hg. apply (in_map fst) in Hg.
      rewrite default_same_keys in Hn. auto. }
    rewrite Hk. repeat split; auto. discriminate.
  - destruct H as ([H|H] & -> & Hkeys & Hent); [tauto|].
    assert (Hk : known_b opts = true).
    { destruct (known_b opts) eqn:Ek; auto. exfalso. apply known_b_false in Ek.
      destruct Ek as (k & H1 & H2). apply H2. apply default_same_keys.
      apply in_map_iff in H1. destruct H1 as ([k' v] & Heq & Hin). simpl in Heq. subst k'.
      apply (H k v). now apply given_single. }
    exists r. rewrite Hk. repeat split; auto. intros _ k Hd.
    assert (Hr : NoDup (dkeys r)) by (unfold dkeys; fold (keys r); rewrite Hkeys; apply default_unique).
    unfold oget, opt_value. destruct (dget opts k) as [v|] eqn:Eo.
    + replace (dget r k) with (Some v); auto. symmetry. apply dget_In; auto.
      apply Hent. left. split; [now apply default_same_keys|]. apply given_single.
      now apply dget_In.
    + assert (He : entry default_opts k (oget default_opts k)).
      { unfold entry. apply dget_In; [apply default_unique|]. unfold oget.
        destruct (dget default_opts k) eqn:E2; auto. apply dget_None in E2.
        exfalso. apply E2. now apply default_same_keys. }
      rewrite default_documented in He.
      assert (Hin : dget r k = Some (oget documented k)).
      { apply dget_In; auto. apply Hent. right. split; auto. apply not_given_single.
        now apply dget_None. }
      now rewrite Hin.
Qed.

(** process_opts, with the options looked up through [opt_value]. *)
Lemma process_opts_eq opts tw : unique_keys opts -> ~ In "strict" (keys opts) ->
  exists r,
    keys r = keys default_opts /\
    (known_b opts = true -> forall k, In k (keys documented) -> oget r k = opt_value opts k) /\
    process_opts opts tw =
    if known_b opts then
      do inf <- validate_infer (opt_value opts "infer") tw;
      do ord <- validate_order_constit (opt_value opts "order_constit")
                  (negb (eq_str (opt_value opts "conf_int") "none"));
      translate_opts (dset (dset r "infer" inf) "order_constit" ord)
    else Err KeyError.
Proof.
  intros Hu Hs. destruct (merge_defaults opts Hu Hs) as (r & Hr & Hk & Ho).
  exists r. split; [exact Hk|]. split; [exact Ho|].
  unfold process_opts. replace (dmem opts "strict") with false.
  2:{ symmetry. apply Bool.not_true_iff_false. rewrite dmem_In. exact Hs. }
  rewrite Hr. destruct (known_b opts) eqn:E; cbn [bind]; auto.
  rewrite Ho by (auto; simpl; tauto).
  destruct (validate_infer _ tw) as [inf|e]; cbn [bind]; auto.
  rewrite !oget_dset. cbn [String.eqb Ascii.eqb Bool.eqb]. rewrite !Ho by (auto; simpl; tauto).
  reflexivity.
Qed.

Lemma process_strict opts tw : In "strict" (keys opts) -> process_opts opts tw = Err TypeError.
Proof. intros H. unfold process_opts. apply dmem_In in H. now rewrite H. Qed.

Lemma infer_attr_err b d k e : In k required_keys ->
  infer_attr b d k = Err e -> e = AttributeError.
Proof.
  intros Hk. unfold infer_attr. destruct b; [|congruence].
  unfold bunch_getattr. simpl in Hk.
  destruct Hk as [<-|[<-|[<-|[<-|[]]]]]; simpl; destruct (dget d _); congruence.
Qed.

Lemma validate_infer_not_KeyError v tw : validate_infer v tw <> Err KeyError.
Proof.
  unfold validate_infer. destruct (is_none v || eq_str v "none"); [discriminate|].
  destruct v; try discriminate. destruct (proper_subset _ _); [discriminate|].
  assert (HL : forall x, pylen x <> Err KeyError) by (intros []; discriminate).
  assert (HA : forall k, In k required_keys -> infer_attr is_bunch d k <> Err KeyError).
  { intros k Hk H. apply infer_attr_err in H; auto. discriminate. }
  intros H.
  Ltac step H HA HL :=
    match type of H with
    | bind ?x _ = _ => let E := fresh "E" in destruct x eqn:E; cbn [bind] in H;
         [| injection H as ->; first [eapply HA in E; [exact E|simpl; tauto] | eapply HL in E; exact E]]
    end.
  do 4 (step H HA HL). destruct (negb _); [discriminate|].
  do 2 (step H HA HL). destruct (negb _); [discriminate|].
  do 2 (step H HA HL). destruct (negb _); discriminate.
Qed.

Lemma validate_order_err v s e : validate_order_constit v s = Err e -> e = ValueError.
Proof.
  unfold validate_order_constit. destruct v; try congruence. destruct (mem_str _ _); congruence.
Qed.

Lemma translate_err o e : translate_opts o = Err e -> e = ValueError.
Proof.
  unfold translate_opts. destruct (eq_str _ "linear"); cbn [bind]; [discriminate|].
  destruct (eq_str _ "MC"); cbn [bind]; [discriminate|].
  destruct (eq_str _ "none"); cbn [bind]; congruence.
Qed.

Lemma process_KeyError_lemma opts tw : unique_keys opts -> ~ In "strict" (keys opts) ->
  (process_opts opts tw = Err KeyError <->
   exists k, In k (keys opts) /\ ~ In k (keys documented)).
Proof.
  intros Hu Hs. fold (unknown opts). rewrite <- known_b_false.
  destruct (process_opts_eq opts tw Hu Hs) as (r & _ & _ & ->).
  destruct (known_b opts); [|tauto]. split; [|discriminate]. intros H. exfalso.
  destruct (validate_infer _ tw) as [inf|e] eqn:E1; cbn [bind] in H.
  2:{ injection H as ->. now apply validate_infer_not_KeyError in E1. }
  destruct (validate_order_constit _ _) as [ord|e] eqn:E2; cbn [bind] in H.
  2:{ injection H as ->. now apply validate_order_err in E2. }
  now apply translate_err in H.
Qed.

(** ** The option record actually used *)
Lemma dget_if {V} (b : bool) (x y : dict V) k : dget (if b then x else y) k = if b then dget x k else dget y k.
Proof. now destruct b. Qed.

Lemma unique_if {V} (b : bool) (x y : dict V) : unique_keys x -> unique_keys y -> unique_keys (if b then x else y).
Proof. now destruct b. Qed.

Lemma unique_dset {V} (x : dict V) k v : unique_keys x -> unique_keys (dset x k v).
Proof. apply NoDup_dset. Qed.

Lemma eq_str_excl v a b : a <> b -> eq_str v a = true -> eq_str v b = false.
Proof.
  intros Hab H. destruct v; simpl in *; try discriminate.
  apply String.eqb_eq in H. subst. now apply String.eqb_neq.
Qed.

Lemma translate_get n c : translate_opts n = Ok c ->
  let ci := oget n "conf_int" in
  (eq_str ci "linear" || eq_str ci "MC" || eq_str ci "none" = true)%bool /\
  unique_keys c /\
  dget c "cnstit" = Some (oget n "constit") /\
  dget c "ordercnstit" = Some (oget n "order_constit") /\
  dget c "infer" = Some (oget n "infer") /\
  dget c "conf_int" = Some (PBool (negb (eq_str ci "none"))) /\
  dget c "linci" = (if eq_str ci "none" then None else Some (PBool (eq_str ci "linear"))) /\
  dget c "nodiagn" = (if eq_str ci "none" then Some (PNum 1) else None) /\
  dget c "notrend" = Some (PBool (negb (truthy (oget n "trend")))) /\
  dget c "nodsatlint" = (if eq_str (oget n "nodal") "linear_time" then Some (PBool true) else None) /\
  dget c "nodsatnone" = (if eq_str (oget n "nodal") "linear_time" then None
                         else if negb (truthy (oget n "nodal")) then Some (PBool true) else None) /\
  dget c "gwchlint" = Some (PBool (eq_str (oget n "phase") "linear_time")) /\
  dget c "gwchnone" = Some (PBool (eq_str (oget n "phase") "raw")) /\
  dget c "rmin" = Some (oget n "Rayleigh_min") /\
  dget c "white" = Some (oget n "white") /\
  dget c "newopts" = Some (PDict true n) /\
  dget c "epoch" = Some (oget n "epoch") /\
  dget c "twodim" = None /\ dget c "equi" = None.
Proof.
  intros H ci. unfold translate_opts in H. fold ci in H.
  apply bind_Ok in H. destruct H as [x [Hci H]].
  assert (Hx : (eq_str ci "linear" || eq_str ci "MC" || eq_str ci "none" = true)%bool /\
     unique_keys x /\
     dget x "cnstit" = Some (oget n "constit") /\
     dget x "ordercnstit" = Some (oget n "order_constit") /\
     dget x "infer" = Some (oget n "infer") /\
     dget x "conf_int" = Some (PBool (negb (eq_str ci "none"))) /\
     dget x "linci" = (if eq_str ci "none" then None else Some (PBool (eq_str ci "linear"))) /\
     dget x "nodiagn" = (if eq_str ci "none" then Some (PNum 1) else None) /\
     dget x "nodsatlint" = None /\ dget x "nodsatnone" = None /\
     dget x "twodim" = None /\ dget x "equi" = None).
  { destruct (eq_str ci "linear") eqn:C1.
    - rewrite (eq_str_excl ci "linear" "none") by (auto; discriminate).
      injection Hci as <-. cbn [dset dget String.eqb Ascii.eqb Bool.eqb orb negb]. repeat split.
      unfold unique_keys. cbn. repeat constructor; simpl; intuition discriminate.
    - destruct (eq_str ci "MC") eqn:C2.
      + rewrite (eq_str_excl ci "MC" "none") by (auto; discriminate).
        injection Hci as <-. cbn [dset dget String.eqb Ascii.eqb Bool.eqb orb negb]. repeat split.
        unfold unique_keys. cbn. repeat constructor; simpl; intuition discriminate.
      + destruct (eq_str ci "none") eqn:C3; [|discriminate].
        injection Hci as <-. cbn [dset dget String.eqb Ascii.eqb Bool.eqb orb negb]. repeat split.
        unfold unique_keys. cbn. repeat constructor; simpl; intuition discriminate. }
  clear Hci. destruct Hx as (X0 & X1 & X2 & X3 & X4 & X5 & X6 & X7 & X8 & X9 & X10 & X11).
  injection H as <-. split; [exact X0|]. split.
  { repeat first [apply unique_dset | apply unique_if | exact X1]. }
  Ltac lk := lazymatch goal with
    | |- dget (dset _ ?k _) ?k = _ => rewrite dget_dset_same
    | |- dget (dset _ _ _) _ = _ => rewrite dget_dset_other by discriminate; lk
    | |- dget (if ?b then _ else _) _ = _ => destruct b eqn:?; lk
    | |- _ => idtac
    end.
  repeat apply conj; lk; auto.
  all: rewrite (eq_str_excl _ "linear_time" "raw"); auto; discriminate.
Qed.

Lemma slv_get tw equi c k : unique_keys c ->
  dget (slv_opts tw equi c) k = match dget c k with Some v => Some v | None => dget (slv_opts tw equi []) k end.
Proof. intros H. unfold slv_opts. rewrite dget_dupdate by exact H. reflexivity. Qed.

Section Used.
Variables (opts : dict pyval) (tw equi : bool).
Hypothesis Hu : unique_keys opts.
Let val := opt_value opts.

Lemma used_options compat o : process_opts opts tw = Ok compat ->
  read_opt (slv_opts tw equi compat) = Ok o ->
  ~ In "strict" (keys opts) /\ (forall k, In k (keys opts) -> In k (keys documented)) /\
  o_twodim o = tw /\ o_equi o = equi /\
  (eq_str (val "conf_int") "linear" || eq_str (val "conf_int") "MC" || eq_str (val "conf_int") "none" = true)%bool /\
  o_conf_int o = negb (eq_str (val "conf_int") "none") /\
  o_linci o = eq_str (val "conf_int") "linear" /\
  o_nodiagn o = eq_str (val "conf_int") "none" /\
  o_cnstit o = val "constit" /\
  o_notrend o = negb (truthy (val "trend")) /\
  o_nodsatlint o = eq_str (val "nodal") "linear_time" /\
  o_nodsatnone o = (negb (eq_str (val "nodal") "linear_time") && negb (truthy (val "nodal")))%bool /\
  o_gwchlint o = eq_str (val "phase") "linear_time" /\
  o_gwchnone o = eq_str (val "phase") "raw" /\
  as_num (val "Rayleigh_min") = Ok (o_rmin o) /\
  o_white o = truthy (val "white") /\
  o_method o = val "method" /\ o_robust_kw o = val "robust_kw" /\
  o_epoch o = val "epoch" /\ oget compat "epoch" = val "epoch" /\
  (exists inf, validate_infer (val "infer") tw = Ok inf /\ read_infer inf = Ok (o_infer o)) /\
  validate_order_constit (val "order_constit") (negb (eq_str (val "conf_int") "none")) = Ok (o_ordercnstit o) /\
  o_nrlzn o = 200%nat.
Proof.
  intros Hp Hr.
  assert (Hs : ~ In "strict" (keys opts)).
  { intros H. rewrite (process_strict _ _ H) in Hp. discriminate. }
  destruct (process_opts_eq opts tw Hu Hs) as (r & Hk & Ho & Heq). rewrite Heq in Hp. clear Heq.
  destruct (known_b opts) eqn:Ek; [|discriminate].
  assert (Hknown : forall k, In k (keys opts) -> In k (keys documented)).
  { intros k H. destruct (in_dec string_dec k (keys documented)); auto.
    assert (known_b opts = false) by (apply known_b_false; exists k; auto). congruence. }
  split; [exact Hs|]. split; [exact Hknown|].
  fold val in Hp.
  destruct (validate_infer (val "infer") tw) as [inf|] eqn:Einf; cbn [bind] in Hp; [|discriminate].
  destruct (validate_order_constit _ _) as [ord|] eqn:Eord; cbn [bind] in Hp; [|discriminate].
  set (n := dset (dset r "infer" inf) "order_constit" ord) in *.
  assert (Hn : forall k, In k (keys documented) -> k <> "infer" -> k <> "order_constit" ->
                 oget n k = val k).
  { intros k H1 H2 H3. unfold n. rewrite !oget_dset.
    destruct (String.eqb_spec k "order_constit"); [tauto|].
    destruct (String.eqb_spec k "infer"); [tauto|]. now apply Ho. }
  assert (Hn1 : oget n "infer" = inf).
  { unfold n. rewrite !oget_dset. reflexivity. }
  assert (Hn2 : oget n "order_constit" = ord).
  { unfold n. rewrite !oget_dset. reflexivity. }
  clearbody n.
  destruct (translate_get n compat Hp) as
    (X0 & X1 & X2 & X3 & X4 & X5 & X6 & X7 & X8 & X9 & X10 & X11 & X12 & X13 & X14 & X15 & X16 & X17 & X18).
  rewrite Hn1 in X4. rewrite Hn2 in X3.
  repeat match goal with H : context [oget n ?k] |- _ =>
    lazymatch k with "infer" => fail | "order_constit" => fail | _ =>
    rewrite (Hn k) in H by (simpl; first [tauto | discriminate]) end end.
  assert (G : forall k, oget (slv_opts tw equi compat) k =
     match dget compat k with Some v => v | None => oget (slv_opts tw equi []) k end).
  { intros k. unfold oget. rewrite slv_get by exact X1. now destruct (dget compat k). }
  unfold read_opt in Hr. rewrite !G in Hr. clear G.
  rewrite ?X2, ?X3, ?X4, ?X5, ?X6, ?X7, ?X8, ?X9, ?X10, ?X11, ?X12, ?X13, ?X14, ?X15, ?X16, ?X17, ?X18 in Hr.
  inv_bind Hr. rename Ha into Hnum. inv_bind Hr. rename Ha into Hinf.
  injection Hr as <-. 
  assert (X16' : oget compat "epoch" = val "epoch") by (unfold oget; now rewrite X16).
  cbn [o_twodim o_equi o_conf_int o_cnstit o_notrend o_nodsatlint o_nodsatnone o_gwchlint o_gwchnone
       o_infer o_rmin o_linci o_white o_nrlzn o_nodiagn o_ordercnstit o_method o_robust_kw o_epoch].
  pose proof (Hn "method") as Hm. pose proof (Hn "robust_kw") as Hw. 
  rewrite ?Hm, ?Hw by (simpl; first [tauto | discriminate]).
  repeat split; auto; try (exact X0);
  try (destruct (eq_str (val "conf_int") "none") eqn:Ec; cbn; auto;
       rewrite (eq_str_excl _ "none" "linear") by (auto; discriminate); auto; fail).
  - destruct (eq_str (val "conf_int") "none"); cbn; destruct (Req_EM_T _ 0); auto; exfalso; lra.
  - destruct (eq_str (val "nodal") "linear_time"); cbn; auto;
      destruct (Req_EM_T _ 0); auto; exfalso; lra.
  - destruct (eq_str (val "nodal") "linear_time"); cbn;
      [|destruct (truthy (val "nodal")); cbn]; auto; destruct (Req_EM_T _ 0); auto; exfalso; lra.
  - exists inf. auto.
Qed.
End Used.
