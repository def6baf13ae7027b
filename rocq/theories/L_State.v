(** Calls of solve with shared objects. *)
From Coq Require Import Lia.
From Verif Require Import M_Base M_Bunch M_Lib M_Options M_Time M_Slvinit M_Select M_Ellipse M_Robust M_Period M_Conf M_Diag M_Solve M_Recon M_State
  S_Dict S_Options S_Equal S_State L_Base L_Options.
Open Scope R_scope.
Open Scope string_scope.

(** ** reading references *)
Lemma read_keys h d : dkeys (read_args h d) = dkeys d.
Proof. unfold dkeys, read_args. rewrite map_map. reflexivity. Qed.
Lemma read_dget h d k : dget (read_args h d) k = option_map (value h) (dget d k).
Proof. induction d as [|[k' a] d IH]; [reflexivity|]. cbn [read_args map fst snd dget]. destruct (String.eqb k k'); [reflexivity|exact IH]. Qed.
Lemma read_dmem h d k : dmem (read_args h d) k = dmem d k.
Proof. unfold dmem. rewrite read_dget. destruct (dget d k); reflexivity. Qed.
Lemma read_oget h d k : oget (read_args h d) k = value h (aget d k).
Proof. unfold oget, aget. rewrite read_dget. destruct (dget d k); reflexivity. Qed.
Lemma read_dset h d k a : read_args h (dset d k a) = dset (read_args h d) k (value h a).
Proof. induction d as [|[k' a'] d IH]; [reflexivity|]. cbn [read_args map fst snd dset]. destruct (String.eqb k k'); cbn [map fst snd]; [reflexivity|]. f_equal. exact IH. Qed.
Lemma read_dupdate h d2 : forall d, read_args h (dupdate d d2) = dupdate (read_args h d) (read_args h d2).
Proof. unfold dupdate. induction d2 as [|[k a] d2 IH]; intros d; [reflexivity|]. cbn [fold_left fst snd]. rewrite IH, read_dset. reflexivity. Qed.
Lemma read_filter h (p : string -> bool) d : read_args h (filter (fun kv => p (fst kv)) d) = filter (fun kv => p (fst kv)) (read_args h d).
Proof. induction d as [|[k a] d IH]; [reflexivity|]. cbn [read_args map filter fst snd]. destruct (p k); cbn [map fst snd]; [f_equal|]; exact IH. Qed.
Lemma read_same h h' d : (forall k a, In (k, a) d -> value h' a = value h a) -> read_args h' d = read_args h d.
Proof. intros H. unfold read_args. apply map_ext_in. intros [k a] Hk. cbn [fst snd]. now rewrite (H k a Hk). Qed.
Lemma read_dset_same h h' d k a : NoDup (dkeys d) -> (forall k' b, In (k', b) d -> k' <> k -> value h' b = value h b) ->
  read_args h' (dset d k a) = dset (read_args h d) k (value h' a).
Proof.
  intros ND H. induction d as [|[k' b] d IH]; [reflexivity|]. cbn [read_args map fst snd dset]. cbn [dkeys map fst] in ND. apply NoDup_cons_iff in ND. destruct ND as [N1 N2].
  destruct (String.eqb_spec k k') as [->|N]; cbn [map fst snd].
  - f_equal. apply read_same. intros k2 b2 Hk. apply (H k2 b2); [now right|]. intros ->. apply N1. now apply (in_map fst) in Hk.
  - f_equal; [f_equal; apply (H k' b); [now left|congruence]|]. apply IH; [exact N2|]. intros k2 b2 Hk Hn. apply (H k2 b2); [now right|exact Hn].
Qed.
Lemma dset_In {V} (d : dict V) k v k' v' : In (k', v') (dset d k v) -> (k' = k /\ v' = v) \/ In (k', v') d.
Proof.
  induction d as [|[k0 v0] d IH]; cbn [dset]; [intros [[= <- <-]|[]]; auto|]. destruct (String.eqb_spec k k0) as [->|N]; intros [[= <- <-]|H]; auto.
  - right. now right.
  - right. now left.
  - destruct (IH H); auto. right. now right.
Qed.
Lemma dupdate_In {V} (d2 : dict V) : forall d k v, In (k, v) (dupdate d d2) -> In (k, v) d \/ In (k, v) d2.
Proof.
  unfold dupdate. induction d2 as [|[k0 v0] d2 IH]; intros d k v H; [now left|]. cbn [fold_left fst snd] in H. destruct (IH _ _ _ H) as [Q|Q]; [|right; now right].
  destruct (dset_In _ _ _ _ _ Q) as [[-> ->]|Q']; [right; now left|now left].
Qed.

(** ** the options of a call *)
Notation base := (bunch_init [default_args] []).
Definition merged (opts : dict arg) : dict arg :=
  dupdate base (filter (fun kv => dmem base (fst kv)) (dupdate [] opts)).
Lemma base_eq : base = default_args.
Proof. reflexivity. Qed.
Lemma base_keys : NoDup (dkeys base).
Proof. rewrite base_eq. repeat constructor; cbn; intuition discriminate. Qed.
Lemma merged_keys opts : NoDup (dkeys (merged opts)).
Proof. apply NoDup_dupdate, base_keys. Qed.
Lemma base_entry k a : In (k, a) base -> (exists v, a = Given v) \/ (k = "robust_kw" /\ a = Object shared_kw).
Proof. rewrite base_eq. intros H. cbn in H. repeat (destruct H as [[= <- <-]|H]; [first [left; eexists; reflexivity | right; auto]|]). destruct H. Qed.
Lemma merged_entry opts k a : In (k, a) (merged opts) -> In (k, a) base \/ In (k, a) opts.
Proof.
  intros H. destruct (dupdate_In _ _ _ _ H) as [Q|Q]; [now left|right]. apply filter_In in Q. destruct Q as [Q _].
  destruct (dupdate_In _ _ _ _ Q) as [[]|Q']. exact Q'.
Qed.
Lemma aget_entry opts k : dmem opts k = true -> In (k, aget opts k) opts.
Proof. unfold dmem, aget. destruct (dget opts k) eqn:E; [|discriminate]. intros _. now apply dget_Some_In. Qed.
Lemma infer_entry opts l : aget (merged opts) "infer" = Object l -> In ("infer", Object l) opts.
Proof.
  intros H. assert (M : dmem (merged opts) "infer" = true).
  { unfold dmem. unfold aget in H. destruct (dget (merged opts) "infer"); [reflexivity|discriminate]. }
  assert (Q := aget_entry _ _ M). rewrite H in Q. destruct (merged_entry _ _ _ Q) as [B|B]; [|exact B].
  destruct (base_entry _ _ B) as [[v E]|[E _]]; discriminate.
Qed.
Lemma not_infer h h' opts l : (forall l', l' <> l -> h' l' = h l') -> h' shared_kw = h shared_kw -> only_infer l opts ->
  forall k a, In (k, a) (merged opts) -> k <> "infer" -> value h' a = value h a.
Proof.
  intros H0 H1 OI k a Hk Hn. destruct (merged_entry _ _ _ Hk) as [B|B].
  - destruct (base_entry _ _ B) as [[v ->]|[_ ->]]; [reflexivity|]. cbn [value]. now rewrite H1.
  - destruct a as [v|l']; [reflexivity|]. cbn [value]. destruct (Nat.eq_dec l' l) as [->|N]; [destruct Hn; now apply OI|]. now rewrite (H0 l' N).
Qed.

(** ** inference objects *)
Lemma dset_new (d : dict pyval) k v : dmem d k = false -> dset d k v = (d ++ [(k, v)])%list.
Proof.
  unfold dmem. induction d as [|[k' v'] d IH]; [reflexivity|]. cbn [dget dset app]. destruct (String.eqb k k'); [discriminate|]. intros H. f_equal. now apply IH.
Qed.
Lemma attr_bunch b d k v : infer_attr b d k = Ok v -> b = true.
Proof. unfold infer_attr. destruct b; [reflexivity|discriminate]. Qed.
Lemma validated_obj b d tw r : validate_infer (PDict b d) tw = Ok r ->
  b = true /\ proper_subset (dkeys d) required_keys = false /\ r = PDict true (if dmem d "approximate" then d else completed d).
Proof.
  unfold validate_infer. cbn [is_none eq_str orb]. destruct (proper_subset _ _); [discriminate|]. intros H. inv_bind H. rename Ha into A. inv_bind H. inv_bind H. inv_bind H.
  destruct (negb _); [discriminate|]. inv_bind H. inv_bind H. destruct (negb _); [discriminate|]. inv_bind H. inv_bind H. destruct (negb _); [discriminate|].
  apply attr_bunch in A. subst b. injection H as <-. split; [reflexivity|]. split; [reflexivity|]. f_equal. destruct (dmem d "approximate") eqn:E; [reflexivity|]. now apply dset_new.
Qed.
Lemma attr_completed d k : k <> "approximate" -> infer_attr true (completed d) k = infer_attr true d k.
Proof.
  intros N. unfold infer_attr, bunch_getattr, completed. rewrite dget_app. cbn [dget].
  destruct (String.eqb_spec k "approximate") as [->|_]; [congruence|]. destruct (dget d k); reflexivity.
Qed.
Lemma validate_completed d tw : proper_subset (dkeys d) required_keys = false -> dmem d "approximate" = false ->
  validate_infer (PDict true (completed d)) tw = validate_infer (PDict true d) tw.
Proof.
  intros P M. unfold validate_infer. cbn [is_none eq_str orb]. rewrite P.
  assert (P' : proper_subset (dkeys (completed d)) required_keys = false).
  { unfold proper_subset, dkeys, completed. rewrite map_app, forallb_app. cbn. rewrite Bool.andb_false_r. reflexivity. }
  rewrite P'. rewrite !attr_completed by discriminate. rewrite M.
  assert (M' : dmem (completed d) "approximate" = true). { apply dmem_In. unfold dkeys, completed. rewrite map_app. apply in_app_iff. right. now left. }
  rewrite M', dset_new by exact M. reflexivity.
Qed.

(** what calls do to objects *)
Definition changed (P : nat -> Prop) (h h' : heap) : Prop := forall l, h' l = h l \/
  (P l /\ fst (h l) = true /\ proper_subset (dkeys (snd (h l))) required_keys = false /\ dmem (snd (h l)) "approximate" = false /\ h' l = (true, completed (snd (h l)))).
Lemma completed_mem d : dmem (completed d) "approximate" = true.
Proof. apply dmem_In. unfold dkeys, completed. rewrite map_app. apply in_app_iff. right. now left. Qed.
Lemma changed_trans P h1 h2 h3 : changed P h1 h2 -> changed P h2 h3 -> changed P h1 h3.
Proof.
  intros A B l. destruct (A l) as [A1|(A1 & A2 & A3 & A4 & A5)], (B l) as [B1|(B1 & B2 & B3 & B4 & B5)].
  - left. congruence.
  - right. rewrite A1 in *. auto.
  - right. rewrite B1. auto.
  - exfalso. rewrite A5 in B4. cbn [snd] in B4. rewrite completed_mem in B4. discriminate.
Qed.
Lemma changed_weaken (P Q : nat -> Prop) h h' : (forall l, P l -> Q l) -> changed P h h' -> changed Q h h'.
Proof. intros H C l. destruct (C l) as [C1|(C1 & C2)]; auto. Qed.
Lemma changed_refl P h : changed P h h.
Proof. intros l. now left. Qed.
Lemma infer_changed h a tw r h' : validate_infer_st h a tw = (r, h') -> changed (fun l => a = Object l) h h' /\ (forall l, a <> Object l -> h' l = h l).
Proof.
  destruct a as [v|l0]; cbn [validate_infer_st]; intros H; [injection H as _ <-; split; [apply changed_refl|reflexivity]|].
  destruct (h l0) as [b d] eqn:E. cbn [fst snd] in H.
  destruct (validate_infer (PDict b d) tw) as [w|e] eqn:V; [|injection H as _ <-; split; [apply changed_refl|reflexivity]].
  destruct (validated_obj _ _ _ _ V) as (-> & PS & ->). injection H as _ <-. split.
  - intros l. unfold write. destruct (Nat.eqb_spec l l0) as [->|N]; [|now left]. destruct (dmem d "approximate") eqn:M; [left; now rewrite E|].
    right. rewrite E. cbn [fst snd]. auto.
  - intros l N. unfold write. destruct (Nat.eqb_spec l l0) as [->|_]; [congruence|reflexivity].
Qed.
Lemma process_changed h opts tw r h' : process_opts_st h opts tw = (r, h') -> changed (fun l => In ("infer", Object l) opts) h h'.
Proof.
  unfold process_opts_st. destruct (dmem opts "strict"); [intros [= _ <-]; apply changed_refl|]. cbv zeta.
  destruct (check_strict _ _ _) as [cs0|]; [|intros [= _ <-]; apply changed_refl]. fold (merged opts).
  destruct (validate_infer_st h (aget (merged opts) "infer") tw) as [inf h1] eqn:V. destruct (infer_changed _ _ _ _ _ V) as [C _].
  assert (C' : changed (fun l => In ("infer", Object l) opts) h h1) by (eapply changed_weaken; [|exact C]; intros l; apply infer_entry).
  destruct inf as [inf|]; [|intros [= _ <-]; exact C']. destruct (validate_order_constit _ _); intros [= _ <-]; exact C'.
Qed.
Lemma solve_changed L h t u v lat opts r h' : solve_st L h t u v lat opts = (r, h') -> changed (fun l => In ("infer", Object l) opts) h h'.
Proof.
  unfold solve_st. destruct (process_opts_st h opts _) as [q h1] eqn:E. intros [= _ <-]. eapply process_changed; eauto.
Qed.
Lemma calls_changed ks : forall h, changed (fun l => exists k, In k ks /\ In ("infer", Object l) (k_opts k)) h (run_calls h ks).
Proof.
  unfold run_calls. induction ks as [|k ks IH]; intros h; [apply changed_refl|]. cbn [fold_left]. apply (changed_trans _ _ (run_call h k)).
  - eapply changed_weaken; [|unfold run_call; destruct (solve_st (k_lib k) h (k_t k) (k_u k) (k_v k) (k_lat k) (k_opts k)) as [r h1] eqn:E; eapply solve_changed; exact E].
    intros l H. exists k. split; [now left|exact H].
  - eapply changed_weaken; [|apply IH]. intros l (k' & H1 & H2). exists k'. split; [now right|exact H2].
Qed.

(** ** the outcome of a call does not depend on such changes *)
Lemma process_same P h h2 opts tw : changed P h h2 -> fst (h shared_kw) = false -> (forall l, P l -> only_infer l opts) ->
  fst (process_opts_st h2 opts tw) = fst (process_opts_st h opts tw).
Proof.
  intros C PD OI. unfold process_opts_st. destruct (dmem opts "strict"); [reflexivity|]. cbv zeta. destruct (check_strict _ _ _) as [cs0|]; [|reflexivity]. fold (merged opts).
  assert (C0 : h2 shared_kw = h shared_kw) by (destruct (C shared_kw) as [Q|(_ & Q & _)]; [exact Q|congruence]).
  assert (VAL : forall k a, In (k, a) (merged opts) -> k <> "infer" -> value h2 a = value h a).
  { intros k a Hk Hn. destruct (merged_entry _ _ _ Hk) as [B|B].
    - destruct (base_entry _ _ B) as [[v ->]|[_ ->]]; [reflexivity|]. cbn [value]. now rewrite C0.
    - destruct a as [v|l]; [reflexivity|]. cbn [value]. destruct (C l) as [->|(Q & _)]; [reflexivity|]. destruct Hn. now apply (OI l Q). }
  assert (VI : exists r g g2, validate_infer_st h (aget (merged opts) "infer") tw = (r, g) /\ validate_infer_st h2 (aget (merged opts) "infer") tw = (r, g2) /\
    (forall k a, In (k, a) (merged opts) -> k <> "infer" -> value g2 a = value g a) /\ (forall i, r = Ok i -> value g2 i = value g i)).
  { destruct (aget (merged opts) "infer") as [v|l] eqn:A.
    - cbn [validate_infer_st]. exists (do r <- validate_infer v tw; Ok (Given r)), h, h2. split; [reflexivity|]. split; [reflexivity|]. split; [exact VAL|].
      intros i Hi. destruct (validate_infer v tw); [|discriminate]. injection Hi as <-. reflexivity.
    - assert (Hl := infer_entry _ _ A). cbn [validate_infer_st].
      assert (E : validate_infer (PDict (fst (h2 l)) (snd (h2 l))) tw = validate_infer (PDict (fst (h l)) (snd (h l))) tw).
      { destruct (C l) as [->|(_ & Q1 & Q2 & Q3 & ->)]; [reflexivity|]. rewrite Q1. cbn [fst snd]. now apply validate_completed. }
      rewrite E. destruct (validate_infer (PDict (fst (h l)) (snd (h l))) tw) as [w|e] eqn:V.
      + destruct (validated_obj _ _ _ _ V) as (B1 & B2 & ->). set (o := if dmem (snd (h l)) "approximate" then snd (h l) else completed (snd (h l))).
        exists (Ok (Object l)), (write h l (true, o)), (write h2 l (true, o)). split; [reflexivity|]. split; [reflexivity|]. split.
        * intros k a Hk Hn. specialize (VAL k a Hk Hn). destruct a as [w|l']; [reflexivity|]. cbn [value] in *. unfold write. destruct (Nat.eqb l' l); [reflexivity|exact VAL].
        * intros i [= <-]. cbn [value]. unfold write. rewrite Nat.eqb_refl. reflexivity.
      + exists (Err e), h, h2. split; [reflexivity|]. split; [reflexivity|]. split; [exact VAL|discriminate]. }
  destruct VI as (r & g & g2 & -> & -> & V1 & V2). destruct r as [inf|]; [|reflexivity].
  specialize (V2 inf eq_refl). set (N := dset (merged opts) "infer" inf).
  assert (VN : forall k a, In (k, a) N -> value g2 a = value g a).
  { intros k a Hk. destruct (dset_In _ _ _ _ _ Hk) as [[-> ->]|Q]; [exact V2|].
    destruct (string_dec k "infer") as [->|Nk]; [|now apply (V1 k)].
    assert (D := NoDup_dset (merged opts) "infer" inf (merged_keys opts)). fold N in D. apply (dget_In _ _ _ D) in Hk. unfold N in Hk. rewrite dget_dset_same in Hk. injection Hk as <-. exact V2. }
  assert (VG : forall k, value g2 (aget N k) = value g (aget N k)).
  { intros k. unfold aget. destruct (dget N k) as [a|] eqn:E; [|reflexivity]. apply dget_Some_In in E. now apply (VN k). }
  rewrite !VG. destruct (validate_order_constit _ _) as [ord|]; [|reflexivity]. cbn [fst].
  rewrite (read_same g g2); [reflexivity|]. intros k a Hk. destruct (dset_In _ _ _ _ _ Hk) as [[-> ->]|Q]; [|now apply (VN k)].
  specialize (VG "order_constit"). destruct (aget N "order_constit"); [reflexivity|exact VG].
Qed.
Lemma top_history L h ks t u v lat opts : fst (h shared_kw) = false ->
  (forall k l, In k ks -> In ("infer", Object l) (k_opts k) -> only_infer l opts) ->
  fst (solve_st L (run_calls h ks) t u v lat opts) = fst (solve_st L h t u v lat opts).
Proof.
  intros PD OI. assert (E := process_same _ h (run_calls h ks) opts (match v with Some _ => true | None => false end) (calls_changed ks h) PD ltac:(intros l (k & H1 & H2); eauto)).
  unfold solve_st. destruct (process_opts_st (run_calls h ks) opts _) as [r g]. destruct (process_opts_st h opts _) as [r' g']. cbn [fst] in E. now subst r'.
Qed.
Lemma top_frame L h t u v lat opts r h' l : solve_st L h t u v lat opts = (r, h') -> h' l = h l \/
  (In ("infer", Object l) opts /\ fst (h l) = true /\ ~ In "approximate" (keys (snd (h l))) /\ h' l = (true, completed (snd (h l)))).
Proof.
  intros H. destruct (solve_changed _ _ _ _ _ _ _ _ _ H l) as [Q|(Q1 & Q2 & Q3 & Q4 & Q5)]; [now left|right]. split; [exact Q1|]. split; [exact Q2|]. split; [|exact Q5].
  intros I. assert (dmem (snd (h l)) "approximate" = true) by now apply dmem_In. congruence.
Qed.

(** ** the call in terms of values *)
Lemma top_value L h t u v lat opts : unique_keys opts -> h shared_kw = default_kw -> (forall l, In ("infer", Object l) opts -> only_infer l opts) ->
  coefficients (fst (solve_st L h t u v lat opts)) = solve L t u v lat (read_args h opts).
Proof.
  intros Hu H0 OI. unfold solve_st, solve. set (tw := match v with Some _ => true | None => false end).
  assert (E : match fst (process_opts_st h opts tw) with Ok p => Ok (snd p) | Err e => Err e end = process_opts (read_args h opts) tw).
  2: { destruct (process_opts_st h opts tw) as [r g]. cbn [fst] in E |- *. rewrite <- E. destruct r as [p|]; [|reflexivity]. cbn [bind]. destruct (solv1 L t u v lat (snd p)); reflexivity. }
  unfold process_opts_st, process_opts. rewrite read_dmem. destruct (dmem opts "strict") eqn:S; [reflexivity|]. cbv zeta.
  assert (KW : ddel (dset (read_args h opts) "strict" (PBool true)) "strict" = read_args h opts).
  { assert (N : ~ In "strict" (keys (read_args h opts))). { intros I. assert (dmem (read_args h opts) "strict" = true) by now apply dmem_In. rewrite read_dmem in *. congruence. }
    rewrite <- (without_dset _ _ (PBool true) N) at 2. unfold ddel, without. apply filter_ext. intros [k a]. cbn [fst]. f_equal. apply String.eqb_sym. }
  unfold update_values, pop_strict. rewrite dget_dset_same, KW. cbn [truthy fold_left].
  assert (B : read_args h base = bunch_init [default_opts] []).
  { rewrite base_eq. unfold default_args, read_args. rewrite map_map. transitivity (map (fun kv : string * pyval => kv) default_opts); [|reflexivity].
    apply map_ext_in. intros [k a] Hk. cbn [fst snd]. destruct (String.eqb_spec k "robust_kw") as [->|N]; [|reflexivity].
    cbn [value]. rewrite H0. f_equal. unfold default_opts in Hk. cbn in Hk. repeat (destruct Hk as [Hk|Hk]; [first [discriminate Hk | injection Hk as <-; reflexivity]|]). destruct Hk. }
  assert (D0 : dupdate [] (read_args h opts) = read_args h (dupdate [] opts)) by (rewrite read_dupdate; reflexivity).
  rewrite D0, <- B.
  assert (CS : check_strict (read_args h base) true (read_args h (dupdate [] opts)) = check_strict base true (dupdate [] opts)).
  { unfold check_strict, bad_keys. rewrite read_keys. f_equal. rewrite (filter_ext (fun k => negb (dmem (read_args h base) k)) (fun k => negb (dmem base k))); [reflexivity|].
    intros k. now rewrite read_dmem. }
  rewrite CS. destruct (check_strict base true (dupdate [] opts)); [|reflexivity]. cbn [bind].
  assert (MG : dupdate (read_args h base) (filter (fun kv => dmem (read_args h base) (fst kv)) (read_args h (dupdate [] opts))) = read_args h (merged opts)).
  { unfold merged. rewrite (read_dupdate h _ base), (read_filter h (fun k => dmem base k)). f_equal. apply filter_ext. intros kv. now rewrite read_dmem. }
  rewrite MG. fold (merged opts).
  assert (VI : exists r g, validate_infer_st h (aget (merged opts) "infer") tw = (r, g) /\
    match r with Ok i => validate_infer (oget (read_args h (merged opts)) "infer") tw = Ok (value g i) | Err e => validate_infer (oget (read_args h (merged opts)) "infer") tw = Err e end /\
    (forall k a, In (k, a) (merged opts) -> k <> "infer" -> value g a = value h a)).
  { rewrite read_oget. destruct (aget (merged opts) "infer") as [w|l] eqn:A.
    - cbn [validate_infer_st value]. eexists _, _. split; [reflexivity|]. split; [|reflexivity]. destruct (validate_infer w tw); reflexivity.
    - assert (Hl := infer_entry _ _ A). cbn [validate_infer_st value].
      destruct (validate_infer (PDict (fst (h l)) (snd (h l))) tw) as [w|e] eqn:V; [|eexists _, _; split; [reflexivity|]; split; [reflexivity|reflexivity]].
      destruct (validated_obj _ _ _ _ V) as (B1 & B2 & ->). eexists _, _. split; [reflexivity|]. split.
      + cbn [value]. unfold write. rewrite Nat.eqb_refl. reflexivity.
      + apply (not_infer h _ opts l).
        * intros l' N. unfold write. destruct (Nat.eqb_spec l' l); [congruence|reflexivity].
        * unfold write. destruct (Nat.eqb_spec shared_kw l) as [<-|N]; [|reflexivity]. rewrite H0 in B1. discriminate.
        * now apply OI. }
  destruct VI as (r & g & -> & V1 & V2). destruct r as [inf|]; [|now rewrite V1]. rewrite V1. cbn [bind].
  assert (RN : read_args g (dset (merged opts) "infer" inf) = dset (read_args h (merged opts)) "infer" (value g inf)).
  { apply read_dset_same; [apply merged_keys|exact V2]. }
  rewrite <- RN. rewrite !read_oget. set (N := dset (merged opts) "infer" inf).
  destruct (validate_order_constit (value g (aget N "order_constit")) _) as [ord|] eqn:VO; [|reflexivity]. cbn [bind fst].
  assert (RO : read_args g (dset N "order_constit" (match aget N "order_constit" with Object l => Object l | Given _ => Given ord end)) = dset (read_args g N) "order_constit" ord).
  { rewrite read_dset. f_equal. destruct (aget N "order_constit") as [w|l]; [reflexivity|]. cbn [value] in *. cbn [validate_order_constit] in VO. congruence. }
  rewrite RO. destruct (translate_opts _); reflexivity.
Qed.

(** ** references in the result *)
Lemma top_kept_refs L h t u v lat opts c n h' : unique_keys opts -> solve_st L h t u v lat opts = (Ok (c, n), h') ->
  (forall l, In ("infer", Object l) opts -> In ("infer", Object l) n) /\ (~ In "robust_kw" (keys opts) -> In ("robust_kw", Object shared_kw) n) /\
  (forall l, In ("robust_kw", Object l) opts -> In ("robust_kw", Object l) n).
Proof.
  intros Hu. unfold solve_st. destruct (process_opts_st h opts _) as [r g] eqn:E. intros H. assert (H' := f_equal fst H). cbn [fst] in H'. clear H. inv_bind H'. inv_bind H'. injection H' as _ <-.
  destruct a as [n0 compat]. cbn [fst]. rename Ha into R. subst r. unfold process_opts_st in E. destruct (dmem opts "strict"); [discriminate|]. cbv zeta in E.
  destruct (check_strict _ _ _) as [cs0|]; [|discriminate]. fold (merged opts) in E.
  destruct (validate_infer_st h (aget (merged opts) "infer") _) as [inf h1] eqn:V. destruct inf as [inf|]; [|discriminate].
  destruct (validate_order_constit _ _) as [ord|]; [|discriminate]. assert (E' := f_equal fst E). cbn [fst] in E'. clear E. inv_bind E'. injection E' as <- _.
  set (N := dset (merged opts) "infer" inf). assert (DN := NoDup_dset _ "infer" inf (merged_keys opts)). fold N in DN.
  match goal with |- context [dset N "order_constit" ?a] => set (oa := a) end. assert (DO := NoDup_dset _ "order_constit" oa DN).
  assert (U0 : NoDup (dkeys (dupdate [] opts))) by (apply NoDup_dupdate; constructor).
  assert (MG : forall k, dmem base k = true -> dget (merged opts) k = match dget opts k with Some a => Some a | None => dget base k end).
  { intros k Hk. unfold merged. rewrite dget_dupdate.
    - rewrite dget_filter, Hk. rewrite dget_dupdate by exact Hu. destruct (dget opts k); reflexivity.
    - clear - U0. unfold dkeys in *. revert U0. generalize (dupdate [] opts). induction d as [|[k a] d IH]; cbn [map filter fst]; intros Hd; [constructor|].
      apply NoDup_cons_iff in Hd. destruct Hd as [H1 H2]. destruct (dmem base k); [|auto]. cbn [map fst]. constructor; [|auto]. intros I. apply H1. apply in_map_iff in I.
      destruct I as ([k' a'] & <- & I). apply filter_In in I. apply in_map_iff. exists (k', a'). tauto. }
  split; [|split].
  - intros l Hl. apply (dget_In _ _ _ DO). rewrite dget_dset_other by discriminate. unfold N. rewrite dget_dset_same.
    assert (A : aget (merged opts) "infer" = Object l). { unfold aget. rewrite MG by reflexivity. apply (dget_In _ _ _ Hu) in Hl. now rewrite Hl. }
    rewrite A in V. cbn [validate_infer_st] in V. destruct (validate_infer (PDict _ _) _) as [w|] eqn:W; [|discriminate]. destruct (validated_obj _ _ _ _ W) as (_ & _ & ->). injection V as <- _. reflexivity.
  - intros Hn. apply (dget_In _ _ _ DO). rewrite dget_dset_other by discriminate. unfold N. rewrite dget_dset_other by discriminate. rewrite MG by reflexivity.
    apply dget_None in Hn. rewrite Hn. reflexivity.
  - intros l Hl. apply (dget_In _ _ _ DO). rewrite dget_dset_other by discriminate. unfold N. rewrite dget_dset_other by discriminate. rewrite MG by reflexivity.
    apply (dget_In _ _ _ Hu) in Hl. rewrite Hl. reflexivity.
Qed.

(** ** reconstruct does not read the shared objects *)
Lemma top_reconstruct L t ndim c epoch constit ms mp inf kw :
  reconstruct L t ndim (with_options (with_shared inf kw (c_opt c)) c) epoch constit ms mp = reconstruct L t ndim c epoch constit ms mp.
Proof. reflexivity. Qed.
