(** solve and reconstruct in memory. *)
From Coq Require Import QArith Qreals Lia Lra.
From Verif Require Import M_Base M_Lib M_Tables M_Const M_Time M_Options M_Slvinit M_Harmonics M_Select M_Ellipse M_Robust M_Period M_Conf M_Diag M_Solve M_Recon M_Memory
  S_Memory L_Slv L_Memory.
Open Scope R_scope.
Open Scope string_scope.

(** ** what is never changed *)
Definition keeps (m0 : mem) {A} (p : act A) : Prop := forall m, later m0 m -> later m0 (snd (p m)).
Lemma keeps_ret m0 {A} (x : A) : keeps m0 (ret x).
Proof. now intros m. Qed.
Lemma keeps_lift m0 {A} (r : res A) : keeps m0 (lift r).
Proof. now intros m. Qed.
Lemma keeps_fetch m0 a : keeps m0 (fetch a).
Proof. now intros m. Qed.
Lemma keeps_then m0 {A B} (p : act A) (f : A -> act B) : keeps m0 p -> (forall x, keeps m0 (f x)) -> keeps m0 (andthen p f).
Proof. intros H K m Hm. unfold andthen. specialize (H m Hm). destruct (p m) as [[x|e] m']; cbn in *; auto. now apply K. Qed.
Lemma keeps_assign m0 a l : (forall i, In i a -> (free m0 <= i)%nat) -> keeps m0 (assign a l).
Proof. intros H m Hm. cbn. now apply store_later. Qed.
Lemma keeps_alloc m0 l : keeps m0 (alloc l).
Proof. intros m Hm. destruct (alloc l m) as [[a|e] m'] eqn:E; [|discriminate]. apply alloc_spec in E. destruct E as (_ & _ & K & _). cbn. now apply (later_trans _ m). Qed.
Lemma keeps_alloc_then m0 {B} l (f : arr -> act B) : (forall a, (forall i, In i a -> (free m0 <= i)%nat) -> keeps m0 (f a)) -> keeps m0 (andthen (alloc l) f).
Proof.
  intros K m Hm. unfold andthen. destruct (alloc l m) as [[a|e] m'] eqn:E; [|discriminate]. apply alloc_spec in E. destruct E as (Ea & _ & L & _).
  apply K; [|now apply (later_trans _ m)]. intros i Hi. rewrite Ea in Hi. apply in_seq in Hi. destruct Hm. lia.
Qed.
Lemma keeps_copy_then m0 {B} b (f : arr -> act B) : (forall a, (forall i, In i a -> (free m0 <= i)%nat) -> keeps m0 (f a)) -> keeps m0 (andthen (copy b) f).
Proof.
  intros K m Hm. assert (H := keeps_alloc_then m0 (look m b) f K m Hm). unfold copy, andthen, fetch in *. exact H.
Qed.
Lemma keeps_copy m0 b : keeps m0 (copy b).
Proof. apply keeps_then; [apply keeps_fetch|intros l; apply keeps_alloc]. Qed.
Lemma keeps_E m0 t tref frq lind lat g : keeps m0 (ut_E_mem t tref frq lind lat g).
Proof.
  unfold ut_E_mem. destruct (NodsatNone g); [apply keeps_ret|]. intros m Hm. destruct (rr_mem_later lat m) as (r & m' & E & LT).
  unfold andthen. rewrite E. cbn. now apply (later_trans _ m).
Qed.
Lemma keeps_masked m0 a k : keeps m0 (masked_mem a k).
Proof. apply keeps_then; [apply keeps_copy|]. intros b. apply keeps_then; [apply keeps_fetch|]. intros. apply keeps_ret. Qed.
Lemma keeps_normalize m0 parse t ep : keeps m0 (normalize_mem parse t ep).
Proof.
  destruct t as [a|x]; cbn [normalize_mem]; [destruct (eq_str ep "python"); [apply keeps_ret|apply keeps_then; [apply keeps_fetch|intros l]]|];
    (apply keeps_then; [apply keeps_lift|intros n; apply keeps_alloc]).
Qed.
Lemma keeps_each m0 {A B} (f : A -> act B) l : (forall x, keeps m0 (f x)) -> keeps m0 (each f l).
Proof. intros H. induction l as [|x l IH]; cbn [each]; [apply keeps_ret|]. apply keeps_then; auto. intros y. apply keeps_then; auto. intros. apply keeps_ret. Qed.

Lemma keeps_solve m0 L t u v lat opts : keeps m0 (solve_mem L t u v lat opts).
Proof.
  unfold solve_mem. apply keeps_then; [apply keeps_lift|intros co]. apply keeps_then.
  { unfold slvinit_mem. apply keeps_then; [apply keeps_lift|intros _]. apply keeps_then; [apply keeps_normalize|intros tn]. apply keeps_then; [apply keeps_masked|intros tin].
    apply keeps_then; [apply keeps_masked|intros uin]. apply keeps_then; [|intros; apply keeps_lift].
    destruct v as [v|]; [apply keeps_then; [apply keeps_masked|intros; apply keeps_ret]|apply keeps_ret]. }
  intros si. apply keeps_then; [apply keeps_lift|intros la]. apply keeps_then; [apply keeps_lift|intros o]. apply keeps_then; [apply keeps_lift|intros s].
  apply keeps_then; [|intros; apply keeps_lift]. unfold basis_mem. destruct (bad_empty_index _ _); [apply keeps_lift|].
  apply keeps_then; [apply keeps_E|intros E]. cbv zeta. apply keeps_then; [|intros; apply keeps_ret]. destruct (o_infer o) as [inf|]; [|apply keeps_ret].
  apply keeps_then; [|intros; apply keeps_ret]. apply keeps_each. intros r. unfold ref_columns_mem. apply keeps_then; [apply keeps_E|intros E1]. cbv zeta.
  destruct (inf_approx inf); [destruct (Nat.eqb _ _); [apply keeps_ret|apply keeps_lift]|]. apply keeps_then; [apply keeps_E|intros; apply keeps_ret].
Qed.

Lemma keeps_put m0 u good l : (forall i, In i u -> (free m0 <= i)%nat) -> keeps m0 (put_good u good l).
Proof. intros H. apply keeps_assign. intros i Hi. apply H. eapply compress_in, Hi. Qed.
Lemma keeps_add m0 u good l : (forall i, In i u -> (free m0 <= i)%nat) -> keeps m0 (add_good u good l).
Proof. intros H. apply keeps_then; [apply keeps_fetch|]. intros old. now apply keeps_put. Qed.
Lemma keeps_core m0 t good c constit a b : keeps m0 (reconstruct_core_mem t good c constit a b).
Proof.
  unfold reconstruct_core_mem. apply keeps_then; [apply keeps_lift|intros mask]. apply keeps_then; [apply keeps_lift|intros pm]. apply keeps_then; [apply keeps_E|intros E]. cbv zeta.
  apply keeps_alloc_then. intros u Hu. destruct (o_twodim (c_opt c)).
  - apply keeps_copy_then. intros v Hv. apply keeps_then; [apply keeps_lift|intros um]. apply keeps_then; [now apply keeps_put|intros _].
    apply keeps_then; [apply keeps_lift|intros vm]. apply keeps_then; [now apply keeps_put|intros _]. apply keeps_then; [|intros; apply keeps_ret].
    destruct (negb _); [|apply keeps_ret]. apply keeps_then; [apply keeps_lift|intros us]. apply keeps_then; [now apply keeps_add|intros _].
    apply keeps_then; [apply keeps_lift|intros vs]. now apply keeps_add.
  - apply keeps_then; [apply keeps_lift|intros mn]. apply keeps_then; [now apply keeps_put|intros _]. apply keeps_then; [|intros; apply keeps_ret].
    destruct (negb _); [|apply keeps_ret]. apply keeps_then; [apply keeps_lift|intros us]. now apply keeps_add.
Qed.
Lemma keeps_reconstruct m0 L t ndim c ep constit a b : keeps m0 (reconstruct_mem L t ndim c ep constit a b).
Proof.
  unfold reconstruct_mem. destruct (Nat.ltb 1 ndim); [apply keeps_lift|]. apply keeps_then; [apply keeps_normalize|intros tn]. apply keeps_then; [apply keeps_masked|intros tm].
  apply keeps_then; [apply keeps_core|intros; apply keeps_ret].
Qed.
Lemma keeps_later {A} (p : act A) m r m' : keeps m p -> p m = (r, m') -> later m m'.
Proof. intros H E. specialize (H m (later_refl m)). now rewrite E in H. Qed.

(** ** values *)
Lemma runs_lift {A} (r : res A) m : runs (lift r) m r.
Proof. exists m. split; [reflexivity|apply later_refl]. Qed.
Lemma runs_ret {A} (x : A) m : runs (ret x) m (Ok x).
Proof. exists m. split; [reflexivity|apply later_refl]. Qed.
Lemma runs_then {A B} (p : act A) (f : A -> act B) m rp (k : A -> res B) :
  runs p m rp -> (forall x m', rp = Ok x -> later m m' -> runs (f x) m' (k x)) -> runs (andthen p f) m (do x <- rp; k x).
Proof.
  intros (m1 & E & L1) H. unfold runs, andthen. rewrite E. destruct rp as [x|e]; cbn.
  - destruct (H x m1 eq_refl L1) as (m2 & E2 & L2). exists m2. split; [exact E2|now apply (later_trans _ m1)].
  - exists m1. auto.
Qed.
Lemma runs_ok {A B} (p : act A) (f : A -> act B) m x r : runs p m (Ok x) -> (forall m', later m m' -> runs (f x) m' r) -> runs (andthen p f) m r.
Proof. intros H K. apply (runs_then p f m (Ok x) (fun _ => r) H). intros y m1 E L1. injection E as <-. auto. Qed.
Lemma runs_masked a k m : runs (masked_mem a k) m (Ok (masked_invalid (look m a) k)).
Proof.
  destruct (alloc (look m a) m) as [[b|e] m1] eqn:E; [|discriminate]. destruct (alloc_spec _ _ _ _ E) as (_ & Lb & LT & _).
  exists m1. split; [|exact LT]. unfold masked_mem, copy, andthen, fetch. cbv beta iota. rewrite E. unfold ret. now rewrite Lb.
Qed.
Lemma eq_str_PStr v s : eq_str v s = true -> v = PStr s.
Proof. destruct v; cbn; try discriminate. intros H. apply String.eqb_eq in H. now subst. Qed.

(** a time argument, normalised *)
Record normalised (m : mem) (t : targ) (ep : pyval) (l : list xr) (a : arr) (m' : mem) : Prop := {
  nz_later : later m m';
  nz_look : look m' a = l;
  nz_python : forall b, t = InPlace b -> ep = PStr "python" -> a = b;
  nz_new : (ep = PStr "python" -> exists x, t = Other x) -> made_between m m' a }.
Lemma alloc_made l m a m' : alloc l m = (Ok a, m') -> made_between m m' a.
Proof.
  intros H. apply alloc_spec in H. destruct H as (-> & _ & _ & F). split; [apply seq_NoDup|]. apply Forall_forall. intros i Hi. apply in_seq in Hi. lia.
Qed.
Lemma normalize_spec parse t ep m :
  match normalize_time parse (tval m t) ep with
  | Ok l => exists a m', normalize_mem parse t ep m = (Ok a, m') /\ normalised m t ep l a m'
  | Err e => normalize_mem parse t ep m = (Err e, m)
  end.
Proof.
  assert (G : forall x, match normalize_time parse x ep with
    | Ok l => exists a m', (go n <- lift (normalize_time parse x ep); alloc n) m = (Ok a, m') /\ later m m' /\ look m' a = l /\ made_between m m' a
    | Err e => (go n <- lift (normalize_time parse x ep); alloc n) m = (Err e, m) end).
  { intros x. unfold andthen, lift. destruct (normalize_time parse x ep) as [l|e]; [|reflexivity]. destruct (alloc l m) as [[a|e] m1] eqn:E; [|discriminate].
    assert (MB := alloc_made _ _ _ _ E). apply alloc_spec in E. destruct E as (_ & La & LT & _). exists a, m1. auto. }
  destruct t as [a|x]; cbn [tval normalize_mem].
  - destruct (eq_str ep "python") eqn:EP.
    + apply eq_str_PStr in EP. subst ep. cbn. exists a, m. split; [reflexivity|]. constructor; auto; [apply later_refl|intros b H _; now injection H|].
      intros H. destruct (H eq_refl). discriminate.
    + specialize (G (TNum (look m a))).
      assert (F : (go l <- fetch a; go n <- lift (normalize_time parse (TNum l) ep); alloc n) m = (go n <- lift (normalize_time parse (TNum (look m a)) ep); alloc n) m) by reflexivity.
      rewrite F. clear F. destruct (normalize_time parse (TNum (look m a)) ep) as [l|e]; [|exact G].
      destruct G as (b & m' & E & LT & Lb & MB). exists b, m'. split; [exact E|]. constructor; auto. intros b' _ ->. discriminate EP.
  - specialize (G x). destruct (normalize_time parse x ep) as [l|e]; [|exact G].
    destruct G as (b & m' & E & LT & Lb & MB). exists b, m'. split; [exact E|]. constructor; auto. intros b' H. discriminate H.
Qed.

Lemma check_pmap {T U T' U'} (f : T -> T') (h : U -> U') t u v lat : check_args (pmap f t) (pmap h u) (option_map (pmap h) v) lat = check_args t u v lat.
Proof. destruct t, u, v as [[]|], lat; reflexivity. Qed.
Lemma data_pmap {A B} (f : A -> B) a : arr_data (pmap f a) = f (arr_data a).
Proof. now destruct a. Qed.
Lemma mask_pmap {A B} (f : A -> B) a : arr_mask (pmap f a) = arr_mask a.
Proof. now destruct a. Qed.

Lemma slvinit_spec parse t u v lat ep m : time_exists m (arr_data t) -> exists_in m (arr_data u) -> (forall w, v = Some w -> exists_in m (arr_data w)) ->
  runs (slvinit_mem parse t u v lat ep) m (slvinit parse (pmap (tval m) t) (pmap (look m) u) (option_map (pmap (look m)) v) lat ep).
Proof.
  intros ET EU EV. unfold slvinit_mem, slvinit. rewrite check_pmap. apply runs_then; [apply runs_lift|]. intros _ m0 _ L0.
  rewrite !data_pmap, !mask_pmap.
  replace (tval m (arr_data t)) with (tval m0 (arr_data t)) by (destruct (arr_data t); cbn in *; auto; now rewrite (later_look m m0)).
  assert (N := normalize_spec parse (arr_data t) ep m0). destruct (normalize_time parse (tval m0 (arr_data t)) ep) as [l|e]; cbn [bind].
  2: { exists m0. split; [|apply later_refl]. unfold andthen. now rewrite N. }
  destruct N as (a & m1 & E & [L1 La _ _]). unfold runs. unfold andthen at 1. rewrite E.
  assert (K : runs (go tin <- masked_mem a []; go uin <- masked_mem (arr_data u) (arr_mask u);
     go vin <- match v with Some v0 => go x <- masked_mem (arr_data v0) (arr_mask v0); ret (Some x) | None => ret None end; lift (slv_core tin uin vin)) m1
     (slv_core (masked_invalid l []) (masked_invalid (look m (arr_data u)) (arr_mask u))
        (option_map (fun v => masked_invalid (arr_data v) (arr_mask v)) (option_map (pmap (look m)) v)))).
  { apply (runs_ok _ _ _ _ _ (runs_masked a [] m1)). intros m2 L2. rewrite La.
    assert (L12 := later_trans _ _ _ L0 (later_trans _ _ _ L1 L2)).
    apply (runs_ok _ _ _ _ _ (runs_masked _ _ m2)). intros m3 L3. rewrite (later_look m m2) by auto.
    assert (L13 := later_trans _ _ _ L12 L3).
    destruct v as [w|]; cbn [option_map].
    - apply (runs_ok _ _ _ (Some (masked_invalid (look m3 (arr_data w)) (arr_mask w)))).
      + apply (runs_ok _ _ _ _ _ (runs_masked _ _ m3)). intros m4 _. apply runs_ret.
      + intros m4 _. rewrite data_pmap, mask_pmap, (later_look m m3) by auto. apply runs_lift.
    - apply (runs_ok _ _ _ _ _ (runs_ret None m3)). intros m4 _. apply runs_lift. }
  destruct K as (m' & E' & L'). exists m'. split; [exact E'|]. now apply (later_trans _ m1).
Qed.

Lemma each_spec {A B} (f : A -> act B) (k : A -> res B) l m : (forall x m, table_intact m -> runs (f x) m (k x)) -> table_intact m -> runs (each f l) m (mapM k l).
Proof.
  intros H. revert m. induction l as [|x l IH]; intros m T; [apply runs_ret|]. cbn [each mapM]. apply runs_then; [now apply H|]. intros y m1 _ L1.
  assert (T1 := later_intact _ _ T L1). apply runs_then; [now apply IH|]. intros ys m2 _ _. apply runs_ret.
Qed.

Lemma runs_E {B} t tref frq lind lat g (f : list (list (option C)) -> act B) m r : table_intact m ->
  (forall m', later m m' -> table_intact m' -> runs (f (ut_E t tref frq lind lat g)) m' r) -> runs (andthen (ut_E_mem t tref frq lind lat g) f) m r.
Proof.
  intros T H. apply (runs_then _ _ m (Ok (ut_E t tref frq lind lat g)) (fun _ => r)); [now apply ut_E_mem_spec|]. intros x m1 Hx L1. injection Hx as <-.
  apply H; [exact L1|now apply (later_intact m)].
Qed.
Lemma ref_spec t tref lat g ap r m : table_intact m -> runs (ref_columns_mem t tref lat g ap r) m (ref_columns t tref lat g ap r).
Proof.
  intros T. unfold ref_columns_mem, ref_columns. apply runs_E; [exact T|]. intros m1 L1 T1. cbv zeta. destruct ap.
  - destruct (Nat.eqb _ _); [apply runs_ret|apply runs_lift].
  - apply runs_E; [exact T1|]. intros m2 L2 T2. apply runs_ret.
Qed.
Lemma basis_spec t tref lor lat o s m : table_intact m -> runs (basis_mem t tref lor lat o s) m (basis t tref lor lat o s).
Proof.
  intros T. unfold basis_mem, basis. cbv zeta. destruct (bad_empty_index _ _); [apply runs_lift|]. apply runs_E; [exact T|]. intros m1 L1 T1. 
  apply runs_then; [|intros; apply runs_ret]. destruct (o_infer o) as [inf|]; [|apply runs_ret].
  apply runs_then; [|intros; apply runs_ret]. apply each_spec; [|exact T1]. intros x m2 T2. now apply ref_spec.
Qed.

Lemma solv1_split L t u v lat opts : solv1 L t u v lat opts =
  (do si <- slvinit (l_parse L) t u v lat (oget opts "epoch");
   do lat <- (match lat with Some l => Ok l | None => Err ValueError end);
   do o <- read_opt (slv_opts (match v with Some _ => true | None => false end) (si_equi si) opts);
   do s <- ut_cnstitsel (si_tref si) (xdiv (Fin (o_rmin o)) (Fin (24 * si_lor si))) (o_cnstit o) (o_infer o);
   do Bo <- basis (si_t si) (si_tref si) (si_lor si) lat o s; from_matrix L si lat o s Bo).
Proof.
  unfold solv1. destruct (slvinit _ _ _ _ _ _) as [si|]; [|reflexivity]. cbn [bind]. destruct lat as [la|]; [|reflexivity]. cbn [bind].
  destruct (read_opt _) as [o|]; [|reflexivity]. cbn [bind]. destruct (ut_cnstitsel _ _ _ _) as [s|]; [|reflexivity]. cbn [bind].
  unfold fit, from_matrix. destruct (basis _ _ _ _ _ _) as [Bo|]; [|reflexivity]. cbn [bind]. destruct (finite_mat Bo) as [B|]; [|reflexivity].
  destruct (eq_str (o_method o) "ols").
  - destruct (l_lstsq _ _ _ _) as [[[[b rss] rk] sg]|]; reflexivity.
  - destruct (robustfit_kw _ _ _ _) as [r|]; reflexivity.
Qed.

Lemma solve_spec L t u v lat opts m : table_intact m -> time_exists m (arr_data t) -> exists_in m (arr_data u) -> (forall w, v = Some w -> exists_in m (arr_data w)) ->
  runs (solve_mem L t u v lat opts) m (solve L (pmap (tval m) t) (pmap (look m) u) (option_map (pmap (look m)) v) lat opts).
Proof.
  intros T ET EU EV. unfold solve_mem, solve.
  replace (match option_map (pmap (look m)) v with Some _ => true | None => false end) with (match v with Some _ => true | None => false end) by now destruct v.
  destruct (process_opts opts _) as [co|e]; [|exists m; split; [reflexivity|apply later_refl]]. cbn [bind].
  change (runs (go si <- slvinit_mem (l_parse L) t u v lat (oget co "epoch");
    go lat <- lift (match lat with Some l => Ok l | None => Err ValueError end);
    go o <- lift (read_opt (slv_opts (match v with Some _ => true | None => false end) (si_equi si) co));
    go s <- lift (ut_cnstitsel (si_tref si) (xdiv (Fin (o_rmin o)) (Fin (24 * si_lor si))) (o_cnstit o) (o_infer o));
    go Bo <- basis_mem (si_t si) (si_tref si) (si_lor si) lat o s;
    lift (from_matrix L si lat o s Bo)) m (solv1 L (pmap (tval m) t) (pmap (look m) u) (option_map (pmap (look m)) v) lat co)).
  rewrite solv1_split.
  replace (match option_map (pmap (look m)) v with Some _ => true | None => false end) with (match v with Some _ => true | None => false end) by now destruct v.
  apply runs_then; [now apply slvinit_spec|]. intros si m1 _ L1. assert (T1 := later_intact _ _ T L1).
  apply runs_then; [apply runs_lift|]. intros la m2 _ L2. assert (T2 := later_intact _ _ T1 L2). apply runs_then; [apply runs_lift|]. intros o m3 _ L3. assert (T3 := later_intact _ _ T2 L3).
  apply runs_then; [apply runs_lift|]. intros s m4 _ L4. assert (T4 := later_intact _ _ T3 L4). apply runs_then; [now apply basis_spec|]. intros Bo m5 _ _. apply runs_lift.
Qed.
