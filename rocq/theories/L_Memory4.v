(** Whole calls and sessions in memory. *)
From Coq Require Import QArith Qreals Lia Lra.
From Verif Require Import M_Base M_Lib M_Tables M_Const M_Time M_Options M_Slvinit M_Harmonics M_Select M_Ellipse M_Robust M_Period M_Conf M_Diag M_Solve M_Recon M_Memory
  S_Memory L_Slv L_Memory L_Memory2 L_Memory3.
Open Scope R_scope.
Open Scope string_scope.

Lemma top_solve_frame L t u v lat opts m r m' : solve_mem L t u v lat opts m = (r, m') -> nothing_changed m m'.
Proof. intros E. apply later_nothing. exact (keeps_later _ _ _ _ (keeps_solve m L t u v lat opts) E). Qed.
Lemma top_rec_frame L t nd c ep k x y m r m' : reconstruct_mem L t nd c ep k x y m = (r, m') -> nothing_changed m m'.
Proof. intros E. apply later_nothing. exact (keeps_later _ _ _ _ (keeps_reconstruct m L t nd c ep k x y) E). Qed.

Lemma top_solve_value L t u v lat opts m : table_intact m -> time_exists m (arr_data t) -> exists_in m (arr_data u) -> (forall w, v = Some w -> exists_in m (arr_data w)) ->
  fst (solve_mem L t u v lat opts m) = solve L (pmap (tval m) t) (pmap (look m) u) (option_map (pmap (look m)) v) lat opts.
Proof. intros T ET EU EV. destruct (solve_spec L t u v lat opts m T ET EU EV) as (m' & E & _). now rewrite E. Qed.

Record returned (L : lib) (t : targ) (ep : pyval) (m m' : mem) (ro : rec_out) (o : rec_refs) : Prop := {
  rt_contents : contents m' o = ro_series ro;
  rt_made : Forall (made_between m m') (arrays_of o);
  rt_apart : forall a b, arrays_of o = [a; b] -> apart a b;
  rt_in : rr_t_in o = t;
  rt_python : ep = PStr "python" -> rr_t_mpl o = t;
  rt_other : ep <> PStr "python" -> exists a, rr_t_mpl o = InPlace a /\ ro_t_mpl ro = inr (look m' a) /\ made_between m m' a /\ Forall (apart a) (arrays_of o) }.

Lemma rec_spec L t nd c ep k x y m : table_intact m -> time_exists m t ->
  match reconstruct L (tval m t) nd c ep k x y with
  | Ok ro => exists o m', reconstruct_mem L t nd c ep k x y m = (Ok o, m') /\ returned L t ep m m' ro o
  | Err e => exists m', reconstruct_mem L t nd c ep k x y m = (Err e, m')
  end.
Proof.
  intros T ET. unfold reconstruct, reconstruct_mem. destruct (Nat.ltb 1 nd); [now exists m|].
  assert (N := normalize_spec (l_parse L) t ep m). destruct (normalize_time (l_parse L) (tval m t) ep) as [l|e]; cbn [bind].
  2: { exists m. now apply then_err. }
  destruct N as (a & m1 & E1 & [L1 La NP NN]). destruct (runs_masked a [] m1) as (m2 & E2 & L2). rewrite La in E2. assert (L12 := later_trans _ _ _ L1 L2). assert (T2 := later_intact _ _ T L12).
  assert (S := core_spec (masked_invalid l []) c k x y m2 T2). cbv zeta.
  destruct (reconstruct_core (somes (masked_invalid l [])) (goodmask (masked_invalid l [])) c k x y) as [s|e]; cbn [bind].
  2: { destruct S as (m3 & E3). exists m3. rewrite (then_ok _ _ _ _ _ E1), (then_ok _ _ _ _ _ E2). now apply then_err. }
  destruct S as (r & m3 & E3 & SH & MB & AP). eexists. exists m3. split.
  { rewrite (then_ok _ _ _ _ _ E1), (then_ok _ _ _ _ _ E2), (then_ok _ _ _ _ _ E3). reflexivity. }
  assert (L3 : later m2 m3) by (exact (keeps_later _ _ _ _ (keeps_core m2 _ _ c k x y) E3)).
  constructor; cbn [contents arrays_of rr_series ro_series rr_t_in rr_t_mpl ro_t_mpl].
  - rewrite <- SH. now destruct r.
  - change (Forall (made_between m m3) (refs r)). eapply Forall_impl; [|exact MB]. intros b. now apply made_later.
  - exact AP.
  - reflexivity.
  - intros ->. reflexivity.
  - intros NE. assert (EF : eq_str ep "python" = false). { destruct (eq_str ep "python") eqn:EP; auto. apply eq_str_PStr in EP. contradiction. }
    rewrite EF. exists a. assert (MA : made_between m m1 a) by (apply NN; intros EP; contradiction).
    split; [reflexivity|]. split; [|split].
    + f_equal. rewrite <- La. symmetry. apply later_look; [now apply (later_trans _ m2)|]. destruct MA as [_ MA]. eapply Forall_impl; [|exact MA]. cbn. intros; lia.
    + apply (made_upto _ m1); [exact MA|]. destruct L2, L3. lia.
    + change (Forall (apart a) (refs r)). eapply Forall_impl; [|exact MB]. intros b Hb. apply (made_apart m m2 m3); [|exact Hb]. apply (made_upto _ m1); [exact MA|]. now destruct L2.
Qed.
Lemma top_rec_value L t nd c ep k x y m r m' : table_intact m -> time_exists m t -> reconstruct_mem L t nd c ep k x y m = (r, m') ->
  match r with
  | Ok o => exists ro, reconstruct L (tval m t) nd c ep k x y = Ok ro /\ contents m' o = ro_series ro /\
      (ep <> PStr "python" -> exists a, rr_t_mpl o = InPlace a /\ ro_t_mpl ro = inr (look m' a))
  | Err e => reconstruct L (tval m t) nd c ep k x y = Err e
  end.
Proof.
  intros T ET E. assert (S := rec_spec L t nd c ep k x y m T ET). destruct (reconstruct L (tval m t) nd c ep k x y) as [ro|e].
  - destruct S as (o & m1 & E1 & H). rewrite E in E1. injection E1 as -> ->. exists ro. split; [reflexivity|]. split; [apply H|]. intros NE.
    destruct (rt_other _ _ _ _ _ _ _ H NE) as (a & A1 & A2 & _). eauto.
  - destruct S as (m1 & E1). rewrite E in E1. now injection E1 as -> ->.
Qed.
Lemma top_rec_arrays L t nd c ep k x y m o m' : table_intact m -> time_exists m t -> reconstruct_mem L t nd c ep k x y m = (Ok o, m') ->
  Forall (made_between m m') (arrays_of o) /\ (forall a b, arrays_of o = [a; b] -> apart a b) /\ rr_t_in o = t /\ (ep = PStr "python" -> rr_t_mpl o = t) /\
  (ep <> PStr "python" -> exists a, rr_t_mpl o = InPlace a /\ made_between m m' a /\ Forall (apart a) (arrays_of o)).
Proof.
  intros T ET E. assert (S := rec_spec L t nd c ep k x y m T ET). destruct (reconstruct L (tval m t) nd c ep k x y) as [ro|e].
  - destruct S as (o1 & m1 & E1 & H). rewrite E in E1. injection E1 as <- <-. destruct H as [H1 H2 H3 H4 H5 H6]. do 4 (split; [assumption|]). intros NE.
    destruct (H6 NE) as (a & A1 & _ & A3 & A4). eauto.
  - destruct S as (m1 & E1). rewrite E in E1. discriminate.
Qed.
(** writing to a returned series *)
Lemma top_rec_own L t nd c ep k x y m o m' a l b : table_intact m -> time_exists m t -> reconstruct_mem L t nd c ep k x y m = (Ok o, m') ->
  In a (arrays_of o) -> exists_in m b -> look (store m' a l) b = look m b.
Proof.
  intros T ET E Ha Hb. destruct (top_rec_arrays L t nd c ep k x y m o m' T ET E) as (H & _). destruct (top_rec_frame _ _ _ _ _ _ _ _ _ _ _ E) as [_ F].
  rewrite <- (F b Hb). apply look_other. intros i Hi K. rewrite Forall_forall in H. destruct (H a Ha) as [_ G]. unfold exists_in in Hb. rewrite Forall_forall in G, Hb.
  apply G in K. apply Hb in Hi. lia.
Qed.

Lemma imported_intact : table_intact imported.
Proof.
  split; [unfold imported; rewrite store_free; apply le_n|]. apply look_store; [apply seq_NoDup|]. unfold table. now rewrite map_length, seq_length.
Qed.
Lemma step_intact m s : respectful s -> table_intact m -> table_intact (run_step m s).
Proof.
  intros R T. destruct s as [L t u v lat opts|L t nd c ep k x y|l|a l]; cbn [run_step].
  - destruct (solve_mem L t u v lat opts m) as [r m'] eqn:E. apply (later_intact m); [exact T|]. exact (keeps_later _ _ _ _ (keeps_solve m L t u v lat opts) E).
  - destruct (reconstruct_mem L t nd c ep k x y m) as [r m'] eqn:E. apply (later_intact m); [exact T|]. exact (keeps_later _ _ _ _ (keeps_reconstruct m L t nd c ep k x y) E).
  - destruct (alloc l m) as [r m'] eqn:E. apply (later_intact m); [exact T|]. exact (keeps_later _ _ _ _ (keeps_alloc m l) E).
  - destruct T as [T1 T2]. split; [now rewrite store_free|]. rewrite look_other; [exact T2|]. now apply apart_sym.
Qed.
Lemma top_session ss : Forall respectful ss -> table_intact (run_steps imported ss).
Proof.
  unfold run_steps. assert (T := imported_intact). generalize dependent imported. induction ss as [|s ss IH]; intros m T H; [exact T|]. inversion H; subst.
  cbn [fold_left]. apply IH; auto. now apply step_intact.
Qed.
