(** Example sessions. *)
From Coq Require Import QArith Qreals Lia Lra.
From Verif Require Import M_Base M_Lib M_Tables M_Const M_Time M_Options M_Slvinit M_Harmonics M_Select M_Ellipse M_Robust M_Period M_Conf M_Diag M_Solve M_Recon M_Memory
  S_Dict S_Options S_Slv S_Model S_Recon S_Memory L_Example L_Robust6 L_Example25 L_Exact L_Recon L_Recon2 L_Recon3 L_Recon4 L_Slv L_Memory L_Memory2 L_Memory3 L_Memory4.
Open Scope R_scope.
Open Scope string_scope.

Lemma two_arrays m0 l1 l2 l3 : length l3 = length l2 ->
  let a1 := seq (free m0) (length l1) in let a2 := seq (free m0 + length l1) (length l2) in
  let m := store (snd (alloc l2 (snd (alloc l1 m0)))) a2 l3 in
  look m a1 = l1 /\ look m a2 = l3 /\ free m = (free m0 + length l1 + length l2)%nat.
Proof.
  intros H. cbv zeta. destruct (alloc l1 m0) as [[b1|e] m1] eqn:E1; [|discriminate]. destruct (alloc_spec _ _ _ _ E1) as (B1 & L1 & T1 & F1).
  cbn [snd]. destruct (alloc l2 m1) as [[b2|e] m2] eqn:E2; [|discriminate]. destruct (alloc_spec _ _ _ _ E2) as (B2 & L2 & T2 & F2). cbn [snd]. rewrite F1 in *.
  subst b1 b2. split; [|split].
  - rewrite look_other. { rewrite <- L1 at 2. apply later_look; [exact T2|]. apply Forall_forall. intros i Hi. apply in_seq in Hi. lia. }
    intros i Hi K. apply in_seq in Hi, K. lia.
  - apply look_store; [apply seq_NoDup|]. now rewrite seq_length.
  - rewrite store_free, F2. reflexivity.
Qed.
Lemma imported_free : free imported = length sat_amprat.
Proof. unfold imported. now rewrite store_free. Qed.

Definition session : list step := [Creating (map Fin ext); Creating [NaN; NaN; NaN; NaN]; Writing (seq (length sat_amprat + 4) 4) (arr_data up)].
Lemma session_ok : Forall respectful session.
Proof. repeat constructor. intros i Hi K. cbn [respectful] in *. unfold table in K. apply in_seq in Hi. apply in_seq in K. lia. Qed.
Lemma session_state : let m := run_steps imported session in
  look m (seq (length sat_amprat) 4) = map Fin ext /\ look m (seq (length sat_amprat + 4) 4) = arr_data up /\ free m = (length sat_amprat + 4 + 4)%nat.
Proof.
  cbv zeta. unfold session, run_steps. cbn [fold_left run_step]. rewrite <- imported_free.
  exact (two_arrays imported (map Fin ext) [NaN; NaN; NaN; NaN] (arr_data up) eq_refl).
Qed.
Lemma session_run : exists c, let m := run_steps imported session in
  let t := NdArr [4%nat] (InPlace (seq (length sat_amprat) 4)) [] in let u := NdArr [4%nat] (seq (length sat_amprat + 4) 4) [] in
  time_exists m (arr_data t) /\ exists_in m (arr_data u) /\ pmap (tval m) t = ex_t /\ pmap (look m) u = up /\
  fst (solve_mem exactL t u None (Some 45) (rb_opts [] []) m) = Ok c.
Proof.
  destruct (rb_ols [] up smp no_names smp_samples smp_some) as [c A]. cbn [map] in A. exists c.
  assert (TI := top_session session session_ok). destruct session_state as (LT & LU & FM). cbv zeta. generalize dependent (run_steps imported session). intros m TI LT LU FM.
  assert (ET : exists_in m (seq (length sat_amprat) 4)) by (apply Forall_forall; intros i Hi; apply in_seq in Hi; lia).
  assert (EU : exists_in m (seq (length sat_amprat + 4) 4)) by (apply Forall_forall; intros i Hi; apply in_seq in Hi; lia).
  assert (VT : pmap (tval m) (NdArr [4%nat] (InPlace (seq (length sat_amprat) 4)) []) = ex_t) by (cbn [pmap tval]; rewrite LT; reflexivity).
  assert (VU : pmap (look m) (NdArr [4%nat] (seq (length sat_amprat + 4) 4) []) = up) by (cbn [pmap]; rewrite LU; reflexivity).
  split; [exact ET|]. split; [exact EU|]. split; [exact VT|]. split; [exact VU|].
  rewrite (top_solve_value exactL (NdArr [4%nat] (InPlace (seq (length sat_amprat) 4)) []) (NdArr [4%nat] (seq (length sat_amprat + 4) 4) []) None (Some 45) (rb_opts [] []) m TI ET EU) by discriminate.
  rewrite VT, VU. apply A.
Qed.

(** reconstruct on times that the caller has in an array *)
Definition times : list xr := [Fin 730001; NaN; Fin 730002].
Lemma times_run ep : ep = PStr "python" \/ ep = PStr "matlab" -> let m := run_steps imported [Creating times] in
  let a := seq (length sat_amprat) 3 in
  table_intact m /\ time_exists m (InPlace a) /\ look m a = times /\
  exists o m', reconstruct_mem (exL m_scalar) (InPlace a) 1 (eq_coef 45) ep CNone 0 0 m = (Ok o, m').
Proof.
  intros HE. assert (TI : table_intact (run_steps imported [Creating times])) by (apply top_session; repeat constructor). cbv zeta. cbn [run_steps fold_left run_step] in *.
  destruct (alloc times imported) as [[b|e] m] eqn:E; [|discriminate]. destruct (alloc_spec _ _ _ _ E) as (B & LB & _ & F). rewrite imported_free in *. cbn [snd] in *.
  change (length times) with 3%nat in *. subst b.
  assert (ET : time_exists m (InPlace (seq (length sat_amprat) 3))) by (apply Forall_forall; intros i Hi; apply in_seq in Hi; lia).
  split; [exact TI|]. split; [exact ET|]. split; [exact LB|].
  assert (S := rec_spec (exL m_scalar) (InPlace (seq (length sat_amprat) 3)) 1 (eq_coef 45) ep CNone 0 0 m TI ET). cbn [tval] in S. rewrite LB in S.
  assert (R : exists ro, reconstruct (exL m_scalar) (TNum times) 1 (eq_coef 45) ep CNone 0 0 = Ok ro).
  { rewrite (reconstruct_eq _ _ _ _ _ _ _ _ (eq_wf 45)). destruct HE as [-> | ->]; eexists; reflexivity. }
  destruct R as [ro R]. rewrite R in S. destruct S as (o & m' & E' & _). eauto.
Qed.
