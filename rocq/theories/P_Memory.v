(** C109: arrays that are shared or written in place. *)
From Coq Require Import QArith Lia Lra.
From Verif Require Import M_Base M_Lib M_Tables M_Options M_Time M_Slvinit M_Select M_Ellipse M_Robust M_Period M_Conf M_Diag M_Solve M_Recon M_Memory
  S_Dict S_Options S_Slv S_Model S_Recon S_Memory L_Example L_Robust6 L_Example25 L_Exact L_Recon4 L_Memory L_Memory2 L_Memory3 L_Memory4 L_Memory5.
Open Scope R_scope.
Open Scope string_scope.

(** C109.  Whatever the arguments and whether the call succeeds or raises: every array that existed before a call of solve shows
    afterwards what it showed before - times and data of the caller, results of earlier calls, the table of the package ... *)
Theorem C109_solve_unchanged : forall L t u v lat opts m r m', solve_mem L t u v lat opts m = (r, m') -> nothing_changed m m'.
Proof. exact top_solve_frame. Qed.
Print Assumptions C109_solve_unchanged.

(** ... and so with reconstruct. *)
Theorem C109_reconstruct_unchanged : forall L t nd c ep k x y m r m', reconstruct_mem L t nd c ep k x y m = (r, m') -> nothing_changed m m'.
Proof. exact top_rec_frame. Qed.
Print Assumptions C109_reconstruct_unchanged.

(** After any session - calls with any arguments, succeeding or not, the caller creating arrays and writing to arrays other than
    the package's table, results of reconstruct and its own arguments included - the table is as loaded. *)
Theorem C109_session : forall ss, Forall respectful ss -> table_intact (run_steps imported ss).
Proof. exact top_session. Qed.
Print Assumptions C109_session.

(** Then the outcome of solve is the function of the present contents of its arguments that the other claims are about ... *)
Theorem C109_solve_value : forall L t u v lat opts m, table_intact m ->
  time_exists m (arr_data t) -> exists_in m (arr_data u) -> (forall w, v = Some w -> exists_in m (arr_data w)) ->
  fst (solve_mem L t u v lat opts m) = solve L (pmap (tval m) t) (pmap (look m) u) (option_map (pmap (look m)) v) lat opts.
Proof. exact top_solve_value. Qed.
Print Assumptions C109_solve_value.

(** ... and so is the outcome of reconstruct. *)
Theorem C109_reconstruct_value : forall L t nd c ep k x y m r m', table_intact m -> time_exists m t -> reconstruct_mem L t nd c ep k x y m = (r, m') ->
  match r with
  | Ok o => exists ro, reconstruct L (tval m t) nd c ep k x y = Ok ro /\ contents m' o = ro_series ro /\
      (ep <> PStr "python" -> exists a, rr_t_mpl o = InPlace a /\ ro_t_mpl ro = inr (look m' a))
  | Err e => reconstruct L (tval m t) nd c ep k x y = Err e
  end.
Proof. exact top_rec_value. Qed.
Print Assumptions C109_reconstruct_value.

(** The series that reconstruct returns are new arrays, u and v without a number in common.  t_in is the caller's object; t_mpl is the
    same object with epoch='python', else a new array apart from the series. *)
Theorem C109_reconstruct_arrays : forall L t nd c ep k x y m o m', table_intact m -> time_exists m t -> reconstruct_mem L t nd c ep k x y m = (Ok o, m') ->
  Forall (made_between m m') (arrays_of o) /\ (forall a b, arrays_of o = [a; b] -> apart a b) /\ rr_t_in o = t /\ (ep = PStr "python" -> rr_t_mpl o = t) /\
  (ep <> PStr "python" -> exists a, rr_t_mpl o = InPlace a /\ made_between m m' a /\ Forall (apart a) (arrays_of o)).
Proof. exact top_rec_arrays. Qed.
Print Assumptions C109_reconstruct_arrays.

(** So writing to a returned series changes no array that existed before the call. *)
Theorem C109_own_series : forall L t nd c ep k x y m o m' a l b, table_intact m -> time_exists m t -> reconstruct_mem L t nd c ep k x y m = (Ok o, m') ->
  In a (arrays_of o) -> exists_in m b -> look (store m' a l) b = look m b.
Proof. exact top_rec_own. Qed.
Print Assumptions C109_own_series.

(** a session: the caller makes arrays of times and data, and overwrites the data; then an analysis *)
Example C109_solve_example : Forall respectful session /\ exists c, let m := run_steps imported session in
  let t := NdArr [4%nat] (InPlace (seq (length sat_amprat) 4)) [] in let u := NdArr [4%nat] (seq (length sat_amprat + 4) 4) [] in
  time_exists m (arr_data t) /\ exists_in m (arr_data u) /\ pmap (tval m) t = ex_t /\ pmap (look m) u = up /\
  fst (solve_mem exactL t u None (Some 45) (rb_opts [] []) m) = Ok c.
Proof. exact (conj session_ok session_run). Qed.
(** reconstruct from K1 with nodal corrections, on an array of times with a NaN *)
Example C109_reconstruct_example : forall ep, ep = PStr "python" \/ ep = PStr "matlab" -> let m := run_steps imported [Creating times] in
  let a := seq (length sat_amprat) 3 in
  table_intact m /\ time_exists m (InPlace a) /\ look m a = [Fin 730001; NaN; Fin 730002] /\
  exists o m', reconstruct_mem (exL m_scalar) (InPlace a) 1 (eq_coef 45) ep CNone 0 0 m = (Ok o, m').
Proof. exact times_run. Qed.
