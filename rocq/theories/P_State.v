(** C99: side effects and shared objects. *)
From Coq Require Import Reals.
From Verif Require Import M_Base M_Bunch M_Lib M_Options M_Time M_Slvinit M_Select M_Ellipse M_Robust M_Period M_Conf M_Diag M_Solve M_Recon M_State
  S_Dict S_Options S_Equal S_State L_Example L_Example4 L_Example6 L_Robust5 L_Robust6 L_State L_StateEx L_StateP.
Open Scope R_scope.
Open Scope string_scope.

(** A call changes no object except the Bunch passed as infer, and to that one it adds the item approximate = False when it has none. *)
Theorem C99_frame L h t u v lat opts r h' l : solve_st L h t u v lat opts = (r, h') -> h' l = h l \/
  (In ("infer", Object l) opts /\ fst (h l) = true /\ ~ In "approximate" (keys (snd (h l))) /\ h' l = (true, completed (snd (h l)))).
Proof. exact (top_frame L h t u v lat opts r h' l). Qed.
Print Assumptions C99_frame.
Example C99_frame_example : exists c n h', solve_st inf_L inf_heap ex_t (inf_u false) None (Some 45) inf_args = (Ok (c, n), h') /\ h' 1%nat <> inf_heap 1%nat.
Proof. exact written. Qed.

(** The outcome of a call is that of solve on the values of the options. *)
Theorem C99_value L h t u v lat opts : unique_keys opts -> h shared_kw = default_kw -> (forall l, In ("infer", Object l) opts -> only_infer l opts) ->
  coefficients (fst (solve_st L h t u v lat opts)) = solve L t u v lat (read_args h opts).
Proof. exact (top_value L h t u v lat opts). Qed.
Print Assumptions C99_value.
Example C99_value_example : unique_keys inf_args /\ inf_heap shared_kw = default_kw /\ (forall l, In ("infer", Object l) inf_args -> only_infer l inf_args) /\
  exists c, solve inf_L ex_t (inf_u false) None (Some 45) (read_args inf_heap inf_args) = Ok c.
Proof. exact value_case. Qed.

(** Earlier calls, with whatever data and options, whether they succeeded or failed, do not influence a call. *)
Theorem C99_history L h ks t u v lat opts : fst (h shared_kw) = false ->
  (forall k l, In k ks -> In ("infer", Object l) (k_opts k) -> only_infer l opts) ->
  fst (solve_st L (run_calls h ks) t u v lat opts) = fst (solve_st L h t u v lat opts).
Proof. exact (top_history L h ks t u v lat opts). Qed.
Print Assumptions C99_history.
(* the same call, repeated, with the object that the first call has changed *)
Example C99_history_example : exists c n, fst (inf_heap shared_kw) = false /\ (forall k l, In k [inf_call] -> In ("infer", Object l) (k_opts k) -> only_infer l inf_args) /\
  run_calls inf_heap [inf_call] 1%nat <> inf_heap 1%nat /\
  fst (solve_st inf_L (run_calls inf_heap [inf_call]) ex_t (inf_u false) None (Some 45) inf_args) = Ok (c, n).
Proof. exact history_case. Qed.

(** The result refers to the caller's own infer and robust_kw objects, and to the package's dictionary when robust_kw was not given. *)
Theorem C99_kept L h t u v lat opts c n h' : unique_keys opts -> solve_st L h t u v lat opts = (Ok (c, n), h') ->
  (forall l, In ("infer", Object l) opts -> In ("infer", Object l) n) /\ (~ In "robust_kw" (keys opts) -> In ("robust_kw", Object shared_kw) n) /\
  (forall l, In ("robust_kw", Object l) opts -> In ("robust_kw", Object l) n).
Proof. exact (top_kept_refs L h t u v lat opts c n h'). Qed.
Print Assumptions C99_kept.
Example C99_kept_example : exists c n h', unique_keys inf_args /\ solve_st inf_L inf_heap ex_t (inf_u false) None (Some 45) inf_args = (Ok (c, n), h') /\
  In ("infer", Object 1) n /\ In ("robust_kw", Object shared_kw) n.
Proof. exact kept_case. Qed.

(** What later happens to these objects does not matter to reconstruct. *)
Theorem C99_reconstruct L t ndim c epoch constit min_SNR min_PE inf kw :
  reconstruct L t ndim (with_options (with_shared inf kw (c_opt c)) c) epoch constit min_SNR min_PE = reconstruct L t ndim c epoch constit min_SNR min_PE.
Proof. exact (top_reconstruct L t ndim c epoch constit min_SNR min_PE inf kw). Qed.
Print Assumptions C99_reconstruct.
Example C99_reconstruct_example : exists c, solve inf_L ex_t (inf_u false) None (Some 45) (inf_opts false) = Ok c /\ with_options (with_shared None PNone (c_opt c)) c <> c.
Proof. exact reconstruct_case. Qed.

(** The arguments are not always left as they were. *)
Theorem C99_arguments_unchanged_refuted : ~ forall L h t u v lat opts c n h', unique_keys opts -> h shared_kw = default_kw ->
  (forall l, In ("infer", Object l) opts -> only_infer l opts) -> solve_st L h t u v lat opts = (Ok (c, n), h') -> forall l, h' l = h l.
Proof. exact not_unchanged. Qed.
Print Assumptions C99_arguments_unchanged_refuted.

(** A change to an object inside a result, one that the caller did not pass, can change the outcome of a later call with the same arguments. *)
Theorem C99_own_result_refuted : ~ forall L h t u v lat opts c n h' l o, unique_keys opts -> h shared_kw = default_kw ->
  solve_st L h t u v lat opts = (Ok (c, n), h') -> In ("robust_kw", Object l) n -> (forall k, ~ In (k, Object l) opts) ->
  fst (solve_st L (write h' l o) t u v lat opts) = Ok (c, n).
Proof. exact not_own. Qed.
Print Assumptions C99_own_result_refuted.
