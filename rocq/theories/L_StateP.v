(** Cases and counterexamples for shared objects. *)
From Coq Require Import Reals.
From Verif Require Import M_Base M_Bunch M_Lib M_Options M_Time M_Slvinit M_Select M_Ellipse M_Robust M_Period M_Conf M_Diag M_Solve M_Recon M_State
  S_Dict S_Options S_Equal S_Model S_State L_Example L_Example4 L_Example6 L_Robust5 L_Robust6 L_Robust3 L_State L_StateEx.
Open Scope R_scope.
Open Scope string_scope.

Lemma written : exists c n h', solve_st inf_L inf_heap ex_t (inf_u false) None (Some 45) inf_args = (Ok (c, n), h') /\ h' 1%nat <> inf_heap 1%nat.
Proof. destruct inf_shared as (c & n & h' & E & H & _). exists c, n, h'. split; [exact E|]. rewrite H. discriminate. Qed.
Lemma value_case : unique_keys inf_args /\ inf_heap shared_kw = default_kw /\ (forall l, In ("infer", Object l) inf_args -> only_infer l inf_args) /\
  exists c, solve inf_L ex_t (inf_u false) None (Some 45) (read_args inf_heap inf_args) = Ok c.
Proof.
  split; [exact inf_unique|]. split; [reflexivity|]. split; [auto using inf_only|]. destruct inf_shared as (c & n & h' & E & _). exists c.
  rewrite <- (top_value _ _ _ _ _ _ _ inf_unique) by auto using inf_only. rewrite E. reflexivity.
Qed.
Definition inf_call : call := {| k_lib := inf_L; k_t := ex_t; k_u := inf_u false; k_v := None; k_lat := Some 45; k_opts := inf_args |}.
Lemma history_case : exists c n, fst (inf_heap shared_kw) = false /\ (forall k l, In k [inf_call] -> In ("infer", Object l) (k_opts k) -> only_infer l inf_args) /\
  run_calls inf_heap [inf_call] 1%nat <> inf_heap 1%nat /\
  fst (solve_st inf_L (run_calls inf_heap [inf_call]) ex_t (inf_u false) None (Some 45) inf_args) = Ok (c, n).
Proof.
  destruct inf_shared as (c & n & h' & E & H & _). exists c, n. split; [reflexivity|]. split; [intros; apply inf_only|]. split.
  - unfold run_calls, run_call, inf_call. cbn [fold_left k_lib k_t k_u k_v k_lat k_opts]. rewrite E. cbn [snd]. rewrite H. discriminate.
  - rewrite top_history; [now rewrite E|reflexivity|]. intros; apply inf_only.
Qed.
Lemma kept_case : exists c n h', unique_keys inf_args /\ solve_st inf_L inf_heap ex_t (inf_u false) None (Some 45) inf_args = (Ok (c, n), h') /\
  In ("infer", Object 1) n /\ In ("robust_kw", Object shared_kw) n.
Proof.
  destruct inf_shared as (c & n & h' & E & H & _). exists c, n, h'. split; [exact inf_unique|]. split; [exact E|].
  destruct (top_kept_refs _ _ _ _ _ _ _ _ _ _ inf_unique E) as (K1 & K2 & _). split; [apply K1; now left|]. apply K2. cbn. intuition discriminate.
Qed.
Lemma reconstruct_case : exists c, solve inf_L ex_t (inf_u false) None (Some 45) (inf_opts false) = Ok c /\ with_options (with_shared None PNone (c_opt c)) c <> c.
Proof.
  destruct (inf_run false) as [c F]. exists c. split; [exact (an_solve _ _ _ _ _ _ _ _ (if_an _ _ F))|]. intros Q. apply (f_equal (fun z => o_infer (c_opt z))) in Q.
  cbn [with_options c_opt with_shared o_infer] in Q. rewrite (if_in _ _ F) in Q. discriminate.
Qed.
Lemma not_unchanged : ~ forall L h t u v lat opts c n h', unique_keys opts -> h shared_kw = default_kw ->
  (forall l, In ("infer", Object l) opts -> only_infer l opts) -> solve_st L h t u v lat opts = (Ok (c, n), h') -> forall l, h' l = h l.
Proof.
  intros A. destruct written as (c & n & h' & E & H). apply H. exact (A _ _ _ _ _ _ _ _ _ _ inf_unique eq_refl (fun l _ => inf_only l) E 1%nat).
Qed.
Lemma not_own : ~ forall L h t u v lat opts c n h' l o, unique_keys opts -> h shared_kw = default_kw ->
  solve_st L h t u v lat opts = (Ok (c, n), h') -> In ("robust_kw", Object l) n -> (forall k, ~ In (k, Object l) opts) ->
  fst (solve_st L (write h' l o) t u v lat opts) = Ok (c, n).
Proof.
  intros A. destruct pair_shared as (c & n & h' & E & I & H). apply (H c n).
  exact (A _ _ _ _ _ _ _ _ _ _ _ typo pair_given_unique eq_refl E I (fun k => given_none _ k _)).
Qed.
