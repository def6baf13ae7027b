(** Runs of solve with shared objects. *)
From Coq Require Import Lia Lra.
From Verif Require Import M_Base M_Bunch M_Lib M_Tables M_Const M_Options M_Time M_Slvinit M_Harmonics M_Select M_Ellipse M_Robust M_Period M_Conf M_Diag M_Solve M_Recon M_State
  S_Dict S_Options S_Select S_Fit S_Model S_Equal S_State L_Base L_Options L_SolveInv L_Example L_Example3 L_Example4 L_Example6 L_Robust L_Robust2 L_Robust3 L_Robust5 L_Robust6 L_State.
Open Scope R_scope.
Open Scope string_scope.

(** an inference object without the item approximate, at place 1 *)
Definition inf_items : dict pyval :=
  [("inferred_names", PSeq [PStr "S2"]); ("reference_names", PSeq [PStr "M2"]); ("amp_ratios", PSeq [PNum (/ 2)]); ("phase_offsets", PSeq [PNum 0])].
Definition inf_heap : heap := fun l => match l with O => default_kw | _ => (true, inf_items) end.
Definition given (d : dict pyval) : dict arg := map (fun kv => (fst kv, Given (snd kv))) d.
Definition inf_args : dict arg := ("infer", Object 1) :: given off_opts.
Lemma given_read h d : read_args h (given d) = d.
Proof. unfold read_args, given. rewrite map_map. cbn [fst snd value]. induction d as [|[k v] d IH]; [reflexivity|]. cbn [map fst snd]. now rewrite IH. Qed.
Lemma given_keys d : dkeys (given d) = dkeys d.
Proof. unfold dkeys, given. rewrite map_map. reflexivity. Qed.
Lemma given_none d k l : ~ In (k, Object l) (given d).
Proof. unfold given. intros H. apply in_map_iff in H. destruct H as ([k' v'] & E & _). discriminate. Qed.
Lemma inf_unique : unique_keys inf_args.
Proof. repeat constructor; cbn; intuition discriminate. Qed.
Lemma inf_only l : only_infer l inf_args.
Proof. intros k [[= <- _]|H]; [reflexivity|]. now apply given_none in H. Qed.
Lemma inf_process : exists compat, process_opts (inf_opts false) false = Ok compat /\ process_opts (read_args inf_heap inf_args) false = Ok compat.
Proof.
  destruct (process_opts (inf_opts false) false) as [compat|] eqn:E; [|discriminate]. exists compat. split; [reflexivity|]. rewrite <- E. clear E.
  unfold inf_args. cbn [read_args map fst snd value]. fold (read_args inf_heap (given off_opts)). rewrite given_read. reflexivity.
Qed.
Lemma inf_shared : exists c n h', solve_st inf_L inf_heap ex_t (inf_u false) None (Some 45) inf_args = (Ok (c, n), h') /\
  h' 1%nat = (true, completed inf_items) /\ solve inf_L ex_t (inf_u false) None (Some 45) (inf_opts false) = Ok c.
Proof.
  destruct (inf_run false) as [c F]. assert (S := an_solve _ _ _ _ _ _ _ _ (if_an _ _ F)). destruct inf_process as (compat & P1 & P2).
  assert (S' : solve inf_L ex_t (inf_u false) None (Some 45) (read_args inf_heap inf_args) = Ok c) by (unfold solve in S |- *; rewrite P2; rewrite P1 in S; exact S).
  rewrite <- (top_value _ _ _ _ _ _ _ inf_unique) in S' by (auto using inf_only).
  destruct (solve_st inf_L inf_heap ex_t (inf_u false) None (Some 45) inf_args) as [r h'] eqn:E. cbn [fst] in S'. destruct r as [[c' n]|]; [|discriminate].
  cbn [coefficients fst] in S'. injection S' as ->. exists c, n, h'. split; [reflexivity|]. split; [|exact S].
  clear - E. unfold solve_st in E. destruct (process_opts_st inf_heap inf_args _) as [q g] eqn:Q.
  assert (E' := f_equal snd E). cbn [snd] in E'. subst h'. assert (Q' := f_equal (fun z => snd z 1%nat) Q). cbn [snd] in Q'. rewrite <- Q'. clear. vm_compute. reflexivity.
Qed.

(** the default dictionary of the module, changed through a result *)
Definition plain_heap : heap := fun l => match l with O => default_kw | _ => (true, []) end.
Definition typo : bool * dict pyval := (false, [("weights", PStr "cauchy")]).
Lemma pair_given_unique : unique_keys (given pair_opts).
Proof. repeat constructor; cbn; intuition discriminate. Qed.
Lemma pair_shared : exists c n h', solve_st colL plain_heap ex_t up None (Some 45) (given pair_opts) = (Ok (c, n), h') /\ In ("robust_kw", Object shared_kw) n /\
  forall c' n', fst (solve_st colL (write h' shared_kw typo) ex_t up None (Some 45) (given pair_opts)) <> Ok (c', n').
Proof.
  destruct pair_run as (c & A & _). assert (S := an_solve _ _ _ _ _ _ _ _ A).
  assert (V := top_value colL plain_heap ex_t up None (Some 45) (given pair_opts) pair_given_unique eq_refl ltac:(intros l H; now apply given_none in H)).
  rewrite given_read, S in V. destruct (solve_st colL plain_heap ex_t up None (Some 45) (given pair_opts)) as [r h'] eqn:E. cbn [fst] in V.
  destruct r as [[c0 n]|]; [|discriminate]. injection V as ->. exists c, n, h'. split; [reflexivity|].
  destruct (top_kept_refs _ _ _ _ _ _ _ _ _ _ pair_given_unique E) as (_ & K & _). split; [apply K; rewrite given_keys; cbn; intuition discriminate|].
  intros c' n' E2.
  set (g := write h' shared_kw typo) in *. assert (G : g shared_kw = typo) by reflexivity. clearbody g. clear - E2 G.
  assert (P : exists compat n2 g2, process_opts_st g (given pair_opts) false = (Ok (n2, compat), g2) /\
    process_opts (("robust_kw", PDict (fst (g shared_kw)) (snd (g shared_kw))) :: pair_opts)%list false = Ok compat).
  { destruct (process_opts_st g (given pair_opts) false) as [[[n2 compat]|] g2] eqn:Q; [|discriminate]. exists compat, n2, g2. split; [reflexivity|].
    assert (Q' := f_equal (fun z => match fst z with Ok p => Ok (snd p) | Err e => Err e end) Q). cbn [fst snd] in Q'. rewrite <- Q'. reflexivity. }
  destruct P as (compat & n2 & g2 & P1 & P2). unfold solve_st in E2. rewrite P1 in E2. cbn [fst bind snd] in E2. inv_bind E2. rename a into c2. rename Ha into SV.
  assert (S : solve colL ex_t up None (Some 45) (("robust_kw", PDict (fst (g shared_kw)) (snd (g shared_kw))) :: pair_opts) = Ok c2) by (unfold solve; rewrite P2; exact SV).
  destruct (solve_inv _ _ _ _ _ _ _ S) as [(cp & si & la & o & s & B & xraw & m & W & c3 & c4 & Q1 & Q2 & Q3 & Q4 & Q5 & Q6 & Q7 & Q8 & Q9)].
  match type of Q1 with process_opts ?d _ = _ => assert (Hu : unique_keys d) by (repeat constructor; cbn; intuition discriminate) end.
  destruct (used_options _ _ _ Hu cp o Q1 Q4) as
   (_ & _ & U1 & _ & _ & U2 & U3 & U4 & U5 & U6 & _ & U7 & _ & U8 & Ur & U9 & U10 & Uk & _).
  rewrite G in *. cbn in U10, Uk.
  unfold fit in Q6. inv_bind Q6. destruct (finite_mat a); [|discriminate]. rewrite U10 in Q6. cbn [eq_str String.eqb Ascii.eqb Bool.eqb] in Q6.
  rewrite Uk in Q6. cbn in Q6. discriminate.
Qed.
