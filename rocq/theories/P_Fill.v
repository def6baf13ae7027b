(** Property C98: adding, removing and repeating samples. *)
From Coq Require Import List String Reals Lia Lra Permutation.
From Coquelicot Require Import Coquelicot.
From Verif Require Import M_Base M_Lib M_Options M_Time M_Slvinit M_Select M_Ellipse M_Robust M_Period M_Conf M_Diag M_Solve M_Recon
  S_Dict S_Options S_Slv S_Order S_Fit S_Recon S_Model S_Perm S_Choice
  L_Example L_Example3 L_Robust3 L_Robust5 L_Example21 L_Fill L_Example22.
Import ListNotations.
Open Scope R_scope.
Open Scope string_scope.

(** C98.  Adding to the samples of an ordinary least squares analysis values that its own reconstruction gives, at any times
    (the reference time staying the same), does not change the fit ... *)
Theorem C98_filled : forall L t u v lat opts sm c ex L' t' u' v' lat' opts' sm' c',
  analysis L t u v lat opts sm c -> lstsq_minimises L -> o_method (c_opt c) = PStr "ols" ->
  analysis L' t' u' v' lat' opts' sm' c' -> lstsq_minimises L' -> o_method (c_opt c') = PStr "ols" -> same_model c c' ->
  Forall (fun s => yields c (fst s) (snd s)) ex -> Permutation sm' (sm ++ ex) -> approximate (c_opt c') = false ->
  identifiable c' (map fst sm') -> NoDup (c_name c') -> same_fit c c'.
Proof. exact top_filled. Qed.
Print Assumptions C98_filled.

(** ... nor does leaving out samples that the reconstruction meets exactly, as long as the remaining ones determine the model; ... *)
Theorem C98_thinned : forall L t u v lat opts sm c ex L' t' u' v' lat' opts' sm' c',
  analysis L t u v lat opts sm c -> lstsq_minimises L -> o_method (c_opt c) = PStr "ols" ->
  analysis L' t' u' v' lat' opts' sm' c' -> lstsq_minimises L' -> o_method (c_opt c') = PStr "ols" -> same_model c c' ->
  Forall (fun s => yields c (fst s) (snd s)) ex -> Permutation sm (sm' ++ ex) -> approximate (c_opt c') = false ->
  identifiable c' (map fst sm') -> NoDup (c_name c') -> same_fit c c'.
Proof. exact top_thinned. Qed.
Print Assumptions C98_thinned.

(** ... nor does giving every sample the same number of times; ... *)
Theorem C98_repeated : forall L t u v lat opts sm c L' t' u' v' lat' opts' sm' c' n,
  analysis L t u v lat opts sm c -> lstsq_minimises L -> o_method (c_opt c) = PStr "ols" ->
  analysis L' t' u' v' lat' opts' sm' c' -> lstsq_minimises L' -> o_method (c_opt c') = PStr "ols" -> same_model c c' ->
  Permutation sm' (concat (repeat sm n)) -> approximate (c_opt c') = false -> identifiable c' (map fst sm') -> NoDup (c_name c') -> same_fit c c'.
Proof. exact top_repeated. Qed.
Print Assumptions C98_repeated.

(** ... and two records that have the same fit have it together. *)
Theorem C98_union : forall L1 t1 u1 v1 lat1 opts1 sm1 c1 L2 t2 u2 v2 lat2 opts2 sm2 c2 L' t' u' v' lat' opts' sm' c',
  analysis L1 t1 u1 v1 lat1 opts1 sm1 c1 -> lstsq_minimises L1 -> o_method (c_opt c1) = PStr "ols" ->
  analysis L2 t2 u2 v2 lat2 opts2 sm2 c2 -> lstsq_minimises L2 -> o_method (c_opt c2) = PStr "ols" ->
  analysis L' t' u' v' lat' opts' sm' c' -> lstsq_minimises L' -> o_method (c_opt c') = PStr "ols" ->
  same_model c1 c2 -> same_model c1 c' -> same_fit c1 c2 -> Permutation sm' (sm1 ++ sm2) ->
  approximate (c_opt c') = false -> identifiable c' (map fst sm') -> NoDup (c_name c') -> same_fit c1 c'.
Proof. exact top_union. Qed.
Print Assumptions C98_union.

(** 0, 0, 1 at the days 0 1 4, with the mean 1/3; and 1/3 at the day 2 *)
Example C98_filled_example : exists c c', analysis colL t3 u3 None (Some 45) ols_opts sm3 c /\ lstsq_minimises colL /\ o_method (c_opt c) = PStr "ols" /\
  analysis colL ex_t u4 None (Some 45) ols_opts sm4 c' /\ o_method (c_opt c') = PStr "ols" /\ same_model c c' /\
  Forall (fun s => yields c (fst s) (snd s)) [(2, RtoC (1 / 3))] /\ Permutation sm4 (sm3 ++ [(2, RtoC (1 / 3))]) /\ approximate (c_opt c') = false /\
  identifiable c' (map fst sm4) /\ NoDup (c_name c') /\ c_mean c = Some (1 / 3).
Proof.
  destruct mean3 as (c & A), mean4 as (c' & A'). exists c, c'. assert (M := mean_model _ _ _ _ _ _ _ _ _ _ A A').
  destruct (mean_ident _ _ _ _ _ (map fst sm4) A' ltac:(discriminate)) as [I N]. assert (Y := mean_yields _ _ _ _ _ 2 A). destruct A as (A & H1 & H2 & H3 & _ & _ & _ & _ & H4), A' as (A' & K1 & K2 & _).
  split; [exact A|]. split; [apply col_minimises|]. split; [exact H2|]. split; [exact A'|]. split; [exact K2|]. split; [exact M|].
  split; [constructor; [exact Y|constructor]|]. split; [|auto].
  unfold sm4, four_sm, ext, zs, sm3, ext3, y3. cbn [combine map app]. do 2 apply perm_skip. apply perm_swap.
Qed.
(** the other way round *)
Example C98_thinned_example : exists c c', analysis colL ex_t u4 None (Some 45) ols_opts sm4 c /\ lstsq_minimises colL /\ o_method (c_opt c) = PStr "ols" /\
  analysis colL t3 u3 None (Some 45) ols_opts sm3 c' /\ o_method (c_opt c') = PStr "ols" /\ same_model c c' /\
  Forall (fun s => yields c (fst s) (snd s)) [(2, RtoC (1 / 3))] /\ Permutation sm4 (sm3 ++ [(2, RtoC (1 / 3))]) /\ approximate (c_opt c') = false /\
  identifiable c' (map fst sm3) /\ NoDup (c_name c').
Proof.
  destruct mean4 as (c & A), mean3 as (c' & A'). exists c, c'. assert (M := mean_model _ _ _ _ _ _ _ _ _ _ A A').
  destruct (mean_ident _ _ _ _ _ (map fst sm3) A' ltac:(discriminate)) as [I N]. assert (Y := mean_yields _ _ _ _ _ 2 A). destruct A as (A & H1 & H2 & _), A' as (A' & K1 & K2 & _).
  split; [exact A|]. split; [apply col_minimises|]. split; [exact H2|]. split; [exact A'|]. split; [exact K2|]. split; [exact M|].
  split; [constructor; [exact Y|constructor]|]. split; [|auto].
  unfold sm4, four_sm, ext, zs, sm3, ext3, y3. cbn [combine map app]. do 2 apply perm_skip. apply perm_swap.
Qed.
(** each of the three twice *)
Example C98_repeated_example : exists c c', analysis colL t3 u3 None (Some 45) ols_opts sm3 c /\ lstsq_minimises colL /\ o_method (c_opt c) = PStr "ols" /\
  analysis colL t6 (u6 0 0 0 0 1 1) None (Some 45) ols_opts (sm6 0 0 0 0 1 1) c' /\ o_method (c_opt c') = PStr "ols" /\ same_model c c' /\
  Permutation (sm6 0 0 0 0 1 1) (concat (repeat sm3 2)) /\ approximate (c_opt c') = false /\
  identifiable c' (map fst (sm6 0 0 0 0 1 1)) /\ NoDup (c_name c').
Proof.
  destruct mean3 as (c & A), (mean6 0 0 0 0 1 1) as (c' & A'). exists c, c'. assert (M := mean_model _ _ _ _ _ _ _ _ _ _ A A').
  destruct (mean_ident _ _ _ _ _ (map fst (sm6 0 0 0 0 1 1)) A' ltac:(discriminate)) as [I N]. destruct A as (A & H1 & H2 & _), A' as (A' & K1 & K2 & _).
  split; [exact A|]. split; [apply col_minimises|]. split; [exact H2|]. split; [exact A'|]. split; [exact K2|]. split; [exact M|]. split; [|auto].
  unfold sm6, ext6, v6, sm3, ext3, y3. cbn [combine map app repeat concat]. apply perm_skip.
  eapply perm_trans; [apply perm_swap|]. apply perm_skip.
  transitivity [(4, RtoC 1); (0, RtoC 0); (1, RtoC 0); (4, RtoC 1)]; [|apply Permutation_refl].
  apply (Permutation_middle [(0, RtoC 0); (1, RtoC 0)] [(4, RtoC 1)] (4, RtoC 1)) || (apply Permutation_sym; apply (Permutation_middle [(0, RtoC 0); (1, RtoC 0)] [(4, RtoC 1)] (4, RtoC 1))).
Qed.
(** 0, 0, 1 and 1, 0, 0 *)
Example C98_union_example : exists c1 c2 c', analysis colL t3 u3 None (Some 45) ols_opts sm3 c1 /\ analysis colL t3 u3' None (Some 45) ols_opts sm3' c2 /\
  analysis colL t6 (u6 0 1 0 0 1 0) None (Some 45) ols_opts (sm6 0 1 0 0 1 0) c' /\ lstsq_minimises colL /\
  o_method (c_opt c1) = PStr "ols" /\ o_method (c_opt c2) = PStr "ols" /\ o_method (c_opt c') = PStr "ols" /\
  same_model c1 c2 /\ same_model c1 c' /\ same_fit c1 c2 /\ Permutation (sm6 0 1 0 0 1 0) (sm3 ++ sm3') /\ approximate (c_opt c') = false /\
  identifiable c' (map fst (sm6 0 1 0 0 1 0)) /\ NoDup (c_name c').
Proof.
  destruct mean3 as (c1 & A1), mean3' as (c2 & A2), (mean6 0 1 0 0 1 0) as (c' & A'). exists c1, c2, c'.
  assert (M := mean_model _ _ _ _ _ _ _ _ _ _ A1 A'). assert (M2 := mean_model _ _ _ _ _ _ _ _ _ _ A1 A2). assert (F := mean_same _ _ _ _ _ _ _ _ _ A1 A2).
  destruct (mean_ident _ _ _ _ _ (map fst (sm6 0 1 0 0 1 0)) A' ltac:(discriminate)) as [I N]. destruct A1 as (A1 & _ & H1 & _), A2 as (A2 & _ & H2 & _), A' as (A' & K1 & K2 & _).
  split; [exact A1|]. split; [exact A2|]. split; [exact A'|]. split; [apply col_minimises|]. repeat (split; [assumption|]). split; [|auto].
  unfold sm6, ext6, v6, sm3, sm3', ext3, y3, y3'. cbn [combine map app]. apply perm_skip.
  eapply perm_trans; [apply perm_swap|]. apply perm_skip.
  apply Permutation_sym. eapply perm_trans; [apply perm_swap|]. apply perm_skip. apply perm_swap.
Qed.
