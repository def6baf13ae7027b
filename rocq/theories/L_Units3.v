(** The statements of C89 and C90 in terms of the settings of solve. *)
From Coq Require Import Lia Lra Permutation.
From Coquelicot Require Import Coquelicot.
From Verif Require Import M_Base M_Lib M_Options M_Time M_Slvinit M_Select M_Ellipse M_Robust M_Period M_Conf M_Diag M_Solve M_Recon
  S_Dict S_Options S_Slv S_Order S_Fit S_Recon S_Model S_Robust S_RobustErr S_RobustEq S_Units
  L_SolveInv L_OptSolve L_RobEq L_RobEq2 L_Units L_Units2.
Open Scope R_scope.
Open Scope string_scope.

Lemma method_opt L t u v lat opts sm c m : analysis L t u v lat opts sm c -> setting opts "method" m -> o_method (c_opt c) = m.
Proof. intros AN. eapply set_method; [eapply an_keys|eapply an_solve]; eauto. Qed.

Lemma robust_scaled L t u v u' v' lat opts sm c c' k be ga mth : 0 < k ->
  let sm' := map (fun x => (fst x, Cplus (Cplus (Cmult (RtoC k) (snd x)) be) (Cmult (RtoC (fst x - c_reftime c)) ga))) sm in
  analysis L t u v lat opts sm c -> analysis L t u' v' lat opts sm' c' -> is2d v = is2d v' ->
  (forall rc, lstsq_contract L rc) -> setting opts "method" mth -> mth <> PStr "ols" ->
  approximate (c_opt c) = false -> (o_notrend (c_opt c) = true -> ga = RtoC 0) ->
  c_weights c' = c_weights c /\ Permutation (c_name c') (c_name c) /\
  (forall r, In r (rows c) -> exists r', In r' (rows c') /\ row_like k eq r r') /\
  (forall z, mean_is c z -> mean_is c' (Cplus (Cmult (RtoC k) z) be)) /\
  (o_notrend (c_opt c) = false -> forall z, slope_is c z -> slope_is c' (Cplus (Cmult (RtoC k) z) ga)).
Proof.
  intros K sm' AN AN' D LC HM NO NA Hga. assert (E := method_opt _ _ _ _ _ _ _ _ _ AN HM).
  eapply rtop_scaled; eauto. congruence.
Qed.
Lemma robust_negated L t u v u' v' lat opts sm c c' mth :
  let sm' := map (fun x => (fst x, Copp (snd x))) sm in
  analysis L t u v lat opts sm c -> analysis L t u' v' lat opts sm' c' -> is2d v = is2d v' ->
  (forall rc, lstsq_contract L rc) -> setting opts "method" mth -> mth <> PStr "ols" ->
  approximate (c_opt c) = false ->
  c_weights c' = c_weights c /\ Permutation (c_name c') (c_name c) /\
  (forall r, In r (rows c) -> exists r', In r' (rows c') /\ row_like 1 opposite r r') /\
  (forall z, mean_is c z -> mean_is c' (Copp z)) /\
  (o_notrend (c_opt c) = false -> forall z, slope_is c z -> slope_is c' (Copp z)).
Proof.
  intros sm' AN AN' D LC HM NO NA. assert (E := method_opt _ _ _ _ _ _ _ _ _ AN HM).
  eapply rtop_negated; eauto. congruence.
Qed.

Lemma no_draws_opt L t u v lat opts sm c : analysis L t u v lat opts sm c -> no_draws L opts c ->
  o_conf_int (c_opt c) = false \/ o_linci (c_opt c) = true /\ (o_white (c_opt c) = true \/ o_equi (c_opt c) = true \/ lomb_quadratic L).
Proof.
  intros AN [H|[H Q]]; assert (K := an_keys _ _ _ _ _ _ _ _ AN); assert (S := an_solve _ _ _ _ _ _ _ _ AN);
    destruct (set_conf _ _ _ _ _ _ K _ S _ H) as (_ & C1 & _ & C2).
  - left. destruct (o_conf_int (c_opt c)); [|reflexivity]. exfalso. now apply (proj1 C1).
  - right. split; [now apply C2|]. destruct Q as [Q|Q]; [left|now right].
    assert (W := set_white _ _ _ _ _ _ K _ S _ Q). destruct (o_white (c_opt c)); [reflexivity|]. exfalso. assert (F := proj1 W eq_refl). unfold falsy in F. repeat (destruct F as [F|F]; [discriminate|]); destruct F as [b F]; discriminate.
Qed.
Lemma units_robust L t u v u' v' lat opts sm c c' k mth : 0 < k ->
  let sm' := map (fun x => (fst x, Cmult (RtoC k) (snd x))) sm in
  analysis L t u v lat opts sm c -> analysis L t u' v' lat opts sm' c' -> is2d v = is2d v' ->
  (forall rc, lstsq_contract L rc) -> setting opts "method" mth -> mth <> PStr "ols" -> no_draws L opts c ->
  c' = in_units k c.
Proof.
  intros K sm' AN AN' D LC HM NO Q. assert (E := method_opt _ _ _ _ _ _ _ _ _ AN HM).
  eapply robust_units; eauto; [congruence|]. eapply no_draws_opt; eauto.
Qed.
Lemma units_ols L t u v u' v' lat opts sm c c' k : 0 < k ->
  let sm' := map (fun x => (fst x, Cmult (RtoC k) (snd x))) sm in
  analysis L t u v lat opts sm c -> analysis L t u' v' lat opts sm' c' -> is2d v = is2d v' ->
  lstsq_minimises L -> setting opts "method" (PStr "ols") -> approximate (c_opt c) = false -> identifiable c (map fst sm) -> NoDup (c_name c) ->
  no_draws L opts c -> c' = in_units k c.
Proof.
  intros K sm' AN AN' D LC HM NA ID ND Q. assert (E := method_opt _ _ _ _ _ _ _ _ _ AN HM).
  eapply ols_units; eauto. eapply no_draws_opt; eauto.
Qed.
