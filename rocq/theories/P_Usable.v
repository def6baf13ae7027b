(** C111: what reconstruct makes of the result of an analysis; the equator. *)
From Coq Require Import Lia Lra Permutation.
From Verif Require Import M_Base M_Lib M_Tables M_Const M_Options M_Time M_Slvinit M_Harmonics M_Select M_Ellipse
  M_Robust M_Period M_Conf M_Diag M_Solve M_Recon S_Dict S_Options S_Slv S_Order S_Basis S_Tables S_Harm S_Select S_Fit S_Recon S_Model S_Errors S_Perm S_Noise S_Accept S_Usable S_Equator
  L_Example L_Example4 L_Example5 L_Example6 L_Example23 L_Example30 L_Recon4 L_Recon6 L_Usable2 L_Equator3.
Open Scope R_scope.
Open Scope string_scope.

(** C111.  With the result of any analysis reconstruct gives a result for every readable array of times of at most one dimension,
    whatever the choice of constituents and thresholds, ... *)
Theorem C111_accepted : forall L t u v lat opts sm c, analysis L t u v lat opts sm c ->
  forall L1 ts nd e tn k mS mP, (nd <= 1)%nat -> normalize_time (l_parse L1) ts e = Ok tn -> exists o, reconstruct L1 ts nd c e k mS mP = Ok o.
Proof. exact accepted_times. Qed.
Print Assumptions C111_accepted.

(** ... which has numbers at the valid times and NaN at the others: at every latitude, the equator included, unless inference
    was approximate, ... *)
Theorem C111_numbers : forall L t u v lat opts sm c, analysis L t u v lat opts sm c -> approximate (c_opt c) = false \/ corrections_finite c ->
  forall L1 ts nd e tn k mS mP o, normalize_time (l_parse L1) ts e = Ok tn -> reconstruct L1 ts nd c e k mS mP = Ok o ->
  forall a, In a (outputs (ro_series o)) -> numbers_exactly tn a.
Proof. exact fitted_numbers. Qed.
Print Assumptions C111_numbers.

(** ... and then still for the constituents that are not inferred. *)
Theorem C111_approximate : forall L t u v lat opts sm c inf, analysis L t u v lat opts sm c -> NoDup (c_name c) ->
  o_infer (c_opt c) = Some inf -> inf_approx inf = true ->
  forall L1 ts nd e tn names mS mP o, (forall n, In n names -> ~ In n (inf_inferred inf)) -> normalize_time (l_parse L1) ts e = Ok tn ->
  reconstruct L1 ts nd c e (CSeq names) mS mP = Ok o -> forall a, In a (outputs (ro_series o)) -> numbers_exactly tn a.
Proof. exact approx_numbers. Qed.
Print Assumptions C111_approximate.

(** For any coefficients a choice of constituents gives numbers at all valid times or at none. *)
Theorem C111_all_or_none : forall c k mS mP, well_formed c -> known_lind c ->
  (forall L t nd e tn o, normalize_time (l_parse L) t e = Ok tn -> reconstruct L t nd c e k mS mP = Ok o ->
     forall a, In a (outputs (ro_series o)) -> numbers_exactly tn a) \/
  (forall L t nd e o, reconstruct L t nd c e k mS mP = Ok o -> forall a, In a (outputs (ro_series o)) -> only_nan a).
Proof. exact all_or_none. Qed.
Print Assumptions C111_all_or_none.

(** At the equator, with nodal corrections, an analysis of listed constituents gives a result if and only if none of the
    listed 44 is among them, ... *)
Theorem C111_equator : forall L t u v opts sm names, lstsq_shape L -> lstsq_returns L -> argsort_perm L -> documented_call L t u v opts sm ->
  setting opts "constit" (PSeq (map PStr names)) -> names <> [] -> (exists x, setting opts "nodal" x /\ ~ falsy x) ->
  (forall x, setting opts "trend" x -> ~ falsy x -> exists s s', In s sm /\ In s' sm /\ fst s <> fst s') ->
  setting opts "conf_int" (PStr "none") ->
  ((exists c, solve L t u v (Some 0) opts = Ok c) <-> forall n, In n names -> ~ In n restless).
Proof. exact equator_names. Qed.
Print Assumptions C111_equator.

(** ... and however the constituents were chosen or inferred, none of the 44 is in a result, ... *)
Theorem C111_equator_result : forall L t u v opts sm c, analysis L t u v (Some 0) opts sm c -> approximate (c_opt c) = false ->
  o_nodsatnone (c_opt c) = false -> forall n, In n (c_name c) -> ~ In n restless.
Proof. exact equator_result. Qed.
Print Assumptions C111_equator_result.

(** ... the 44 being those that have, or are made of constituents that have, a satellite whose factor divides by the sine of the latitude. *)
Theorem C111_restless : forall n k, constit_index n = Ok k -> (calm k <-> ~ In n restless).
Proof. exact restless_iff. Qed.
Print Assumptions C111_restless.

(** M2 and S2 at the equator with the default corrections *)
Example C111_example : exists L t u opts sm c ts tn e, analysis L t u None (Some 0) opts sm c /\ approximate (c_opt c) = false /\
  o_nodsatnone (c_opt c) = false /\ normalize_time (l_parse L) ts e = Ok tn /\ In NaN tn /\ In (Fin 700000) tn.
Proof.
  destruct e0_run as (c & A & B & D). exists retL, ex_t, ac_u, e0_opts, ac_sm, c, (TNum [Fin 700000; NaN]), [Fin 700000; NaN], (PStr "python").
  split; [exact A|]. split; [exact B|]. split; [exact D|]. split; [reflexivity|]. cbn. tauto.
Qed.
(** S2 inferred approximately from M2 *)
Example C111_approximate_example : exists L t u opts sm c inf names, analysis L t u None (Some 45) opts sm c /\ NoDup (c_name c) /\
  o_infer (c_opt c) = Some inf /\ inf_approx inf = true /\ names <> [] /\ (forall n, In n names -> ~ In n (inf_inferred inf) /\ In n (c_name c)).
Proof.
  destruct (inf_run true) as [c If]. do 5 eexists. exists c, (m2_inf true), ["M2"]. split; [apply If|]. split; [exact (inf_nodup _ _ If)|].
  split; [apply If|]. split; [reflexivity|]. split; [discriminate|]. intros n [<-|[]]. split; [cbn; intros [E|[]]; discriminate|].
  eapply Permutation_in; [apply Permutation_sym, If|now left].
Qed.
(** both cases occur: K1 at latitude 45 and at the equator *)
Example C111_all_or_none_example : well_formed (eq_coef 45) /\ known_lind (eq_coef 45) /\ corrections_finite (eq_coef 45) /\
  exists c, well_formed c /\ known_lind c /\ c_lat c = 0 /\ c_name c = ["K1"] /\
  forall L t nd e tn o, normalize_time (l_parse L) t e = Ok tn -> reconstruct L t nd c e CNone 0 0 = Ok o -> out_u (ro_series o) = map (fun _ => NaN) tn.
Proof.
  split; [apply eq_wf|]. split; [apply eq_known|]. split; [right; cbn [eq_coef c_lat]; rewrite Rabs_pos_eq by lra; lra|].
  exact equator_nan.
Qed.
Example C111_equator_example : exists L t u opts sm names, lstsq_shape L /\ lstsq_returns L /\ argsort_perm L /\ documented_call L t u None opts sm /\
  setting opts "constit" (PSeq (map PStr names)) /\ names <> [] /\ (exists x, setting opts "nodal" x /\ ~ falsy x) /\
  (exists s s', In s sm /\ In s' sm /\ fst s <> fst s') /\ setting opts "conf_int" (PStr "none") /\ forall n, In n names -> ~ In n restless.
Proof.
  exists retL, ex_t, ac_u, e0_opts, ac_sm, e0_names. split; [exact ret_shape|]. split; [exact ret_returns|]. split; [exact ret_perm|]. split; [exact e0_call|].
  split; [unfold e0_opts, df_opts; set_tac|]. split; [discriminate|]. split; [exact e0_nodal|]. split; [exact two_times|].
  split; [unfold e0_opts, df_opts; set_tac|exact e0_calm].
Qed.
