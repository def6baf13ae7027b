(** Property C86: a robust analysis, its keywords and its default. *)
From Coq Require Import Lia Lra.
From Verif Require Import M_Base M_Lib M_Robust M_Diag M_Options M_Slvinit M_Solve S_Dict S_Options S_Model S_Robust S_RobustKw
  L_Robust L_Robust2 L_Robust3 L_Example L_Model11 L_Example5 L_Robust4 L_Robust5 L_Robust6 L_RobustKw.
Open Scope R_scope.
Open Scope string_scope.

(** C86.  solve with a method other than 'ols' fits the samples by the iteration of C54, with the weight function,
    tuning constant, tolerance and number of passes that robust_kw selects; coef.weights are the weights it ends
    with, and reconstruct gives the values of the model with the coefficients it ends with. *)
Theorem C86_solve : forall L t u v lat opts sm c m kw, analysis L t u v lat opts sm c -> approximate (c_opt c) = false ->
  (forall rc, lstsq_contract L rc) -> setting opts "method" m -> m <> PStr "ols" -> setting opts "robust_kw" kw ->
  exists k d name tune rcond tol maxit phi tn X lev P h b rms n,
    kw = PDict k d /\ robust_settings d name tune rcond tol maxit /\
    weight_formula name = Some phi /\ tuning name tune tn /\ model_matrix c sm X /\
    l_pinv L X = Ok P /\ length lev = length sm /\
    (forall i, (i < length sm)%nat -> nth i lev 0 = Cmod (entry_at (mat_mul X P) i i)) /\
    passes phi tn lev X (map snd sm) h /\ (length h <= maxit)%nat /\
    ended phi tn lev X (map snd sm) tol maxit h b (c_weights c) rms n /\
    Forall2 (fun s row => length row = length b /\ yields c (fst s) (seen (c_opt c) (cdot row b))) sm X.
Proof. exact run_settings. Qed.
Print Assumptions C86_solve.

(** without robust_kw: Cauchy weights with constant 2.385, tolerance 0.001, at most 50 passes *)
Theorem C86_default : forall L t u v lat opts sm c m, analysis L t u v lat opts sm c -> approximate (c_opt c) = false ->
  (forall rc, lstsq_contract L rc) -> setting opts "method" m -> m <> PStr "ols" -> ~ In "robust_kw" (keys opts) ->
  exists X lev P h b rms n, model_matrix c sm X /\ l_pinv L X = Ok P /\ length lev = length sm /\
    (forall i, (i < length sm)%nat -> nth i lev 0 = Cmod (entry_at (mat_mul X P) i i)) /\
    passes (fun r => 1 / (1 + r ^ 2)) 2.385 lev X (map snd sm) h /\ (length h <= 50)%nat /\
    ended (fun r => 1 / (1 + r ^ 2)) 2.385 lev X (map snd sm) 0.001 50 h b (c_weights c) rms n /\
    Forall2 (fun s row => length row = length b /\ yields c (fst s) (seen (c_opt c) (cdot row b))) sm X.
Proof. exact run_default. Qed.
Print Assumptions C86_default.

(** robustfit called with keywords does what it does with the settings these select *)
Theorem C86_keywords : forall L X y k d name tune rcond tol maxit, unique_keys d -> robust_settings d name tune rcond tol maxit ->
  robustfit_kw L X y (PDict k d) = robustfit L X y name tune rcond tol maxit.
Proof. exact settings_kw. Qed.
Print Assumptions C86_keywords.

(** an unknown keyword, or a robust_kw that is not a dict, is a TypeError *)
Theorem C86_unknown_keyword : forall L X y k d, ~ incl (keys d) ["weight_function"; "tune"; "rcond"; "tol"; "maxit"] ->
  robustfit_kw L X y (PDict k d) = Err TypeError.
Proof. exact kw_unknown. Qed.
Print Assumptions C86_unknown_keyword.
Theorem C86_not_a_dict : forall L X y kw, (forall k d, kw <> PDict k d) -> robustfit_kw L X y kw = Err TypeError.
Proof. exact kw_nodict. Qed.
Print Assumptions C86_not_a_dict.

(** the mean of -1, -1, 1, 1 with the default settings: all weights equal, below 0.92 *)
Example C86_default_example : exists c w, analysis colL ex_t up None (Some 45) pair_opts smp c /\ approximate (c_opt c) = false /\
  (forall rc, lstsq_contract colL rc) /\ setting pair_opts "method" (PStr "robust") /\ ~ In "robust_kw" (keys pair_opts) /\
  c_weights c = map Fin [w; w; w; w] /\ 0 < w < 0.92 /\ c_mean c = Some 0.
Proof.
  destruct pair_run as (c & A & I & W & Me). exists c, wp. split; [exact A|]. split; [unfold approximate; now rewrite I|].
  split; [apply col_contract|]. split; [left; cbn; auto|]. split; [cbn; intuition discriminate|].
  split; [exact W|]. split; [apply wp_range|exact Me].
Qed.
(** the mean of 0, 0, 1, 8 with talwar weights *)
Example C86_example : exists c, analysis colL ex_t u4 None (Some 45) mean_opts sm4 c /\ approximate (c_opt c) = false /\
  (forall rc, lstsq_contract colL rc) /\ setting mean_opts "method" (PStr "robust") /\ setting mean_opts "robust_kw" talwar_kw /\
  c_weights c = map Fin [1; 1; 1; 0].
Proof.
  destruct mean_run as (c & A & I & M & W & Me). exists c. split; [exact A|]. split; [unfold approximate; now rewrite I|].
  split; [apply col_contract|]. split; [left; cbn; auto|]. split; [left; cbn; auto|exact W].
Qed.
Example C86_settings_example :
  robust_settings [("weight_function", PStr "talwar"); ("tune", PNum 4); ("tol", PNum 1)] "talwar" (Some 4) (PNum 1) 1 50.
Proof.
  constructor.
  - intros k [<-|[<-|[<-|[]]]]; cbn; auto.
  - left. cbn. auto.
  - exists (PNum 4). split; [left; cbn; auto|constructor].
  - right. split; [cbn; intuition discriminate|cbn; auto].
  - exists (PNum 1). split; [left; cbn; auto|constructor].
  - exists (PNum 50). split; [right; split; [cbn; intuition discriminate|cbn; auto 10]|]. replace (INR 50) with 50 by (cbn; lra). constructor.
Qed.
Example C86_unknown_example : robustfit_kw colL X4 y4 (PDict false [("weights", PStr "cauchy")]) = Err TypeError.
Proof. apply C86_unknown_keyword. intros H. specialize (H "weights" (or_introl eq_refl)). cbn in H. intuition discriminate. Qed.
