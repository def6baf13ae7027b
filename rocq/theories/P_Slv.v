(** Properties C05-C08: samples, even spacing, argument checks of solve. *)
From Coq Require Import Lia Lra.
From Verif Require Import M_Base M_Lib M_Options M_Time M_Slvinit M_Diag M_Solve
  S_Dict S_Options S_Slv L_Base L_SolveInv L_Slv L_Slv2.
Open Scope R_scope.
Open Scope string_scope.

(** C05.  The fitted samples are exactly the valid ones, in order and unchanged.  [slvinit] produces the
    times and data that the rest of solve works on; [fit] receives nothing else. *)
Theorem C05_fitted_samples_scalar : forall parse n t mt us um lat e si xs, one_d n us um ->
  normalize_time parse t e = Ok xs -> length xs = n ->
  slvinit parse (NdArr [n] t mt) (NdArr [n] us um) None lat e = Ok si ->
  si_v si = None /\ si_t si = map fst (valid_scalar xs us um) /\ si_u si = map snd (valid_scalar xs us um) /\
  si_tin si = valid_times xs.
Proof. exact fitted_scalar. Qed.
Print Assumptions C05_fitted_samples_scalar.

Theorem C05_fitted_samples_vector : forall parse n t mt us um vs vm lat e si xs, one_d n us um -> one_d n vs vm ->
  normalize_time parse t e = Ok xs -> length xs = n ->
  slvinit parse (NdArr [n] t mt) (NdArr [n] us um) (Some (NdArr [n] vs vm)) lat e = Ok si ->
  si_t si = map (fun s => fst (fst s)) (valid_vector xs us um vs vm) /\
  si_u si = map (fun s => snd (fst s)) (valid_vector xs us um vs vm) /\
  si_v si = Some (map snd (valid_vector xs us um vs vm)) /\
  si_tin si = valid_times xs.
Proof. exact fitted_vector. Qed.
Print Assumptions C05_fitted_samples_vector.

Theorem C05_solve_fits_them : forall L t u v lat opts c, unique_keys opts -> solve L t u v lat opts = Ok c ->
  exists si la s B xraw m W, lat = Some la /\
    slvinit (l_parse L) t u v lat (o_epoch (c_opt c)) = Ok si /\
    fit L (si_t si) (si_u si) (si_v si) (si_tref si) (si_lor si) la (c_opt c) s = Ok (B, xraw, m, W) /\
    c_weights c = W.
Proof. exact solve_fit_lemma. Qed.
Print Assumptions C05_solve_fits_them.

Theorem C05_one_weight_per_valid_sample : forall L n t mt us um lat opts c xs, unique_keys opts -> one_d n us um ->
  normalize_time (l_parse L) t (o_epoch (c_opt c)) = Ok xs -> length xs = n ->
  setting opts "method" (PStr "ols") ->
  solve L (NdArr [n] t mt) (NdArr [n] us um) None lat opts = Ok c ->
  length (c_weights c) = length (valid_scalar xs us um).
Proof. exact weights_count_scalar. Qed.
Print Assumptions C05_one_weight_per_valid_sample.

Example C05_example_scalar : exists si,
  slvinit (fun _ => None) (NdArr [4%nat] (TNum [Fin 1; Fin 2; NaN; Fin 4]) [])
    (NdArr [4%nat] [Fin 5; Fin 6; Fin 7; Fin 8] [false; true; false; false]) None (Some 45) (PStr "python") = Ok si /\
  si_t si = [1; 4] /\ si_u si = [5; 8].
Proof. exact example_scalar. Qed.

Example C05_example_vector : exists si,
  slvinit (fun _ => None) (NdArr [3%nat] (TNum [Fin 1; Fin 2; Fin 4]) [])
    (NdArr [3%nat] [Fin 5; Fin 6; Fin 7] []) (Some (NdArr [3%nat] [Fin 5; NaN; Fin 9] [])) (Some 45) (PStr "python") = Ok si /\
  si_t si = [1; 4] /\ si_u si = [5; 7] /\ si_v si = Some [5; 9].
Proof. exact example_vector. Qed.

(** C06.  A sample with an invalid time can be removed (or inserted) without any effect. *)
Theorem C06_invalid_times_have_no_effect : forall L n k t t' tm tm' us us' um um' v v' lat opts,
  drop_time k t t' -> drops k us us' -> drops_mask k um um' ->
  time_len t = S n -> length us = S n ->
  match v, v' with
  | None, None => True
  | Some (vs, vm), Some (vs', vm') => drops k vs vs' /\ drops_mask k vm vm' /\ length vs = S n
  | _, _ => False
  end ->
  solve L (NdArr [S n] t tm) (NdArr [S n] us um) (option_map (fun p => NdArr [S n] (fst p) (snd p)) v) lat opts =
  solve L (NdArr [n] t' tm') (NdArr [n] us' um') (option_map (fun p => NdArr [n] (fst p) (snd p)) v') lat opts.
Proof. exact solve_drop. Qed.
Print Assumptions C06_invalid_times_have_no_effect.

Example C06_example :
  drop_time 1 (TNum [Fin 1; NaN; Fin 4]) (TNum [Fin 1; Fin 4]) /\
  drops 1 [Fin 5; Fin 6; Fin 7] [Fin 5; Fin 7] /\ drops_mask 1 [false; false; true] [false; true] /\
  time_len (TNum [Fin 1; NaN; Fin 4]) = 3%nat.
Proof. exact drop_example. Qed.

(** The mask of a masked time array has no effect at all ... *)
Theorem C06_time_mask_is_ignored : forall L sh t m1 m2 u v lat opts,
  solve L (NdArr sh t m1) u v lat opts = solve L (NdArr sh t m2) u v lat opts.
Proof. exact mask_ignored. Qed.
Print Assumptions C06_time_mask_is_ignored.

(** ... so samples at masked times are fitted. *)
Theorem C06_masked_times_excluded_refuted : ~ (forall parse n t mt us um lat e si xs i x,
  slvinit parse (NdArr [n] t mt) (NdArr [n] us um) None lat e = Ok si ->
  normalize_time parse t e = Ok xs -> nth i mt false = true -> nth_error xs i = Some (Fin x) ->
  (forall j, nth_error xs j = Some (Fin x) -> j = i) -> ~ In x (si_t si)).
Proof. exact masked_times_refuted. Qed.
Print Assumptions C06_masked_times_excluded_refuted.

(** C07.  Steps that differ by less than 2/2^26 days (2.57 ms) count as even. *)
Theorem C07_even_spacing : forall L t u v lat opts c xs, unique_keys opts -> solve L t u v lat opts = Ok c ->
  normalize_time (l_parse L) (arr_data t) (o_epoch (c_opt c)) = Ok xs ->
  (2 <= length (valid_times xs))%nat ->
  (forall a b, In a (steps (valid_times xs)) -> In b (steps (valid_times xs)) -> a - b < 2 / 2 ^ 26) ->
  o_equi (c_opt c) = true.
Proof. exact equi_lemma. Qed.
Print Assumptions C07_even_spacing.

(** Conversely, in an evenly spaced record every step is near a common value. *)
Theorem C07_even_spacing_converse : forall L t u v lat opts c xs, unique_keys opts ->
  solve L t u v lat opts = Ok c ->
  normalize_time (l_parse L) (arr_data t) (o_epoch (c_opt c)) = Ok xs -> o_equi (c_opt c) = true ->
  exists mu k, (1 <= k <= length (steps (valid_times xs)))%nat /\
    forall a, In a (steps (valid_times xs)) -> (a - mu) * (a - mu) < INR k / 2 ^ 52.
Proof. exact equi_conv_solve. Qed.
Print Assumptions C07_even_spacing_converse.

(** Record length, effective record length (number of samples times the mean step) and reference time: all valid times
    when evenly spaced, else the fitted ones. *)
Theorem C07_record_length_and_reftime_scalar : forall parse n t mt us um lat e si xs, one_d n us um ->
  normalize_time parse t e = Ok xs -> length xs = n ->
  slvinit parse (NdArr [n] t mt) (NdArr [n] us um) None lat e = Ok si ->
  let base := if si_equi si then valid_times xs else map fst (valid_scalar xs us um) in
  exists first last lo hi,
    hd_error base = Some first /\ hd_error (rev base) = Some last /\
    In lo base /\ In hi base /\ (forall x, In x base -> lo <= x <= hi) /\
    si_tref si = (first + last) / 2 /\ si_lor si = hi - lo /\
    ((2 <= length base)%nat -> si_elor si = Fin ((hi - lo) / INR (length base - 1) * INR (length base))).
Proof. exact base_lemma. Qed.
Print Assumptions C07_record_length_and_reftime_scalar.

Theorem C07_record_length_and_reftime_vector : forall parse n t mt us um vs vm lat e si xs,
  one_d n us um -> one_d n vs vm ->
  normalize_time parse t e = Ok xs -> length xs = n ->
  slvinit parse (NdArr [n] t mt) (NdArr [n] us um) (Some (NdArr [n] vs vm)) lat e = Ok si ->
  let base := if si_equi si then valid_times xs else map (fun s => fst (fst s)) (valid_vector xs us um vs vm) in
  exists first last lo hi,
    hd_error base = Some first /\ hd_error (rev base) = Some last /\
    In lo base /\ In hi base /\ (forall x, In x base -> lo <= x <= hi) /\
    si_tref si = (first + last) / 2 /\ si_lor si = hi - lo /\
    ((2 <= length base)%nat -> si_elor si = Fin ((hi - lo) / INR (length base - 1) * INR (length base))).
Proof. exact base_lemma_vector. Qed.
Print Assumptions C07_record_length_and_reftime_vector.

Theorem C07_reported_reftime : forall L t u v lat opts c xs, unique_keys opts -> solve L t u v lat opts = Ok c ->
  normalize_time (l_parse L) (arr_data t) (o_epoch (c_opt c)) = Ok xs -> o_equi (c_opt c) = true ->
  exists a b, hd_error (valid_times xs) = Some a /\ hd_error (rev (valid_times xs)) = Some b /\
    c_reftime c = (a + b) / 2.
Proof. exact reftime_lemma. Qed.
Print Assumptions C07_reported_reftime.

(** Other data at the same times (blanked or not): same decision; if even, same reference time and same
    numbers of constituents of each kind. *)
Theorem C07_blanking_data : forall L t u v u' v' lat opts c c', unique_keys opts ->
  is2d v = is2d v' ->
  solve L t u v lat opts = Ok c -> solve L t u' v' lat opts = Ok c' ->
  o_equi (c_opt c) = o_equi (c_opt c') /\
  (o_equi (c_opt c) = true -> c_reftime c = c_reftime c' /\
   c_nNR c = c_nNR c' /\ c_nR c = c_nR c' /\ c_nI c = c_nI c').
Proof. exact blanking_lemma. Qed.
Print Assumptions C07_blanking_data.

Example C07_example_steps : forall a b, In a (steps [0; / 24; / 24 + / 24]) -> In b (steps [0; / 24; / 24 + / 24]) ->
  a - b < 2 / 2 ^ 26.
Proof. exact steps_example. Qed.

(** C08.  Argument checks. *)
Theorem C08_bad_arguments_rejected : forall L st dt mt su du mu v lat opts compat,
  process_opts opts (is2d v) = Ok compat ->
  match v with Some (PyList _) => False | _ => True end ->
  (lat = None \/ length st <> 1%nat \/ length su <> 1%nat \/ st <> su \/
   exists sv dv mv, v = Some (NdArr sv dv mv) /\ sv <> su) ->
  solve L (NdArr st dt mt) (NdArr su du mu) v lat opts = Err ValueError.
Proof.
  intros L st dt mt su du mu v lat opts compat Hp Hv H.
  exact (solve_bad_args L _ _ v lat opts compat ValueError Hp (check_args_err st dt mt su du mu v lat Hv H)).
Qed.
Print Assumptions C08_bad_arguments_rejected.

Theorem C08_checks_pass_exactly : forall (t : pyarr tarray) (u : pyarr (list xr)) v lat,
  check_args t u v lat = Ok tt <->
  lat <> None /\ exists n, arr_shape t = Ok [n] /\ arr_shape u = Ok [n] /\
    (v = None \/ exists v', v = Some v' /\ arr_shape v' = Ok [n]).
Proof. exact check_args_iff. Qed.
Print Assumptions C08_checks_pass_exactly.

Theorem C08_success_implies_checks : forall L t u v lat opts c,
  solve L t u v lat opts = Ok c -> check_args t u v lat = Ok tt.
Proof. exact solve_good_args. Qed.
Print Assumptions C08_success_implies_checks.

(** Plain Python lists (which the documentation calls array_like) fail with AttributeError. *)
Theorem C08_lists_rejected : forall L t u v lat opts compat, process_opts opts (is2d v) = Ok compat -> lat <> None ->
  (exists d, t = PyList d) \/ ((exists s d m, t = NdArr s d m) /\ exists d, u = PyList d) ->
  solve L t u v lat opts = Err AttributeError.
Proof. exact solve_lists. Qed.
Print Assumptions C08_lists_rejected.

Example C08_example : check_args (NdArr [2%nat] (TNum [Fin 1; Fin 2]) []) (NdArr [2%nat] [Fin 0; Fin 1] []) None (Some 45) = Ok tt.
Proof. reflexivity. Qed.
