(** Properties C44, C47-C51: reconstruction. *)
From Coq Require Import Lia Lra Permutation.
From Verif Require Import M_Base M_Lib M_Tables M_Const M_Options M_Time M_Slvinit M_Harmonics M_Select M_Diag M_Solve M_Recon
  S_Dict S_Options S_Slv S_Order S_Fit S_Basis S_Recon L_Options L_Order L_SelOrder L_Recon L_Recon2 L_Recon3 L_Recon4 L_Recon5
  L_Example L_Example2 L_Recon6.
Open Scope R_scope.
Open Scope string_scope.

(** C44.  Two runs of solve that differ only in order_constit give coefficients from which reconstruct
    makes the same result: any times, any selection. *)
Theorem C44_order_irrelevant : forall L t u v lat opts x y a b,
  lstsq_shape L -> argsort_perm L -> arrays_ok t u v -> unique_keys opts ->
  sorted_order x -> (sorted_order y \/ exists l, y = PSeq (map PStr l) /\ NoDup l /\ Permutation l (c_name a)) ->
  solve L t u v lat (dset opts "order_constit" x) = Ok a -> solve L t u v lat (dset opts "order_constit" y) = Ok b ->
  c_weights a <> [] ->
  forall ts nd epoch constit mS mP,
    reconstruct L ts nd a epoch constit mS mP = reconstruct L ts nd b epoch constit mS mP.
Proof. exact order_irrelevant. Qed.
Print Assumptions C44_order_irrelevant.

Example C44_example : exists a b,
  ex_call [47%nat; 56%nat] m_vector true (dset ex_opts "order_constit" (PStr "PE")) = Ok a /\
  ex_call [47%nat; 56%nat] m_vector true (dset ex_opts "order_constit" (PStr "frequency")) = Ok b /\
  c_weights a <> [].
Proof.
  destruct (run_variant [47%nat; 56%nat] ["M2"; "S2"] false m_vector true ex_opts (PStr "PE") eq_refl ex_good_vector (ex_variant_linear true) eq_refl) as (a & Ha & Wa); [unfold sorted_order; tauto|].
  destruct (run_variant [47%nat; 56%nat] ["M2"; "S2"] false m_vector true ex_opts (PStr "frequency") eq_refl ex_good_vector (ex_variant_linear true) eq_refl) as (b & Hb & Wb); [unfold sorted_order; tauto|].
  exists a, b. auto.
Qed.

(** C47.  reconstruct returns, at each valid time, mean and trend plus the sum of the contributions of the
    chosen constituents: [A F cos (2 pi (V + U) - g)], or the ellipse motion. *)
Theorem C47_harmonic_sum : forall L t nd c epoch constit mS mP, well_formed c ->
  reconstruct L t nd c epoch constit mS mP =
  if Nat.ltb 1 nd then Err ValueError else
  do tn <- normalize_time (l_parse L) t epoch;
  Ok {| ro_t_in := t; ro_t_mpl := if eq_str epoch "python" then inl t else inr tn;
        ro_series := if o_twodim (c_opt c)
                     then Vector (placed (value_u c constit mS mP) (map finite tn)) (placed (value_v c constit mS mP) (map finite tn))
                     else Scalar (placed (value_u c constit mS mP) (map finite tn)) |}.
Proof. exact reconstruct_eq. Qed.
Print Assumptions C47_harmonic_sum.

(** what solve returns is such a coefficient set *)
Theorem C47_solve_output : forall L t u v lat opts c, lstsq_shape L -> arrays_ok t u v -> unique_keys opts ->
  solve L t u v lat opts = Ok c -> c_weights c <> [] -> well_formed c /\ known_lind c.
Proof.
  exact (fun L t u v lat opts c H1 H2 H3 H4 H5 => conj (solve_well_formed L t u v lat opts c H1 H2 H3 H4 H5) (solve_known L t u v lat opts c H1 H2 H3 H4 H5)).
Qed.
Print Assumptions C47_solve_output.

Example C47_example : well_formed (eq_coef 45) /\ known_lind (eq_coef 45) /\ corrections_finite (eq_coef 45).
Proof. split; [apply eq_wf|]. split; [apply eq_known|]. right. cbn. rewrite Rabs_pos_eq; lra. Qed.

(** C48.  Shape, and NaN at invalid times *)
Theorem C48_shape : forall L t nd c e k mS mP o tn, well_formed c -> normalize_time (l_parse L) t e = Ok tn ->
  reconstruct L t nd c e k mS mP = Ok o -> forall a, In a (outputs (ro_series o)) ->
  length a = length tn /\
  forall i, nth_error tn i = Some NaN \/ nth_error tn i = Some PInf \/ nth_error tn i = Some NInf -> nth_error a i = Some NaN.
Proof. exact shape_lemma. Qed.
Print Assumptions C48_shape.

(** NaN exactly at the invalid times, when the nodal corrections are off or the latitude is not 0 *)
Theorem C48_nan_exactly_at_invalid_times : forall L t nd c e k mS mP o tn,
  well_formed c -> known_lind c -> corrections_finite c ->
  normalize_time (l_parse L) t e = Ok tn ->
  reconstruct L t nd c e k mS mP = Ok o -> forall a, In a (outputs (ro_series o)) ->
  forall i x y, nth_error tn i = Some x -> nth_error a i = Some y ->
  ((exists r, y = Fin r) <-> (exists r, x = Fin r)) /\ (y = NaN <-> ~ exists r, x = Fin r).
Proof. exact exact_lemma. Qed.
Print Assumptions C48_nan_exactly_at_invalid_times.

(** on the equator, with nodal corrections, valid times may give NaN: K1 alone *)
Theorem C48_equator_refuted : exists c, well_formed c /\ known_lind c /\ c_lat c = 0 /\ c_name c = ["K1"] /\
  forall L t nd e tn o, normalize_time (l_parse L) t e = Ok tn -> reconstruct L t nd c e CNone 0 0 = Ok o ->
  out_u (ro_series o) = map (fun _ => NaN) tn.
Proof. exact equator_nan. Qed.
Print Assumptions C48_equator_refuted.

(** the value at a time depends on that time only *)
Theorem C48_time_by_time : forall L t t' nd nd' c e e' k mS mP o o' tn tn' i j, well_formed c ->
  normalize_time (l_parse L) t e = Ok tn -> normalize_time (l_parse L) t' e' = Ok tn' ->
  reconstruct L t nd c e k mS mP = Ok o -> reconstruct L t' nd' c e' k mS mP = Ok o' ->
  nth_error tn i = nth_error tn' j ->
  nth_error (out_u (ro_series o)) i = nth_error (out_u (ro_series o')) j /\
  match out_v (ro_series o), out_v (ro_series o') with
  | Some a, Some b => nth_error a i = nth_error b j | None, None => True | _, _ => False end.
Proof. exact pointwise_lemma. Qed.
Print Assumptions C48_time_by_time.

(** arrays may be split or concatenated *)
Theorem C48_concatenation : forall L a b ab c e k mS mP oa ob, well_formed c -> cat a b ab ->
  reconstruct L a 1 c e k mS mP = Ok oa -> reconstruct L b 1 c e k mS mP = Ok ob ->
  exists o, reconstruct L ab 1 c e k mS mP = Ok o /\ series_app (ro_series oa) (ro_series ob) = Some (ro_series o).
Proof. exact concat_lemma. Qed.
Print Assumptions C48_concatenation.

(** more than one dimension is refused, whatever the coefficients *)
Theorem C48_dimensions : forall L t nd c e k mS mP, (1 < nd)%nat -> reconstruct L t nd c e k mS mP = Err ValueError.
Proof. exact dims_refused. Qed.
Print Assumptions C48_dimensions.

Example C48_example : exists o, reconstruct (exL m_scalar) (TNum [Fin 730001; NaN; Fin 730002]) 1 (eq_coef 45) (PStr "python") CNone 0 0 = Ok o /\
  exists r r', out_u (ro_series o) = [Fin r; NaN; Fin r'].
Proof.
  rewrite (reconstruct_eq _ _ _ _ _ _ _ _ (eq_wf 45)). eexists. split; [reflexivity|].
  destruct C47_example as (W & K & C).
  destruct (proj1 (values_finite (eq_coef 45) CNone 0 0 730001 W K C)) as [r Hr].
  destruct (proj1 (values_finite (eq_coef 45) CNone 0 0 730002 W K C)) as [r' Hr'].
  exists r, r'. cbn [ro_series]. rewrite out_u_outcome. unfold placed. cbn [map finite]. rewrite Hr, Hr'. reflexivity.
Qed.

(** C49.  With constit given, the result is made of exactly the named constituents that are present *)
Theorem C49_named : forall L t nd c e l mS mP o tn, well_formed c -> normalize_time (l_parse L) t e = Ok tn ->
  reconstruct L t nd c e (CSeq l) mS mP = Ok o -> exists keep,
  (forall r, In r (rows c) -> (keep r = true <-> exists n, w_name r = Some n /\ In n l)) /\
  made_of c (filter keep (rows c)) tn (ro_series o).
Proof. exact made_named. Qed.
Print Assumptions C49_named.

(** order, repetition, unknown names and thresholds are irrelevant *)
Theorem C49_only_known_names_matter : forall L t nd c epoch l l' s1 p1 s2 p2, well_formed c ->
  (forall n, In n (c_name c) -> (In n l <-> In n l')) ->
  reconstruct L t nd c epoch (CSeq l) s1 p1 = reconstruct L t nd c epoch (CSeq l') s2 p2.
Proof. exact reconstruct_names. Qed.
Print Assumptions C49_only_known_names_matter.

(** without constit: the thresholds; both zero, or no diagnostics, select everything *)
Theorem C49_thresholds : forall L t nd c e mS mP o tn, well_formed c -> normalize_time (l_parse L) t e = Ok tn ->
  reconstruct L t nd c e CNone mS mP = Ok o -> exists keep,
  (forall r, In r (rows c) -> (keep r = true <->
     o_nodiagn (c_opt c) = true \/ (mS = 0 /\ mP = 0) \/
     (xge (snr r) (Fin mS) = true /\ xge (share (energy r) (total c)) (Fin mP) = true))) /\
  made_of c (filter keep (rows c)) tn (ro_series o).
Proof. exact made_thresholds. Qed.
Print Assumptions C49_thresholds.

Example C49_example : xge NaN (Fin 2) = false /\ xge (Fin 3) (Fin 2) = true /\ xge (Fin 1) (Fin 2) = false.
Proof. unfold xge. repeat split; repeat match goal with |- context [Rle_dec ?a ?b] => destruct (Rle_dec a b); try lra end; reflexivity. Qed.

(** C50.  Raising a threshold never adds a constituent (also from zero, for non-negative thresholds) *)
Theorem C50_monotone : forall L t nd c e s p s' p' o o' tn, well_formed c -> normalize_time (l_parse L) t e = Ok tn ->
  0 <= s <= s' -> 0 <= p <= p' ->
  reconstruct L t nd c e CNone s p = Ok o -> reconstruct L t nd c e CNone s' p' = Ok o' ->
  exists keep keep', made_of c (filter keep (rows c)) tn (ro_series o) /\ made_of c (filter keep' (rows c)) tn (ro_series o') /\
  forall r, keep' r = true -> keep r = true.
Proof. exact made_mono. Qed.
Print Assumptions C50_monotone.

(** the constituents used are those whose PE and SNR, as reported by solve, reach the thresholds *)
Theorem C50_reported : forall L t u v lat opts x y a b, lstsq_shape L -> argsort_perm L -> arrays_ok t u v -> unique_keys opts ->
  sorted_order x -> (sorted_order y \/ exists l, y = PSeq (map PStr l) /\ NoDup l /\ Permutation l (c_name a)) ->
  ~ setting opts "conf_int" (PStr "none") ->
  solve L t u v lat (dset opts "order_constit" x) = Ok a -> solve L t u v lat (dset opts "order_constit" y) = Ok b ->
  c_weights a <> [] -> exists PE SNR, c_PE b = Some PE /\ c_SNR b = Some SNR /\
  length PE = length (rows b) /\ length SNR = length (rows b) /\
  forall ts nd e mS mP o tn, ~ (mS = 0 /\ mP = 0) -> normalize_time (l_parse L) ts e = Ok tn ->
  reconstruct L ts nd b e CNone mS mP = Ok o ->
  made_of b (map fst (filter (fun q => xge (snd (snd q)) (Fin mS) && xge (fst (snd q)) (Fin mP)) (combine (rows b) (combine PE SNR)))) tn (ro_series o).
Proof. exact made_reported. Qed.
Print Assumptions C50_reported.

(** but not when order_constit lists only some of the constituents: M2 is reported with PE = 20 and yet
    passes the threshold 50 (it has all the energy of the shortened table) *)
Theorem C50_reported_refuted : exists b r,
  ex_call [47%nat; 56%nat] m_scalar false (dset ex_opts "order_constit" (PSeq [PStr "M2"])) = Ok b /\
  c_weights b <> [] /\ rows b = [r] /\ w_name r = Some "M2" /\ c_PE b = Some [Fin 20] /\ well_formed b /\
  forall L t nd e mS o tn, mS <> 0 -> normalize_time (l_parse L) t e = Ok tn -> reconstruct L t nd b e CNone mS 50 = Ok o ->
    made_of b (if xge (snr r) (Fin mS) then [r] else []) tn (ro_series o).
Proof. exact made_subset. Qed.
Print Assumptions C50_reported_refuted.

(** C11.  Coefficients computed with conf_int='none' are reconstructed from all constituents, whatever the thresholds. *)
Theorem C11_none_reconstructs_everything : forall L t u v lat opts c, lstsq_shape L -> arrays_ok t u v -> unique_keys opts ->
  solve L t u v lat opts = Ok c -> c_weights c <> [] -> setting opts "conf_int" (PStr "none") ->
  forall ts nd e mS mP o tn, normalize_time (l_parse L) ts e = Ok tn -> reconstruct L ts nd c e CNone mS mP = Ok o ->
  made_of c (rows c) tn (ro_series o).
Proof. exact made_none. Qed.
Print Assumptions C11_none_reconstructs_everything.

(** C51.  Disjoint sets of names *)
Theorem C51_additive : forall L t nd c e A B s p oAB oA oB o0, well_formed c -> (forall n, In n A -> In n B -> False) ->
  reconstruct L t nd c e (CSeq (A ++ B)%list) s p = Ok oAB -> reconstruct L t nd c e (CSeq A) s p = Ok oA ->
  reconstruct L t nd c e (CSeq B) s p = Ok oB -> reconstruct L t nd c e (CSeq []) s p = Ok o0 ->
  out_u (ro_series oAB) = merge (fun a b z => xminus (xadd a b) z) (out_u (ro_series oA)) (out_u (ro_series oB)) (out_u (ro_series o0)) /\
  match out_v (ro_series oAB), out_v (ro_series oA), out_v (ro_series oB), out_v (ro_series o0) with
  | Some w, Some a, Some b, Some z => w = merge (fun a b z => xminus (xadd a b) z) a b z
  | None, None, None, None => True | _, _, _, _ => False end.
Proof. exact additive_run. Qed.
Print Assumptions C51_additive.

(** the run without any name is the mean and the trend *)
Theorem C51_background : forall L t nd c e s p o tn, well_formed c -> normalize_time (l_parse L) t e = Ok tn ->
  reconstruct L t nd c e (CSeq []) s p = Ok o ->
  out_u (ro_series o) = placed (fun x => plus (Some 0) (if o_twodim (c_opt c) then background c (c_umean c) (c_uslope c) x else background c (c_mean c) (c_slope c) x)) (map finite tn) /\
  out_v (ro_series o) = if o_twodim (c_opt c) then Some (placed (fun x => plus (Some 0) (background c (c_vmean c) (c_vslope c) x)) (map finite tn)) else None.
Proof. exact background_run. Qed.
Print Assumptions C51_background.

Example C51_example : exists o, reconstruct (exL m_scalar) (TNum [Fin 730001]) 1 (eq_coef 45) (PStr "python") (CSeq (["K1"] ++ ["M2"])%list) 0 0 = Ok o.
Proof. rewrite (reconstruct_eq _ _ _ _ _ _ _ _ (eq_wf 45)). eexists. reflexivity. Qed.
