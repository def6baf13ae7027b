(** Properties C42, C43, C45, C46: order of the constituents and diagnostics. *)
From Coq Require Import Lia Lra Sorting Permutation.
From Verif Require Import M_Base M_Lib M_Tables M_Const M_Options M_Time M_Slvinit M_Harmonics M_Select M_Diag M_Solve
  S_Dict S_Options S_Slv S_Order S_Fit L_Options L_Order L_SelOrder L_Order2 L_Order3 L_Order4 L_Example.
Open Scope R_scope.
Open Scope string_scope.

(** C42.  Two runs that differ only in order_constit (among None, 'PE', 'SNR', 'frequency') report the same
    rows: name, amplitudes, phases, intervals, frequency and table index stay together and none is lost. *)
Theorem C42_same_rows : forall L t u v lat opts x y a b,
  lstsq_shape L -> argsort_perm L -> arrays_ok t u v -> unique_keys opts ->
  sorted_order x -> sorted_order y ->
  solve L t u v lat (dset opts "order_constit" x) = Ok a -> solve L t u v lat (dset opts "order_constit" y) = Ok b ->
  c_weights a <> [] ->
  same_result a b /\ (~ setting opts "conf_int" (PStr "none") -> Permutation (drows a) (drows b)).
Proof. exact orders_agree. Qed.
Print Assumptions C42_same_rows.

(** a sequence of some names keeps the named rows intact, with their PE and SNR *)
Theorem C42_named_rows_intact : forall L t u v lat opts x l a b,
  lstsq_shape L -> argsort_perm L -> arrays_ok t u v -> unique_keys opts ->
  sorted_order x -> ~ setting opts "conf_int" (PStr "none") ->
  solve L t u v lat (dset opts "order_constit" x) = Ok a ->
  solve L t u v lat (dset opts "order_constit" (PSeq (map PStr l))) = Ok b ->
  c_weights a <> [] -> incl (drows b) (drows a).
Proof. exact name_drows. Qed.
Print Assumptions C42_named_rows_intact.

(** a sequence of all names loses nothing *)
Theorem C42_all_names : forall L t u v lat opts x l a b,
  lstsq_shape L -> argsort_perm L -> arrays_ok t u v -> unique_keys opts -> sorted_order x ->
  solve L t u v lat (dset opts "order_constit" x) = Ok a ->
  solve L t u v lat (dset opts "order_constit" (PSeq (map PStr l))) = Ok b ->
  c_weights a <> [] -> NoDup l -> Permutation l (c_name a) ->
  same_result a b /\ (~ setting opts "conf_int" (PStr "none") -> Permutation (drows a) (drows b)).
Proof. exact name_full. Qed.
Print Assumptions C42_all_names.

(** runs that meet the hypotheses: scalar and vector data, every sorting order *)
Example C42_example : forall x, sorted_order x ->
  (exists c, ex_call [47%nat; 56%nat] m_scalar false (dset ex_opts "order_constit" x) = Ok c /\ c_weights c <> []) /\
  (exists c, ex_call [47%nat; 56%nat] m_vector true (dset ex_opts "order_constit" x) = Ok c /\ c_weights c <> []).
Proof.
  intros x Hx. split.
  - exact (run_variant [47%nat; 56%nat] ["M2"; "S2"] false m_scalar false ex_opts x eq_refl ex_good_scalar (ex_variant_linear false) eq_refl Hx).
  - exact (run_variant [47%nat; 56%nat] ["M2"; "S2"] false m_vector true ex_opts x eq_refl ex_good_vector (ex_variant_linear true) eq_refl Hx).
Qed.
Example C42_example_library : lstsq_shape (exL m_scalar) /\ argsort_perm (exL m_scalar) /\ argsort_sorts (exL m_scalar) /\
  unique_keys ex_opts /\ ~ setting ex_opts "conf_int" (PStr "none").
Proof.
  split; [apply ex_shape|]. split; [apply ex_perm|]. split; [apply ex_sorts|].
  assert (U : unique_keys ex_opts) by exact (proj1 (ex_variant_linear false)). split; [exact U|].
  intros H. apply (setting_val _ "conf_int" _ U ltac:(cbn; tauto)) in H. discriminate.
Qed.

(** C43.  The order produced. *)
Theorem C43_sorted : forall L t u v lat opts c x,
  lstsq_shape L -> argsort_sorts L -> arrays_ok t u v -> unique_keys opts ->
  setting opts "order_constit" x -> solve L t u v lat opts = Ok c -> c_weights c <> [] ->
  (x = PNone \/ x = PStr "PE" -> exists pe, c_PE c = Some pe /\ non_increasing pe) /\
  (x = PStr "SNR" -> exists sn, c_SNR c = Some sn /\ non_increasing sn) /\
  (x = PStr "frequency" -> non_decreasing (c_frq c)).
Proof. exact orders_sorted. Qed.
Print Assumptions C43_sorted.

Theorem C43_name_sequence : forall L t u v lat opts x l a b,
  lstsq_shape L -> argsort_perm L -> arrays_ok t u v -> unique_keys opts -> sorted_order x ->
  solve L t u v lat (dset opts "order_constit" x) = Ok a ->
  solve L t u v lat (dset opts "order_constit" (PSeq (map PStr l))) = Ok b ->
  c_weights a <> [] ->
  c_name b = l /\ incl (rows b) (rows a) /\ c_diagn b = c_diagn a.
Proof. exact name_rows. Qed.
Print Assumptions C43_name_sequence.

Theorem C43_unknown_name : forall L t u v lat opts x l n a,
  lstsq_shape L -> argsort_perm L -> arrays_ok t u v -> unique_keys opts -> sorted_order x ->
  solve L t u v lat (dset opts "order_constit" x) = Ok a -> c_weights a <> [] ->
  In n l -> ~ In n (c_name a) ->
  solve L t u v lat (dset opts "order_constit" (PSeq (map PStr l))) = Err ValueError.
Proof. exact name_err. Qed.
Print Assumptions C43_unknown_name.

(** C45.  Percent energy. *)
Theorem C45_percent_of_total : forall L t u v lat opts c x pe,
  lstsq_shape L -> argsort_perm L -> arrays_ok t u v -> unique_keys opts ->
  setting opts "order_constit" x -> sorted_order x -> solve L t u v lat opts = Ok c -> c_weights c <> [] ->
  c_PE c = Some pe -> pe = map (fun r => share (energy r) (total c)) (rows c).
Proof. exact percent_energy. Qed.
Print Assumptions C45_percent_of_total.

(** total c is the sum of A^2, or Lsmaj^2 + Lsmin^2, over all constituents *)
Theorem C45_sum_is_100 : forall L t u v lat opts c x pe,
  lstsq_shape L -> argsort_perm L -> arrays_ok t u v -> unique_keys opts ->
  setting opts "order_constit" x -> sorted_order x -> solve L t u v lat opts = Ok c -> c_weights c <> [] ->
  c_PE c = Some pe -> total c <> 0 -> xsum pe = Fin 100.
Proof. exact PE_sum. Qed.
Print Assumptions C45_sum_is_100.

Theorem C45_non_negative : forall L t u v lat opts c x pe,
  lstsq_shape L -> argsort_perm L -> arrays_ok t u v -> unique_keys opts ->
  setting opts "order_constit" x -> sorted_order x -> solve L t u v lat opts = Ok c -> c_weights c <> [] ->
  c_PE c = Some pe -> total c <> 0 -> Forall (fun q => exists p, q = Fin p /\ 0 <= p <= 100) pe.
Proof. exact PE_range. Qed.
Print Assumptions C45_non_negative.

(** two analyses, of whatever data, whose energies differ by a common factor report the same percentages *)
Theorem C45_scaling : forall L t u v lat opts c x pe L' t' u' v' lat' opts' c' x' pe' k,
  lstsq_shape L -> argsort_perm L -> arrays_ok t u v -> unique_keys opts ->
  setting opts "order_constit" x -> sorted_order x -> solve L t u v lat opts = Ok c -> c_weights c <> [] ->
  c_PE c = Some pe -> 
  lstsq_shape L' -> argsort_perm L' -> arrays_ok t' u' v' -> unique_keys opts' ->
  setting opts' "order_constit" x' -> sorted_order x' -> solve L' t' u' v' lat' opts' = Ok c' -> c_weights c' <> [] ->
  c_PE c' = Some pe' ->
  k <> 0 -> map energy (rows c') = map (fun r => k * energy r) (rows c) -> pe' = pe.
Proof. exact PE_scaled. Qed.
Print Assumptions C45_scaling.

Theorem C45_no_energy_NaN : forall L t u v lat opts c x pe,
  lstsq_shape L -> argsort_perm L -> arrays_ok t u v -> unique_keys opts ->
  setting opts "order_constit" x -> sorted_order x -> solve L t u v lat opts = Ok c -> c_weights c <> [] ->
  c_PE c = Some pe -> total c = 0 -> pe = map (fun _ => NaN) (c_name c).
Proof. exact PE_NaN. Qed.
Print Assumptions C45_no_energy_NaN.

Theorem C45_SNR : forall L t u v lat opts c sn,
  lstsq_shape L -> argsort_perm L -> arrays_ok t u v -> unique_keys opts ->
  solve L t u v lat opts = Ok c -> c_weights c <> [] -> c_SNR c = Some sn -> sn = map snr (rows c).
Proof. exact snr_reported. Qed.
Print Assumptions C45_SNR.

(** PE and SNR are present when confidence intervals are computed *)
Theorem C45_present : forall L t u v lat opts c,
  lstsq_shape L -> arrays_ok t u v -> unique_keys opts ->
  solve L t u v lat opts = Ok c -> c_weights c <> [] -> ~ setting opts "conf_int" (PStr "none") ->
  c_PE c <> None /\ c_SNR c <> None.
Proof. exact PE_present. Qed.
Print Assumptions C45_present.

(** C46.  The table of diagnostics: all constituents by non-increasing PE, with their own PE and SNR. *)
Theorem C46_table : forall L t u v lat opts c x,
  lstsq_shape L -> argsort_perm L -> argsort_sorts L -> arrays_ok t u v ->
  unique_keys opts -> setting opts "order_constit" x -> sorted_order x -> ~ setting opts "conf_int" (PStr "none") ->
  solve L t u v lat opts = Ok c -> c_weights c <> [] ->
  exists n p sn, c_diagn c = Some (n, p, sn) /\ non_increasing p /\ length p = length n /\ length sn = length n /\
    Permutation (combine (combine (map Some n) p) sn)
      (map (fun r => (w_name r, share (energy r) (total c), snr r)) (rows c)).
Proof. exact diagn_table. Qed.
Print Assumptions C46_table.

(** independent of order_constit, also for a name sequence *)
Theorem C46_independent_of_order : forall L t u v lat opts x y a b,
  lstsq_shape L -> argsort_perm L -> arrays_ok t u v -> unique_keys opts ->
  sorted_order x -> (sorted_order y \/ exists l, y = PSeq (map PStr l)) ->
  solve L t u v lat (dset opts "order_constit" x) = Ok a -> solve L t u v lat (dset opts "order_constit" y) = Ok b ->
  c_weights a <> [] -> c_diagn b = c_diagn a.
Proof. exact diagn_any_order. Qed.
Print Assumptions C46_independent_of_order.
