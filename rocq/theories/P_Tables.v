(** Properties C72-C73: the constituent tables. *)
From Coq Require Import Lia Lra QArith Qreals.
From Verif Require Import M_Base M_Tables M_Const M_Harmonics S_Dict S_Tables L_Tables.
Open Scope R_scope.
Open Scope string_scope.

(** C72.  146 distinct names; the dictionary finds the position of each, and nothing else. *)
Theorem C72_names_distinct : length const_name = n_constits /\
  forall i j n, nth_error const_name i = Some n -> nth_error const_name j = Some n -> i = j.
Proof. exact (conj names_len (fun i j n => index_NoDup n i j)). Qed.
Print Assumptions C72_names_distinct.

Theorem C72_index_inverts_names : forall n i, constit_index n = Ok i <-> nth_error const_name i = Some n.
Proof. exact constit_index_iff. Qed.
Print Assumptions C72_index_inverts_names.

Theorem C72_unknown_name_KeyError : forall n, ~ In n const_name -> constit_index n = Err KeyError.
Proof. exact constit_index_unknown. Qed.
Print Assumptions C72_unknown_name_KeyError.

(** frequencies are strictly increasing along the table *)
Theorem C72_frequencies_increasing : forall i j x y, (i < j)%nat ->
  nth_error freqR i = Some x -> nth_error freqR j = Some y -> x < y.
Proof. exact freq_nth. Qed.
Print Assumptions C72_frequencies_increasing.

Theorem C72_cycles_per_hour : forall n f, entry cycles_per_hour n f <->
  exists i, nth_error const_name i = Some n /\ nth_error freqR i = Some f.
Proof. exact entry_cycles. Qed.
Print Assumptions C72_cycles_per_hour.

Theorem C72_hours_per_cycle_is_reciprocal : forall n f, entry cycles_per_hour n f ->
  (n = "Z0" /\ f = 0 /\ entry hours_per_cycle n PInf) \/
  (n <> "Z0" /\ 0 < f /\ entry hours_per_cycle n (Fin (1 / f))).
Proof. exact hours_lemma. Qed.
Print Assumptions C72_hours_per_cycle_is_reciprocal.

Example C72_example_index : constit_index "M2" = Ok 47%nat /\ constit_index "m2" = Err KeyError.
Proof. split; [apply constit_index_iff; reflexivity|]. vm_compute. reflexivity. Qed.
Example C72_example_cycles : exists f, entry cycles_per_hour "M2" f.
Proof. eexists. apply entry_cycles. exists 47%nat. split; reflexivity. Qed.

(** C73.  Shallow-water constituents are those without Doodson numbers and phase constants. *)
Theorem C73_shallow_or_primary : forall k, (k < n_constits)%nat ->
  (is_shallow k \/ is_primary k) /\ ~ (is_shallow k /\ is_primary k).
Proof. exact (fun k H => conj (shallow_or_primary k H) (fun p => shallow_not_primary k (proj1 p) (proj2 p))). Qed.
Print Assumptions C73_shallow_or_primary.

(** every row combines a shallow-water constituent from primary ones; every shallow-water
    constituent has rows *)
Theorem C73_rows_combine_primaries : forall r k j c, shallow_row r k j c -> is_shallow k /\ is_primary j.
Proof. exact row_facts. Qed.
Print Assumptions C73_rows_combine_primaries.

Theorem C73_shallow_has_rows : forall k, is_shallow k -> exists r j c, shallow_row r k j c.
Proof. exact shallow_has_row. Qed.
Print Assumptions C73_shallow_has_rows.

(** multipliers are integers except that of M7, which is 3.5 times M2 *)
Theorem C73_integer_multipliers : forall r k j c, shallow_row r k j c ->
  nth_error const_name k <> Some "M7" -> exists z, Q2R c = IZR z.
Proof. exact sh_coef_int. Qed.
Print Assumptions C73_integer_multipliers.

Theorem C73_M7_not_integer_refuted : exists r k j,
  shallow_row r k j (7 # 2) /\ nth_error const_name k = Some "M7" /\ nth_error const_name j = Some "M2".
Proof. exact (ex_intro _ 178%nat (ex_intro _ 117%nat (ex_intro _ 47%nat M7_row))). Qed.
Print Assumptions C73_M7_not_integer_refuted.

(** The loops over shallow-water constituents compute, for each, the tabulated combination of the
    final values of its parents (which are primary, so no order of evaluation matters). *)
Theorem C73_frequency_of_shallow : forall tref k, is_shallow k ->
  nth k (linearized_freqs tref) 0 =
  rsum (map (fun r => nth (row_parent r) (linearized_freqs tref) 0 * row_coef r) (rows_of k)).
Proof. exact lin_freq_eq. Qed.
Print Assumptions C73_frequency_of_shallow.

Theorem C73_argument_of_shallow : forall jd k, is_shallow k ->
  nth k (V_col jd) None =
  osum (map (fun r => omul (nth (row_parent r) (V_col jd) None) (Some (row_coef r))) (rows_of k)).
Proof. exact V_col_eq. Qed.
Print Assumptions C73_argument_of_shallow.

Theorem C73_nodal_phase_of_shallow : forall jd lat k, is_shallow k ->
  nth k (U_col jd lat) None =
  osum (map (fun r => omul (nth (row_parent r) (U_col jd lat) None) (Some (row_coef r))) (rows_of k)).
Proof. exact U_col_eq. Qed.
Print Assumptions C73_nodal_phase_of_shallow.

Theorem C73_nodal_factor_of_shallow : forall jd lat k, is_shallow k ->
  nth k (F_col jd lat) None =
  oprod (map (fun r => option_map (fun f => rpow f (Rabs (row_coef r)))
                         (nth (row_parent r) (F_col jd lat) None)) (rows_of k)).
Proof. exact F_col_eq. Qed.
Print Assumptions C73_nodal_factor_of_shallow.

(** MS4 = M2 + S2 *)
Example C73_example : nth_error const_name 85 = Some "MS4" /\ is_shallow 85 /\
  map (fun r => nth_error const_name (row_parent r)) (rows_of 85) = [Some "M2"; Some "S2"].
Proof. vm_compute. split; [reflexivity|]. split; [eexists|]; reflexivity. Qed.
