(** Properties C01-C04: time conversion. *)
From Coq Require Import Lia Lra.
From Verif Require Import M_Base M_Lib M_Options M_Time M_Slvinit M_Diag M_Solve M_Recon
  S_Dict S_Options S_Time L_Base L_OptSolve L_Calendar L_Time L_Epoch.
Open Scope R_scope.
Open Scope string_scope.

(** C01.  Date-times become the day number of their calendar date plus the part of the day. *)
Theorem C01_datetimes_become_day_numbers : forall parse u l,
  exists xs, normalize_time parse (TDate u l) PNone = Ok xs /\
  Forall2 (fun d x => match d with
                      | None => x = NaN
                      | Some n => exists r, x = Fin r /\ day_value u n r
                      end) l xs.
Proof. exact normalize_dates_spec. Qed.
Print Assumptions C01_datetimes_become_day_numbers.

(** The value is unique, and every instant (before or after 1970, in any unit) has one. *)
Theorem C01_day_value_defined : forall u n, exists x, day_value u n x.
Proof. exact (fun u n => ex_intro _ _ (proj2 (day_value_ms u n _) eq_refl)). Qed.
Print Assumptions C01_day_value_defined.

Theorem C01_day_value_unique : forall u n x y, day_value u n x -> day_value u n y -> x = y.
Proof. exact day_value_unique. Qed.
Print Assumptions C01_day_value_unique.

(** solve and reconstruct see nothing but these numbers. *)
Theorem C01_solve_uses_day_numbers : forall parse t u v lat epoch si,
  slvinit parse t u v lat epoch = Ok si ->
  exists xs, normalize_time parse (arr_data t) epoch = Ok xs /\
    si_tin si = flat_map (fun x => match x with Fin r => [r] | _ => [] end) xs.
Proof. exact slvinit_times. Qed.
Print Assumptions C01_solve_uses_day_numbers.

(** 2016-02-29T18:00 (leap day), and 1969-12-31T23:59:59.9995 in microseconds (before 1970, the
    half millisecond is dropped downwards) *)
Example C01_example_leap_day : unix_day 16860 (Date 2016 2 29) /\ day_number (Date 2016 2 29) 736023.
Proof. exact leap_day_example. Qed.
Example C01_example_hour : day_value UHour (16860 * 24 + 18) (736023 + 3 / 4).
Proof. apply day_value_ms. unfold ms_value. cbn. lra. Qed.
Example C01_example_before_1970 : day_value UUs (-500) (719163 - / 86400000).
Proof. apply day_value_ms. unfold ms_value. cbn. lra. Qed.

(** C02.  One list of instants, four notations, same internal times, same results. *)
Theorem C02_same_internal_times : forall parse t e xs,
  denotes parse t e xs -> normalize_time parse t e = Ok xs.
Proof. exact denotes_normalize. Qed.
Print Assumptions C02_same_internal_times.

Theorem C02_solve_independent_of_convention : forall L sh m1 m2 t1 t2 xs u v lat e1 e2 opts c,
  unique_keys (("epoch", e1) :: opts) ->
  denotes (l_parse L) t1 e1 xs -> denotes (l_parse L) t2 e2 xs ->
  solve L (NdArr sh t1 m1) u v lat (("epoch", e1) :: opts) = Ok c ->
  solve L (NdArr sh t2 m2) u v lat (("epoch", e2) :: opts) = Ok (with_opt c (with_epoch (c_opt c) e2)).
Proof.
  intros L sh m1 m2 t1 t2 xs u v lat e1 e2 opts c Hu H1 H2.
  exact (epoch_lemma L sh m1 m2 t1 t2 u v lat e1 e2 opts c Hu
    (eq_trans (denotes_normalize _ _ _ _ H1) (eq_sym (denotes_normalize _ _ _ _ H2)))).
Qed.
Print Assumptions C02_solve_independent_of_convention.

Theorem C02_reconstruct_independent_of_convention : forall L t1 t2 xs nd c e1 e2 k a b r,
  denotes (l_parse L) t1 e1 xs -> denotes (l_parse L) t2 e2 xs ->
  reconstruct L t1 nd c e1 k a b = Ok r ->
  exists r', reconstruct L t2 nd (with_opt c (with_epoch (c_opt c) e2)) e2 k a b = Ok r' /\
             ro_series r' = ro_series r.
Proof.
  intros L t1 t2 xs nd c e1 e2 k a b r H1 H2.
  exact (recon_lemma L t1 t2 nd c e1 e2 k a b
    (eq_trans (denotes_normalize _ _ _ _ H1) (eq_sym (denotes_normalize _ _ _ _ H2))) r).
Qed.
Print Assumptions C02_reconstruct_independent_of_convention.

Example C02_example : let parse s := if String.eqb s "1970-01-02" then Some 86400000%Z else None in
  denotes parse (TNum [Fin 719163.5; NaN]) (PStr "python") [Fin 719163.5; NaN] /\
  denotes parse (TNum [Fin 719529.5; NaN]) (PStr "matlab") [Fin 719163.5; NaN] /\
  denotes parse (TNum [Fin (-0.5); NaN]) (PStr "1970-01-02") [Fin 719163.5; NaN] /\
  denotes parse (TDate UHour [Some 12%Z; None]) PNone [Fin 719163.5; NaN].
Proof. exact denotes_example. Qed.

(** C03.  Conversion preserves order, ... *)
Theorem C03_order_preserved : forall parse u l xs i j n m,
  normalize_time parse (TDate u l) PNone = Ok xs ->
  nth_error l i = Some (Some n) -> nth_error l j = Some (Some m) -> (n <= m)%Z ->
  exists a b, nth_error xs i = Some (Fin a) /\ nth_error xs j = Some (Fin b) /\ a <= b.
Proof. exact order_lemma. Qed.
Print Assumptions C03_order_preserved.

(** ... moves no instant by a millisecond or more (times are in days), ... *)
Theorem C03_error_below_1ms : forall parse u l xs i n,
  normalize_time parse (TDate u l) PNone = Ok xs -> nth_error l i = Some (Some n) ->
  exists a, nth_error xs i = Some (Fin a) /\
    0 <= (719163 + IZR n / IZR (per_day u) - a) * 86400000 < 1.
Proof. exact error_lemma. Qed.
Print Assumptions C03_error_below_1ms.

(** ... and keeps instants on the millisecond grid apart. *)
Theorem C03_millisecond_grid_distinct : forall parse u l xs i j n m a,
  normalize_time parse (TDate u l) PNone = Ok xs ->
  nth_error l i = Some (Some n) -> nth_error l j = Some (Some m) ->
  (exists k, n * 86400000 = k * per_day u)%Z -> (exists k, m * 86400000 = k * per_day u)%Z ->
  nth_error xs i = Some (Fin a) -> nth_error xs j = Some (Fin a) -> n = m.
Proof. exact distinct_lemma. Qed.
Print Assumptions C03_millisecond_grid_distinct.

(** Inside a millisecond distinct instants collapse. *)
Theorem C03_distinct_instants_refuted : ~ (forall parse u n m a b,
  normalize_time parse (TDate u [Some n; Some m]) PNone = Ok [Fin a; Fin b] -> n <> m -> a <> b).
Proof. exact collapse_lemma. Qed.
Print Assumptions C03_distinct_instants_refuted.

Example C03_example : (exists k, 1500 * 86400000 = k * per_day USec)%Z /\
  normalize_time (fun _ => None) (TDate USec [Some 1500%Z; Some 1501%Z]) PNone =
    Ok [Fin (719163 + 1500 / 86400); Fin (719163 + 1501 / 86400)].
Proof. exact distinct_example. Qed.

(** C04.  Kinds of time arrays. *)
Theorem C04_numeric_with_epoch_accepted : forall parse l e,
  (e = PStr "python" \/ e = PStr "matlab" \/ exists off, epoch_value parse e off) ->
  exists xs, normalize_time parse (TNum l) e = Ok xs.
Proof. exact numeric_lemma. Qed.
Print Assumptions C04_numeric_with_epoch_accepted.

Theorem C04_non_numeric_with_epoch_rejected : forall parse t e,
  e <> PNone -> (forall l, t <> TNum l) -> normalize_time parse t e = Err ValueError.
Proof. exact non_numeric_lemma. Qed.
Print Assumptions C04_non_numeric_with_epoch_rejected.

Theorem C04_unparsable_epoch_rejected : forall parse l s,
  s <> "python" -> s <> "matlab" -> parse s = None ->
  normalize_time parse (TNum l) (PStr s) = Err ValueError.
Proof. exact unparsable_lemma. Qed.
Print Assumptions C04_unparsable_epoch_rejected.

(** The same for solve and reconstruct. *)
Theorem C04_solve_rejects : forall L sh t m u v la e opts,
  unique_keys (("epoch", e) :: opts) -> e <> PNone -> (forall l, t <> TNum l) ->
  forall c, solve L (NdArr sh t m) u v la (("epoch", e) :: opts) <> Ok c.
Proof. exact solve_kind_lemma. Qed.
Print Assumptions C04_solve_rejects.

Theorem C04_reconstruct_rejects : forall L t nd c e k a b,
  e <> PNone -> (forall l, t <> TNum l) -> reconstruct L t nd c e k a b = Err ValueError.
Proof. exact recon_kind_lemma. Qed.
Print Assumptions C04_reconstruct_rejects.

(** "Numeric times need an epoch" is not enforced: day numbers are read as milliseconds since 1970. *)
Theorem C04_numeric_without_epoch_rejected_refuted : ~ (forall parse l,
  exists e, normalize_time parse (TNum l) PNone = Err e).
Proof. exact numeric_none_refuted. Qed.
Print Assumptions C04_numeric_without_epoch_rejected_refuted.

Theorem C04_numeric_without_epoch_is_milliseconds : forall parse (ms : list Z),
  normalize_time parse (TNum (map (fun z => Fin (IZR z)) ms)) PNone =
  normalize_time parse (TDate UMs (map Some ms)) PNone.
Proof. exact numeric_none_lemma. Qed.
Print Assumptions C04_numeric_without_epoch_is_milliseconds.

Example C04_example : forall parse,
  normalize_time parse (TDate USec [Some 0%Z]) (PStr "python") = Err ValueError /\
  normalize_time parse (TUns [719163%Z]) (PStr "python") = Err ValueError /\
  normalize_time parse (TNum [Fin 3]) (PStr "python") = Ok [Fin 3].
Proof. intros parse. repeat split. Qed.
