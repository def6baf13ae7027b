(** Time conversion. *)
From Coq Require Import Lia Lra.
From Verif Require M_Slvinit.
From Verif Require Import M_Base M_Time S_Time L_Base L_Calendar.
Open Scope R_scope.

Lemma per_day_pos u : (0 < per_day u)%Z.
Proof. destruct u; simpl; lia. Qed.

Lemma to_ms_floor u n : (to_ms u n * per_day u <= n * 86400000 < (to_ms u n + 1) * per_day u)%Z.
Proof.
  destruct u; cbn [to_ms per_day]; try lia.
  - assert (H := Z.div_mod n 1000 ltac:(lia)). assert (H' := Z.mod_pos_bound n 1000 ltac:(lia)). lia.
  - assert (H := Z.div_mod n 1000000 ltac:(lia)). assert (H' := Z.mod_pos_bound n 1000000 ltac:(lia)). lia.
Qed.

Lemma to_ms_split u n ms : (0 <= ms < 86400000)%Z ->
  (ms * per_day u <= (n mod per_day u) * 86400000 < (ms + 1) * per_day u)%Z ->
  to_ms u n = (n / per_day u * 86400000 + ms)%Z.
Proof.
  intros Hms H. assert (P := per_day_pos u). assert (F := to_ms_floor u n).
  assert (D := Z.div_mod n (per_day u) ltac:(lia)).
  set (q := (n / per_day u)%Z) in *. set (r := (n mod per_day u)%Z) in *. set (p := per_day u) in *.
  set (m := to_ms u n) in *. clearbody q r p m. subst n. nia.
Qed.

Definition ms_value (m : Z) : R := IZR 719163 + IZR m / 86400000.

Lemma day_value_ms u n x : day_value u n x <-> x = ms_value (to_ms u n).
Proof.
  split.
  - intros (d & N & ms & Hu & Hn & Hms & Hb & ->). apply unix_day_ordinal in Hu.
    apply day_number_ordinal in Hn. subst N. rewrite Hu, (to_ms_split u n ms Hms Hb).
    unfold ms_value. rewrite !plus_IZR, mult_IZR. field.
  - intros ->. destruct (unix_day_total (n / per_day u)) as [d Hd].
    set (ms := ((n mod per_day u) * 86400000 / per_day u)%Z).
    assert (P := per_day_pos u). assert (R0 := Z.mod_pos_bound n _ P).
    assert (H1 := Z.div_mod ((n mod per_day u) * 86400000) (per_day u) ltac:(lia)).
    assert (H2 := Z.mod_pos_bound ((n mod per_day u) * 86400000) (per_day u) P).
    assert (Hb : (ms * per_day u <= (n mod per_day u) * 86400000 < (ms + 1) * per_day u)%Z)
      by (unfold ms; lia).
    assert (Hms : (0 <= ms < 86400000)%Z) by nia.
    exists d, (719163 + n / per_day u)%Z, ms.
    repeat split; auto; try lia. { now apply unix_day_number. }
    rewrite (to_ms_split u n ms Hms Hb). unfold ms_value. rewrite !plus_IZR, mult_IZR. field.
Qed.

Definition date_conv (u : tunit) (d : option Z) : xr :=
  match d with None => NaN | Some n => Fin (ms_value (to_ms u n)) end.

Lemma date_conv_eq u d :
  xadd (ms_to_datenum (option_map (to_ms u) d)) (Fin (IZR DAY_TO_GREGORIAN_EPOCH)) = date_conv u d.
Proof.
  destruct d as [n|]; [|reflexivity]. cbn. f_equal. unfold ms_value. change (IZR MS_PER_DAY) with 86400000.
  unfold DAY_TO_GREGORIAN_EPOCH. lra.
Qed.

Lemma normalize_dates parse u l : normalize_time parse (TDate u l) PNone = Ok (map (date_conv u) l).
Proof.
  unfold normalize_time. cbn [is_none]. unfold python_gregorian_datenum, date2num. cbn [array_to_ms bind].
  f_equal. rewrite !map_map. apply map_ext. intros d. apply date_conv_eq.
Qed.

Lemma normalize_dates_spec parse u l : exists xs, normalize_time parse (TDate u l) PNone = Ok xs /\
  Forall2 (fun d x => match d with None => x = NaN | Some n => exists r, x = Fin r /\ day_value u n r end) l xs.
Proof.
  exists (map (date_conv u) l). split; [apply normalize_dates|].
  induction l as [|[n|] l IH]; [constructor| |constructor; [reflexivity|exact IH]].
  constructor; [|exact IH]. exists (ms_value (to_ms u n)). split; [reflexivity|]. now apply day_value_ms.
Qed.

Lemma xadd_xsub x r : xadd (xsub x (Fin r)) (Fin r) = x.
Proof. destruct x; auto. cbn. f_equal. ring. Qed.
Lemma xsub_xadd x r : xsub (xadd x (Fin r)) (Fin r) = x.
Proof. destruct x; auto. cbn. f_equal. ring. Qed.

Lemma epoch_offset parse e off : epoch_value parse e off ->
  forall l, normalize_time parse (TNum l) e = Ok (map (fun x => xadd x (Fin off)) l).
Proof.
  intros He l. destruct He as [u n x H|s n x H1 H2 Hp H]; apply day_value_ms in H; subst x.
  - unfold normalize_time, python_gregorian_datenum, date2num.
    cbn [is_none eq_str epoch_array bind array_to_ms map hd].
    change (Some (to_ms u n)) with (option_map (to_ms u) (Some n)).
    rewrite date_conv_eq. reflexivity.
  - unfold normalize_time. cbn [is_none]. unfold eq_str.
    apply String.eqb_neq in H1, H2. rewrite H1, H2.
    unfold python_gregorian_datenum, date2num. cbn [epoch_array bind array_to_ms mapM].
    rewrite Hp. cbn [bind mapM map hd].
    change (ms_to_datenum (Some n)) with (ms_to_datenum (option_map (to_ms UMs) (Some n))).
    rewrite date_conv_eq. reflexivity.
Qed.

Lemma epoch_numbers parse e off xs : epoch_value parse e off ->
  normalize_time parse (TNum (map (fun x => xsub x (Fin off)) xs)) e = Ok xs.
Proof.
  intros He. rewrite (epoch_offset _ _ _ He), map_map. f_equal.
  rewrite <- (map_id xs) at 2. apply map_ext. intros x. apply xadd_xsub.
Qed.

Lemma matlab_numbers parse xs :
  normalize_time parse (TNum (map (fun x => xadd x (Fin 366)) xs)) (PStr "matlab") = Ok xs.
Proof.
  unfold normalize_time. cbn. f_equal. rewrite map_map. rewrite <- (map_id xs) at 2. apply map_ext.
  intros x. apply xsub_xadd.
Qed.

Lemma python_numbers parse xs : normalize_time parse (TNum xs) (PStr "python") = Ok xs.
Proof. reflexivity. Qed.

Lemma date_numbers parse u ds xs :
  Forall2 (fun d x => match d with None => x = NaN | Some n => exists r, x = Fin r /\ day_value u n r end) ds xs ->
  normalize_time parse (TDate u ds) PNone = Ok xs.
Proof.
  intros H. rewrite normalize_dates. f_equal. induction H as [|d x ds xs H _ IH]; auto.
  cbn [map]. rewrite IH. f_equal. destruct d as [n|]; [|now symmetry].
  destruct H as (r & -> & Hr). apply day_value_ms in Hr. now subst r.
Qed.

(** ** order and resolution *)
Lemma to_ms_mono u n m : (n <= m)%Z -> (to_ms u n <= to_ms u m)%Z.
Proof. intros H. destruct u; cbn; try lia; apply Z.div_le_mono; lia. Qed.

(** the exact instant, in days since 1970 *)
Lemma ms_value_close u n : 0 <= (IZR n / IZR (per_day u) + 719163 - ms_value (to_ms u n)) * 86400000 < 1.
Proof.
  assert (F := to_ms_floor u n). assert (P := per_day_pos u). apply IZR_lt in P.
  destruct F as [F1 F2]. apply IZR_le in F1. apply IZR_lt in F2.
  rewrite !mult_IZR in *. rewrite plus_IZR in F2. unfold ms_value.
  set (p := IZR (per_day u)) in *. set (m := IZR (to_ms u n)) in *.
  replace ((IZR n / p + 719163 - (719163 + m / 86400000)) * 86400000) with ((IZR n * 86400000 - m * p) / p)
    by (field; lra).
  split.
  - apply Rdiv_le_0_compat; lra.
  - apply Rlt_div_l; lra.
Qed.

Lemma ms_grid_inj u n m : (per_day u <= 86400000)%Z -> to_ms u n = to_ms u m -> n = m.
Proof. destruct u; cbn; intros; try lia. Qed.

Lemma ms_grid_inj_fine u n m : to_ms u n = to_ms u m ->
  (exists a, n * 86400000 = a * per_day u)%Z -> (exists b, m * 86400000 = b * per_day u)%Z -> n = m.
Proof.
  intros H [a Ha] [b Hb]. assert (Fn := to_ms_floor u n). assert (Fm := to_ms_floor u m).
  assert (P := per_day_pos u). rewrite H in *.
  assert (a = to_ms u m) by nia. assert (b = to_ms u m) by nia. nia.
Qed.

Lemma ms_value_inj a b : ms_value a = ms_value b -> a = b.
Proof. unfold ms_value. intros H. apply eq_IZR. apply Rplus_eq_reg_l in H. unfold Rdiv in H. apply Rmult_eq_reg_r in H; [exact H|]. lra. Qed.
Lemma ms_value_mono a b : (a <= b)%Z -> ms_value a <= ms_value b.
Proof. unfold ms_value. intros H. apply IZR_le in H. lra. Qed.

Lemma conv_order parse u n m xs : normalize_time parse (TDate u [Some n; Some m]) PNone = Ok xs ->
  (n <= m)%Z -> exists a b, xs = [Fin a; Fin b] /\ a <= b.
Proof.
  rewrite normalize_dates. intros H Hnm. injection H as <-. cbn. do 2 eexists. split; [reflexivity|].
  now apply ms_value_mono, to_ms_mono.
Qed.

Lemma day_value_unique u n x y : day_value u n x -> day_value u n y -> x = y.
Proof. intros H1 H2. apply day_value_ms in H1, H2. congruence. Qed.

Lemma Int_part_IZR z : Int_part (IZR z) = z.
Proof.
  unfold Int_part. replace (up (IZR z)) with (z + 1)%Z; [lia|].
  apply tech_up; rewrite plus_IZR; lra.
Qed.

Lemma rtrunc_IZR z : rtrunc (IZR z) = z.
Proof.
  unfold rtrunc. destruct (Rle_dec 0 (IZR z)); [apply Int_part_IZR|].
  rewrite <- opp_IZR, Int_part_IZR. lia.
Qed.

Lemma somes_masked_invalid xs : M_Slvinit.somes (M_Slvinit.masked_invalid xs []) =
  flat_map (fun x => match x with Fin r => [r] | _ => [] end) xs.
Proof. induction xs as [|[r| | |] xs IH]; cbn; auto. now rewrite IH. Qed.

Lemma slvinit_times parse t u v lat epoch si :
  M_Slvinit.slvinit parse t u v lat epoch = Ok si ->
  exists xs, normalize_time parse (M_Slvinit.arr_data t) epoch = Ok xs /\
    M_Slvinit.si_tin si = flat_map (fun x => match x with Fin r => [r] | _ => [] end) xs.
Proof.
  unfold M_Slvinit.slvinit. intros H. inv_bind H. inv_bind H. exists a0. split; auto.
  rewrite <- somes_masked_invalid. unfold M_Slvinit.slv_core, M_Slvinit.clean in H.
  set (T := M_Slvinit.masked_invalid a0 []) in *.
  destruct (_ || _); destruct (M_Slvinit.equi_of _); inv_bind H; injection H as <-; reflexivity.
Qed.

Lemma leap_day_example : unix_day 16860 (Date 2016 2 29) /\ day_number (Date 2016 2 29) 736023.
Proof.
  assert (H : unix_day 16860 (Date 2016 2 29)).
  { destruct (unix_day_total 16860) as [d Hd].
    assert (Date 2016 2 29 = d) as ->; auto.
    apply days_later_ordinal in Hd; [|apply valid_unix]. destruct Hd as [V O].
    apply ordinal_inj; auto. unfold valid_date. cbn. lia. }
  split; auto. exact (unix_day_number _ _ H).
Qed.

Lemma denotes_example : let parse s := if String.eqb s "1970-01-02" then Some 86400000%Z else None in
  denotes parse (TNum [Fin 719163.5; NaN]) (PStr "python") [Fin 719163.5; NaN] /\
  denotes parse (TNum [Fin 719529.5; NaN]) (PStr "matlab") [Fin 719163.5; NaN] /\
  denotes parse (TNum [Fin (-0.5); NaN]) (PStr "1970-01-02") [Fin 719163.5; NaN] /\
  denotes parse (TDate UHour [Some 12%Z; None]) PNone [Fin 719163.5; NaN].
Proof.
  intros parse. split; [constructor|]. split; [|split].
  - replace [Fin 719529.5; NaN] with (map (fun x => xadd x (Fin 366)) [Fin 719163.5; NaN])
      by (cbn; do 2 f_equal; lra). constructor.
  - replace [Fin (-0.5); NaN] with (map (fun x => xsub x (Fin 719164)) [Fin 719163.5; NaN])
      by (cbn; do 2 f_equal; lra).
    constructor. eapply ev_string with (n := 86400000%Z); try discriminate; [reflexivity|].
    apply day_value_ms. unfold ms_value. cbn. lra.
  - constructor. constructor; [|constructor; [reflexivity|constructor]].
    eexists. split; [reflexivity|]. apply day_value_ms. unfold ms_value. cbn. lra.
Qed.

Lemma nth_conv u l i n : nth_error l i = Some (Some n) ->
  nth_error (map (date_conv u) l) i = Some (Fin (ms_value (to_ms u n))).
Proof. intros H. now rewrite (map_nth_error _ _ _ H). Qed.

Lemma order_lemma parse u l xs i j n m :
  normalize_time parse (TDate u l) PNone = Ok xs ->
  nth_error l i = Some (Some n) -> nth_error l j = Some (Some m) -> (n <= m)%Z ->
  exists a b, nth_error xs i = Some (Fin a) /\ nth_error xs j = Some (Fin b) /\ a <= b.
Proof.
  rewrite normalize_dates. intros H Hi Hj Hnm. injection H as <-.
  rewrite (nth_conv _ _ _ _ Hi), (nth_conv _ _ _ _ Hj). do 2 eexists.
  split; [reflexivity|]. split; [reflexivity|]. now apply ms_value_mono, to_ms_mono.
Qed.

Lemma error_lemma parse u l xs i n :
  normalize_time parse (TDate u l) PNone = Ok xs -> nth_error l i = Some (Some n) ->
  exists a, nth_error xs i = Some (Fin a) /\
    0 <= (719163 + IZR n / IZR (per_day u) - a) * 86400000 < 1.
Proof.
  rewrite normalize_dates. intros H Hi. injection H as <-. rewrite (nth_conv _ _ _ _ Hi).
  eexists. split; [reflexivity|]. rewrite Rplus_comm. apply ms_value_close.
Qed.

Lemma distinct_lemma parse u l xs i j n m a :
  normalize_time parse (TDate u l) PNone = Ok xs ->
  nth_error l i = Some (Some n) -> nth_error l j = Some (Some m) ->
  (exists k, n * 86400000 = k * per_day u)%Z -> (exists k, m * 86400000 = k * per_day u)%Z ->
  nth_error xs i = Some (Fin a) -> nth_error xs j = Some (Fin a) -> n = m.
Proof.
  rewrite normalize_dates. intros H Hi Hj Gn Gm. injection H as <-.
  rewrite (nth_conv _ _ _ _ Hi), (nth_conv _ _ _ _ Hj). intros E1 E2.
  injection E1 as E1. injection E2 as E2. apply (ms_grid_inj_fine u); auto.
  apply ms_value_inj. congruence.
Qed.

Lemma collapse_lemma : ~ (forall parse u n m a b,
  normalize_time parse (TDate u [Some n; Some m]) PNone = Ok [Fin a; Fin b] -> n <> m -> a <> b).
Proof.
  intros H. specialize (H (fun _ => None) UUs 1%Z 2%Z (ms_value 0) (ms_value 0)).
  rewrite normalize_dates in H. apply H; [reflexivity|discriminate|reflexivity].
Qed.

Lemma distinct_example : (exists k, 1500 * 86400000 = k * per_day USec)%Z /\
  normalize_time (fun _ => None) (TDate USec [Some 1500%Z; Some 1501%Z]) PNone =
    Ok [Fin (719163 + 1500 / 86400); Fin (719163 + 1501 / 86400)].
Proof.
  split; [exists 1500000%Z; reflexivity|]. rewrite normalize_dates. cbn. unfold ms_value.
  do 2 f_equal; [|f_equal]; f_equal; lra.
Qed.

Lemma numeric_lemma parse l e :
  (e = PStr "python" \/ e = PStr "matlab" \/ exists off, epoch_value parse e off) ->
  exists xs, normalize_time parse (TNum l) e = Ok xs.
Proof.
  intros [->|[->|[off H]]]; [eexists; reflexivity|eexists; reflexivity|].
  eexists. apply epoch_offset, H.
Qed.

Lemma non_numeric_lemma parse t e :
  e <> PNone -> (forall l, t <> TNum l) -> normalize_time parse t e = Err ValueError.
Proof.
  intros He Ht. unfold normalize_time. destruct e; try congruence; cbn [is_none];
    destruct t; try reflexivity; now destruct (Ht l).
Qed.

Lemma unparsable_lemma parse l s :
  s <> "python"%string -> s <> "matlab"%string -> parse s = None ->
  normalize_time parse (TNum l) (PStr s) = Err ValueError.
Proof.
  intros H1 H2 H3. unfold normalize_time. cbn [is_none eq_str].
  apply String.eqb_neq in H1, H2. rewrite H1, H2. cbn [epoch_array bind].
  unfold python_gregorian_datenum, date2num. cbn [array_to_ms mapM]. now rewrite H3.
Qed.

Lemma numeric_none_refuted : ~ (forall parse l, exists e, normalize_time parse (TNum l) PNone = Err e).
Proof. intros H. destruct (H (fun _ => None) []) as [e He]. discriminate He. Qed.

Lemma numeric_none_lemma parse (ms : list Z) :
  normalize_time parse (TNum (map (fun z => Fin (IZR z)) ms)) PNone =
  normalize_time parse (TDate UMs (map Some ms)) PNone.
Proof.
  unfold normalize_time, python_gregorian_datenum, date2num. cbn [is_none array_to_ms bind].
  f_equal. rewrite !map_map. apply map_ext. intros z. unfold num_to_ms. cbn [finite option_map].
  rewrite rtrunc_IZR. reflexivity.
Qed.
