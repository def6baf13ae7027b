(** The calendar: closed form of day numbers. *)
From Coq Require Import ZArith Lia Bool.
From Verif Require Import S_Time.
Open Scope Z_scope.

(** days before 1 January of year y, counted from 1 January of year 1 *)
Definition before_year (y : Z) : Z := 365 * (y - 1) + (y - 1) / 4 - (y - 1) / 100 + (y - 1) / 400.
Definition before_month (y m : Z) : Z :=
  let l := if leap y then 1 else 0 in
  if m =? 1 then 0 else if m =? 2 then 31 else if m =? 3 then 59 + l else if m =? 4 then 90 + l
  else if m =? 5 then 120 + l else if m =? 6 then 151 + l else if m =? 7 then 181 + l
  else if m =? 8 then 212 + l else if m =? 9 then 243 + l else if m =? 10 then 273 + l
  else if m =? 11 then 304 + l else 334 + l.
Definition ordinal (d : date) : Z := before_year (yr d) + before_month (yr d) (mo d) + dy d.

Lemma div_step a n : 0 < n -> (a + 1) / n = a / n + (if (a + 1) mod n =? 0 then 1 else 0).
Proof.
  intros Hn. assert (H1 := Z.div_mod a n ltac:(lia)). assert (H2 := Z.mod_pos_bound a n Hn).
  assert (H3 := Z.div_mod (a + 1) n ltac:(lia)). assert (H4 := Z.mod_pos_bound (a + 1) n Hn).
  destruct (Z.eqb_spec ((a + 1) mod n) 0); nia.
Qed.

Lemma before_year_step y : before_year (y + 1) = before_year y + 365 + (if leap y then 1 else 0).
Proof.
  unfold before_year, leap. replace (y + 1 - 1) with (y - 1 + 1) by lia.
  rewrite !div_step by lia. replace (y - 1 + 1) with y by lia.
  assert (A : y mod 400 = 0 -> y mod 100 = 0).
  { intros H. apply Z.mod_divide in H; [|lia]. destruct H as [k ->].
    apply Z.mod_divide; [lia|]. exists (k * 4). lia. }
  assert (B : y mod 100 = 0 -> y mod 4 = 0).
  { intros H. apply Z.mod_divide in H; [|lia]. destruct H as [k ->].
    apply Z.mod_divide; [lia|]. exists (k * 25). lia. }
  destruct (Z.eqb_spec (y mod 4) 0), (Z.eqb_spec (y mod 100) 0), (Z.eqb_spec (y mod 400) 0);
    cbn [andb orb negb]; lia.
Qed.

Lemma before_year_mono y z : y <= z -> before_year y <= before_year z.
Proof.
  intros H. replace z with (y + Z.of_nat (Z.to_nat (z - y))) by lia.
  induction (Z.to_nat (z - y)) as [|n IH]; [simpl; replace (y + 0) with y by lia; lia|].
  replace (y + Z.of_nat (S n)) with (y + Z.of_nat n + 1) by lia.
  rewrite before_year_step. destruct (leap _); lia.
Qed.

Lemma month_cases m : 1 <= m <= 12 ->
  m = 1 \/ m = 2 \/ m = 3 \/ m = 4 \/ m = 5 \/ m = 6 \/ m = 7 \/ m = 8 \/ m = 9 \/ m = 10 \/ m = 11 \/ m = 12.
Proof. lia. Qed.

Lemma before_month_step y m : 1 <= m < 12 -> before_month y (m + 1) = before_month y m + month_length y m.
Proof.
  intros Hm. destruct (month_cases m ltac:(lia)) as
    [->|[->|[->|[->|[->|[->|[->|[->|[->|[->|[->| ->]]]]]]]]]]]; try lia;
  unfold before_month, month_length; simpl; destruct (leap y); reflexivity.
Qed.

Lemma ordinal_next d : valid_date d -> valid_date (next_day d) /\ ordinal (next_day d) = ordinal d + 1.
Proof.
  destruct d as [y m d]. intros [Hm Hd]. simpl in *. unfold next_day. simpl.
  destruct (Z.ltb_spec d (month_length y m)) as [Hl|Hl].
  - unfold valid_date, ordinal. simpl. lia.
  - assert (d = month_length y m) by lia. subst d. clear Hl.
    destruct (Z.ltb_spec m 12) as [Hl|Hl].
    + split.
      * unfold valid_date. simpl. split; [lia|]. unfold month_length.
        destruct (m + 1 =? 2); [destruct (leap y); lia|]. destruct (_ || _ || _ || _); lia.
      * unfold ordinal. simpl. rewrite before_month_step by lia. lia.
    + assert (m = 12) by lia. subst m. split.
      * unfold valid_date. simpl. unfold month_length. simpl. lia.
      * unfold ordinal. simpl. rewrite before_year_step. unfold before_month, month_length. simpl.
        destruct (leap y); lia.
Qed.

Lemma days_later_ordinal a k b : valid_date a -> days_later a k b ->
  valid_date b /\ ordinal b = ordinal a + k.
Proof.
  intros Ha H. induction H as [a|a k b H IH|a k b c H IH Hc Heq].
  - split; auto. lia.
  - destruct (IH Ha) as [Hb Ho]. destruct (ordinal_next b Hb) as [H1 H2]. split; auto. lia.
  - destruct (IH Ha) as [Hb Ho]. split; auto. subst b. destruct (ordinal_next c Hc) as [_ H2]. lia.
Qed.

Lemma prev_day d : valid_date d -> exists c, valid_date c /\ next_day c = d.
Proof.
  destruct d as [y m d]. intros [Hm Hd]. simpl in *.
  destruct (Z.eq_dec d 1) as [->|Hd1].
  - destruct (Z.eq_dec m 1) as [->|Hm1].
    + exists (Date (y - 1) 12 31). split.
      * unfold valid_date, month_length. simpl. lia.
      * unfold next_day, month_length. simpl. f_equal. lia.
    + exists (Date y (m - 1) (month_length y (m - 1))). split.
      * unfold valid_date. simpl. split; [lia|]. unfold month_length.
        destruct (m - 1 =? 2); [destruct (leap y); lia|]. destruct (_ || _ || _ || _); lia.
      * unfold next_day. simpl. rewrite Z.ltb_irrefl.
        destruct (Z.ltb_spec (m - 1) 12); [|lia]. f_equal. lia.
  - exists (Date y m (d - 1)). split.
    + unfold valid_date. simpl. lia.
    + unfold next_day. simpl. destruct (Z.ltb_spec (d - 1) (month_length y m)); [|lia]. f_equal. lia.
Qed.

(** every day offset is reached *)
Lemma days_later_total a : valid_date a -> forall k, exists b, days_later a k b.
Proof.
  intros Ha.
  assert (Hp : forall n : nat, exists b, days_later a (Z.of_nat n) b).
  { induction n as [|n [b Hb]]; [exists a; constructor|].
    exists (next_day b). replace (Z.of_nat (S n)) with (Z.of_nat n + 1) by lia. now constructor. }
  assert (Hn : forall n : nat, exists b, days_later a (- Z.of_nat n) b).
  { induction n as [|n [b Hb]]; [exists a; constructor|].
    destruct (days_later_ordinal _ _ _ Ha Hb) as [Vb _]. destruct (prev_day b Vb) as (c & Vc & Hc).
    exists c. replace (- Z.of_nat (S n)) with (- Z.of_nat n - 1) by lia. econstructor; eauto. }
  intros k. destruct (Z_le_gt_dec 0 k).
  - destruct (Hp (Z.to_nat k)) as [b Hb]. exists b. now rewrite Z2Nat.id in Hb by lia.
  - destruct (Hn (Z.to_nat (- k))) as [b Hb]. exists b.
    rewrite Z2Nat.id in Hb by lia. now replace (- - k) with k in Hb by lia.
Qed.

Lemma valid_first : valid_date (Date 1 1 1).
Proof. unfold valid_date, month_length. simpl. lia. Qed.
Lemma valid_unix : valid_date (Date 1970 1 1).
Proof. unfold valid_date, month_length. simpl. lia. Qed.

Lemma day_number_ordinal d n : day_number d n -> n = ordinal d.
Proof.
  intros H. apply days_later_ordinal in H; [|apply valid_first]. destruct H as [_ H].
  change (ordinal (Date 1 1 1)) with 1 in H. lia.
Qed.

Lemma unix_day_ordinal k d : unix_day k d -> ordinal d = 719163 + k.
Proof.
  intros H. apply days_later_ordinal in H; [|apply valid_unix]. destruct H as [_ H]. exact H.
Qed.

Lemma days_later_app a k b m c : valid_date a -> days_later a k b -> days_later b m c -> days_later a (k + m) c.
Proof.
  intros Ha H1 H2. induction H2 as [b|b m c H IH|b m c e H IH Hc Heq].
  - now replace (k + 0) with k by lia.
  - replace (k + (m + 1)) with (k + m + 1) by lia. constructor. auto.
  - replace (k + (m - 1)) with (k + m - 1) by lia. econstructor; eauto.
Qed.

Lemma ordinal_inj a b : valid_date a -> valid_date b -> ordinal a = ordinal b -> a = b.
Proof.
  assert (K : forall d, valid_date d -> before_year (yr d) < ordinal d <= before_year (yr d + 1)).
  { intros [y m d] [Hm Hd]. cbn in *. rewrite before_year_step. unfold ordinal. cbn [yr mo dy].
    destruct (month_cases m Hm) as
        [->|[->|[->|[->|[->|[->|[->|[->|[->|[->|[->| ->]]]]]]]]]]];
      unfold before_month, month_length in *; cbn -[Z.add Z.mul Z.sub leap before_year] in *; destruct (leap y); lia. }
  intros Va Vb H. assert (Ka := K a Va). assert (Kb := K b Vb).
  assert (Hy : yr a = yr b).
  { destruct (Z.lt_trichotomy (yr a) (yr b)) as [Hl|[Hl|Hl]]; auto; exfalso.
    - assert (M := before_year_mono (yr a + 1) (yr b) ltac:(lia)). lia.
    - assert (M := before_year_mono (yr b + 1) (yr a) ltac:(lia)). lia. }
  destruct a as [y m d], b as [y' m' d']. cbn in Hy. subst y'. destruct Va as [Hm Hd], Vb as [Hm' Hd'].
  unfold ordinal in H. cbn in *.
  assert (L : forall m d m' d', 1 <= m <= 12 -> 1 <= d <= month_length y m -> 1 <= m' <= 12 -> 1 <= d' <= month_length y m' ->
     m < m' -> before_month y m + d < before_month y m' + d').
  { clear. intros m d m' d' Hm Hd Hm' Hd' Hl. assert (A : before_month y (m + 1) <= before_month y m').
    { replace m' with (m + 1 + Z.of_nat (Z.to_nat (m' - m - 1))) by lia.
      assert (B : m + 1 + Z.of_nat (Z.to_nat (m' - m - 1)) <= 12) by lia.
      induction (Z.to_nat (m' - m - 1)) as [|k IH]; [simpl; replace (m + 1 + 0) with (m + 1) by lia; lia|].
      replace (m + 1 + Z.of_nat (S k)) with (m + 1 + Z.of_nat k + 1) in * by lia.
      rewrite (before_month_step y (m + 1 + Z.of_nat k)) by lia.
      assert (0 <= month_length y (m + 1 + Z.of_nat k)).
      { unfold month_length. destruct (_ =? 2); [destruct (leap y); lia|]. destruct (_ || _ || _ || _); lia. }
      specialize (IH ltac:(lia)). lia. }
    rewrite before_month_step in A by lia. lia. }
  destruct (Z.lt_trichotomy m m') as [Hl|[->|Hl]].
  - assert (X := L m d m' d' ltac:(lia) ltac:(lia) ltac:(lia) ltac:(lia) Hl). lia.
  - f_equal. lia.
  - assert (X := L m' d' m d ltac:(lia) ltac:(lia) ltac:(lia) ltac:(lia) Hl). lia.
Qed.

(** each date has a day number *)
Lemma unix_day_number k d : unix_day k d -> day_number d (719163 + k).
Proof.
  intros H. destruct (days_later_total _ valid_first 719162) as [b Hb].
  assert (b = Date 1970 1 1) as ->.
  { apply days_later_ordinal in Hb; [|apply valid_first]. destruct Hb as [Vb Ob].
    change (ordinal (Date 1 1 1) + 719162) with (ordinal (Date 1970 1 1)) in Ob.
    apply ordinal_inj; auto. apply valid_unix. }
  unfold day_number. replace (719163 + k - 1) with (719162 + k) by lia.
  eapply days_later_app; eauto. apply valid_first.
Qed.

Lemma unix_day_total k : exists d, unix_day k d.
Proof. apply days_later_total, valid_unix. Qed.
