(** Rounded times: sums exist, exact dates, hourly dates. *)
From Coq Require Import Lia Lra Psatz Permutation.
From Flocq Require Import Core.
From Verif Require Import M_Base M_Time M_Float M_FloatTime S_Time S_Float S_FloatTime L_Base L_Time L_Float L_FloatTime L_FloatTime2.
Open Scope R_scope.

Lemma sum_exists l : l <> [] -> exists s, sum64 l s.
Proof.
  induction l as [|x l IH]; intros N; [congruence|]. destruct l as [|y l]; [exists x; constructor|].
  destruct IH as (s & H); [discriminate|]. exists (fl (x + s)). apply (sum_add _ [x] (y :: l) x s); [constructor|exact H|apply Permutation_refl].
Qed.
Lemma variance_exists l : l <> [] -> exists v, variance64 l v.
Proof.
  intros N. destruct (sum_exists l N) as (s & Hs).
  destruct (sum_exists (map (fun x => let d := fl (x - fl (s / INR (length l))) in fl (d * d)) l)) as (q & Hq); [destruct l; [congruence|discriminate]|].
  eexists. exists s, q. eauto.
Qed.
Lemma unique_exists (l : list R) : exists u, unique_of l u.
Proof. exists (nodup Req_EM_T l). split; [apply NoDup_nodup|]. intros x. apply nodup_In. Qed.
Lemma spacing_exists a b l : exists v, spacing64 (a :: b :: l) v.
Proof.
  destruct (unique_exists (diff64 (a :: b :: l))) as (u & H). destruct (variance_exists u) as (v & V); [|exists v, u; auto].
  intros ->. destruct H as [_ H]. apply (proj2 (H (fl (b - a)))). left. reflexivity.
Qed.
Lemma even_all parse u n0 step k : (0 <= step <= 1024 * per_day u)%Z -> (2 <= k)%nat ->
  (forall i x, (i < k)%nat -> day_value u (n0 + Z.of_nat i * step) x -> 40000 <= x <= 4000000) ->
  exists ts, normalize64 parse (TDate u (map (fun i => Some (n0 + Z.of_nat i * step)%Z) (seq 0 k))) PNone = Ok (map Fin ts) /\
    (exists v, spacing64 ts v) /\ (forall v, spacing64 ts v -> v < eps64).
Proof.
  intros Hs Hk Hr. exists (map (fun i => greg64 (to_ms u (n0 + Z.of_nat i * step))) (seq 0 k)).
  assert (E : normalize64 parse (TDate u (map (fun i => Some (n0 + Z.of_nat i * step)%Z) (seq 0 k))) PNone =
    Ok (map Fin (map (fun i => greg64 (to_ms u (n0 + Z.of_nat i * step))) (seq 0 k)))).
  { unfold normalize64. cbn [is_none]. rewrite greg_dates, !map_map. reflexivity. }
  split; [exact E|]. split.
  - destruct k as [|[|k]]; [lia|lia|]. cbn [seq map]. apply spacing_exists.
  - intros v Hv. exact (even_ok parse u n0 step k _ v Hs Hr E Hv).
Qed.

Lemma exact_dates parse u l xs : denotes parse (TDate u l) PNone xs ->
  (forall n, In (Some n) l -> exists k, (n * 1024 = k * per_day u)%Z) ->
  (forall x, In (Fin x) xs -> 0 <= x <= 4000000) -> normalize64 parse (TDate u l) PNone = Ok xs.
Proof.
  intros D HM HR. inversion D as [| | |u0 ds ys F]; subst. unfold normalize64. cbn [is_none]. rewrite greg_dates. f_equal.
  clear D. induction F as [|d x l xs Hd F IH]; [reflexivity|]. cbn [map]. f_equal.
  - destruct d as [n|]; [|now subst]. destruct Hd as (r & -> & Hr). apply day_value_ms in Hr. subst r. f_equal.
    destruct (HM n (or_introl eq_refl)) as (k & Hk). assert (E : to_ms u n = (84375 * k)%Z).
    { destruct u; cbn [per_day to_ms] in *; try lia.
      - replace n with (84375 * k * 1000)%Z by lia. apply Z.div_mul. lia.
      - replace n with (84375 * k * 1000000)%Z by lia. apply Z.div_mul. lia. }
    assert (B := HR _ (or_introl eq_refl)). rewrite E in *. now apply greg_exact.
  - apply IH; intros; [apply HM|apply HR]; now right.
Qed.
Lemma matlab_all parse xs : (forall x, In x xs -> is64 x /\ 183 <= x <= 4000366) ->
  normalize64 parse (TNum (map Fin xs)) (PStr "matlab") = Ok (map (fun x => Fin (x - 366)) xs).
Proof.
  intros H. unfold normalize64. cbn [is_none eq_str]. change (String.eqb "matlab" "python") with false. change (String.eqb "matlab" "matlab") with true. cbv iota.
  f_equal. rewrite map_map. apply map_ext_in. intros x Hx. destruct (H x Hx) as [A B]. unfold xsub. cbn [xneg xadd flx]. f_equal. now apply matlab_exact.
Qed.

Lemma snap y m : 524289 <= y <= 1048575 -> Rabs (y - IZR m / 8589934592) < / 17179869184 -> fl y = IZR m / 8589934592.
Proof.
  intros H1 H2. assert (A : Rabs (fl y - y) <= / 17179869184).
  { change (/ 17179869184) with (bpow radix2 (20 - 54)). apply fl_err; [lia|]. change (bpow radix2 20) with 1048576. rewrite Rabs_pos_eq; lra. }
  apply Rabs_le_inv in A. apply Rabs_lt_inv in H2.
  destruct (grid (fl y) 20 (-33)) as (k & E); [apply fl_is64|lia| |reflexivity|].
  { change (bpow radix2 (20 - 1)) with 524288. rewrite Rabs_pos_eq; lra. }
  change (bpow radix2 (-33)) with (/ 8589934592) in E. rewrite E in *. assert (K : -1 < IZR (k - m) < 1) by (rewrite minus_IZR; lra).
  destruct K as [K1 K2]. apply (lt_IZR (-1)) in K1. apply (lt_IZR _ 1) in K2. replace k with m by lia. reflexivity.
Qed.
Lemma hsnap y m : 524289 <= y <= 1048575 -> Rabs (y - (IZR 6177563130986496 + IZR m) / 8589934592) < / 17179869184 -> fl y = (IZR 6177563130986496 + IZR m) / 8589934592.
Proof. rewrite <- plus_IZR. apply snap. Qed.
Lemma greg_hour i : (0 <= i <= 2)%Z -> greg64 (to_ms UHour i) = IZR (6177563130986496 + (if i =? 0 then 0 else if i =? 1 then 357913941 else 715827883)) / 8589934592.
Proof.
  intros H. assert (V : ms_value (to_ms UHour i) = 719163 + IZR i / 24).
  { unfold ms_value. cbn [to_ms]. change (IZR DAY_TO_GREGORIAN_EPOCH) with 719163. change (IZR MS_PER_DAY) with 86400000. rewrite mult_IZR. lra. }
  assert (I : 0 <= IZR i <= 2) by (split; [apply (IZR_le 0)|apply (IZR_le _ 2)]; lia).
  unfold greg64. rewrite ms_exact by (rewrite V; lra). change (IZR MS_PER_DAY) with 86400000. change (IZR DAY_TO_GREGORIAN_EPOCH) with 719163.
  cbn [to_ms]. rewrite mult_IZR. replace (IZR i * 3600000 / 86400000) with (IZR i / 24) by field.
  assert (A : Rabs (fl (IZR i / 24) - IZR i / 24) <= / 18014398509481984).
  { change (/ 18014398509481984) with (bpow radix2 (0 - 54)). apply fl_err; [lia|]. change (bpow radix2 0) with 1. rewrite Rabs_pos_eq; lra. }
  apply Rabs_le_inv in A.
  assert (J : (i = 0 \/ i = 1 \/ i = 2)%Z) by lia. destruct J as [->|[->| ->]]; cbn [Z.eqb Pos.eqb]; rewrite plus_IZR; apply hsnap; try apply Rabs_def1; lra.
Qed.
Lemma hourly_uneven : forall parse, exists a b c,
  normalize64 parse (TDate UHour [Some 0%Z; Some 1%Z; Some 2%Z]) PNone = Ok [Fin a; Fin b; Fin c] /\
  exists p q, diff64 [a; b; c] = [p; q] /\ p <> q.
Proof.
  intros parse. exists (greg64 (to_ms UHour 0)), (greg64 (to_ms UHour 1)), (greg64 (to_ms UHour 2)). split.
  - unfold normalize64. cbn [is_none]. rewrite greg_dates. reflexivity.
  - cbn [diff64]. do 2 eexists. split; [reflexivity|]. rewrite !greg_hour by lia. cbn [Z.eqb Pos.eqb]. rewrite !plus_IZR.
    assert (F : forall m, (Z.abs m < 2 ^ 53)%Z -> fl (IZR m / 8589934592) = IZR m / 8589934592).
    { intros m Hm. apply fl_id. change (is64 (IZR m * bpow radix2 (-33))). apply is64_int; [exact Hm|lia]. }
    match goal with |- fl ?x <> fl ?y => replace x with (IZR 357913941 / 8589934592) by lra; replace y with (IZR 357913942 / 8589934592) by lra end.
    rewrite !F by lia. lra.
Qed.
