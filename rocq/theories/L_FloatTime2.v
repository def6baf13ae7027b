(** Exact conversions, and the even-spacing test on rounded times. *)
From Coq Require Import Lia Lra Psatz Permutation.
From Flocq Require Import Core.
From Verif Require Import M_Base M_Time M_Float M_FloatTime S_Time S_Float S_FloatTime L_Base L_Time L_Float L_FloatTime.
Open Scope R_scope.

Lemma greg_exact k : 0 <= ms_value (84375 * k) <= 4000000 -> greg64 (84375 * k) = ms_value (84375 * k).
Proof.
  intros H. unfold greg64. rewrite (ms_exact _ H). unfold ms_value in *. rewrite mult_IZR in *.
  change (IZR MS_PER_DAY) with 86400000. change (IZR DAY_TO_GREGORIAN_EPOCH) with 719163.
  assert (E10 : bpow radix2 (-10) = / 1024) by reflexivity.
  assert (Q : 84375 * IZR k / 86400000 = IZR k * bpow radix2 (-10)) by (rewrite E10; field).
  assert (K : (Z.abs k < 5000000000)%Z).
  { assert (-5000000000 < IZR k < 5000000000) by lra. destruct H0 as [A B]. apply (lt_IZR (-5000000000)) in A. apply (lt_IZR k 5000000000) in B. lia. }
  rewrite Q. rewrite (fl_id (IZR k * bpow radix2 (-10))) by (apply is64_int; lia).
  replace (IZR k * bpow radix2 (-10) + 719163) with (IZR (k + 719163 * 1024) * bpow radix2 (-10)) by (rewrite plus_IZR, mult_IZR, E10; field).
  rewrite fl_id by (apply is64_int; lia). rewrite plus_IZR, mult_IZR, E10. field.
Qed.

Lemma grid x k e : is64 x -> (-1074 <= e)%Z -> bpow radix2 (k - 1) <= Rabs x -> (e = k - 53)%Z -> exists m, x = IZR m * bpow radix2 e.
Proof.
  intros F He Hx ->. unfold is64, generic_format in F. exists (Ztrunc (scaled_mantissa radix2 fexp64 x) * radix2 ^ (cexp radix2 fexp64 x - (k - 53)))%Z.
  assert (L : (k - 53 <= cexp radix2 fexp64 x)%Z).
  { unfold cexp, fexp64, FLT_exp. assert (k <= mag radix2 x)%Z by (apply mag_ge_bpow; exact Hx). lia. }
  rewrite F at 1. now apply mul_pow.
Qed.
Lemma matlab_exact x : is64 x -> 183 <= x <= 4000366 -> fl (x - 366) = x - 366.
Proof.
  intros F [H1 H2]. apply fl_id. apply FLT_format_generic in F; [|reflexivity]. destruct F as [[m e] E N L]. cbn [Fnum Fexp] in *.
  assert (G : exists m e, (Z.abs m < 2 ^ 53)%Z /\ (-1074 <= e <= 0)%Z /\ x = IZR m * bpow radix2 e).
  { destruct (Z.le_gt_cases e 0) as [He|He]; [exists m, e; auto|]. exists (m * radix2 ^ e)%Z, 0%Z.
    assert (EX : x = IZR (m * radix2 ^ e)) by (rewrite mult_IZR, IZR_Zpower by lia; exact E).
    split; [|split; [lia|cbn; rewrite Rmult_1_r; exact EX]]. rewrite EX in H1, H2. apply le_IZR in H1, H2. lia. }
  destruct G as (a & c & Na & Lc & Ea). set (P := (radix2 ^ (- c))%Z).
  assert (E366 : 366 = IZR (366 * P) * bpow radix2 c).
  { unfold P. rewrite mult_IZR, IZR_Zpower by lia. rewrite Rmult_assoc, <- bpow_plus. replace (- c + c)%Z with 0%Z by lia. cbn. ring. }
  replace (x - 366) with (IZR (a - 366 * P) * bpow radix2 c) by (rewrite minus_IZR, Rmult_minus_distr_r, <- E366, <- Ea; reflexivity).
  apply is64_int; [|lia]. assert (B := bpow_gt_0 radix2 c).
  assert (A1 : IZR (a - 366 * P) <= IZR a) by (apply Rmult_le_reg_r with (bpow radix2 c); [exact B|rewrite minus_IZR, Rmult_minus_distr_r, <- E366, <- Ea; lra]).
  assert (A2 : - IZR a <= IZR (a - 366 * P)) by (apply Rmult_le_reg_r with (bpow radix2 c); [exact B|rewrite minus_IZR, Rmult_minus_distr_r, <- E366, Ropp_mult_distr_l_reverse, <- Ea; lra]).
  rewrite <- opp_IZR in A2. apply le_IZR in A1, A2. lia.
Qed.

(** summation in any order *)
Lemma rsum_two a b : rsum (a ++ b) = rsum a + rsum b.
Proof. unfold rsum. induction a as [|x a IH]; cbn; [ring|]. rewrite IH. ring. Qed.
Lemma rsum_same a b : Permutation a b -> rsum a = rsum b.
Proof. unfold rsum. induction 1; cbn; lra. Qed.
Lemma sum_err l s : sum64 l s -> forall B k, (-900 <= k)%Z -> 0 <= B -> (forall x, In x l -> Rabs x <= B) ->
  INR (length l) * (B + bpow radix2 (k - 54)) <= bpow radix2 k ->
  1 <= INR (length l) /\ Rabs (s - rsum l) <= (INR (length l) - 1) * bpow radix2 (k - 54) /\ Rabs s <= INR (length l) * B + (INR (length l) - 1) * bpow radix2 (k - 54).
Proof.
  intros H B k Hk HB. assert (D := bpow_ge_0 radix2 (k - 54)). set (d := bpow radix2 (k - 54)) in *.
  induction H as [x|l l1 l2 a b H1 IH1 H2 IH2 P]; intros Hx Hs.
  - cbn [length INR]. split; [lra|]. unfold rsum. cbn. replace (x - (x + 0)) with 0 by ring. rewrite Rabs_R0. split; [lra|]. specialize (Hx x ltac:(now left)). lra.
  - assert (EL : INR (length l) = INR (length l1) + INR (length l2)) by (rewrite (Permutation_length P), app_length, plus_INR; ring). rewrite EL in *.
    assert (N1 := pos_INR (length l1)). assert (N2 := pos_INR (length l2)).
    destruct IH1 as (A0 & A1 & A2); [intros x Hi; apply Hx; rewrite P; apply in_or_app; now left|nra|].
    destruct IH2 as (C0 & C1 & C2); [intros x Hi; apply Hx; rewrite P; apply in_or_app; now right|nra|].
    assert (T : Rabs (a + b) <= bpow radix2 k).
    { eapply Rle_trans; [apply Rabs_triang|]. nra. }
    assert (E := fl_err (a + b) k ltac:(lia) T). fold d in E. rewrite (rsum_same _ _ P), rsum_two.
    split; [lra|]. apply Rabs_le_inv in A1, C1, E. split.
    + apply Rabs_le. lra.
    + apply Rabs_le_inv in A2, C2. apply Rabs_le. lra.
Qed.

(** the variance of nearly equal values *)
Lemma rsum_between l a b : (forall x, In x l -> a <= x <= b) -> INR (length l) * a <= rsum l <= INR (length l) * b.
Proof.
  unfold rsum. induction l as [|x l IH]; intros H; cbn [length fold_right]; [cbn; lra|]. rewrite S_INR.
  assert (K := IH (fun y Hy => H y (or_intror Hy))). assert (Q := H x (or_introl eq_refl)). lra.
Qed.
Lemma div_between s n a b : 1 <= n -> n * a <= s <= n * b -> a <= s / n <= b.
Proof.
  intros Hn [H1 H2]. assert (E : s = s / n * n) by (field; lra). set (y := s / n) in *. rewrite E in *. split; apply Rmult_le_reg_r with n; lra.
Qed.
Lemma variance_small l v lo W : variance64 l v -> (length l <= 2048)%nat -> (forall x, In x l -> lo <= x <= lo + W) -> -1 <= lo -> lo + W <= 1025 -> 0 <= W <= 135 / 10000000000 ->
  v < eps64.
Proof.
  intros (s & q & S1 & S2 & ->) Hn Hx Hlo Hhi HW. set (n := INR (length l)) in *.
  assert (N : n <= 2048). { replace 2048 with (INR 2048) by (rewrite INR_IZR_INZ; f_equal; reflexivity). unfold n. now apply le_INR. }
  assert (P32 : bpow radix2 (22 - 54) = / 4294967296) by reflexivity.
  destruct (sum_err _ _ S1 1025 22 ltac:(lia) ltac:(lra)) as (N1 & A1 & _).
  { intros x Hi. specialize (Hx x Hi). apply Rabs_le. lra. }
  { fold n. rewrite P32, b22. lra. }
  fold n in N1, A1. rewrite P32 in A1. apply Rabs_le_inv in A1.
  assert (RB := rsum_between l lo (lo + W) Hx). fold n in RB.
  assert (M := div_between s n (lo - / 4294967296) (lo + W + / 4294967296) N1 ltac:(lra)).
  set (y := s / n) in *. assert (E1 : Rabs (fl y - y) <= / 8796093022208).
  { change (/ 8796093022208) with (bpow radix2 (11 - 54)). apply fl_err; [lia|]. change (bpow radix2 11) with 2048. apply Rabs_le. lra. }
  set (mu := fl y) in *. apply Rabs_le_inv in E1.
  assert (DV : forall x, In x l -> 0 <= fl (fl (x - mu) * fl (x - mu)) <= 189 / 1000000000000000000).
  { intros x Hi. specialize (Hx x Hi). assert (Hd : Rabs (x - mu) <= 1374 / 100000000000) by (apply Rabs_le; lra).
    assert (E2 : Rabs (fl (x - mu) - (x - mu)) <= / 1000000000000000).
    { eapply Rle_trans; [apply (fl_err _ (-26)); [lia|]|]; [change (bpow radix2 (-26)) with (/ 67108864); lra|].
      change (bpow radix2 (-26 - 54)) with (/ 1208925819614629174706176). lra. }
    set (d := fl (x - mu)) in *. apply Rabs_le_inv in E2, Hd.
    assert (Q : 0 <= d * d <= 1889 / 10000000000000000000) by nra.
    assert (E3 : Rabs (fl (d * d) - d * d) <= / 10000000000000000000000).
    { eapply Rle_trans; [apply (fl_err _ (-52)); [lia|]|]; [change (bpow radix2 (-52)) with (/ 4503599627370496); rewrite Rabs_pos_eq; lra|].
      change (bpow radix2 (-52 - 54)) with (/ 81129638414606681695789005144064). lra. }
    apply Rabs_le_inv in E3. split; [|lra]. rewrite <- (fl_id 0) by apply generic_format_0. apply fl_le. lra. }
  set (g := fun x => let d := fl (x - mu) in fl (d * d)) in *.
  assert (EL : INR (length (map g l)) = n) by (unfold n; now rewrite map_length).
  destruct (sum_err _ _ S2 (189 / 1000000000000000000) (-41) ltac:(lia) ltac:(lra)) as (_ & A2 & _).
  { intros x Hi. apply in_map_iff in Hi. destruct Hi as (z & <- & Hi). unfold g. cbv zeta. specialize (DV z Hi). rewrite Rabs_pos_eq; lra. }
  { rewrite EL. change (bpow radix2 (-41)) with (/ 2199023255552). change (bpow radix2 (-41 - 54)) with (/ 39614081257132168796771975168). lra. }
  rewrite EL in A2. change (bpow radix2 (-41 - 54)) with (/ 39614081257132168796771975168) in A2. apply Rabs_le_inv in A2.
  assert (RB2 : 0 <= rsum (map g l) <= n * (189 / 1000000000000000000)).
  { rewrite <- EL. assert (K := rsum_between (map g l) 0 (189 / 1000000000000000000)). rewrite Rmult_0_r in K. apply K.
    intros x Hi. apply in_map_iff in Hi. destruct Hi as (z & <- & Hi). unfold g. cbv zeta. apply DV, Hi. }
  assert (M2 := div_between q n (- / 1000000000000000000) (190 / 1000000000000000000) N1 ltac:(lra)).
  assert (E4 : Rabs (fl (q / n) - q / n) <= / 10000000000000000000000).
  { eapply Rle_trans; [apply (fl_err _ (-52)); [lia|]|]; [change (bpow radix2 (-52)) with (/ 4503599627370496); apply Rabs_le; lra|].
    change (bpow radix2 (-52 - 54)) with (/ 81129638414606681695789005144064). lra. }
  apply Rabs_le_inv in E4. unfold eps64. change (bpow radix2 (-52)) with (/ 4503599627370496). lra.
Qed.

(** how many multiples of g lie in an interval *)
Lemma on_grid g (l : list R) : (forall x, In x l -> exists m, x = IZR m * g) -> exists ms, l = map (fun m => IZR m * g) ms.
Proof.
  induction l as [|x l IH]; intros H; [now exists []|]. destruct (H x (or_introl eq_refl)) as (m & ->).
  destruct IH as (ms & ->); [intros; apply H; now right|]. now exists (m :: ms).
Qed.
Lemma count_grid g l lo W N : 0 < g -> 0 <= W -> NoDup l -> (forall x, In x l -> exists m, x = IZR m * g) -> (forall x, In x l -> lo <= x <= lo + W) ->
  W / g + 1 < INR (S N) -> (length l <= N)%nat.
Proof.
  intros Hg HW ND HG HB HN. destruct (on_grid _ _ HG) as (ms & ->). rewrite map_length. apply NoDup_map_inv in ND.
  set (a := Zceil (lo / g)). set (b := Zfloor ((lo + W) / g)).
  assert (IN : incl ms (map (fun i => (a + Z.of_nat i)%Z) (seq 0 (Z.to_nat (b - a + 1))))).
  { intros m Hm. specialize (HB _ (in_map (fun m => IZR m * g) _ _ Hm)). cbn beta in HB.
    assert (A : (a <= m)%Z) by (apply Zceil_glb; apply Rmult_le_reg_r with g; [exact Hg|]; unfold Rdiv; rewrite Rmult_assoc, Rinv_l by lra; lra).
    assert (B : (m <= b)%Z) by (apply Zfloor_lub; apply Rmult_le_reg_r with g; [exact Hg|]; unfold Rdiv; rewrite Rmult_assoc, Rinv_l by lra; lra).
    apply in_map_iff. exists (Z.to_nat (m - a)). split; [lia|]. apply in_seq. lia. }
  apply NoDup_incl_length in IN; [|exact ND]. rewrite map_length, seq_length in IN.
  assert (D : IZR (b - a) <= W / g).
  { rewrite minus_IZR. assert (A := Zceil_ub (lo / g)). assert (B := Zfloor_lb ((lo + W) / g)). fold a in A. fold b in B.
    replace (W / g) with ((lo + W) / g - lo / g) by (field; lra). lra. }
  destruct (Z.le_gt_cases (b - a + 1) 0) as [Z0|Z0]; [lia|].
  assert (K : (b - a + 1 < Z.of_nat (S N))%Z) by (apply lt_IZR; rewrite plus_IZR, <- INR_IZR_INZ; lra). lia.
Qed.

Lemma diff_in f k : forall a x, In x (diff64 (map f (seq a k))) -> exists i, (a <= i)%nat /\ (S i < a + k)%nat /\ x = fl (f (S i) - f i).
Proof.
  induction k as [|k IH]; intros a x; [intros []|]. destruct k as [|k]; [intros []|].
  change (seq a (S (S k))) with (a :: seq (S a) (S k)). change (seq (S a) (S k)) with (S a :: seq (S (S a)) k).
  cbn [map diff64]. intros [<-|H].
  - exists a. split; [lia|]. split; [lia|reflexivity].
  - destruct (IH (S a) x H) as (i & A & B & E). exists i. split; [lia|]. split; [lia|exact E].
Qed.
Lemma to_ms_step u a s : (to_ms u (a + s) = to_ms u a + to_ms u s \/ to_ms u (a + s) = to_ms u a + to_ms u s + 1)%Z.
Proof.
  assert (G : forall D, (0 < D)%Z -> ((a + s) / D = a / D + s / D \/ (a + s) / D = a / D + s / D + 1)%Z).
  { intros D HD. assert (A := Z.div_mod a D ltac:(lia)). assert (B := Z.div_mod s D ltac:(lia)). assert (MA := Z.mod_pos_bound a D HD). assert (MB := Z.mod_pos_bound s D HD).
    set (x := (a / D)%Z) in *. set (y := (s / D)%Z) in *. set (r := (a mod D)%Z) in *. set (r' := (s mod D)%Z) in *.
    destruct (Z.lt_ge_cases (r + r') D) as [L|L].
    - left. symmetry. apply Z.div_unique with (r + r')%Z; [lia|]. rewrite A, B. ring.
    - right. symmetry. apply Z.div_unique with (r + r' - D)%Z; [lia|]. rewrite A, B. ring. }
  destruct u; cbn [to_ms]; try (left; lia); apply G; lia.
Qed.
Lemma to_ms_bound u s : (0 <= s <= 1024 * per_day u)%Z -> (0 <= to_ms u s <= 1024 * 86400000)%Z.
Proof.
  intros H. destruct u; cbn [per_day to_ms] in *; try lia.
  - split; [apply Z.div_pos; lia|apply Z.div_le_upper_bound; lia].
  - split; [apply Z.div_pos; lia|apply Z.div_le_upper_bound; lia].
Qed.
Lemma greg_grid z : 40000 <= ms_value z <= 4000000 -> exists m, greg64 z = IZR m * bpow radix2 (-37).
Proof.
  intros H. apply (grid (greg64 z) 16 (-37)); [apply fl_is64|lia| |reflexivity].
  assert (K := greg_near z ltac:(lra)). apply Rabs_le_inv in K. change (bpow radix2 (16 - 1)) with 32768. change (bpow radix2 (-31)) with (/ 2147483648) in K.
  rewrite Rabs_pos_eq; lra.
Qed.
Lemma fin_inj : forall l l', map Fin l = map Fin l' -> l = l'.
Proof.
  induction l as [|x l IH]; intros [|y l'] E; cbn [map] in E; try discriminate; [reflexivity|].
  injection E as E1 E2. f_equal; [exact E1|now apply IH].
Qed.
Definition stepped (u : tunit) (n0 step : Z) (k : nat) : list (option Z) := map (fun i => Some (n0 + Z.of_nat i * step)%Z) (seq 0 k).
Lemma even_ok parse u n0 step k ts v : (0 <= step <= 1024 * per_day u)%Z ->
  (forall i x, (i < k)%nat -> day_value u (n0 + Z.of_nat i * step) x -> 40000 <= x <= 4000000) ->
  normalize64 parse (TDate u (stepped u n0 step k)) PNone = Ok (map Fin ts) -> spacing64 ts v -> v < eps64.
Proof.
  intros Hs Hr E (U & (ND & UU) & V). set (z := fun i => to_ms u (n0 + Z.of_nat i * step)).
  assert (RG : forall i, (i < k)%nat -> 40000 <= ms_value (z i) <= 4000000) by (intros i Hi; apply (Hr i _ Hi); now apply day_value_ms).
  assert (ET : ts = map (fun i => greg64 (z i)) (seq 0 k)).
  { unfold normalize64 in E. cbn [is_none] in E. rewrite greg_dates in E. injection E as E. unfold stepped in E. rewrite map_map in E.
    apply fin_inj. rewrite <- E. rewrite map_map. reflexivity. }
  set (f := to_ms u step). destruct (to_ms_bound u step Hs) as [F0 F1]. fold f in F0, F1. apply IZR_le in F0, F1. rewrite mult_IZR in F1.
  set (lo := IZR f / 86400000 - / 1073741824). set (W := / 86400000 + / 536870912).
  assert (EL : forall x, In x U -> (exists m, x = IZR m * bpow radix2 (-37)) /\ lo <= x <= lo + W).
  { intros x Hx. apply UU in Hx. rewrite ET in Hx. apply diff_in in Hx. destruct Hx as (i & _ & Hi & ->).
    assert (R1 := RG i ltac:(lia)). assert (R2 := RG (S i) ltac:(lia)).
    assert (N1 := greg_near (z i) ltac:(lra)). assert (N2 := greg_near (z (S i)) ltac:(lra)).
    change (bpow radix2 (-31)) with (/ 2147483648) in N1, N2. apply Rabs_le_inv in N1, N2.
    assert (D : IZR (z (S i)) = IZR (z i) + IZR f \/ IZR (z (S i)) = IZR (z i) + IZR f + 1).
    { unfold z, f. replace (n0 + Z.of_nat (S i) * step)%Z with (n0 + Z.of_nat i * step + step)%Z by lia.
      destruct (to_ms_step u (n0 + Z.of_nat i * step) step) as [D|D]; rewrite D; [left|right]; now rewrite ?plus_IZR. }
    assert (B : lo <= greg64 (z (S i)) - greg64 (z i) <= lo + W) by (unfold lo, W; unfold ms_value in *; destruct D; lra).
    destruct (greg_grid _ R1) as (m1 & G1). destruct (greg_grid _ R2) as (m2 & G2).
    assert (G : greg64 (z (S i)) - greg64 (z i) = IZR (m2 - m1) * bpow radix2 (-37)) by (rewrite minus_IZR, Rmult_minus_distr_r, <- G1, <- G2; reflexivity).
    rewrite G in *. rewrite fl_id; [split; [eauto|exact B]|]. apply is64_int; [|lia].
    change (bpow radix2 (-37)) with (/ 137438953472) in B. assert (K : -9007199254740992 < IZR (m2 - m1) < 9007199254740992) by (unfold lo, W in B; lra).
    destruct K as [K1 K2]. apply (lt_IZR (-9007199254740992)) in K1. apply (lt_IZR _ 9007199254740992) in K2. lia. }
  assert (CN : (length U <= 2048)%nat).
  { apply (count_grid (bpow radix2 (-37)) U lo W); [apply bpow_gt_0|unfold W; lra|exact ND|apply EL|apply EL|].
    change (bpow radix2 (-37)) with (/ 137438953472). unfold W. rewrite INR_IZR_INZ. change (Z.of_nat 2049) with 2049%Z. unfold Rdiv. rewrite Rinv_inv. lra. }
  apply (variance_small U v lo W V CN); [apply EL|unfold lo; lra|unfold lo, W; lra|unfold W; lra].
Qed.
