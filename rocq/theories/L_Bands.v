(** Every constituent lies well inside one noise band. *)
From Coq Require Import QArith Qreals Qabs Lia Lra.
From Verif Require Import M_Base M_Tables M_Const M_Slvinit M_Harmonics M_Period M_Conf S_Tables L_Base L_Tables S_Basis S_Harm L_Harm.
Open Scope R_scope.

(** ** linearised frequencies as rational combinations of the six rates *)
Definition qdot (a b : list Q) : Q := fold_right Qplus 0%Q (map (fun p => fst p * snd p)%Q (combine a b)).
Definition qadd (a b : list Q) : list Q := map (fun p => (fst p + snd p)%Q) (combine a b).
Definition dood_q (k : nat) : list Q := match nth k const_doodson None with Some d => map inject_Z d | None => repeat 0%Q 6 end.
Definition weights (k : nat) : list Q :=
  match nth k const_ishallow None with
  | None => dood_q k
  | Some _ => fold_right (fun r acc => qadd (map (Qmult (nth r shallow_coef 0%Q)) (dood_q (row_parent r))) acc) (repeat 0%Q 6) (rows_of k)
  end.
Definition lin (w : list Q) (x : list R) : R := rsum (map (fun p => Q2R (fst p) * snd p) (combine w x)).

Lemma lin_qadd a b x : length a = length b -> lin (qadd a b) x = lin a x + lin b x.
Proof.
  unfold lin, qadd, rsum. revert b x. induction a as [|u a IH]; intros [|v b] [|y x] H; try discriminate; cbn [combine map fold_right fst snd]; try lra.
  rewrite IH by (cbn in H; lia). rewrite Q2R_plus. ring.
Qed.
Lemma lin_scale c a x : lin (map (Qmult c) a) x = Q2R c * lin a x.
Proof.
  unfold lin, rsum. revert x. induction a as [|u a IH]; intros [|y x]; cbn [combine map fold_right fst snd]; try lra.
  rewrite IH, Q2R_mult. ring.
Qed.
Lemma lin_zero n x : lin (repeat 0%Q n) x = 0.
Proof.
  unfold lin, rsum. revert x. induction n as [|n IH]; intros [|y x]; cbn [repeat combine map fold_right fst snd]; auto.
  rewrite IH. unfold Q2R. cbn. lra.
Qed.
Lemma dood_q_len k : is_primary k -> length (dood_q k) = 6%nat.
Proof. intros Hp. destruct (primary_data k Hp) as (_ & d & s & E & _ & L & _). unfold dood_q. rewrite E, map_length. exact L. Qed.
Lemma lin_dood k d x : nth k const_doodson None = Some d -> lin (dood_q k) x = rdot (zrow d) x.
Proof.
  intros E. unfold dood_q. rewrite E. unfold lin, rdot, zrow, rsum. revert x. clear E.
  induction d as [|u d IH]; intros [|y x]; cbn [combine map fold_right fst snd]; auto. rewrite IH. unfold Q2R, inject_Z. cbn [Qnum Qden]. field.
Qed.
Lemma lin_prim tref k : is_primary k -> nth k (linearized_freqs tref) 0 = lin (dood_q k) (ader tref) / 24.
Proof.
  intros Hp. destruct (primary_data k Hp) as (_ & d & s & E & _ & L & _). rewrite (lin_primary tref k d Hp E), (lin_dood k d _ E).
  rewrite rdot_doodson by (auto using ader_len). reflexivity.
Qed.
Lemma qadd_len a b : length a = length b -> length (qadd a b) = length a.
Proof. intros H. unfold qadd. rewrite map_length, combine_length. lia. Qed.

Lemma fold_len l : (forall r, In r l -> is_primary (row_parent r)) ->
  length (fold_right (fun r acc => qadd (map (Qmult (nth r shallow_coef 0%Q)) (dood_q (row_parent r))) acc) (repeat 0%Q 6) l) = 6%nat.
Proof.
  induction l as [|r l IH]; intros H; [reflexivity|]. cbn [fold_right]. rewrite qadd_len; rewrite map_length, dood_q_len by (apply H; now left); auto.
  symmetry. apply IH. intros; apply H; now right.
Qed.
Lemma lin_step (a b c : R) : b / 24 * a + c / 24 = (a * b + c) / 24. Proof. field. Qed.
Lemma lin_fold tref l : (forall r, In r l -> is_primary (row_parent r)) ->
  rsum (map (fun r => nth (row_parent r) (linearized_freqs tref) 0 * row_coef r) l) =
  lin (fold_right (fun r acc => qadd (map (Qmult (nth r shallow_coef 0%Q)) (dood_q (row_parent r))) acc) (repeat 0%Q 6) l) (ader tref) / 24.
Proof.
  induction l as [|r l IH]; intros H; cbn [map fold_right].
  - rewrite lin_zero. unfold rsum. cbn. lra.
  - rewrite lin_qadd, lin_scale by (rewrite map_length, dood_q_len, fold_len; auto; intros; apply H; [now right|now left]).
    rewrite <- lin_step. rewrite <- IH by (intros; apply H; now right). unfold rsum at 1. cbn [fold_right].
    rewrite lin_prim by (apply H; now left). unfold row_coef. unfold rsum. reflexivity.
Qed.
Lemma lin_weights tref k : (k < 146)%nat -> nth k (linearized_freqs tref) 0 = lin (weights k) (ader tref) / 24.
Proof.
  intros Hk. destruct (shallow_or_primary k Hk) as [Hs|Hp].
  - rewrite lin_freq_eq by assumption. rewrite lin_fold by (intros r Hr; exact (row_parent_primary k r Hr Hs)).
    destruct (shallow_data k Hs) as [i E]. unfold weights. rewrite E. reflexivity.
  - rewrite (lin_prim tref k Hp). destruct (primary_data k Hp) as (_ & d & s & _ & _ & _ & E). unfold weights. rewrite E. reflexivity.
Qed.

(** ** interval bounds *)
Definition rate_mid : list Q :=
  [579682084681 # 600000000000; 10980330439 # 300000000000; 547581853 # 200000000000; 1114040803 # 3600000000000;
   88256537 # 600000000000; 117671 # 900000000000]%Q.
Definition rate_rad : Q := (1 # 10000000)%Q.
Definition close (m : Q) (x : R) : Prop := Q2R m - Q2R rate_rad <= x <= Q2R m + Q2R rate_rad.

Lemma lin_bound w m x : Forall2 close m x -> let r := (rate_rad * fold_right Qplus 0 (map Qabs w))%Q in
  Q2R (qdot w m - r) <= lin w x <= Q2R (qdot w m + r).
Proof.
  unfold lin, qdot, rsum. intros H. revert w. induction H as [|q y m x Hq H IH]; intros [|u w]; cbn [map combine fold_right fst snd].
  - unfold Q2R. cbn. lra.
  - cbn zeta. rewrite ?Q2R_minus, ?Q2R_plus, ?Q2R_mult, ?Q2R_plus. assert (0 <= Q2R (fold_right Qplus 0%Q (map Qabs w))).
    { clear. induction w as [|a w IH]; cbn [map fold_right]; [unfold Q2R; cbn; lra|]. rewrite Q2R_plus.
      assert (0 <= Q2R (Qabs a)); [|lra]. replace 0 with (Q2R 0%Q) by (unfold Q2R; cbn; lra). apply Qle_Rle. apply Qabs_nonneg. }
    assert (0 <= Q2R (Qabs u)). { replace 0 with (Q2R 0%Q) by (unfold Q2R; cbn; lra). apply Qle_Rle. apply Qabs_nonneg. }
    assert (0 < Q2R rate_rad) by (unfold rate_rad, Q2R; cbn; lra). replace (Q2R 0%Q) with 0 by (unfold Q2R; cbn; lra).
    assert (0 <= Q2R rate_rad * (Q2R (Qabs u) + Q2R (fold_right Qplus 0%Q (map Qabs w)))) by (apply Rmult_le_pos; lra). lra.
  - unfold Q2R. cbn. lra.
  - cbn zeta in *. specialize (IH w). rewrite ?Q2R_minus, ?Q2R_plus, ?Q2R_mult, ?Q2R_plus in *.
    assert (A : Q2R (Qabs u) = Rabs (Q2R u)).
    { destruct (Qlt_le_dec u 0%Q) as [N|N].
      - rewrite (Qeq_eqR _ _ (Qabs_neg u (Qlt_le_weak _ _ N))), Q2R_opp. apply Qlt_Rlt in N. rewrite Rabs_left; auto. unfold Q2R in N at 2. cbn in N. lra.
      - rewrite (Qeq_eqR _ _ (Qabs_pos u N)). apply Qle_Rle in N. rewrite Rabs_pos_eq; auto. unfold Q2R in N at 1. cbn in N. lra. }
    rewrite A. unfold close in Hq. destruct (Rcase_abs (Q2R u)); [rewrite Rabs_left by assumption|rewrite Rabs_right by assumption]; nra.
Qed.

Lemma rates_close tref : Rabs (tref - 693595.5) <= 365250 -> Forall2 close rate_mid (ader tref).
Proof.
  intros H. rewrite ader_eq. cbv zeta. set (D := (tref - daten) / 10000).
  assert (HD : -36.525 <= D <= 36.525).
  { unfold D. rewrite daten_val. apply Rabs_le_between in H. lra. }
  assert (H2 : 0 <= D * D <= 1400) by nra.
  unfold rate_mid.
  replace (3 / 10 ^ 4 * D * D) with (3 / 10 ^ 4 * (D * D)) by ring. generalize dependent (D * D). intros D2 H2.
  repeat constructor; unfold rate_rad, Q2R; cbn [Qnum Qden]; lra.
Qed.

(** ** the check *)
Definition bandsQ : list (Q * Q) :=
  [(10 # 100000, 417 # 100000); (3192 # 100000, 4859 # 100000); (7218 # 100000, 8884 # 100000);
   (11243 # 100000, 12910 # 100000); (15269 # 100000, 16936 # 100000); (19295 # 100000, 20961 # 100000);
   (23320 # 100000, 25100 # 100000); (26000 # 100000, 29000 # 100000); (30000 # 100000, 50000 # 100000)]%Q.
Definition freq_iv (k : nat) : Q * Q :=
  let w := map Qred (weights k) in
  let m := qdot w rate_mid in let r := (rate_rad * fold_right Qplus 0 (map Qabs w))%Q in
  (Qred ((m - r) / 24), Qred ((m + r) / 24))%Q.
Definition qlt (a b : Q) : bool := negb (Qle_bool b a).
(** the number of the band: inside it, and outside all the others *)
Definition find_band (k : nat) : option nat :=
  let '(lo, hi) := freq_iv k in
  find (fun b => forallb (fun p => let '(j, (l, h)) := p in
                   if Nat.eqb j b then Qle_bool l lo && Qle_bool hi h else qlt hi l || qlt h lo)
                 (combine (seq 0 9) bandsQ)) (seq 0 9).
Lemma bands_check : forallb (fun k => match find_band k with Some b => true | None => false end) (seq 1 145) = true.
Proof. vm_compute. reflexivity. Qed.
Lemma lin_qred w x : lin (map Qred w) x = lin w x.
Proof.
  unfold lin, rsum. revert x. induction w as [|u w IH]; intros [|y x]; cbn [map combine fold_right fst snd]; auto.
  rewrite IH, (Qeq_eqR _ _ (Qred_correct u)). reflexivity.
Qed.
Lemma freq_bound tref k : (k < 146)%nat -> Rabs (tref - 693595.5) <= 365250 ->
  Q2R (fst (freq_iv k)) <= nth k (linearized_freqs tref) 0 <= Q2R (snd (freq_iv k)).
Proof.
  intros Hk H. rewrite (lin_weights tref k Hk). rewrite <- lin_qred.
  assert (B := lin_bound (map Qred (weights k)) rate_mid (ader tref) (rates_close tref H)). cbn zeta in B.
  unfold freq_iv. cbn zeta. cbn [fst snd]. revert B. generalize (qdot (map Qred (weights k)) rate_mid).
  generalize (rate_rad * fold_right Qplus 0 (map Qabs (map Qred (weights k))))%Q.
  generalize (lin (map Qred (weights k)) (ader tref)). intros y r m B.
  rewrite !(Qeq_eqR _ _ (Qred_correct _)). unfold Qdiv. rewrite !Q2R_mult.
  replace (Q2R (/ 24)) with (/ 24) by (unfold Q2R; cbn; lra). lra.
Qed.
Lemma qlt_Rlt a b : qlt a b = true -> Q2R a < Q2R b.
Proof. unfold qlt. intros H. apply Qlt_Rlt. apply Qnot_le_lt. intros X. apply Qle_bool_iff in X. rewrite X in H. discriminate. Qed.
Lemma Qle_Rle' a b : Qle_bool a b = true -> Q2R a <= Q2R b.
Proof. intros H. apply Qle_Rle. now apply Qle_bool_iff. Qed.

Lemma bandsQ_val : bands = map (fun p => (Q2R (fst p), Q2R (snd p))) bandsQ.
Proof.
  unfold bands, bandsQ. cbn [map fst snd]. repeat (apply f_equal2; [apply f_equal2; unfold Q2R; cbn [Qnum Qden]; lra|]). reflexivity.
Qed.
Lemma freq_bands_val : freq_bands = bands.
Proof. unfold bands, freq_bands. repeat (apply f_equal2; [apply f_equal2; lra|]). reflexivity. Qed.

Lemma combine_seq_in {A} (l : list A) k j d : (j < length l)%nat -> In ((k + j)%nat, nth j l d) (combine (seq k (length l)) l).
Proof.
  revert k j. induction l as [|a l IH]; intros k [|j] H; cbn in *; try lia.
  - left. f_equal. lia.
  - right. replace (k + S j)%nat with (S k + j)%nat by lia. apply IH. lia.
Qed.

Lemma one_band tref k : (0 < k < 146)%nat -> Rabs (tref - 693595.5) <= 365250 ->
  exists b, (b < 9)%nat /\ forall j, (j < 9)%nat -> (in_band (nth j bands (0, 0)) (nth k (linearized_freqs tref) 0) <-> j = b).
Proof.
  intros Hk H. assert (C := bands_check). rewrite forallb_forall in C. specialize (C k ltac:(apply in_seq; lia)).
  destruct (find_band k) as [b|] eqn:E; [|discriminate]. clear C. unfold find_band in E.
  assert (B := freq_bound tref k ltac:(lia) H). destruct (freq_iv k) as [lo hi]. cbn [fst snd] in B.
  apply find_some in E. destruct E as [Hb E]. exists b. apply in_seq in Hb. split; [lia|]. intros j Hj.
  rewrite forallb_forall in E. specialize (E (j, nth j bandsQ (0, 0)%Q) (combine_seq_in bandsQ 0 j (0, 0)%Q Hj)). cbn beta iota in E.
  rewrite bandsQ_val. rewrite (nth_indep _ (0, 0) ((fun p => (Q2R (fst p), Q2R (snd p))) (0, 0)%Q)) by exact Hj.
  rewrite (map_nth (fun p => (Q2R (fst p), Q2R (snd p)))). destruct (nth j bandsQ (0, 0)%Q) as [l h]. unfold in_band. cbn [fst snd].
  destruct (Nat.eqb_spec j b) as [->|N].
  - apply andb_prop in E. destruct E as [E1 E2]. apply Qle_Rle' in E1, E2. split; intros; [reflexivity|lra].
  - split; [|congruence]. intros [X1 X2]. apply orb_prop in E. destruct E as [E|E]; apply qlt_Rlt in E; lra.
Qed.

Lemma lookup_band P f b : length P = 9%nat -> (b < 9)%nat -> in_band (nth b bands (0, 0)) f -> band_level P f = nth b P (Fin 0).
Proof.
  destruct P as [|p0 [|p1 [|p2 [|p3 [|p4 [|p5 [|p6 [|p7 [|p8 [|]]]]]]]]]]; try discriminate. intros _ Hb.
  unfold band_level. rewrite freq_bands_val. unfold bands, in_band.
  do 9 (destruct b as [|b]; [cbn [nth fst snd combine fold_left]; intros [L1 L2];
    repeat match goal with |- context [Rle_dec ?x ?y] => destruct (Rle_dec x y); try (exfalso; lra) end; reflexivity|]). lia.
Qed.
Lemma lookup_none P f : (forall j, (j < 9)%nat -> ~ in_band (nth j bands (0, 0)) f) -> band_level P f = Fin 0.
Proof.
  intros H. unfold band_level. rewrite freq_bands_val.
  assert (G : forall l, (forall p, In p l -> In (fst p) bands) -> fold_left (fun acc p => let '(lo, hi, x) := p in
    if (if Rle_dec lo f then true else false) && (if Rle_dec f hi then true else false) then x else acc) l (Fin 0) = Fin 0).
  { induction l as [|[[lo hi] x] l IH]; intros Hl; [reflexivity|]. cbn [fold_left].
    assert (Hin := Hl _ (or_introl eq_refl)). cbn [fst] in Hin. destruct (In_nth _ _ (0, 0) Hin) as (j & Hj & En).
    assert (Hn := H j Hj). rewrite En in Hn. unfold in_band in Hn. cbn [fst snd] in Hn.
    destruct (Rle_dec lo f); [destruct (Rle_dec f hi); [tauto|]|]; cbn [andb]; apply IH; intros; apply Hl; now right. }
  apply G. intros [b x] Hp. apply in_combine_l in Hp. exact Hp.
Qed.
Lemma Z0_zero tref : nth 0 (linearized_freqs tref) 0 = 0.
Proof.
  rewrite (lin_weights tref 0) by lia. assert (E : weights 0 = repeat 0%Q 6) by (vm_compute; reflexivity). rewrite E, lin_zero. lra.
Qed.
Lemma Z0_no_band tref j : (j < 9)%nat -> ~ in_band (nth j bands (0, 0)) (nth 0 (linearized_freqs tref) 0).
Proof.
  intros Hj. rewrite Z0_zero. unfold in_band, bands. do 9 (destruct j as [|j]; [cbn [nth fst snd]; lra|]). lia.
Qed.
