(** Band averages of a periodogram. *)
From Coq Require Import Lia Lra Psatz.
From Verif Require Import M_Base M_Lib M_Slvinit M_Period S_Period L_Base.
Open Scope R_scope.

(** ** Rounding and interpolation *)
Lemma Int_part_spec x : IZR (Int_part x) <= x < IZR (Int_part x) + 1.
Proof. pose proof (base_Int_part x). lra. Qed.
Lemma Int_part_unique x z : IZR z <= x < IZR z + 1 -> Int_part x = z.
Proof.
  intros H. pose proof (Int_part_spec x) as H2.
  assert (z < Int_part x + 1)%Z by (apply lt_IZR; rewrite plus_IZR; lra).
  assert (Int_part x < z + 1)%Z by (apply lt_IZR; rewrite plus_IZR; lra). lia.
Qed.

(** between two neighbouring integers the rounded value is the nearer one *)
Lemma rint_between k d : 0 <= d < 1 ->
  (rint (IZR k + d) = k /\ d <= / 2) \/ (rint (IZR k + d) = (k + 1)%Z /\ / 2 <= d).
Proof.
  intros Hd. unfold rint. rewrite (Int_part_unique (IZR k + d) k) by lra.
  replace (IZR k + d - IZR k) with d by ring.
  destruct (Rlt_dec d (/ 2)); [left; split; [reflexivity | lra] |].
  destruct (Rlt_dec (/ 2) d); [right; split; [reflexivity | lra] |].
  destruct (Z.even k); [left | right]; split; try reflexivity; lra.
Qed.

Lemma nd_tail a l : non_decreasing (a :: l) -> non_decreasing l.
Proof. intros H i j Hij. specialize (H (S i) (S j)). cbn in H. apply H. cbn; lia. Qed.
Lemma nd_head a l j : non_decreasing (a :: l) -> (j < length l)%nat -> a <= nth j l 0.
Proof. intros H Hj. apply (H 0%nat (S j)). cbn; lia. Qed.

Lemma interp_aux_near x : forall xp k, xp <> [] -> non_decreasing xp -> hd 0 xp <= x ->
  exists i, (i < length xp)%nat /\ rint (interp_aux x xp (map INR (seq k (length xp)))) = Z.of_nat (k + i) /\
    forall j, (j < length xp)%nat -> Rabs (x - nth i xp 0) <= Rabs (x - nth j xp 0).
Proof.
  induction xp as [|a xp IH]; intros k Hne Hnd Hhd; [now elim Hne |].
  destruct xp as [|b xp].
  - exists 0%nat. cbn [length]. split; [lia |]. split.
    + cbn [seq map interp_aux]. rewrite INR_IZR_INZ. rewrite <- (Rplus_0_r (IZR _)).
      destruct (rint_between (Z.of_nat k) 0 ltac:(lra)) as [[-> _] | [_ H]]; [f_equal; lia | lra].
    + intros j Hj. assert (j = 0)%nat as -> by lia. lra.
  - pose proof (nd_head _ _ 0%nat Hnd ltac:(cbn; lia)) as Hab. cbn in Hab. cbn [hd] in Hhd.
    change (interp_aux x (a :: b :: xp) (map INR (seq k (length (a :: b :: xp)))))
      with (if Rlt_dec x b then (INR (S k) - INR k) / (b - a) * (x - a) + INR k
            else interp_aux x (b :: xp) (map INR (seq (S k) (length (b :: xp))))).
    destruct (Rlt_dec x b) as [Hx | Hx].
    + assert (Hba : 0 < b - a) by lra.
      set (d := (x - a) / (b - a)).
      assert (Hd : 0 <= d < 1).
      { unfold d. split; [apply Rmult_le_pos; [lra |]; left; now apply Rinv_0_lt_compat |].
        apply Rmult_lt_reg_r with (b - a); [lra |]. unfold Rdiv. rewrite Rmult_assoc, Rinv_l by lra. lra. }
      assert (Hxd : x - a = d * (b - a)) by (unfold d; field; lra).
      replace ((INR (S k) - INR k) / (b - a) * (x - a) + INR k) with (IZR (Z.of_nat k) + d)
        by (rewrite S_INR, (INR_IZR_INZ k); unfold d; field; lra).
      assert (Hall : forall j, (j < length (b :: xp))%nat -> b - x <= Rabs (x - nth j (b :: xp) 0)).
      { intros j Hj. assert (b <= nth j (b :: xp) 0).
        { destruct j; [cbn; lra |]. cbn [nth]. apply nd_head with (l := xp); [now apply nd_tail in Hnd | cbn in Hj; lia]. }
        rewrite Rabs_left1 by lra. lra. }
      destruct (rint_between (Z.of_nat k) d Hd) as [[-> Hd2] | [-> Hd2]].
      * exists 0%nat. split; [cbn; lia |]. split; [f_equal; lia |].
        intros [|j] Hj; cbn [nth]; [lra |]. rewrite (Rabs_pos_eq (x - a)) by lra.
        apply Rle_trans with (b - x); [nra |]. apply (Hall j). cbn in Hj |- *. lia.
      * exists 1%nat. split; [cbn; lia |]. split; [lia |].
        cbn [nth]. rewrite (Rabs_left1 (x - b)) by lra.
        intros [|j] Hj; cbn [nth].
        -- rewrite Rabs_pos_eq by lra. nra.
        -- pose proof (Hall j ltac:(cbn in Hj |- *; lia)). cbn [nth] in H. lra.
    + destruct (IH (S k)) as [i [Hi [Hr Hn]]]; [discriminate | now apply nd_tail in Hnd | cbn; lra |].
      exists (S i). split; [cbn in Hi |- *; lia |]. split; [rewrite Hr; f_equal; lia |].
      intros [|j] Hj.
      * cbn [nth]. apply Rle_trans with (Rabs (x - b)); [apply (Hn 0%nat); cbn; lia |].
        rewrite !Rabs_pos_eq by lra. lra.
      * apply (Hn j). cbn in Hj |- *. lia.
Qed.

Lemma i_constit_near freq c : freq <> [] -> non_decreasing freq -> nearest_bin freq c (i_constit freq c).
Proof.
  intros Hne Hnd. unfold i_constit, interp. destruct freq as [|a l]; [now elim Hne |].
  change (map INR (seq 0 (length (a :: l)))) with (INR 0 :: map INR (seq 1 (length l))) at 1.
  destruct (Rlt_dec c a) as [Hc | Hc].
  - assert (H0 : rint (INR 0) = 0%Z).
    { replace (INR 0) with (IZR 0 + 0) by (cbn; ring).
      destruct (rint_between 0 0 ltac:(lra)) as [[H _] | [_ H]]; [exact H | lra]. }
    cbn [map seq length] in *. rewrite H0.
    replace (Z.to_nat _) with 0%nat by lia.
    split; [cbn; lia |]. intros [|j] Hj; cbn [nth]; [lra |].
    pose proof (nd_head _ _ j Hnd ltac:(cbn in Hj; lia)). rewrite !Rabs_left1 by lra. lra.
  - change (INR 0 :: map INR (seq 1 (length l))) with (map INR (seq 0 (length (a :: l)))).
    destruct (interp_aux_near c (a :: l) 0 Hne Hnd ltac:(cbn; lra)) as [i [Hi [Hr Hn]]].
    cbn [map seq] in *. rewrite Hr. replace (Z.to_nat _) with i by lia. now split.
Qed.

(** ** Bins of a band *)
Lemma searchsorted_cons a l f : searchsorted (a :: l) f = ((if Rlt_dec a f then 1 else 0) + searchsorted l f)%nat.
Proof. unfold searchsorted. cbn [filter]. now destruct (Rlt_dec a f). Qed.
Lemma searchsorted_le l f : (searchsorted l f <= length l)%nat.
Proof. induction l; [cbn; lia |]. rewrite searchsorted_cons. cbn [length]. destruct Rlt_dec; lia. Qed.
Lemma searchsorted_zero l f : (forall j, (j < length l)%nat -> f <= nth j l 0) -> searchsorted l f = 0%nat.
Proof.
  induction l as [|a l IH]; intros H; [reflexivity |]. rewrite searchsorted_cons.
  pose proof (H 0%nat ltac:(cbn; lia)) as H0. cbn in H0. destruct Rlt_dec; [lra |].
  apply IH. intros j Hj. apply (H (S j)). cbn; lia.
Qed.
Lemma searchsorted_iff l f : non_decreasing l -> forall i, (i < length l)%nat -> (i < searchsorted l f)%nat <-> nth i l 0 < f.
Proof.
  induction l as [|a l IH]; intros Hnd i Hi; [cbn in Hi; lia |]. rewrite searchsorted_cons.
  destruct (Rlt_dec a f) as [Ha | Ha].
  - destruct i as [|i]; cbn [nth]; [split; [intros; lra | lia] |].
    rewrite <- (IH (nd_tail _ _ Hnd) i) by (cbn in Hi; lia). split; lia.
  - rewrite searchsorted_zero.
    + split; [lia |]. intros H. exfalso. pose proof (Hnd 0%nat i ltac:(lia)) as H2. change (nth 0 (a :: l) 0) with a in H2. lra.
    + intros j Hj. pose proof (nd_head _ _ j Hnd Hj). lra.
Qed.

Lemma counts_iff freq lo hi i : non_decreasing freq ->
  counts freq lo hi i <->
  (searchsorted freq lo <= i < Nat.min (length freq) (searchsorted freq hi + 1))%nat.
Proof.
  intros Hnd. unfold counts. split.
  - intros [Hi [Hlo Hhi]]. split.
    + destruct (Nat.le_gt_cases (searchsorted freq lo) i) as [H | H]; [exact H |].
      apply (searchsorted_iff freq lo Hnd i Hi) in H. lra.
    + apply Nat.min_glb_lt; [exact Hi |]. destruct i as [|i]; [lia |].
      pose proof (Hhi i ltac:(lia)) as H. apply (searchsorted_iff freq hi Hnd i) in H; lia.
  - intros [H1 H2]. assert (Hi : (i < length freq)%nat) by lia. split; [exact Hi |]. split.
    + apply Rnot_lt_le. intros H. apply (searchsorted_iff freq lo Hnd i Hi) in H. lia.
    + intros j Hj. apply (searchsorted_iff freq hi Hnd j); lia.
Qed.

(** ** Masking *)
Lemma list_set_len {A} (l : list A) i v : length (list_set l i v) = length l.
Proof. revert i; induction l; intros [|i]; cbn; auto. Qed.
Lemma list_set_nth {A} (l : list A) i v d j : (i < length l)%nat ->
  nth j (list_set l i v) d = if Nat.eqb j i then v else nth j l d.
Proof.
  revert i j; induction l as [|a l IH]; intros i j Hi; [cbn in Hi; lia |].
  destruct i, j; cbn in *; try reflexivity. rewrite IH by lia. reflexivity.
Qed.
Lemma mask_bins_ok : forall l P, (forall i, In i l -> (i < length P)%nat) ->
  exists P', mask_bins P l = Ok P' /\ length P' = length P /\
    forall i, nth i P' None = if existsb (Nat.eqb i) l then None else nth i P None.
Proof.
  induction l as [|a l IH]; intros P H.
  - exists P. cbn. auto.
  - cbn [mask_bins]. unfold mask_bin. pose proof (H a (or_introl eq_refl)) as Ha.
    destruct (Nat.ltb_spec a (length P)) as [_ | ?]; [| lia]. cbn [bind].
    destruct (IH (list_set P a None)) as [P' [E [Hl Hn]]].
    { intros i Hi. rewrite list_set_len. apply H. now right. }
    exists P'. split; [exact E |]. rewrite list_set_len in Hl. split; [exact Hl |].
    intros i. rewrite Hn, list_set_nth by exact Ha. cbn [existsb].
    destruct (Nat.eqb i a); cbn [orb]; [now destruct (existsb _ l) | reflexivity].
Qed.

Lemma somes_map_filter {A B} (f : A -> option B) (g : A -> bool) (h : A -> B) l :
  (forall a, In a l -> f a = if g a then Some (h a) else None) -> somes (map f l) = map h (filter g l).
Proof.
  induction l as [|a l IH]; intros H; [reflexivity |]. cbn [map filter]. rewrite (H a (or_introl eq_refl)).
  destruct (g a); cbn [somes map]; [f_equal |]; apply IH; intros; apply H; now right.
Qed.

Lemma slice_map {A} (l : list A) d i0 i1 : (i1 <= length l)%nat ->
  slice l i0 i1 = map (fun i => nth i l d) (seq i0 (i1 - i0)).
Proof.
  intros H. unfold slice. apply nth_ext with (d := d) (d' := d).
  - rewrite firstn_length, skipn_length, map_length, seq_length. lia.
  - intros n Hn. rewrite firstn_length, skipn_length in Hn.
    transitivity (nth n (skipn i0 l) d).
    + rewrite <- (firstn_skipn (i1 - i0) (skipn i0 l)) at 2. rewrite app_nth1; [reflexivity |].
      rewrite firstn_length, skipn_length. lia.
    + rewrite (nth_indep (map _ _) d ((fun i => nth i l d) 0%nat)) by (rewrite map_length, seq_length; lia).
      rewrite (map_nth (fun i => nth i l d)), seq_nth by lia.
      rewrite <- (firstn_skipn i0 l) at 2. rewrite app_nth2; rewrite firstn_length; [f_equal |]; lia.
Qed.

Lemma band_level_spec P freq near Pm b : non_decreasing freq -> length P = length freq -> length Pm = length P ->
  (forall i, nth i Pm None = if existsb (Nat.eqb i) near then None else nth i (map Some P) None) ->
  band_mean P freq near (fst b) (snd b)
    (masked_mean (slice Pm (searchsorted freq (fst b)) (Nat.min (length freq) (searchsorted freq (snd b) + 1)))).
Proof.
  intros Hnd HP Hl Hm. set (i0 := searchsorted freq (fst b)). set (i1 := Nat.min (length freq) (searchsorted freq (snd b) + 1)).
  set (idx := filter (fun i => negb (existsb (Nat.eqb i) near)) (seq i0 (i1 - i0))).
  assert (E : somes (slice Pm i0 i1) = map (fun i => nth i P 0) idx).
  { rewrite (slice_map Pm None) by (unfold i1; lia). unfold idx. apply somes_map_filter.
    intros i Hi. apply in_seq in Hi. rewrite Hm. destruct (existsb (Nat.eqb i) near); [reflexivity |]. cbn [negb].
    rewrite (nth_indep _ None (Some 0)) by (rewrite map_length; unfold i1 in Hi; lia). apply map_nth. }
  exists idx. split; [apply NoDup_filter, seq_NoDup |]. split.
  - intros i. unfold idx. rewrite filter_In, in_seq, counts_iff by exact Hnd. fold i0 i1.
    rewrite negb_true_iff, <- not_true_iff_false, existsb_natb_In. split; intros [H1 H2]; (split; [lia | exact H2]).
  - unfold masked_mean. rewrite E. destruct idx as [|a r]; cbn [map]; [reflexivity |].
    split; [discriminate |]. unfold mean. rewrite <- (map_cons (fun i => nth i P 0)), map_length.
    field. apply not_0_INR. discriminate.
Qed.

Lemma near_all freq cfreq : freq <> [] -> non_decreasing freq -> Forall2 (nearest_bin freq) cfreq (map (i_constit freq) cfreq).
Proof. intros Hne Hnd. induction cfreq; cbn; constructor; [now apply i_constit_near | assumption]. Qed.
Lemma fbndavg_near P freq cfreq bands : freq <> [] -> non_decreasing freq -> length P = length freq ->
  exists levels : list (option R), fbndavg P freq cfreq bands = Ok levels /\
    Forall2 (fun b x => band_mean P freq (map (i_constit freq) cfreq) (fst b) (snd b) x) bands levels.
Proof.
  intros Hne Hnd HP.
  destruct (mask_bins_ok (map (i_constit freq) cfreq) (map Some P)) as [Pm [E [Hl Hn]]].
  { intros i Hi. apply in_map_iff in Hi. destruct Hi as [c [<- _]]. rewrite map_length, HP.
    now apply i_constit_near. }
  rewrite map_length in Hl. eexists. split.
  - unfold fbndavg. destruct freq as [|a l]; [now elim Hne |]. rewrite E. cbn [bind]. reflexivity.
  - induction bands; cbn [map]; constructor; [now apply band_level_spec | assumption].
Qed.
Lemma fbndavg_spec P freq cfreq bands : freq <> [] -> non_decreasing freq -> length P = length freq ->
  exists near levels, Forall2 (nearest_bin freq) cfreq near /\ fbndavg P freq cfreq bands = Ok levels /\
    Forall2 (fun b x => band_mean P freq near (fst b) (snd b) x) bands levels.
Proof.
  intros Hne Hnd HP. destruct (fbndavg_near P freq cfreq bands Hne Hnd HP) as [l [E F]].
  exists (map (i_constit freq) cfreq), l. auto using near_all.
Qed.

Lemma fbndavg_empty P cfreq bands : fbndavg P [] cfreq bands = Err ValueError.
Proof. reflexivity. Qed.

(** the level lies between the least and the largest value that counts *)
Lemma rsum_between m M (l : list R) : (forall x, In x l -> m <= x <= M) -> m * INR (length l) <= rsum l <= M * INR (length l).
Proof.
  induction l as [|a l IH]; intros H; [cbn; lra |]. change (rsum (a :: l)) with (a + rsum l).
  cbn [length]. rewrite S_INR. pose proof (H a (or_introl eq_refl)).
  assert (m * INR (length l) <= rsum l <= M * INR (length l)) by (apply IH; intros; apply H; now right). nra.
Qed.
Lemma band_mean_between P freq near lo hi x m M : band_mean P freq near lo hi (Some x) ->
  (forall i, counts freq lo hi i -> ~ In i near -> m <= nth i P 0 <= M) -> m <= x <= M.
Proof.
  intros [idx [_ [Hin [Hne Hx]]]] H.
  assert (0 < INR (length idx)) by (apply lt_0_INR; destruct idx; [now elim Hne | cbn; lia]).
  pose proof (rsum_between m M (map (fun i => nth i P 0) idx)) as Hb. rewrite map_length in Hb.
  rewrite <- Hx in Hb. destruct Hb as [H1 H2].
  - intros y Hy. apply in_map_iff in Hy. destruct Hy as [i [<- Hi]]. apply Hin in Hi. now apply H.
  - split; eapply Rmult_le_reg_r; eauto.
Qed.
