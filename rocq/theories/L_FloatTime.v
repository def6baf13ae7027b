(** Rounded times. *)
From Coq Require Import Lia Lra Psatz Permutation.
From Flocq Require Import Core.
From Verif Require Import M_Base M_Time M_Float M_FloatTime S_Time S_Float S_FloatTime L_Base L_Time L_Float.
Open Scope R_scope.

Lemma fl_err x k : (-1000 <= k)%Z -> Rabs x <= bpow radix2 k -> Rabs (fl x - x) <= bpow radix2 (k - 54).
Proof.
  intros Hk Hx. destruct (Rle_lt_or_eq_dec _ _ Hx) as [Hl|He].
  - apply Rle_trans with (/ 2 * ulp radix2 fexp64 x); [apply error_le_half_ulp; typeclasses eauto|].
    replace (k - 54)%Z with (-1 + (k - 53))%Z by lia. rewrite bpow_plus. change (bpow radix2 (-1)) with (/ 2). apply Rmult_le_compat_l; [lra|].
    destruct (Req_dec x 0) as [->|Nx].
    + unfold fexp64; rewrite ulp_FLT_0 by typeclasses eauto; apply bpow_le. lia.
    + unfold ulp. rewrite Req_bool_false by exact Nx. apply bpow_le. unfold cexp, fexp64, FLT_exp.
      assert (mag radix2 x <= k)%Z by (apply mag_le_bpow; auto). lia.
  - assert (E : fl x = x).
    { apply fl_id. destruct (Rcase_abs x) as [H|H].
      - rewrite Rabs_left in He by lra. replace x with (- bpow radix2 k) by lra. apply generic_format_opp, generic_format_bpow. unfold fexp64, FLT_exp. lia.
      - rewrite Rabs_right in He by lra. rewrite He. apply generic_format_bpow. unfold fexp64, FLT_exp. lia. }
    rewrite E. unfold Rminus. rewrite Rplus_opp_r, Rabs_R0. apply bpow_ge_0.
Qed.
Lemma b22 : bpow radix2 22 = 4194304. Proof. reflexivity. Qed.
Lemma bm n : bpow radix2 (Z.neg n) = / IZR (Z.pow_pos 2 n). Proof. reflexivity. Qed.
Ltac powers := rewrite ?b22, ?bm in *; change (Z.pow_pos 2 32) with 4294967296%Z in *; change (Z.pow_pos 2 31) with 2147483648%Z in *; change (Z.pow_pos 2 30) with 1073741824%Z in *.

(** dates *)
Definition greg64 (z : Z) : R := fl (fl (fl (IZR z) / IZR MS_PER_DAY) + IZR DAY_TO_GREGORIAN_EPOCH).
Lemma ms_exact z : 0 <= ms_value z <= 4000000 -> fl (IZR z) = IZR z.
Proof.
  unfold ms_value. intros H. apply fl_id, is64_IZR. assert (- 400000000000000 < IZR z < 400000000000000) by lra.
  destruct H0 as [A B]. apply (lt_IZR (-400000000000000)) in A. apply (lt_IZR z 400000000000000) in B. lia.
Qed.
Lemma greg_near z : 0 <= ms_value z <= 4000000 -> Rabs (greg64 z - ms_value z) <= bpow radix2 (-31).
Proof.
  intros H. unfold greg64. rewrite (ms_exact z H). unfold ms_value in *. change (IZR MS_PER_DAY) with 86400000. change (IZR DAY_TO_GREGORIAN_EPOCH) with 719163.
  set (q := IZR z / 86400000) in *. assert (A : Rabs (fl q - q) <= bpow radix2 (-32)).
  { apply (fl_err q 22); [lia|]. rewrite b22. apply Rabs_le. lra. }
  assert (B : Rabs (fl (fl q + 719163) - (fl q + 719163)) <= bpow radix2 (-32)).
  { apply (fl_err _ 22); [lia|]. rewrite b22. apply Rabs_le. apply Rabs_le_inv in A. powers. lra. }
  apply Rabs_le_inv in A, B. apply Rabs_le. powers. lra.
Qed.
Lemma greg_dates parse u l : gregorian64 parse (TDate u l) = Ok (map (fun d => match d with Some n => Fin (greg64 (to_ms u n)) | None => NaN end) l).
Proof. unfold gregorian64, array_to_ms. cbn [bind]. rewrite map_map. f_equal. apply map_ext. intros [n|]; reflexivity. Qed.
Lemma greg_string parse s n : parse s = Some n -> gregorian64 parse (TStr [s]) = Ok [Fin (greg64 n)].
Proof. intros H. unfold gregorian64, array_to_ms. cbn [mapM]. rewrite H. reflexivity. Qed.
Lemma epoch_near parse e off : epoch_value parse e off -> exists ea, e <> PNone /\ eq_str e "python" = false /\ eq_str e "matlab" = false /\ epoch_array e = Ok ea /\
  exists o, gregorian64 parse ea = Ok [Fin o] /\ (0 <= off <= 4000000 -> Rabs (o - off) <= bpow radix2 (-31)).
Proof.
  intros [u n x H|s n x H1 H2 H3 H].
  - exists (TDate u [Some n]). apply day_value_ms in H. subst x. repeat (split; [first [reflexivity|discriminate]|]). rewrite greg_dates. eexists. split; [reflexivity|apply greg_near].
  - exists (TStr [s]). apply day_value_ms in H. subst x. split; [discriminate|]. cbn [eq_str epoch_array]. apply String.eqb_neq in H1, H2. rewrite H1, H2. do 3 (split; [reflexivity|]).
    rewrite (greg_string _ _ _ H3). eexists. split; [reflexivity|apply greg_near].
Qed.

Lemma near_all parse t e xs : denotes parse t e xs -> usual_epoch parse e -> exists ys, normalize64 parse t e = Ok ys /\ Forall2 (near (bpow radix2 (-30))) xs ys.
Proof.
  intros D UE. destruct D as [xs|xs|e off xs EV|u ds xs F].
  - exists xs. split; [reflexivity|]. induction xs as [|[r| | |] xs IH]; constructor; auto; try reflexivity. exists r. split; [reflexivity|]. intros _.
    unfold Rminus. rewrite Rplus_opp_r, Rabs_R0. apply bpow_ge_0.
  - unfold normalize64. cbn [is_none eq_str]. eexists. split; [reflexivity|]. rewrite map_map. induction xs as [|x xs IH]; constructor; auto. clear IH.
    destruct x as [r| | |]; try reflexivity. cbn [xsub xadd xneg flx near]. exists (fl (r + 366 + - 366)). split; [reflexivity|]. intros H. replace (r + 366 + -366) with r by ring.
    eapply Rle_trans; [apply (fl_err r 22); [lia|]|apply bpow_le; lia]. rewrite b22. apply Rabs_le. lra.
  - destruct (epoch_near _ _ _ EV) as (ea & N1 & N2 & N3 & EA & o & EO & HO). specialize (HO (UE _ EV)). specialize (UE _ EV).
    unfold normalize64. replace (is_none e) with false by (destruct e; reflexivity || congruence). rewrite N2, N3, EA. cbn [bind]. rewrite EO. cbn [bind hd].
    eexists. split; [reflexivity|]. rewrite map_map. induction xs as [|x xs IH]; constructor; auto. clear IH. destruct x as [r| | |]; try reflexivity. cbn [xsub xadd xneg flx near].
    exists (fl (r + - off + o)). split; [reflexivity|]. intros H. apply Rabs_le_inv in HO.
    assert (B : Rabs (fl (r + - off + o) - (r + - off + o)) <= bpow radix2 (-32)).
    { apply (fl_err _ 22); [lia|]. rewrite b22. apply Rabs_le. powers. lra. }
    apply Rabs_le_inv in B. apply Rabs_le. powers. lra.
  - unfold normalize64. cbn [is_none]. rewrite greg_dates. eexists. split; [reflexivity|]. induction F as [|d x ds xs Hd F IH]; constructor; auto. clear IH.
    destruct d as [n|]; [|now subst]. destruct Hd as (r & -> & Hr). apply day_value_ms in Hr. subst r. exists (greg64 (to_ms u n)). split; [reflexivity|]. intros H.
    eapply Rle_trans; [now apply greg_near|apply bpow_le; lia].
Qed.

Lemma near_order x y x' y' : near (bpow radix2 (-30)) (Fin x) y -> near (bpow radix2 (-30)) (Fin x') y' -> 0 <= x -> x + / 86400000 <= x' -> x' <= 4000000 ->
  exists s s', y = Fin s /\ y' = Fin s' /\ s < s'.
Proof.
  intros (s & -> & H) (s' & -> & H') A B D. exists s, s'. do 2 (split; [reflexivity|]). assert (0 < / 86400000) by lra.
  assert (H1 := H ltac:(lra)). assert (H2 := H' ltac:(lra)). apply Rabs_le_inv in H1, H2. powers. lra.
Qed.
