(** The iteration of the robust fit. *)
From Coq Require Import Lia Lra Psatz Sorted Permutation.
From Verif Require Import M_Base M_Lib M_Robust S_Recon S_Model S_Robust L_Base L_Slv2 L_Model L_Lsq L_Ellipse L_Example L_Example3 L_Robust.
Open Scope R_scope.
Open Scope string_scope.

(** ** weighted problems *)
Definition wrows (w : list R) (X : cmat) : cmat := map (fun p => map (Cmult (RtoC (fst p))) (snd p)) (combine w X).
Definition wdata (w : list R) (y : list C) : list C := map (fun p => Cmult (RtoC (fst p)) (snd p)) (combine w y).

Lemma cdot_scaled k row b : cdot (map (Cmult k) row) b = Cmult k (cdot row b).
Proof.
  unfold cdot. revert b. induction row as [|x row IH]; intros [|z b]; cbn [map combine].
  1-3: cbn; apply injective_projections; cbn; ring.
  assert (CS : forall a l, csum (a :: l) = Cplus a (csum l)) by reflexivity. rewrite !CS, IH. cbn [fst snd]. ring.
Qed.
Lemma weighted_norm w X y b :
  norm2 (csub (cmatvec (wrows w X) b) (wdata w y)) = weighted_ss w (misfits X y b).
Proof.
  unfold norm2, misfits, csub, cmatvec, wrows, wdata, weighted_ss.
  revert X y. induction w as [|a w IH]; intros X y; [reflexivity|].
  destruct X as [|r X]; [cbn [cmatvec map combine]; destruct y; reflexivity|]. destruct y as [|z y]; [reflexivity|].
  cbn [combine map]. rewrite !rsum_cons. apply f_equal2; [|apply IH].
  cbn [fst snd]. rewrite cdot_scaled. destruct (cdot r b) as [p q], z as [z1 z2]. cbn. ring.
Qed.

Lemma all_finite_spec w v : all_finite w = Some v <-> w = map Fin v.
Proof.
  unfold all_finite. revert v. induction w as [|x w IH]; intros v.
  - cbn. split; [intros H; now injection H as <-|]. destruct v; [auto|discriminate].
  - cbn. destruct x as [a| | |]; cbn; try (split; [discriminate|]; intros H; destruct v; discriminate).
    destruct (all_some (map finite w)) as [l|] eqn:E; cbn.
    + assert (E' := proj1 (IH l) eq_refl). subst w. split.
      * intros H. injection H as <-. reflexivity.
      * intros H. destruct v as [|b v]; [discriminate|]. cbn in H. injection H as -> H. apply IH in H. injection H as <-. reflexivity.
    + split; [discriminate|]. intros H. destruct v as [|b v]; [discriminate|]. cbn in H. injection H as -> H. apply IH in H. discriminate.
Qed.
Lemma xsum_fin v : xsum (map Fin v) = Fin (rsum v).
Proof. induction v as [|a v IH]; [reflexivity|]. unfold xsum in *. cbn [map fold_right]. rewrite IH. reflexivity. Qed.

Section Loop.
Variables (L : lib) (X : cmat) (y : list C) (rcond : pyval) (tol : R) (name : string) (t : R) (lev : list R).
Variables (wfn : xr -> xr) (phi : R -> R).
Hypothesis LC : lstsq_contract L rcond.
Hypothesis LX : length X = length y.
Hypothesis CX : exists row, In row X /\ row <> [].
Hypothesis Wn : wf_of name = Some wfn.
Hypothesis Ph : weight_formula name = Some phi.
Notation rfac := (map (fun h => xdiv x1 (xmul (Fin t) (xsqrt (Fin (1 - h))))) lev).
Hypothesis LL : length lev = length y.
Notation wf := (fun r : list xr => Ok (map wfn r)).

Lemma wsolve_pass w ls : wsolve L X y rcond (map Fin w) = Ok ls -> length w = length y ->
  Forall (fun a => 0 <= a <= 1) w ->
  let s := {| p_w := w; p_b := ls_b ls |} in
  optimal X y w (ls_b ls) /\ 0 < rsum w /\ xdiv (Fin (ls_rsumsq ls)) (xsum (map Fin w)) = Fin (mean_square X y s) /\
  ls_rsumsq ls = weighted_ss w (misfits X y (ls_b ls)).
Proof.
  intros H Hl Hw s. unfold wsolve in H.
  replace (all_finite (map Fin w)) with (Some w) in H by (symmetry; now apply all_finite_spec).
  change (map (fun p => map (Cmult (RtoC (fst p))) (snd p)) (combine w X)) with (wrows w X) in H.
  change (map (fun p => Cmult (RtoC (fst p)) (snd p)) (combine w y)) with (wdata w y) in H.
  destruct (l_lstsq L (wrows w X) (wdata w y) rcond) as [[[[b rss] k] sg]|e] eqn:E; [|discriminate]. cbn [bind] in H.
  destruct (LC _ _ _ _ _ _ E) as (H1 & H2 & H3).
  destruct H3 as [->|[-> H3]]; [discriminate|]. injection H as <-. cbn [ls_b ls_rsumsq] in *.
  assert (Op : optimal X y w b).
  { intros b' Hb. rewrite <- !weighted_norm. now apply H2. }
  assert (S0 : 0 <= rsum w).
  { clear -Hw. induction Hw as [|a l Ha _ IH]; [unfold rsum; cbn; lra|]. rewrite rsum_cons. lra. }
  assert (Sp : 0 < rsum w).
  { destruct (Req_dec (rsum w) 0) as [Z|Z]; [|lra]. exfalso.
    assert (W0 : Forall (fun a => a = 0) w).
    { clear -Hw Z. induction Hw as [|a l Ha Hl IH]; constructor; rewrite rsum_cons in Z;
        assert (0 <= rsum l) by (clear -Hl; induction Hl as [|a l Ha _ IH]; [unfold rsum; cbn; lra|rewrite rsum_cons; lra]); [lra|apply IH; lra]. }
    assert (ZZ : forall z, weighted_ss w z = 0).
    { clear -W0. unfold weighted_ss. induction W0 as [|a l -> _ IH]; intros [|c z]; try reflexivity.
      cbn [combine map]. rewrite rsum_cons, IH. cbn. ring. }
    destruct CX as (row & Hr & Nr).
    assert (Lb : b <> []).
    { intros ->. apply Nr. apply In_nth with (d := []) in Hr. destruct Hr as (n & Hn & En).
      assert (Hn' : (n < length w)%nat) by lia.
      assert (I : In (map (Cmult (RtoC (nth n w 0))) row) (wrows w X)).
      { unfold wrows. change (map (Cmult (RtoC (nth n w 0))) row) with
          ((fun p => map (Cmult (RtoC (fst p))) (snd p)) (nth n w 0, row)). apply in_map. rewrite <- En.
        rewrite <- combine_nth by lia. apply nth_In. rewrite combine_length. lia. }
      apply H1 in I. rewrite map_length in I. destruct row; [auto|discriminate]. }
    destruct b as [|b0 b]; [congruence|].
    assert (N : Cplus b0 (RtoC 1) :: b <> b0 :: b).
    { intros Q. assert (Q' : Cplus b0 (RtoC 1) = b0) by congruence. destruct b0 as [p q]. unfold Cplus, RtoC in Q'. cbn in Q'.
      assert (p + 1 = p) by congruence. lra. }
    assert (A := H3 (Cplus b0 (RtoC 1) :: b) eq_refl N). rewrite !weighted_norm, !ZZ in A. lra. }
  split; [exact Op|]. split; [exact Sp|]. split; [|apply weighted_norm].
  rewrite xsum_fin. cbn [xdiv]. destruct (Req_EM_T (rsum w) 0); [lra|]. f_equal. unfold mean_square. cbn [p_w p_b s].
  now rewrite weighted_norm.
Qed.

Lemma residual_misfits b : residual X y b = misfits X y b.
Proof. reflexivity. Qed.
Lemma misfits_len b : length (misfits X y b) = length y.
Proof. unfold misfits, csub, cmatvec. rewrite map_length, combine_length, map_length. lia. Qed.

(** next weights *)
Lemma next_len b : length (map wfn (r_normed (misfits X y b) rfac)) = length y.
Proof. unfold r_normed. rewrite !map_length, combine_length, map_length, misfits_len. lia. Qed.
Lemma next_formula b : reweighted phi t lev X y b (map wfn (r_normed (misfits X y b) rfac)).
Proof.
  intros Ht Hlev s Hs Sp. apply scale_spec in Hs. unfold r_normed. rewrite <- Hs. rewrite map_map.
  generalize (misfits X y b). clear -Ht Hlev Sp Wn Ph. induction Hlev as [|h lev Hh _ IH]; intros [|z zs]; try reflexivity.
  cbn [map combine fst snd]. f_equal; [|apply IH].
  rewrite <- (wf_phi _ _ _ Wn Ph).
  - f_equal. cbn [xsqrt]. destruct (Rlt_dec (1 - h) 0); [lra|]. unfold x1. cbn [xmul xdiv].
    assert (0 < sqrt (1 - h)) by (apply sqrt_lt_R0; lra).
    destruct (Req_EM_T (t * sqrt (1 - h)) 0) as [Z|Z]; [apply Rmult_integral in Z; lra|]. cbn [xmul xdiv]. destruct (Req_EM_T s 0); [lra|].
    cbn [xabs]. f_equal. assert (Ta := Rabs_pos_lt t Ht). assert (M := Cmod_ge_0 z).
    unfold Rdiv. rewrite !Rabs_mult, !Rabs_inv, !Rabs_mult, Rabs_R1.
    rewrite (Rabs_pos_eq (Cmod z)), (Rabs_pos_eq s), (Rabs_pos_eq (sqrt (1 - h))) by lra. field. repeat split; lra.
  - assert (0 < sqrt (1 - h)) by (apply sqrt_lt_R0; lra). apply Rmult_le_pos; [apply Cmod_ge_0|].
    left. apply Rinv_0_lt_compat. assert (Ta := Rabs_pos_lt t Ht). apply Rmult_lt_0_compat; auto. apply Rmult_lt_0_compat; auto.
Qed.
Lemma nonneg_norm z : Forall nonneg (r_normed z rfac).
Proof.
  unfold r_normed. apply Forall_forall. intros x Hx. apply in_map_iff in Hx. destruct Hx as (p & <- & _).
  destruct (xdiv _ _); cbn; auto. apply Rabs_pos.
Qed.
Lemma next_range z w : map wfn (r_normed z rfac) = map Fin w -> Forall (fun a => 0 <= a <= 1) w.
Proof.
  assert (N := nonneg_norm z). revert w. induction N as [|x l Hx _ IH]; intros [|a w] H; try discriminate; constructor.
  - cbn in H. assert (wfn x = Fin a) by congruence. eapply wf_range; eauto.
  - apply IH. cbn in H. congruence.
Qed.

(** ** the loop *)
(** what the loop knows about the passes made so far (in order) and the current weights *)
Definition good (s : pass) : Prop :=
  optimal X y (p_w s) (p_b s) /\ length (p_w s) = length y /\ Forall (fun w => 0 <= w <= 1) (p_w s) /\ 0 < rsum (p_w s).
Definition weights_after (h : list pass) (w : list xr) : Prop :=
  match rev h with
  | [] => w = map (fun _ => Fin 1) y
  | s :: _ => w = map wfn (r_normed (misfits X y (p_b s)) rfac)
  end.
Definition known (h : list pass) (old : option iter) : Prop :=
  match rev h, old with
  | [], None => True
  | s :: _, Some o => ls_b (it_ls o) = p_b s /\ it_w o = map Fin (p_w s) /\ it_meansq o = Fin (mean_square X y s) /\
      it_resid o = misfits X y (p_b s)
  | _, _ => False
  end.
Definition made (h : list pass) : Prop :=
  (forall s r, h = s :: r -> p_w s = map (fun _ => 1) y /\
     exists ls, wsolve L X y rcond (map Fin (p_w s)) = Ok ls /\ ls_b ls = p_b s) /\ Forall good h /\
  consecutive (fun s s' => map Fin (p_w s') = map wfn (r_normed (misfits X y (p_b s)) rfac)) h.
Definition moving (h : list pass) : Prop := consecutive (progress X y tol) h.

Inductive result (fuel : nat) (h : list pass) : lsres * list xr * list C * nat * stop -> Prop :=
| r_worse a s s' ls : (length (a ++ [s; s']) <= length h + fuel)%nat -> made (a ++ [s; s']) -> moving (a ++ [s]) ->
    mean_square X y s < mean_square X y s' -> ls_b ls = p_b s ->
    result fuel h (ls, map Fin (p_w s), misfits X y (p_b s), length (a ++ [s]), Worse)
| r_conv a s s' ls : (length (a ++ [s; s']) <= length h + fuel)%nat -> made (a ++ [s; s']) -> moving (a ++ [s]) ->
    mean_square X y s' <= mean_square X y s -> mean_square X y s - mean_square X y s' < tol * mean_square X y s ->
    ls_b ls = p_b s' ->
    result fuel h (ls, map Fin (p_w s'), misfits X y (p_b s), length (a ++ [s; s']), Converged)
| r_exh a s ls : length (a ++ [s]) = (length h + fuel)%nat -> made (a ++ [s]) -> moving (a ++ [s]) -> ls_b ls = p_b s ->
    result fuel h (ls, map wfn (r_normed (misfits X y (p_b s)) rfac), misfits X y (p_b s), O, Exhausted).

Lemma consecutive_snoc {A} (Q : A -> A -> Prop) h x s : consecutive Q (h ++ [s]) -> Q s x -> consecutive Q (h ++ [s; x]).
Proof.
  intros H HQ a u v b E. destruct b as [|z b _] using rev_ind.
  - change (h ++ [s; x])%list with (h ++ [s] ++ [x])%list in E. rewrite app_assoc in E.
    change (a ++ [u; v])%list with (a ++ [u] ++ [v])%list in E. rewrite app_assoc in E.
    apply app_inj_tail in E. destruct E as [E ->]. apply app_inj_tail in E. destruct E as [_ ->]. exact HQ.
  - change (h ++ [s; x])%list with (h ++ [s] ++ [x])%list in E. rewrite app_assoc in E.
    change (a ++ u :: v :: b ++ [z])%list with (a ++ (u :: v :: b) ++ [z])%list in E. rewrite app_assoc in E.
    apply app_inj_tail in E. destruct E as [E _]. eapply H. exact E.
Qed.
Lemma consecutive_one {A} (Q : A -> A -> Prop) s : consecutive Q [s].
Proof. intros a u v b E. destruct a as [|x [|z a]]; discriminate. Qed.
Lemma known_none h : known h None -> h = [].
Proof. unfold known. destruct (rev h) as [|s l] eqn:E; [|tauto]. intros _. rewrite <- (rev_involutive h), E. reflexivity. Qed.
Lemma known_some h o : known h (Some o) -> exists a s, h = (a ++ [s])%list /\ ls_b (it_ls o) = p_b s /\ it_w o = map Fin (p_w s) /\
  it_meansq o = Fin (mean_square X y s) /\ it_resid o = misfits X y (p_b s).
Proof.
  unfold known. destruct (rev h) as [|s l] eqn:E; [tauto|]. intros H. exists (rev l), s. split; [|exact H].
  rewrite <- (rev_involutive h), E. reflexivity.
Qed.
Lemma known_last a s o : ls_b (it_ls o) = p_b s -> it_w o = map Fin (p_w s) ->
  it_meansq o = Fin (mean_square X y s) -> it_resid o = misfits X y (p_b s) -> known (a ++ [s]) (Some o).
Proof. intros. unfold known. rewrite rev_app_distr. cbn. auto. Qed.
Lemma after_last a s : weights_after (a ++ [s]) (map wfn (r_normed (misfits X y (p_b s)) rfac)).
Proof. unfold weights_after. rewrite rev_app_distr. reflexivity. Qed.

Lemma weighted_nonneg w z : 0 <= weighted_ss w z.
Proof.
  unfold weighted_ss. revert z. induction w as [|a w IH]; intros [|c z]; try (unfold rsum; cbn; lra).
  cbn [combine map]. rewrite rsum_cons. assert (A := IH z). cbn [fst snd]. assert (0 <= a ^ 2) by apply pow2_ge_0.
  assert (0 <= fst c ^ 2) by apply pow2_ge_0. assert (0 <= snd c ^ 2) by apply pow2_ge_0. nra.
Qed.
Lemma ms_nonneg s : good s -> 0 <= mean_square X y s.
Proof.
  intros (_ & _ & _ & H). unfold mean_square. apply Rmult_le_pos; [apply weighted_nonneg|]. left. now apply Rinv_0_lt_compat.
Qed.

Lemma loop_result fuel : forall h w old out, made h -> moving h -> known h old -> weights_after h w ->
  rf_loop L X y rcond tol wf rfac fuel (length h) w old = Ok out -> result fuel h out.
Proof.
  induction fuel as [|fuel IH]; intros h w old out M V K W H; cbn [rf_loop] in H.
  - destruct old as [o|]; [|discriminate]. injection H as <-. destruct (known_some _ _ K) as (a & s & -> & K1 & K2 & K3 & K4).
    rewrite K4. unfold weights_after in W. rewrite rev_app_distr in W. cbn [rev app] in W. rewrite W. apply (r_exh 0 (a ++ [s]) a s); auto; lia.
  - destruct (wsolve L X y rcond w) as [ls|e] eqn:E; [|cbn [bind] in H; discriminate H]. cbn [bind] in H.
    assert (exists v, w = map Fin v) as [v ->].
    { unfold wsolve in E. destruct (all_finite w) as [v|] eqn:F; [|discriminate]. apply all_finite_spec in F. eauto. }
    assert (Hv : length v = length y /\ Forall (fun a => 0 <= a <= 1) v /\
      (h = [] -> v = map (fun _ => 1) y) /\
      forall a s, h = (a ++ [s])%list -> map Fin v = map wfn (r_normed (misfits X y (p_b s)) rfac)).
    { destruct h as [|s a _] using rev_ind.
      - cbn in W. assert (Ev : v = map (fun _ => 1) y).
        { clear -W. revert v W. induction y as [|c l IH]; intros [|a v] W; try discriminate; auto. cbn in *. f_equal; [congruence|]. apply IH. congruence. }
        subst v. rewrite map_length. repeat split; auto.
        + apply Forall_forall. intros a Ha. apply in_map_iff in Ha. destruct Ha as (_ & <- & _). lra.
        + intros a s Q. destruct a; discriminate.
      - unfold weights_after in W. rewrite rev_app_distr in W. cbn [rev app] in W. split; [|split; [|split]].
        + rewrite <- (next_len (p_b s)), <- W, map_length. reflexivity.
        + eapply next_range. symmetry. exact W.
        + intros Q. destruct a; discriminate.
        + intros a' s' Q. apply app_inj_tail in Q. destruct Q as [_ <-]. exact W. }
    destruct Hv as (Hl & Hr & Hf & Hc).
    destruct (wsolve_pass _ _ E Hl Hr) as (Op & Sp & Ms & Rs).
    set (s' := {| p_w := v; p_b := ls_b ls |}) in *.
    assert (G : good s') by (repeat split; auto; now apply Hr || idtac).
    assert (Mn : made (h ++ [s'])).
    { destruct M as (M1 & M2 & M3). split; [|split].
      - intros s r Q. destruct h as [|s0 h]; cbn in Q; injection Q as <- _; [split; [now apply Hf|]; exists ls; auto|]. eapply M1. reflexivity.
      - apply Forall_app. split; auto.
      - destruct h as [|s a _] using rev_ind; [apply consecutive_one|]. rewrite <- app_assoc. apply consecutive_snoc; auto.
        apply (Hc a s eq_refl). }
    rewrite Ms in H.
    assert (Cont : moving (h ++ [s']) ->
      rf_loop L X y rcond tol wf rfac fuel (S (length h)) (map wfn (r_normed (residual X y (ls_b ls)) rfac))
        (Some {| it_ls := ls; it_w := map Fin v; it_meansq := Fin (mean_square X y s'); it_resid := residual X y (ls_b ls) |}) = Ok out ->
      result (S fuel) h out).
    { intros V' R.
      assert (LS : length (h ++ [s']) = S (length h)) by (rewrite app_length; cbn; lia). rewrite <- LS in R.
      eapply IH in R; [|exact Mn|exact V'|now apply known_last|apply after_last].
      inversion R as [a s s'' ls' A1 A2 A3 A4 A5|a s s'' ls' A1 A2 A3 A4 A5 A6|a s ls' A1 A2 A3 A4]; subst; rewrite LS in *.
      - apply (r_worse (S fuel) h a s s''); auto; lia.
      - apply (r_conv (S fuel) h a s s''); auto; lia.
      - apply (r_exh (S fuel) h a s); auto; lia. }
    destruct old as [o|].
    + destruct (known_some _ _ K) as (a & s & -> & K1 & K2 & K3 & K4).
      assert (Gs : good s) by (destruct M as (_ & M2 & _); apply Forall_app in M2; destruct M2 as [_ M2]; now inversion M2).
      assert (P1 := ms_nonneg _ Gs). assert (P2 := ms_nonneg _ G).
      rewrite K3 in H. cbn [xsub xneg xadd] in H.
      assert (Sh : ((a ++ [s]) ++ [s'] = a ++ [s; s'])%list) by now rewrite <- app_assoc.
      set (o1 := mean_square X y s) in *. set (o2 := mean_square X y s') in *.
      assert (Im : exists im, xdiv (Fin (o1 + - o2)) (Fin o1) = im /\
         (xlt im (Fin 0) = true <-> o1 < o2) /\
         (xlt im (Fin 0) = false -> xlt im (Fin tol) = true -> o1 - o2 < tol * o1) /\
         (xlt im (Fin 0) = false -> xlt im (Fin tol) = false -> o2 <= o1 /\ tol * o1 <= o1 - o2)).
      { eexists. split; [reflexivity|]. cbn [xdiv]. destruct (Req_EM_T o1 0) as [Z|Z].
        - unfold sgn_inf. destruct (Rlt_dec 0 (o1 + - o2)); [exfalso; lra|]. destruct (Rlt_dec (o1 + - o2) 0).
          + cbn. split; [split; auto; intros; lra|]. split; discriminate.
          + cbn. split; [split; [discriminate|intros; lra]|]. split; [discriminate|]. intros _ _. rewrite Z. lra.
        - assert (0 < o1) by lra. unfold xlt. cbn [xge negb].
          assert (Q : (o1 + - o2) / o1 * o1 = o1 - o2) by (field; lra). set (q := (o1 + - o2) / o1) in *. clearbody q.
          destruct (Rle_dec 0 q), (Rle_dec tol q); cbn [negb].
          all: split; [split; [intros ?; try discriminate; nra|intros ?; try reflexivity; nra]|]; split; intros ? ?; try discriminate; try nra.
          all: split; nra. }
      destruct Im as (im & Eim & I1 & I2 & I3). rewrite Eim in H.
      destruct (xlt im (Fin 0)) eqn:X1.
      * injection H as <-. rewrite K2, K4. eapply r_worse with (s' := s').
        -- rewrite !app_length. cbn. lia.
        -- rewrite <- Sh. exact Mn.
        -- exact V.
        -- now apply I1.
        -- exact K1.
      * assert (Lo : o2 <= o1). { destruct (Rle_dec o2 o1); auto. assert (o1 < o2) by lra. apply I1 in H0. congruence. }
        destruct (xlt im (Fin tol)) eqn:X2.
        -- injection H as <-. rewrite K4. replace (S (length (a ++ [s]))) with (length (a ++ [s; s'])%list) by (rewrite !app_length; cbn; lia).
           apply (r_conv (S fuel) (a ++ [s]) a s s'); auto.
           ++ rewrite !app_length. cbn. lia.
           ++ rewrite <- Sh. exact Mn.
        -- apply Cont; auto. rewrite Sh. apply consecutive_snoc; auto. unfold progress. fold o1 o2. auto.
    + assert (h = []) by now apply known_none. subst h. apply Cont; auto. apply consecutive_one.
Qed.
End Loop.

(** ** the whole fit *)
Lemma rms_spec X y b : length X = length y -> rms (misfits X y b) = rms_of X y b.
Proof.
  intros H. unfold rms, rms_of, norm2. f_equal. f_equal.
  - f_equal. apply map_ext. intros z. rewrite Cmod_sq. ring.
  - f_equal. unfold misfits, csub, cmatvec. rewrite map_length, combine_length, map_length. lia.
Qed.
Lemma leverage_len L X lev : leverage L X = Ok lev -> length lev = length X.
Proof.
  unfold leverage. destruct (l_pinv L X) as [P|]; [|discriminate]. cbn [bind]. intros H. injection H as <-.
  rewrite map_length. unfold enumerate. rewrite combine_length, seq_length. lia.
Qed.
Lemma tuning_spec name tune t phi : weight_formula name = Some phi ->
  match tune with Some x => Ok x | None => match dget tune_defaults name with Some x => Ok x | None => Err KeyError end end = Ok t ->
  tuning name tune t.
Proof.
  intros W. unfold tuning. destruct tune as [x|]; [intros H; now injection H|].
  unfold tune_defaults, default_tuning. revert W. unfold weight_formula. cbn [dget fst snd].
  byname name; intros W H; try discriminate; injection H as <-; f_equal; lra.
Qed.
Lemma consec_imp {A} (Q Q' : A -> A -> Prop) h : (forall a b, Q a b -> Q' a b) -> consecutive Q h -> consecutive Q' h.
Proof. intros I H a x y b E. apply I. eapply H. exact E. Qed.

Lemma robust_history L X y name tune rcond tol maxit r :
  robustfit L X y name tune rcond tol maxit = Ok r -> lstsq_contract L rcond ->
  length X = length y -> (exists row, In row X /\ row <> []) ->
  exists phi t h, weight_formula name = Some phi /\ tuning name tune t /\
    passes phi t (rf_leverage r) X y h /\ (length h <= maxit)%nat /\
    ended phi t (rf_leverage r) X y tol maxit h (rf_b r) (rf_w r) (rf_rms_resid r) (rf_iterations r) /\
    (forall s l, h = s :: l -> rf_ols_b r = p_b s /\ rf_ols_rms_resid r = rms_of X y (p_b s)).
Proof.
  intros H LC LX CX. unfold robustfit in H.
  destruct (match tune with Some _ => _ | None => _ end) as [t|] eqn:ET; [|discriminate]. cbn [bind] in H.
  destruct (wfunc name) as [wf|] eqn:EW; [|discriminate]. cbn [bind] in H.
  destruct (leverage L X) as [lev|] eqn:EL; [|discriminate]. cbn [bind] in H.
  assert (LL := leverage_len _ _ _ EL). rewrite LX in LL.
  destruct (match maxit with O => _ | _ => _ end) as [first|] eqn:EF; [|discriminate]. cbn [bind] in H.
  match type of H with context [rf_loop L X y rcond tol wf ?rf maxit 0 ?w None] => set (rfac := rf) in *; set (w0 := w) in * end.
  destruct (rf_loop L X y rcond tol wf rfac maxit 0 w0 None) as [out|] eqn:ER; [|discriminate]. cbn [bind] in H.
  destruct maxit as [|maxit']; [discriminate|]. set (maxit := S maxit') in *.
  destruct (wfunc_spec _ _ EW) as [[_ Hw]|(w & phi & Hn & Hp & Hf)].
  { exfalso. unfold maxit in ER. cbn [rf_loop] in ER. rewrite EF in ER. cbn [bind] in ER. rewrite Hw in ER. cbn [bind] in ER. discriminate. }
  assert (ER' : rf_loop L X y rcond tol (fun r => Ok (map w r)) rfac maxit 0 w0 None = Ok out).
  { rewrite <- ER. clear -Hf. generalize 0%nat w0 (@None iter). induction maxit as [|n IH]; intros i v o; [reflexivity|]. cbn [rf_loop].
    destruct (wsolve L X y rcond v) as [ls|]; [|reflexivity]. cbn [bind]. rewrite Hf. cbn [bind]. rewrite IH. reflexivity. }
  assert (RS : result L X y rcond tol t lev w maxit [] out).
  { eapply (loop_result L X y rcond tol name t lev w LC LX CX Hn LL maxit [] w0 None).
    - split; [intros s l E; discriminate|]. split; [constructor|]. intros a x z b E. destruct a; discriminate.
    - intros a x z b E. destruct a; discriminate.
    - exact I.
    - reflexivity.
    - exact ER'. }
  exists phi, t.
  assert (T := tuning_spec _ _ _ _ Hp ET).
  assert (NF : forall b, reweighted phi t lev X y b (map w (r_normed (misfits X y b) rfac))) by (intros; eapply next_formula; eauto).
  assert (PS : forall h, h <> [] -> made L X y rcond t lev w h -> passes phi t lev X y h).
  { intros h N (M1 & M2 & M3). constructor.
    - destruct h as [|s l]; [congruence|]. exists s, l. split; auto. eapply M1. reflexivity.
    - eapply Forall_impl; [|exact M2]. intros s G. apply G.
    - eapply Forall_impl; [|exact M2]. intros s (_ & G). exact G.
    - eapply consec_imp; [|exact M3]. intros s s' E. cbn beta in E. rewrite E. apply NF. }
  assert (FS : forall h s l, made L X y rcond t lev w h -> h = s :: l ->
    ls_b first = p_b s /\ sqrt (ls_rsumsq first / INR (length X)) = rms_of X y (p_b s)).
  { intros h s l (M1 & _) E. destruct (M1 s l E) as [E1 (ls & E2 & E3)].
    assert (E0 : w0 = map Fin (p_w s)) by (rewrite E1, map_map; reflexivity).
    unfold maxit in EF. rewrite <- E0, EF in E2. injection E2 as <-. split; [exact E3|].
    assert (EF' := EF). rewrite E0 in EF'.
    destruct (wsolve_pass L X y rcond lev LC LX CX LL _ _ EF') as (_ & _ & _ & R4).
    - rewrite E1, map_length. reflexivity.
    - rewrite E1. apply Forall_forall. intros a Ha. apply in_map_iff in Ha. destruct Ha as (_ & <- & _). lra.
    - rewrite R4, E3, E1, LX. unfold rms_of. f_equal. f_equal. unfold weighted_ss, norm2.
      assert (Lm : length (misfits X y (p_b s)) = length y) by (unfold misfits, csub, cmatvec; rewrite map_length, combine_length, map_length; lia).
      revert Lm. generalize (misfits X y (p_b s)). clear. induction y as [|c y IH]; intros [|z zs] Hl; try discriminate; [reflexivity|].
      cbn [map combine]. rewrite !rsum_cons, IH by (cbn in Hl; lia). cbn [fst snd]. ring. }
  assert (NE : forall (a : list pass) s, (a ++ [s])%list <> []) by (intros [|? ?] ?; discriminate).
  assert (NE2 : forall (a : list pass) s s', (a ++ [s; s'])%list <> []) by (intros [|? ?] ? ?; discriminate).
  inversion RS as [a s s' ls A1 A2 A3 A4 A5 A6|a s s' ls A1 A2 A3 A4 A5 A6 A7|a s ls A1 A2 A3 A4 A5]; subst out;
    injection H as <-; cbn [rf_leverage rf_b rf_w rf_rms_resid rf_iterations rf_ols_b rf_ols_rms_resid length] in *.
  - exists (a ++ [s; s'])%list. split; [exact Hp|]. split; [exact T|]. split; [apply PS; auto|]. split; [exact A1|]. split.
    + eapply deteriorated with (a := a) (s := s) (s' := s'); auto.
      * rewrite A5. now apply rms_spec.
      * rewrite !app_length. cbn [length]. destruct (Nat.eqb_spec (length a + 1) 0); lia.
    + intros s0 l E. eapply FS; eauto.
  - exists (a ++ [s; s'])%list. split; [exact Hp|]. split; [exact T|]. split; [apply PS; auto|]. split; [exact A1|]. split.
    + eapply converged with (a := a) (s := s) (s' := s'); auto.
      * now apply rms_spec.
      * rewrite !app_length. cbn [length]. destruct (Nat.eqb_spec (length a + 2) 0); lia.
    + intros s0 l E. eapply FS; eauto.
  - exists (a ++ [s])%list. split; [exact Hp|]. split; [exact T|]. split; [apply PS; auto|]. split; [lia|]. split.
    + eapply exhausted with (a := a) (s := s); auto.
      * rewrite A4. apply NF.
      * rewrite A4. now apply rms_spec.
    + intros s0 l E. eapply FS; eauto.
Qed.

(** ** consequences *)
Lemma consecutive_tail {A} (Q : A -> A -> Prop) x h : consecutive Q (x :: h) -> consecutive Q h.
Proof. intros H a u v b E. apply (H (x :: a) u v b). cbn. now rewrite E. Qed.
Lemma descending X y tol a s : consecutive (progress X y tol) (a ++ [s])%list ->
  forall u, In u (a ++ [s])%list -> mean_square X y s <= mean_square X y u.
Proof.
  induction a as [|x a IH]; intros H u Hu; cbn in Hu.
  - destruct Hu as [<-|[]]. lra.
  - assert (T := IH (consecutive_tail _ _ _ H)). destruct Hu as [<-|Hu]; [|auto].
    destruct a as [|z a].
    + assert (P : progress X y tol x s) by (apply (H [] x s []); reflexivity). apply P.
    + assert (P : progress X y tol x z) by (apply (H [] x z (a ++ [s])%list); reflexivity).
      apply Rle_trans with (mean_square X y z); [apply T; now left|apply P].
Qed.

Lemma robust_smallest L X y name tune rcond tol maxit r :
  robustfit L X y name tune rcond tol maxit = Ok r -> lstsq_contract L rcond ->
  length X = length y -> (exists row, In row X /\ row <> []) ->
  exists h, (length h <= maxit)%nat /\ Forall (fun s => optimal X y (p_w s) (p_b s)) h /\
    exists s, In s h /\ rf_b r = p_b s /\ forall u, In u h -> mean_square X y s <= mean_square X y u.
Proof.
  intros H LC LX CX. destruct (robust_history _ _ _ _ _ _ _ _ _ H LC LX CX) as (phi & t & h & _ & _ & PS & Lh & E & _).
  exists h. split; [exact Lh|]. split; [apply PS|].
  destruct E as [a s s' -> V M Eb Ew Er En|a s s' -> V M M' Eb Ew Er En|a s -> V El En Eb Ew Er].
  - exists s. split; [apply in_or_app; right; now left|]. split; auto. intros u Hu.
    apply in_app_or in Hu. destruct Hu as [Hu|[<-|[<-|[]]]]; try lra. eapply descending; eauto. apply in_or_app. now left.
  - exists s'. split; [apply in_or_app; right; right; now left|]. split; auto. intros u Hu.
    apply in_app_or in Hu. destruct Hu as [Hu|[<-|[<-|[]]]]; try lra.
    apply Rle_trans with (mean_square X y s); auto. eapply descending; eauto. apply in_or_app. now left.
  - exists s. split; [apply in_or_app; right; now left|]. split; auto. intros u Hu. eapply descending; eauto.
Qed.

Lemma robust_weights_match L X y name tune rcond tol maxit r :
  robustfit L X y name tune rcond tol maxit = Ok r -> lstsq_contract L rcond ->
  length X = length y -> (exists row, In row X /\ row <> []) ->
  (exists w, rf_w r = map Fin w /\ length w = length y /\ Forall (fun a => 0 <= a <= 1) w /\ optimal X y w (rf_b r)) \/
  (rf_iterations r = maxit /\
   exists phi t, weight_formula name = Some phi /\ tuning name tune t /\
     reweighted phi t (rf_leverage r) X y (rf_b r) (rf_w r)).
Proof.
  intros H LC LX CX. destruct (robust_history _ _ _ _ _ _ _ _ _ H LC LX CX) as (phi & t & h & Hp & Ht & PS & Lh & E & _).
  destruct PS as [_ Hb Hw _]. rewrite Forall_forall in Hb, Hw.
  destruct E as [a s s' -> V M Eb Ew Er En|a s s' -> V M M' Eb Ew Er En|a s -> V El En Eb Ew Er].
  - left. assert (I : In s (a ++ [s; s'])%list) by (apply in_or_app; right; now left).
    exists (p_w s). rewrite Eb. repeat split; auto; now apply (Hw s I).
  - left. assert (I : In s' (a ++ [s; s'])%list) by (apply in_or_app; right; right; now left).
    exists (p_w s'). rewrite Eb. repeat split; auto; now apply (Hw s' I).
  - right. split; auto. exists phi, t. auto.
Qed.

Lemma robust_rms L X y name tune rcond tol maxit r :
  robustfit L X y name tune rcond tol maxit = Ok r -> lstsq_contract L rcond ->
  length X = length y -> (exists row, In row X /\ row <> []) ->
  rf_rms_resid r = rms_of X y (rf_b r) \/
  exists s s', optimal X y (p_w s) (p_b s) /\ optimal X y (p_w s') (p_b s') /\
    rf_b r = p_b s' /\ rf_w r = map Fin (p_w s') /\ rf_rms_resid r = rms_of X y (p_b s) /\
    mean_square X y s' <= mean_square X y s /\ mean_square X y s - mean_square X y s' < tol * mean_square X y s.
Proof.
  intros H LC LX CX. destruct (robust_history _ _ _ _ _ _ _ _ _ H LC LX CX) as (phi & t & h & Hp & Ht & PS & Lh & E & _).
  destruct PS as [_ Hb Hw _]. rewrite Forall_forall in Hb, Hw.
  destruct E as [a s s' -> V M Eb Ew Er En|a s s' -> V M M' Eb Ew Er En|a s -> V El En Eb Ew Er]; auto.
  right. exists s, s'. repeat split; auto.
  - apply Hb. apply in_or_app. right. now left.
  - apply Hb. apply in_or_app. right. right. now left.
Qed.

Lemma robust_no_pass L X y name tune rcond tol r : robustfit L X y name tune rcond tol 0 <> Ok r.
Proof.
  unfold robustfit. destruct (match tune with Some _ => _ | None => _ end); [|discriminate]. cbn [bind].
  destruct (wfunc name); [|discriminate]. cbn [bind]. destruct (leverage L X); discriminate.
Qed.
Lemma robust_unusable L X y name tune rcond tol maxit r : In name ["andrews"; "huber"; "logistic"] ->
  robustfit L X y name tune rcond tol maxit <> Ok r.
Proof.
  intros Hn H. assert (exists f, wfunc name = Ok f /\ forall r, f r = Err ValueError) as (f & Ef & Hf).
  { destruct Hn as [<-|[<-|[<-|[]]]]; eexists; split; reflexivity. }
  unfold robustfit in H. destruct (match tune with Some _ => _ | None => _ end) as [t|]; [|discriminate]. cbn [bind] in H.
  rewrite Ef in H. cbn [bind] in H. destruct (leverage L X) as [lev|]; [|discriminate]. cbn [bind] in H.
  destruct maxit as [|n]; [discriminate|]. cbn [rf_loop] in H.
  destruct (wsolve L X y rcond _) as [ls|]; [|discriminate]. cbn [bind] in H. rewrite Hf in H. discriminate.
Qed.
Lemma robust_unusable_error L X y name tune rcond tol maxit lev ls : In name ["andrews"; "huber"; "logistic"] ->
  leverage L X = Ok lev -> wsolve L X y rcond (map (fun _ => x1) y) = Ok ls ->
  robustfit L X y name tune rcond tol (S maxit) = Err ValueError.
Proof.
  intros Hn El Es. assert (exists f, wfunc name = Ok f /\ forall r, f r = Err ValueError) as (f & Ef & Hf).
  { destruct Hn as [<-|[<-|[<-|[]]]]; eexists; split; reflexivity. }
  assert (exists t, match tune with Some x => Ok x | None => match dget tune_defaults name with Some x => Ok x | None => Err KeyError end end = Ok t) as [t Et].
  { destruct tune; [eauto|]. destruct Hn as [<-|[<-|[<-|[]]]]; eexists; reflexivity. }
  unfold robustfit. rewrite Et. cbn [bind]. rewrite Ef. cbn [bind]. rewrite El. cbn [bind rf_loop]. rewrite Es. cbn [bind]. now rewrite Hf.
Qed.
Lemma robust_unknown_name L X y name tune rcond tol maxit r : robustfit L X y name tune rcond tol maxit = Ok r ->
  In name ["bisquare"; "cauchy"; "fair"; "ols"; "talwar"; "welsch"].
Proof.
  intros H. assert (N : ~ In name ["andrews"; "huber"; "logistic"]) by (intros Q; now apply (robust_unusable _ _ _ _ _ _ _ _ _ Q H)).
  unfold robustfit in H. destruct (match tune with Some _ => _ | None => _ end) as [t|]; [|discriminate]. cbn [bind] in H.
  destruct (wfunc name) as [f|] eqn:E; [|discriminate]. destruct (wfunc_spec _ _ E) as [[Q _]|(w & phi & Hw & _)]; [tauto|].
  revert Hw. unfold wf_of. byname name; intros Hw; try discriminate; cbn; tauto.
Qed.

(** ** data already fitted exactly *)
Lemma zero_scale n : n <> O -> sigma_hat (repeat (RtoC 0) n) = 0.
Proof.
  intros N. symmetry. apply scale_spec. exists (RtoC 0), 0. split; [|split].
  - exists (repeat (RtoC 0) n). split; [reflexivity|]. split.
    + clear N. induction n; cbn; constructor; auto. apply Forall_forall. intros x Hx. apply repeat_spec in Hx. subst. right. cbn. lra.
    + rewrite !nth_repeat. apply injective_projections; cbn; ring.
  - exists (repeat 0 n). split; [|split].
    + replace (map _ _) with (repeat 0 n); [reflexivity|]. clear N. induction n; cbn; [reflexivity|]. f_equal; auto.
      rewrite <- Cmod_0 at 1. f_equal. apply injective_projections; cbn; ring.
    + clear N. induction n; cbn; constructor; auto. apply Forall_forall. intros x Hx. apply repeat_spec in Hx. subst. lra.
    + rewrite !nth_repeat. lra.
  - lra.
Qed.
Lemma robust_exact_data L X y name tune rcond tol maxit lev t ls :
  In name ["bisquare"; "cauchy"; "fair"; "welsch"] -> tuning name tune t -> y <> [] -> length X = length y ->
  leverage L X = Ok lev -> wsolve L X y rcond (map (fun _ => x1) y) = Ok ls -> cmatvec X (ls_b ls) = y ->
  robustfit L X y name tune rcond tol (S (S maxit)) = Err LinAlgError.
Proof.
  intros Hn Ht Hy LX El Es Ex.
  assert (exists w phi, wfunc name = Ok (fun r => Ok (map w r)) /\ wf_of name = Some w /\ weight_formula name = Some phi /\ w NaN = NaN) as (w & phi & Ef & _ & Hp & Wn).
  { destruct Hn as [<-|[<-|[<-|[<-|[]]]]]; do 2 eexists; repeat split. }
  assert (Et : match tune with Some x => Ok x | None => match dget tune_defaults name with Some x => Ok x | None => Err KeyError end end = Ok t).
  { unfold tuning in Ht. destruct tune; [now subst|]. revert Ht.
    destruct Hn as [<-|[<-|[<-|[<-|[]]]]]; cbn; intros Ht; injection Ht as <-; f_equal; lra. }
  unfold robustfit. rewrite Et. cbn [bind]. rewrite Ef. cbn [bind]. rewrite El. cbn [bind rf_loop]. rewrite Es. cbn [bind].
  assert (LL := leverage_len _ _ _ El).
  assert (Rz : residual X y (ls_b ls) = repeat (RtoC 0) (length y)).
  { unfold residual. rewrite Ex. clear. induction y as [|c l IH]; [reflexivity|]. cbn [combine map repeat length fst snd]. f_equal; [|exact IH].
    apply injective_projections; cbn; ring. }
  rewrite Rz. unfold r_normed. rewrite zero_scale by (destruct y; [congruence|discriminate]).
  destruct y as [|c y']; [congruence|]. destruct lev as [|h lev]; [cbn in *; lia|]. cbn [length repeat map combine fst snd].
  assert (Wz : forall rf, w (xabs (xdiv (xmul rf (Fin (Cmod (RtoC 0)))) (Fin 0))) = NaN).
  { intros rf. replace (xdiv (xmul rf (Fin (Cmod (RtoC 0)))) (Fin 0)) with NaN; [exact Wn|]. rewrite Cmod_0.
    destruct rf as [a| | |]; cbn [xmul xdiv]; unfold sgn_inf; rewrite ?Ropp_0; try (destruct (Rlt_dec 0 0); [lra|]; destruct (Rlt_dec 0 0); [lra|]; reflexivity); try reflexivity.
    destruct (Req_EM_T 0 0); [|lra]. rewrite Rmult_0_r. destruct (Rlt_dec 0 0); [lra|]. destruct (Rlt_dec 0 0); [lra|]. reflexivity. }
  rewrite Wz. unfold wsolve at 1. unfold all_finite. cbn [map finite all_some]. reflexivity.
Qed.

(** ** leverage *)
Lemma csum_pair (f : nat -> C) l : csum (map f l) = (rsum (map (fun k => fst (f k)) l), rsum (map (fun k => snd (f k)) l)).
Proof. induction l as [|a l IH]; [reflexivity|]. cbn [map]. rewrite !rsum_cons. change (csum (f a :: map f l)) with (Cplus (f a) (csum (map f l))). rewrite IH. reflexivity. Qed.
Lemma rsum_ge_one (f : nat -> R) l i : In i l -> (forall k, 0 <= f k) -> f i <= rsum (map f l).
Proof.
  intros Hi Hf. induction l as [|a l IH]; [destruct Hi|]. cbn [map]. rewrite rsum_cons.
  assert (N : 0 <= rsum (map f l)) by (clear -Hf; induction l as [|a l IH]; [unfold rsum; cbn; lra|cbn [map]; rewrite rsum_cons; assert (A := Hf a); lra]).
  destruct Hi as [<-|Hi]; [lra|]. assert (A := Hf a). specialize (IH Hi). lra.
Qed.
Lemma projection_diag H n i : projection H n -> (i < n)%nat -> 0 <= Cmod (entry_at H i i) <= 1.
Proof.
  intros P Hi. split; [apply Cmod_ge_0|]. destruct (P i i Hi Hi) as [_ E].
  rewrite csum_pair in E. set (e := entry_at H i i) in *.
  assert (Re : forall k, (k < n)%nat -> Cmult (entry_at H i k) (entry_at H k i) = RtoC (fst (entry_at H i k) ^ 2 + snd (entry_at H i k) ^ 2)).
  { intros k Hk. destruct (P i k Hi Hk) as [Q _]. rewrite Q. destruct (entry_at H k i) as [a b]. apply injective_projections; cbn; ring. }
  assert (Im : snd e = 0).
  { destruct (P i i Hi Hi) as [Q _]. fold e in Q. destruct e as [a b]. unfold Cconj in Q. cbn in *. assert (b = - b) by congruence. lra. }
  assert (F : fst e = rsum (map (fun k => fst (entry_at H i k) ^ 2 + snd (entry_at H i k) ^ 2) (seq 0 n))).
  { rewrite <- E. cbn [fst]. f_equal. apply map_ext_in. intros k Hk. apply in_seq in Hk. rewrite Re by lia. reflexivity. }
  assert (G : fst e ^ 2 <= fst e).
  { rewrite F at 2. eapply Rle_trans; [|apply (rsum_ge_one (fun k => fst (entry_at H i k) ^ 2 + snd (entry_at H i k) ^ 2) (seq 0 n) i)].
    - fold e. assert (0 <= snd e ^ 2) by apply pow2_ge_0. lra.
    - apply in_seq. lia.
    - intros k. assert (0 <= fst (entry_at H i k) ^ 2) by apply pow2_ge_0. assert (0 <= snd (entry_at H i k) ^ 2) by apply pow2_ge_0. lra. }
  replace e with (RtoC (fst e)) by (apply injective_projections; cbn; auto). rewrite Cmod_R. apply Rabs_le. nra.
Qed.
Lemma leverage_spec L X P lev : l_pinv L X = Ok P -> leverage L X = Ok lev ->
  length lev = length X /\ forall i, (i < length X)%nat -> nth i lev 0 = Cmod (entry_at (mat_mul X P) i i).
Proof.
  intros HP H. split; [eapply leverage_len; eauto|]. intros i Hi. unfold leverage in H. rewrite HP in H. cbn [bind] in H. injection H as <-.
  assert (NM : forall A B (f : A -> B) l d d' k, (k < length l)%nat -> nth k (map f l) d' = f (nth k l d)).
  { intros A B f l d d' k Hk. rewrite (nth_indep _ d' (f d)) by now rewrite map_length. apply map_nth. }
  unfold enumerate, entry_at, mat_mul.
  rewrite (NM _ _ _ _ (O, [])) by (rewrite combine_length, seq_length; lia).
  rewrite combine_nth by apply seq_length. cbn [fst snd]. rewrite seq_nth by exact Hi. cbn [Nat.add]. f_equal.
  rewrite (NM _ _ _ X []) by exact Hi. rewrite (NM _ _ _ _ O) by now rewrite seq_length.
  rewrite seq_nth by exact Hi. cbn [Nat.add]. set (row := nth i X []).
  unfold cdot, col. f_equal. clear. revert P. induction row as [|c r IH]; intros [|p P]; try reflexivity. cbn [map combine fst snd]. f_equal. apply IH.
Qed.
Lemma leverage_range L X P lev : l_pinv L X = Ok P -> projection (mat_mul X P) (length X) -> leverage L X = Ok lev ->
  Forall (fun h => 0 <= h <= 1) lev.
Proof.
  intros HP PJ H. destruct (leverage_spec _ _ _ _ HP H) as [L1 L2]. apply Forall_forall. intros h Hh.
  apply In_nth with (d := 0) in Hh. destruct Hh as (i & Hi & <-). rewrite L2 by lia. eapply projection_diag; eauto. lia.
Qed.
