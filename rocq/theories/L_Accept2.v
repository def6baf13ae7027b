(** Which calls of solve with linearised intervals give a result. *)
From Coq Require Import Lia Lra Permutation.
From Verif Require Import M_Base M_Bunch M_Lib M_Tables M_Const M_Options M_Time M_Slvinit M_Harmonics M_Select M_Ellipse
  M_Robust M_Period M_Conf M_Diag M_Solve M_Recon S_Dict S_Options S_Order S_Basis S_Select S_Fit S_Ellipse S_Slv S_Recon S_Model S_Errors S_Perm S_Period S_Noise S_Accept
  L_Base L_Options L_SolveInv L_OptSolve L_Slv L_Slv2 L_Tables L_Order L_Select L_Fit L_Align L_SelOrder L_Order2 L_Basis L_Harm L_Harm2 L_Harm3 L_Angle L_Ellipse L_Recon L_Recon2 L_Recon3 L_Recon4 L_Core
  L_Ellipse2 L_Model L_Lsq L_Model2 L_Model3 L_Model4 L_Model5 L_Model6 L_Model7 L_Model8 L_Model9 L_Model10 L_Model11 L_Gauss L_Errors L_Errors3 L_Errors5 L_Super L_Period L_Period3 L_Period4 L_Period5 L_Period9 L_Noise L_Noise2 L_Perm L_Example L_Accept.
Open Scope R_scope.
Open Scope string_scope.

(** ** regular matrices *)
Lemma rsum_cat a b : rsum (a ++ b) = rsum a + rsum b.
Proof. unfold rsum. induction a as [|x a IH]; cbn [app fold_right]; [lra|]. rewrite IH. lra. Qed.
Lemma sq_sum n (f : nat -> C) : Sm n (fun s => Cmult (Cconj (f s)) (f s)) = RtoC 0 -> forall s, (s < n)%nat -> f s = RtoC 0.
Proof.
  intros H. assert (E : forall k, fst (Sm k (fun s => Cmult (Cconj (f s)) (f s))) = nrm f (seq 0 k)).
  { induction k as [|k IH]; [reflexivity|]. rewrite Sm_S. unfold nrm in *. rewrite seq_S, map_app, rsum_cat, <- IH. cbn [map plus]. rewrite rsum_cons. unfold rsum. cbn. ring. }
  intros s Hs. apply (nrm_zero f (seq 0 n)); [|apply in_seq; lia]. rewrite <- E, H. reflexivity.
Qed.

Lemma row_dot G d n a : csquare n G -> length d = n -> (a < n)%nat -> (forall row, In row G -> cdot row d = RtoC 0) ->
  Sm n (fun b => Cmult (cent G a b) (nth b d (RtoC 0))) = RtoC 0.
Proof.
  intros [S1 S2] Hd Ha Z. assert (I : In (nth a G []) G) by (apply nth_In; lia).
  refine (eq_trans _ (Z _ I)). symmetry. apply cdot_Sm; [|exact Hd]. rewrite Forall_forall in S2. now apply S2.
Qed.

(** what the rows of the model matrix give for d *)
Lemma fit_vec (B : cmat) n d s : dims (length B) n B -> length d = n -> (s < length B)%nat ->
  cdot (nth s B []) d = Sm n (fun b => Cmult (bf B s b) (nth b d (RtoC 0))).
Proof. intros [_ D] Hd Hs. apply cdot_Sm; [|exact Hd]. apply D, nth_In. exact Hs. Qed.

Section Rank.
Variables (B : cmat) (n : nat).
Hypothesis D : dims (length B) n B.
Hypothesis IND : forall d, length d = n -> (forall row, In row B -> cdot row d = RtoC 0) -> forall z, In z d -> z = RtoC 0.

Lemma rank_end d (w : nat -> C) : length d = n ->
  Sm (length B) (fun s => Cmult (Cconj (cdot (nth s B []) d)) (cdot (nth s B []) d)) = RtoC 0 -> forall z, In z d -> z = RtoC 0.
Proof.
  intros Hd H. apply IND; [exact Hd|]. intros row Hr. apply In_nth with (d := []) in Hr. destruct Hr as (s & Hs & <-).
  exact (sq_sum _ (fun s => cdot (nth s B []) d) H s Hs).
Qed.

(** sum over a of w a times row a of the Gram matrix times d *)
Lemma gram_form {A} (B' : cmat) (o : list A) d w : length B' = length B -> length o = length B' -> length d = n ->
  (forall row, In row (gram B' B (map (fun _ => 1) o) n) -> cdot row d = RtoC 0) ->
  Sm (length B) (fun s => Cmult (Sm n (fun a => Cmult (w a) (bf B' s a))) (cdot (nth s B []) d)) = RtoC 0.
Proof.
  intros LB Lo Hd Z.
  transitivity (Sm n (fun a => Cmult (w a) (Sm n (fun b => Cmult (cent (gram B' B (map (fun _ => 1) o) n) a b) (nth b d (RtoC 0)))))).
  - transitivity (Sm n (fun a => Cmult (w a) (Sm (length B) (fun s => Cmult (bf B' s a) (cdot (nth s B []) d))))).
    + rewrite (Sm_ext _ _ (fun s => Sm n (fun a => Cmult (w a) (Cmult (bf B' s a) (cdot (nth s B []) d))))).
      2: { intros s _. rewrite <- Sm_r. apply Sm_ext. intros a _. ring. }
      rewrite Sm_swap. apply Sm_ext. intros a _. now rewrite Sm_l.
    + apply Sm_ext. intros a Ha. f_equal.
      rewrite (Sm_ext n (fun b => Cmult (cent _ a b) _) (fun b => Sm (length B) (fun s => Cmult (Cmult (bf B' s a) (bf B s b)) (nth b d (RtoC 0))))).
      2: { intros b Hb. rewrite gram_entry by (auto; congruence). rewrite <- Sm_r, LB. reflexivity. }
      rewrite <- Sm_swap. apply Sm_ext. intros s Hs. rewrite (fit_vec B n d s D Hd Hs), <- Sm_l. apply Sm_ext. intros b _. ring.
  - apply Sm_0. intros a Ha. rewrite (row_dot _ d n a (gram_square _ _ _ _) Hd Ha Z). ring.
Qed.

Lemma conj_rank {A} (o : list A) : length o = length B -> full_rank n (gram (cconj_mat B) B (map (fun _ => 1) o) n).
Proof.
  intros Lo d Hd Z. assert (LC : length (cconj_mat B) = length B) by (unfold cconj_mat; apply map_length).
  apply (rank_end d (fun _ => RtoC 0) Hd). rewrite <- (gram_form (cconj_mat B) o d (fun a => Cconj (nth a d (RtoC 0))) LC ltac:(congruence) Hd Z).
  apply Sm_ext. intros s Hs. f_equal. rewrite (fit_vec B n d s D Hd Hs), Sm_conj. apply Sm_ext. intros a _. rewrite bf_conj. apply C_eq; cbn; ring.
Qed.

(** the conjugate of a column is again a column *)
Variable P : nat -> nat.
Hypothesis P1 : forall f, Sm n (fun a => f (P a)) = Sm n f.
Hypothesis P2 : forall s a, (s < length B)%nat -> (a < n)%nat -> bf B s (P a) = Cconj (bf B s a).

Lemma plain_rank {A} (o : list A) : length o = length B -> full_rank n (gram B B (map (fun _ => 1) o) n).
Proof.
  intros Lo d Hd Z. apply (rank_end d (fun _ => RtoC 0) Hd).
  rewrite <- (gram_form B o d (fun a => Cconj (nth (P a) d (RtoC 0))) eq_refl Lo Hd Z).
  apply Sm_ext. intros s Hs. f_equal. rewrite (fit_vec B n d s D Hd Hs), Sm_conj. rewrite <- P1. apply Sm_ext. intros a Ha.
  rewrite P2 by assumption. apply C_eq; cbn; ring.
Qed.
End Rank.

(** ** the noise levels *)
Lemma step_bound l M : (forall d, In d (steps l) -> d <= M) -> forall i, (S i < length l)%nat -> nth (S i) l 0 - nth i l 0 <= M.
Proof.
  induction l as [|a l IH]; intros H i Hi; [cbn in Hi; lia|]. destruct l as [|b l]; [cbn in Hi; lia|].
  destruct i as [|i]; [apply H; now left|]. change (nth (S (S i)) (a :: b :: l) 0) with (nth (S i) (b :: l) 0).
  change (nth (S i) (a :: b :: l) 0) with (nth i (b :: l) 0). apply IH; [intros d Hd; apply H; now right|cbn in *; lia].
Qed.
Lemma span_bound l M : (forall i, (S i < length l)%nat -> nth (S i) l 0 - nth i l 0 <= M) -> forall i, (i < length l)%nat -> nth i l 0 - nth 0 l 0 <= INR i * M.
Proof.
  intros H. induction i as [|i IH]; intros Hi; [cbn [INR]; lra|]. specialize (IH ltac:(lia)). specialize (H i Hi). rewrite S_INR. lra.
Qed.

Lemma nth_scaled l i : (i < length l)%nat -> nth i (map (fun x => x * 24) l) 0 = nth i l 0 * 24.
Proof. intros H. rewrite (nth_indep _ 0 (0 * 24)) by now rewrite map_length. now rewrite (map_nth (fun x => x * 24)). Qed.

Lemma grid_some t : increasing t -> (4 <= length t)%nat -> (forall d, In d (steps t) -> d <= 100) ->
  let th := map (fun x => x * 24) (even_part t) in hd 0 th < last th 0 /\ lomb_freqs th freq_bands 500 <> [].
Proof.
  intros I N ST th. set (k := (length t / 2)%nat). assert (K2 : (2 <= k)%nat) by (unfold k; apply Nat.div_le_lower_bound; lia).
  assert (KT : (2 * k <= length t)%nat) by apply Nat.mul_div_le, Nat.neq_succ_0.
  assert (LE : length (even_part t) = (2 * k)%nat) by apply even_len.
  assert (LT : length th = (2 * k)%nat) by (unfold th; now rewrite map_length).
  assert (TN : forall i, (i < 2 * k)%nat -> nth i th 0 = nth i t 0 * 24).
  { intros i Hi. unfold th. rewrite nth_scaled by lia. rewrite even_nth by exact Hi. reflexivity. }
  assert (HD : hd 0 th = nth 0 t 0 * 24) by (rewrite hd_nth, TN by lia; reflexivity).
  assert (LA : last th 0 = nth (2 * k - 1) t 0 * 24) by (rewrite last_nth, LT, TN by lia; reflexivity).
  assert (LT0 : hd 0 th < last th 0). { rewrite HD, LA. assert (Q := incr_lt t 0 (2 * k - 1) I ltac:(lia)). lra. }
  split; [exact LT0|].
  assert (SP := span_bound t 100 (step_bound t 100 ST) (2 * k - 1)%nat ltac:(lia)).
  assert (NK : INR (2 * k - 1) = 2 * INR k - 1) by (rewrite minus_INR, mult_INR by lia; cbn; ring).
  assert (FB : 10 / 10 ^ 5 <= fourier th (k - 1)).
  { unfold fourier. rewrite LT, HD, LA, NK, mult_INR, minus_INR by lia. change (INR 2) with 2. change (INR 1) with 1.
    assert (K3 : 2 <= INR k) by (change 2 with (INR 2); now apply le_INR). rewrite NK in SP.
    set (T := nth (2 * k - 1) t 0 * 24 - nth 0 t 0 * 24). assert (T0 : 0 < T) by (unfold T; rewrite <- HD, <- LA; lra).
    assert (T1 : T <= (2 * INR k - 1) * 2400) by (unfold T; lra). clearbody T.
    apply Rmult_le_reg_r with (2 * INR k * T); [apply Rmult_lt_0_compat; lra|]. unfold Rdiv at 2.
    rewrite (Rmult_assoc ((INR k - 1) * (2 * INR k - 1))), Rinv_l by (apply Rgt_not_eq, Rmult_lt_0_compat; lra). rewrite Rmult_1_r.
    apply Rle_trans with (10 / 10 ^ 5 * (2 * INR k * ((2 * INR k - 1) * 2400))); [apply Rmult_le_compat_l; [lra|]; apply Rmult_le_compat_l; lra|].
    replace (10 / 10 ^ 5 * (2 * INR k * ((2 * INR k - 1) * 2400))) with ((0.48 * INR k) * (2 * INR k - 1)) by lra.
    apply Rmult_le_compat_r; lra. }
  assert (SO := fourier_sorted th LT0).
  assert (LG : length (fourier_grid th) = (k - 1)%nat).
  { rewrite fourier_len, LT. replace (2 * k)%nat with (k * 2)%nat by lia. rewrite Nat.div_mul by lia. reflexivity. }
  destruct (lomb_spec th freq_bands 500 ltac:(lia) LT0) as (ls & -> & F).
  unfold freq_bands in F. inversion F as [|b l bs ls' BF _ E1 E2]; subst. cbn [fst snd] in BF.
  assert (CT : exists i, counts (fourier_grid th) (10 / 10 ^ 5) (417 / 10 ^ 5) i).
  { exists (searchsorted (fourier_grid th) (10 / 10 ^ 5)). apply counts_iff; [exact SO|]. split; [lia|].
    assert (S1 : (searchsorted (fourier_grid th) (10 / 10 ^ 5) <= k - 2)%nat).
    { destruct (Nat.le_gt_cases (searchsorted (fourier_grid th) (10 / 10 ^ 5)) (k - 2)) as [H|H]; [exact H|].
      apply (searchsorted_iff _ _ SO) in H; [|lia]. rewrite fourier_nth in H.
      - replace (S (k - 2)) with (k - 1)%nat in H by lia. lra.
      - rewrite <- fourier_len, LG. lia. }
    assert (S2 : (searchsorted (fourier_grid th) (10 / 10 ^ 5) <= searchsorted (fourier_grid th) (417 / 10 ^ 5))%nat).
    { destruct (Nat.le_gt_cases (searchsorted (fourier_grid th) (10 / 10 ^ 5)) (searchsorted (fourier_grid th) (417 / 10 ^ 5))) as [H|H]; [exact H|].
      assert (H' := H). apply (searchsorted_iff _ _ SO) in H; [|lia].
      assert (Q : (searchsorted (fourier_grid th) (417 / 10 ^ 5) < searchsorted (fourier_grid th) (417 / 10 ^ 5))%nat); [|lia].
      apply (searchsorted_iff _ _ SO); [lia|lra]. }
    lia. }
  destruct BF as (first & count & C1 & C2). destruct CT as [i CT]. apply C1 in CT.
  assert (l <> []).
  { destruct (Nat.leb_spec count 500).
    - subst l. destruct count; [lia|discriminate].
    - destruct C2 as (C2 & _). intros ->. discriminate. }
  destruct l; [congruence|discriminate].
Qed.

Lemma noise_ok L tin t eu ev elor frq equi tw : lomb_contract L -> increasing tin -> kept t tin -> (4 <= length t)%nat ->
  (forall d, In d (steps t) -> d <= 100) -> length eu = length t -> (forall e, ev = Some e -> length e = length t) ->
  exists p, band_averaged_psd_by_constit L tin t eu ev elor frq equi tw = Ok p.
Proof.
  intros LC IT K N ST LU LV. assert (I := kept_incr _ _ K IT). assert (KL := kept_len _ _ K).
  unfold band_averaged_psd_by_constit.
  destruct (Nat.eqb_spec (length t) 0); [lia|]. rewrite Bool.andb_false_r.
  set (gap := (equi && Nat.ltb (length t) (length tin))%bool).
  set (fill := fun e => if gap then map (fun x => interp x t e) tin else e).
  assert (BA : exists ba, (if equi then band_psd L tin (fill eu) (option_map fill ev) frq true else band_psd L t eu ev frq false) = Ok ba).
  { destruct equi.
    - assert (LF : forall e, length e = length t -> length (fill e) = length tin).
      { intros e He. unfold fill, gap. cbn [andb]. destruct (Nat.ltb_spec (length t) (length tin)); [apply map_length|lia]. }
      destruct (band_even' L tin (fill eu) (option_map fill ev) frq) as (near & p & _ & E & _); [now apply LF| |lia|apply IT; lia|eauto].
      intros e E. destruct ev as [e0|]; [|discriminate]. injection E as <-. apply LF. now apply LV.
    - destruct (grid_some t I N ST) as [G1 G2]. destruct (band_uneven L t eu ev frq LC LU LV ltac:(lia) G1) as [_ G].
      destruct (G G2) as (near & p & _ & E & _). eauto. }
  destruct BA as [ba BA]. cbv zeta. match goal with |- exists p, bind ?x _ = _ => assert (E : x = Ok ba) by exact BA end. rewrite E. cbn [bind]. eauto.
Qed.

(** ** the two runs fit with the same matrix *)
Lemma good_same tref lor la o o' s x row : o_notrend o = o_notrend o' -> o_infer o = o_infer o' -> flags_of o = flags_of o' ->
  good_row tref lor la o s x row -> good_row tref lor la o' s x row.
Proof. unfold good_row, is_approx. intros -> -> ->. auto. Qed.
Lemma good_unique tref lor la o s ts B B' : Forall2 (good_row tref lor la o s) ts B -> Forall2 (good_row tref lor la o s) ts B' -> B = B'.
Proof.
  intros F. revert B'. induction F as [|x row ts B G F IH]; intros B' F'; inversion F' as [|x' row' ts' B0 G' F0]; subst; [reflexivity|].
  f_equal; [|now apply IH]. apply somes_inj. unfold good_row in *. congruence.
Qed.

Lemma flags_used opts tw equi compat o : unique_keys opts -> process_opts opts tw = Ok compat -> read_opt (slv_opts tw equi compat) = Ok o ->
  let val := opt_value opts in
  flags_of o = {| NodsatLint := eq_str (val "nodal") "linear_time";
                  NodsatNone := (negb (eq_str (val "nodal") "linear_time") && negb (truthy (val "nodal")))%bool;
                  GwchLint := eq_str (val "phase") "linear_time"; GwchNone := eq_str (val "phase") "raw" |} /\
  o_cnstit o = val "constit" /\ o_notrend o = negb (truthy (val "trend")) /\ as_num (val "Rayleigh_min") = Ok (o_rmin o) /\ o_epoch o = val "epoch" /\
  oget compat "epoch" = val "epoch".
Proof.
  intros U P1 P4. destruct (used_options _ _ _ U _ _ P1 P4) as
   (_ & _ & U1 & Ue & _ & U2 & U3 & U4 & U5 & U6 & Ul & U7 & Ug & U8 & Ur & U9 & U10 & Uk & Uo & Uc & _).
  cbv zeta. unfold flags_of. rewrite Ul, U7, Ug, U8. auto 10.
Qed.
Lemma run_options L t u v la opts c : unique_keys opts -> solve L t u v (Some la) opts = Ok c ->
  exists compat equi, process_opts opts (is2d v) = Ok compat /\ read_opt (slv_opts (is2d v) equi compat) = Ok (c_opt c).
Proof.
  intros U H. destruct (solve_inv _ _ _ _ _ _ _ H) as [(compat & si & la' & o & s & B & xraw & m & W & c1 & c2 & P1 & P2 & E & P4 & P5 & P6 & P7 & P8 & P9)].
  assert (SB := solve_base _ _ _ _ _ _ _ _ _ _ _ _ P7 P8 P9). assert (Ho : c_opt c = o) by (rewrite (sb_opt _ _ SB); reflexivity). rewrite Ho. eauto.
Qed.

Lemma in_sys (B : list (list C)) y row : length y = length B -> In row B -> exists z, In (row, z) (sys B y).
Proof.
  unfold sys. revert y. induction B as [|b B IH]; intros [|z y] E H; try discriminate; [destruct H|].
  destruct H as [->|H]; [exists z; now left|]. destruct (IH y ltac:(now injection E) H) as (z' & Hz). exists z'. now right.
Qed.

Section Linear.
Variables (L : lib) (t : pyarr tarray) (u : pyarr (list xr)) (v : option (pyarr (list xr))) (la : R) (opts opts0 : dict pyval) (sm : list (R * C)) (c0 : coef).
Hypothesis AN0 : analysis L t u v (Some la) opts0 sm c0.
Hypothesis DC : documented_call L t u v opts sm.
Hypothesis SB : options_but_intervals opts opts0.
Hypothesis ID : identifiable c0 (map fst sm).
Hypothesis ND : NoDup (c_name c0).

Lemma same_val k : In k (keys documented) -> k <> "conf_int" -> k <> "order_constit" -> k <> "white" -> opt_value opts0 k = opt_value opts k.
Proof.
  intros K N1 N2 N3. apply (setting_val opts0 k); [apply AN0|exact K|]. apply SB; auto. apply setting_value; [apply DC|exact K].
Qed.

Lemma two_runs cf compat si o s B m : fitted L t u v la opts sm cf compat si o s B m (map (fun _ => Fin 1) (map fst sm)) ->
  let n := ncoef o s in full_rank n (gram (cconj_mat B) B (map (fun _ => 1) (map fst sm)) n) /\ full_rank n (gram B B (map (fun _ => 1) (map fst sm)) n).
Proof.
  intros F. assert (U0 := an_keys _ _ _ _ _ _ _ _ AN0). assert (U := dc_keys _ _ _ _ _ _ DC). assert (HS := an_sorted _ _ _ _ _ _ _ _ AN0).
  destruct (analysis_run _ _ _ _ _ _ _ _ AN0) as (_ & si0 & la0 & s0 & B0 & x0 & m0 & W0 & BH & S1 & S2 & S3). subst x0.
  assert (El := bh_lat _ _ _ _ _ _ _ _ _ _ _ _ _ _ BH). injection El as <-.
  destruct (run_options _ _ _ _ _ _ _ U0 (an_solve _ _ _ _ _ _ _ _ AN0)) as (k0 & q0 & K1 & K2).
  destruct (flags_used _ _ _ _ _ U0 K1 K2) as (A1 & A2 & A3 & A4 & A5 & _).
  destruct (flags_used _ _ _ _ _ U (fi_compat _ _ _ _ _ _ _ _ _ _ _ _ _ _ _ F) (fi_opt _ _ _ _ _ _ _ _ _ _ _ _ _ _ _ F)) as (B1 & B2 & B3 & B4 & B5 & B6). cbv zeta in *.
  assert (SV : forall k, In k (keys documented) -> k <> "conf_int" -> k <> "order_constit" -> k <> "white" -> opt_value opts0 k = opt_value opts k) by exact same_val.
  rewrite (SV "nodal"), (SV "phase") in A1 by (first [discriminate|cbn; tauto]). rewrite SV in A2, A3, A4, A5 by (first [discriminate|cbn; tauto]).
  assert (NI : o_infer (c_opt c0) = None).
  { destruct (bh_inf _ _ _ _ _ _ _ _ _ _ _ _ _ _ BH) as (inf & I1 & I2). rewrite same_val in I1 by (first [discriminate|cbn; tauto]).
    rewrite (setting_val opts "infer" PNone U ltac:(cbn; tauto) (dc_infer _ _ _ _ _ _ DC)) in I1. cbn [validate_infer is_none orb] in I1. injection I1 as <-. now injection I2. }
  assert (NA : approximate (c_opt c0) = false) by (unfold approximate; now rewrite NI).
  assert (ES := bh_slv _ _ _ _ _ _ _ _ _ _ _ _ _ _ BH). rewrite A5, <- B6, (fi_slv _ _ _ _ _ _ _ _ _ _ _ _ _ _ _ F) in ES. apply Ok_inj in ES. subst si0.
  assert (ER : o_rmin (c_opt c0) = o_rmin o) by (rewrite B4 in A4; now apply Ok_inj in A4).
  assert (EC := bh_sel _ _ _ _ _ _ _ _ _ _ _ _ _ _ BH). assert (FS := fi_sel _ _ _ _ _ _ _ _ _ _ _ _ _ _ _ F).
  rewrite ER, A2, NI, <- B2 in EC. rewrite (fi_infer _ _ _ _ _ _ _ _ _ _ _ _ _ _ _ F), EC in FS. apply Ok_inj in FS. subst s0.
  assert (NT : o_notrend (c_opt c0) = o_notrend o) by (rewrite A3, B3; reflexivity). assert (FL : flags_of (c_opt c0) = flags_of o) by (rewrite A1, B1; reflexivity).
  assert (EN : ncoef o s = ncoef (c_opt c0) s) by (unfold ncoef; now rewrite NT).
  assert (SR : s_R s = []) by (eapply infer_none_R; [exact EC|reflexivity]).
  assert (G0 := proj1 (run_rows _ _ _ _ _ _ _ _ _ _ _ _ _ _ BH)).
  assert (SEL := fi_sel _ _ _ _ _ _ _ _ _ _ _ _ _ _ _ F).
  destruct (fit_rows _ _ _ _ _ _ _ _ _ _ _ _ _ (sel_lin_ok _ _ _ _ _ SEL) (fun _ => SR) (fi_fit _ _ _ _ _ _ _ _ _ _ _ _ _ _ _ F)) as (G & _).
  assert (EB : B0 = B).
  { eapply good_unique; [|exact G]. clear - G0 NT NI FL F. induction G0; constructor; auto. eapply good_same; [| | |eassumption]; auto.
    rewrite NI. symmetry. apply F. }
  subst B0. assert (LB := B_len _ _ _ _ _ _ _ _ _ _ _ _ _ _ BH sm S1).
  assert (D := fi_dims _ _ _ _ _ _ _ _ _ _ _ _ _ _ _ F). rewrite <- LB in D.
  assert (IND := own_independent _ _ _ _ _ _ _ _ _ _ _ _ _ _ BH HS NA S1 ID ND (map snd sm) ltac:(rewrite map_length; auto)). rewrite <- EN in IND.
  assert (IND' : forall d, length d = ncoef o s -> (forall row, In row B -> cdot row d = RtoC 0) -> forall z, In z d -> z = RtoC 0).
  { intros d Hd Z. apply (IND d Hd). intros [row y] Hp. apply Z. unfold sys in Hp. now apply in_combine_l in Hp. }
  assert (RC := run_counts _ _ _ _ _ _ _ _ _ _ _ _ _ _ BH HS NI). assert (NC := proj1 (proj2 (proj2 (proj2 (proj2 RC))))).
  cbv zeta. assert (LO : length (map fst sm) = length B) by (now rewrite map_length). split.
  - now apply conj_rank.
  - rewrite EN, NC in *. apply plain_rank with (P := swapP (length (s_lind s))); auto.
    + apply swapP_sum.
    + intros k a Hk Ha. symmetry. apply (b_conj _ _ _ _ _ _ _ _ _ _ _ _ _ _ BH HS NI sm S1); [lia|exact Ha].
Qed.

Hypothesis IR : inv_returns L.
Hypothesis SH : lstsq_shape L.
Hypothesis RT : lstsq_returns L.
Hypothesis EV : evaluable la opts sm.

Lemma resid_some tw (W : list R) x y : length W = length x -> length y = length x -> exists eu ev, resid_parts tw (map Fin W) x y = Some (eu, ev) /\
  length eu = length x /\ forall e, ev = Some e -> length e = length x.
Proof.
  intros H1 H2. unfold resid_parts. assert (A : all_finite (map Fin W) = Some W).
  { clear. induction W as [|w W IH]; [reflexivity|]. cbn in *. unfold all_finite in *. cbn. now rewrite IH. }
  rewrite A. eexists _, _. split; [reflexivity|]. split; [rewrite !map_length, !combine_length, map_length, combine_length; lia|].
  intros e E. destruct tw; [|discriminate]. injection E as <-. rewrite !map_length, !combine_length, map_length, combine_length. lia.
Qed.

Lemma accept_linear : setting opts "conf_int" (PStr "linear") ->
  ((exists x, setting opts "white" x /\ ~ falsy x) \/ (lomb_contract L /\ orderly L opts t sm)) -> exists c, solve L t u v (Some la) opts = Ok c.
Proof.
  intros CF WH. destruct (run_fit _ _ _ _ _ _ _ _ SH RT DC EV CF ltac:(auto)) as (compat & si & o & s & B & m & F).
  assert (SEL := fi_sel _ _ _ _ _ _ _ _ _ _ _ _ _ _ _ F). assert (SL := sel_lens_ok _ _ _ _ _ SEL).
  assert (NI := fi_infer _ _ _ _ _ _ _ _ _ _ _ _ _ _ _ F).
  destruct (two_runs _ _ _ _ _ _ _ F) as [R1 R2].
  assert (W1 : map (fun _ : R => Fin 1) (map fst sm) = map Fin (map (fun _ => 1) (map fst sm))) by (rewrite !map_map; reflexivity).
  assert (GM : exists gam, gammas L B (ncoef o s) (map (fun _ => Fin 1) (map fst sm)) (map snd sm) (model_fit (o_twodim o) B m) = Ok gam).
  { unfold gammas. rewrite ones_W. destruct (IR _ _ (gram_square _ _ _ _) R1) as [iC ->]. cbn [bind]. destruct (IR _ _ (gram_square _ _ _ _) R2) as [iP ->]. cbn [bind].
    destruct (Req_EM_T _ 0); eauto. }
  destruct GM as [gam GM].
  assert (NP : exists p, (if o_white o then Ok None
           else match resid_parts (o_twodim o) (map (fun _ => Fin 1) (map fst sm)) (map snd sm) (model_fit (o_twodim o) B m) with
                | Some (eu, ev) =>
                    do p <- band_averaged_psd_by_constit L (si_tin si) (si_t si) eu ev (si_elor si) (s_frq s) (o_equi o) (o_twodim o);
                    Ok (Some p)
                | None => Ok (Some ([], None))
                end) = Ok p).
  { destruct (o_white o) eqn:EW; [eauto|]. destruct WH as [(x & X1 & X2)|(LC & l & T1 & T2 & T3 & T4)].
    { exfalso. rewrite (fi_white _ _ _ _ _ _ _ _ _ _ _ _ _ _ _ F _ X1) in EW. apply X2. now apply truthy_falsy. }
    destruct (resid_some (o_twodim o) (map (fun _ => 1) (map fst sm)) (map snd sm) (model_fit (o_twodim o) B m)) as (eu & ev & E1 & E2 & E3).
    { now rewrite !map_length. }
    { assert (LB := proj1 (fi_dims _ _ _ _ _ _ _ _ _ _ _ _ _ _ _ F)). unfold model_fit, cmatvec. destruct (o_twodim o); rewrite !map_length; exact LB. }
    rewrite W1, E1. rewrite map_length in E2, E3.
    assert (ET : si_tin si = l) by (eapply times_unique; [apply DC|apply F|exact T1]). rewrite <- ET in T2.
    rewrite (fi_t _ _ _ _ _ _ _ _ _ _ _ _ _ _ _ F).
    destruct (noise_ok L (si_tin si) (map fst sm) eu ev (si_elor si) (s_frq s) (o_equi o) (o_twodim o) LC T2 (fi_kept _ _ _ _ _ _ _ _ _ _ _ _ _ _ _ F)) as [p ->].
    - now rewrite map_length.
    - exact T4.
    - now rewrite map_length.
    - intros e E. rewrite map_length. now apply E3.
    - cbn [bind]. eauto. }
  destruct NP as [p NP].
  assert (CI : exists cis, confidence L o s (si_tin si) (si_t si) (resid_parts (o_twodim o) (map (fun _ => Fin 1) (map fst sm)) (map snd sm) (model_fit (o_twodim o) B m))
     (si_elor si) (map snd sm) (model_fit (o_twodim o) B m) (map (fun _ => Fin 1) (map fst sm)) B (ncoef o s) (conf_input (o_twodim o) m s) = Ok cis).
  { unfold confidence. rewrite NP. cbn [bind]. rewrite GM. cbn [bind].
    destruct (mapM_idx_ok (fun k x => conf_one L o gam p (length (conf_input (o_twodim o) m s)) k (x_Xu x) (x_Yu x) (x_Xv x) (x_Yv x) (x_g x) (x_theta x)) (conf_input (o_twodim o) m s)) with (i := 0%nat) as [cis ->].
    - intros i x. unfold conf_one. rewrite (fi_lin _ _ _ _ _ _ _ _ _ _ _ _ _ _ _ F). cbn [eq_str String.eqb Ascii.eqb Bool.eqb]. eauto.
    - cbn [bind]. rewrite NI. eauto. }
  destruct CI as [cis CI].
  eapply finish; [exact (an_perm _ _ _ _ _ _ _ _ AN0)|exact F|]. unfold ci_stage. rewrite (fi_ci _ _ _ _ _ _ _ _ _ _ _ _ _ _ _ F). cbn [eq_str String.eqb Ascii.eqb Bool.eqb negb].
  unfold ncoef in CI. rewrite CI. cbn [bind]. reflexivity.
Qed.
End Linear.
