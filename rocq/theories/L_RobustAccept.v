(** The robust fit gives a result: finite positive weights in every pass. *)
From Coq Require Import Lia Lra Permutation Sorted.
From Verif Require Import M_Base M_Bunch M_Lib M_Tables M_Const M_Options M_Time M_Slvinit M_Harmonics M_Select M_Ellipse
  M_Robust M_Period M_Conf M_Diag M_Solve M_Recon S_Dict S_Options S_Order S_Basis S_Select S_Fit S_Ellipse S_Slv S_Recon S_Model S_Robust S_RobustKw S_Errors S_Perm S_Noise S_Accept S_RobustAccept
  L_Base L_Options L_SolveInv L_Slv2 L_Model L_Lsq L_Robust L_Robust2.
Open Scope R_scope.
Open Scope string_scope.

(** a zero scale: more than half of the numbers are equal *)
Lemma half_len n : (0 < n)%nat -> (n - S (n / 2) < S (n / 2) <= n)%nat.
Proof. intros H. assert (E := Nat.div_mod n 2 ltac:(lia)). assert (M := Nat.mod_upper_bound n 2 ltac:(lia)). lia. Qed.
Lemma zero_median l : l <> [] -> Forall (fun x => 0 <= x) l -> median l = 0 ->
  exists a b, Permutation l (a ++ b) /\ Forall (fun x => x = 0) a /\ (length b < length a)%nat.
Proof.
  intros N F E. assert (M : median_is l 0) by (apply median_spec; auto). destruct M as (s & P & SS & M).
  assert (LE : length s = length l) by (symmetry; now apply Permutation_length).
  assert (LP : (0 < length l)%nat) by (destruct l; [congruence|cbn; lia]).
  destruct (half_len _ LP) as [H1 H2]. set (h := (length l / 2)%nat) in *.
  assert (FS : Forall (fun x => 0 <= x) s) by (eapply Permutation_Forall; eauto).
  assert (G : forall n, 0 <= nth n s 0).
  { intros n. destruct (nth_in_or 0 n s) as [H| ->]; [|lra]. rewrite Forall_forall in FS. auto. }
  assert (Z : nth h s 0 = 0) by (assert (A := G ((length l - 1) / 2)%nat); assert (B := G h); lra).
  exists (firstn (S h) s), (skipn (S h) s). split; [rewrite firstn_skipn; exact P|]. split.
  - apply Forall_forall. intros x Hx. apply In_nth with (d := 0) in Hx. destruct Hx as (i & Hi & <-).
    rewrite firstn_length in Hi. rewrite <- (firstn_skipn (S h) s) in Z, G, SS.
    assert (K : forall i, (i <= h)%nat -> nth i s 0 <= nth h s 0).
    { rewrite firstn_skipn in SS. assert (H2' : (h < length s)%nat) by lia. clearbody h. clear - SS H2'. revert h H2'.
      induction SS as [|x s SS IH FA]; intros h Hh i Hi; [cbn in Hh; lia|]. destruct h as [|h]; [replace i with O by lia; lra|].
      destruct i as [|i]; [|apply IH; cbn in *; lia]. cbn [nth]. rewrite Forall_forall in FA. apply FA. apply nth_In. cbn in Hh. lia. }
    rewrite firstn_skipn in G, Z. specialize (K i ltac:(lia)). rewrite Z in K.
    assert (EQ : nth i (firstn (S h) s) 0 = nth i s 0).
    { rewrite <- (firstn_skipn (S h) s) at 2. rewrite app_nth1; [reflexivity|]. rewrite firstn_length. lia. }
    rewrite EQ. assert (B := G i). lra.
  - rewrite firstn_length, skipn_length. lia.
Qed.
Lemma zero_scale_half z : z <> [] -> sigma_hat z = 0 -> exists w a b, Permutation z (a ++ b) /\ Forall (fun x => x = w) a /\ (length b < length a)%nat.
Proof.
  intros N E. unfold sigma_hat in E. assert (E' : median (map (fun x => Cmod (Cminus x (cmedian z))) z) = 0).
  { apply Rmult_integral in E. destruct E as [E|E]; [exact E|]. assert (0 < / (6745 / 10 ^ 4)) by (apply Rinv_0_lt_compat; lra). lra. }
  assert (N' : map (fun x => Cmod (Cminus x (cmedian z))) z <> []) by (intros E0; apply map_eq_nil in E0; auto).
  destruct (zero_median _ N' ltac:(apply Forall_forall; intros x Hx; apply in_map_iff in Hx; destruct Hx as (y & <- & _); apply Cmod_ge_0) E') as (a & b & P & F & H).
  apply Permutation_sym, Permutation_map_inv in P. destruct P as (l & E1 & P). exists (cmedian z), (firstn (length a) l), (skipn (length a) l).
  assert (LL : length l = (length a + length b)%nat) by (rewrite <- app_length, E1, map_length; reflexivity).
  rewrite firstn_skipn. split; [exact P|]. split; [|rewrite firstn_length, skipn_length; lia].
  assert (EA : a = map (fun x => Cmod (Cminus x (cmedian z))) (firstn (length a) l)).
  { rewrite <- firstn_map, <- E1. rewrite firstn_app, Nat.sub_diag, firstn_O, app_nil_r, firstn_all. reflexivity. }
  rewrite EA in F. apply Forall_map in F. eapply Forall_impl; [|exact F]. cbn beta. intros x Hx. apply Cmod_eq_0 in Hx.
  replace x with (Cplus (Cminus x (cmedian z)) (cmedian z)) by ring. rewrite Hx. ring.
Qed.

(** the diagonal of a projection is one only where its column is a unit vector *)
Lemma rsum_split (f : nat -> R) l i k : NoDup l -> In i l -> In k l -> k <> i -> (forall k, 0 <= f k) -> f i + f k <= rsum (map f l).
Proof.
  intros ND Hi Hk Nk Hf. induction ND as [|a l Na ND IH]; [destruct Hi|]. cbn [map]. rewrite rsum_cons.
  destruct Hi as [->|Hi], Hk as [->|Hk]; try congruence.
  - assert (A := rsum_ge_one f l k Hk Hf). lra.
  - assert (A := rsum_ge_one f l i Hi Hf). lra.
  - assert (A := Hf a). specialize (IH Hi Hk). lra.
Qed.
Lemma unit_column H n i k : projection H n -> (i < n)%nat -> (k < n)%nat -> k <> i -> Cmod (entry_at H i i) = 1 -> entry_at H k i = RtoC 0.
Proof.
  intros P Hi Hk Nk E1. destruct (P i i Hi Hi) as [_ E].
  rewrite csum_pair in E. set (e := entry_at H i i) in *.
  assert (Re : forall k, (k < n)%nat -> Cmult (entry_at H i k) (entry_at H k i) = RtoC (fst (entry_at H k i) ^ 2 + snd (entry_at H k i) ^ 2)).
  { intros j Hj. destruct (P i j Hi Hj) as [Q _]. rewrite Q. destruct (entry_at H j i) as [a b]. apply injective_projections; cbn; ring. }
  assert (Im : snd e = 0).
  { destruct (P i i Hi Hi) as [Q _]. fold e in Q. destruct e as [a b]. unfold Cconj in Q. cbn in *. assert (b = - b) by congruence. lra. }
  set (f := fun k => fst (entry_at H k i) ^ 2 + snd (entry_at H k i) ^ 2).
  assert (F : fst e = rsum (map f (seq 0 n))).
  { rewrite <- E. cbn [fst]. f_equal. apply map_ext_in. intros j Hj. apply in_seq in Hj. rewrite Re by lia. reflexivity. }
  assert (P0 : forall k, 0 <= f k).
  { intros j. unfold f. assert (0 <= fst (entry_at H j i) ^ 2) by apply pow2_ge_0. assert (0 <= snd (entry_at H j i) ^ 2) by apply pow2_ge_0. lra. }
  assert (S := rsum_split f (seq 0 n) i k (seq_NoDup _ _) ltac:(apply in_seq; lia) ltac:(apply in_seq; lia) Nk P0). rewrite <- F in S.
  assert (Fi : f i = fst e ^ 2) by (unfold f; fold e; rewrite Im; ring).
  assert (A1 : Rabs (fst e) = 1).
  { rewrite <- E1. replace e with (RtoC (fst e)) at 2 by (apply injective_projections; cbn; auto). now rewrite Cmod_R. }
  assert (F1 : fst e = 1). { assert (G := P0 i). assert (G2 := P0 k). assert (0 <= fst e) by lra. rewrite Rabs_pos_eq in A1; lra. }
  assert (Z : f k = 0) by (rewrite Fi, F1 in S; assert (G := P0 k); lra). unfold f in Z. destruct (entry_at H k i) as [a b]. cbn in Z.
  assert (0 <= a * (a * 1)) by nra. assert (0 <= b * (b * 1)) by nra. assert (a = 0) by nra. assert (b = 0) by nra. subst. reflexivity.
Qed.

(** ** the loop *)
Definition pos (ws : list R) : Prop := Forall (fun w => 0 < w) ws.
Lemma loop_ok L X y rcond tol wfn rfac n :
  (forall ws, length ws = length y -> pos ws -> exists ls, wsolve L X y rcond (map Fin ws) = Ok ls /\ length (ls_b ls) = n) ->
  (forall b, length b = n -> exists ws, length ws = length y /\ pos ws /\ map wfn (r_normed (residual X y b) rfac) = map Fin ws) ->
  forall fuel i ws old, length ws = length y -> pos ws -> (fuel = O -> old <> None) ->
  (forall o, old = Some o -> length (ls_b (it_ls o)) = n /\ exists wo, it_w o = map Fin wo /\ length wo = length y /\ pos wo) ->
  exists ls ws' res it st, rf_loop L X y rcond tol (fun r => Ok (map wfn r)) rfac fuel i (map Fin ws) old = Ok (ls, map Fin ws', res, it, st) /\
    length (ls_b ls) = n /\ length ws' = length y /\ pos ws'.
Proof.
  intros SOL NXT. induction fuel as [|fuel IH]; intros i ws old LW PW HO HI.
  - cbn [rf_loop]. destruct old as [o|]; [|now destruct (HO eq_refl)]. destruct (HI o eq_refl) as [H1 _]. exists (it_ls o), ws, (it_resid o), O, Exhausted. auto.
  - cbn [rf_loop]. destruct (SOL ws LW PW) as (ls & -> & LB). cbn [bind].
    destruct (NXT (ls_b ls) LB) as (ws' & LW' & PW' & EW).
    set (ms := xdiv (Fin (ls_rsumsq ls)) (xsum (map Fin ws))).
    assert (CONT : exists ls' ws'' res it st, rf_loop L X y rcond tol (fun r => Ok (map wfn r)) rfac fuel (S i) (map Fin ws')
       (Some {| it_ls := ls; it_w := map Fin ws; it_meansq := ms; it_resid := residual X y (ls_b ls) |}) = Ok (ls', map Fin ws'', res, it, st) /\
       length (ls_b ls') = n /\ length ws'' = length y /\ pos ws'').
    { apply IH; auto; [discriminate|]. intros o E. injection E as <-. cbn [it_ls it_w]. split; [exact LB|]. exists ws. auto. }
    rewrite EW. destruct old as [o|]; [|exact CONT]. destruct (xlt _ (Fin 0)).
    + destruct (HI o eq_refl) as (H1 & wo & H2 & H3 & H4). rewrite H2. do 5 eexists. split; [reflexivity|]. auto.
    + destruct (xlt _ (Fin tol)); [|exact CONT]. do 5 eexists. split; [reflexivity|]. auto.
Qed.

(** ** more unknowns than equations *)
Lemma zero_vec n : exists d : list C, length d = n /\ forall z, In z d -> z = RtoC 0.
Proof. exists (repeat (RtoC 0) n). split; [apply repeat_length|]. intros z. apply repeat_spec. Qed.
Lemma cdot_zero (row d : list C) : (forall z, In z d -> z = RtoC 0) -> cdot row d = RtoC 0.
Proof.
  unfold cdot. revert d. induction row as [|a row IH]; intros [|z d] H; try reflexivity. cbn [combine map csum fold_right fst snd].
  rewrite (H z) by now left. unfold csum in IH. rewrite (IH d) by (intros; apply H; now right). apply injective_projections; cbn; ring.
Qed.
Lemma cdot_c a row z d : cdot (a :: row) (z :: d) = Cplus (Cmult a z) (cdot row d).
Proof. reflexivity. Qed.
Lemma cdot_comb (k : C) r1 r2 d : length r1 = length r2 -> cdot (map (fun p => Cminus (fst p) (Cmult k (snd p))) (combine r1 r2)) d = Cminus (cdot r1 d) (Cmult k (cdot r2 d)).
Proof.
  revert r2 d. induction r1 as [|a r1 IH]; intros [|b r2] d E; try discriminate.
  - cbn [combine map]. rewrite !cdot_nil_l. ring.
  - destruct d as [|z d]; [unfold cdot; cbn; ring|]. cbn [combine map fst snd]. rewrite !cdot_c, IH by now injection E. ring.
Qed.
Lemma underdetermined r : forall n X, length X = r -> (r < n)%nat -> (forall row, In row X -> length row = n) ->
  exists d, length d = n /\ (forall row, In row X -> cdot row d = RtoC 0) /\ exists z, In z d /\ z <> RtoC 0.
Proof.
  induction r as [|r IH]; intros n X LX Hn LR.
  - exists (repeat (RtoC 1) n). split; [apply repeat_length|]. split; [destruct X; [intros ? []|discriminate]|].
    exists (RtoC 1). split; [destruct n; [lia|now left]|]. intros E. apply (f_equal fst) in E. cbn in E. lra.
  - destruct n as [|n]; [lia|].
    destruct (Exists_dec (fun row => hd (RtoC 0) row <> RtoC 0) X) as [EX|NX].
    { intros row. destruct (Ceq_dec (hd (RtoC 0) row) (RtoC 0)); [right; tauto|left; assumption]. }
    + apply Exists_exists in EX. destruct EX as (p & Ip & Np). apply in_split in Ip. destruct Ip as (X1 & X2 & ->).
      destruct p as [|a p]; [now destruct Np|]. cbn [hd] in Np.
      set (f := fun row : list C => map (fun q => Cminus (fst q) (Cmult (Cdiv (hd (RtoC 0) row) a) (snd q))) (combine (tl row) p)).
      assert (Lp : length p = n) by (assert (Q := LR (a :: p) ltac:(apply in_or_app; right; now left)); cbn in Q; lia).
      assert (Lt : forall row, In row (X1 ++ X2) -> exists h q, row = h :: q /\ length q = n).
      { intros row Hr. assert (Q := LR row ltac:(apply in_app_or in Hr; apply in_or_app; cbn; tauto)). destruct row as [|h q]; [discriminate|]. exists h, q. cbn in Q. split; [reflexivity|lia]. }
      destruct (IH n (map f (X1 ++ X2))) as (d & Ld & Z & z & Iz & Nz).
      * rewrite map_length. rewrite app_length in *. cbn in LX. lia.
      * lia.
      * intros row Hr. apply in_map_iff in Hr. destruct Hr as (q & <- & Hq). destruct (Lt q Hq) as (h & q' & -> & Lq). unfold f. cbn [tl]. rewrite map_length, combine_length. lia.
      * exists (Copp (Cdiv (cdot p d) a) :: d). split; [cbn; lia|]. split.
        { intros row Hr. apply in_app_or in Hr. assert (K : In row (X1 ++ X2) -> cdot row (Copp (Cdiv (cdot p d) a) :: d) = RtoC 0).
          { intros Hq. destruct (Lt row Hq) as (h & q & -> & Lq). assert (ZZ := Z (f (h :: q)) (in_map f _ _ Hq)). unfold f in ZZ. cbn [tl hd] in ZZ. rewrite cdot_comb in ZZ by lia.
            rewrite cdot_c. replace (cdot q d) with (Cplus (Cminus (cdot q d) (Cmult (Cdiv h a) (cdot p d))) (Cmult (Cdiv h a) (cdot p d))) by ring. rewrite ZZ. field. exact Np. }
          destruct Hr as [Hr|[<-|Hr]]; [apply K, in_or_app; now left| |apply K, in_or_app; now right].
          rewrite cdot_c. field. exact Np. }
        { exists z. split; [now right|exact Nz]. }
    + exists (RtoC 1 :: repeat (RtoC 0) n). split; [cbn; now rewrite repeat_length|]. split.
      * intros row Hr. assert (H0 : hd (RtoC 0) row = RtoC 0).
        { destruct (Ceq_dec (hd (RtoC 0) row) (RtoC 0)) as [E|E]; [exact E|]. exfalso. apply NX. apply Exists_exists. eauto. }
        destruct row as [|a row]; [reflexivity|]. cbn [hd] in H0. subst a. rewrite cdot_c, cdot_zero by (intros z; apply repeat_spec). ring.
      * exists (RtoC 1). split; [now left|]. intros E. apply (f_equal fst) in E. cbn in E. lra.
Qed.
Lemma rank_rows n X : (forall row, In row X -> length row = n) -> full_rank n X -> (n <= length X)%nat.
Proof.
  intros LR FR. destruct (Nat.le_gt_cases n (length X)) as [H|H]; [exact H|]. exfalso.
  destruct (underdetermined _ n X eq_refl H LR) as (d & Ld & Z & z & Iz & Nz). apply Nz. eapply FR; eauto.
Qed.

(** ** one robust fit *)
Lemma weighted_rank n ws X : length ws = length X -> pos ws -> full_rank n X -> full_rank n (wrows ws X).
Proof.
  intros LW PW FR d Hd Z. apply FR; [exact Hd|]. intros row Hr. apply In_nth with (d := []) in Hr. destruct Hr as (i & Hi & <-).
  assert (I : In (map (Cmult (RtoC (nth i ws 0))) (nth i X [])) (wrows ws X)).
  { unfold wrows. apply in_map_iff. exists (nth i ws 0, nth i X []). split; [reflexivity|]. rewrite <- combine_nth by exact LW. apply nth_In. rewrite combine_length. lia. }
  apply Z in I. rewrite cdot_scaled in I. assert (P : 0 < nth i ws 0) by (unfold pos in PW; rewrite Forall_forall in PW; apply PW, nth_In; lia).
  destruct (Ceq_dec (cdot (nth i X []) d) (RtoC 0)) as [E|E]; [exact E|]. exfalso. revert I. apply Cmult_neq_0; [|exact E]. intros E'. apply (f_equal fst) in E'. cbn in E'. lra.
Qed.

Lemma phi_pos name phi : weight_formula name = Some phi -> In name ["cauchy"; "fair"; "ols"; "welsch"] -> forall r, 0 <= r -> 0 < phi r.
Proof.
  intros W I r Hr. destruct I as [<-|[<-|[<-|[<-|[]]]]]; cbn in W; injection W as <-.
  - apply Rdiv_lt_0_compat; nra.
  - apply Rdiv_lt_0_compat; lra.
  - lra.
  - apply exp_pos.
Qed.

Lemma misfits_n X y b : length X = length y -> length (misfits X y b) = length y.
Proof. intros LX. unfold misfits, csub, cmatvec. rewrite map_length, combine_length, map_length. lia. Qed.

Section Fit.
Variables (L : lib) (X : cmat) (y : list C) (rcond : pyval) (n : nat).
Hypothesis LX : length X = length y.
Hypothesis XR : forall row, In row X -> length row = n.
Hypothesis NR : (n < length X)%nat.
Hypothesis FR : full_rank n X.
Hypothesis LS : lstsq_sums L rcond.
Hypothesis SH : lstsq_shape L.
Hypothesis PE : pinv_exact L.

Lemma solve_ok ws : length ws = length y -> pos ws -> exists ls, wsolve L X y rcond (map Fin ws) = Ok ls /\ length (ls_b ls) = n.
Proof.
  intros LW PW. unfold wsolve. assert (E : all_finite (map Fin ws) = Some ws) by (now apply all_finite_spec). rewrite E.
  assert (LW' : length (wrows ws X) = length X) by (unfold wrows; rewrite map_length, combine_length; lia).
  destruct (LS n (wrows ws X) (wdata ws y)) as (m & r & k & s & H).
  - lia.
  - unfold wdata. rewrite LW', map_length, combine_length. lia.
  - intros row Hr. unfold wrows in Hr. apply in_map_iff in Hr. destruct Hr as ([a q] & <- & Hq). rewrite map_length. apply in_combine_r in Hq. now apply XR.
  - apply weighted_rank; auto. congruence.
  - fold (wrows ws X) (wdata ws y). rewrite H. cbn [bind]. eexists. split; [reflexivity|]. cbn [ls_b].
    destruct X as [|x0 X0] eqn:EX; [cbn in NR; lia|]. destruct ws as [|w0 ws]; [cbn in LW; rewrite <- LW in LX; discriminate|].
    rewrite (SH _ _ _ _ _ _ _ H (map (Cmult (RtoC w0)) x0)) by (left; reflexivity). rewrite map_length. apply XR. now left.
Qed.

Lemma fit_ok name tune tol maxit tn : weight_formula name <> None -> tuning name tune tn -> (1 <= maxit)%nat ->
  (forall lev wfn phi b, leverage L X = Ok lev -> wf_of name = Some wfn -> weight_formula name = Some phi -> length b = n ->
     exists ws, length ws = length y /\ pos ws /\
       map wfn (r_normed (misfits X y b) (map (fun h => xdiv x1 (xmul (Fin tn) (xsqrt (Fin (1 - h))))) lev)) = map Fin ws) ->
  exists r ws, robustfit L X y name tune rcond tol maxit = Ok r /\ length (rf_b r) = n /\ rf_w r = map Fin ws /\ length ws = length y /\ pos ws.
Proof.
  intros WN TU MX NX. assert (X0 : X <> []) by (intros E; rewrite E in NR; cbn in NR; lia).
  destruct (PE n X X0 XR FR) as (P & HP & _). assert (LV : exists lev, leverage L X = Ok lev) by (unfold leverage; rewrite HP; cbn [bind]; eauto).
  destruct LV as [lev LV].
  assert (ET : match tune with Some x => Ok x | None => match dget tune_defaults name with Some x => Ok x | None => Err KeyError end end = Ok tn).
  { destruct tune as [x|]; [cbn in TU; now subst|]. cbn in TU. revert TU. unfold default_tuning, tune_defaults. cbn [dget fst snd].
    byname name; intros TU; try discriminate; injection TU as <-; f_equal; lra. }
  destruct (weight_formula name) as [phi|] eqn:EP; [|congruence].
  assert (EW : exists f, wfunc name = Ok f).
  { revert EP. unfold weight_formula, wfunc. byname name; intros; try discriminate; eauto. }
  destruct EW as [f EW]. destruct (wfunc_spec _ _ EW) as [[Bad _]|(wfn & phi' & W1 & W2 & W3)].
  { exfalso. destruct Bad as [<-|[<-|[<-|[]]]]; discriminate EP. }
  rewrite EP in W2. injection W2 as <-.
  assert (ONE : map (fun _ : C => x1) y = map Fin (map (fun _ => 1) y)) by (rewrite map_map; reflexivity).
  assert (P1 : pos (map (fun _ : C => 1) y)) by (apply Forall_forall; intros w Hw; apply in_map_iff in Hw; destruct Hw as (? & <- & _); lra).
  destruct (solve_ok (map (fun _ => 1) y) ltac:(now rewrite map_length) P1) as (l0 & H0 & _).
  set (rfac := map (fun h => xdiv x1 (xmul (Fin tn) (xsqrt (Fin (1 - h))))) lev).
  destruct (loop_ok L X y rcond tol wfn rfac n solve_ok) with (fuel := maxit) (i := O) (ws := map (fun _ : C => 1) y) (old := @None iter) as (ls & ws & res & it & st & H1 & H2 & H3 & H4).
  { intros b Hb. rewrite residual_misfits. eapply NX; eauto. }
  { now rewrite map_length. } { exact P1. } { lia. } { discriminate. }
  assert (EXT : forall fuel i w old, rf_loop L X y rcond tol f rfac fuel i w old = rf_loop L X y rcond tol (fun r => Ok (map wfn r)) rfac fuel i w old).
  { induction fuel as [|fuel IH]; intros i w old; [reflexivity|]. cbn [rf_loop]. destruct (wsolve L X y rcond w); cbn [bind]; [|reflexivity].
    rewrite W3. cbn [bind]. now rewrite IH. }
  unfold robustfit. rewrite ET, EW, LV. cbn [bind]. rewrite ONE, H0. destruct maxit as [|maxit]; [lia|]. cbn [bind]. fold rfac. rewrite EXT, H1. cbn [bind].
  eexists _, ws. split; [reflexivity|]. auto.
Qed.

Lemma ols_ok tune tol maxit : (1 <= maxit)%nat ->
  exists r ws, robustfit L X y "ols" tune rcond tol maxit = Ok r /\ length (rf_b r) = n /\ rf_w r = map Fin ws /\ length ws = length y /\ pos ws.
Proof.
  intros MX. assert (TU : exists tn, tuning "ols" tune tn) by (destruct tune as [x|]; [exists x; reflexivity|exists 1; reflexivity]). destruct TU as [tn TU].
  apply fit_ok with (tn := tn); auto; [discriminate|]. intros lev wfn phi b LV W1 W2 Lb. injection W1 as <-.
  set (q := r_normed _ _). exists (map (fun _ => 1) q). assert (LQ : length q = length y).
  { unfold q, r_normed. rewrite map_length, combine_length, map_length, misfits_n, (leverage_len _ _ _ LV) by exact LX. lia. }
  split; [now rewrite map_length|]. split.
  - apply Forall_forall. intros w Hw. apply in_map_iff in Hw. destruct Hw as (? & <- & _). lra.
  - rewrite map_map. reflexivity.
Qed.

Lemma single_ok name tune tol tn : weight_formula name <> None -> tuning name tune tn ->
  exists r, robustfit L X y name tune rcond tol 1 = Ok r /\ length (rf_b r) = n.
Proof.
  intros WN TU. assert (X0 : X <> []) by (intros E; rewrite E in NR; cbn in NR; lia).
  destruct (PE n X X0 XR FR) as (P & HP & _). assert (LV : exists lev, leverage L X = Ok lev) by (unfold leverage; rewrite HP; cbn [bind]; eauto).
  destruct LV as [lev LV].
  assert (ET : match tune with Some x => Ok x | None => match dget tune_defaults name with Some x => Ok x | None => Err KeyError end end = Ok tn).
  { destruct tune as [x|]; [cbn in TU; now subst|]. cbn in TU. revert TU. unfold default_tuning, tune_defaults. cbn [dget fst snd].
    byname name; intros TU; try discriminate; injection TU as <-; f_equal; lra. }
  destruct (weight_formula name) as [phi|] eqn:EP; [|congruence].
  assert (EW : exists f, wfunc name = Ok f).
  { revert EP. unfold weight_formula, wfunc. byname name; intros; try discriminate; eauto. }
  destruct EW as [f EW]. destruct (wfunc_spec _ _ EW) as [[Bad _]|(wfn & phi' & W1 & W2 & W3)].
  { exfalso. destruct Bad as [<-|[<-|[<-|[]]]]; discriminate EP. }
  assert (ONE : map (fun _ : C => x1) y = map Fin (map (fun _ => 1) y)) by (rewrite map_map; reflexivity).
  assert (P1 : pos (map (fun _ : C => 1) y)) by (apply Forall_forall; intros w Hw; apply in_map_iff in Hw; destruct Hw as (? & <- & _); lra).
  destruct (solve_ok (map (fun _ => 1) y) ltac:(now rewrite map_length) P1) as (l0 & H0 & H1).
  unfold robustfit. rewrite ET, EW, LV. cbn [bind]. rewrite ONE, H0. cbn [bind]. cbn [rf_loop]. rewrite H0. cbn [bind]. rewrite W3. cbn [bind it_ls it_resid]. eexists. split; [reflexivity|exact H1].
Qed.

Hypothesis SP : forall i d, (i < length X)%nat -> length d = n -> (forall k, (k < length X)%nat -> k <> i -> cdot (nth k X []) d = RtoC 0) -> forall z, In z d -> z = RtoC 0.

Lemma entry_cdot P k i : (k < length X)%nat -> (i < length X)%nat -> entry_at (mat_mul X P) k i = cdot (nth k X []) (map (fun row => nth i row (RtoC 0)) P).
Proof.
  intros Hk Hi. unfold entry_at, mat_mul.
  assert (NM : forall A B (f : A -> B) l d d' k, (k < length l)%nat -> nth k (map f l) d' = f (nth k l d)).
  { intros A B f l d d' j Hj. rewrite (nth_indep _ d' (f d)) by now rewrite map_length. apply map_nth. }
  rewrite (NM _ _ _ X []) by exact Hk. rewrite (NM _ _ _ _ O) by now rewrite seq_length. rewrite seq_nth by exact Hi. cbn [Nat.add].
  unfold cdot. f_equal. generalize (nth k X []). clear. intros row. revert P. induction row as [|c r IH]; intros [|p P]; try reflexivity. cbn [map combine fst snd]. f_equal. apply IH.
Qed.
Lemma lev_lt lev : leverage L X = Ok lev -> Forall (fun h => h < 1) lev.
Proof.
  intros LV. assert (X0 : X <> []) by (intros E; rewrite E in NR; cbn in NR; lia).
  destruct (PE n X X0 XR FR) as (P & HP & LP & PJ). destruct (leverage_spec _ _ _ _ HP LV) as [L1 L2]. assert (LR := leverage_range _ _ _ _ HP PJ LV).
  apply Forall_forall. intros h Hh. rewrite Forall_forall in LR. destruct (LR h Hh) as [_ H1]. destruct (Req_dec h 1) as [->|N]; [|lra]. exfalso.
  apply In_nth with (d := 0) in Hh. destruct Hh as (i & Hi & Eh). rewrite L1 in Hi. rewrite L2 in Eh by exact Hi.
  assert (Z : forall z, In z (map (fun row => nth i row (RtoC 0)) P) -> z = RtoC 0).
  { apply (SP i); [exact Hi|now rewrite map_length|]. intros k Hk Nk. rewrite <- entry_cdot by auto. eapply unit_column; eauto. }
  rewrite entry_cdot, cdot_zero in Eh by auto. rewrite Cmod_0 in Eh. lra.
Qed.

Hypothesis SC : forall b, length b = n -> sigma_hat (misfits X y b) <> 0.

Lemma positive_ok name tune tol maxit tn : In name ["cauchy"; "fair"; "ols"; "welsch"] -> tuning name tune tn -> tn <> 0 -> (1 <= maxit)%nat ->
  exists r ws, robustfit L X y name tune rcond tol maxit = Ok r /\ length (rf_b r) = n /\ rf_w r = map Fin ws /\ length ws = length y /\ pos ws.
Proof.
  intros IN TU TN MX. apply fit_ok with (tn := tn); auto.
  { destruct IN as [<-|[<-|[<-|[<-|[]]]]]; discriminate. }
  intros lev wfn phi b LV W1 W2 Lb. assert (LL := leverage_len _ _ _ LV). assert (LT := lev_lt _ LV). set (z := misfits X y b).
  assert (Sp : 0 < sigma_hat z).
  { assert (A : scale_is z (sigma_hat z)) by (now apply scale_spec). apply scale_nonneg in A. assert (B := SC b Lb). fold z in B. lra. }
  exists (map (fun p => phi (Cmod (fst p) / (Rabs tn * sqrt (1 - snd p) * sigma_hat z))) (combine z lev)).
  split; [|split].
  - rewrite map_length, combine_length. unfold z. rewrite misfits_n by exact LX. lia.
  - apply Forall_forall. intros w Hw. apply in_map_iff in Hw. destruct Hw as ([q h] & <- & Hq). apply in_combine_r in Hq. rewrite Forall_forall in LT. assert (Hh := LT h Hq). cbn [fst snd].
    apply (phi_pos name phi W2 IN). apply Rmult_le_pos; [apply Cmod_ge_0|]. left. apply Rinv_0_lt_compat.
    assert (0 < sqrt (1 - h)) by (apply sqrt_lt_R0; lra). assert (Ta := Rabs_pos_lt tn TN). apply Rmult_lt_0_compat; auto. apply Rmult_lt_0_compat; auto.
  - rewrite map_map. apply (next_formula X y name tn lev wfn phi W1 W2 b TN LT). + now apply scale_spec. + exact Sp.
Qed.
End Fit.
