(** Four hourly values with coloured noise: calls with linearised and with Monte-Carlo intervals. *)
From Coq Require Import Lia Lra Permutation.
From Coquelicot Require Import Coquelicot.
From Verif Require Import M_Base M_Lib M_Tables M_Const M_Options M_Time M_Slvinit M_Harmonics M_Select M_Ellipse
  M_Robust M_Period M_Conf M_Diag M_Solve M_Recon S_Dict S_Options S_Slv S_Order S_Basis S_Tables S_Harm S_Select S_Fit S_Ellipse S_Recon S_Model S_Conf S_Errors S_Period S_Noise S_Accept S_McAccept
  L_Base L_Options L_OptSolve L_Select L_Conf L_Errors5 L_Errors6 L_Period L_Period9 L_Noise L_Noise2 L_Noise3 L_Model11 L_Perm L_Example L_Example4 L_Example5 L_Example7 L_Example8 L_Example9 L_Example10 L_LombEx L_Accept L_Example23 L_Noise4 L_Sampled.
Open Scope R_scope.
Open Scope string_scope.

Section Hour.
Variables (tw : bool) (z a b c : C).
Hypothesis Hreal : tw = false -> snd z = 0 /\ b = Cconj a /\ snd c = 0.
Hypothesis Z1 : fst z <> 0.
Hypothesis Z2 : tw = true -> snd z <> 0.
Notation L := (hL z a b c).
Notation u := (hu z a b c).
Notation v := (hv tw z a b c).
Notation sm := (hsm z a b c).

Lemma h_keys mc : unique_keys (hour_opts mc).
Proof. unfold hour_opts, col_opts. unique_tac. Qed.
Lemma h_unique mc k x y : In k (keys documented) -> setting (hour_opts mc) k x -> setting (hour_opts mc) k y -> x = y.
Proof. apply setting_unique. apply h_keys. Qed.
Lemma h_call mc : documented_call L h_t u v (hour_opts mc) sm.
Proof.
  constructor; [constructor|set_tac].
  - apply h_keys.
  - intros k Hk. cbn in Hk. cbn. tauto.
  - set_tac.
  - exists 1. set_tac.
  - intros x y H _. assert (E : setting (hour_opts mc) "order_constit" (PStr "frequency")) by set_tac.
    rewrite (fun K => h_unique _ _ _ _ K H E) by (cbn; tauto). split; [unfold sorted_order; tauto|discriminate].
  - right. exists ["M2"]. split; [|set_tac]. intros n [<-|[]]. vm_compute. tauto.
  - exists (PStr "python"). split; [set_tac|]. now apply h_samples.
  - discriminate.
Qed.
Lemma h_eval mc : evaluable 45 (hour_opts mc) sm.
Proof.
  constructor.
  - intros x H N. exfalso. apply N. assert (E : setting (hour_opts mc) "nodal" (PBool false)) by set_tac.
    rewrite (fun K => h_unique _ _ _ _ K H E) by (cbn; tauto). apply truthy_falsy. reflexivity.
  - intros x H N. exfalso. apply N. assert (E : setting (hour_opts mc) "trend" (PBool false)) by set_tac.
    rewrite (fun K => h_unique _ _ _ _ K H E) by (cbn; tauto). apply truthy_falsy. reflexivity.
  - intros H. exfalso. assert (E : setting (hour_opts mc) "constit" (PSeq [PStr "M2"])) by set_tac.
    assert (K := fun K => h_unique _ _ _ _ K H E). discriminate (K ltac:(cbn; tauto)).
Qed.
Lemma h_kind mc : options_but_kind (hour_opts mc) (hour_opts (negb mc)).
Proof.
  intros k x K1 _. unfold setting. cbn [hour_opts In keys map fst].
  split; (intros [H|H]; [left|right]); [destruct H as [H|H]; [congruence|now right]|exact H|destruct H as [H|H]; [congruence|now right]|exact H].
Qed.
Lemma h_mvn_returns : mvn_returns L.
Proof. intros k m cv n _. eexists. reflexivity. Qed.
Lemma h_svd_returns : svd_returns L.
Proof.
  intros n M [S1 S2] SY. unfold hL. cbn [hourL l_svd]. destruct n as [|[|n]].
  - destruct M as [|[|x [|? [|]]] [|]]; try discriminate; cbn; eauto.
  - destruct M as [|r0 [|r1 [|]]]; try discriminate. inversion S2 as [|? ? A H3]; subst. inversion H3 as [|? ? A' _]; subst.
    destruct r0 as [|x [|y [|]]]; try discriminate. destruct r1 as [|y' [|w [|]]]; try discriminate.
    specialize (SY 0%nat 1%nat ltac:(lia) ltac:(lia)). unfold entry_of in SY. cbn [nth] in SY. cbn [sym_svd]. destruct (Req_EM_T y y') as [_|N]; [|congruence]. destruct (Req_EM_T y 0); eauto.
  - destruct M as [|r0 [|r1 [|r2 M]]]; try discriminate. cbn [sym_svd]. destruct r0 as [|x [|y [|]]]; eauto. destruct r1 as [|x' [|y' [|]]]; eauto.
Qed.
Lemma h_eigvals_returns : eigvals_returns L.
Proof. intros n M _. eexists. reflexivity. Qed.
Lemma h_lomb : lomb_contract L.
Proof. now apply power_contract. Qed.

Lemma h_noise (k : coef) rs : c_name k = ["M2"] -> o_notrend (c_opt k) = true -> residuals k sm rs -> rs = map (fun i => Cmult (RtoC (hn i)) z) [0; 1; 2; 3]%nat ->
  (exists q, noise_variance fst k sm q /\ q <> 0) /\ (tw = true -> exists q, noise_variance snd k sm q /\ 0 < q).
Proof.
  intros E5 E3 RS ->. split; [|intros T]; (eexists; split; [eexists; split; [exact RS|reflexivity]|]; try apply Rgt_not_eq; apply Rdiv_lt_0_compat; [|unfold params; rewrite E5, E3; cbn; lra]).
  - apply h_squares_u. exact Z1.
  - apply h_squares_v. auto.
Qed.

Lemma h_level x frqs levels : Permutation (map Some frqs) [Some hf] -> length x = 4%nat -> noise_spectrum hourly x frqs levels ->
  forall T, 0 < T -> exists P, noise_at T levels hf (Fin P).
Proof.
  intros PF Lx NS T HT. assert (frqs = [hf]).
  { apply Permutation_sym, Permutation_length_1_inv in PF. apply (f_equal (map (fun o => match o with Some x => x | None => 0 end))) in PF. rewrite map_map, map_id in PF. exact PF. }
  subst frqs. destruct NS as (near & NR & BL).
  assert (EE : length (even_part x) = 4%nat).
  { unfold even_part. rewrite Lx. rewrite firstn_all2 by (cbn; lia). exact Lx. }
  rewrite EE in *. change (nth 1 hourly 0) with (1 / 24) in *. change (nth 0 hourly 0) with 0 in *. rewrite hourly_grid in *.
  assert (N9 : length levels = 9%nat) by (apply Forall2_len in BL; rewrite <- BL; reflexivity).
  assert (NA := level_noise T levels hf HT N9). destruct (level_at T _ _ _ NR BL _ NA) as [P E]. rewrite E in NA. eauto.
Qed.
End Hour.

Lemma h_eff : 0 < effective_length hourly.
Proof. apply effective_pos; [exact hourly_incr|cbn; lia]. Qed.

Lemma h_scalar : exists k q, analysis (hL (RtoC 1) (1, 2) (Cconj (1, 2)) (RtoC 3)) h_t (hu (RtoC 1) (1, 2) (Cconj (1, 2)) (RtoC 3)) None (Some 45) (hour_opts false) (hsm (RtoC 1) (1, 2) (Cconj (1, 2)) (RtoC 3)) k /\
  (params k < 4)%nat /\ (forall r, In r (rows k) -> measured r) /\ noise_variance fst k (hsm (RtoC 1) (1, 2) (Cconj (1, 2)) (RtoC 3)) q /\ q <> 0 /\ rows k <> [].
Proof.
  destruct (h_run false false (RtoC 1) (1, 2) (Cconj (1, 2)) (RtoC 3)) as (k & AN & E1 & E2 & E3 & E4 & E5 & RS & r & R1 & R2 & R3 & R4 & R5 & _ & R7).
  { intros _. cbn. auto. }
  { cbn. lra. }
  { discriminate. }
  destruct (h_noise false (RtoC 1) (1, 2) (Cconj (1, 2)) (RtoC 3) ltac:(cbn; lra) ltac:(discriminate) k _ E5 E3 RS eq_refl) as [(q & NQ & QZ) _].
  exists k, q. split; [exact AN|]. assert (PN : (params k < 4)%nat) by (unfold params; rewrite E5, E3; cbn; lia). split; [exact PN|]. split; [|split; [exact NQ|split; [exact QZ|rewrite R7; discriminate]]].
  rewrite R7. intros r' [<-|[]].
  assert (M : lstsq_minimises (hL (RtoC 1) (1, 2) (Cconj (1, 2)) (RtoC 3))) by apply h_minimises.
  assert (I : inv_exact (hL (RtoC 1) (1, 2) (Cconj (1, 2)) (RtoC 3))) by apply hour_inv.
  assert (S1 : setting (hour_opts false) "method" (PStr "ols")) by set_tac. assert (S2 : setting (hour_opts false) "infer" PNone) by set_tac.
  assert (S3 : setting (hour_opts false) "conf_int" (PStr "linear")) by set_tac. assert (S4 : setting (hour_opts false) "white" (PBool false)) by set_tac.
  destruct (errors_exist _ _ _ _ _ _ _ _ AN M I S1 S2 S3 PN r 47%nat R1 R2) as ((wX & BX & _) & (wY & BY & _) & _ & _).
  destruct (coloured_scalar _ _ _ _ _ _ _ AN M I S1 S2 S3 S4 PN (map Fin hourly)) with (rs := map (fun i => Cmult (RtoC (hn i)) (RtoC 1)) [0; 1; 2; 3]%nat) as (series & frqs & levels & SER & PF & NS & H).
  { rewrite E4. reflexivity. } { exact E2. } { exact hourly_incr. } { exact RS. }
  destruct (H r 47%nat (e_maj (ellipse_of false (1, 2) (Cconj (1, 2)))) (e_g (ellipse_of false (1, 2) (Cconj (1, 2)))) hf R1 R2 (R5 eq_refl) R4) with (wX := wX) (wY := wY) (q := q) as (lev & NA & HH); auto.
  { unfold ellipse_of, cs2cep1, e_maj, Xu_of, Yu_of, Cmod. cbn. apply Rgt_not_eq, sqrt_lt_R0. lra. }
  { destruct NQ as (rs' & RS' & ->). assert (0 <= rsum (map (fun r0 : C => fst r0 ^ 2) rs')) by apply sumsq_nonneg. assert (0 < INR (length (hsm (RtoC 1) (1, 2) (Cconj (1, 2)) (RtoC 3))) - INR (params k)).
    { apply lt_INR in PN. cbn [INR] in PN. change (length (hsm (RtoC 1) (1, 2) (Cconj (1, 2)) (RtoC 3))) with 4%nat. cbn [INR]. lra. }
    assert (0 <= / (INR (length (hsm (RtoC 1) (1, 2) (Cconj (1, 2)) (RtoC 3))) - INR (params k))) by (left; now apply Rinv_0_lt_compat). unfold Rdiv in *. assert (0 <= rsum (map (fun r0 : C => fst r0 ^ 2) rs') * / (INR (length (hsm (RtoC 1) (1, 2) (Cconj (1, 2)) (RtoC 3))) - INR (params k))) by now apply Rmult_le_pos. lra. }
  destruct (h_level series frqs levels) with (T := effective_length hourly) as [P NP]; auto.
  { rewrite R7 in PF. cbn [map] in PF. rewrite R3 in PF. exact PF. }
  { destruct SER as [_ E]. cbn in E. rewrite E. reflexivity. }
  { exact h_eff. }
  assert (E : lev = Fin P) by (eapply noise_at_unique; [exact NA|exact NP]). rewrite E in HH. destruct HH as (_ & HA & _). eexists. left. exact HA.
Qed.

Lemma circ_maj Xu Yu Xv Yv : circular Xu Yu Xv Yv -> maj_of Xu Yu Xv Yv = min_of Xu Yu Xv Yv \/ maj_of Xu Yu Xv Yv = - min_of Xu Yu Xv Yv.
Proof.
  unfold maj_of, min_of, cs2cep2, e_maj, e_min. cbn [fst snd]. intros [[-> ->]|[-> ->]].
  - left. replace (Cmod ((Xu - Xu) / 2, (Xv + - Xv) / 2)) with 0; [ring|]. symmetry. replace ((Xu - Xu) / 2, (Xv + - Xv) / 2) with (RtoC 0) by (unfold RtoC; f_equal; field). apply Cmod_0.
  - right. replace (Cmod ((Xu + - Xu) / 2, (Xv - Xv) / 2)) with 0; [ring|]. symmetry. replace ((Xu + - Xu) / 2, (Xv - Xv) / 2) with (RtoC 0) by (unfold RtoC; f_equal; field). apply Cmod_0.
Qed.

Lemma h_vector : exists k q, analysis (hL (1, 2) (2, 1) (1, 0) (5, 6)) h_t (hu (1, 2) (2, 1) (1, 0) (5, 6)) (hv true (1, 2) (2, 1) (1, 0) (5, 6)) (Some 45) (hour_opts false) (hsm (1, 2) (2, 1) (1, 0) (5, 6)) k /\
  (params k < 4)%nat /\ (forall r, In r (rows k) -> measured r) /\ noise_variance fst k (hsm (1, 2) (2, 1) (1, 0) (5, 6)) q /\ q <> 0.
Proof.
  destruct (h_run false true (1, 2) (2, 1) (1, 0) (5, 6)) as (k & AN & E1 & E2 & E3 & E4 & E5 & RS & r & R1 & R2 & R3 & R4 & _ & R6 & R7).
  { discriminate. }
  { cbn. lra. }
  { cbn. lra. }
  destruct (h_noise true (1, 2) (2, 1) (1, 0) (5, 6) ltac:(cbn; lra) ltac:(cbn; lra) k _ E5 E3 RS eq_refl) as [(q & NQ & QZ) NV]. destruct (NV eq_refl) as (qv & NV' & QV).
  exists k, q. split; [exact AN|]. assert (PN : (params k < 4)%nat) by (unfold params; rewrite E5, E3; cbn; lia). split; [exact PN|]. split; [|auto].
  rewrite R7. intros r' [<-|[]].
  assert (M : lstsq_minimises (hL (1, 2) (2, 1) (1, 0) (5, 6))) by apply h_minimises.
  assert (I : inv_exact (hL (1, 2) (2, 1) (1, 0) (5, 6))) by apply hour_inv.
  assert (S1 : setting (hour_opts false) "method" (PStr "ols")) by set_tac. assert (S2 : setting (hour_opts false) "infer" PNone) by set_tac.
  assert (S3 : setting (hour_opts false) "conf_int" (PStr "linear")) by set_tac. assert (S4 : setting (hour_opts false) "white" (PBool false)) by set_tac.
  destruct (run_intervals_any _ _ _ _ _ _ _ _ AN M I S1 S2 S3 PN) as (si & frq & p & _ & _ & _ & RI).
  destruct (RI r 47%nat R1 R2) as (kk & wX & wY & qu' & qv' & _ & BX & BY & NU' & NVV & _ & _ & RJ). rewrite E1 in RJ. cbv zeta in RJ. destruct RJ as (J1 & J2 & _).
  destruct (coloured_vector _ _ _ _ _ _ _ _ AN M I S1 S2 S3 S4 PN (map Fin hourly)) with (rs := map (fun i => Cmult (RtoC (hn i)) (1, 2)) [0; 1; 2; 3]%nat) as (series & frqs & levels & SER & PF & NS & H).
  { rewrite E4. reflexivity. } { exact E2. } { exact hourly_incr. } { exact RS. }
  destruct (h_level series frqs levels) with (T := effective_length hourly) as [P NP]; auto.
  { rewrite R7 in PF. cbn [map] in PF. rewrite R3 in PF. exact PF. }
  { destruct SER as [_ E]. cbn in E. rewrite E. reflexivity. }
  { exact h_eff. }
  destruct (H r 47%nat hf P R1 R2 R3) with (wX := wX) (wY := wY) (qu := q) (qv := qv) as (_ & dmaj & dmin & dth & dg & _ & _ & _ & _ & HA & _); auto.
  - destruct (R6 eq_refl) as [X1 X2]. rewrite J1 in X1. rewrite J2 in X2. injection X1 as X1. injection X2 as X2.
    intros CI. apply circ_maj in CI. rewrite X1, X2 in CI. unfold ellipse_of, cs2cep2, e_maj, e_min, Xu_of, Yu_of, Xv_of, Yv_of in CI. cbn [fst snd Cplus Cminus Copp] in CI.
    set (p1 := Cmod _) in CI. set (p2 := Cmod _) in CI.
    assert (Q1 : p1 <> 0). { unfold p1. apply Rgt_not_eq. unfold Cmod. apply sqrt_lt_R0. cbn. lra. }
    assert (Q2 : p2 <> 0). { unfold p2. apply Rgt_not_eq. unfold Cmod. apply sqrt_lt_R0. cbn. lra. }
    destruct CI as [CI|CI]; lra.
  - eexists. right. exact HA.
Qed.

(** white noise and Monte-Carlo intervals *)
Definition wh_opts : dict pyval :=
  [("conf_int", PStr "MC"); ("constit", PSeq [PStr "M2"]); ("nodal", PBool false); ("phase", PStr "raw"); ("trend", PBool false); ("white", PBool true); ("epoch", PStr "python")].
Lemma wh_keys : unique_keys wh_opts.
Proof. unfold wh_opts. unique_tac. Qed.
Lemma wh_unique k x y : In k (keys documented) -> setting wh_opts k x -> setting wh_opts k y -> x = y.
Proof. apply setting_unique. apply wh_keys. Qed.
Lemma wh_call : documented_call retL ex_t ac_u None wh_opts ac_sm.
Proof.
  constructor; [constructor|set_tac].
  - apply wh_keys.
  - intros k Hk. cbn in Hk. cbn. tauto.
  - set_tac.
  - exists 1. set_tac.
  - intros x y H _. assert (E : setting wh_opts "order_constit" PNone) by set_tac.
    rewrite (fun K => wh_unique _ _ _ K H E) by (cbn; tauto). split; [left; reflexivity|discriminate].
  - right. exists ["M2"]. split; [|set_tac]. intros n [<-|[]]. vm_compute. tauto.
  - exists (PStr "python"). split; [set_tac|exact ac_samples].
  - discriminate.
Qed.
Lemma wh_eval : evaluable 45 wh_opts ac_sm.
Proof.
  constructor.
  - intros x H N. exfalso. apply N. assert (E : setting wh_opts "nodal" (PBool false)) by set_tac.
    rewrite (fun K => wh_unique _ _ _ K H E) by (cbn; tauto). apply truthy_falsy. reflexivity.
  - intros x H N. exfalso. apply N. assert (E : setting wh_opts "trend" (PBool false)) by set_tac.
    rewrite (fun K => wh_unique _ _ _ K H E) by (cbn; tauto). apply truthy_falsy. reflexivity.
  - intros H. exfalso. assert (E : setting wh_opts "constit" (PSeq [PStr "M2"])) by set_tac.
    assert (K := fun K => wh_unique _ _ _ K H E). discriminate (K ltac:(cbn; tauto)).
Qed.
Lemma wh_same : options_but_intervals wh_opts (ac_opts "none").
Proof.
  intros k x K1 K2 K3. unfold setting, entry. cbn [wh_opts ac_opts In keys map fst].
  split; (intros [H|H]; [left|right]); try exact H; repeat (destruct H as [H|H]; [first [exfalso; congruence | tauto]|]); destruct H.
Qed.
Lemma ret_mvn : mvn_shape retL.
Proof. exact (noisy_mvn [] [] []). Qed.
Lemma ret_mvn_returns : mvn_returns retL.
Proof. intros k m cv n _. eexists. reflexivity. Qed.
