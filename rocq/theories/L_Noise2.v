(** Noise levels of a whole analysis of an evenly spaced record. *)
From Coq Require Import Lia Lra Permutation.
From Coquelicot Require Import Coquelicot.
From Verif Require Import M_Base M_Lib M_Options M_Time M_Slvinit M_Ellipse M_Period M_Conf M_Diag M_Solve M_Recon S_Dict S_Options S_Order S_Basis S_Fit S_Ellipse S_Slv S_Recon S_Model S_Conf S_Errors S_Period S_Noise
  L_Base L_Options L_SolveInv L_OptSolve L_Slv L_Slv2 L_Select L_Fit L_Lsq L_Core L_Model L_Model2 L_Model3 L_Model7 L_Model9 L_Model11 L_Conf4 L_Period L_Period2 L_Period3 L_Period9 L_Errors5 L_Errors6 L_Noise.
Open Scope R_scope.
Open Scope string_scope.

(** ** The order of time *)
Lemma incr_tl x l : increasing (x :: l) -> increasing l.
Proof. intros H i Hi. apply (H (S i)). cbn. lia. Qed.
Lemma incr_hd x l y : increasing (x :: l) -> In y l -> x < y.
Proof.
  intros H Hy. apply (In_nth _ _ 0) in Hy. destruct Hy as (k & Hk & <-).
  change x with (nth 0 (x :: l) 0). change (nth k l 0) with (nth (S k) (x :: l) 0). apply incr_lt; auto. cbn. lia.
Qed.
Lemma incr_cons x l : (forall y, In y l -> x < y) -> increasing l -> increasing (x :: l).
Proof.
  intros H I [|i] Hi.
  - cbn [nth]. destruct l as [|y l]; [cbn in Hi; lia|]. apply H. now left.
  - apply (I i). cbn in Hi. lia.
Qed.
(** what is kept of an increasing series is increasing *)
Inductive kept {A} : list A -> list A -> Prop :=
| kept_nil : kept [] []
| kept_keep x l l' : kept l l' -> kept (x :: l) (x :: l')
| kept_drop x l l' : kept l l' -> kept l (x :: l').
Lemma kept_in {A} (l l' : list A) x : kept l l' -> In x l -> In x l'.
Proof. intros H. induction H; cbn; intuition. Qed.
Lemma kept_incr l l' : kept l l' -> increasing l' -> increasing l.
Proof.
  intros H. induction H as [|x l l' H IH|x l l' H IH]; intros I; auto.
  - apply incr_cons; [|apply IH; eapply incr_tl; eauto]. intros y Hy. eapply incr_hd; eauto. eapply kept_in; eauto.
  - apply IH. eapply incr_tl; eauto.
Qed.
Lemma kept_none {A} (l : list A) : kept [] l.
Proof. induction l; constructor; auto. Qed.
Lemma kept_scalar xs us um : kept (map fst (valid_scalar xs us um)) (valid_times xs).
Proof.
  unfold valid_scalar, valid_times. generalize (combine us (full_mask (length us) um)). intros d. revert d.
  induction xs as [|x xs IH]; intros d; [cbn; constructor|]. cbn [flat_map].
  destruct d as [|[y b] d]; cbn [combine flat_map map].
  - apply kept_none.
  - destruct x; try exact (IH d). destruct y as [y| | |]; [|apply kept_drop; exact (IH d)..]. destruct b; [apply kept_drop|apply kept_keep]; exact (IH d).
Qed.
Lemma kept_vector xs us um vs vm : kept (map (fun s => fst (fst s)) (valid_vector xs us um vs vm)) (valid_times xs).
Proof.
  unfold valid_vector, valid_times. generalize (combine (combine us (full_mask (length us) um)) (combine vs (full_mask (length vs) vm))). intros d. revert d.
  induction xs as [|x xs IH]; intros d; [cbn; constructor|]. cbn [flat_map].
  destruct d as [|[[y b] [z b']] d]; cbn [combine flat_map map].
  - apply kept_none.
  - destruct x; try exact (IH d). destruct y as [y| | |]; [|apply kept_drop; exact (IH d)..]. destruct b; [apply kept_drop; exact (IH d)|].
    destruct z as [z| | |]; [|apply kept_drop; exact (IH d)..]. destruct b'; [apply kept_drop|apply kept_keep]; exact (IH d).
Qed.
Lemma kept_len {A} (l l' : list A) : kept l l' -> (length l <= length l')%nat.
Proof. intros H. induction H; cbn; lia. Qed.

(** ** The effective record length of an evenly spaced record *)
Lemma incr_ends l a b : increasing l -> In a l -> In b l -> (forall x, In x l -> a <= x <= b) -> a = hd 0 l /\ b = last l 0.
Proof.
  intros I Ha Hb H. destruct l as [|x l]; [destruct Ha|]. cbn [hd]. split.
  - destruct Ha as [->|Ha]; [reflexivity|]. assert (K := incr_hd _ _ _ I Ha). assert (K' := H x (or_introl eq_refl)). lra.
  - rewrite last_nth'. apply (In_nth _ _ 0) in Hb. destruct Hb as (k & Hk & <-). set (n := length (x :: l)) in *.
    assert (K : nth k (x :: l) 0 <= nth (n - 1) (x :: l) 0) by (apply incr_le; [exact I|fold n; lia]).
    assert (K' : In (nth (n - 1) (x :: l) 0) (x :: l)) by (apply nth_In; fold n; unfold n; cbn; lia). apply H in K'. lra.
Qed.
Lemma even_length L t u v lat opts sm c xs si : analysis L t u v lat opts sm c ->
  normalize_time (l_parse L) (arr_data t) (o_epoch (c_opt c)) = Ok xs -> o_equi (c_opt c) = true -> increasing (valid_times xs) ->
  slvinit (l_parse L) t u v lat (o_epoch (c_opt c)) = Ok si ->
  (2 <= length sm)%nat ->
  si_tin si = valid_times xs /\ kept (map fst sm) (valid_times xs) /\ si_elor si = Fin (effective_length (valid_times xs)).
Proof.
  intros AN Hx He Hi Hs Hn.
  destruct (solve_slv _ _ _ _ _ _ _ (an_keys _ _ _ _ _ _ _ _ AN) (an_solve _ _ _ _ _ _ _ _ AN)) as (si' & la & _ & Hs' & _ & _ & Heq & _).
  rewrite Hs in Hs'. apply Ok_inj in Hs'. subst si'. rewrite He in Heq.
  destruct (an_samples _ _ _ _ _ _ _ _ AN) as (e & Ee & SM).
  assert (Ep := set_epoch _ _ _ _ _ _ (an_keys _ _ _ _ _ _ _ _ AN) _ (an_solve _ _ _ _ _ _ _ _ AN) _ Ee). rewrite Ep in *.
  destruct SM as [n t mt us um xs' H1 Hn' Hl|n t mt us um vs vm xs' H1 H2 Hn' Hl]; cbn [arr_data] in Hx; rewrite Hn' in Hx; apply Ok_inj in Hx; subst xs'.
  - destruct (fitted_scalar _ _ _ _ _ _ _ _ _ _ H1 Hn' Hl Hs) as (_ & _ & _ & FT).
    destruct (base_lemma _ _ _ _ _ _ _ _ _ _ H1 Hn' Hl Hs) as (a & b & lo & hi & _ & _ & L1 & L2 & L3 & _ & _ & L5). rewrite <- Heq in *.
    rewrite !map_map. cbn [fst]. assert (K := kept_scalar xs us um). split; [exact FT|]. split; [exact K|].
    rewrite map_length in Hn. assert (KL := kept_len _ _ K). rewrite map_length in KL. rewrite L5 by lia. unfold effective_length.
    destruct (incr_ends _ _ _ Hi L1 L2 L3) as [-> ->]. reflexivity.
  - destruct (fitted_vector _ _ _ _ _ _ _ _ _ _ _ _ H1 H2 Hn' Hl Hs) as (_ & _ & _ & FT).
    destruct (base_lemma_vector _ _ _ _ _ _ _ _ _ _ _ _ H1 H2 Hn' Hl Hs) as (a & b & lo & hi & _ & _ & L1 & L2 & L3 & _ & _ & L5). rewrite <- Heq in *.
    rewrite !map_map. cbn [fst]. assert (K := kept_vector xs us um vs vm). split; [exact FT|]. split; [exact K|].
    rewrite map_length in Hn. assert (KL := kept_len _ _ K). rewrite map_length in KL. rewrite L5 by lia. unfold effective_length.
    destruct (incr_ends _ _ _ Hi L1 L2 L3) as [-> ->]. reflexivity.
Qed.
Lemma effective_pos t : increasing t -> (2 <= length t)%nat -> 0 < effective_length t.
Proof.
  intros I N. unfold effective_length. rewrite hd_nth, last_nth'. apply Rmult_lt_0_compat; [|apply lt_0_INR; lia].
  apply Rdiv_lt_0_compat; [|apply lt_0_INR; lia]. assert (K := incr_lt t 0 (length t - 1) I ltac:(lia)). lra.
Qed.

(** ** Levels *)
Lemma noise_at_unique T l f x y : noise_at T l f x -> noise_at T l f y -> x = y.
Proof.
  intros [A1 A2] [B1 B2].
  destruct (Forall_Exists_dec (fun b => ~ (fst (nth b tidal_bands (0, 0)) <= f <= snd (nth b tidal_bands (0, 0)))) (fun b =>
    ltac:(destruct (Rle_dec (fst (nth b tidal_bands (0, 0))) f); [destruct (Rle_dec f (snd (nth b tidal_bands (0, 0))))|]; [right; tauto|left; tauto|left; tauto])) (seq 0 9)) as [H|H].
  - rewrite Forall_forall in H. rewrite A2, B2; auto; intros b Hb; apply H; apply in_seq; lia.
  - apply Exists_exists in H. destruct H as (b & Hb & H). apply in_seq in Hb.
    assert (K : fst (nth b tidal_bands (0, 0)) <= f <= snd (nth b tidal_bands (0, 0))).
    { destruct (Rle_dec (fst (nth b tidal_bands (0, 0))) f); [destruct (Rle_dec f (snd (nth b tidal_bands (0, 0))))|]; tauto. }
    rewrite (A1 b), (B1 b); auto; lia.
Qed.
Lemma mean_nonneg P freq near lo hi x : (forall i, 0 <= nth i P 0) -> band_mean P freq near lo hi x -> match x with Some m => 0 <= m | None => True end.
Proof.
  intros H (idx & _ & _ & K). destruct x as [m|]; [|exact I]. destruct K as [N K].
  assert (S : 0 <= rsum (map (fun i => nth i P 0) idx)).
  { clear K N. induction idx as [|i l IH]; [unfold rsum; cbn; lra|]. cbn [map]. rewrite rsum_cons. assert (Q := H i). lra. }
  assert (0 < INR (length idx)) by (apply lt_0_INR; destruct idx; [congruence|cbn; lia]). nra.
Qed.
Lemma F2len {A B} (Q : A -> B -> Prop) l l' : Forall2 Q l l' -> length l = length l'.
Proof. intros H. induction H; cbn; congruence. Qed.
Lemma Forall2_at {A B} (Q : A -> B -> Prop) l l' k y : Forall2 Q l l' -> nth_error l' k = Some y -> exists x, nth_error l k = Some x /\ Q x y.
Proof.
  intros H. revert k. induction H as [|a b l l' Hab H IH]; intros [|k] Hk; try discriminate.
  - injection Hk as <-. exists a. auto.
  - apply IH. exact Hk.
Qed.
Lemma spectrum_nonneg times x frqs levels : increasing times -> (2 <= length times)%nat -> (2 <= length x)%nat -> noise_spectrum times x frqs levels ->
  forall b m, nth b levels None = Some m -> 0 <= m.
Proof.
  intros I N N' (near & _ & B) b m Hm. unfold band_levels in B.
  assert (H : forall b x', nth_error levels b = Some x' -> match x' with Some m => 0 <= m | None => True end).
  { intros k y Hk. destruct (Forall2_at _ _ _ _ _ B Hk) as (q & _ & Q). apply mean_nonneg in Q; auto.
    intros i. apply co_nonneg.
    - apply Rdiv_lt_0_compat; [lra|]. assert (K := I 0%nat ltac:(lia)). lra.
    - apply hann_energy. unfold even_part. rewrite firstn_length.
      assert (1 <= length x / 2)%nat by (apply Nat.div_le_lower_bound; lia). assert (2 * (length x / 2) <= length x)%nat by (apply Nat.mul_div_le; lia). lia. }
  destruct (nth_error levels b) as [y|] eqn:E.
  - apply H in E as K. rewrite (nth_error_nth _ _ _ E) in Hm. subst y. exact K.
  - rewrite nth_overflow in Hm; [discriminate|]. now apply nth_error_None.
Qed.
Lemma noise_nonneg T times x frqs levels f y : 0 < T -> increasing times -> (2 <= length times)%nat -> (2 <= length x)%nat -> noise_spectrum times x frqs levels ->
  noise_at T levels f y -> (exists P, y = Fin P /\ 0 <= P) \/ y = NaN.
Proof.
  intros HT I N N' S A. 
  assert (E : y = Fin 0 \/ exists b, y = power_of T (nth b levels None)).
  { destruct A as [A1 A2].
    destruct (Forall_Exists_dec (fun b => ~ (fst (nth b tidal_bands (0, 0)) <= f <= snd (nth b tidal_bands (0, 0)))) (fun b =>
      ltac:(destruct (Rle_dec (fst (nth b tidal_bands (0, 0))) f); [destruct (Rle_dec f (snd (nth b tidal_bands (0, 0))))|]; [right; tauto|left; tauto|left; tauto])) (seq 0 9)) as [H|H].
    - rewrite Forall_forall in H. left. apply A2. intros b Hb. apply H, in_seq. lia.
    - apply Exists_exists in H. destruct H as (b & Hb & H). apply in_seq in Hb. right. exists b. apply A1; [lia|].
      destruct (Rle_dec (fst (nth b tidal_bands (0, 0))) f); [destruct (Rle_dec f (snd (nth b tidal_bands (0, 0))))|]; tauto. }
  destruct E as [->|[b ->]]; [left; exists 0; split; [reflexivity|lra]|].
  destruct (nth b levels None) as [m|] eqn:Em; cbn [power_of]; [|auto]. left. exists (m / (24 * T)). split; [reflexivity|].
  assert (0 <= m) by (eapply spectrum_nonneg; eauto). apply Rmult_le_pos; [assumption|]. apply Rlt_le, Rinv_0_lt_compat. lra.
Qed.

Lemma series_len equi tin t e times u : length e = length t -> (length t <= length tin)%nat -> residual_series equi tin t e times u -> equi = true -> length u = length tin.
Proof.
  intros He Hl H ->. destruct H as [_ H]. destruct (Nat.ltb (length t) (length tin)) eqn:E.
  - apply F2len in H. congruence.
  - apply Nat.ltb_ge in E. subst u. lia.
Qed.

(** the noise levels behind the intervals of an evenly spaced record *)
Lemma even_noise L t u v lat opts sm c xs si frq p rs : analysis L t u v lat opts sm c ->
  normalize_time (l_parse L) (arr_data t) (o_epoch (c_opt c)) = Ok xs -> o_equi (c_opt c) = true -> o_white (c_opt c) = false ->
  increasing (valid_times xs) -> slvinit (l_parse L) t u v lat (o_epoch (c_opt c)) = Ok si -> (2 <= length sm)%nat -> residuals c sm rs ->
  noise_behind L c sm si frq p ->
  let tin := valid_times xs in let T := effective_length tin in
  exists U lu pu q, p = Some (pu, q) /\ residual_series true tin (map fst sm) (map fst rs) tin U /\ length U = length tin /\
    noise_spectrum tin U frq lu /\ Forall2 (noise_at T lu) frq pu /\
    (o_twodim (c_opt c) = true -> exists V lv pv puv, residual_series true tin (map fst sm) (map snd rs) tin V /\ length V = length tin /\
      noise_spectrum tin V frq lv /\ q = Some (pv, puv) /\ Forall2 (noise_at T lv) frq pv /\
      exists luv, cross_noise_spectrum tin U V frq luv /\ Forall2 (noise_at T luv) frq puv).
Proof.
  intros AN Hx He Hw Hi Hs Hn RS NB. cbv zeta.
  destruct (even_length _ _ _ _ _ _ _ _ _ _ AN Hx He Hi Hs Hn) as (ET & K & EL).
  unfold noise_behind in NB. rewrite Hw in NB. destruct NB as (rs' & pp & RS' & NB & ->).
  rewrite (residuals_same _ _ _ RS' _ RS) in NB. clear rs' RS'. rewrite ET, EL, He in NB. destruct pp as [pu q].
  assert (KL := kept_len _ _ K). rewrite map_length in KL.
  assert (N2 : (2 <= length (valid_times xs))%nat) by lia.
  assert (LR : length rs = length sm) by (symmetry; eapply F2len; exact RS).
  assert (Lf : length (map fst rs) = length (map fst sm)) by (rewrite !map_length; exact LR).
  assert (Ls : length (map snd rs) = length (map fst sm)) by (rewrite !map_length; exact LR).
  assert (Lv : forall v', oif (o_twodim (c_opt c)) (map snd rs) = Some v' -> length v' = length (map fst sm)).
  { intros v' E. destruct (o_twodim (c_opt c)); cbn [oif] in E; [injection E as <-; exact Ls|discriminate]. }
  assert (Lw : o_twodim (c_opt c) = true -> oif (o_twodim (c_opt c)) (map snd rs) <> None) by (intros ->; discriminate).
  destruct (noise_levels _ _ _ _ _ _ _ _ _ _ _ (effective_pos _ Hi N2) (kept_incr _ _ K Hi) Lf
    Lv Lw NB) as (times & U & V & pp & R1 & R2 & BP & FU & FV).
  assert (times = valid_times xs) by apply R1. subst times.
  assert (KL' : (length (map fst sm) <= length (valid_times xs))%nat) by (now rewrite map_length).
  assert (LU := series_len _ _ _ _ _ _ Lf KL' R1 eq_refl).
  assert (LV : forall w, V = Some w -> length w = length (valid_times xs)).
  { intros w ->. destruct (o_twodim (c_opt c)); cbn [oif] in R2; [|destruct R2]. exact (series_len _ _ _ _ _ _ Ls KL' R2 eq_refl). }
  destruct (band_even' L (valid_times xs) U V frq LU LV N2 (Hi 0%nat ltac:(lia))) as (near & pp' & NR & BP' & BU & BV).
  rewrite BP in BP'. apply Ok_inj in BP'. subst pp'.
  exists U, (b_Puu pp), pu, q. split; [reflexivity|]. split; [exact R1|]. split; [exact LU|]. split; [exists near; split; assumption|]. split; [exact FU|].
  intros TW. rewrite TW in FV, R2. cbn [oif] in R2. destruct V as [V|]; [|destruct R2]. destruct FV as (lv & luv & pv & puv & E1 & E2 & E3 & F1 & F2).
  destruct BV as (q1 & q2 & G1 & G2 & G3 & G4). rewrite E1 in G1. injection G1 as <-.
  exists V, lv, pv, puv. split; [exact R2|]. split; [now apply LV|]. split; [|split; [exact E3|split; [exact F1|]]].
  2: { rewrite E2 in G2. injection G2 as <-. exists luv. split; [|exact F2]. exists near. auto. }
  assert (EL' : length (even_part V) = length (even_part U)) by (unfold even_part; rewrite !firstn_length, LU, (LV _ eq_refl); reflexivity).
  exists near. rewrite EL'. split; assumption.
Qed.

Lemma squares_pos w x : In x w -> x <> 0 -> 0 < squares w.
Proof.
  unfold squares. induction w as [|y w IH]; [intros []|]. intros Hx Hn. cbn [map]. rewrite rsum_cons. assert (S := squares_nonneg w). unfold squares in S.
  destruct Hx as [->|Hx].
  - assert (0 < x ^ 2) by (apply pow2_gt_0; exact Hn). lra.
  - specialize (IH Hx Hn). assert (0 <= y ^ 2) by apply pow2_ge_0. lra.
Qed.
Lemma zero_wsum w sm f : (forall x, In x w -> x = 0) -> wsum w sm f = 0.
Proof.
  intros H. unfold wsum. revert sm. induction w as [|y w IH]; intros [|z sm]; cbn [combine map]; try (unfold rsum; reflexivity).
  rewrite rsum_cons. cbn [fst snd]. rewrite (H y (or_introl eq_refl)), IH by (intros; apply H; now right). ring.
Qed.
Lemma unbiased_squares c sm i b w : In i (c_lind c) -> unbiased c sm i b w -> 0 < squares w.
Proof.
  intros Hi (_ & H & _). destruct (H i Hi) as [H1 H2]. rewrite Nat.eqb_refl, andb_true_r in H1. rewrite Nat.eqb_refl, andb_true_r in H2.
  destruct (Exists_dec (fun x => x <> 0) w (fun x => ltac:(destruct (Req_EM_T x 0); [right; tauto|left; assumption]))) as [E|E].
  - apply Exists_exists in E. destruct E as (x & E1 & E2). eapply squares_pos; eauto.
  - exfalso. assert (Z : forall x, In x w -> x = 0).
    { intros x Hx. destruct (Req_dec x 0) as [|N]; [assumption|]. elim E. apply Exists_exists. eauto. }
    rewrite zero_wsum in H1, H2 by exact Z. destruct b; cbn in H1, H2; lra.
Qed.

Lemma xmul_nan_r x : xmul x NaN = NaN. Proof. destruct x; reflexivity. Qed.
Lemma linear1_nan X Y a b : a + b <> 0 -> ci_maj (linear1 X Y (Fin a) (Fin b) (Some NaN)) = NaN /\ ci_g (linear1 X Y (Fin a) (Fin b) (Some NaN)) = NaN.
Proof.
  intros H. unfold linear1. cbn [xadd xmul xdiv xsqrt]. unfold ut_linci. cbv zeta. destruct (Req_EM_T 0 0) as [_|]; [|contradiction].
  unfold x4, z196. cbn [ci_maj ci_g fst snd]. rewrite !xmul_nan_r. split; reflexivity.
Qed.
