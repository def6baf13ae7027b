(** Shapes of the model matrix and of the fitted coefficients. *)
From Coq Require Import Lia Permutation.
From Verif Require Import M_Base M_Lib M_Options M_Time M_Slvinit M_Harmonics M_Select M_Ellipse
  M_Robust M_Period M_Conf M_Diag M_Solve L_Base L_SolveInv S_Slv L_Slv L_Slv2 L_Tables S_Order L_Order S_Select L_Select S_Fit.
Open Scope R_scope.

(** ** model matrix *)
Definition dims {A} (n p : nat) (M : list (list A)) : Prop := length M = n /\ forall r, In r M -> length r = p.

Lemma E_row_len f u v n : length f = n -> length u = n -> length v = n -> length (E_row f u v) = n.
Proof.
  revert u v n. induction f as [|a f IH]; intros [|b u] [|c v] [|n]; cbn; intros; try discriminate; auto.
Qed.
Lemma E_rows_dims f u v n p : dims n p f -> dims n p u -> dims n p v -> dims n p (E_rows f u v).
Proof.
  revert u v n. induction f as [|a f IH]; intros [|b u] [|c v] n [F1 F2] [U1 U2] [V1 V2]; cbn in *; try lia.
  - split; [exact F1|intros r []].
  - destruct n as [|n]; [discriminate|]. destruct (IH u v n) as [I1 I2]; try (split; [lia|intros r Hr; auto]).
    split; [cbn; lia|]. intros r [<-|Hr]; auto. apply E_row_len; auto.
Qed.
Lemma repeat_dims {A} (x : list A) n p : length x = p -> dims n p (repeat x n).
Proof. intros H. split; [apply repeat_length|]. intros r Hr. apply repeat_spec in Hr. congruence. Qed.
Lemma bcast_dims {A} n p (M : list (list A)) : dims n p M \/ dims 1 p M -> dims n p (bcast n M).
Proof.
  unfold bcast. intros [[H1 H2]|[H1 H2]].
  - destruct M as [|r [|r' M]]; try (split; assumption). cbn in H1. subst n. apply repeat_dims. apply H2. now left.
  - destruct M as [|r [|r' M]]; try discriminate. apply repeat_dims. apply H2. now left.
Qed.
Lemma map_dims {X A} (f : X -> list A) l p : (forall x, length (f x) = p) -> dims (length l) p (map f l).
Proof. intros H. split; [apply map_length|]. intros r Hr. apply in_map_iff in Hr. destruct Hr as (x & <- & _). apply H. Qed.

Lemma ut_E_dims t tref frq lind lat g : length frq = length lind ->
  dims (length t) (length lind) (ut_E t tref frq lind lat g).
Proof.
  intros Hl. unfold ut_E. destruct (NodsatNone g && GwchNone g) eqn:E0.
  - apply E_rows_dims; apply bcast_dims; left; rewrite ?Hl.
    + apply repeat_dims, repeat_length.
    + apply repeat_dims, repeat_length.
    + apply map_dims. intros x. unfold lin_arg. now rewrite !map_length, Hl.
  - unfold FUV. clear E0. set (nc := length lind). set (nt := length t).
    assert (P : forall tt f, dims (length tt) nc (map (fun x : R => pick lind (f x)) tt)).
    { intros tt f. apply map_dims. intros x. unfold pick. now rewrite map_length. }
    assert (P1 : forall (b : bool) f, let tt := if b then [tref] else t in
       dims nt nc (map (fun x : R => pick lind (f x)) tt) \/ dims 1 nc (map (fun x : R => pick lind (f x)) tt)).
    { intros [] f; cbv zeta; [right; apply (P [tref])|left; apply P]. }
    assert (PV : dims nt nc (bcast nt
      (if GwchNone g then map (fun x => map Some (lin_arg x tref (sel_freq tref lind))) t
       else
         let tt := if GwchLint g then [tref] else t in
         let V := map (fun x => pick lind (V_col x)) tt in
         if GwchLint g then
           map (fun p => map (fun q => oadd (fst q) (Some (snd q)))
                             (combine (fst p) (lin_arg (snd p) tref (sel_freq tref lind))))
               (combine (bcast nt V) t)
         else V))).
    { apply bcast_dims. left. destruct (GwchNone g).
      - apply map_dims. intros x. unfold lin_arg, sel_freq. now rewrite !map_length.
      - cbv zeta. destruct (GwchLint g); [|apply P].
        destruct (bcast_dims nt nc (map (fun x : R => pick lind (V_col x)) [tref])) as [Q1 Q2]; [right; apply (P [tref])|].
        split; [rewrite map_length, combine_length, Q1; apply Nat.min_id|].
        intros r Hr. apply in_map_iff in Hr. destruct Hr as ([a b] & <- & Hr). apply in_combine_l in Hr. cbn [fst snd].
        rewrite map_length, combine_length, (Q2 a Hr). unfold lin_arg, sel_freq. rewrite !map_length. apply Nat.min_id. }
    destruct (NodsatNone g).
    + apply E_rows_dims; [apply bcast_dims; left; apply repeat_dims, repeat_length..|exact PV].
    + apply E_rows_dims; [apply bcast_dims, P1..|exact PV].
Qed.

Lemma hcat_dims {A} n p (M : list (list A)) c : dims n p M -> length c = n -> dims n (p + 1) (hcat M c).
Proof.
  intros [H1 H2] Hc. unfold hcat. split; [rewrite map_length, combine_length; lia|].
  intros r Hr. apply in_map_iff in Hr. destruct Hr as ([a b] & <- & Hr). apply in_combine_l in Hr. cbn.
  rewrite app_length, (H2 _ Hr). reflexivity.
Qed.
Lemma hcats_dims {A} n p cs (M : list (list A)) : dims n p M -> (forall c, In c cs -> length c = n) ->
  dims n (p + length cs) (fold_left hcat cs M).
Proof.
  revert p M. induction cs as [|c cs IH]; cbn [fold_left length]; intros p M HM Hc.
  - now rewrite Nat.add_0_r.
  - replace (p + S (length cs))%nat with (p + 1 + length cs)%nat by lia. apply IH.
    + apply hcat_dims; auto. apply Hc. now left.
    + intros; apply Hc; now right.
Qed.

Lemma ref_columns_len t tref lat g ap r a b : length (r_Ifrq r) = length (r_Ilind r) ->
  ref_columns t tref lat g ap r = Ok (a, b) -> length a = length t /\ length b = length t.
Proof.
  intros Hl. unfold ref_columns.
  assert (E1 : length (ut_E t tref [r_frq r] [r_lind r] lat g) = length t) by (apply (ut_E_dims t tref [r_frq r] [r_lind r]); reflexivity).
  assert (E2 : length (ut_E t tref (r_Ifrq r) (r_Ilind r) lat g) = length t) by now apply ut_E_dims.
  destruct ap; [destruct (Nat.eqb _ _); [|discriminate]|]; intros H; injection H as <- <-; unfold first_col;
    rewrite ?map_length, ?combine_length, ?map_length, ?E1, ?E2; try rewrite Nat.min_id; auto.
Qed.

(** what the selection guarantees about lengths *)
Record sel_lens (s : sel) : Prop := {
  ln_NR : length (s_NRfrq s) = length (s_NRlind s);
  ln_NRn : length (s_NRname s) = length (s_NRlind s);
  ln_nNR : s_nNR s = length (s_NRlind s);
  ln_nR : s_nR s = length (s_R s);
  ln_I : forall r, In r (s_R s) -> length (r_Ifrq r) = length (r_Iname r) /\ length (r_Ilind r) = length (r_Iname r) /\
      length (r_Rp r) = length (r_Iname r) /\ length (r_Rm r) = length (r_Iname r);
  ln_frq : length (s_frq s) = length (s_name s);
  ln_lind : length (s_lind s) = length (s_name s);
  ln_name : s_name s = (s_NRname s ++ map r_name (s_R s) ++ flat_map r_Iname (s_R s))%list }.

Lemma lin_aligned_len tref n l f : lin_aligned tref n l f -> length l = length n /\ length f = length n.
Proof. intros [H1 H2]. apply (f_equal (@length _)) in H1, H2. rewrite !map_length in *. lia. Qed.

Lemma sel_lens_ok tref mr inc inf s : ut_cnstitsel tref mr inc inf = Ok s -> sel_lens s.
Proof.
  destruct inf as [inf|]; intros H.
  - assert (SL := sel_infer _ _ _ _ _ H). destruct (lin_aligned_len _ _ _ _ (sl_NRal _ _ _ _ _ SL)) as [N1 N2].
    destruct (lin_aligned_len _ _ _ _ (sl_al _ _ _ _ _ SL)) as [A1 A2].
    constructor; try lia.
    + rewrite (sl_nNR _ _ _ _ _ SL). lia.
    + apply SL.
    + intros r Hr. assert (HR := sl_R _ _ _ _ _ SL). 
      assert (X : exists nm, one_ref (linearized_freqs tref) inf (length (inf_inferred inf)) nm = Ok r).
      { revert HR Hr. generalize (s_R s). generalize (first_occ (inf_reference inf)).
        induction l as [|n l IH]; cbn [mapM]; intros Rs HR Hr.
        - injection HR as <-. destruct Hr.
        - inv_bind HR. inv_bind HR. injection HR as <-. destruct Hr as [<-|Hr]; eauto. }
      destruct X as [nm X]. destruct (one_ref_spec _ _ _ _ _ X) as (_ & _ & Al & _ & Q1 & Q2 & _).
      destruct (lin_aligned_len _ _ _ _ Al). auto.
    + apply SL.
  - destruct (sel_none _ _ _ _ H) as (_ & Al & R0 & E1 & E2 & E3 & E4 & E5 & _).
    destruct (lin_aligned_len _ _ _ _ Al) as [A1 A2]. constructor; rewrite ?E1, ?E2, ?E3, ?E4, ?E5, ?R0; cbn; try lia.
    now rewrite app_nil_r.
Qed.

Definition ncoef (o : optr) (s : sel) : nat := (2 * (s_nNR s + s_nR s) + 1 + (if o_notrend o then 0 else 1))%nat.

Lemma basis_dims t tref lor lat o s B : sel_lens s -> (o_infer o = None -> s_R s = []) ->
  basis t tref lor lat o s = Ok B -> dims (length t) (ncoef o s) B.
Proof.
  intros SL Hn. unfold basis. destruct (bad_empty_index _ _); [discriminate|]. intros H. inv_bind H.
  assert (D0 : dims (length t) (2 * s_nNR s) (map (fun r => r ++ map oconj r)%list
      (ut_E t tref (s_NRfrq s) (s_NRlind s) lat (flags_of o)))).
  { destruct (ut_E_dims t tref (s_NRfrq s) (s_NRlind s) lat (flags_of o) (ln_NR _ SL)) as [D1 D2].
    split; [now rewrite map_length|]. intros r Hr. apply in_map_iff in Hr. destruct Hr as (x & <- & Hr).
    rewrite app_length, map_length, (D2 x Hr), (ln_nNR _ SL). lia. }
  assert (D1 : dims (length t) (2 * (s_nNR s + s_nR s)) a).
  { destruct (o_infer o) as [inf|].
    - inv_bind Ha. injection Ha as <-. assert (Hcl := mapM_length _ _ _ Ha0).
      assert (Hc : forall c, In c a0 -> length (fst c) = length t /\ length (snd c) = length t).
      { assert (Hi := ln_I _ SL). revert Hi Ha0. generalize (s_R s). clear. intros l. revert a0.
        induction l as [|r l IH]; cbn [mapM]; intros a0 Hi H.
        - injection H as <-. intros c [].
        - inv_bind H. inv_bind H. injection H as <-. intros c [<-|Hc].
          + destruct a as [x y]. eapply ref_columns_len; eauto. destruct (Hi r (or_introl eq_refl)) as (? & ? & _). congruence.
          + eapply IH; eauto. intros; apply Hi; now right. }
      replace (2 * (s_nNR s + s_nR s))%nat with (2 * s_nNR s + length (map fst a0) +
        length (map (fun c => map oconj (snd c)) a0))%nat by (rewrite !map_length, Hcl, (ln_nR _ SL); lia).
      apply hcats_dims; [apply hcats_dims; [exact D0|]|].
      + intros c Hin. apply in_map_iff in Hin. destruct Hin as (q & <- & Hin). now apply Hc.
      + intros c Hin. apply in_map_iff in Hin. destruct Hin as (q & <- & Hin). rewrite map_length. now apply Hc.
    - injection Ha as <-. rewrite (ln_nR _ SL), Hn by reflexivity. cbn [length]. now rewrite Nat.add_0_r. }
  assert (D2 : dims (length t) (2 * (s_nNR s + s_nR s) + 1) (map (fun r => r ++ [Some (RtoC 1)])%list a)).
  { destruct D1 as [D1 D2]. split; [now rewrite map_length|]. intros r Hr. apply in_map_iff in Hr.
    destruct Hr as (x & <- & Hr). rewrite app_length, (D2 x Hr). reflexivity. }
  injection H as <-. unfold ncoef. destruct (o_notrend o).
  - now rewrite Nat.add_0_r.
  - apply hcat_dims; auto. now rewrite map_length.
Qed.

Lemma all_some_map {A} (l : list (option A)) r : all_some l = Some r -> l = map Some r.
Proof.
  revert r. induction l as [|[x|] l IH]; cbn; intros r H; try discriminate; [injection H as <-; reflexivity|].
  destruct (all_some l); [|discriminate]. injection H as <-. cbn. f_equal. auto.
Qed.
Lemma finite_mat_map {A} (M : list (list (option A))) B : finite_mat M = Some B -> M = map (map Some) B.
Proof.
  unfold finite_mat. intros H. apply all_some_map in H. revert B H.
  induction M as [|r M IH]; intros [|b B] H; cbn in *; try discriminate; auto. injection H as H1 H2.
  apply all_some_map in H1. rewrite H1. f_equal. auto.
Qed.
Lemma finite_mat_dims {A} n p (M : list (list (option A))) B : finite_mat M = Some B -> dims n p M -> dims n p B.
Proof.
  intros H [D1 D2]. apply finite_mat_map in H. subst M. rewrite map_length in D1. split; auto.
  intros r Hr. rewrite <- (D2 (map Some r)); [now rewrite map_length|]. now apply in_map.
Qed.

(** ** robust fit: sizes *)
Lemma all_finite_map l r : all_finite l = Some r -> l = map Fin r.
Proof.
  unfold all_finite. intros H. apply all_some_map in H. revert r H.
  induction l as [|x l IH]; intros [|y r] H; cbn in *; try discriminate; auto. injection H as H1 H2.
  destruct x; cbn in H1; try discriminate. injection H1 as ->. f_equal. auto.
Qed.
Lemma wsolve_len L X y rc w ls p : lstsq_shape L -> X <> [] -> w <> [] -> (forall r, In r X -> length r = p) ->
  wsolve L X y rc w = Ok ls -> length (ls_b ls) = p.
Proof.
  intros HL HX Hw Hp. unfold wsolve. destruct (all_finite w) as [w'|] eqn:E; [|discriminate].
  apply all_finite_map in E. subst w. intros H. inv_bind H. destruct a as [[[b rss] rank] sing].
  destruct rss; [discriminate|]. injection H as <-. cbn.
  destruct w' as [|w0 w']; [contradiction|]. destruct X as [|x X]; [contradiction|].
  rewrite (HL _ _ _ _ _ _ _ Ha (map (Cmult (RtoC w0)) x)); [|left; reflexivity].
  rewrite map_length. apply Hp. now left.
Qed.

Lemma wfunc_len n wf r r' : wfunc n = Ok wf -> wf r = Ok r' -> length r' = length r.
Proof.
  unfold wfunc. intros H. repeat (destruct (String.eqb n _); [injection H as <-; intros H'; try discriminate;
    injection H' as <-; apply map_length|]). discriminate.
Qed.

Lemma residual_len X y b : length X = length y -> length (residual X y b) = length y.
Proof. intros H. unfold residual, cmatvec. rewrite map_length, combine_length, map_length. lia. Qed.
Lemma r_normed_len r f : length r = length f -> length (r_normed r f) = length f.
Proof. intros H. unfold r_normed. rewrite map_length, combine_length. lia. Qed.

Lemma rf_loop_len L X y rc tol nm wf rfac p fuel i w old ls w2 rs it st :
  lstsq_shape L -> (forall r, In r X -> length r = p) ->
  wfunc nm = Ok wf -> length X = length y -> length rfac = length y -> length w = length y ->
  (forall o, old = Some o -> X <> [] -> length (ls_b (it_ls o)) = p) ->
  (forall o, old = Some o -> length (it_w o) = length y) ->
  rf_loop L X y rc tol wf rfac fuel i w old = Ok (ls, w2, rs, it, st) ->
  length w2 = length y /\ (X <> [] -> length (ls_b ls) = p).
Proof.
  intros HL Hp Hwf HXy Hrf. revert i w old. induction fuel as [|fuel IH]; intros i w old Hw Ho Ho2 H; cbn in H.
  - destruct old as [o|]; [|discriminate]. injection H as <- <- _ _ _. split; auto.
  - inv_bind H. rename a into ls1.
    assert (Hls : X <> [] -> length (ls_b ls1) = p).
    { intros HX. refine (wsolve_len L X y rc w ls1 p HL HX _ Hp Ha). intros ->. cbn in Hw. destruct X; [congruence|]. cbn in HXy. lia. }
    assert (HC : (do w' <- wf (r_normed (residual X y (ls_b ls1)) rfac);
        rf_loop L X y rc tol wf rfac fuel (S i) w'
          (Some {| it_ls := ls1; it_w := w; it_meansq := xdiv (Fin (ls_rsumsq ls1)) (xsum w);
                   it_resid := residual X y (ls_b ls1) |})) = Ok (ls, w2, rs, it, st) ->
        length w2 = length y /\ (X <> [] -> length (ls_b ls) = p)).
    { intros HC. inv_bind HC. refine (IH _ _ _ _ _ _ HC).
      - rewrite (wfunc_len _ _ _ _ Hwf Ha0), r_normed_len; [assumption|]. rewrite residual_len; congruence.
      - intros o E; injection E as <-; exact Hls.
      - intros o E; injection E as <-; exact Hw. }
    destruct old as [o|]; [|exact (HC H)].
    destruct (xlt _ (Fin 0)); [injection H as <- <- _ _ _; split; auto; intros; apply Ho; auto|].
    destruct (xlt _ (Fin tol)); [injection H as <- <- _ _ _; split; auto|]. exact (HC H).
Qed.

Lemma leverage_len L X lev : leverage L X = Ok lev -> length lev = length X.
Proof.
  unfold leverage. intros H. inv_bind H. injection H as <-. rewrite map_length. unfold enumerate.
  rewrite combine_length, seq_length. apply Nat.min_id.
Qed.

Lemma robustfit_len L X y nm tune rc tol maxit r p : lstsq_shape L -> (forall r, In r X -> length r = p) ->
  length X = length y -> robustfit L X y nm tune rc tol maxit = Ok r ->
  length (rf_w r) = length y /\ (X <> [] -> length (rf_b r) = p).
Proof.
  intros HL Hp HXy. unfold robustfit. intros H. do 5 inv_bind H. destruct a3 as [[[[ls w] rs] it] st]. injection H as <-. cbn [rf_w rf_b].
  eapply rf_loop_len; try exact Ha3; eauto.
  - rewrite map_length. rewrite (leverage_len _ _ _ Ha1). auto.
  - now rewrite map_length.
  - discriminate.
  - discriminate.
Qed.

Lemma robustfit_kw_inv L X y kw r : robustfit_kw L X y kw = Ok r ->
  exists nm tune rc tol maxit, robustfit L X y nm tune rc tol maxit = Ok r.
Proof.
  unfold robustfit_kw. destruct kw; try discriminate. destruct (negb _); [discriminate|]. intros H.
  do 4 inv_bind H. eauto 10.
Qed.

Definition data_len (n : nat) (u : list R) (v : option (list R)) : Prop :=
  length u = n /\ match v with Some v => length v = n | None => True end.
Lemma raw_len n u v : data_len n u v -> length (raw_data u v) = n.
Proof.
  intros [H1 H2]. destruct v as [v|]; [|cbn; now rewrite map_length].
  change (length (@combine R R u v) = n). rewrite combine_length. lia.
Qed.

Lemma fit_len L t u v tref lor la o s B xraw m W : lstsq_shape L -> sel_lens s -> (o_infer o = None -> s_R s = []) ->
  data_len (length t) u v -> fit L t u v tref lor la o s = Ok (B, xraw, m, W) ->
  dims (length t) (ncoef o s) B /\ length W = length t /\ length xraw = length t /\ (t <> [] -> length m = ncoef o s).
Proof.
  intros HL SL Hn Hd. unfold fit. intros H. inv_bind H. assert (D := basis_dims _ _ _ _ _ _ _ SL Hn Ha).
  destruct (finite_mat a) as [B'|] eqn:EB; [|discriminate]. assert (DB := finite_mat_dims _ _ _ _ EB D).
  assert (HBt : t <> [] -> exists r, In r B').
  { intros Ht. destruct DB as [D1 _]. destruct B' as [|r B']; [destruct t; [congruence|discriminate]|]. exists r. now left. }
  destruct (eq_str _ _); inv_bind H.
  - destruct a0 as [[[m' r] k] sg]. injection H as <- <- <- <-.
    split; auto. split; [apply map_length|]. split; [now apply raw_len|]. intros Ht. destruct (HBt Ht) as [r0 Hr].
    rewrite (HL _ _ _ _ _ _ _ Ha0 r0 Hr). now apply DB.
  - injection H as <- <- <- <-. apply robustfit_kw_inv in Ha0. destruct Ha0 as (nm & tune & rc & tol & mx & Hr).
    destruct (robustfit_len _ _ _ _ _ _ _ _ _ (ncoef o s) HL (proj2 DB) ltac:(rewrite (raw_len _ _ _ Hd); apply DB) Hr) as [Q1 Q2].
    rewrite (raw_len _ _ _ Hd) in Q1.
    split; auto. split; auto. split; [now apply raw_len|].
    intros Ht. apply Q2. destruct (HBt Ht) as [r0 Hr0]. intros ->. destruct Hr0.
Qed.

(** lengths of the samples handed to fit *)
Lemma slv_data parse t u v lat e si : arrays_ok t u v -> slvinit parse t u v lat e = Ok si ->
  data_len (length (si_t si)) (si_u si) (si_v si).
Proof.
  intros (S1 & S2 & S3) H. destruct (slvinit_shapes _ _ _ _ _ _ _ H) as (n & dt & mt & du & mu & -> & -> & Hv).
  unfold slvinit in H. inv_bind H. inv_bind H. cbn [arr_data arr_mask] in *. clear Ha.
  apply normalize_length in Ha0. assert (Hn : length a0 = n) by (rewrite Ha0; exact (S1 n dt mt eq_refl)).
  assert (Hu := S2 n du mu eq_refl).
  destruct Hv as [->|(dv & mv & ->)]; cbn [option_map arr_data arr_mask] in H.
  - assert (C := clean_scalar_spec (masked_invalid a0 []) (masked_invalid du mu) ltac:(rewrite !length_masked_invalid; congruence)).
    destruct (slv_core_fields _ _ _ _ _ _ _ _ C H) as (_ & -> & -> & -> & _). split; [now rewrite !map_length|exact I].
  - assert (Hv := S3 n dv mv eq_refl).
    assert (C := clean_vector_spec (masked_invalid a0 []) (masked_invalid du mu) (masked_invalid dv mv)
      ltac:(rewrite !length_masked_invalid; congruence) ltac:(rewrite !length_masked_invalid; congruence)).
    destruct (slv_core_fields _ _ _ _ _ _ _ _ C H) as (_ & -> & -> & -> & _). split; now rewrite !map_length.
Qed.
