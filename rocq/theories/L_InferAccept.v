(** Calls with inference that give a result: options, constituents, model matrix. *)
From Coq Require Import Lia Lra Permutation.
From Verif Require Import M_Base M_Bunch M_Lib M_Tables M_Const M_Options M_Time M_Slvinit M_Harmonics M_Select M_Ellipse
  M_Robust M_Period M_Conf M_Diag M_Solve M_Recon S_Dict S_Options S_Order S_Basis S_Select S_Fit S_Ellipse S_Slv S_Recon S_Model S_Errors S_Perm S_Period S_Noise S_Nodal S_Accept S_InferAccept
  L_Base L_Options L_SolveInv L_OptSolve L_Slv L_Slv2 L_Tables L_Order L_Select L_Fit L_Align L_SelOrder L_Order2 L_Basis L_Harm L_Harm2 L_Harm3 L_Angle L_Ellipse L_Recon L_Recon2 L_Recon3 L_Recon4 L_Core
  L_Ellipse2 L_Nodal L_Nodal2 L_Model L_Lsq L_Model2 L_Model3 L_Model4 L_Model5 L_Model6 L_Model7 L_Model8 L_Noise2 L_Example L_Accept.
Open Scope R_scope.
Open Scope string_scope.

(** ** options *)
Lemma names_nums l : as_nums (PSeq (map PNum l)) = Ok l.
Proof. cbn. induction l as [|x l IH]; cbn; auto. rewrite IH. reflexivity. Qed.
Lemma asked opts tw I Rf ap : unique_keys opts -> asks opts tw I Rf ap ->
  exists d inf, validate_infer (opt_value opts "infer") tw = Ok d /\ read_infer d = Ok (Some inf) /\ inf_inferred inf = I /\ inf_reference inf = Rf /\
    infer_shape inf tw /\ inf_approx inf = ap.
Proof.
  intros U [(d & A & O & HS & Ud & E1 & E2 & E3 & E4 & LA & LO & AP) LR _].
  apply setting_iff in HS; [|exact U|cbn; tauto]. rewrite <- HS.
  exists (PDict true (validated d)).
  destruct (validated_frame d Ud) as (V1 & V2 & V3).
  assert (G : forall k x, entry d k x -> oget (validated d) k = x).
  { intros k x Hx. assert (K : In k (keys d)) by exact (in_map fst _ _ Hx). apply (V2 k x K) in Hx. unfold oget. apply (dget_In _ _ _ V1) in Hx. now rewrite Hx. }
  exists {| inf_inferred := I; inf_reference := Rf; inf_amp := A; inf_off := O; inf_approx := ap |}. split; [|split].
  - apply validate_infer_ok_iff; [exact Ud|]. split; [|reflexivity]. exists (PSeq (map PStr I)), (PSeq (map PStr Rf)), (PSeq (map PNum A)), (PSeq (map PNum O)), (length I).
    do 4 (split; [assumption|]). unfold has_length.
    split; [left; eexists; split; [reflexivity|apply map_length]|]. split; [left; eexists; split; [reflexivity|rewrite map_length; exact LR]|].
    cbv zeta. split; left; eexists; (split; [reflexivity|]); rewrite map_length; destruct tw; lia.
  - unfold read_infer. rewrite (G _ _ E1), (G _ _ E2), (G _ _ E3), (G _ _ E4), !as_names_seq, !names_nums. cbn [bind]. do 3 f_equal.
    destruct ap.
    + destruct AP as (x & Ex & Nx). rewrite (G _ _ Ex). destruct (truthy x) eqn:T; [reflexivity|]. apply truthy_falsy in T. contradiction.
    + destruct (in_dec string_dec "approximate" (keys d)) as [K|K].
      * apply in_map_iff in K. destruct K as ([k x] & Ek & Hx). cbn in Ek. subst k. rewrite (G _ _ Hx). apply truthy_falsy. now apply AP.
      * assert (X : entry (validated d) "approximate" (PBool false)) by (apply V3; auto).
        unfold oget. apply (dget_In _ _ _ V1) in X. now rewrite X.
  - cbn [inf_inferred inf_reference inf_approx]. split; [reflexivity|]. split; [reflexivity|]. split; [|reflexivity].
    unfold infer_shape. cbn [inf_inferred inf_reference inf_amp inf_off]. destruct tw; cbv zeta; lia.
Qed.

Lemma process_asked opts tw I Rf ap : unique_keys opts -> (forall k, In k (keys opts) -> In k (keys documented)) -> asks opts tw I Rf ap ->
  forall x cf, setting opts "order_constit" x -> setting opts "conf_int" cf -> (cf = PStr "linear" \/ cf = PStr "MC" \/ cf = PStr "none") ->
  order_ok x cf -> exists compat, process_opts opts tw = Ok compat.
Proof.
  intros Hu Hk Hinf x cf Hx Hcf Hc H.
  assert (Hs : ~ In "strict" (keys opts)).
  { intros H'. apply Hk in H'. simpl in H'. intuition discriminate. }
  destruct (process_opts_eq opts tw Hu Hs) as (r & Hkeys & Ho & Heq). rewrite Heq.
  assert (Hkn : known_b opts = true).
  { destruct (known_b opts) eqn:E; auto. apply known_b_false in E. destruct E as (k & A & B).
    apply Hk in A. tauto. }
  rewrite Hkn. destruct (asked _ _ _ _ _ Hu Hinf) as (d & inf & V & _). rewrite V. cbn [bind].
  apply setting_iff in Hx; [|exact Hu|simpl; tauto]. rewrite <- Hx.
  apply setting_iff in Hcf; [|exact Hu|simpl; tauto]. rewrite <- Hcf.
  rewrite (validate_order_ok _ _ H). cbn [bind].
  set (ord := match x with PNone => PStr "PE" | _ => x end).
  unfold translate_opts. rewrite !oget_dset. cbn [String.eqb Ascii.eqb Bool.eqb].
  rewrite (Ho Hkn "conf_int") by (simpl; tauto). rewrite <- Hcf.
  destruct Hc as [->|[->| ->]]; cbn [eq_str String.eqb Ascii.eqb Bool.eqb bind]; eauto.
Qed.

Lemma read_asked opts tw equi compat r I Rf ap : unique_keys opts -> process_opts opts tw = Ok compat -> asks opts tw I Rf ap ->
  setting opts "Rayleigh_min" (PNum r) -> exists o, read_opt (slv_opts tw equi compat) = Ok o.
Proof.
  intros Hu Hp Hi Hr.
  assert (Hs : ~ In "strict" (keys opts)).
  { intros H. rewrite (process_strict _ _ H) in Hp. discriminate. }
  destruct (process_opts_eq opts tw Hu Hs) as (q & Hk & Ho & Heq). rewrite Heq in Hp. clear Heq.
  destruct (known_b opts) eqn:Ek; [|discriminate].
  destruct (asked _ _ _ _ _ Hu Hi) as (d & inf & V & RD & _). rewrite V in Hp. cbn [bind] in Hp.
  destruct (validate_order_constit _ _) as [ord|] eqn:Eord; cbn [bind] in Hp; [|discriminate].
  apply setting_iff in Hr; [|exact Hu|simpl; tauto].
  set (n := dset (dset q "infer" d) "order_constit" ord) in *.
  assert (Hn : oget n "Rayleigh_min" = PNum r).
  { unfold n. rewrite !oget_dset. cbn [String.eqb Ascii.eqb Bool.eqb]. rewrite (Ho eq_refl "Rayleigh_min") by (simpl; tauto). now symmetry. }
  assert (Hn1 : oget n "infer" = d) by (unfold n; rewrite !oget_dset; reflexivity).
  clearbody n.
  destruct (translate_get n compat Hp) as
    (X0 & X1 & X2 & X3 & X4 & X5 & X6 & X7 & X8 & X9 & X10 & X11 & X12 & X13 & X14 & X15 & X16 & X17 & X18).
  assert (G : forall k, oget (slv_opts tw equi compat) k =
     match dget compat k with Some v => v | None => oget (slv_opts tw equi []) k end).
  { intros k. unfold oget. rewrite slv_get by exact X1. now destruct (dget compat k). }
  unfold read_opt. rewrite !G. clear G.
  rewrite ?X2, ?X3, ?X4, ?X5, ?X6, ?X7, ?X8, ?X9, ?X10, ?X11, ?X12, ?X13, ?X14, ?X15, ?X16, ?X17, ?X18, Hn, Hn1, RD.
  cbn [as_num bind]. eauto.
Qed.

(** ** constituents *)
Lemma init_ok m x : x = PStr "auto" \/ (exists names, (forall n, In n names -> In n const_name) /\ x = PSeq (map PStr names)) ->
  exists l, initial_lind m x = Ok l /\ forall i, In i l -> (i < 146)%nat.
Proof.
  intros [->|(names & H & ->)]; unfold initial_lind.
  - cbn [eq_str String.eqb Ascii.eqb Bool.eqb]. eexists. split; [reflexivity|]. apply auto_lt.
  - cbn [eq_str]. rewrite as_names_seq. cbn [bind]. destruct (mapM_index_ok names H) as [r Hr]. exists r. split; [exact Hr|].
    apply mapM_index in Hr. intros i Hi. assert (X := in_map (fun i => nth_error const_name i) _ _ Hi). cbv beta in X. rewrite Hr in X.
    apply in_map_iff in X. destruct X as (k & E & _). exact (names_lt i k (eq_sym E)).
Qed.
Lemma freq_get tref i : (i < 146)%nat -> exists f, seq_get (linearized_freqs tref) i = Ok f.
Proof.
  intros H. unfold seq_get. destruct (nth_error (linearized_freqs tref) i) as [f|] eqn:E; [eauto|].
  exfalso. apply nth_error_None in E. rewrite lin_len in E. lia.
Qed.
Lemma get_ok {A} (l : list A) i : (i < length l)%nat -> exists x, seq_get l i = Ok x.
Proof. intros H. unfold seq_get. destruct (nth_error l i) as [x|] eqn:E; [eauto|]. apply nth_error_None in E. lia. Qed.
Lemma index_get n : In n const_name -> exists i, constit_index n = Ok i /\ (i < 146)%nat.
Proof.
  intros H. destruct (constit_index_known n H) as [i E]. exists i. split; [exact E|]. apply constit_index_iff in E. exact (names_lt _ _ E).
Qed.
Lemma mapM_all {A B} (f : A -> res B) l : (forall x, In x l -> exists y, f x = Ok y) -> exists r, mapM f l = Ok r.
Proof.
  induction l as [|x l IH]; intros H; cbn [mapM]; [eauto|]. destruct (H x (or_introl eq_refl)) as [y ->]. cbn [bind].
  destruct IH as [r ->]; [intros z Hz; apply H; now right|]. cbn [bind]. eauto.
Qed.

Lemma select_asked tref m x inf tw : x = PStr "auto" \/ (exists names, (forall n, In n names -> In n const_name) /\ x = PSeq (map PStr names)) ->
  infer_shape inf tw -> (forall n, In n (inf_inferred inf) \/ In n (inf_reference inf) -> In n const_name) ->
  exists s, ut_cnstitsel tref m x (Some inf) = Ok s.
Proof.
  intros HX SH HK. unfold ut_cnstitsel. destruct (init_ok m x HX) as (l0 & -> & L0). cbn [bind].
  destruct (mapM_index_ok (inf_inferred inf ++ inf_reference inf)) as [ri ->]; [intros n Hn; apply HK; now apply in_app_or|]. cbn [bind].
  destruct (lind_ok tref (filter (fun i => negb (existsb (Nat.eqb i) ri)) l0)) as (r & f & H1 & H2).
  { intros i Hi. apply filter_In in Hi. now apply L0. }
  rewrite H2, H1. cbn [bind].
  destruct (mapM_all (one_ref (linearized_freqs tref) inf (length (inf_inferred inf))) (first_occ (inf_reference inf))) as [Rs ->]; [|cbn [bind]; eauto].
  intros n Hn. assert (Hr : In n (inf_reference inf)) by (apply (proj2 (first_occ_spec (inf_reference inf)) n); exact Hn).
  unfold one_ref. destruct (index_get n (HK n (or_intror Hr))) as (i & -> & Hi). cbn [bind]. destruct (freq_get tref i Hi) as [fr ->]. cbn [bind].
  match goal with |- context [mapM ?f ?l] => destruct (mapM_all f l) as [items ->] end; [|cbn [bind]; eauto].
  intros j Hj. assert (Lj : (j < length (inf_inferred inf))%nat).
  { apply enum_lt in Hj. destruct SH as (E & _). lia. }
  destruct SH as (S1 & S2 & S3). unfold one_inferred.
  destruct (get_ok (inf_amp inf) j) as [a ->]; [destruct tw; lia|]. cbn [bind]. destruct (get_ok (inf_off inf) j) as [o ->]; [destruct tw; lia|]. cbn [bind].
  assert (Z : exists z, (if Nat.ltb (length (inf_inferred inf)) (length (inf_amp inf))
     then do a2 <- seq_get (inf_amp inf) (j + length (inf_inferred inf)); do o2 <- seq_get (inf_off inf) (j + length (inf_inferred inf));
          Ok (Cmult (RtoC a2) (cis (- (o2 * PI / 180))))
     else Ok (Cconj (Cmult (RtoC a) (cis (o * PI / 180))))) = Ok z).
  { destruct (Nat.ltb_spec (length (inf_inferred inf)) (length (inf_amp inf))) as [G|G]; [|eauto].
    destruct tw; [|lia].
    destruct (get_ok (inf_amp inf) (j + length (inf_inferred inf))) as [a2 ->]; [lia|]. cbn [bind].
    destruct (get_ok (inf_off inf) (j + length (inf_inferred inf))) as [o2 ->]; [lia|]. cbn [bind]. eauto. }
  destruct Z as [z ->]. cbn [bind]. destruct (get_ok (inf_inferred inf) j Lj) as [nm Hnm]. rewrite Hnm. cbn [bind].
  assert (In nm const_name).
  { apply HK. left. unfold seq_get in Hnm. destruct (nth_error (inf_inferred inf) j) eqn:E; [|discriminate]. injection Hnm as <-. exact (nth_error_In _ _ E). }
  destruct (index_get nm H) as (k & -> & Hk). cbn [bind]. destruct (freq_get tref k Hk) as [fk ->]. cbn [bind]. eauto.
Qed.

(** ** the model matrix *)
Lemma div_some a e : e <> RtoC 0 -> exists q, ocdiv (Some a) (Some e) = Some q.
Proof. intros H. unfold ocdiv. destruct (Ceq_dec e (RtoC 0)); [contradiction|eauto]. Qed.
Lemma ratio_sum e eI Rp : e <> RtoC 0 -> (forall z, In z eI -> exists q, z = Some q) ->
  exists q, ocsum (map (fun p => ocmul (ocdiv (fst p) (Some e)) (Some (snd p))) (combine eI Rp)) = Some q.
Proof.
  intros NZ. revert Rp. induction eI as [|z eI IH]; intros [|r Rp] H; cbn [combine map]; try (eexists; reflexivity).
  destruct (H z (or_introl eq_refl)) as [q ->]. destruct (div_some q e NZ) as [d Hd]. cbn [fst snd]. rewrite Hd.
  destruct (IH Rp) as [q' Hq]; [intros y Hy; apply H; now right|]. unfold ocsum in *. cbn [fold_right]. rewrite Hq. cbn [ocmul ocadd]. eauto.
Qed.
Lemma etil_p_some e eI Rp : e <> RtoC 0 -> (forall z, In z eI -> exists q, z = Some q) -> exists q, etil_p (Some e) eI Rp = Some q.
Proof. intros NZ H. unfold etil_p. destruct (ratio_sum e eI Rp NZ H) as [q ->]. cbn [ocadd ocmul]. eauto. Qed.
Lemma etil_m_some e eI Rm : e <> RtoC 0 -> (forall z, In z eI -> exists q, z = Some q) -> exists q, etil_m (Some e) eI Rm = Some q.
Proof. intros NZ H. rewrite etil_m_conj. now apply etil_p_some. Qed.

Lemma single_position refs n : NoDup refs -> In n refs -> length (positions refs n) = 1%nat.
Proof.
  intros ND H. apply In_nth_error in H. destruct H as [i Hi].
  assert (P : Permutation (positions refs n) [i]).
  { apply NoDup_Permutation; [apply positions_NoDup|repeat constructor; intros []|]. intros j. rewrite positions_In. cbn [In]. split.
    - intros Hj. left. apply (proj1 (NoDup_nth_error refs) ND); [|congruence]. apply nth_error_Some. congruence.
    - intros [<-|[]]. exact Hi. }
  now rewrite (Permutation_length P).
Qed.

Lemma basis_asked ts tref lor la o s m x inf :
  ut_cnstitsel tref m x (Some inf) = Ok s -> o_infer o = Some inf ->
  bad_empty_index (flags_of o) s = false -> (o_nodsatnone o = true \/ slat la <> 0) -> (o_notrend o = true \/ lor <> 0) ->
  (inf_approx inf = true -> NoDup (inf_reference inf)) ->
  (inf_approx inf = false -> forall y r e, In r (s_R s) -> basis_at (flags_of o) tref la y (r_lind r) = Some e -> e <> RtoC 0) ->
  exists Bo B, basis ts tref lor la o s = Ok Bo /\ finite_mat Bo = Some B /\ dims (length ts) (ncoef o s) Bo.
Proof.
  intros HS HI HB HN HT AP EX. assert (LO := sel_infer _ _ _ _ _ HS). assert (SL := sel_lens_ok _ _ _ _ _ HS).
  assert (NN : o_infer o = None -> s_R s = []) by (rewrite HI; discriminate).
  assert (E : exists Bo, basis ts tref lor la o s = Ok Bo).
  { unfold basis. rewrite HB, HI.
    destruct (mapM_all (ref_columns ts tref la (flags_of o) (inf_approx inf)) (s_R s)) as [cols HC]; [|rewrite HC; cbn [bind]; eauto].
    intros r Hr. unfold ref_columns. destruct (inf_approx inf) eqn:EA; [|eauto].
    destruct (in_mapM _ _ _ _ (sl_R _ _ _ _ _ LO) Hr) as (n & Hn & H1). destruct (one_ref_spec _ _ _ _ _ H1) as (_ & _ & A3 & A4 & _).
    destruct (lin_aligned_len _ _ _ _ A3) as [K1 K2].
    rewrite single_position in A4; [|now apply AP|apply (proj2 (first_occ_spec _) n); exact Hn].
    assert (Q : length (r_Ifrq r) = 1%nat) by congruence. rewrite Q. cbn [Nat.eqb]. eauto. }
  destruct E as [Bo E]. exists Bo. assert (D := basis_dims _ _ _ _ _ _ _ SL NN E).
  assert (RW := basis_rows _ _ _ _ _ _ _ (sel_lin_ok _ _ _ _ _ HS) NN E).
  assert (KN : forall y i, In i (s_lind s) -> exists e, basis_at (flags_of o) tref la y i = Some e).
  { intros y i Hi. apply basis_finite; [exact HN|]. exact (sel_known _ _ _ _ _ HS i Hi). }
  rewrite (sl_lind _ _ _ _ _ LO) in KN.
  destruct (fin_rows (fun x => model_row (is_approx o) (negb (o_notrend o)) (basis_at (flags_of o) tref la x) (trend_entry tref lor x) s) ts) as [B FB].
  { intros y _. unfold model_row.
    destruct (all_map_some (basis_at (flags_of o) tref la y) (s_NRlind s)) as [es Es].
    { intros i Hi. apply KN. apply in_or_app. now left. }
    rewrite Es. assert (Cj : map oconj (map Some es) = map Some (map Cconj es)) by (rewrite !map_map; reflexivity). rewrite Cj.
    assert (RE : forall r, In r (s_R s) -> exists e, basis_at (flags_of o) tref la y (r_lind r) = Some e).
    { intros r Hr. apply KN. apply in_or_app. right. apply in_or_app. left. now apply in_map. }
    assert (IE : forall r, In r (s_R s) -> forall z, In z (map (basis_at (flags_of o) tref la y) (r_Ilind r)) -> exists q, z = Some q).
    { intros r Hr z Hz. apply in_map_iff in Hz. destruct Hz as (i & <- & Hi). apply KN. apply in_or_app. right. apply in_or_app. right. apply in_flat_map. eauto. }
    assert (IA : is_approx o = inf_approx inf) by (unfold is_approx; now rewrite HI).
    destruct (all_map_some (ref_p (is_approx o) (basis_at (flags_of o) tref la y)) (s_R s)) as [ps Ps].
    { intros r Hr. unfold ref_p. rewrite IA. destruct (inf_approx inf) eqn:EA; [now apply RE|]. destruct (RE r Hr) as [e He]. rewrite He.
      apply etil_p_some; [exact (EX eq_refl y r e Hr He)|exact (IE r Hr)]. }
    destruct (all_map_some (fun r => oconj (ref_m (is_approx o) (basis_at (flags_of o) tref la y) r)) (s_R s)) as [ms Ms].
    { intros r Hr. assert (G : exists q, ref_m (is_approx o) (basis_at (flags_of o) tref la y) r = Some q); [|destruct G as [q ->]; cbn; eauto].
      unfold ref_m. rewrite IA. destruct (inf_approx inf) eqn:EA; [now apply RE|]. destruct (RE r Hr) as [e He]. rewrite He.
      apply etil_m_some; [exact (EX eq_refl y r e Hr He)|exact (IE r Hr)]. }
    rewrite Ps, Ms.
    assert (Tr : exists te, (if negb (o_notrend o) then [trend_entry tref lor y] else []) = map Some te).
    { unfold trend_entry. destruct HT as [->|HT]; [exists []; reflexivity|]. destruct (negb (o_notrend o)); [|exists []; reflexivity].
      destruct (Req_EM_T lor 0); [contradiction|]. eexists [_]. reflexivity. }
    destruct Tr as [te ->]. exists (((es ++ map Cconj es) ++ ps) ++ ms ++ [RtoC 1] ++ te)%list. now rewrite !map_app. }
  rewrite <- RW in FB. eauto.
Qed.
