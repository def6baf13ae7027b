(** Coefficients told apart by some of the sample times; residuals that are mostly equal. *)
From Coq Require Import Lia Lra Permutation.
From Verif Require Import M_Base M_Bunch M_Lib M_Tables M_Const M_Options M_Time M_Slvinit M_Harmonics M_Select M_Ellipse
  M_Robust M_Period M_Conf M_Diag M_Solve M_Recon S_Dict S_Options S_Order S_Basis S_Select S_Fit S_Ellipse S_Slv S_Recon S_Model
  L_Base L_Options L_SolveInv L_OptSolve L_Slv2 L_Order L_Select L_Fit L_Align L_SelOrder L_Basis L_Angle L_Ellipse L_Recon L_Recon2 L_Recon3 L_Core
  L_Model L_Lsq L_Model2 L_Model3 L_Model4 L_Model5 L_Model6 L_Model7 L_Model8.
Open Scope R_scope.
Open Scope string_scope.

Section Run.
Variables (L : lib) (t : pyarr tarray) (u : pyarr (list xr)) (v : option (pyarr (list xr))) (lat : option R) (opts : dict pyval) (c : coef).
Variables (si : slv) (la : R) (s : sel) (B : list (list C)) (xraw m : list C) (W : list xr).
Hypothesis BH : behind L t u v lat opts c si la s B xraw m W.
Hypothesis HS : sorted_order (opt_value opts "order_constit").
Hypothesis NA : approximate (c_opt c) = false.

Notation tw := (o_twodim (c_opt c)).
Notation tr := (negb (o_notrend (c_opt c))).
Notation good := (good_row (si_tref si) (si_lor si) la (c_opt c) s).

Lemma sub_zero ts k : (forall x, In x ts -> In x (si_t si)) ->
  identifiable c ts -> NoDup (c_name c) -> length k = ncoef (c_opt c) s -> real_vec c s k ->
  (forall x row, In x ts -> good x row -> cdot row k = RtoC 0) -> forall z, In z k -> z = RtoC 0.
Proof.
  intros I1 ID ND Hk RV Z. destruct (vector_rival _ _ _ _ _ _ _ _ _ _ _ _ _ _ BH HS NA k Hk ND RV) as (c0 & Rv & M).
  apply (silent_vector _ _ _ _ _ _ _ _ _ _ _ _ _ _ BH NA c0 k (rv_wf _ _ Rv) M); [|apply Rv]. apply ID; auto.
  intros x Hx. assert (F := good_rows _ _ _ _ _ _ _ _ _ _ _ _ _ _ BH).
  assert (exists row, good x row) as (row & G).
  { assert (Hx' := I1 _ Hx). clear - F Hx'. induction F; [destruct Hx'|]. destruct Hx' as [<-|Hx']; eauto. }
  assert (Y := matches_yields _ _ _ _ _ _ _ _ _ _ _ _ _ _ BH NA c0 k x row (rv_wf _ _ Rv) (rv_opt _ _ Rv) (rv_reftime _ _ Rv) (rv_lat _ _ Rv) M G).
  rewrite (Z x row Hx G) in Y. destruct Y as [Y1 Y2]. rewrite (rv_opt _ _ Rv) in Y2. split; [exact Y1|]. intros E. now rewrite E in Y2.
Qed.

Lemma sub_independent ts d : (forall x, In x ts -> In x (si_t si)) ->
  identifiable c ts -> NoDup (c_name c) -> length d = ncoef (c_opt c) s ->
  (forall x row, In x ts -> good x row -> cdot row d = RtoC 0) -> forall z, In z d -> z = RtoC 0.
Proof.
  intros I ID ND Hd Z'.
  destruct tw eqn:E.
  - apply (sub_zero ts); auto. intros E'. congruence.
  - 
    assert (Hd' : length d = (2 * (s_nNR s + s_nR s) + 1 + (if tr then 1 else 0))%nat) by (rewrite Hd; unfold ncoef; destruct (o_notrend (c_opt c)); reflexivity).
    destruct (scale_vec tr _ _ s (0, -1) d Hd' eq_refl eq_refl) as (S1 & S2 & S3).
    destruct (visible_part _ _ _ _ _ _ _ _ _ _ _ _ _ _ BH NA d Hd) as (k1 & A1 & A2 & A3 & A4 & A5 & A6).
    destruct (visible_part _ _ _ _ _ _ _ _ _ _ _ _ _ _ BH NA (map (Cmult (0, -1)) d) ltac:(now rewrite map_length)) as (k2 & B1 & B2 & B3 & B4 & B5 & B6).
    assert (Z1 : forall z, In z k1 -> z = RtoC 0).
    { apply (sub_zero ts); auto. intros x row Hx G. rewrite (A6 x row G), (Z' x row Hx G), E. reflexivity. }
    assert (Z2 : forall z, In z k2 -> z = RtoC 0).
    { apply (sub_zero ts); auto. intros x row Hx G. rewrite (B6 x row G), cdot_scal, (Z' x row Hx G), E.
      unfold vis1. apply C_eq; cbn; ring. }
    assert (Zp : forall k, length k = ncoef (c_opt c) s -> (forall z, In z k -> z = RtoC 0) -> (forall pq, In pq (all_pm k s) -> pq = (RtoC 0, RtoC 0)) /\
      m_last k (if tr then 2 else 1)%nat = RtoC 0 /\ (tr = true -> m_last k 1 = RtoC 0)).
    { intros k Hk Zk. destruct (scale_vec tr (s_nNR s) (s_nR s) s (RtoC 0) k) as (T1 & T2 & T3); auto.
      { rewrite Hk; unfold ncoef; destruct (o_notrend (c_opt c)); reflexivity. }
      assert (Ek : map (Cmult (RtoC 0)) k = k).
      { rewrite <- (map_id k) at 2. apply map_ext_in. intros z Hz. rewrite (Zk z Hz). ring. }
      rewrite Ek in T1, T2, T3. split; [|split].
      - intros pq Hq. rewrite T1 in Hq. apply in_map_iff in Hq. destruct Hq as (x & <- & _). f_equal; ring.
      - rewrite T2. ring.
      - intros Ht. rewrite (T3 Ht). ring. }
    destruct (Zp k1 A1 Z1) as (P1 & P2 & P3). destruct (Zp k2 B1 Z2) as (Q1 & Q2 & Q3). rewrite E in *.
    assert (V0 : forall z, vis1 false z = RtoC 0 -> vis1 false (Cmult (0, -1) z) = RtoC 0 -> z = RtoC 0).
    { intros [x y] V1 V2. unfold vis1, RtoC, Cmult in *. cbn [fst snd] in *. injection V1 as V1. injection V2 as V2. f_equal; lra. }
    apply (vector_zero c s d).
    + exact Hd.
    + intros [p q] Hq. apply zero_pair.
      * apply P1. rewrite A3. now apply in_map.
      * apply Q1. rewrite B3, S1, map_map. exact (in_map (fun x : C * C => visible false (Cmult (0, -1) (fst x), Cmult (0, -1) (snd x))) _ _ Hq).
    + apply V0; [rewrite <- A4; exact P2|rewrite <- S2, <- B4; exact Q2].
    + intros Ht. apply V0; [rewrite <- (A5 Ht); exact (P3 Ht)|rewrite <- (S3 Ht), <- (B5 Ht); exact (Q3 Ht)].
Qed.


(** a coefficient vector seen as coefficients *)
Lemma vector_seen k : length k = ncoef (c_opt c) s -> NoDup (c_name c) ->
  exists c1, rival c c1 /\ forall x row, good x row -> yields c1 x (vis1 tw (cdot row k)).
Proof.
  intros Hk ND. destruct (visible_part _ _ _ _ _ _ _ _ _ _ _ _ _ _ BH NA k Hk) as (k' & L' & R' & _ & _ & _ & V').
  destruct (vector_rival _ _ _ _ _ _ _ _ _ _ _ _ _ _ BH HS NA k' L' ND R') as (c1 & Rv & M). exists c1. split; [exact Rv|].
  intros x row G. rewrite <- (V' x row G). destruct Rv. eapply matches_yields; eauto.
Qed.
End Run.
