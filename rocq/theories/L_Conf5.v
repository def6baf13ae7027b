(** Monte-Carlo intervals: spreads of the sampled ellipses. *)
From Coq Require Import Lia Lra Psatz Sorting Permutation.
From Coquelicot Require Import Coquelicot.
From Verif Require Import M_Base M_Lib M_Options M_Time M_Slvinit M_Harmonics M_Select M_Ellipse M_Robust M_Period M_Conf M_Diag M_Solve
  S_Dict S_Options S_Order S_Ellipse S_Conf S_Robust
  L_Base L_Options L_SolveInv L_Select L_Angle L_Ellipse L_Core L_Robust L_Conf L_Conf2 L_Conf3 L_Conf4.
Open Scope R_scope.
Open Scope string_scope.

(** ** the half-width of a list of samples *)
Lemma mad_spread l : spread l (mad196 l).
Proof. exists (median l), (median (map (fun a => Rabs (a - median l)) l)). repeat split; try (apply median_spec; reflexivity). unfold mad196. lra. Qed.
Lemma spread_unique l a b : spread l a -> spread l b -> a = b.
Proof.
  intros (m & d & H1 & H2 & ->) (m' & d' & H3 & H4 & ->). apply median_spec in H1, H3. subst m m'.
  apply median_spec in H2, H4. now subst d d'.
Qed.


Lemma branch_cluster ang f l : 0 < ang -> l <> [] -> on_branch ang f l (cluster (set0 f l) ang).
Proof.
  intros H N. destruct l as [|a l]; [congruence|]. cbn [set0]. destruct (cluster_spec f l ang H) as (ys & E & F).
  exists ys. split; [exact E | exact F].
Qed.

Lemma rows4 smp ep : Forall (fun r : list R => length r = 4%nat) smp -> cs2cep_mat smp = Ok ep ->
  exists q : list (R * R * R * R), smp = map (fun p => let '(a, b, d, f) := p in [a; b; d; f]) q /\ ep = map (fun p => let '(a, b, d, f) := p in cs2cep2 a b d f) q.
Proof.
  unfold cs2cep_mat. revert ep. induction smp as [|r smp IH]; intros ep F H; cbn in H.
  - injection H as <-. exists []. auto.
  - inversion F as [|? ? Hr F']; subst. destruct r as [|a [|b [|d [|f [|? ?]]]]]; try discriminate.
    cbn [cs2cep_row bind] in H. inv_bind H. destruct (IH _ F' Ha) as (q & -> & ->). apply Ok_inj in H. subst ep.
    exists ((a, b, d, f) :: q). auto.
Qed.
Lemma rows2 smp ep : Forall (fun r : list R => length r = 2%nat) smp -> cs2cep_mat smp = Ok ep ->
  exists q : list (R * R), smp = map (fun p => [fst p; snd p]) q /\ ep = map (fun p => cs2cep1 (fst p) (snd p)) q.
Proof.
  unfold cs2cep_mat. revert ep. induction smp as [|r smp IH]; intros ep F H; cbn in H.
  - injection H as <-. exists []. auto.
  - inversion F as [|? ? Hr F']; subst. destruct r as [|a [|b [|? ?]]]; try discriminate.
    cbn [cs2cep_row bind] in H. inv_bind H. destruct (IH _ F' Ha) as (q & -> & ->). apply Ok_inj in H. subst ep.
    exists ((a, b) :: q). auto.
Qed.

Lemma sampled2 L o gam p nc c Xu Yu Xv Yv g th w : mvn_shape L -> o_linci o = false -> o_twodim o = true ->
  conf_one L o gam p nc c Xu Yu Xv Yv g th = Ok w -> exists cov q gs ths x1 x2 x3 x4,
  l_mvn L c [Xu; Yu; Xv; Yv] cov (o_nrlzn o) = Ok (map (fun p : R * R * R * R => let '(a, b, d, f) := p in [a; b; d; f]) q) /\
  length q = o_nrlzn o /\
  spread (map (fun p => let '(a, b, d, f) := p in maj_of a b d f) q) x1 /\ ci_maj w = Fin x1 /\
  spread (map (fun p => let '(a, b, d, f) := p in min_of a b d f) q) x2 /\ ci_min w = Fin x2 /\
  on_branch 360 g (map (fun p => let '(a, b, d, f) := p in g_of a b d f) q) gs /\ spread gs x3 /\ ci_g w = Fin x3 /\
  on_branch 360 th (map (fun p => let '(a, b, d, f) := p in theta_of a b d f) q) ths /\ spread ths x4 /\ ci_theta w = Fin x4.
Proof.
  intros Hm Hl Ht. unfold conf_one. cbv zeta. rewrite Hl, Ht. unfold mc2. intros H.
  inv_bind H. rename a into cov. inv_bind H. rename a into smp. inv_bind H. rename a into ep. cbv zeta in H.
  destruct (Hm _ _ _ _ _ Ha0) as [Hn Hs]. destruct (rows4 _ _ Hs Ha1) as (q & -> & ->).
  assert (M : forall (f : R * R * R * R -> R), map f (map (fun p => let '(a, b, d, e) := p in cs2cep2 a b d e) q) =
                map (fun p => let '(a, b, d, e) := p in f (cs2cep2 a b d e)) q).
  { intros f. rewrite map_map. apply map_ext. intros [[[? ?] ?] ?]. reflexivity. }
  rewrite map_length in Hn.
  destruct (map (fun p => let '(a, b, d, e) := p in cs2cep2 a b d e) q) as [|e0 ep] eqn:Eq; [discriminate|]. rewrite <- Eq in *.
  apply Ok_inj in H. subst w. cbn [ci_maj ci_min ci_theta ci_g]. rewrite !M.
  assert (NE : forall f : R * R * R * R -> R, map f q <> []) by (intros f E; destruct q; discriminate).
  exists cov, q. do 6 eexists. split; [exact Ha0|]. split; [exact Hn|].
  split; [apply mad_spread|]. split; [reflexivity|]. split; [apply mad_spread|]. split; [reflexivity|].
  split; [apply branch_cluster; [lra | apply NE]|]. split; [apply mad_spread|]. split; [reflexivity|].
  split; [apply branch_cluster; [lra | apply NE]|]. split; [apply mad_spread|]. reflexivity.
Qed.

Lemma sampled1 L o gam p nc c Xu Yu Xv Yv g th w : mvn_shape L -> o_linci o = false -> o_twodim o = false ->
  conf_one L o gam p nc c Xu Yu Xv Yv g th = Ok w -> exists cov q gs x1 x3,
  l_mvn L c [Xu; Yu] cov (o_nrlzn o) = Ok (map (fun p => [fst p; snd p]) q) /\ length q = o_nrlzn o /\
  spread (map (fun p => A_of (fst p) (snd p)) q) x1 /\ ci_maj w = Fin x1 /\
  on_branch 360 g (map (fun p => g1_of (fst p) (snd p)) q) gs /\ spread gs x3 /\ ci_g w = Fin x3.
Proof.
  intros Hm Hl Ht. unfold conf_one. cbv zeta. rewrite Hl, Ht. unfold mc1. intros H.
  inv_bind H. rename a into cov. inv_bind H. rename a into smp. inv_bind H. rename a into ep. cbv zeta in H.
  destruct (Hm _ _ _ _ _ Ha0) as [Hn Hs]. destruct (rows2 _ _ Hs Ha1) as (q & -> & ->). rewrite map_length in Hn.
  destruct (map (fun p => cs2cep1 (fst p) (snd p)) q) as [|e0 ep] eqn:Eq; [discriminate|]. rewrite <- Eq in *.
  apply Ok_inj in H. subst w. cbn [ci_maj ci_min ci_theta ci_g]. rewrite !map_map.
  assert (NE : forall f : R * R -> R, map f q <> []) by (intros f E; destruct q; discriminate).
  exists cov, q. do 3 eexists. split; [exact Ha0|]. split; [exact Hn|].
  split; [apply mad_spread|]. split; [reflexivity|].
  split; [apply branch_cluster; [lra | apply NE]|]. split; [apply mad_spread|]. reflexivity.
Qed.

(** ** orientations on both sides of 0/180 *)
Definition tilt : R := tan (rad (1 / 2)).
Lemma atan_tilt : atan tilt = rad (1 / 2).
Proof. unfold tilt. apply atan_tan. unfold rad. generalize PI_RGT_0. lra. Qed.
Lemma theta_tilt : theta_of 1 0 tilt 0 = 1 / 2.
Proof.
  unfold theta_of, cs2cep2, e_theta. cbn [fst snd].
  assert (E : forall a b, angle_deg ((1 + a) / 2, (tilt + b) / 2) = angle_deg ((1 + a) / 2, (tilt + b) / 2)) by auto.
  replace ((1 + 0) / 2, (tilt - 0) / 2) with (1 / 2, tilt / 2) by (f_equal; field).
  replace ((1 - 0) / 2, (tilt + 0) / 2) with (1 / 2, tilt / 2) by (f_equal; field).
  assert (A : angle_deg (1 / 2, tilt / 2) = 1 / 2).
  { unfold angle_deg, angle. destruct (Rlt_dec 0 (1 / 2)); [|lra]. replace (tilt / 2 / (1 / 2)) with tilt by field.
    rewrite atan_tilt. unfold rad. field. apply PI_neq0. }
  rewrite A. rewrite pymod_small; lra.
Qed.
Lemma theta_tilt_neg : theta_of 1 0 (- tilt) 0 = 180 - 1 / 2.
Proof.
  unfold theta_of, cs2cep2, e_theta. cbn [fst snd].
  replace ((1 + 0) / 2, (- tilt - 0) / 2) with (1 / 2, - tilt / 2) by (f_equal; field).
  replace ((1 - 0) / 2, (- tilt + 0) / 2) with (1 / 2, - tilt / 2) by (f_equal; field).
  assert (A : angle_deg (1 / 2, - tilt / 2) = - (1 / 2)).
  { unfold angle_deg, angle. destruct (Rlt_dec 0 (1 / 2)); [|lra]. replace (- tilt / 2 / (1 / 2)) with (- tilt) by field.
    rewrite atan_opp, atan_tilt. unfold rad. field. apply PI_neq0. }
  rewrite A. rewrite (pymod_eq _ (180 - 1 / 2) 180); [apply pymod_small; lra | lra | exists (-1)%Z; lra].
Qed.

(** 200 samples: a flat ellipse along the u axis, tilted by half a degree one way or the other *)
Definition tilted : list (R * R * R * R) :=
  ((1, 0, 0, 0) :: repeat (1, 0, tilt, 0) 99 ++ repeat (1, 0, - tilt, 0) 100)%list.
Definition mc_lib : lib :=
  {| l_parse := fun _ => None; l_lstsq := fun _ _ _ => Err LinAlgError; l_pinv := fun _ => Err LinAlgError;
     l_inv := fun _ => Err LinAlgError; l_svd := fun _ => Err LinAlgError; l_eigvals := fun _ => Err LinAlgError;
     l_is_PD := fun _ => true; l_spacing := fun _ => 0;
     l_mvn := fun _ m _ n => if (Nat.eqb n 200 && Nat.eqb (length m) 4)%bool
                             then Ok (map (fun p => let '(a, b, d, f) := p in [a; b; d; f]) tilted) else Err ValueError;
     l_lomb := fun _ _ _ => []; l_argsort := fun _ => [] |}.
Lemma mc_lib_shape : mvn_shape mc_lib.
Proof.
  intros c mean cov n smp H. cbn [mc_lib l_mvn] in H. destruct (Nat.eqb_spec n 200); [|discriminate].
  destruct (Nat.eqb_spec (length mean) 4) as [Em|]; [|discriminate]. cbn [andb] in H. apply Ok_inj in H. subst smp.
  split; [rewrite map_length; subst n; reflexivity|]. rewrite Em. apply Forall_map, Forall_forall. intros [[[? ?] ?] ?] _. reflexivity.
Qed.
Definition mc_opt : optr :=
  {| o_twodim := true; o_equi := true; o_conf_int := true; o_cnstit := PNone; o_notrend := false;
     o_nodsatlint := false; o_nodsatnone := false; o_gwchlint := false; o_gwchnone := false; o_infer := None; o_rmin := 1;
     o_linci := false; o_white := true; o_nrlzn := 200; o_nodiagn := false; o_ordercnstit := PNone;
     o_method := PStr "ols"; o_robust_kw := PNone; o_epoch := PNone |}.

Lemma sorted_two a b n m : a <= b -> StronglySorted Rle (repeat a n ++ repeat b m).
Proof.
  intros H. induction n as [|n IH]; cbn.
  - induction m as [|m IH]; constructor; auto. clear IH. induction m; constructor; auto; lra.
  - constructor; auto. apply Forall_app. split; apply Forall_forall; intros x Hx; apply repeat_spec in Hx; subst; lra.
Qed.

Lemma map_repeat {A B} (f : A -> B) x n : map f (repeat x n) = repeat (f x) n.
Proof. induction n; cbn; congruence. Qed.

Lemma tilted_spread : spread (0 :: repeat (1 / 2) 99 ++ repeat (180 - 1 / 2) 100)%list (1.96 * (89 + 1 / 2) / 0.6745).
Proof.
  exists 90, (89 + 1 / 2). split; [|split; [|reflexivity]].
  - exists (0 :: repeat (1 / 2) 99 ++ repeat (180 - 1 / 2) 100)%list. split; [apply Permutation_refl|]. split.
    + constructor; [apply sorted_two; lra|]. apply Forall_app.
      split; apply Forall_forall; intros x Hx; apply repeat_spec in Hx; subst; lra.
    + cbn. lra.
  - exists (repeat (89 + 1 / 2) 199 ++ [90])%list. split; [|split].
    + cbn [map]. rewrite map_app, !map_repeat.
      replace (Rabs (0 - 90)) with 90 by (rewrite Rabs_left; lra).
      replace (Rabs (1 / 2 - 90)) with (89 + 1 / 2) by (rewrite Rabs_left; lra).
      replace (Rabs (180 - 1 / 2 - 90)) with (89 + 1 / 2) by (rewrite Rabs_right; lra).
      rewrite <- repeat_app. apply Permutation_cons_append.
    + apply (sorted_two (89 + 1 / 2) 90 199 1). lra.
    + cbn. lra.
Qed.

Lemma tilted_result : exists w, conf_one mc_lib mc_opt (Some (spike 2 9 (RtoC 0), spike 2 9 (RtoC 0))) None 1 0 1 0 0 0 0 0 = Ok w /\
  ci_theta w = Fin (1.96 * (89 + 1 / 2) / 0.6745).
Proof.
  assert (X : exists w, conf_one mc_lib mc_opt (Some (spike 2 9 (RtoC 0), spike 2 9 (RtoC 0))) None 1 0 1 0 0 0 0 0 = Ok w).
  { unfold conf_one. cbv zeta. cbn [mc_opt o_linci o_twodim o_nrlzn n_uu n_vv n_uv option_map]. unfold mc2.
    assert (F : exists M, need_finite (block4
       [[Fin (varXu (block true (spike 2 9 (RtoC 0), spike 2 9 (RtoC 0)) 1 0) (block true (spike 2 9 (RtoC 0), spike 2 9 (RtoC 0)) 1 0));
          Fin (covXuYu (block false (spike 2 9 (RtoC 0), spike 2 9 (RtoC 0)) 1 0))];
        [Fin (covXuYu (block false (spike 2 9 (RtoC 0), spike 2 9 (RtoC 0)) 1 0));
          Fin (varYu (block false (spike 2 9 (RtoC 0), spike 2 9 (RtoC 0)) 1 0) (block false (spike 2 9 (RtoC 0), spike 2 9 (RtoC 0)) 1 0))]]
       [[Fin (covXuXv (block false (spike 2 9 (RtoC 0), spike 2 9 (RtoC 0)) 1 0)); Fin (covXuYv (block true (spike 2 9 (RtoC 0), spike 2 9 (RtoC 0)) 1 0))];
        [Fin (covYuXv (block false (spike 2 9 (RtoC 0), spike 2 9 (RtoC 0)) 1 0)); Fin (covYuYv (block true (spike 2 9 (RtoC 0), spike 2 9 (RtoC 0)) 1 0))]]
       (transp2 [[Fin (covXuXv (block false (spike 2 9 (RtoC 0), spike 2 9 (RtoC 0)) 1 0)); Fin (covXuYv (block true (spike 2 9 (RtoC 0), spike 2 9 (RtoC 0)) 1 0))];
        [Fin (covYuXv (block false (spike 2 9 (RtoC 0), spike 2 9 (RtoC 0)) 1 0)); Fin (covYuYv (block true (spike 2 9 (RtoC 0), spike 2 9 (RtoC 0)) 1 0))]])
       [[Fin (varXv (block false (spike 2 9 (RtoC 0), spike 2 9 (RtoC 0)) 1 0) (block false (spike 2 9 (RtoC 0), spike 2 9 (RtoC 0)) 1 0));
          Fin (covXvYv (block true (spike 2 9 (RtoC 0), spike 2 9 (RtoC 0)) 1 0))];
        [Fin (covXvYv (block true (spike 2 9 (RtoC 0), spike 2 9 (RtoC 0)) 1 0));
          Fin (varYv (block true (spike 2 9 (RtoC 0), spike 2 9 (RtoC 0)) 1 0) (block true (spike 2 9 (RtoC 0), spike 2 9 (RtoC 0)) 1 0))]]) = Ok M).
    { eexists. reflexivity. }
    destruct F as [M EM]. rewrite EM. clear EM. cbn [bind mc_lib l_mvn length Nat.eqb andb].
    assert (T : exists e0 ep, cs2cep_mat (map (fun p => let '(a, b, d, f) := p in [a; b; d; f]) tilted) = Ok (e0 :: ep)).
    { unfold tilted. cbn [map]. unfold cs2cep_mat. cbn [mapM cs2cep_row bind].
      assert (G : forall l : list (R * R * R * R), exists r, mapM cs2cep_row (map (fun p => let '(a, b, d, f) := p in [a; b; d; f]) l) = Ok r).
      { induction l as [|[[[a b] d] f] l [r E]]; [eexists; reflexivity|]. cbn [map mapM cs2cep_row bind]. rewrite E. cbn [bind]. eauto. }
      destruct (G (repeat (1, 0, tilt, 0) 99 ++ repeat (1, 0, - tilt, 0) 100)%list) as [r ->]. cbn [bind]. eauto. }
    destruct T as (e0 & ep & ->). cbn [bind]. eauto. }
  destruct X as [w Hw]. exists w. split; [exact Hw|].
  destruct (sampled2 mc_lib mc_opt _ _ _ _ _ _ _ _ _ _ w mc_lib_shape eq_refl eq_refl Hw) as
    (cov & q & gs & ths & x1 & x2 & x3 & x4 & S1 & S2 & _ & _ & _ & _ & _ & _ & _ & (rest & -> & B) & S3 & ->).
  f_equal. apply (spread_unique _ _ _ S3).
  assert (Q : q = tilted).
  { cbn [mc_lib l_mvn mc_opt o_nrlzn length Nat.eqb andb] in S1. apply Ok_inj in S1. clear -S1. revert S1. generalize tilted.
    induction q as [|[[[a b] d] f] q IH]; intros [|[[[a' b'] d'] f'] l] H; try discriminate; auto. cbn [map] in H.
    injection H as -> -> -> -> H. f_equal. auto. }
  subst q. unfold tilted in B. cbn [map tl] in B. rewrite map_app, !map_repeat in B. rewrite theta_tilt, theta_tilt_neg in B.
  assert (U : forall l r, Forall (fun a => 0 <= a < 180) l ->
     Forall2 (fun a b => same_angle 360 b a /\ 0 - 360 / 2 <= b < 0 + 360 / 2) l r -> r = l).
  { clear. intros l r F H. induction H as [|a b l r [[k Hk] Hb] H IH]; auto. inversion F; subst. rewrite IH by auto. f_equal.
    assert (-1 < k < 1)%Z by (split; apply lt_IZR; cbn; lra). replace k with 0%Z by lia. lra. }
  apply U in B; [subst rest; apply tilted_spread|].
  apply Forall_app. split; apply Forall_forall; intros x Hx; apply repeat_spec in Hx; subst; lra.
Qed.

Lemma theta_flat : theta_of 1 0 0 0 = 0.
Proof.
  unfold theta_of, cs2cep2, e_theta. cbn [fst snd].
  assert (A : forall y, y = 0 -> angle_deg (1 / 2, y) = 0).
  { intros y ->. unfold angle_deg, angle. destruct (Rlt_dec 0 (1 / 2)); [|lra]. replace (0 / (1 / 2)) with 0 by field.
    rewrite atan_0. field. apply PI_neq0. }
  replace ((1 + 0) / 2) with (1 / 2) by field. replace ((1 - 0) / 2) with (1 / 2) by field. rewrite !A by field.
  rewrite pymod_small; lra.
Qed.
Lemma tilted_near : Forall (fun p => let '(a, b, d, f) := p in exists x, Rabs x <= 1 / 2 /\ same_angle 180 (theta_of a b d f) x) tilted.
Proof.
  unfold tilted. constructor.
  - exists 0. split; [rewrite Rabs_R0; lra|]. rewrite theta_flat. exists 0%Z. lra.
  - apply Forall_app. split; apply Forall_forall; intros p Hp; apply repeat_spec in Hp; subst p.
    + exists (1 / 2). rewrite theta_tilt. split; [rewrite Rabs_right; lra | exists 0%Z; lra].
    + exists (- (1 / 2)). rewrite theta_tilt_neg. split; [rewrite Rabs_Ropp, Rabs_right; lra | exists 1%Z; lra].
Qed.
Lemma tilted_full : exists L w, mvn_shape L /\ l_mvn L 0%nat [1; 0; 0; 0] (repeat [0; 0; 0; 0] 4) 200 =
    Ok (map (fun p => let '(a, b, d, f) := p in [a; b; d; f]) tilted) /\
  Forall (fun p => let '(a, b, d, f) := p in exists x, Rabs x <= 1 / 2 /\ same_angle 180 (theta_of a b d f) x) tilted /\
  conf_one L mc_opt (Some (spike 2 9 (RtoC 0), spike 2 9 (RtoC 0))) None 1 0 1 0 0 0 0 0 = Ok w /\
  ci_theta w = Fin (1.96 * (89 + 1 / 2) / 0.6745).
Proof.
  destruct tilted_result as (w & E1 & E2). exists mc_lib, w. split; [exact mc_lib_shape|]. split; [reflexivity|].
  split; [exact tilted_near|]. auto.
Qed.
