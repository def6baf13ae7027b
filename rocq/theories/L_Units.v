(** The stages of solve on data in other units. *)
From Coq Require Import Lia Lra.
From Coquelicot Require Import Coquelicot.
From Verif Require Import M_Base M_Lib M_Options M_Slvinit M_Select M_Ellipse M_Robust M_Period M_Conf M_Diag M_Solve S_RobustErr S_Units
  L_Base L_Select L_SolveInv L_Angle L_Ellipse L_Model8 L_Affine L_Homog L_Inferred.
Open Scope R_scope.
Open Scope string_scope.

Notation kc k := (map (Cmult (RtoC k))).
Lemma times_xs k : times k = xs k. Proof. reflexivity. Qed.

(** ** coefficients *)
Definition csc (k : R) (x : cs) : cs :=
  {| x_Xu := k * x_Xu x; x_Yu := k * x_Yu x; x_Xv := k * x_Xv x; x_Yv := k * x_Yv x; x_g := x_g x; x_theta := x_theta x |}.
Lemma cs_of_sc k p q : Xu_of (Cmult (RtoC k) p) (Cmult (RtoC k) q) = k * Xu_of p q /\ Yu_of (Cmult (RtoC k) p) (Cmult (RtoC k) q) = k * Yu_of p q /\
  Xv_of (Cmult (RtoC k) p) (Cmult (RtoC k) q) = k * Xv_of p q /\ Yv_of (Cmult (RtoC k) p) (Cmult (RtoC k) q) = k * Yv_of p q.
Proof. destruct p as [a b], q as [d e]. unfold Xu_of, Yu_of, Xv_of, Yv_of. cbn. repeat split; ring. Qed.
Lemma ellipse_sc k tw p q : 0 < k -> let e := ellipse_of tw p q in let e' := ellipse_of tw (Cmult (RtoC k) p) (Cmult (RtoC k) q) in
  e_maj e' = k * e_maj e /\ (tw = true -> e_min e' = k * e_min e) /\ e_theta e' = e_theta e /\ e_g e' = e_g e.
Proof.
  intros K. cbv zeta. unfold ellipse_of. destruct (cs_of_sc k p q) as (E1 & E2 & E3 & E4). rewrite E1, E2, E3, E4. destruct tw.
  - destruct (cs2cep2 (Xu_of p q) (Yu_of p q) (Xv_of p q) (Yv_of p q)) as [[[a b] th] g] eqn:E. rewrite (scale_lemma k _ _ _ _ _ _ _ _ K E). cbn. auto.
  - destruct (cs2cep1 (Xu_of p q) (Yu_of p q)) as [[[a b] th] g] eqn:E. rewrite (scale1 k _ _ _ _ _ _ K E). cbn. repeat split; auto. discriminate.
Qed.
Lemma cslice_sc k m i n : cslice (kc k m) i n = kc k (cslice m i n).
Proof. unfold cslice. now rewrite skipn_map, firstn_map. Qed.
Lemma ap_sc k m a b : ap_of (kc k m) a b = kc k (ap_of m a b).
Proof. unfold ap_of. now rewrite !cslice_sc, map_app. Qed.
Lemma am_sc k m a b : am_of (kc k m) a b = kc k (am_of m a b).
Proof. unfold am_of. now rewrite !cslice_sc, map_app. Qed.
Notation pmk k := (map (fun pq : C * C => (Cmult (RtoC k) (fst pq), Cmult (RtoC k) (snd pq)))).
Lemma combine_kc k a b : combine (kc k a) (kc k b) = pmk k (combine a b).
Proof. now rewrite combine_map2. Qed.
Lemma all_pm_sc k m s : all_pm (kc k m) s = pmk k (all_pm m s).
Proof. unfold all_pm. cbv zeta. now rewrite ap_sc, am_sc, !skipn_map, !inferred_scal, !combine_kc, map_app. Qed.
Lemma last_sc k m n : m_last (kc k m) n = Cmult (RtoC k) (m_last m n).
Proof.
  unfold m_last. rewrite map_length. transitivity (nth (length m - n) (kc k m) (Cmult (RtoC k) (RtoC 0))); [f_equal; ring|]. now rewrite map_nth.
Qed.
Lemma input_sc k tw m s : 0 < k -> conf_input tw (kc k m) s = map (csc k) (conf_input tw m s).
Proof.
  intros K. unfold conf_input. rewrite ap_sc, am_sc, combine_kc, !map_map. apply map_ext. intros [p q]. cbn [fst snd]. unfold csc. cbn [x_Xu x_Yu x_Xv x_Yv x_g x_theta].
  destruct (cs_of_sc k p q) as (-> & -> & -> & ->). destruct (ellipse_sc k tw p q K) as (_ & _ & -> & ->). reflexivity.
Qed.
Lemma core_sc k tref lor la o s m W : 0 < k -> coef_core tref lor la o s (kc k m) W = in_units k (coef_core tref lor la o s m W).
Proof.
  intros K. unfold coef_core, in_units. cbn [c_name c_frq c_lind c_reftime c_lat c_opt c_nNR c_nR c_nI c_weights c_g c_A c_Lsmaj c_Lsmin c_theta c_mean c_slope c_umean c_vmean c_uslope c_vslope c_g_ci c_A_ci c_Lsmaj_ci c_Lsmin_ci c_theta_ci c_PE c_SNR c_diagn].
  rewrite all_pm_sc, !last_sc. 
  assert (M : forall (A : Type) (f g : R * R * R * R -> A), (forall p q, f (ellipse_of (o_twodim o) (Cmult (RtoC k) p) (Cmult (RtoC k) q)) = g (ellipse_of (o_twodim o) p q)) ->
    map f (map (fun p => ellipse_of (o_twodim o) (fst p) (snd p)) (pmk k (all_pm m s))) = map g (map (fun p => ellipse_of (o_twodim o) (fst p) (snd p)) (all_pm m s))).
  { intros A f g H. rewrite !map_map. apply map_ext. intros [p q]. apply H. }
  assert (H := fun p q => ellipse_sc k (o_twodim o) p q K).
  rewrite (M _ e_g e_g), (M _ e_maj (fun e => k * e_maj e)), (M _ e_theta e_theta) by (intros p q; apply H).
  assert (MM : forall l : list (R * R * R * R), map (fun e => k * e_maj e) l = map (Rmult k) (map e_maj l)) by (intros; rewrite map_map; reflexivity). rewrite MM.
  assert (F1 : forall z : C, fst (Cmult (RtoC k) z) = k * fst z) by (intros []; cbn; ring). assert (F2 : forall z : C, snd (Cmult (RtoC k) z) = k * snd z) by (intros []; cbn; ring).
  rewrite !F1, !F2. assert (Q : forall x, k * x / lor = k * (x / lor)) by (intros; unfold Rdiv; ring). rewrite !Q.
  destruct (o_twodim o) eqn:T; cbn [oif negb andb option_map]; [|destruct (negb (o_notrend o)); reflexivity].
  rewrite (M _ e_min (fun e => k * e_min e)) by (intros p q; now apply H).
  assert (MN : forall l : list (R * R * R * R), map (fun e => k * e_min e) l = map (Rmult k) (map e_min l)) by (intros; rewrite map_map; reflexivity). rewrite MN.
  destruct (negb (o_notrend o)); reflexivity.
Qed.

(** ** covariances *)
Definition gam_sc (k : R) : option (cmat * cmat) -> option (cmat * cmat) :=
  option_map (fun g => (map (map (Cmult (RtoC (k * k)))) (fst g), map (map (Cmult (RtoC (k * k)))) (snd g))).
Lemma wdot_sc k a b W : wdot (kc k a) (kc k b) W = Cmult (RtoC (k * k)) (wdot a b W).
Proof.
  unfold wdot. rewrite <- csum_sc. f_equal. rewrite combine_map2. 
  assert (E : combine (map (fun p : C * C => (Cmult (RtoC k) (fst p), Cmult (RtoC k) (snd p))) (combine a b)) W = map (fun q => ((Cmult (RtoC k) (fst (fst q)), Cmult (RtoC k) (snd (fst q))), snd q)) (combine (combine a b) W)).
  { rewrite <- (map_id W) at 1. now rewrite combine_map2. }
  rewrite E, !map_map. apply map_ext. intros [[x y] w]. cbn [fst snd]. rewrite RtoC_mult. ring.
Qed.
Lemma conj_kc k l : map Cconj (kc k l) = kc k (map Cconj l).
Proof. rewrite !map_map. apply map_ext. intros [a b]. apply C_eq; cbn; ring. Qed.
Lemma gammas_sc L k B nm W xraw xmod :
  gammas L B nm W (kc k xraw) (kc k xmod) = match gammas L B nm W xraw xmod with Ok g => Ok (gam_sc k g) | Err e => Err e end.
Proof.
  unfold gammas. destruct (all_finite W) as [w|]; [|reflexivity]. cbv zeta. rewrite map_length, !conj_kc, !wdot_sc.
  destruct (l_inv L (gram (cconj_mat B) B w nm)) as [iC|]; [|reflexivity]. cbn [bind].
  destruct (l_inv L (gram B B w nm)) as [iP|]; [|reflexivity]. cbn [bind].
  destruct (Req_EM_T _ 0) as [|N]; [reflexivity|]. unfold gam_sc. cbn [option_map fst snd]. set (dof := INR (length xraw) - INR nm) in *.
  generalize (wdot (map Cconj xraw) xraw w) (wdot (map Cconj xmod) xraw w) (wdot xraw xraw w) (wdot xmod xraw w). intros z1 z2 z3 z4.
  do 3 f_equal; rewrite map_map; apply map_ext; intros row; rewrite map_map; apply map_ext; intros z.
  - replace (fst (Cminus (Cmult (RtoC (k * k)) z1) (Cmult (RtoC (k * k)) z2)) / dof) with (k * k * (fst (Cminus z1 z2) / dof)) by (destruct z1, z2; cbn; field; exact N).
    rewrite RtoC_mult. ring.
  - unfold Cdiv. rewrite <- (RtoC_inv dof) by exact N. ring.
Qed.
Lemma cent_sc k M i j : cent (map (map (Cmult (RtoC k))) M) i j = Cmult (RtoC k) (cent M i j).
Proof.
  unfold cent. replace (nth i (map (kc k) M) []) with (kc k (nth i M [])) by (rewrite <- (map_nth (kc k) M [] i); reflexivity).
  rewrite <- (map_nth (Cmult (RtoC k))). f_equal. ring.
Qed.
Lemma block_sc k add g nc c : let e := block add g nc c in let e' := block add (map (kc k) (fst g), map (kc k) (snd g)) nc c in
  varXu e' e' = k * varXu e e /\ varYu e' e' = k * varYu e e /\ varXv e' e' = k * varXv e e /\ varYv e' e' = k * varYv e e.
Proof.
  cbv zeta. unfold block. cbn [fst snd]. rewrite !cent_sc. cbn [varXu varYu varXv varYv].
  assert (G : forall a b, (if add then Cplus (Cmult (RtoC k) a) (Cmult (RtoC k) b) else Cminus (Cmult (RtoC k) a) (Cmult (RtoC k) b)) = Cmult (RtoC k) (if add then Cplus a b else Cminus a b)) by (intros; destruct add; ring).
  rewrite !G. assert (F1 : forall z : C, fst (Cmult (RtoC k) z) = k * fst z) by (intros []; cbn; ring). unfold re4. rewrite !F1. repeat split; field.
Qed.
Lemma linear1_vc_sc k X Y vX vY P : 0 < k ->
  ci_vc (linear1 (k * X) (k * Y) (xs (k * k) vX) (xs (k * k) vY) (option_map (xs (k * k)) P)) = map (xs (k * k)) (ci_vc (linear1 X Y vX vY P)).
Proof.
  intros K. assert (K2 : 0 < k * k) by nra. unfold linear1.
  destruct P as [P|]; cbn [option_map]; [rewrite xs_add, !share by auto|];
    repeat match goal with |- context [ut_linci ?a ?b ?c ?d ?e ?f ?g ?h] => destruct (ut_linci a b c d e f g h) as [[? ?] [? ?]] end; reflexivity.
Qed.
Lemma linear2_vc_sc k Xu Yu Xv Yv a b d e P : 0 < k ->
  ci_vc (linear2 (k * Xu) (k * Yu) (k * Xv) (k * Yv) (xs (k * k) a) (xs (k * k) b) (xs (k * k) d) (xs (k * k) e) (option_map (xs (k * k)) P)) =
  map (xs (k * k)) (ci_vc (linear2 Xu Yu Xv Yv a b d e P)).
Proof.
  intros K. assert (K2 : 0 < k * k) by nra. unfold linear2.
  destruct P as [P|]; cbn [option_map]; [rewrite xs_add, !share by auto|];
    repeat match goal with |- context [csig ?a ?b] => destruct (csig a b) as [? ?] end;
    repeat match goal with |- context [ut_linci ?a ?b ?c ?d ?e ?f ?g ?h] => destruct (ut_linci a b c d e f g h) as [[? ?] [? ?]] end; reflexivity.
Qed.
Definition ci_units (k : R) (w w' : ci) : Prop := ci_scaled k w w' /\ ci_vc w' = map (xs (k * k)) (ci_vc w).
Lemma conf_one_sc L k o gam p nc c x : 0 < k -> o_linci o = true ->
  exists w w', conf_one L o gam p nc c (x_Xu x) (x_Yu x) (x_Xv x) (x_Yv x) (x_g x) (x_theta x) = Ok w /\
    conf_one L o (gam_sc k gam) (option_map (noise_sc (k * k)) p) nc c (k * x_Xu x) (k * x_Yu x) (k * x_Xv x) (k * x_Yv x) (x_g x) (x_theta x) = Ok w' /\ ci_units k w w'.
Proof.
  intros K LI. unfold conf_one. rewrite LI. cbv zeta.
  assert (V : forall f add, (forall g, f (block add (map (kc (k * k)) (fst g), map (kc (k * k)) (snd g)) nc c) = k * k * f (block add g nc c)) ->
    match gam_sc k gam with None => NaN | Some gm => Fin (f (block add gm nc c)) end = xs (k * k) (match gam with None => NaN | Some gm => Fin (f (block add gm nc c)) end)).
  { intros f add H. destruct gam as [g|]; [|reflexivity]. cbn. now rewrite H. }
  rewrite (V (fun G => varXu G G) true), (V (fun G => varYu G G) false), (V (fun G => varXv G G) false), (V (fun G => varYv G G) true) by (intros g; apply block_sc).
  clear V. 
  assert (NS : forall l, nth_x (map (xs (k * k)) l) c = xs (k * k) (nth_x l c)) by (intros; unfold nth_x; rewrite <- (map_nth (xs (k * k)) l NaN c); reflexivity).
  assert (N1 : n_uu (option_map (noise_sc (k * k)) p) c = option_map (xs (k * k)) (n_uu p c)) by (destruct p as [[a b]|]; [unfold n_uu, noise_sc; cbn [option_map fst snd]; now rewrite NS|reflexivity]).
  assert (N2 : n_vv (option_map (noise_sc (k * k)) p) c = option_map (xs (k * k)) (n_vv p c)) by (destruct p as [[a [[b d]|]]|]; [unfold n_vv, noise_sc; cbn [option_map fst snd]; now rewrite NS|reflexivity..]).
  rewrite N1, N2. do 2 eexists. split; [reflexivity|]. split; [reflexivity|]. destruct (o_twodim o); split.
  - now apply linear2_homog.
  - now apply linear2_vc_sc.
  - now apply linear1_homog.
  - now apply linear1_vc_sc.
Qed.
Lemma one_inferred_sc k tw x vc r : 0 < k -> ci_units k (one_inferred tw x vc r) (one_inferred tw (csc k x) (map (xs (k * k)) vc) r).
Proof.
  intros K. assert (K2 : 0 < k * k) by nra. unfold one_inferred, conf_inferred. cbn [r_Rp r_Rm combine map hd csc x_Xu x_Yu x_Xv x_Yv].
  destruct r as [rp rm]. cbn [fst snd].
  assert (NS : forall i, nth_x (map (xs (k * k)) vc) i = xs (k * k) (nth_x vc i)) by (intros; unfold nth_x; rewrite <- (map_nth (xs (k * k)) vc NaN i); reflexivity).
  rewrite !NS, !(xs_mul_r (k * k)) by exact K2. 
  destruct tw.
  - rewrite !xs_add, !xs_mul_r, !xs_add by exact K2. 
    match goal with |- context [csig ?a ?b] => match goal with |- context [csig b a] => set (va := a); set (vb := b) end end.
    unfold csig. rewrite !xs_sqrt, !xs_complex by exact K. destruct (xcomplex (xsqrt va) (xsqrt vb)) as [p1 p2], (xcomplex (xsqrt vb) (xsqrt va)) as [q1 q2].
    cbn [fst snd]. rewrite linci_homog by exact K. destruct (ut_linci _ _ _ _ p1 q1 p2 q2) as [[s1 s1i] [s2 s2i]]. unfold xs2, ci_units, ci_scaled.
    cbn [fst snd ci_maj ci_min ci_theta ci_g ci_vc map]. rewrite !xs_mul_r by exact K. auto.
  - rewrite !xs_mul_r, !xs_add by exact K2.
    match goal with |- context [ut_linci _ _ 0 0 (xsqrt (xs _ ?a)) (xsqrt (xs _ ?b))] => set (va := a); set (vb := b) end.
    rewrite !xs_sqrt by exact K. assert (H := linci_homog k (x_Xu x) (x_Yu x) 0 0 (xsqrt va) (xsqrt vb) (Fin 0) (Fin 0) K).
    rewrite Rmult_0_r in H. cbn [xs] in H. rewrite Rmult_0_r in H. rewrite H.
    destruct (ut_linci (x_Xu x) (x_Yu x) 0 0 (xsqrt va) (xsqrt vb) (Fin 0) (Fin 0)) as [[s1 s1i] [s2 s2i]]. unfold xs2, ci_units, ci_scaled.
    cbn [fst snd ci_maj ci_min ci_theta ci_g ci_vc map]. rewrite xs_mul_r by exact K. auto.
Qed.
Lemma mapM_idx_sc L k o gam p nc : 0 < k -> o_linci o = true -> forall l i,
  exists ws ws', mapM_idx (fun c x => conf_one L o gam p nc c (x_Xu x) (x_Yu x) (x_Xv x) (x_Yv x) (x_g x) (x_theta x)) i l = Ok ws /\
    mapM_idx (fun c x => conf_one L o (gam_sc k gam) (option_map (noise_sc (k * k)) p) nc c (x_Xu x) (x_Yu x) (x_Xv x) (x_Yv x) (x_g x) (x_theta x)) i (map (csc k) l) = Ok ws' /\
    Forall2 (ci_units k) ws ws'.
Proof.
  intros K LI l. induction l as [|x l IH]; intros i; cbn [mapM_idx map]; [exists [], []; auto|].
  destruct (conf_one_sc L k o gam p nc i x K LI) as (w & w' & H1 & H2 & H3). destruct (IH (S i)) as (ws & ws' & G1 & G2 & G3).
  rewrite H1, G1. cbn [csc x_Xu x_Yu x_Xv x_Yv x_g x_theta]. rewrite H2. cbn [bind]. rewrite G2. cbn [bind]. exists (w :: ws), (w' :: ws'). auto.
Qed.
Lemma F2_skipn {A B} (P : A -> B -> Prop) n : forall l l', Forall2 P l l' -> Forall2 P (skipn n l) (skipn n l').
Proof. induction n as [|n IH]; intros l l' H; [exact H|]. destruct H; cbn [skipn]; auto. Qed.
Lemma confidence_sc L k o s tin t e elor xraw xmod W B nm xl : 0 < k -> o_linci o = true -> o_white o = true \/ o_equi o = true \/ lomb_quadratic L ->
  forall cis cis', confidence L o s tin t e elor xraw xmod W B nm xl = Ok cis ->
  confidence L o s tin t (option_map (fun q => (sc k (fst q), option_map (sc k) (snd q))) e) elor (kc k xraw) (kc k xmod) W B nm (map (csc k) xl) = Ok cis' ->
  Forall2 (ci_units k) cis cis'.
Proof.
  intros K LI Q cis cis'. unfold confidence.
  set (N := if o_white o then _ else _). set (N' := if o_white o then _ else _).
  assert (EN : N' = match N with Ok p => Ok (option_map (noise_sc (k * k)) p) | Err e => Err e end).
  { unfold N, N'. destruct (o_white o); [reflexivity|]. destruct e as [[eu ev]|]; [|reflexivity]. cbn [option_map fst snd].
    destruct Q as [Q|Q]; [discriminate|]. rewrite averaged_sc by (exact Q || lra). destruct (band_averaged_psd_by_constit _ _ _ _ _ _ _ _ _); reflexivity. }
  rewrite EN. clear EN. clearbody N. clear N'. destruct N as [p|]; [|discriminate]. cbn [bind]. rewrite gammas_sc. destruct (gammas L B nm W xraw xmod) as [g|]; [|discriminate]. cbn [bind].
  rewrite map_length. destruct (mapM_idx_sc L k o g p (length xl) K LI xl 0) as (ws & ws' & -> & -> & F). cbn [bind].
  destruct (o_infer o); [|intros H H'; apply Ok_inj in H, H'; now subst]. rewrite LI. intros H H'. apply Ok_inj in H, H'. subst cis cis'.
  apply Forall2_app; [exact F|].
  assert (G : Forall2 (fun a b : cs * ci => fst b = csc k (fst a) /\ ci_units k (snd a) (snd b)) (combine xl ws) (combine (map (csc k) xl) ws')).
  { clear - F. revert xl. induction F as [|w w' ws ws' H F IH]; intros [|x xl]; try constructor; auto. }
  apply (F2_skipn _ (s_nNR s)) in G. revert G. generalize (skipn (s_nNR s) (combine xl ws)) (skipn (s_nNR s) (combine (map (csc k) xl) ws')) (s_R s).
  intros la lb Rs G. revert Rs. induction G as [|[x w] [x' w'] la lb [E [H V]] G IH]; intros [|r Rs]; try constructor. cbn [combine map List.concat]. cbn [fst snd] in *.
  apply Forall2_app; [|apply IH]. rewrite !conf_inferred_map, E, V. generalize (combine (r_Rp r) (r_Rm r)). intros l. induction l as [|q l IHl]; constructor; auto. now apply one_inferred_sc.
Qed.

(** ** the stages *)
Lemma matvec_sc k B m : cmatvec B (kc k m) = kc k (cmatvec B m).
Proof. unfold cmatvec. rewrite map_map. apply map_ext. intros row. apply cdot_scal. Qed.
Lemma fit_sc k tw B m : model_fit tw B (kc k m) = kc k (model_fit tw B m).
Proof.
  unfold model_fit. cbv zeta. rewrite matvec_sc. destruct tw; [reflexivity|]. rewrite !map_map. apply map_ext. intros [a b]. apply C_eq; cbn; ring.
Qed.
Lemma resid_sc k tw W x y : resid_parts tw W (kc k x) (kc k y) = option_map (fun q => (sc k (fst q), option_map (sc k) (snd q))) (resid_parts tw W x y).
Proof.
  unfold resid_parts. destruct (all_finite W) as [w|]; [|reflexivity]. cbv zeta. cbn [option_map fst snd].
  assert (E : map (fun p : R * C => Cmult (RtoC (fst p)) (snd p)) (combine w (map (fun p : C * C => Cminus (fst p) (snd p)) (combine (kc k x) (kc k y)))) =
    kc k (map (fun p : R * C => Cmult (RtoC (fst p)) (snd p)) (combine w (map (fun p : C * C => Cminus (fst p) (snd p)) (combine x y))))).
  { revert x y. induction w as [|a w IH]; intros [|b x] [|d y]; try reflexivity. cbn [map combine fst snd]. rewrite IH. f_equal. ring. }
  rewrite E. generalize (map (fun p : R * C => Cmult (RtoC (fst p)) (snd p)) (combine w (map (fun p : C * C => Cminus (fst p) (snd p)) (combine x y)))). intros l.
  assert (F1 : map fst (kc k l) = sc k (map fst l)) by (rewrite !map_map; apply map_ext; intros []; cbn; ring).
  assert (F2 : map snd (kc k l) = sc k (map snd l)) by (rewrite !map_map; apply map_ext; intros []; cbn; ring).
  rewrite F1, F2. destruct tw; reflexivity.
Qed.
Lemma set_ci_sc k c tw cis cis' : Forall2 (ci_units k) cis cis' -> set_ci (in_units k c) tw cis' = in_units k (set_ci c tw cis).
Proof.
  intros F. unfold set_ci, in_units. cbn [c_name c_frq c_lind c_reftime c_lat c_opt c_nNR c_nR c_nI c_weights c_g c_A c_Lsmaj c_Lsmin c_theta c_mean c_slope c_umean c_vmean c_uslope c_vslope c_g_ci c_A_ci c_Lsmaj_ci c_Lsmin_ci c_theta_ci c_PE c_SNR c_diagn].
  rewrite times_xs.
  assert (E : map ci_g cis' = map ci_g cis /\ map ci_theta cis' = map ci_theta cis /\ map ci_maj cis' = map (xs k) (map ci_maj cis) /\ map ci_min cis' = map (xs k) (map ci_min cis)).
  { induction F as [|w w' l l' [(H1 & H2 & H3 & H4) _] F (I1 & I2 & I3 & I4)]; [auto|]. cbn [map]. rewrite H1, H2, H3, H4, I1, I2, I3, I4. auto. }
  destruct E as (-> & -> & -> & ->). destruct tw; reflexivity.
Qed.
Lemma ci_stage_sc L k o s si si' la B xraw m W c1 c1' : 0 < k -> o_conf_int o = false \/ o_linci o = true -> o_white o = true \/ o_equi o = true \/ lomb_quadratic L ->
  si_tin si' = si_tin si -> si_t si' = si_t si -> si_elor si' = si_elor si -> si_tref si' = si_tref si -> si_lor si' = si_lor si ->
  ci_stage L o s si la B xraw m W = Ok c1 -> ci_stage L o s si' la B (kc k xraw) (kc k m) W = Ok c1' -> c1' = in_units k c1.
Proof.
  intros K CI Q E1 E2 E3 E4 E5. unfold ci_stage. rewrite E1, E2, E3, E4, E5, core_sc by exact K. 
  destruct (o_conf_int o); [|intros H H'; apply Ok_inj in H, H'; congruence]. destruct CI as [CI|CI]; [discriminate|].
  intros H H'. inv_bind H. inv_bind H'. rewrite fit_sc, resid_sc, input_sc in Ha0 by exact K.
  assert (F := confidence_sc _ _ _ _ _ _ _ _ _ _ _ _ _ _ K CI Q _ _ Ha Ha0). apply Ok_inj in H, H'. subst c1 c1'. now apply set_ci_sc.
Qed.

Lemma energies_sc k c : energies (in_units k c) = match energies c with Ok e => Ok (sc (k * k) e) | Err e => Err e end.
Proof.
  unfold energies, in_units. cbn [c_Lsmaj c_Lsmin c_A]. destruct (c_Lsmaj c) as [a|]; cbn [option_map].
  - destruct (c_Lsmin c) as [b|]; [|reflexivity]. cbn [option_map key bind]. f_equal. unfold map2. rewrite combine_map2, !map_map. apply map_ext. intros [x y]. cbn [fst snd]. unfold Rsqr. ring.
  - destruct (c_A c) as [a|]; [|reflexivity]. cbn [option_map key bind]. f_equal. rewrite !map_map. apply map_ext. intros x. unfold Rsqr. ring.
Qed.
Lemma PE_sc k c : 0 < k -> PE_of (in_units k c) = PE_of c.
Proof.
  intros K. assert (K2 : 0 < k * k) by nra. unfold PE_of. rewrite energies_sc. destruct (energies c) as [E|]; [|reflexivity]. cbn [bind]. f_equal.
  unfold in_units at 1. cbn [c_Lsmaj]. rewrite rsum_sc. destruct (c_Lsmaj c); cbn [option_map]; rewrite map_map; apply map_ext; intros e.
  - change (Fin (k * k * rsum E)) with (xs (k * k) (Fin (rsum E))). change (Fin (k * k * e)) with (xs (k * k) (Fin e)).
    rewrite <- (xs_1 (Fin 100)) at 1. rewrite xdiv_xs, xs_mul_r, xs_mul_l, xs_xs by (auto; lra || (apply Rdiv_lt_0_compat; lra)).
    replace (k * k * (1 / (k * k))) with 1 by (field; lra). apply xs_1.
  - replace (100 * (k * k * e)) with (k * k * (100 * e)) by ring. 
    change (Fin (k * k * rsum E)) with (xs (k * k) (Fin (rsum E))). change (Fin (k * k * (100 * e))) with (xs (k * k) (Fin (100 * e))).
    rewrite xdiv_xs by exact K2. replace (k * k / (k * k)) with 1 by (field; lra). apply xs_1.
Qed.
Lemma ci_sq_sc k x : 0 < k -> ci_sq (xs k x) = xs (k * k) (ci_sq x).
Proof.
  intros K. unfold ci_sq, xsq. rewrite <- (xs_1 (Fin (196 / 100))) at 1 2. rewrite !xdiv_xs by lra. replace (k / 1) with k by field. now rewrite xs_mul_l, xs_mul_r, xs_xs by exact K.
Qed.
Lemma noises_sc k c : 0 < k -> noises (in_units k c) = match noises c with Ok e => Ok (map (xs (k * k)) e) | Err e => Err e end.
Proof.
  intros K. assert (K2 : 0 < k * k) by nra. unfold noises, in_units. rewrite times_xs. cbn [c_Lsmaj c_Lsmaj_ci c_Lsmin_ci c_A_ci]. destruct (c_Lsmaj c) as [a|]; cbn [option_map].
  - destruct (c_Lsmaj_ci c) as [x|]; [|reflexivity]. destruct (c_Lsmin_ci c) as [y|]; [|reflexivity]. cbn [option_map key bind]. f_equal. unfold map2. rewrite combine_map2, !map_map.
    apply map_ext. intros [p q]. cbn [fst snd]. now rewrite !ci_sq_sc, xs_add by assumption.
  - destruct (c_A_ci c) as [x|]; [|reflexivity]. cbn [option_map key bind]. f_equal. rewrite !map_map. apply map_ext. intros p. now apply ci_sq_sc.
Qed.
Lemma SNR_sc k c : 0 < k -> SNR_of (in_units k c) = SNR_of c.
Proof.
  intros K. assert (K2 : 0 < k * k) by nra. unfold SNR_of. rewrite energies_sc, noises_sc by exact K. destruct (energies c) as [E|]; [|reflexivity]. cbn [bind]. destruct (noises c) as [N|]; [|reflexivity]. cbn [bind].
  f_equal. unfold map2. rewrite combine_map2, map_map. apply map_ext. intros [e n]. cbn [fst snd].
  change (Fin (k * k * e)) with (xs (k * k) (Fin e)). rewrite xdiv_xs by exact K2. replace (k * k / (k * k)) with 1 by (field; lra). apply xs_1.
Qed.
Lemma diagn_sc L k c : 0 < k -> diagn_of L (in_units k c) = diagn_of L c.
Proof. intros K. unfold diagn_of. now rewrite PE_sc, SNR_sc by exact K. Qed.
Lemma diag_stage_sc L k o c c2 c2' : 0 < k -> diag_stage L o c = Ok c2 -> diag_stage L o (in_units k c) = Ok c2' -> c2' = in_units k c2.
Proof.
  intros K. unfold diag_stage. destruct (o_nodiagn o); [intros H H'; apply Ok_inj in H, H'; congruence|]. rewrite diagn_sc, PE_sc, SNR_sc by exact K.
  destruct (diagn_of L c) as [d|]; [|discriminate]. cbn [bind]. destruct (PE_of c) as [pe|]; [|discriminate]. cbn [bind]. destruct (SNR_of c) as [sn|]; [|discriminate]. cbn [bind].
  intros H H'. apply Ok_inj in H, H'. subst. reflexivity.
Qed.
Lemma take_map {A B} (f : A -> B) l ind : take_idx (map f l) ind = match take_idx l ind with Ok x => Ok (map f x) | Err e => Err e end.
Proof.
  unfold take_idx. induction ind as [|i ind IH]; [reflexivity|]. cbn [mapM]. rewrite nth_error_map, IH. destruct (nth_error l i); [|reflexivity]. cbn [option_map bind]. clear IH.
  match goal with |- context [mapM ?g ind] => destruct (mapM g ind) end; reflexivity.
Qed.
Lemma take_opt_map {A B} (f : A -> B) o ind : take_opt (option_map (map f) o) ind = match take_opt o ind with Ok x => Ok (option_map (map f) x) | Err e => Err e end.
Proof. destruct o as [l|]; [|reflexivity]. cbn [option_map take_opt]. rewrite take_map. destruct (take_idx l ind); reflexivity. Qed.
Lemma apply_order_sc k c ind : apply_order (in_units k c) ind = match apply_order c ind with Ok x => Ok (in_units k x) | Err e => Err e end.
Proof.
  unfold apply_order. unfold in_units at 1 2 3 4 5 6 7 8 9 10 11 12 13 14 15. cbn [c_name c_frq c_lind c_g c_A c_Lsmaj c_Lsmin c_theta c_g_ci c_A_ci c_Lsmaj_ci c_Lsmin_ci c_theta_ci c_PE c_SNR].
  rewrite !take_opt_map.
  repeat match goal with |- context [bind (match ?e with Ok x => _ | Err _ => _ end) _] => destruct e; cbn [bind]; [|reflexivity] | |- context [bind ?e _] => destruct e; cbn [bind]; [|reflexivity] end.
  reflexivity.
Qed.
Lemma reorder_sc L k c v c3 c3' : 0 < k -> reorder L c v = Ok c3 -> reorder L (in_units k c) v = Ok c3' -> c3' = in_units k c3.
Proof.
  intros K. unfold reorder. 
  assert (AP : forall b ind, apply_order b ind = Ok c3 -> apply_order (in_units k b) ind = Ok c3' -> c3' = in_units k c3).
  { intros b ind H H'. rewrite apply_order_sc, H in H'. apply Ok_inj in H'. congruence. }
  destruct (eq_str v "PE").
  - change (c_PE (in_units k c)) with (c_PE c). destruct (c_PE c) as [pe|] eqn:E.
    + cbn [bind]. change (c_PE (in_units k c)) with (c_PE c). rewrite E. cbn [key bind fst snd]. apply AP.
    + rewrite PE_sc by exact K. destruct (PE_of c) as [pe|]; [|discriminate]. cbn [bind key set_diag c_PE fst snd]. apply (AP (set_diag c (Some pe) (c_SNR c) (c_diagn c))).
  - destruct (eq_str v "frequency"); [cbn [bind fst snd]; apply AP|]. destruct (eq_str v "SNR").
    + change (c_SNR (in_units k c)) with (c_SNR c). destruct (key (c_SNR c)) as [sn|]; [|discriminate]. cbn [bind fst snd]. apply AP.
    + destruct (order_names v) as [ns|]; [|discriminate]. cbn [bind]. change (c_name (in_units k c)) with (c_name c). destruct (mapM _ ns) as [ind|]; [|discriminate]. cbn [bind fst snd]. apply AP.
Qed.
