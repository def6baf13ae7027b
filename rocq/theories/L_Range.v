(** Size, period and smoothness of what reconstruct predicts. *)
From Coq Require Import Lia Lra.
From Verif Require Import M_Base M_Lib M_Options M_Time M_Harmonics M_Select M_Diag M_Solve M_Recon S_Basis S_Order S_Ellipse S_Recon S_Model S_Range
  L_Base L_Harm2 L_Recon L_Recon2 L_Recon3 L_Recon4 L_Recon5 L_Core L_Model7 L_Model11 L_Model15.
Open Scope R_scope.
Open Scope string_scope.

(** ** One ellipse *)
Definition ell (f phi a b th g : R) : C := (ellipse_u f phi a b th g, ellipse_v f phi a b th g).
Lemma scalar_ell f phi a g : (scalar_tide f phi a g, 0) = ell f phi a 0 0 g.
Proof.
  unfold ell, scalar_tide, ellipse_u, ellipse_v. replace (deg 0) with 0 by (unfold deg; ring). rewrite cos_0, sin_0. f_equal; ring.
Qed.
Lemma cmod2 (z : C) k : 0 <= k -> fst z * fst z + snd z * snd z <= k * k -> Cmod z <= k.
Proof.
  intros H K. unfold Cmod. rewrite <- (sqrt_square k H). apply sqrt_le_1_alt. rewrite !Rmult_1_r || idtac. cbn. nra.
Qed.
Lemma circle x : sin x * sin x + cos x * cos x = 1.
Proof. generalize (sin2_cos2 x). unfold Rsqr. auto. Qed.
Lemma square_le b a : Rabs b <= a -> b * b <= a * a.
Proof. intros H. apply Rsqr_le_abs_1. rewrite (Rabs_right a); [exact H|]. assert (K := Rabs_pos b). lra. Qed.
Lemma rot_norm p q th : let c := cos th in let s := sin th in
  (p * c - q * s) * (p * c - q * s) + (p * s + q * c) * (p * s + q * c) = p * p + q * q.
Proof.
  intros c s. assert (E : s * s + c * c = 1) by apply circle.
  transitivity ((p * p + q * q) * (s * s + c * c)); [ring|rewrite E; ring].
Qed.
Lemma ell_bound f phi a b th g : Rabs b <= a -> Cmod (ell f phi a b th g) <= Rabs f * a.
Proof.
  intros H. assert (K := Rabs_pos b). assert (Hf := Rabs_pos f). apply cmod2; [nra|].
  unfold ell, ellipse_u, ellipse_v. cbn [fst snd]. set (x := phi - deg g).
  replace (Rabs f * a * (Rabs f * a)) with (f * f * (a * a)) by (assert (E : Rabs f * Rabs f = f * f) by (rewrite <- Rabs_mult; apply Rabs_right; nra); rewrite <- E; ring).
  assert (N := rot_norm (f * (a * cos x)) (f * (b * sin x)) (deg th)). cbn zeta in N.
  assert (S := square_le _ _ H). assert (E := circle x).
  assert (M : (b * sin x) * (b * sin x) <= (a * sin x) * (a * sin x)) by nra.
  assert (M2 : f * (a * cos x) * (f * (a * cos x)) + f * (b * sin x) * (f * (b * sin x)) <= f * f * (a * a)).
  { replace (f * f * (a * a)) with (f * f * ((a * cos x) * (a * cos x) + (a * sin x) * (a * sin x))).
    - assert (0 <= f * f) by nra. nra.
    - transitivity (f * f * (a * a) * (sin x * sin x + cos x * cos x)); [ring|rewrite E; ring]. }
  eapply Rle_trans; [|exact M2]. right. rewrite <- N. ring.
Qed.
Lemma sin_abs x : Rabs (sin x) <= Rabs x.
Proof.
  assert (P : forall y, 0 <= y -> Rabs (sin y) <= y).
  { intros y Hy. destruct (Req_dec y 0) as [->|N]; [rewrite sin_0, Rabs_R0; lra|].
    destruct (Rle_dec y 1) as [H1|H1].
    - assert (0 <= sin y) by (apply sin_ge_0; [lra|assert (K := PI2_1); unfold PI2 in K; lra]).
      rewrite Rabs_right by lra. left. apply sin_lt_x. lra.
    - generalize (SIN_bound y). intros [A B]. apply Rabs_le. lra. }
  destruct (Rle_dec 0 x) as [H|H].
  - rewrite (Rabs_right x) by lra. now apply P.
  - rewrite (Rabs_left x) by lra. replace (sin x) with (- sin (- x)) by (rewrite sin_neg; ring). rewrite Rabs_Ropp. apply P. lra.
Qed.
Lemma ell_step f phi phi' a b th g : Rabs b <= a ->
  Cmod (Cminus (ell f phi' a b th g) (ell f phi a b th g)) <= Rabs f * a * Rabs (phi' - phi).
Proof.
  intros H. set (m := (phi' + phi) / 2 - deg g). set (d := (phi' - phi) / 2).
  assert (C1 : cos (phi' - deg g) - cos (phi - deg g) = - 2 * sin m * sin d).
  { replace (phi' - deg g) with (m + d) by (unfold m, d; lra). replace (phi - deg g) with (m - d) by (unfold m, d; lra). rewrite cos_plus, cos_minus. ring. }
  assert (C2 : sin (phi' - deg g) - sin (phi - deg g) = 2 * cos m * sin d).
  { replace (phi' - deg g) with (m + d) by (unfold m, d; lra). replace (phi - deg g) with (m - d) by (unfold m, d; lra). rewrite sin_plus, sin_minus. ring. }
  assert (E : Cminus (ell f phi' a b th g) (ell f phi a b th g) = ell (2 * sin d * f) (m + PI / 2 + deg g) a b th g).
  { unfold ell, ellipse_u, ellipse_v, Cminus, Cplus, Copp. cbn [fst snd]. replace (m + PI / 2 + deg g - deg g) with (PI / 2 + m) by ring.
    rewrite <- cos_sin || idtac. replace (cos (PI / 2 + m)) with (- sin m) by (rewrite cos_plus, cos_PI2, sin_PI2; ring).
    replace (sin (PI / 2 + m)) with (cos m) by (rewrite sin_plus, cos_PI2, sin_PI2; ring).
    f_equal.
    - transitivity (f * (a * cos (deg th) * (cos (phi' - deg g) - cos (phi - deg g)) - b * sin (deg th) * (sin (phi' - deg g) - sin (phi - deg g)))); [ring|].
      rewrite C1, C2. ring.
    - transitivity (f * (a * sin (deg th) * (cos (phi' - deg g) - cos (phi - deg g)) + b * cos (deg th) * (sin (phi' - deg g) - sin (phi - deg g)))); [ring|].
      rewrite C1, C2. ring. }
  rewrite E. eapply Rle_trans; [apply ell_bound, H|]. rewrite !Rabs_mult. rewrite (Rabs_right 2) by lra.
  assert (S := sin_abs d). replace (Rabs (phi' - phi)) with (2 * Rabs d).
  - assert (K := Rabs_pos b). assert (Kf := Rabs_pos f). assert (0 <= Rabs f * a) by nra. nra.
  - unfold d. unfold Rdiv. rewrite Rabs_mult. rewrite (Rabs_right (/ 2)) by lra. lra.
Qed.
Lemma ell_period f phi a b th g (k : Z) : ell f (phi + 2 * PI * IZR k) a b th g = ell f phi a b th g.
Proof.
  unfold ell, ellipse_u, ellipse_v. replace (phi + 2 * PI * IZR k - deg g) with (phi - deg g + 2 * PI * IZR k) by ring.
  assert (E : cos (phi - deg g + 2 * PI * IZR k) = cos (phi - deg g) /\ sin (phi - deg g + 2 * PI * IZR k) = sin (phi - deg g)) by (split; [apply cos_int|apply sin_int]).
  destruct E as [-> ->]. reflexivity.
Qed.
Lemma ell_top f a b th g : 0 <= f -> 0 <= a -> Cmod (ell f (deg g) a b th g) = f * a.
Proof.
  intros Hf Ha. unfold ell, ellipse_u, ellipse_v. rewrite Rminus_eq_0, cos_0, sin_0. unfold Cmod. cbn [fst snd].
  replace (_ + _) with ((f * a) * (f * a)); [apply sqrt_square; nra|].
  assert (E := circle (deg th)). transitivity (f * a * (f * a) * (sin (deg th) * sin (deg th) + cos (deg th) * cos (deg th))); [rewrite E; ring|cbn; ring].
Qed.

(** ** One constituent *)
Lemma tide_ell c x r p : row_ranges r -> tide c x r = Some p -> exists i f u v b th g, w_lind r = Some i /\ w_g r = Some g /\
  F_at (flags_of (c_opt c)) (c_reftime c) (c_lat c) x i = Some f /\ U_at (flags_of (c_opt c)) (c_reftime c) (c_lat c) x i = Some u /\ V_at (flags_of (c_opt c)) (c_reftime c) x i = Some v /\
  Rabs b <= amplitude c r /\ p = ell f (2 * PI * (v + u)) (amplitude c r) b th g /\ (o_twodim (c_opt c) = false -> b = 0 /\ th = 0) /\
  forall y f' u' v', F_at (flags_of (c_opt c)) (c_reftime c) (c_lat c) y i = Some f' -> U_at (flags_of (c_opt c)) (c_reftime c) (c_lat c) y i = Some u' ->
    V_at (flags_of (c_opt c)) (c_reftime c) y i = Some v' -> tide c y r = Some (ell f' (2 * PI * (v' + u')) (amplitude c r) b th g).
Proof.
  intros (_ & RA & RL & _). unfold tide, amplitude. destruct (w_lind r) as [i|]; [|discriminate]. destruct (w_g r) as [g|]; [|discriminate].
  destruct (F_at _ _ _ x i) as [f|] eqn:EF; [|discriminate]. destruct (U_at _ _ _ x i) as [u|] eqn:EU; [|discriminate]. destruct (V_at _ _ x i) as [v|] eqn:EV; [|discriminate].
  cbn zeta. destruct (o_twodim (c_opt c)).
  - destruct (w_Lsmaj r) as [[a|]|]; try discriminate. destruct (w_Lsmin r) as [[b|]|]; try discriminate. destruct (w_theta r) as [[th|]|]; try discriminate.
    intros H. injection H as <-. exists i, f, u, v, b, th, g. repeat (split; [assumption || reflexivity|]). split; [now apply RL|]. split; [reflexivity|]. split; [discriminate|].
    intros y f' u' v' -> -> ->. reflexivity.
  - destruct (w_A r) as [[a|]|]; try discriminate. intros H. injection H as <-. exists i, f, u, v, 0, 0, g. repeat (split; [assumption || reflexivity|]).
    split; [rewrite Rabs_R0; now apply RA|]. split; [apply scalar_ell|]. split; [auto|]. intros y f' u' v' -> -> ->. now rewrite scalar_ell.
Qed.
Lemma row_frequency c r i : well_formed c -> In r (rows c) -> w_lind r = Some i -> frequency r = nth i (linearized_freqs (c_reftime c)) 0.
Proof.
  intros W Hr Hi. unfold rows in Hr. apply in_map_iff in Hr. destruct Hr as (j & <- & _). unfold frequency. cbn [w_frq w_lind crow_of] in *.
  rewrite (wf_frq c W). rewrite nth_error_map, Hi. reflexivity.
Qed.
Lemma tide_steady c x r p : well_formed c -> In r (rows c) -> row_ranges r -> steady (c_opt c) -> tide c x r = Some p -> exists phi b th g,
  Rabs b <= amplitude c r /\ (o_twodim (c_opt c) = false -> b = 0 /\ th = 0) /\ forall y, factor c y r = factor c x r /\
  tide c y r = Some (ell (factor c x r) (phi + 2 * PI * (24 * frequency r * (y - x))) (amplitude c r) b th g).
Proof.
  intros W Hr RR [SN SG] H. destruct (tide_ell _ _ _ _ RR H) as (i & f & u & v & b & th & g & Hi & Hg & HF & HU & HV & Hb & Hp & HS & HY).
  exists (2 * PI * (v + u)), b, th, g. split; [exact Hb|]. split; [exact HS|]. intros y.
  assert (EF : F_at (flags_of (c_opt c)) (c_reftime c) (c_lat c) y i = Some f).
  { rewrite <- HF. unfold F_at. cbn [flags_of NodsatNone NodsatLint]. destruct SN as [-> | ->]; [|destruct (o_nodsatnone (c_opt c))]; reflexivity. }
  assert (EU : U_at (flags_of (c_opt c)) (c_reftime c) (c_lat c) y i = Some u).
  { rewrite <- HU. unfold U_at. cbn [flags_of NodsatNone NodsatLint]. destruct SN as [-> | ->]; [|destruct (o_nodsatnone (c_opt c))]; reflexivity. }
  assert (EV : V_at (flags_of (c_opt c)) (c_reftime c) y i = Some (v + 24 * frequency r * (y - x))).
  { rewrite (row_frequency _ _ _ W Hr Hi). revert HV. unfold V_at. generalize (nth i (linearized_freqs (c_reftime c)) 0) (nth i (V_col (c_reftime c)) None). intros w vc. cbn zeta. cbn [flags_of GwchNone GwchLint].
    destruct (o_gwchnone (c_opt c)).
    - intros K. injection K as <-. f_equal. ring.
    - destruct SG as [SG|SG]; [discriminate|]. rewrite SG. destruct vc; [|discriminate]. intros K. injection K as <-. f_equal. ring. }
  assert (FY : factor c y r = f) by (unfold factor; rewrite Hi, EF; reflexivity).
  assert (FX : factor c x r = f) by (unfold factor; rewrite Hi, HF; reflexivity).
  rewrite FX. split; [exact FY|]. rewrite (HY _ _ _ _ EF EU EV). do 2 f_equal. ring.
Qed.
Lemma factor_lind c x r i f : w_lind r = Some i -> F_at (flags_of (c_opt c)) (c_reftime c) (c_lat c) x i = Some f -> factor c x r = f.
Proof. intros H K. unfold factor. now rewrite H, K. Qed.

(** ** All constituents *)
Lemma tides_bound c x l : (forall r, In r l -> row_ranges r) -> forall p, tides c x l = Some p ->
  Cmod p <= total_of (fun r => Rabs (factor c x r) * amplitude c r) l.
Proof.
  unfold total_of. induction l as [|r l IH]; intros RR p; cbn [tides map fold_right].
  - intros H. injection H as <-. unfold Cmod. cbn [fst snd]. replace (0 ^ 2 + 0 ^ 2) with 0 by ring. rewrite sqrt_0. lra.
  - destruct (tide c x r) as [a|] eqn:E; [|discriminate]. destruct (tides c x l) as [q|] eqn:Q; [|discriminate]. intros H. injection H as <-.
    change (fst a + fst q, snd a + snd q) with (Cplus a q). eapply Rle_trans; [apply Cmod_triangle|]. apply Rplus_le_compat.
    + destruct (tide_ell _ _ _ _ (RR r (or_introl eq_refl)) E) as (i & f & u & v & b & th & g & Hi & Hg & HF & HU & HV & Hb & -> & _).
      rewrite (factor_lind _ _ _ _ _ Hi HF). now apply ell_bound.
    + apply IH; auto. intros; apply RR; now right.
Qed.
Lemma tides_step c x y l : well_formed c -> steady (c_opt c) -> incl l (rows c) -> (forall r, In r l -> row_ranges r) -> forall p q, tides c x l = Some p -> tides c y l = Some q ->
  Cmod (Cminus q p) <= total_of (fun r => 2 * PI * 24 * Rabs (frequency r) * (Rabs (factor c x r) * amplitude c r)) l * Rabs (y - x).
Proof.
  intros W ST. unfold total_of. induction l as [|r l IH]; intros Hl RR p q; cbn [tides map fold_right].
  - intros H K. injection H as <-. injection K as <-. change (0, 0) with (RtoC 0). replace (Cminus 0 0) with (RtoC 0) by ring. rewrite Cmod_0. lra.
  - destruct (tide c x r) as [a|] eqn:E; [|discriminate]. destruct (tides c x l) as [p'|] eqn:P; [|discriminate]. intros H. injection H as <-.
    destruct (tide c y r) as [a'|] eqn:E'; [|discriminate]. destruct (tides c y l) as [q'|] eqn:Q; [|discriminate]. intros H. injection H as <-.
    change (fst a + fst p', snd a + snd p') with (Cplus a p'). change (fst a' + fst q', snd a' + snd q') with (Cplus a' q').
    replace (Cminus (Cplus a' q') (Cplus a p')) with (Cplus (Cminus a' a) (Cminus q' p')) by ring.
    eapply Rle_trans; [apply Cmod_triangle|]. rewrite Rmult_plus_distr_r. apply Rplus_le_compat.
    + assert (Rr := RR r (or_introl eq_refl)). destruct (tide_steady _ _ _ _ W (Hl r (or_introl eq_refl)) Rr ST E) as (phi & b & th & g & Hb & _ & HY).
      assert (X := proj2 (HY x)). rewrite E in X. injection X as ->. assert (Y := proj2 (HY y)). rewrite E' in Y. injection Y as ->.
      eapply Rle_trans; [now apply ell_step|]. right.
      replace (phi + 2 * PI * (24 * frequency r * (y - x)) - (phi + 2 * PI * (24 * frequency r * (x - x)))) with (2 * PI * 24 * frequency r * (y - x)) by ring.
      rewrite !Rabs_mult. rewrite (Rabs_right 2), (Rabs_right 24), (Rabs_right PI) by (assert (K := PI_RGT_0); lra). ring.
    + apply IH; auto; [intros z Hz; apply Hl; now right|intros; apply RR; now right].
Qed.

(** ** What reconstruct returns *)
Lemma tides_scalar c x l : o_twodim (c_opt c) = false -> forall p, tides c x l = Some p -> snd p = 0.
Proof.
  intros T. induction l as [|r l IH]; intros p; cbn [tides].
  - intros H. injection H as <-. reflexivity.
  - destruct (tide c x r) as [a|] eqn:E; [|discriminate]. destruct (tides c x l) as [q|] eqn:Q; [|discriminate]. intros H. injection H as <-. cbn [snd].
    rewrite (IH q eq_refl). unfold tide in E. rewrite T in E. destruct (w_lind r), (w_g r); try discriminate.
    destruct (F_at _ _ _ _ _); [|discriminate]. destruct (U_at _ _ _ _ _); [|discriminate]. destruct (V_at _ _ _ _); [|discriminate]. destruct (w_A r) as [[?|]|]; try discriminate. injection E as <-. cbn. ring.
Qed.
Lemma gives_value L c k mS mP x z : well_formed c -> gives L c k mS mP x z <->
  value_u c k mS mP x = Fin (fst z) /\ (if o_twodim (c_opt c) then value_v c k mS mP x = Fin (snd z) else snd z = 0).
Proof.
  intros W. unfold gives. rewrite (reconstruct_eq _ _ _ _ _ _ _ _ W). cbn [Nat.ltb Nat.leb].
  replace (normalize_time (l_parse L) (TNum [Fin x]) (PStr "python")) with (Ok [Fin x]) by reflexivity. cbn [bind map finite].
  unfold outcome, placed. cbn [map]. destruct (o_twodim (c_opt c)); split.
  - intros (o & H & K). injection H as <-. cbn [ro_series] in K. injection K as K1 K2. auto.
  - intros [K1 K2]. eexists. split; [reflexivity|]. cbn [ro_series]. now rewrite K1, K2.
  - intros (o & H & K & K'). injection H as <-. cbn [ro_series] in K. injection K as K1. auto.
  - intros [K1 K2]. eexists. split; [reflexivity|]. cbn [ro_series]. now rewrite K1.
Qed.
Lemma predicts_tides L c k mS mP x z : well_formed c -> predicts L c k mS mP x z <-> tides c x (included c k mS mP) = Some z.
Proof.
  intros W. unfold predicts, included. setoid_rewrite (gives_value L c k mS mP x). 2: exact W. unfold undisturbed, value_u, value_v. cbn zeta.
  set (l := filter _ _). split.
  - intros (b & B & V1 & V2). destruct (o_twodim (c_opt c)) eqn:T; destruct B as [B1 B2]; rewrite B1 in V1; [rewrite B2 in V2|].
    + destruct (tides c x l) as [p|]; [|discriminate]. cbn in V1, V2. injection V1 as V1. injection V2 as V2. f_equal. destruct p, z; cbn in *. f_equal; lra.
    + destruct (tides c x l) as [p|] eqn:E; [|discriminate]. cbn in V1, V2. injection V1 as V1. assert (K := tides_scalar _ _ _ T _ E). f_equal. destruct p, z; cbn in *. f_equal; lra.
  - intros E. rewrite E. destruct (o_twodim (c_opt c)) eqn:T.
    + destruct (wf_2d c W T) as (_ & _ & _ & P1 & P2 & P3 & _).
      destruct (background_finite c (c_umean c) (c_uslope c) x P1 (fun H => proj1 (P3 H))) as [b1 B1].
      destruct (background_finite c (c_vmean c) (c_vslope c) x P2 (fun H => proj2 (P3 H))) as [b2 B2].
      exists (b1, b2). rewrite B1, B2. cbn. repeat split; f_equal; ring.
    + destruct (wf_1d c W T) as (_ & _ & P1 & P3 & _).
      destruct (background_finite c (c_mean c) (c_slope c) x P1 P3) as [b1 B1].
      exists (b1, 0). rewrite B1. cbn. rewrite (tides_scalar _ _ _ T _ E). repeat split; try f_equal; ring.
Qed.

Lemma analysis_ranges L t u v lat opts sm c r : analysis L t u v lat opts sm c -> In r (rows c) -> row_ranges r.
Proof. intros A. exact (solve_ranges _ _ _ _ _ _ _ _ (an_solve _ _ _ _ _ _ _ _ A)). Qed.
Lemma included_rows c k mS mP : incl (included c k mS mP) (rows c).
Proof. unfold included. apply filter_incl. Qed.

Lemma range_bound L t u v lat opts sm c : analysis L t u v lat opts sm c ->
  forall L1 k mS mP x z, predicts L1 c k mS mP x z -> Cmod z <= total_of (fun r => Rabs (factor c x r) * amplitude c r) (included c k mS mP).
Proof.
  intros A L1 k mS mP x z H. apply predicts_tides in H; [|exact (analysis_wf _ _ _ _ _ _ _ _ A)]. apply tides_bound; auto.
  intros r Hr. apply (analysis_ranges _ _ _ _ _ _ _ _ _ A). exact (included_rows _ _ _ _ _ Hr).
Qed.
Lemma total_ext f g l : (forall r, In r l -> f r = g r) -> total_of f l = total_of g l.
Proof. intros H. unfold total_of. f_equal. now apply map_ext_in. Qed.
Lemma total_le f g l : (forall r, In r l -> f r <= g r) -> total_of f l <= total_of g l.
Proof.
  unfold total_of. induction l as [|r l IH]; intros H; cbn; [lra|]. apply Rplus_le_compat; [apply H; now left|apply IH; intros; apply H; now right].
Qed.
Lemma range_plain L t u v lat opts sm c : analysis L t u v lat opts sm c -> o_nodsatnone (c_opt c) = true ->
  forall L1 k mS mP x z, predicts L1 c k mS mP x z -> Cmod z <= total_of (amplitude c) (included c k mS mP).
Proof.
  intros A N L1 k mS mP x z H. eapply Rle_trans; [exact (range_bound _ _ _ _ _ _ _ _ A _ _ _ _ _ _ H)|]. apply total_le. intros r Hr.
  assert (RR := analysis_ranges _ _ _ _ _ _ _ _ _ A (included_rows _ _ _ _ _ Hr)).
  assert (P : 0 <= amplitude c r).
  { destruct RR as (_ & RA & RL & _). unfold amplitude. destruct (o_twodim (c_opt c)) eqn:T.
    - assert (W := analysis_wf _ _ _ _ _ _ _ _ A). destruct (w_Lsmaj r) as [[a|]|] eqn:E; try lra. destruct (w_Lsmin r) as [[b|]|] eqn:E2.
      + assert (K := RL a b eq_refl eq_refl). assert (K2 := Rabs_pos b). lra.
      + exfalso. revert E E2. assert (Hr' := included_rows _ _ _ _ _ Hr). unfold rows in Hr'. apply in_map_iff in Hr'. destruct Hr' as (j & <- & Hj).
        cbn [crow_of w_Lsmaj w_Lsmin]. destruct (wf_2d c W T) as (_ & [l2 El2] & _). rewrite El2. cbn [at_ option_map]. intros _ K. injection K as K.
        apply nth_error_None in K. apply in_seq in Hj. destruct (wf_aligned c W) as (_ & _ & _ & _ & _ & K5 & _). rewrite (K5 _ El2) in K. lia.
      + exfalso. revert E2. assert (Hr' := included_rows _ _ _ _ _ Hr). unfold rows in Hr'. apply in_map_iff in Hr'. destruct Hr' as (j & <- & Hj).
        cbn [crow_of w_Lsmaj w_Lsmin]. destruct (wf_2d c W T) as (_ & [l2 El2] & _). rewrite El2. cbn [at_ option_map]. discriminate.
    - destruct (w_A r) as [[a|]|]; try lra. now apply RA. }
  assert (F : Rabs (factor c x r) <= 1).
  { unfold factor. destruct (w_lind r); [|rewrite Rabs_R0; lra]. unfold F_at. cbn [flags_of NodsatNone]. rewrite N. rewrite Rabs_R1. lra. }
  assert (K := Rabs_pos (factor c x r)). nra.
Qed.

(** ** Shifts in time *)
Lemma tides_shift c x T l (s : Z -> Prop) (m : C -> C) : well_formed c -> steady (c_opt c) -> incl l (rows c) -> (forall r, In r l -> row_ranges r) ->
  (forall f phi a b th g k, ell f (phi + 2 * PI * (IZR k + T)) a b th g = m (ell f phi a b th g)) -> m (RtoC 0) = RtoC 0 -> (forall p q, m (Cplus p q) = Cplus (m p) (m q)) ->
  forall D, (forall r, In r l -> exists k, 24 * frequency r * D = IZR k + T) -> forall p, tides c x l = Some p -> tides c (x + D) l = Some (m p).
Proof.
  intros W ST Hl RR M M0 MP D HD. induction l as [|r l IH]; intros p; cbn [tides].
  - intros H. injection H as <-. change (0, 0) with (RtoC 0). now rewrite M0.
  - destruct (tide c x r) as [a|] eqn:E; [|discriminate]. destruct (tides c x l) as [q|] eqn:Q; [|discriminate]. intros H. injection H as <-.
    rewrite (IH (fun z Hz => Hl z (or_intror Hz)) (fun z Hz => RR z (or_intror Hz)) (fun z Hz => HD z (or_intror Hz)) q eq_refl).
    destruct (tide_steady _ _ _ _ W (Hl r (or_introl eq_refl)) (RR r (or_introl eq_refl)) ST E) as (phi & b & th & g & Hb & _ & HY).
    rewrite (proj2 (HY (x + D))). assert (X := proj2 (HY x)). rewrite E in X. injection X as ->.
    destruct (HD r (or_introl eq_refl)) as [k Hk]. replace (24 * frequency r * (x + D - x)) with (24 * frequency r * D) by ring. rewrite Hk, M.
    f_equal. change (fst (m (ell (factor c x r) phi (amplitude c r) b th g)) + fst (m q), snd (m (ell (factor c x r) phi (amplitude c r) b th g)) + snd (m q))
      with (Cplus (m (ell (factor c x r) phi (amplitude c r) b th g)) (m q)). rewrite <- MP. f_equal.
    replace (phi + 2 * PI * (24 * frequency r * (x - x))) with phi by ring. reflexivity.
Qed.
Lemma ell_half f phi a b th g : ell f (phi + PI) a b th g = Copp (ell f phi a b th g).
Proof.
  unfold ell, ellipse_u, ellipse_v, Copp. cbn [fst snd]. replace (phi + PI - deg g) with (phi - deg g + PI) by ring. rewrite neg_cos, neg_sin. f_equal; ring.
Qed.
Lemma repeats L t u v lat opts sm c : analysis L t u v lat opts sm c -> steady (c_opt c) ->
  forall L1 L2 k mS mP x z T, (forall r, In r (included c k mS mP) -> exists j, 24 * frequency r * T = IZR j) ->
  predicts L1 c k mS mP x z -> predicts L2 c k mS mP (x + T) z.
Proof.
  intros A ST L1 L2 k mS mP x z T HT H. assert (W := analysis_wf _ _ _ _ _ _ _ _ A). apply predicts_tides in H; [|exact W]. apply predicts_tides; [exact W|].
  apply (tides_shift c x 0 _ (fun _ => True) (fun z => z)); auto using included_rows.
  - intros r Hr. apply (analysis_ranges _ _ _ _ _ _ _ _ _ A). exact (included_rows _ _ _ _ _ Hr).
  - intros. rewrite Rplus_0_r. apply ell_period.
  - intros r Hr. destruct (HT r Hr) as [j Hj]. exists j. now rewrite Rplus_0_r.
Qed.
Lemma opposes L t u v lat opts sm c : analysis L t u v lat opts sm c -> steady (c_opt c) ->
  forall L1 L2 k mS mP x z T, (forall r, In r (included c k mS mP) -> exists j, 24 * frequency r * T = IZR j + 1 / 2) ->
  predicts L1 c k mS mP x z -> predicts L2 c k mS mP (x + T) (Copp z).
Proof.
  intros A ST L1 L2 k mS mP x z T HT H. assert (W := analysis_wf _ _ _ _ _ _ _ _ A). apply predicts_tides in H; [|exact W]. apply predicts_tides; [exact W|].
  apply (tides_shift c x (1 / 2) _ (fun _ => True) Copp); auto using included_rows.
  - intros r Hr. apply (analysis_ranges _ _ _ _ _ _ _ _ _ A). exact (included_rows _ _ _ _ _ Hr).
  - intros. replace (phi + 2 * PI * (IZR k0 + 1 / 2)) with (phi + PI + 2 * PI * IZR k0) by field. rewrite ell_period. apply ell_half.
  - ring.
  - intros; ring.
Qed.
Lemma smooth L t u v lat opts sm c : analysis L t u v lat opts sm c -> steady (c_opt c) ->
  forall L1 L2 k mS mP x y z z', predicts L1 c k mS mP x z -> predicts L2 c k mS mP y z' ->
  Cmod (Cminus z' z) <= total_of (fun r => 2 * PI * 24 * Rabs (frequency r) * (Rabs (factor c x r) * amplitude c r)) (included c k mS mP) * Rabs (y - x).
Proof.
  intros A ST L1 L2 k mS mP x y z z' H K. assert (W := analysis_wf _ _ _ _ _ _ _ _ A). apply predicts_tides in H; [|exact W]. apply predicts_tides in K; [|exact W].
  apply tides_step; auto using included_rows. intros r Hr. apply (analysis_ranges _ _ _ _ _ _ _ _ _ A). exact (included_rows _ _ _ _ _ Hr).
Qed.

Lemma analysis_known L t u v lat opts sm c : analysis L t u v lat opts sm c -> known_lind c.
Proof.
  intros A. assert (HW := proj1 (analysis_run _ _ _ _ _ _ _ _ A)). destruct A as [HL HP HU HS (e & _ & SM) NE HC].
  exact (solve_known _ _ _ _ _ _ _ HL (samples_arrays _ _ _ _ _ _ SM) HU HC HW).
Qed.

(** ** High water *)
Lemma next_turn f w : f <> 0 -> exists d k, 0 <= d < 1 / Rabs f /\ f * d = w + IZR k.
Proof.
  intros N. assert (K := base_Int_part). destruct (Rlt_dec 0 f) as [P|P].
  - destruct (K w) as [K1 K2]. exists ((w - IZR (Int_part w)) / f), (- Int_part w)%Z. rewrite opp_IZR, (Rabs_right f) by lra. repeat split.
    + apply Rmult_le_pos; [lra|left; now apply Rinv_0_lt_compat].
    + unfold Rdiv. apply Rmult_lt_compat_r; [now apply Rinv_0_lt_compat|lra].
    + field. exact N.
  - destruct (K (- w)) as [K1 K2]. exists ((- w - IZR (Int_part (- w))) / - f), (Int_part (- w))%Z. rewrite (Rabs_left f) by lra. repeat split.
    + apply Rmult_le_pos; [lra|left; apply Rinv_0_lt_compat; lra].
    + unfold Rdiv. apply Rmult_lt_compat_r; [apply Rinv_0_lt_compat; lra|lra].
    + field. lra.
Qed.
Lemma single_row c r n : NoDup (c_name c) -> In r (rows c) -> w_name r = Some n -> included c (CSeq [n]) 0 0 = [r].
Proof.
  intros ND Hr Hn. unfold included, rows in *. apply in_map_iff in Hr. destruct Hr as (i & <- & Hi). apply in_seq in Hi. cbn [crow_of w_name] in Hn.
  assert (SP : seq 0 (length (c_name c)) = (seq 0 i ++ i :: seq (S i) (length (c_name c) - S i))%list).
  { replace (length (c_name c)) with (i + (1 + (length (c_name c) - S i)))%nat at 1 by lia. rewrite seq_app. reflexivity. }
  assert (OUT : forall l, (forall j, In j l -> j <> i /\ (j < length (c_name c))%nat) -> filter (chosen c (CSeq [n]) 0 0) (map (crow_of c) l) = []).
  { induction l as [|j l IH]; intros Hl; cbn [map filter]; [reflexivity|]. rewrite IH by (intros; apply Hl; now right).
    destruct (Hl j (or_introl eq_refl)) as [N B]. unfold chosen. cbn [crow_of w_name]. destruct (nth_error (c_name c) j) as [m|] eqn:E; [|reflexivity].
    destruct (in_dec string_dec m [n]) as [[<-|[]]|]; [|reflexivity]. exfalso. apply N. apply (proj1 (NoDup_nth_error _) ND); [exact B|]. rewrite E. now rewrite Hn. }
  rewrite SP, map_app, filter_app. rewrite OUT by (intros j Hj; apply in_seq in Hj; lia). cbn [map filter app].
  rewrite OUT by (intros j Hj; apply in_seq in Hj; lia). unfold chosen. cbn [crow_of w_name]. rewrite Hn.
  destruct (in_dec string_dec n [n]) as [|B]; [reflexivity|]. exfalso. apply B. now left.
Qed.
Lemma factor_nonneg c x r : corrections_finite c -> known_lind c -> In r (rows c) -> 0 <= factor c x r.
Proof.
  intros CF K Hr. unfold factor. destruct (w_lind r) as [i|] eqn:E; [|lra]. unfold F_at. cbn [flags_of NodsatNone NodsatLint].
  destruct (o_nodsatnone (c_opt c)) eqn:N; [lra|]. destruct CF as [CF|CF]; [congruence|].
  destruct (F_finite (if o_nodsatlint (c_opt c) then c_reftime c else x) (c_lat c) i (slat_nz _ CF)) as (f & -> & P); [|exact P].
  apply K. unfold rows in Hr. apply in_map_iff in Hr. destruct Hr as (j & <- & _). cbn [crow_of w_lind] in E. now apply nth_error_In in E.
Qed.
Lemma attained L t u v lat opts sm c : analysis L t u v lat opts sm c -> steady (c_opt c) -> corrections_finite c -> NoDup (c_name c) ->
  forall r n, In r (rows c) -> w_name r = Some n -> frequency r <> 0 -> forall L1 x, exists y z, x <= y < x + 1 / (24 * Rabs (frequency r)) /\
  predicts L1 c (CSeq [n]) 0 0 y z /\ Cmod z = factor c x r * amplitude c r /\ (o_twodim (c_opt c) = false -> z = RtoC (factor c x r * amplitude c r)).
Proof.
  intros A ST CF ND r n Hr Hn HF L1 x. assert (W := analysis_wf _ _ _ _ _ _ _ _ A).
  assert (KL : known_lind c).
  { apply (analysis_known _ _ _ _ _ _ _ _ A). }
  assert (RR := analysis_ranges _ _ _ _ _ _ _ _ _ A Hr).
  destruct (tides_finite c x [r] W KL CF) as [p Hp]; [intros z [<-|[]]; exact Hr|]. cbn [tides] in Hp. destruct (tide c x r) as [a|] eqn:E; [|discriminate]. clear p Hp.
  destruct (tide_steady _ _ _ _ W Hr RR ST E) as (phi & b & th & g & Hb & HS & HY).
  destruct (next_turn (24 * frequency r) ((deg g - phi) / (2 * PI))) as (d & k & Hd & Hk); [lra|].
  assert (PP := PI_RGT_0). exists (x + d), (ell (factor c x r) (deg g) (amplitude c r) b th g).
  assert (E' : tide c (x + d) r = Some (ell (factor c x r) (deg g) (amplitude c r) b th g)).
  { rewrite (proj2 (HY (x + d))). replace (x + d - x) with d by ring. rewrite Hk.
    replace (phi + 2 * PI * ((deg g - phi) / (2 * PI) + IZR k)) with (deg g + 2 * PI * IZR k) by (field; lra). now rewrite ell_period. }
  assert (P : 0 <= factor c x r) by now apply factor_nonneg. assert (PA : 0 <= amplitude c r) by (assert (K := Rabs_pos b); lra).
  split; [|split; [|split]].
  - rewrite Rabs_mult, (Rabs_right 24) in Hd by lra. lra.
  - apply predicts_tides; [exact W|]. rewrite (single_row _ _ _ ND Hr Hn). cbn [tides]. rewrite E'. cbn [fst snd]. rewrite !Rplus_0_r. unfold ell. reflexivity.
  - now apply ell_top.
  - intros T. destruct (HS T) as [-> ->]. rewrite <- scalar_ell. unfold scalar_tide. rewrite Rminus_eq_0, cos_0. unfold RtoC. f_equal. ring.
Qed.
