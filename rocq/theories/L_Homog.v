(** Noise levels of scaled residuals. *)
From Coq Require Import Lia Lra.
From Coquelicot Require Import Coquelicot.
From Verif Require Import M_Base M_Lib M_Slvinit M_Period M_Conf S_RobustErr L_Base L_Affine.
Open Scope R_scope.

Notation sc k := (map (Rmult k)).

Lemma rsum_sc k l : rsum (sc k l) = k * rsum l.
Proof. unfold rsum. induction l; cbn [map fold_right]; [ring|]. rewrite IHl. ring. Qed.
Lemma mean_sc k l : mean (sc k l) = k * mean l.
Proof. unfold mean. rewrite rsum_sc, map_length. unfold Rdiv. ring. Qed.
Lemma demean_sc k l : demean (sc k l) = sc k (demean l).
Proof. unfold demean. cbv zeta. rewrite mean_sc, !map_map. apply map_ext. intros. ring. Qed.
Lemma rmulv_sc k a b : rmulv (sc k a) b = sc k (rmulv a b).
Proof. unfold rmulv. revert b. induction a as [|x a IH]; intros [|y b]; cbn [map combine]; auto. rewrite IH. cbn. f_equal. ring. Qed.
Lemma rdot_sc k a b : rdot (sc k a) b = k * rdot a b.
Proof. unfold rdot. change (rsum (rmulv (sc k a) b) = k * rsum (rmulv a b)). now rewrite rmulv_sc, rsum_sc. Qed.
Lemma combine_sc k (s : list nat) l : combine s (sc k l) = map (fun p => (fst p, k * snd p)) (combine s l).
Proof. revert s. induction l as [|x l IH]; intros [|a s]; cbn [map combine]; auto. now rewrite IH. Qed.
Lemma enumerate_sc k l : enumerate (sc k l) = map (fun p => (fst p, k * snd p)) (enumerate l).
Proof. unfold enumerate. now rewrite map_length, combine_sc. Qed.
Lemma csum_sc k l : csum (map (Cmult (RtoC k)) l) = Cmult (RtoC k) (csum l).
Proof. unfold csum. induction l; cbn [map fold_right]; [ring|]. rewrite IHl. ring. Qed.
Lemma rfft_sc k e : rfft (sc k e) = map (Cmult (RtoC k)) (rfft e).
Proof.
  unfold rfft. cbv zeta. rewrite map_length, map_map, enumerate_sc. apply map_ext. intros j. rewrite <- csum_sc, !map_map. f_equal.
  apply map_ext. intros p. cbn [fst snd]. rewrite RtoC_mult. ring.
Qed.
Lemma double_sc k l : double_interior (sc k l) = sc k (double_interior l).
Proof.
  unfold double_interior. rewrite enumerate_sc, !map_map, map_length. apply map_ext. intros p. cbn [fst snd].
  destruct (Nat.ltb 0 (fst p) && Nat.ltb (fst p) (length l - 1))%bool; ring.
Qed.
Lemma psd_sc k e w fs : psd (sc k e) w fs = sc (k * k) (psd e w fs).
Proof.
  unfold psd. cbv zeta. rewrite demean_sc, rmulv_sc, rfft_sc, map_map.
  rewrite (map_ext _ (fun z => (k * k) * (Cmod z * Cmod z))).
  2: { intros z. rewrite Cmod_mult. unfold Cmod at 1 3. cbn [fst snd RtoC]. 
       replace (k ^ 2 + 0 ^ 2) with (k * k) by ring. transitivity ((sqrt (k * k) * sqrt (k * k)) * (Cmod z * Cmod z)); [ring|].
       rewrite sqrt_sqrt by nra. ring. }
  rewrite <- (map_map (fun z => Cmod z * Cmod z) (Rmult (k * k))), double_sc, !map_map. apply map_ext. intros. ring.
Qed.
Lemma combine_map2 {A B A' B'} (f : A -> A') (g : B -> B') a b : combine (map f a) (map g b) = map (fun p => (f (fst p), g (snd p))) (combine a b).
Proof. revert b. induction a as [|x a IH]; intros [|y b]; cbn [map combine]; auto. now rewrite IH. Qed.
Lemma psd_cross_sc k a b w fs : psd_cross (sc k a) (sc k b) w fs = sc (k * k) (psd_cross a b w fs).
Proof.
  unfold psd_cross. cbv zeta. rewrite !demean_sc, !rmulv_sc, !rfft_sc, combine_map2, map_map.
  rewrite (map_ext _ (fun p => (k * k) * fst (Cmult (Cconj (fst p)) (snd p)))).
  2: { intros [[p1 p2] [q1 q2]]. cbn. ring. }
  rewrite <- (map_map (fun p => fst (Cmult (Cconj (fst p)) (snd p))) (Rmult (k * k))), double_sc, !map_map. apply map_ext. intros. ring.
Qed.
Lemma ls_cross_sc k t a b fr : ls_cross t (sc k a) (sc k b) fr = k * k * ls_cross t a b fr.
Proof.
  unfold ls_cross. cbv zeta. rewrite !rdot_sc. set (c1 := 1 / sqrt _). set (s1 := 1 / sqrt _). set (tau := cis _).
  generalize (rdot a (map (fun x => cos (fr * x - / 2 * angle (rsum (map (fun x0 => cos (2 * fr * x0)) t), rsum (map (fun x0 => sin (2 * fr * x0)) t)))) t)).
  generalize (rdot a (map (fun x => sin (fr * x - / 2 * angle (rsum (map (fun x0 => cos (2 * fr * x0)) t), rsum (map (fun x0 => sin (2 * fr * x0)) t)))) t)).
  generalize (rdot b (map (fun x => cos (fr * x - / 2 * angle (rsum (map (fun x0 => cos (2 * fr * x0)) t), rsum (map (fun x0 => sin (2 * fr * x0)) t)))) t)).
  generalize (rdot b (map (fun x => sin (fr * x - / 2 * angle (rsum (map (fun x0 => cos (2 * fr * x0)) t), rsum (map (fun x0 => sin (2 * fr * x0)) t)))) t)).
  intros r1 r2 r3 r4. destruct tau as [x y]. cbn [Cmult Cconj fst snd]. ring.
Qed.
Lemma psd_lomb_sc L k t a b w f : lomb_quadratic L ->
  psd_lomb L t (sc k a) (option_map (sc k) b) w f =
  (sc (k * k) (fst (psd_lomb L t a b w f)), option_map (fun p => (sc (k * k) (fst p), sc (k * k) (snd p))) (snd (psd_lomb L t a b w f))).
Proof.
  intros H. unfold psd_lomb. cbv zeta. cbn [fst snd]. rewrite demean_sc, rmulv_sc, H. f_equal.
  - rewrite !map_map. apply map_ext. intros. ring.
  - destruct b as [b|]; cbn [option_map]; [|reflexivity]. rewrite demean_sc, rmulv_sc, H. f_equal. cbn [fst snd]. f_equal.
    + rewrite !map_map. apply map_ext. intros. ring.
    + rewrite !map_map. apply map_ext. intros. rewrite ls_cross_sc. ring.
Qed.
Notation os k := (option_map (Rmult k)).
Lemma set_map {A B} (f : A -> B) l i v : list_set (map f l) i (f v) = map f (list_set l i v).
Proof. revert i. induction l as [|x l IH]; intros [|i]; cbn; auto. now rewrite IH. Qed.
Lemma mask_sc k P l : mask_bins (map (os k) P) l = match mask_bins P l with Ok Q => Ok (map (os k) Q) | Err e => Err e end.
Proof.
  revert P. induction l as [|i l IH]; intros P; cbn [mask_bins]; [reflexivity|]. unfold mask_bin. rewrite map_length.
  destruct (Nat.ltb i (length P)); cbn [bind]; [|reflexivity]. change (@None R) with (os k None) at 1. now rewrite set_map, IH.
Qed.
Lemma somes_sc k (l : list (option R)) : somes (map (os k) l) = sc k (somes l).
Proof. induction l as [|[x|] l IH]; cbn; auto. now rewrite IH. Qed.
Lemma masked_mean_sc k l : masked_mean (map (os k) l) = os k (masked_mean l).
Proof.
  unfold masked_mean. rewrite somes_sc. destruct (somes l) as [|x s] eqn:E; [reflexivity|].
  cbn [map option_map]. change (k * x :: sc k s) with (sc k (x :: s)). now rewrite mean_sc.
Qed.
Lemma slice_map {A B} (f : A -> B) l a b : slice (map f l) a b = map f (slice l a b).
Proof. unfold slice. now rewrite skipn_map, firstn_map. Qed.
Lemma fbndavg_sc k P freq cf bands : fbndavg (sc k P) freq cf bands = match fbndavg P freq cf bands with Ok l => Ok (map (os k) l) | Err e => Err e end.
Proof.
  unfold fbndavg. destruct freq as [|f0 freq]; [reflexivity|]. set (fq := f0 :: freq). clearbody fq.
  replace (map Some (sc k P)) with (map (os k) (map Some P)) by (rewrite !map_map; reflexivity). rewrite mask_sc.
  destruct (mask_bins (map Some P) (map (i_constit fq) cf)) as [Q|e]; cbn [bind]; [|reflexivity]. f_equal. rewrite map_map. apply map_ext. intros b.
  cbv zeta. now rewrite slice_map, masked_mean_sc.
Qed.
Lemma removelast_map {A B} (f : A -> B) l : removelast (map f l) = map f (removelast l).
Proof. induction l as [|x [|y l] IH]; auto. cbn [map] in *. change (removelast (f x :: f y :: map f l)) with (f x :: removelast (f y :: map f l)). rewrite IH. reflexivity. Qed.
Lemma trim_sc {A B} (f : A -> B) l : trim_even (map f l) = map f (trim_even l).
Proof. unfold trim_even. rewrite map_length. destruct (Nat.odd (length l)); auto using removelast_map. Qed.
Lemma interp_aux_sc k x xp : forall fp, interp_aux x xp (sc k fp) = k * interp_aux x xp fp.
Proof.
  induction xp as [|a xp IH]; intros [|p fp]; cbn [interp_aux map]; try ring.
  - destruct xp; ring.
  - destruct xp as [|b xp]; [reflexivity|]. destruct fp as [|q fp]; [reflexivity|]. cbn [map]. destruct (Rlt_dec x b).
    + unfold Rdiv. ring.
    + exact (IH (q :: fp)).
Qed.
Lemma interp_sc k x xp fp : interp x xp (sc k fp) = k * interp x xp fp.
Proof.
  unfold interp. destruct xp as [|a xp]; [destruct fp; cbn; ring|]. destruct fp as [|p fp]; [cbn; ring|]. cbn [map].
  destruct (Rlt_dec x a); [reflexivity|]. exact (interp_aux_sc k x (a :: xp) (p :: fp)).
Qed.

Definition pow_sc (k : R) (b : bandpow) : bandpow :=
  {| b_Puu := map (os k) (b_Puu b); b_Pvv := option_map (map (os k)) (b_Pvv b); b_Puv := option_map (map (os k)) (b_Puv b) |}.
Lemma band_psd_sc L k t eu ev cf equi : equi = true \/ lomb_quadratic L ->
  band_psd L t (sc k eu) (option_map (sc k) ev) cf equi = match band_psd L t eu ev cf equi with Ok b => Ok (pow_sc (k * k) b) | Err e => Err e end.
Proof.
  intros H. unfold band_psd. cbv zeta. rewrite trim_sc, map_length. destruct (Nat.ltb (length (trim_even t)) 2); [reflexivity|].
  replace (option_map trim_even (option_map (sc k) ev)) with (option_map (sc k) (option_map trim_even ev)) by (destruct ev; cbn; [now rewrite trim_sc|reflexivity]).
  generalize (trim_even eu) (option_map trim_even ev). intros u0 v0.
  assert (G : forall bands P (Pv : option (list R * list R)) fq,
    (do Puu <- fbndavg (sc (k * k) P) fq cf bands;
     match option_map (fun p => (sc (k * k) (fst p), sc (k * k) (snd p))) Pv with
     | None => Ok {| b_Puu := Puu; b_Pvv := None; b_Puv := None |}
     | Some (Pvv1s, Puv1s) => do Pvv <- fbndavg Pvv1s fq cf bands; do Puv <- fbndavg Puv1s fq cf bands; Ok {| b_Puu := Puu; b_Pvv := Some Pvv; b_Puv := Some Puv |}
     end) =
    match (do Puu <- fbndavg P fq cf bands;
     match Pv with
     | None => Ok {| b_Puu := Puu; b_Pvv := None; b_Puv := None |}
     | Some (Pvv1s, Puv1s) => do Pvv <- fbndavg Pvv1s fq cf bands; do Puv <- fbndavg Puv1s fq cf bands; Ok {| b_Puu := Puu; b_Pvv := Some Pvv; b_Puv := Some Puv |}
     end) with Ok b => Ok (pow_sc (k * k) b) | Err e => Err e end).
  { intros bands P Pv fq. rewrite fbndavg_sc. destruct (fbndavg P fq cf bands) as [q|e]; cbn [bind]; [|reflexivity].
    destruct Pv as [[p1 p2]|]; cbn [option_map fst snd]; [|reflexivity]. rewrite fbndavg_sc. destruct (fbndavg p1 fq cf bands) as [q1|e]; cbn [bind]; [|reflexivity].
    rewrite fbndavg_sc. destruct (fbndavg p2 fq cf bands) as [q2|e]; cbn [bind]; reflexivity. }
  destruct equi.
  - rewrite psd_sc. destruct v0 as [v0|]; cbn [option_map].
    + rewrite psd_sc, psd_cross_sc. exact (G freq_bands _ (Some (_, _)) _).
    + exact (G freq_bands _ None _).
  - destruct H as [H|H]; [discriminate|]. rewrite psd_lomb_sc by exact H.
    destruct (psd_lomb L (map (fun x => x * 24) (trim_even t)) u0 v0 (hann (length u0)) (lomb_freqs (map (fun x => x * 24) (trim_even t)) freq_bands 500)) as [p q].
    cbn [fst snd]. apply G.
Qed.

Lemma level_sc k P f : 0 < k -> band_level (map (xs k) P) f = xs k (band_level P f).
Proof.
  intros K. unfold band_level. generalize freq_bands. intros bands.
  assert (G : forall a, fold_left (fun acc p => let '(lo, hi, x) := p in if (if Rle_dec lo f then true else false) && (if Rle_dec f hi then true else false) then x else acc)
     (combine bands (map (xs k) P)) (xs k a) = xs k (fold_left (fun acc p => let '(lo, hi, x) := p in if (if Rle_dec lo f then true else false) && (if Rle_dec f hi then true else false) then x else acc)
     (combine bands P) a)).
  { revert P. induction bands as [|[lo hi] bands IH]; intros [|x P] a; cbn [map combine fold_left]; auto.
    destruct ((if Rle_dec lo f then true else false) && (if Rle_dec f hi then true else false))%bool; apply IH. }
  rewrite <- G. cbn [xs]. now rewrite Rmult_0_r.
Qed.
Definition noise_sc (k : R) (p : list xr * option (list xr * list xr)) : list xr * option (list xr * list xr) :=
  (map (xs k) (fst p), option_map (fun q => (map (xs k) (fst q), map (xs k) (snd q))) (snd p)).
Lemma averaged_sc L k tin t eu ev elor frq equi tw : k <> 0 -> equi = true \/ lomb_quadratic L ->
  band_averaged_psd_by_constit L tin t (sc k eu) (option_map (sc k) ev) elor frq equi tw =
  match band_averaged_psd_by_constit L tin t eu ev elor frq equi tw with Ok p => Ok (noise_sc (k * k) p) | Err e => Err e end.
Proof.
  intros K H. assert (KK : 0 < k * k) by (destruct (Rtotal_order k 0) as [|[|]]; nra). unfold band_averaged_psd_by_constit. cbv zeta.
  set (gap := (equi && Nat.ltb (length t) (length tin))%bool). destruct (gap && Nat.eqb (length t) 0)%bool; [reflexivity|].
  set (fill := fun e : list R => if gap then map (fun x => interp x t e) tin else e).
  assert (F : forall e, fill (sc k e) = sc k (fill e)).
  { intros e. unfold fill. destruct gap; [|reflexivity]. rewrite map_map. apply map_ext. intros. apply interp_sc. }
  replace (option_map fill (option_map (sc k) ev)) with (option_map (sc k) (option_map fill ev)) by (destruct ev; cbn [option_map]; [now rewrite F|reflexivity]).
  change (if gap then map (fun x => interp x t (sc k eu)) tin else sc k eu) with (fill (sc k eu)). rewrite F.
  change (if gap then map (fun x => interp x t eu) tin else eu) with (fill eu).
  assert (B : (if equi then band_psd L tin (sc k (fill eu)) (option_map (sc k) (option_map fill ev)) frq true else band_psd L t (sc k eu) (option_map (sc k) ev) frq false) =
    match (if equi then band_psd L tin (fill eu) (option_map fill ev) frq true else band_psd L t eu ev frq false) with Ok b => Ok (pow_sc (k * k) b) | Err e => Err e end).
  { destruct equi; apply band_psd_sc; auto. }
  rewrite B. destruct (if equi then band_psd L tin (fill eu) (option_map fill ev) frq true else band_psd L t eu ev frq false) as [b|e]; cbn [bind]; [|reflexivity].
  f_equal. unfold noise_sc. cbn [fst snd pow_sc b_Puu b_Pvv b_Puv].
  assert (G : forall P, map (band_level (map (fun x => xmul (xopt x) (xdiv (Fin 1) (xmul elor (Fin 24)))) (map (os (k * k)) P))) frq =
    map (xs (k * k)) (map (band_level (map (fun x => xmul (xopt x) (xdiv (Fin 1) (xmul elor (Fin 24)))) P)) frq)).
  { intros P. rewrite !map_map. apply map_ext. intros f. rewrite <- level_sc by auto. f_equal. rewrite map_map. apply map_ext. intros [x|]; cbn [option_map xopt].
    - change (Fin (k * k * x)) with (xs (k * k) (Fin x)). now rewrite xs_mul_l.
    - reflexivity. }
  rewrite G. f_equal. destruct tw; [|reflexivity]. destruct (b_Pvv b) as [pv|]; cbn [option_map]; [|reflexivity]. destruct (b_Puv b) as [puv|]; cbn [option_map]; [|reflexivity].
  cbn [fst snd]. now rewrite !G.
Qed.
