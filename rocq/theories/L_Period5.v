(** Spectra of unevenly spaced residuals, and their agreement with the evenly spaced ones. *)
From Coq Require Import Lia Lra Psatz.
From Verif Require Import M_Base M_Lib M_Slvinit M_Period S_Conf S_Ellipse S_Period L_Base L_Angle L_Conf6 L_Period L_Period2 L_Period3 L_Period4.
Open Scope R_scope.

(** ** The program's phase shift *)
Lemma rsum_plus {A} (f g : A -> R) l : rsum (map (fun a => f a + g a) l) = rsum (map f l) + rsum (map g l).
Proof. induction l; cbn; [ring |]. unfold rsum in IHl. rewrite IHl. ring. Qed.
Lemma rsum_scal {A} (f : A -> R) c l : rsum (map (fun a => c * f a) l) = c * rsum (map f l).
Proof. induction l; cbn; [ring |]. unfold rsum in IHl. rewrite IHl. ring. Qed.
Definition prog_tau (t : list R) (fr : R) : R :=
  / 2 * angle (rsum (map (fun x => cos (2 * fr * x)) t), rsum (map (fun x => sin (2 * fr * x)) t)).
Lemma prog_tau_orth t fr : orthogonal_phase t fr (prog_tau t fr).
Proof.
  unfold orthogonal_phase, at_times, prog_tau. set (C := rsum (map (fun x => cos (2 * fr * x)) t)). set (S := rsum (map (fun x => sin (2 * fr * x)) t)).
  pose proof (polar (C, S)) as H. unfold cis, Cmult, RtoC in H. cbn [fst snd] in H. set (r := Cmod (C, S)) in *. set (a := angle (C, S)) in *.
  assert (H1 : C = r * cos a) by (apply (f_equal fst) in H; cbn [fst] in H; lra).
  assert (H2 : S = r * sin a) by (apply (f_equal snd) in H; cbn [snd] in H; lra).
  rewrite (map_ext _ (fun x => cos a * sin (2 * fr * x) + (- sin a) * cos (2 * fr * x))).
  - rewrite (rsum_plus (fun x => cos a * sin (2 * fr * x)) (fun x => - sin a * cos (2 * fr * x))).
    rewrite (rsum_scal (fun x => sin (2 * fr * x))), (rsum_scal (fun x => cos (2 * fr * x))). fold C S. rewrite H1, H2. ring.
  - intros x. replace (2 * (fr * x - / 2 * a)) with (2 * fr * x - a) by field. rewrite sin_minus. ring.
Qed.

Lemma with_data_dot t x f : rdot x (map f t) = with_data t x f.
Proof.
  unfold rdot, with_data. f_equal. revert x. induction t as [|a t IH]; intros [|b x]; cbn [map combine]; try reflexivity.
  cbn [fst snd]. f_equal. apply IH.
Qed.
Lemma sumsq_at t f : sumsq (map f t) = at_times t (fun x => f x ^ 2).
Proof. unfold sumsq, at_times. rewrite map_map. f_equal. apply map_ext. intros. ring. Qed.
Lemma at_times_nonneg t f : 0 <= at_times t (fun x => f x ^ 2).
Proof. unfold at_times. induction t; cbn [map rsum fold_right]; [lra |]. unfold rsum in IHt. pose proof (pow2_ge_0 (f a)). lra. Qed.
Lemma at_times_pos t f : at_times t (fun x => f x ^ 2) <> 0 -> 0 < at_times t (fun x => f x ^ 2).
Proof. pose proof (at_times_nonneg t f). lra. Qed.

Lemma ls_cross_val t x y fr : resolved t fr -> ls_cross t x y fr = lomb_power t x y fr (prog_tau t fr).
Proof.
  intros Hr. destruct (Hr _ (prog_tau_orth t fr)) as [Hc Hs]. apply at_times_pos in Hc, Hs.
  unfold ls_cross, lomb_power. fold (prog_tau t fr). set (tau := prog_tau t fr) in *.
  rewrite !sumsq_at, !with_data_dot.
  set (CC := at_times t (fun x => cos (fr * x - tau) ^ 2)) in *. set (SS := at_times t (fun x => sin (fr * x - tau) ^ 2)) in *.
  set (xc := with_data t x _). set (xs := with_data t x _). set (yc := with_data t y _). set (ys := with_data t y _).
  unfold cis, Cmult, Cconj. cbn [fst snd].
  assert (E1 : / sqrt CC * / sqrt CC = / CC) by (rewrite <- Rinv_mult; f_equal; apply sqrt_sqrt; lra).
  assert (E2 : / sqrt SS * / sqrt SS = / SS) by (rewrite <- Rinv_mult; f_equal; apply sqrt_sqrt; lra).
  assert (E3 : cos tau * cos tau + sin tau * sin tau = 1) by (pose proof (sin2_cos2 tau) as H; unfold Rsqr in H; lra).
  unfold Rdiv. rewrite !Rmult_1_l.
  set (a := / sqrt CC) in *. set (b := / sqrt SS) in *. rewrite <- E1, <- E2.
  transitivity (/ 2 * ((a * a * (xc * yc) + b * b * (xs * ys)) * (cos tau * cos tau + sin tau * sin tau))); [ring |]. rewrite E3. ring.
Qed.

Lemma lomb_power_nonneg t x w tau : 0 <= lomb_power t x x w tau.
Proof.
  unfold lomb_power. pose proof (at_times_nonneg t (fun s => cos (w * s - tau))). pose proof (at_times_nonneg t (fun s => sin (w * s - tau))).
  set (CC := at_times t (fun s => cos (w * s - tau) ^ 2)) in *. set (SS := at_times t (fun s => sin (w * s - tau) ^ 2)) in *.
  assert (G : forall z D, 0 <= D -> 0 <= z * z / D).
  { intros z D HD. destruct HD as [HD | <-]; [| unfold Rdiv; rewrite Rinv_0; lra].
    apply Rmult_le_pos; [nra | left; now apply Rinv_0_lt_compat]. }
  pose proof (G (with_data t x (fun s => cos (w * s - tau))) CC H). pose proof (G (with_data t x (fun s => sin (w * s - tau))) SS H0). lra.
Qed.
Lemma lomb_power_cs t x y w tau : resolved t w -> orthogonal_phase t w tau ->
  lomb_power t x y w tau ^ 2 <= lomb_power t x x w tau * lomb_power t y y w tau.
Proof.
  intros Hr Ho. destruct (Hr _ Ho) as [Hc Hs]. apply at_times_pos in Hc, Hs. unfold lomb_power.
  set (CC := at_times t (fun s => cos (w * s - tau) ^ 2)) in *. set (SS := at_times t (fun s => sin (w * s - tau) ^ 2)) in *.
  set (xc := with_data t x _). set (xs := with_data t x _). set (yc := with_data t y _). set (ys := with_data t y _).
  apply Rinv_0_lt_compat in Hc, Hs. unfold Rdiv. set (a := / CC) in *. set (b := / SS) in *.
  assert (0 <= a * b * (xc * ys - xs * yc) ^ 2) by (apply Rmult_le_pos; [nra | apply pow2_ge_0]). nra.
Qed.

(** ** band_psd of an unevenly spaced residual *)
Lemma Forall2_nth2 {A B} (P : A -> B -> Prop) l l' i a b : Forall2 P l l' -> (i < length l)%nat -> P (nth i l a) (nth i l' b).
Proof. intros H. revert i. induction H; intros i Hi; [cbn in Hi; lia |]. destruct i; cbn [nth]; [assumption |]. apply IHForall2. cbn in Hi. lia. Qed.

Lemma lomb_len L t x fr : lomb_contract L -> length t = length x -> length (l_lomb L t x fr) = length fr.
Proof. intros H E. symmetry. exact (Forall2_len _ _ _ (H t x fr E)). Qed.

Definition uneven_spectra (L : lib) (th eu : list R) (ev : option (list R)) (grid : list R) : list R * option (list R * list R) :=
  psd_lomb L th (even_part eu) (option_map even_part ev) (hann_window (length th)) grid.

Lemma interp_len (t g w : list R) : length (map (fun x => interp x g w) t) = length t.
Proof. apply map_length. Qed.
Lemma uneven_len L th eu ev grid : lomb_contract L -> length (even_part eu) = length th -> (forall v, ev = Some v -> length (even_part v) = length th) ->
  length (fst (uneven_spectra L th eu ev grid)) = length grid /\
  match snd (uneven_spectra L th eu ev grid) with
  | None => ev = None
  | Some (Pv, Puv) => ev <> None /\ length Pv = length grid /\ length Puv = length grid
  end.
Proof.
  intros HL Hu Hv. unfold uneven_spectra, psd_lomb. cbn [fst snd]. split.
  - rewrite map_length, lomb_len, map_length; auto. rewrite len_rmulv, len_demean; [congruence |]. now rewrite len_demean, map_length.
  - destruct ev as [v |]; cbn [option_map]; [| reflexivity]. split; [discriminate |]. specialize (Hv v eq_refl). split.
    + rewrite map_length, lomb_len, map_length; auto. rewrite len_rmulv, len_demean; [congruence |]. now rewrite len_demean, map_length.
    + now rewrite !map_length.
Qed.

Lemma band_uneven L t eu ev cfrq : lomb_contract L -> length eu = length t -> (forall v, ev = Some v -> length v = length t) ->
  let th := map (fun x => x * 24) (even_part t) in
  let grid := lomb_freqs th freq_bands 500 in
  (2 <= length t)%nat -> hd 0 th < last th 0 ->
  (grid = [] -> band_psd L t eu ev cfrq false = Err ValueError) /\
  (grid <> [] ->
   exists near p, Forall2 (nearest_bin grid) cfrq near /\ band_psd L t eu ev cfrq false = Ok p /\
    lev (fst (uneven_spectra L th eu ev grid)) grid near (b_Puu p) /\
    match snd (uneven_spectra L th eu ev grid) with
    | None => ev = None /\ b_Pvv p = None /\ b_Puv p = None
    | Some (Pv, Puv) => ev <> None /\ exists q r, b_Pvv p = Some q /\ b_Puv p = Some r /\ lev Pv grid near q /\ lev Puv grid near r
    end).
Proof.
  intros HL Hu Hv th grid Ht Hth.
  assert (Hn : (2 <= length (even_part t))%nat).
  { rewrite even_len. pose proof (Nat.div_le_mono 2 (length t) 2 ltac:(lia) Ht). change (2 / 2)%nat with 1%nat in H. lia. }
  assert (Hlu : length (even_part eu) = length th) by (unfold th; rewrite map_length, !even_len; congruence).
  assert (Hlv : forall v, ev = Some v -> length (even_part v) = length th) by (intros v E; unfold th; rewrite map_length, !even_len, (Hv v E); reflexivity).
  assert (Hs : non_decreasing grid) by now apply lomb_sorted.
  destruct (uneven_len L th eu ev grid HL Hlu Hlv) as [Lu Lv].
  assert (E : band_psd L t eu ev cfrq false =
    (do Puu <- fbndavg (fst (uneven_spectra L th eu ev grid)) grid cfrq freq_bands;
     match snd (uneven_spectra L th eu ev grid) with
     | None => Ok {| b_Puu := Puu; b_Pvv := None; b_Puv := None |}
     | Some (Pvv1s, Puv1s) =>
        do Pvv <- fbndavg Pvv1s grid cfrq freq_bands;
        do Puv <- fbndavg Puv1s grid cfrq freq_bands;
        Ok {| b_Puu := Puu; b_Pvv := Some Pvv; b_Puv := Some Puv |}
     end)).
  { unfold band_psd. rewrite !trim_spec.
    replace (option_map trim_even ev) with (option_map even_part ev) by (destruct ev; cbn; [now rewrite trim_spec | reflexivity]).
    destruct (Nat.ltb_spec (length (even_part t)) 2); [lia |].
    rewrite hann_spec, Hlu. fold th. fold grid. unfold uneven_spectra. destruct (psd_lomb _ _ _ _ _ _) as [p q]. reflexivity. }
  rewrite E. split.
  - intros ->. reflexivity.
  - intros Hne. destruct (fbndavg_near _ grid cfrq freq_bands Hne Hs Lu) as [pu [-> Fu]]. cbn [bind].
    exists (map (i_constit grid) cfrq).
    destruct (snd (uneven_spectra L th eu ev grid)) as [[Pv Puv] |].
    + destruct Lv as [Hev [Lv Luv]].
      destruct (fbndavg_near _ grid cfrq freq_bands Hne Hs Lv) as [pv [-> Fv]]. cbn [bind].
      destruct (fbndavg_near _ grid cfrq freq_bands Hne Hs Luv) as [puv [-> Fuv]]. cbn [bind].
      eexists. split; [now apply near_all |]. split; [reflexivity |]. cbn [b_Puu b_Pvv b_Puv]. split; [exact Fu |]. split; [exact Hev |].
      exists pv, puv. auto.
    + eexists. split; [now apply near_all |]. split; [reflexivity |]. cbn [b_Puu b_Pvv b_Puv]. auto.
Qed.

(** the spectra themselves *)
Lemma hd_last_len t : hd 0 t < last t 0 -> (2 <= length t)%nat.
Proof. destruct t as [|a [|b t]]; cbn; intros; try lra; lia. Qed.
Lemma psdnorm_nonneg (d n s : R) : 0 <= d -> 0 <= n -> 0 <= s -> 0 <= 2 * d * n / s.
Proof.
  intros Hd Hn [Hs | <-]; [| unfold Rdiv; rewrite Rinv_0; lra]. apply Rmult_le_pos; [nra | left; now apply Rinv_0_lt_compat].
Qed.
Lemma uneven_values L th eu ev grid : lomb_contract L -> hd 0 th < last th 0 -> length (even_part eu) = length th -> (forall v, ev = Some v -> length (even_part v) = length th) ->
  (forall f, In f grid -> resolved th (f * 2 * PI)) ->
  (forall k, 0 <= nth k (fst (uneven_spectra L th eu ev grid)) 0) /\
  forall Pv Puv, snd (uneven_spectra L th eu ev grid) = Some (Pv, Puv) -> forall k, 0 <= nth k Pv 0 /\
     nth k Puv 0 ^ 2 <= nth k (fst (uneven_spectra L th eu ev grid)) 0 * nth k Pv 0.
Proof.
  intros HL Hth Hu Hv Hr.
  destruct (uneven_len L th eu ev grid HL Hu Hv) as [Lu Lv].
  unfold uneven_spectra, psd_lomb in *. cbn [fst snd] in *.
  set (w := map (fun x => interp x _ _) th) in *. set (c := 2 * _ * _ / _) in *.
  assert (Hc : 0 <= c).
  { apply psdnorm_nonneg; [| apply pos_INR | unfold sumsq].
    - pose proof (hd_last_len th Hth).
      apply Rmult_le_pos; [lra |]. left. apply Rinv_0_lt_compat, lt_0_INR. lia.
    - rewrite (map_ext _ (fun x => x ^ 2)) by (intros; ring). apply energy_nonneg. }
  set (fr := map (fun f => f * 2 * PI) grid) in *.
  set (du := rmulv (demean (even_part eu)) w) in *.
  assert (Hdu : length th = length du) by (unfold du; rewrite len_rmulv, len_demean; [congruence | unfold w; now rewrite len_demean, map_length]).
  assert (HU : forall k, (k < length grid)%nat -> nth k (map (fun x => c * x) (l_lomb L th du fr)) 0 = c * lomb_power th du du (nth k grid 0 * 2 * PI) (prog_tau th (nth k grid 0 * 2 * PI))).
  { intros k Hk. rewrite (nth_map0 _ _ k 0) by (rewrite lomb_len by auto; unfold fr; now rewrite map_length). f_equal.
    pose proof (HL th du fr Hdu) as HF.
    apply (Forall2_nth2 _ _ _ k 0 0) in HF; [| unfold fr; now rewrite map_length].
    unfold fr in HF. rewrite (nth_map0 _ _ k 0) in HF by exact Hk. apply HF; [apply Hr, nth_In, Hk | apply prog_tau_orth]. }
  assert (NN : forall k, 0 <= nth k (map (fun x => c * x) (l_lomb L th du fr)) 0).
  { intros k. destruct (Nat.lt_ge_cases k (length grid)) as [Hk | Hk].
    - rewrite HU by exact Hk. apply Rmult_le_pos; [exact Hc | apply lomb_power_nonneg].
    - rewrite nth_overflow; [lra |]. rewrite map_length, lomb_len by auto. unfold fr. now rewrite map_length. }
  split; [exact NN |].
  destruct ev as [v |]; cbn [option_map] in *; [| discriminate]. intros Pv Puv H.
  assert (EV : Pv = map (fun x => c * x) (l_lomb L th (rmulv (demean (even_part v)) w) fr)) by congruence.
  assert (EUV : Puv = map (fun x => c * x) (map (ls_cross th du (rmulv (demean (even_part v)) w)) fr)) by congruence.
  clear H. subst Pv Puv. set (dv := rmulv (demean (even_part v)) w) in *. specialize (Hv v eq_refl).
  assert (Hdv : length th = length dv) by (unfold dv; rewrite len_rmulv, len_demean; [congruence | unfold w; now rewrite len_demean, map_length]).
  assert (HV : forall k, (k < length grid)%nat -> nth k (map (fun x => c * x) (l_lomb L th dv fr)) 0 = c * lomb_power th dv dv (nth k grid 0 * 2 * PI) (prog_tau th (nth k grid 0 * 2 * PI))).
  { intros k Hk. rewrite (nth_map0 _ _ k 0) by (rewrite lomb_len by auto; unfold fr; now rewrite map_length). f_equal.
    pose proof (HL th dv fr Hdv) as HF.
    apply (Forall2_nth2 _ _ _ k 0 0) in HF; [| unfold fr; now rewrite map_length].
    unfold fr in HF. rewrite (nth_map0 _ _ k 0) in HF by exact Hk. apply HF; [apply Hr, nth_In, Hk | apply prog_tau_orth]. }
  intros k. destruct (Nat.lt_ge_cases k (length grid)) as [Hk | Hk].
  - rewrite HU, HV by exact Hk. split; [apply Rmult_le_pos; [exact Hc | apply lomb_power_nonneg] |].
    rewrite map_map. rewrite (nth_map0 _ _ k 0) by (unfold fr; now rewrite map_length).
    replace (nth k fr 0) with (nth k grid 0 * 2 * PI) by (unfold fr; symmetry; now apply (nth_map0 (fun f => f * 2 * PI))).
    assert (R1 : resolved th (nth k grid 0 * 2 * PI)) by (apply Hr, nth_In, Hk).
    rewrite ls_cross_val by exact R1.
    pose proof (lomb_power_cs th du dv _ _ R1 (prog_tau_orth th (nth k grid 0 * 2 * PI))) as CS.
    assert (0 <= c ^ 2) by apply pow2_ge_0. nra.
  - rewrite !(nth_overflow) by (rewrite ?map_length, ?lomb_len by auto; unfold fr; rewrite ?map_length; lia). lra.
Qed.
