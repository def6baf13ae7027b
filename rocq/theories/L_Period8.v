(** Values of the Lomb-Scargle spectra of unevenly spaced data. *)
From Coq Require Import Lia Lra Psatz.
From Verif Require Import M_Base M_Lib M_Slvinit M_Period S_Conf S_Ellipse S_Period L_Base L_Period L_Period2 L_Period3 L_Period4 L_Period5 L_Period6.
Open Scope R_scope.

Lemma bands_eq : freq_bands = tidal_bands.
Proof. unfold freq_bands, tidal_bands. repeat apply (f_equal2 (@cons (R * R))); try reflexivity; apply injective_projections; cbn [fst snd]; lra. Qed.

Lemma interp_aux_linear : forall xp fp x, (forall i, (S i < length xp)%nat -> nth i xp 0 < nth (S i) xp 0) -> length fp = length xp -> (2 <= length xp)%nat ->
  nth 0 xp 0 <= x <= last xp 0 ->
  exists k, (S k < length xp)%nat /\ nth k xp 0 <= x <= nth (S k) xp 0 /\
    interp_aux x xp fp = nth k fp 0 + (nth (S k) fp 0 - nth k fp 0) * ((x - nth k xp 0) / (nth (S k) xp 0 - nth k xp 0)).
Proof.
  induction xp as [|a xp IH]; intros fp x Hs Hl H2 Hx; [cbn in H2; lia |].
  destruct fp as [|p fp]; [discriminate |]. destruct xp as [|b xp]; [cbn in H2; lia |]. destruct fp as [|q fp]; [discriminate |].
  pose proof (Hs 0%nat ltac:(cbn; lia)) as Hab. change (a < b) in Hab. change (nth 0 (a :: b :: xp) 0) with a in Hx.
  change (interp_aux x (a :: b :: xp) (p :: q :: fp)) with (if Rlt_dec x b then (q - p) / (b - a) * (x - a) + p else interp_aux x (b :: xp) (q :: fp)).
  destruct (Rlt_dec x b) as [H | H].
  - exists 0%nat. split; [cbn; lia |]. change (a <= x <= b /\ (q - p) / (b - a) * (x - a) + p = p + (q - p) * ((x - a) / (b - a))). split; [lra |]. field. lra.
  - destruct xp as [|c xp].
    + assert (x = b) as -> by (cbn in Hx; lra). destruct fp; [| discriminate]. exists 0%nat. split; [cbn; lia |].
      change (a <= b <= b /\ interp_aux b [b] [q] = p + (q - p) * ((b - a) / (b - a))). split; [lra |]. cbn [interp_aux]. field. lra.
    + destruct (IH (q :: fp) x) as [k [Hk [Hr He]]].
      * intros i Hi. apply (Hs (S i)). cbn in Hi |- *. lia.
      * cbn in Hl |- *. lia.
      * cbn. lia.
      * split; [change (b <= x); lra |]. destruct Hx as [_ Hx]. exact Hx.
      * exists (S k). split; [cbn in Hk |- *; lia |]. split; [exact Hr | exact He].
Qed.

Lemma rmin_earliest t : t <> [] -> earliest t (rmin t (hd 0 t)).
Proof.
  intros Hne. unfold rmin. assert (G : forall l d, (fold_left Rmin l d = d \/ In (fold_left Rmin l d) l) /\ fold_left Rmin l d <= d /\ forall x, In x l -> fold_left Rmin l d <= x).
  { induction l as [|a l IH]; intros d; cbn [fold_left]; [split; [now left | split; [lra | intros x []]] |].
    destruct (IH (Rmin d a)) as [Ha [Hb Hc]]. pose proof (Rmin_l d a). pose proof (Rmin_r d a). split.
    - destruct Ha as [Ha | Ha]; [| right; now right]. rewrite Ha. unfold Rmin. destruct (Rle_dec d a); [now left | right; now left].
    - split; [lra |]. intros x [<- | Hx]; [lra | now apply Hc]. }
  destruct (G t (hd 0 t)) as [Ha [Hb Hc]]. split; [| exact Hc]. destruct Ha as [-> | Ha]; [destruct t; [now elim Hne | now left] | exact Ha].
Qed.
Lemma rmax_latest t : t <> [] -> latest t (rmax t (hd 0 t)).
Proof.
  intros Hne. unfold rmax. assert (G : forall l d, (fold_left Rmax l d = d \/ In (fold_left Rmax l d) l) /\ d <= fold_left Rmax l d /\ forall x, In x l -> x <= fold_left Rmax l d).
  { induction l as [|a l IH]; intros d; cbn [fold_left]; [split; [now left | split; [lra | intros x []]] |].
    destruct (IH (Rmax d a)) as [Ha [Hb Hc]]. pose proof (Rmax_l d a). pose proof (Rmax_r d a). split.
    - destruct Ha as [Ha | Ha]; [| right; now right]. rewrite Ha. unfold Rmax. destruct (Rle_dec d a); [right; now left | now left].
    - split; [lra |]. intros x [<- | Hx]; [lra | now apply Hc]. }
  destruct (G t (hd 0 t)) as [Ha [Hb Hc]]. split; [| exact Hc]. destruct Ha as [-> | Ha]; [destruct t; [now elim Hne | now left] | exact Ha].
Qed.

Lemma lin_nth a b n i : (i < n)%nat -> nth i (linspace a b n) 0 = a + INR i * ((b - a) / INR (n - 1)).
Proof. intros Hi. unfold linspace. rewrite (nth_map0 _ _ i 0%nat) by now rewrite seq_length. now rewrite seq_nth. Qed.
Lemma lin_len a b n : length (linspace a b n) = n.
Proof. unfold linspace. now rewrite map_length, seq_length. Qed.

Definition prog_window (t w : list R) : list R := map (fun x => interp x (linspace (rmin t (hd 0 t)) (rmax t (hd 0 t)) (length t)) w) t.
Lemma min_lt_max t : hd 0 t < last t 0 -> rmin t (hd 0 t) < rmax t (hd 0 t).
Proof.
  intros Ht. pose proof (hd_last_len t Ht) as Hn. assert (Hne : t <> []) by (intros ->; cbn in Hn; lia).
  destruct (rmin_earliest t Hne) as [_ Ha]. destruct (rmax_latest t Hne) as [_ Hb].
  assert (In (hd 0 t) t) by (destruct t; [now elim Hne | now left]).
  assert (In (last t 0) t) by (rewrite last_nth; apply nth_In; lia).
  specialize (Ha _ H). specialize (Hb _ H0). lra.
Qed.
Lemma window_spec t w : hd 0 t < last t 0 -> length w = length t -> window_at t w (prog_window t w).
Proof.
  intros Ht Hw. pose proof (hd_last_len t Ht) as Hn. assert (Hne : t <> []) by (intros ->; cbn in Hn; lia).
  pose proof (rmin_earliest t Hne) as Ha. pose proof (rmax_latest t Hne) as Hb. pose proof (min_lt_max t Ht) as Hlt.
  exists (rmin t (hd 0 t)), (rmax t (hd 0 t)). split; [exact Ha |]. split; [exact Hb |].
  set (a := rmin t (hd 0 t)) in *. set (b := rmax t (hd 0 t)) in *.
  unfold prog_window. fold a b. set (n := length t) in *.
  assert (HN : 0 < INR (n - 1)) by (apply lt_0_INR; lia).
  assert (Hh : 0 < (b - a) / INR (n - 1)) by (apply Rdiv_lt_0_compat; lra).
  assert (Hs : forall i, (S i < length (linspace a b n))%nat -> nth i (linspace a b n) 0 < nth (S i) (linspace a b n) 0).
  { intros i Hi. rewrite lin_len in Hi. rewrite !lin_nth by lia. rewrite S_INR. lra. }
  assert (H0 : nth 0 (linspace a b n) 0 = a) by (rewrite lin_nth by lia; cbn [INR]; ring).
  assert (H1 : last (linspace a b n) 0 = b) by (rewrite last_nth, lin_len, lin_nth by lia; field; lra).
  assert (G : forall x, In x t -> linear_between a b w x (interp x (linspace a b n) w)).
  { intros x Hx. assert (Hxr : a <= x <= b) by (split; [now apply Ha | now apply Hb]).
    rewrite interp_in by (rewrite ?lin_len, ?H0; lia || lra).
    destruct (interp_aux_linear (linspace a b n) w x Hs ltac:(now rewrite lin_len) ltac:(rewrite lin_len; lia) ltac:(rewrite H0, H1; exact Hxr)) as [k [Hk [Hr He]]].
    rewrite lin_len in Hk. exists k. rewrite Hw. split; [exact Hk |]. cbv zeta.
    rewrite He. rewrite !lin_nth in * by lia. rewrite S_INR in Hr |- *. split; [lra |].
    replace (a + (INR k + 1) * ((b - a) / INR (n - 1)) - (a + INR k * ((b - a) / INR (n - 1)))) with ((b - a) / INR (n - 1)) by ring. reflexivity. }
  clearbody a b n. clear -G. induction t as [|x t IH]; cbn [map]; constructor; [apply G; now left |]. apply IH. intros; apply G; now right.
Qed.

Lemma linear_between_top a b w y : (2 <= length w)%nat -> a < b -> linear_between a b w b y -> y = last w 0.
Proof.
  intros Hn Hab [k [Hk [Hg Hy]]]. set (n := length w) in *.
  assert (HN : 0 < INR (n - 1)) by (apply lt_0_INR; lia).
  set (h := (b - a) / INR (n - 1)) in *. assert (Hh : 0 < h) by (unfold h; apply Rdiv_lt_0_compat; lra).
  assert (Hb : b = a + INR (n - 1) * h) by (unfold h; field; lra).
  assert (HkN : INR k + 1 = INR (n - 1)).
  { assert (INR (n - 1) <= INR k + 1) by (apply Rmult_le_reg_r with h; [exact Hh |]; lra).
    rewrite <- S_INR in *. apply INR_le in H. f_equal. lia. }
  assert (Hkn : (S k = n - 1)%nat) by (apply INR_eq; rewrite S_INR; exact HkN).
  rewrite Hy. replace ((b - (a + INR k * h)) / h) with 1 by (rewrite Hb, <- HkN; field; lra).
  rewrite last_nth. fold n. rewrite <- Hkn. ring.
Qed.
Lemma window_pos t wt : hd 0 t < last t 0 -> window_at t (hann_window (length t)) wt -> 0 < window_energy wt.
Proof.
  intros Ht [a [b [Ha [Hb F]]]]. pose proof (hd_last_len t Ht) as Hn. set (w := hann_window (length t)) in *.
  assert (Hlw : length w = length t) by apply len_hann.
  assert (Hab : a < b).
  { destruct Ha as [_ Ha]. destruct Hb as [_ Hb]. assert (t <> []) by (intros ->; cbn in Hn; lia).
    assert (In (hd 0 t) t) by (destruct t; [congruence | now left]).
    assert (In (last t 0) t) by (rewrite last_nth; apply nth_In; lia). specialize (Ha _ H0). specialize (Hb _ H1). lra. }
  assert (E : exists y, In y wt /\ y = last w 0).
  { destruct Hb as [Hb _]. revert Hb F. generalize t at 1 2. intros l Hin F. induction F; [destruct Hin |]. destruct Hin as [-> | Hin].
    - exists y. split; [now left |]. eapply linear_between_top; [| exact Hab | exact H]. lia.
    - destruct (IHF Hin) as [z [Hz Ez]]. exists z. split; [now right | exact Ez]. }
  destruct E as [y [Hin Ey]].
  assert (Hy : 0 < y).
  { rewrite Ey. unfold w, hann_window. rewrite last_nth, map_length, seq_length. rewrite (nth_map0 _ _ _ 0%nat) by (rewrite seq_length; lia). rewrite seq_nth by lia.
    rewrite Nat.add_0_l. apply pow_lt. pose proof PI_RGT_0. assert (0 < INR (length t)) by (apply lt_0_INR; lia).
    assert (0 < INR (length t - 1)) by (apply lt_0_INR; lia). apply sin_gt_0.
    - apply Rdiv_lt_0_compat; nra.
    - apply Rmult_lt_reg_r with (INR (length t)); [assumption |]. replace (PI * INR (length t - 1) / INR (length t) * INR (length t)) with (PI * INR (length t - 1)) by (field; lra).
      rewrite minus_INR by lia. cbn [INR]. nra. }
  unfold window_energy. clear -Hin Hy. induction wt as [|z wt IH]; [destruct Hin |]. change (0 < z ^ 2 + rsum (map (fun x => x ^ 2) wt)).
  assert (0 <= rsum (map (fun x => x ^ 2) wt)) by (clear; induction wt as [|z wt IH]; cbn; [lra |]; unfold rsum in IH; pose proof (pow2_ge_0 z); cbn in *; lra).
  pose proof (pow2_ge_0 z). destruct Hin as [-> | Hin]; [pose proof (pow_lt y 2 Hy); lra |]. specialize (IH Hin). lra.
Qed.

Lemma taper_eq e w : length w = length e -> rmulv (demean e) w = taper_list e w.
Proof.
  intros Hw. assert (Hl : length (rmulv (demean e) w) = length e) by (rewrite len_rmulv, len_demean; [reflexivity | rewrite len_demean; congruence]).
  apply nth_ext with (d := 0) (d' := 0); [unfold taper_list; now rewrite map_length, seq_length |].
  intros j Hj. rewrite Hl in Hj. rewrite nth_taper by assumption. unfold taper_list. rewrite (nth_map0 _ _ j 0%nat) by now rewrite seq_length. now rewrite seq_nth.
Qed.

Lemma lomb_values L t u ev freqs : lomb_contract L -> hd 0 t < last t 0 -> length u = length t -> (forall v, ev = Some v -> length v = length t) ->
  exists wt, window_at t (hann_window (length t)) wt /\ 0 < window_energy wt /\
  let c := 2 * ((last t 0 - hd 0 t) / INR (length t - 1)) * INR (length t) / window_energy wt in
  let r := psd_lomb L t u ev (hann_window (length t)) freqs in
  forall i tau, (i < length freqs)%nat -> let om := 2 * PI * nth i freqs 0 in resolved t om -> orthogonal_phase t om tau ->
  nth i (fst r) 0 = c * lomb_power t (taper_list u wt) (taper_list u wt) om tau /\
  match ev, snd r with
  | Some v, Some (Pv, Puv) => nth i Pv 0 = c * lomb_power t (taper_list v wt) (taper_list v wt) om tau
      /\ exists tau', orthogonal_phase t om tau' /\ nth i Puv 0 = c * lomb_power t (taper_list u wt) (taper_list v wt) om tau'
  | None, None => True
  | _, _ => False
  end.
Proof.
  intros HL Ht Hu Hv. set (w := hann_window (length t)). assert (Hlw : length w = length t) by apply len_hann.
  pose proof (window_spec t w Ht Hlw) as HW. exists (prog_window t w). split; [exact HW |].
  pose proof (window_pos t _ Ht HW) as HE. split; [exact HE |]. intros c r i tau Hi om Hr Ho.
  assert (Hpw : length (prog_window t w) = length t) by apply map_length.
  unfold r, psd_lomb. fold (prog_window t w). rewrite sumsq_energy. fold c. cbn [fst snd].
  assert (Hfr : nth i (map (fun f => f * 2 * PI) freqs) 0 = om) by (rewrite (nth_map0 _ _ i 0) by exact Hi; unfold om; ring).
  assert (A : forall z, length z = length t -> nth i (map (fun x => c * x) (l_lomb L t (rmulv (demean z) (prog_window t w)) (map (fun f => f * 2 * PI) freqs))) 0 =
    c * lomb_power t (taper_list z (prog_window t w)) (taper_list z (prog_window t w)) om tau).
  { intros z Hz. rewrite taper_eq by congruence. set (y := taper_list z _).
    assert (Hly : length t = length y) by (unfold y, taper_list; rewrite map_length, seq_length; congruence).
    rewrite (nth_map0 _ _ i 0) by (rewrite lomb_len, map_length; assumption).
    pose proof (Forall2_nth2 _ _ _ i 0 0 (HL t y (map (fun f => f * 2 * PI) freqs) Hly) ltac:(now rewrite map_length)) as F. cbv beta in F.
    rewrite Hfr in F. now rewrite (F tau Hr Ho). }
  split; [now apply A |]. destruct ev as [v |]; cbn [option_map]; [| exact I]. specialize (Hv v eq_refl). split; [now apply A |].
  exists (prog_tau t om). split; [apply prog_tau_orth |].
  rewrite (nth_map0 _ _ i 0) by now rewrite !map_length. rewrite (nth_map0 _ _ i 0) by now rewrite map_length. rewrite Hfr, (ls_cross_val _ _ _ _ Hr).
  rewrite !taper_eq by congruence. reflexivity.
Qed.
