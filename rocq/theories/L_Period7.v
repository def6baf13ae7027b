(** Band levels of the residual: sign, Cauchy-Schwarz, scaling. *)
From Coq Require Import Lia Lra.
From Verif Require Import M_Base M_Lib M_Slvinit M_Period S_Period L_Base L_Period L_Period2 L_Period3 L_Period4 L_Period5.
Open Scope R_scope.

Lemma F2_in_r {A B} (P : A -> B -> Prop) l l' y : Forall2 P l l' -> In y l' -> exists x, In x l /\ P x y.
Proof. induction 1; intros Hy; [destruct Hy |]. destruct Hy as [<- | Hy]; [eexists; split; [now left | assumption] |]. destruct (IHForall2 Hy) as [z [? ?]]. exists z. split; [now right | assumption]. Qed.
Lemma lev_nonneg P grid near bands l : (forall i, 0 <= nth i P 0) ->
  Forall2 (fun b x => band_mean P grid near (fst b) (snd b) x) bands l -> forall x, In (Some x) l -> 0 <= x.
Proof.
  intros HP H x Hx. destruct (F2_in_r _ _ _ _ H Hx) as [b [_ [idx [_ [_ [Hne E]]]]]].
  assert (0 < INR (length idx)) by (apply lt_0_INR; destruct idx; [now elim Hne | cbn; lia]).
  assert (0 <= rsum (map (fun i => nth i P 0) idx)).
  { clear E Hne H0. induction idx; cbn; [lra |]. unfold rsum in IHidx. specialize (HP a). lra. }
  rewrite <- E in H1. apply Rmult_le_reg_r with (INR (length idx)); [assumption | lra].
Qed.
Lemma lev_cs P Q S grid near : forall bands p q s, (forall i, 0 <= nth i P 0) -> (forall i, 0 <= nth i Q 0) -> (forall i, nth i S 0 ^ 2 <= nth i P 0 * nth i Q 0) ->
  Forall2 (fun b x => band_mean P grid near (fst b) (snd b) x) bands p ->
  Forall2 (fun b x => band_mean Q grid near (fst b) (snd b) x) bands q ->
  Forall2 (fun b x => band_mean S grid near (fst b) (snd b) x) bands s ->
  forall k x y z, nth k p None = Some x -> nth k q None = Some y -> nth k s None = Some z -> z ^ 2 <= x * y.
Proof.
  intros bands p q s HP HQ HS F. revert q s. induction F as [| b x' bs p' Hb F IH]; intros q s G K k x y z Hx Hy Hz; [destruct k; discriminate |].
  inversion G; inversion K; subst. destruct k; cbn [nth] in *; [subst; apply (mean_cs P Q S grid near (fst b) (snd b)); assumption |]. eapply IH; eassumption.
Qed.

Lemma lev_nan P Q grid near : forall bands p q,
  Forall2 (fun b x => band_mean P grid near (fst b) (snd b) x) bands p ->
  Forall2 (fun b x => band_mean Q grid near (fst b) (snd b) x) bands q -> Forall2 (fun x y => x = None <-> y = None) p q.
Proof.
  intros bands p q F. revert q. induction F; intros q G; inversion G; subst; constructor; auto.
  eapply idx_same; eassumption.
Qed.

(** scaling *)
Lemma somes_scale c (l : list (option R)) : somes (map (option_map (Rmult c)) l) = map (Rmult c) (somes l).
Proof. induction l as [|[x |] l IH]; cbn; [reflexivity | |]; unfold somes in *; cbn; now rewrite IH. Qed.
Lemma mean_scale c l : mean (map (Rmult c) l) = c * mean l.
Proof. unfold mean. rewrite rsum_scale, map_length. unfold Rdiv. ring. Qed.
Lemma masked_scale c l : masked_mean (map (option_map (Rmult c)) l) = option_map (Rmult c) (masked_mean l).
Proof. unfold masked_mean. rewrite somes_scale. destruct (somes l) as [|x s]; [reflexivity |]. exact (f_equal Some (mean_scale c (x :: s))). Qed.
Lemma set_scale c l i : list_set (map (option_map (Rmult c)) l) i None = map (option_map (Rmult c)) (list_set l i None).
Proof. revert i. induction l; intros [|i]; cbn; try reflexivity. now rewrite IHl. Qed.
Lemma mask_scale c is : forall l, mask_bins (map (option_map (Rmult c)) l) is = bind (mask_bins l is) (fun m => Ok (map (option_map (Rmult c)) m)).
Proof.
  induction is as [|i is IH]; intros l; [reflexivity |]. cbn [mask_bins]. unfold mask_bin. rewrite map_length.
  destruct (Nat.ltb i (length l)); cbn [bind]; [| reflexivity]. rewrite set_scale. apply IH.
Qed.
Lemma fbndavg_scale c P freq cfreq bands : fbndavg (map (Rmult c) P) freq cfreq bands =
  bind (fbndavg P freq cfreq bands) (fun l => Ok (map (option_map (Rmult c)) l)).
Proof.
  unfold fbndavg. destruct freq as [|f freq]; [reflexivity |].
  replace (map Some (map (Rmult c) P)) with (map (option_map (Rmult c)) (map Some P)) by (rewrite !map_map; reflexivity).
  rewrite mask_scale. destruct (mask_bins _ _) as [m | e]; cbn [bind]; [| reflexivity]. f_equal. rewrite map_map. apply map_ext. intros b.
  rewrite <- masked_scale. f_equal. unfold slice. now rewrite <- firstn_map, <- skipn_map.
Qed.
Lemma trim_map {A B} (f : A -> B) l : trim_even (map f l) = map f (trim_even l).
Proof.
  unfold trim_even. rewrite map_length. destruct (Nat.odd (length l)); [| reflexivity].
  induction l as [|a [|b l] IH]; [reflexivity | reflexivity |]. change (removelast (map f (a :: b :: l))) with (f a :: removelast (map f (b :: l))). now rewrite IH.
Qed.
Definition scaled (c : R) (l : list (option R)) := map (option_map (Rmult c)) l.
Lemma band_scale L t eu ev cfrq c d c' d' p : length eu = length t -> (forall v, ev = Some v -> length v = length t) ->
  band_psd L t eu ev cfrq true = Ok p ->
  band_psd L t (map (fun x => c * x + d) eu) (option_map (map (fun x => c' * x + d')) ev) cfrq true =
  Ok {| b_Puu := scaled (c ^ 2) (b_Puu p); b_Pvv := option_map (scaled (c' ^ 2)) (b_Pvv p); b_Puv := option_map (scaled (c * c')) (b_Puv p) |}.
Proof.
  intros Hu Hv. unfold band_psd.
  rewrite !trim_map. rewrite map_length.
  replace (option_map trim_even (option_map (map (fun x => c' * x + d')) ev)) with (option_map (map (fun x => c' * x + d')) (option_map trim_even ev))
    by (destruct ev; cbn [option_map]; [now rewrite trim_map | reflexivity]).
  assert (Hlu : length (trim_even eu) = length (trim_even t)) by (rewrite !trim_spec, !even_len; congruence).
  assert (Hlv : forall v, option_map trim_even ev = Some v -> length v = length (trim_even t)).
  { intros v E. destruct ev as [v0 |]; [| discriminate]. cbn in E. inversion E. rewrite !trim_spec, !even_len, (Hv v0); reflexivity. }
  set (u := trim_even eu) in *. set (v := option_map trim_even ev) in *. set (tt := trim_even t) in *. clearbody u v tt.
  destruct (Nat.ltb_spec (length tt) 2); [discriminate |].
  assert (Hun : u <> []) by (intros ->; cbn in Hlu; lia).
  set (w := hann (length u)). set (fs := 1 / _). set (grid := map (fun k => INR k / _) _).
  rewrite psd_affine by exact Hun. rewrite fbndavg_scale.
  destruct (fbndavg (psd u w fs) grid cfrq freq_bands) as [Puu | e]; cbn [bind]; [| discriminate].
  destruct v as [v |]; cbn [option_map].
  - assert (Hvn : v <> []) by (intros ->; specialize (Hlv [] eq_refl); cbn in Hlv; lia).
    rewrite psd_affine, cross_affine by assumption. rewrite !fbndavg_scale.
    destruct (fbndavg (psd v w fs) grid cfrq freq_bands) as [Pvv | e]; cbn [bind]; [| discriminate].
    destruct (fbndavg (psd_cross u v w fs) grid cfrq freq_bands) as [Puv | e]; cbn [bind]; [| discriminate].
    intros E. inversion E. reflexivity.
  - intros E. inversion E. reflexivity.
Qed.
