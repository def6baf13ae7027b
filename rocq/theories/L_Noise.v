(** Noise levels of the constituents. *)
From Coq Require Import Lia Lra.
From Verif Require Import M_Base M_Lib M_Slvinit M_Period M_Conf L_Select S_Harm S_Period S_Noise L_Base L_Bands L_Period L_Period6 L_Period8 L_Period9.
Open Scope R_scope.

Lemma incr_lt t i j : increasing t -> (i < j < length t)%nat -> nth i t 0 < nth j t 0.
Proof.
  intros H [Hij Hj]. induction j as [|j IH]; [lia|]. assert (S1 := H j ltac:(lia)).
  destruct (Nat.eq_dec i j) as [->|N]; [exact S1|]. assert (nth i t 0 < nth j t 0) by (apply IH; lia). lra.
Qed.
Lemma incr_le t i j : increasing t -> (i <= j < length t)%nat -> nth i t 0 <= nth j t 0.
Proof. intros H Hj. destruct (Nat.eq_dec i j) as [->|N]; [lra|]. left. apply incr_lt; [assumption|lia]. Qed.
Lemma hd_nth (l : list R) : hd 0 l = nth 0 l 0. Proof. now destruct l. Qed.
Lemma last_nth' (l : list R) : last l 0 = nth (length l - 1) l 0.
Proof.
  induction l as [|a [|b l] IH]; [reflexivity|reflexivity|]. change (last (a :: b :: l) 0) with (last (b :: l) 0). rewrite IH. cbn [length].
  replace (S (S (length l)) - 1)%nat with (S (length l)) by lia. replace (S (length l) - 1)%nat with (length l) by lia. reflexivity.
Qed.

Lemma aux_beyond : forall xp fp x, increasing xp -> length fp = length xp -> xp <> [] -> last xp 0 <= x -> interp_aux x xp fp = last fp 0.
Proof.
  induction xp as [|a [|b xp] IH]; intros fp x Hi Hl Hn Hx; [now elim Hn| |].
  - destruct fp as [|p [|q fp]]; try discriminate. reflexivity.
  - destruct fp as [|p [|q fp]]; try discriminate.
    change (interp_aux x (a :: b :: xp) (p :: q :: fp)) with (if Rlt_dec x b then (q - p) / (b - a) * (x - a) + p else interp_aux x (b :: xp) (q :: fp)).
    change (last (a :: b :: xp) 0) with (last (b :: xp) 0) in Hx. change (last (p :: q :: fp) 0) with (last (q :: fp) 0).
    assert (Hi' : increasing (b :: xp)) by (intros i Hli; apply (Hi (S i)); cbn [length] in *; lia).
    destruct (Rlt_dec x b) as [L|_].
    + exfalso. rewrite last_nth' in Hx. assert (B := incr_le (b :: xp) 0 (length (b :: xp) - 1) Hi' ltac:(cbn [length]; lia)). change (nth 0 (b :: xp) 0) with b in B. lra.
    + apply IH; [assumption|cbn [length] in *; lia|discriminate|assumption].
Qed.

Lemma interp_read t e x : increasing t -> length e = length t -> t <> [] -> read_at t e x (interp x t e).
Proof.
  intros Hi Hl Hn. assert (Hp : (0 < length t)%nat) by (destruct t; [now elim Hn|cbn; lia]).
  assert (Hbey : last t 0 <= x -> interp x t e = last e 0).
  { intros Hx. rewrite interp_in; [|lia|lia|]; [now apply aux_beyond|]. rewrite last_nth' in Hx.
    assert (B := incr_le t 0 (length t - 1) Hi ltac:(lia)). lra. }
  assert (Hlin : forall k, (S k < length t)%nat -> nth k t 0 <= x <= nth (S k) t 0 ->
    interp x t e = nth k e 0 + (nth (S k) e 0 - nth k e 0) * ((x - nth k t 0) / (nth (S k) t 0 - nth k t 0))).
  { intros k Hk Hx. assert (B0 := incr_le t 0 k Hi ltac:(lia)). assert (B1 := incr_le t (S k) (length t - 1) Hi ltac:(lia)).
    rewrite <- last_nth' in B1. rewrite interp_in by (try lia; lra).
    destruct (interp_aux_linear t e x Hi Hl ltac:(lia) ltac:(lra)) as (j & Hj & Hr & He). rewrite He.
    assert (Sk := Hi k Hk). assert (Sj := Hi j Hj).
    destruct (Nat.lt_trichotomy j k) as [L|[->|L]]; [| reflexivity |].
    - assert (B := incr_le t (S j) k Hi ltac:(lia)). assert (E1 : x = nth (S j) t 0) by lra. assert (E2 : x = nth k t 0) by lra.
      assert (E3 : S j = k). { destruct (Nat.eq_dec (S j) k) as [Q|Q]; [exact Q|]. assert (X := incr_lt t (S j) k Hi ltac:(lia)). lra. }
      subst k. rewrite E1. field. lra.
    - assert (B := incr_le t (S k) j Hi ltac:(lia)). assert (E1 : x = nth (S k) t 0) by lra. assert (E2 : x = nth j t 0) by lra.
      assert (E3 : S k = j). { destruct (Nat.eq_dec (S k) j) as [Q|Q]; [exact Q|]. assert (X := incr_lt t (S k) j Hi ltac:(lia)). lra. }
      subst j. rewrite E1. field. lra. }
  split; [|split; assumption].
  intros Hx. destruct t as [|a t]; [now elim Hn|]. destruct e as [|p e]; [discriminate|]. cbn [hd] in *. unfold interp.
  destruct (Rlt_dec x a) as [L|L]; [reflexivity|]. assert (x = a) by lra. subst x.
  destruct t as [|b t]; [destruct e; [reflexivity|discriminate]|]. destruct e as [|q e]; [discriminate|].
  change (interp_aux a (a :: b :: t) (p :: q :: e)) with (if Rlt_dec a b then (q - p) / (b - a) * (a - a) + p else interp_aux a (b :: t) (q :: e)).
  assert (Hab := Hi 0%nat ltac:(cbn [length]; lia)). cbn [nth] in Hab. destruct (Rlt_dec a b); [|lra]. field. lra.
Qed.
Lemma filled_read tin t e : increasing t -> length e = length t -> t <> [] -> Forall2 (read_at t e) tin (map (fun x => interp x t e) tin).
Proof. intros Hi Hl Hn. induction tin as [|x l IH]; cbn [map]; constructor; [now apply interp_read|exact IH]. Qed.

(** ** lookup *)
Lemma bands_tidal : bands = tidal_bands.
Proof. rewrite <- freq_bands_val. apply bands_eq. Qed.
Lemma level_noise T P f : 0 < T -> length P = 9%nat ->
  noise_at T P f (band_level (map (fun x => xmul (xopt x) (xdiv (Fin 1) (xmul (Fin T) (Fin 24)))) P) f).
Proof.
  intros HT HP.
  assert (E : xdiv (Fin 1) (xmul (Fin T) (Fin 24)) = Fin (1 / (T * 24))).
  { cbn [xmul]. unfold xdiv. destruct (Req_EM_T (T * 24) 0); [lra|reflexivity]. }
  rewrite E. split.
  - intros b Hb Hin. rewrite <- bands_tidal in Hin.
    rewrite (lookup_band _ f b) by (try assumption; now rewrite map_length).
    rewrite (nth_indep _ (Fin 0) ((fun x => xmul (xopt x) (Fin (1 / (T * 24)))) None)) by now rewrite map_length, HP.
    rewrite (map_nth (fun x => xmul (xopt x) (Fin (1 / (T * 24)))) P None b). destruct (nth b P None) as [r|]; cbn [xopt power_of xmul]; [|reflexivity].
    f_equal. field. lra.
  - intros H. rewrite <- bands_tidal in H. apply lookup_none. exact H.
Qed.

Lemma fbndavg_len P freq cfreq fb l : fbndavg P freq cfreq fb = Ok l -> length l = length fb.
Proof.
  unfold fbndavg. destruct freq as [|a freq]; [discriminate|]. destruct (mask_bins _ _); [|discriminate]. cbn [bind]. intros E. injection E as <-.
  apply map_length.
Qed.
Definition nine (p : bandpow) : Prop := length (b_Puu p) = 9%nat /\ (forall q, b_Pvv p = Some q -> length q = 9%nat) /\ (forall q, b_Puv p = Some q -> length q = 9%nat).
Lemma band_psd_nine L t eu ev cfrq equi p : band_psd L t eu ev cfrq equi = Ok p -> nine p.
Proof.
  unfold band_psd. destruct (Nat.ltb _ _); [discriminate|].
  match goal with |- context [let '(a, b) := ?X in _] => destruct X as [[P1 Pv] fr] end.
  destruct (fbndavg P1 fr cfrq freq_bands) as [Puu|] eqn:E1; [|discriminate]. cbn [bind].
  apply fbndavg_len in E1. destruct Pv as [[Pvv1 Puv1]|].
  - destruct (fbndavg Pvv1 fr cfrq freq_bands) as [q|] eqn:E2; [|discriminate]. cbn [bind].
    destruct (fbndavg Puv1 fr cfrq freq_bands) as [r|] eqn:E3; [|discriminate]. cbn [bind].
    apply fbndavg_len in E2. apply fbndavg_len in E3. intros E. injection E as <-. unfold nine. cbn [b_Puu b_Pvv b_Puv].
    split; [exact E1|]. split; intros q0 Q; injection Q as <-; assumption.
  - intros E. injection E as <-. unfold nine. cbn [b_Puu b_Pvv b_Puv]. split; [exact E1|]. split; discriminate.
Qed.
Lemma band_psd_vector L t eu ev cfrq equi p : band_psd L t eu ev cfrq equi = Ok p -> ev <> None -> exists q r, b_Pvv p = Some q /\ b_Puv p = Some r.
Proof.
  unfold band_psd. destruct (Nat.ltb _ _); [discriminate|]. destruct ev as [v|]; [|congruence]. intros H _. revert H. cbn [option_map].
  destruct equi.
  - destruct (fbndavg _ _ cfrq freq_bands) as [Puu|]; [|discriminate]. cbn [bind].
    destruct (fbndavg _ _ cfrq freq_bands) as [q|]; [|discriminate]. cbn [bind].
    destruct (fbndavg _ _ cfrq freq_bands) as [r|]; [|discriminate]. cbn [bind]. intros E. injection E as <-. cbn. eauto.
  - unfold psd_lomb. cbn [option_map]. destruct (fbndavg _ _ cfrq freq_bands) as [Puu|]; [|discriminate]. cbn [bind].
    destruct (fbndavg _ _ cfrq freq_bands) as [q|]; [|discriminate]. cbn [bind].
    destruct (fbndavg _ _ cfrq freq_bands) as [r|]; [|discriminate]. cbn [bind]. intros E. injection E as <-. cbn. eauto.
Qed.

Lemma levels_noise T P frq : 0 < T -> length P = 9%nat -> Forall2 (noise_at T P) frq
  (map (band_level (map (fun x => xmul (xopt x) (xdiv (Fin 1) (xmul (Fin T) (Fin 24)))) P)) frq).
Proof. intros HT HP. induction frq as [|f l IH]; cbn [map]; constructor; [now apply level_noise|exact IH]. Qed.

Lemma noise_levels L tin t eu ev T frq equi tw pu q : 0 < T -> increasing t -> length eu = length t -> (forall v, ev = Some v -> length v = length t) ->
  (tw = true -> ev <> None) ->
  band_averaged_psd_by_constit L tin t eu ev (Fin T) frq equi tw = Ok (pu, q) ->
  exists times u v p, residual_series equi tin t eu times u /\
    match ev, v with Some e, Some w => residual_series equi tin t e times w | None, None => True | _, _ => False end /\
    band_psd L times u v frq equi = Ok p /\
    Forall2 (noise_at T (b_Puu p)) frq pu /\
    if tw then exists lv luv pv puv, b_Pvv p = Some lv /\ b_Puv p = Some luv /\ q = Some (pv, puv) /\ Forall2 (noise_at T lv) frq pv /\ Forall2 (noise_at T luv) frq puv
    else q = None.
Proof.
  intros HT Hi Hl Hv Htw. unfold band_averaged_psd_by_constit. cbv zeta.
  destruct (equi && Nat.ltb (length t) (length tin) && Nat.eqb (length t) 0)%bool eqn:G; [discriminate|].
  set (gap := (equi && Nat.ltb (length t) (length tin))%bool) in *.
  pose (fill := fun e => if gap then map (fun x => interp x t e) tin else e).
  pose (times := if equi then tin else t). pose (u := if equi then fill eu else eu). pose (v := if equi then option_map fill ev else ev).
  match goal with |- bind ?X _ = _ -> _ => replace X with (band_psd L times u v frq equi) by (unfold times, u, v, fill; destruct equi; reflexivity) end.
  destruct (band_psd L times u v frq equi) as [p|] eqn:B; [|intros E; discriminate E]. cbn [bind]. intros E.
  assert (R : forall e, length e = length t -> residual_series equi tin t e times (if equi then fill e else e)).
  { intros e He. unfold residual_series, times, fill. destruct equi; [|split; reflexivity]. split; [reflexivity|].
    cbn [andb] in gap. subst gap. destruct (Nat.ltb (length t) (length tin)); [|reflexivity]. cbn [andb] in G.
    apply filled_read; [assumption|assumption|]. intros Et. rewrite Et in G. discriminate G. }
  assert (N := band_psd_nine _ _ _ _ _ _ _ B).
  exists times, u, v, p. split; [now apply R|]. split.
  { unfold v. destruct ev as [e|]; [|destruct equi; exact I]. destruct equi; cbn [option_map]; apply (R e); now apply Hv. }
  split; [exact B|]. destruct N as (N1 & N2 & N3).
  destruct tw.
  - assert (V : v <> None). { unfold v. destruct ev as [e|]; [|now elim (Htw eq_refl)]. destruct equi; discriminate. }
    destruct (band_psd_vector _ _ _ _ _ _ _ B V) as (lv & luv & E1 & E2). rewrite E1, E2 in E.
    assert (E' := L_Select.Ok_inj _ _ E). clear E. assert (Ep := f_equal fst E'). assert (Eq := f_equal snd E'). cbn [fst snd] in Ep, Eq.
    split; [rewrite <- Ep; now apply levels_noise|]. do 4 eexists. split; [exact E1|]. split; [exact E2|]. split; [symmetry; exact Eq|].
    split; apply levels_noise; auto.
  - assert (E' := L_Select.Ok_inj _ _ E). assert (Ep := f_equal fst E'). assert (Eq := f_equal snd E'). cbn [fst snd] in Ep, Eq.
    split; [rewrite <- Ep; now apply levels_noise|now symmetry].
Qed.
