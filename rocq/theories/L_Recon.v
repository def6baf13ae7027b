(** The reconstruction as a sum over rows. *)
From Coq Require Import Lia Lra Permutation.
From Verif Require Import M_Base M_Lib M_Tables M_Const M_Options M_Time M_Slvinit M_Harmonics M_Select M_Ellipse
  M_Robust M_Period M_Conf M_Diag M_Solve M_Recon S_Dict S_Options L_Base L_Options L_SolveInv L_OptSolve S_Slv L_Slv L_Slv2
  L_Tables S_Order L_Order S_Select L_Select S_Fit L_Fit L_Align L_SelOrder L_Order2 L_Order3 L_Order4 S_Basis L_Basis S_Recon.
Open Scope R_scope.

Lemma compress_idx {A} (d : A) (p : nat -> bool) (l : list A) : compress (map p (seq 0 (length l))) l =
  map (fun i => nth i l d) (filter p (seq 0 (length l))).
Proof.
  assert (G : forall (l pre : list A), compress (map p (seq (length pre) (length l))) l =
    map (fun i => nth i (pre ++ l) d) (filter p (seq (length pre) (length l)))).
  { clear l. induction l as [|a l IH]; intros pre; cbn [length seq map compress filter]; auto.
    assert (E : compress (map p (seq (S (length pre)) (length l))) l =
                map (fun i => nth i (pre ++ a :: l) d) (filter p (seq (S (length pre)) (length l)))).
    { specialize (IH (pre ++ [a])%list). rewrite app_length in IH. cbn [length] in IH. rewrite Nat.add_1_r in IH. rewrite IH.
      apply map_ext. intros i. now rewrite <- app_assoc. }
    destruct (p (length pre)); cbn [map]; rewrite E; auto. f_equal. rewrite app_nth2, Nat.sub_diag by lia. reflexivity. }
  exact (G l []).
Qed.
Lemma compress_idx' {A} (d : A) (p : nat -> bool) (l : list A) n : length l = n -> compress (map p (seq 0 n)) l =
  map (fun i => nth i l d) (filter p (seq 0 n)).
Proof. intros <-. apply compress_idx. Qed.
Lemma nth_combine' {A B} (a : list A) (b : list B) i x y : length a = length b ->
  nth i (combine a b) (x, y) = (nth i a x, nth i b y).
Proof. intros. now apply combine_nth. Qed.
Lemma filter_map {A B} (p : B -> bool) (f : A -> B) l : filter p (map f l) = map f (filter (fun x => p (f x)) l).
Proof. induction l as [|a l IH]; cbn; auto. destruct (p (f a)); cbn; now rewrite IH. Qed.

Lemma scatter_placed f t : scatter (goodmask t) (map f (somes t)) = placed f t.
Proof.
  unfold placed. induction t as [|[x|] t IH]; unfold goodmask, somes; cbn [map is_good scatter hd tl flat_map]; auto.
  - cbn [map hd tl app]. f_equal. exact IH.
  - f_equal. exact IH.
Qed.

(** ** which constituents *)
Lemma existsb_in_dec n l : existsb (String.eqb n) l = if in_dec string_dec n l then true else false.
Proof.
  destruct (in_dec string_dec n l) as [H|H].
  - apply existsb_exists. exists n. split; auto. apply String.eqb_refl.
  - apply not_true_iff_false. intros X. apply existsb_exists in X. destruct X as (y & H1 & H2). apply String.eqb_eq in H2. now subst.
Qed.
Lemma rows_names c (f : string -> bool) : map f (c_name c) = map (fun r => match w_name r with Some n => f n | None => false end) (rows c).
Proof.
  unfold rows. rewrite map_map. cbn [crow_of w_name]. apply list_rows; [now rewrite map_length|].
  intros i Hi. rewrite nth_error_map. destruct (nth_error_some (c_name c) i Hi) as [n ->]. reflexivity.
Qed.
Lemma w_name_some c r : In r (rows c) -> exists n, w_name r = Some n.
Proof.
  unfold rows. intros H. apply in_map_iff in H. destruct H as (i & <- & Hi). apply in_seq in Hi. cbn. apply nth_error_some. lia.
Qed.
Lemma share_xdiv c : forall r, In r (rows c) -> xdiv (Fin (100 * energy r)) (Fin (total c)) = share (energy r) (total c).
Proof.
  intros r Hr. unfold share, xdiv. destruct (Req_EM_T (total c) 0) as [T0|T0]; [|reflexivity].
  assert (Z : energy r = 0).
  { apply (rsum_zero (map energy (rows c))); [|exact T0|now apply in_map].
    intros x Hx. apply in_map_iff in Hx. destruct Hx as (q & <- & _). apply energy_nonneg. }
  rewrite Z, Rmult_0_r. unfold sgn_inf. destruct (Rlt_dec 0 0); [lra|]. destruct (Rlt_dec 0 0); [lra|reflexivity].
Qed.

Lemma select_rows c constit mS mP : well_formed c -> rec_select c constit mS mP = Ok (map (chosen c constit mS mP) (rows c)).
Proof.
  intros W. destruct constit as [|l|s]; unfold rec_select.
  - assert (T : (if Req_EM_T mS 0 then true else false) && (if Req_EM_T mP 0 then true else false) || o_nodiagn (c_opt c) = true ->
      map (fun _ => true) (c_name c) = map (chosen c CNone mS mP) (rows c)).
    { intros H. rewrite rows_names. apply map_ext_in. intros r Hr. unfold chosen. destruct (w_name_some _ _ Hr) as [n ->].
      destruct (o_nodiagn (c_opt c)); auto. rewrite orb_false_r in H. destruct (Req_EM_T mS 0), (Req_EM_T mP 0); auto; discriminate. }
    destruct ((if Req_EM_T mS 0 then true else false) && (if Req_EM_T mP 0 then true else false) || o_nodiagn (c_opt c)) eqn:E.
    + now rewrite T.
    + clear T. apply orb_false_elim in E. destruct E as [E1 E2].
      assert (EN : exists E N, energies c = Ok E /\ noises c = Ok N /\
        (if o_twodim (c_opt c) then
                    do a <- key (c_Lsmaj c); do b <- key (c_Lsmin c);
                    do x <- key (c_Lsmaj_ci c); do y <- key (c_Lsmin_ci c);
                    Ok (map2 (fun a b => Rsqr a + Rsqr b) a b,
                        map2 (fun x y => xadd (ci_sq x) (ci_sq y)) x y)
                  else
                    do a <- key (c_A c); do x <- key (c_A_ci c);
                    Ok (map Rsqr a, map ci_sq x)) = Ok (E, N)).
      { unfold energies, noises. destruct (o_twodim (c_opt c)) eqn:T.
        - destruct (wf_2d _ W T) as ((a & ->) & (b & ->) & _ & _ & _ & _ & D). destruct (D E2) as ((x & ->) & (y & ->)).
          cbn [key bind]. eauto.
        - destruct (wf_1d _ W T) as (-> & (a & ->) & _ & _ & D). destruct (D E2) as (x & ->). cbn [key bind]. eauto. }
      destruct EN as (En & N & H1 & H2 & ->). cbn [bind].
      apply energies_rows in H1; [|apply W]. apply noises_rows in H2; [|apply W]. subst En N.
      change (rsum (map energy (rows c))) with (total c). rewrite map2_map, map_map, map2_map. f_equal.
      apply map_ext_in. intros r Hr. rewrite (share_xdiv c r Hr). unfold chosen. destruct (w_name_some _ _ Hr) as [n ->].
      rewrite E2. fold (snr r). destruct (Req_EM_T mS 0), (Req_EM_T mP 0); try reflexivity. discriminate.
  - rewrite rows_names. f_equal. apply map_ext. intros r. unfold chosen, constit_in. destruct (w_name r); auto. apply existsb_in_dec.
  - rewrite rows_names. reflexivity.
Qed.

(** ** the sum *)
Definition pm_of (c : coef) (i : nat) : C * C :=
  let at0 l := nth i l 0 in
  match c_Lsmaj c, c_Lsmin c, c_theta c, c_A c with
  | Some maj, Some mi, Some th, _ => pm2 (at0 maj) (at0 mi) (at0 th) (at0 (c_g c))
  | None, _, _, Some a => pm1 (at0 a) (at0 (c_g c))
  | _, _, _, _ => (RtoC 0, RtoC 0)
  end.

Lemma pm_rows c p : well_formed c -> rec_pm c (map p (seq 0 (length (c_name c)))) =
  Ok (map (pm_of c) (filter p (seq 0 (length (c_name c))))).
Proof.
  intros W. assert (A := wf_aligned _ W). unfold rec_pm, pm_of. destruct A as (_ & _ & A3 & A4 & A5 & A6 & A7 & _).
  destruct (o_twodim (c_opt c)) eqn:T.
  - destruct (wf_2d _ W T) as ((a & Ea) & (b & Eb) & (th & Et) & _). rewrite Ea, Eb, Et in *. cbn [key bind]. f_equal.
    specialize (A5 _ eq_refl). specialize (A6 _ eq_refl). specialize (A7 _ eq_refl).
    rewrite (compress_idx' (0, 0, 0, 0)) by (rewrite !combine_length; lia). rewrite map_map. apply map_ext. intros i.
    rewrite !nth_combine' by (rewrite ?combine_length; lia). reflexivity.
  - destruct (wf_1d _ W T) as (Ea & (a & Eb) & _). rewrite Ea, Eb in *. cbn [key bind]. f_equal. specialize (A4 _ eq_refl).
    rewrite (compress_idx' (0, 0)) by (rewrite !combine_length; lia). rewrite map_map. apply map_ext. intros i.
    rewrite !nth_combine' by lia. reflexivity.
Qed.

Lemma ut_E_sel c t p : well_formed c ->
  ut_E t (c_reftime c) (compress (map p (seq 0 (length (c_name c)))) (c_frq c))
    (compress (map p (seq 0 (length (c_name c)))) (c_lind c)) (c_lat c) (flags_of (c_opt c)) =
  map (fun x => map (fun i => basis_at (flags_of (c_opt c)) (c_reftime c) (c_lat c) x (nth i (c_lind c) 0%nat))
                    (filter p (seq 0 (length (c_name c))))) t.
Proof.
  intros W. assert (A := wf_aligned _ W). destruct A as (A1 & A2 & _).
  rewrite (compress_idx' 0) by assumption. rewrite (compress_idx' 0%nat _ (c_lind c)) by assumption.
  rewrite (map_ext_in (fun i => nth i (c_frq c) 0) (fun i => nth (nth i (c_lind c) 0%nat) (linearized_freqs (c_reftime c)) 0)).
  - rewrite <- (map_map (fun i => nth i (c_lind c) 0%nat) (fun i => nth i (linearized_freqs (c_reftime c)) 0)).
    rewrite ut_E_rows. apply map_ext. intros x. now rewrite map_map.
  - intros i Hi. apply filter_In in Hi. destruct Hi as [Hi _]. apply in_seq in Hi. rewrite (wf_frq _ W) at 1.
    rewrite (nth_indep _ _ (nth 0 (linearized_freqs (c_reftime c)) 0)) by (rewrite map_length; lia).
    now rewrite (map_nth (fun i => nth i (linearized_freqs (c_reftime c)) 0)).
Qed.

Lemma cos_plus' a b : cos (a + b) = cos a * cos b - sin a * sin b. Proof. apply cos_plus. Qed.
Lemma tide_pm2 f phi maj mi th g : let e := (f * cos phi, f * sin phi) in let pm := pm2 maj mi th g in
  Cplus (Cmult e (fst pm)) (Cmult (Cconj e) (snd pm)) = (ellipse_u f phi maj mi th g, ellipse_v f phi maj mi th g).
Proof.
  cbv zeta. unfold pm2, ellipse_u, ellipse_v, cis, Cplus, Cmult, Cconj, RtoC, deg, rpd. cbn [fst snd].
  replace ((th - g) * (PI / 180)) with (th * (PI / 180) - g * (PI / 180)) by ring.
  replace ((th + g) * (PI / 180)) with (th * (PI / 180) + g * (PI / 180)) by ring.
  rewrite !cos_minus, !sin_minus, !cos_plus, !sin_plus. f_equal; field.
Qed.
Lemma tide_pm1 f phi a g : let e := (f * cos phi, f * sin phi) in let pm := pm1 a g in
  Cplus (Cmult e (fst pm)) (Cmult (Cconj e) (snd pm)) = (scalar_tide f phi a g, 0).
Proof.
  cbv zeta. unfold pm1, scalar_tide, cis, Cplus, Cmult, Cconj, RtoC, deg, rpd. cbn [fst snd].
  replace (- g * (PI / 180)) with (- (g * (PI / 180))) by ring. rewrite cos_neg, sin_neg, cos_minus. f_equal; field.
Qed.

Lemma nth_error_at {A} (l : list A) i d : (i < length l)%nat -> nth_error l i = Some (nth i l d).
Proof. intros H. now apply nth_error_nth'. Qed.

Lemma tide_row c x i : well_formed c -> (i < length (c_name c))%nat ->
  tide c x (crow_of c i) =
  match basis_at (flags_of (c_opt c)) (c_reftime c) (c_lat c) x (nth i (c_lind c) 0%nat) with
  | Some e => Some (Cplus (Cmult e (fst (pm_of c i))) (Cmult (Cconj e) (snd (pm_of c i))))
  | None => None
  end.
Proof.
  intros W Hi. assert (A := wf_aligned _ W). destruct A as (_ & A2 & A3 & A4 & A5 & A6 & A7 & _).
  unfold tide, crow_of, basis_at. cbn [w_lind w_g w_Lsmaj w_Lsmin w_theta w_A].
  rewrite (nth_error_at (c_lind c) i 0%nat) by lia. rewrite (nth_error_at (c_g c) i 0) by lia.
  destruct (F_at _ _ _ _ _) as [f|]; [|reflexivity]. destruct (U_at _ _ _ _ _) as [u|]; [|reflexivity].
  destruct (V_at _ _ _ _) as [v|]; [|reflexivity]. cbn [wave]. rewrite (Rplus_comm u v). unfold pm_of.
  destruct (o_twodim (c_opt c)) eqn:T.
  - destruct (wf_2d _ W T) as ((a & Ea) & (b & Eb) & (th & Et) & _). rewrite Ea, Eb, Et in *. cbn [at_ option_map].
    specialize (A5 _ eq_refl). specialize (A6 _ eq_refl). specialize (A7 _ eq_refl).
    rewrite (nth_error_at a i 0), (nth_error_at b i 0), (nth_error_at th i 0) by lia. f_equal. symmetry. apply tide_pm2.
  - destruct (wf_1d _ W T) as (Ea & (a & Eb) & _). rewrite Ea, Eb in *. specialize (A4 _ eq_refl). cbn [at_ option_map].
    rewrite (nth_error_at a i 0) by lia. f_equal. symmetry. apply tide_pm1.
Qed.

Lemma Cplus_swap (a p b q : C) : Cplus (Cplus a p) (Cplus b q) =
  (fst (Cplus a b) + fst (Cplus p q), snd (Cplus a b) + snd (Cplus p q)).
Proof. unfold Cplus. cbn [fst snd]. f_equal; ring. Qed.
Lemma fit_row_tides c x js : well_formed c -> (forall i, In i js -> (i < length (c_name c))%nat) ->
  fit_row (map (fun i => basis_at (flags_of (c_opt c)) (c_reftime c) (c_lat c) x (nth i (c_lind c) 0%nat)) js) (map (pm_of c) js) =
  tides c x (map (crow_of c) js).
Proof.
  intros W. induction js as [|i js IH]; intros Hi.
  - cbn. unfold fit_row. cbn. unfold cdot, csum. cbn. unfold Cplus, RtoC. cbn [fst snd]. now rewrite Rplus_0_r.
  - cbn [map tides]. rewrite tide_row by (auto; apply Hi; now left).
    specialize (IH (fun j Hj => Hi j (or_intror Hj))). unfold fit_row in *. cbn [all_some].
    destruct (basis_at _ _ _ _ _) as [e|]; [|reflexivity].
    destruct (all_some (map _ js)) as [r|]; cbn [option_map].
    + rewrite <- IH. f_equal. unfold cdot. cbn [map combine csum fold_right fst snd].
      apply Cplus_swap.
    + now rewrite <- IH.
Qed.

Lemma plus_add (a b : option R) (add : R -> R) : (forall x, plus (Some x) b = Fin (add x)) -> xo (option_map add a) = plus a b.
Proof. intros H. destruct a as [x|]; cbn [option_map xo]; [symmetry; apply H|destruct b; reflexivity]. Qed.

Definition outcome (c : coef) (constit : constit_arg) (mS mP : R) (t : list (option R)) : series :=
  if o_twodim (c_opt c) then Vector (placed (value_u c constit mS mP) t) (placed (value_v c constit mS mP) t)
  else Scalar (placed (value_u c constit mS mP) t).

Lemma map2_diag {A B D} (f : A -> B -> D) (g : B -> A) l : map2 f (map g l) l = map (fun x => f (g x) x) l.
Proof. unfold map2. induction l; cbn; auto. f_equal; auto. Qed.

Theorem core_outcome t c constit mS mP : well_formed c ->
  reconstruct_core (somes t) (goodmask t) c constit mS mP = Ok (outcome c constit mS mP t).
Proof.
  intros W. unfold reconstruct_core. rewrite (select_rows c constit mS mP W). cbn [bind].
  set (p := fun i => chosen c constit mS mP (crow_of c i)).
  assert (M : map (chosen c constit mS mP) (rows c) = map p (seq 0 (length (c_name c)))) by (unfold rows; now rewrite map_map).
  rewrite M. rewrite (pm_rows c p W). cbn [bind]. cbv zeta. rewrite (ut_E_sel c _ p W). rewrite map_map.
  assert (F : forall x, fit_row (map (fun i => basis_at (flags_of (c_opt c)) (c_reftime c) (c_lat c) x (nth i (c_lind c) 0%nat))
      (filter p (seq 0 (length (c_name c))))) (map (pm_of c) (filter p (seq 0 (length (c_name c))))) =
      tides c x (filter (chosen c constit mS mP) (rows c))).
  { intros x. rewrite fit_row_tides; auto.
    - unfold rows. now rewrite filter_map.
    - intros i Hi. apply filter_In in Hi. destruct Hi as [Hi _]. apply in_seq in Hi. lia. }
  rewrite (map_ext _ _ F). clear F M. unfold outcome.
  destruct (o_twodim (c_opt c)) eqn:T.
  - destruct (wf_2d _ W T) as (_ & _ & _ & (um & Eu) & (vm & Ev) & Hs & _). rewrite Eu, Ev. cbn [key bind].
    assert (S : exists us vs, (if negb (o_notrend (c_opt c)) then key (c_uslope c) else Ok 0) = Ok us /\
        (if negb (o_notrend (c_opt c)) then key (c_vslope c) else Ok 0) = Ok vs /\
        (o_notrend (c_opt c) = false -> c_uslope c = Some us /\ c_vslope c = Some vs)).
    { destruct (o_notrend (c_opt c)); cbn [negb]; [exists 0, 0; repeat split; discriminate|].
      destruct (Hs eq_refl) as ((us & ->) & (vs & ->)). exists us, vs. auto. }
    destruct S as (us & vs & -> & -> & Hsl). cbn [bind]. rewrite !map2_diag, !scatter_placed. do 2 f_equal.
    + unfold placed. apply map_ext. intros [x|]; [|reflexivity]. unfold value_u. rewrite T, Eu.
      destruct (tides c x _) as [z|]; cbn [option_map xo]; [|destruct (background _ _ _ _); reflexivity].
      unfold background. destruct (o_notrend (c_opt c)); cbn [negb plus option_map].
      * f_equal. ring.
      * destruct (Hsl eq_refl) as [-> _]. cbn. f_equal. ring.
    + unfold placed. apply map_ext. intros [x|]; [|reflexivity]. unfold value_v. rewrite Ev.
      destruct (tides c x _) as [z|]; cbn [option_map xo]; [|destruct (background _ _ _ _); reflexivity].
      unfold background. destruct (o_notrend (c_opt c)); cbn [negb plus option_map].
      * f_equal. ring.
      * destruct (Hsl eq_refl) as [_ ->]. cbn. f_equal. ring.
  - destruct (wf_1d _ W T) as (_ & _ & (um & Eu) & Hs & _). rewrite Eu. cbn [key bind].
    assert (S : exists us, (if negb (o_notrend (c_opt c)) then key (c_slope c) else Ok 0) = Ok us /\
        (o_notrend (c_opt c) = false -> c_slope c = Some us)).
    { destruct (o_notrend (c_opt c)); cbn [negb]; [exists 0; repeat split; discriminate|].
      destruct (Hs eq_refl) as (us & ->). exists us. auto. }
    destruct S as (us & -> & Hsl). cbn [bind]. rewrite !map2_diag, !scatter_placed. do 2 f_equal.
    unfold placed. apply map_ext. intros [x|]; [|reflexivity]. unfold value_u. rewrite T, Eu.
    destruct (tides c x _) as [z|]; cbn [option_map xo]; [|destruct (background _ _ _ _); reflexivity].
    unfold background. destruct (o_notrend (c_opt c)); cbn [negb plus option_map].
    + f_equal. ring.
    + rewrite (Hsl eq_refl). cbn. f_equal. ring.
Qed.
