(** Sample clean-up: consequences for solve. *)
From Coq Require Import Lia Lra.
From Verif Require Import M_Base M_Lib M_Options M_Time M_Slvinit M_Select M_Diag M_Solve S_Dict S_Options S_Slv S_Time
  L_Base L_Options L_SolveInv L_OptSolve L_Time L_Slv.
Open Scope R_scope.
Open Scope string_scope.

Lemma fitted_scalar parse n t mt us um lat e si xs : one_d n us um ->
  normalize_time parse t e = Ok xs -> length xs = n ->
  slvinit parse (NdArr [n] t mt) (NdArr [n] us um) None lat e = Ok si ->
  si_v si = None /\ si_t si = map fst (valid_scalar xs us um) /\ si_u si = map snd (valid_scalar xs us um) /\
  si_tin si = valid_times xs.
Proof.
  intros [Hl Hm] Hn Hx H. unfold slvinit in H. inv_bind H. cbn [arr_data arr_mask option_map] in H.
  rewrite Hn in H. cbn [bind] in H.
  assert (C : clean (masked_invalid xs []) (masked_invalid us um) None =
     (valid_times xs, map fst (valid_scalar xs us um), map snd (valid_scalar xs us um), None)).
  { rewrite clean_scalar_spec by (rewrite !length_masked_invalid; congruence).
    rewrite somes_valid, onepass1_valid; auto; [congruence|]. destruct Hm as [Hm|Hm]; [left; exact Hm|right; congruence]. }
  destruct (slv_core_fields _ _ _ _ _ _ _ _ C H) as (A1 & A2 & A3 & A4 & _). auto.
Qed.

Lemma fitted_vector parse n t mt us um vs vm lat e si xs : one_d n us um -> one_d n vs vm ->
  normalize_time parse t e = Ok xs -> length xs = n ->
  slvinit parse (NdArr [n] t mt) (NdArr [n] us um) (Some (NdArr [n] vs vm)) lat e = Ok si ->
  si_t si = map (fun s => fst (fst s)) (valid_vector xs us um vs vm) /\
  si_u si = map (fun s => snd (fst s)) (valid_vector xs us um vs vm) /\
  si_v si = Some (map snd (valid_vector xs us um vs vm)) /\
  si_tin si = valid_times xs.
Proof.
  intros [Hl Hm] [Hl' Hm'] Hn Hx H. unfold slvinit in H. inv_bind H. cbn [arr_data arr_mask option_map] in H.
  rewrite Hn in H. cbn [bind] in H.
  assert (C : clean (masked_invalid xs []) (masked_invalid us um) (Some (masked_invalid vs vm)) =
     (valid_times xs, map (fun s => fst (fst s)) (valid_vector xs us um vs vm),
      map (fun s => snd (fst s)) (valid_vector xs us um vs vm), Some (map snd (valid_vector xs us um vs vm)))).
  { rewrite clean_vector_spec by (rewrite !length_masked_invalid; congruence).
    rewrite somes_valid, onepass2_valid; [reflexivity|congruence|congruence| |].
    - destruct Hm as [Hm|Hm]; [left; exact Hm|right; congruence].
    - destruct Hm' as [Hm'|Hm']; [left; exact Hm'|right; congruence]. }
  destruct (slv_core_fields _ _ _ _ _ _ _ _ C H) as (A1 & A2 & A3 & A4 & _). auto.
Qed.

(** what solve does with times and data *)
Lemma solve_slv L t u v lat opts c : unique_keys opts -> solve L t u v lat opts = Ok c ->
  exists si la, lat = Some la /\ slvinit (l_parse L) t u v lat (o_epoch (c_opt c)) = Ok si /\
    c_reftime c = si_tref si /\ c_lat c = la /\ o_equi (c_opt c) = si_equi si /\
    exists s B xraw m W,
      ut_cnstitsel (si_tref si) (xdiv (Fin (o_rmin (c_opt c))) (Fin (24 * si_lor si)))
        (o_cnstit (c_opt c)) (o_infer (c_opt c)) = Ok s /\
      fit L (si_t si) (si_u si) (si_v si) (si_tref si) (si_lor si) la (c_opt c) s = Ok (B, xraw, m, W) /\
      c_weights c = W.
Proof.
  intros Hu Hc. destruct (solve_inv _ _ _ _ _ _ _ Hc) as
    [(compat & si & la & o & s & B & xraw & m & W & c1 & c2 & P1 & P2 & -> & P4 & P5 & P6 & P7 & P8 & P9)].
  assert (SB := solve_base _ _ _ _ _ _ _ _ _ _ _ _ P7 P8 P9).
  assert (Ho : c_opt c = o) by (rewrite (sb_opt _ _ SB); reflexivity).
  rewrite Ho. destruct (used_options opts (is2d v) (si_equi si) Hu compat o P1 P4) as
    (_ & _ & _ & Eq & _ & _ & _ & _ & _ & _ & _ & _ & _ & _ & _ & _ & _ & _ & Ep1 & Ep2 & _).
  exists si, la. split; auto. split; [congruence|].
  split; [rewrite (sb_reftime _ _ SB); reflexivity|].
  split; [rewrite (sb_lat _ _ SB); reflexivity|]. split; auto.
  exists s, B, xraw, m, W. repeat split; auto. rewrite (sb_weights _ _ SB); reflexivity.
Qed.

(** solve sees its arguments only through slvinit *)
Lemma solve_slvinit_ext L t u v t' u' v' lat opts : is2d v = is2d v' ->
  (forall e, slvinit (l_parse L) t u v lat e = slvinit (l_parse L) t' u' v' lat e) ->
  solve L t u v lat opts = solve L t' u' v' lat opts.
Proof.
  intros Hv Hs. unfold solve. fold (is2d v) (is2d v'). rewrite Hv. destruct (process_opts opts (is2d v')) as [compat|e]; auto.
  cbn [bind]. unfold solv1. rewrite Hs. fold (is2d v) (is2d v'). rewrite Hv. reflexivity.
Qed.

Lemma mask_ignored L sh t m1 m2 u v lat opts :
  solve L (NdArr sh t m1) u v lat opts = solve L (NdArr sh t m2) u v lat opts.
Proof. apply solve_slvinit_ext; reflexivity. Qed.

(** ** dropping a sample with an invalid time *)
Lemma finite_None x : (forall r, x <> Fin r) -> finite x = None.
Proof. destruct x; cbn; auto. intros H. now destruct (H r). Qed.

Lemma map_drop {A B} (f : A -> B) l1 x l2 : map f (l1 ++ x :: l2) = (map f l1 ++ f x :: map f l2)%list.
Proof. now rewrite map_app. Qed.

Lemma drop_normalize parse k t t' e : drop_time k t t' ->
  (exists xs1 x xs2, normalize_time parse t e = Ok (xs1 ++ x :: xs2)%list /\ finite x = None /\ length xs1 = k /\
     normalize_time parse t' e = Ok (xs1 ++ xs2)%list) \/
  (exists er, normalize_time parse t e = Err er /\ normalize_time parse t' e = Err er).
Proof.
  intros [u l1 l2 Hk|x l1 l2 Hk Hx].
  - destruct (is_none e) eqn:E.
    + destruct e; try discriminate. left. rewrite !normalize_dates. rewrite map_drop, map_app.
      do 3 eexists. repeat split; auto. now rewrite map_length.
    + right. unfold normalize_time. rewrite E. eauto.
  - apply finite_None in Hx. unfold normalize_time. destruct (is_none e) eqn:E.
    + left. unfold python_gregorian_datenum, date2num. cbn [array_to_ms bind].
      rewrite !map_map, map_drop, map_app. do 3 eexists. split; [reflexivity|]. split.
      { unfold num_to_ms. rewrite Hx. reflexivity. }
      split; [now rewrite map_length|reflexivity].
    + destruct (eq_str e "python"); [left; eauto 10|].
      destruct (eq_str e "matlab").
      * left. rewrite map_drop, map_app. do 3 eexists. split; [reflexivity|]. split.
        { destruct x; try discriminate; reflexivity. }
        split; [now rewrite map_length|reflexivity].
      * destruct (epoch_array e) as [ea|]; cbn [bind]; [|eauto].
        destruct (python_gregorian_datenum parse ea) as [ofs|]; cbn [bind]; [|eauto].
        left. rewrite map_drop, map_app. do 3 eexists. split; [reflexivity|]. split.
        { destruct x; try discriminate; cbn; destruct (hd NaN ofs); reflexivity. }
        split; [now rewrite map_length|reflexivity].
Qed.

Lemma masked_invalid_drop k d d' m m' : drops k d d' -> drops_mask k m m' -> 
  exists c1 c c2, masked_invalid d m = (c1 ++ c :: c2)%list /\ masked_invalid d' m' = (c1 ++ c2)%list /\ length c1 = k.
Proof.
  intros (l1 & x & l2 & -> & -> & Hk) [[-> ->]|(m1 & b & m2 & -> & -> & Hm)].
  - rewrite !masked_invalid_nil, map_drop, map_app. do 3 eexists. split; [reflexivity|]. split; [reflexivity|].
    now rewrite map_length.
  - exists (masked_invalid l1 m1), (if b then None else finite x), (masked_invalid l2 m2).
    rewrite length_masked_invalid. split; [|split; auto].
    + subst k. revert m1 Hm. induction l1 as [|y l1 IH]; intros [|a m1] Hm; try discriminate; auto.
      cbn. f_equal. apply IH. auto.
    + subst k. revert m1 Hm. induction l1 as [|y l1 IH]; intros [|a m1] Hm; try discriminate; auto.
      cbn. f_equal. apply IH. auto.
Qed.

Lemma goodmask_app {A} (a b : list (option A)) : goodmask (a ++ b) = (goodmask a ++ goodmask b)%list.
Proof. apply map_app. Qed.

Lemma somes_app {A} (a b : list (option A)) : somes (a ++ b) = (somes a ++ somes b)%list.
Proof. induction a as [|[x|] a IH]; cbn; auto. now f_equal. Qed.

Lemma onepass1_drop t1 t2 u1 u u2 : length t1 = length u1 ->
  onepass1 (t1 ++ None :: t2) (u1 ++ u :: u2) = onepass1 (t1 ++ t2) (u1 ++ u2).
Proof.
  revert u1. induction t1 as [|a t1 IH]; intros [|b u1] H; try discriminate; auto.
  cbn. rewrite IH by auto. reflexivity.
Qed.
Lemma onepass2_drop t1 t2 u1 u u2 v1 v v2 : length t1 = length u1 -> length t1 = length v1 ->
  onepass2 (t1 ++ None :: t2) (u1 ++ u :: u2) (v1 ++ v :: v2) = onepass2 (t1 ++ t2) (u1 ++ u2) (v1 ++ v2).
Proof.
  revert u1 v1. induction t1 as [|a t1 IH]; intros [|b u1] [|c v1] H H'; try discriminate; auto.
  cbn. rewrite IH by auto. reflexivity.
Qed.

Lemma app_len {A} (a b : list A) : length (a ++ b) = (length a + length b)%nat.
Proof. apply app_length. Qed.

Lemma normalize_length parse t e xs : normalize_time parse t e = Ok xs ->
  length xs = match t with TDate _ l => length l | TNum l => length l | TUns l => length l | TStr l => length l end.
Proof.
  unfold normalize_time. destruct (is_none e).
  - unfold python_gregorian_datenum, date2num. intros H. inv_bind H. injection H as <-. inv_bind Ha. injection Ha as <-.
    rewrite !map_length. destruct t; cbn in Ha0; try (injection Ha0 as <-; now rewrite map_length).
    apply mapM_length in Ha0. exact Ha0.
  - destruct t; try discriminate. destruct (eq_str e "python"); [intros H; now injection H as <-|].
    destruct (eq_str e "matlab"); [intros H; injection H as <-; now rewrite map_length|].
    intros H. inv_bind H. inv_bind H. injection H as <-. now rewrite map_length.
Qed.

Lemma slvinit_drop parse n k t t' tm tm' us us' um um' v v' lat e :
  drop_time k t t' -> drops k us us' -> drops_mask k um um' ->
  time_len t = S n -> length us = S n ->
  match v, v' with
  | None, None => True
  | Some (vs, vm), Some (vs', vm') => drops k vs vs' /\ drops_mask k vm vm' /\ length vs = S n
  | _, _ => False
  end ->
  slvinit parse (NdArr [S n] t tm) (NdArr [S n] us um) (option_map (fun p => NdArr [S n] (fst p) (snd p)) v) lat e =
  slvinit parse (NdArr [n] t' tm') (NdArr [n] us' um') (option_map (fun p => NdArr [n] (fst p) (snd p)) v') lat e.
Proof.
  intros Ht Hu Hum Hlt Hlu Hv. unfold slvinit.
  assert (Sh : forall a : nat, shape_eqb [a] [a] = true).
  { intros a. unfold shape_eqb. destruct (list_eq_dec _ _ _); congruence. }
  assert (Hc : check_args (NdArr [S n] t tm) (NdArr [S n] us um) (option_map (fun p => NdArr [S n] (fst p) (snd p)) v) lat =
     check_args (NdArr [n] t' tm') (NdArr [n] us' um') (option_map (fun p => NdArr [n] (fst p) (snd p)) v') lat).
  { unfold check_args. destruct lat; auto. cbn [arr_shape bind]. rewrite !Sh. cbn [negb orb length Nat.eqb].
    destruct v as [[vs vm]|], v' as [[vs' vm']|]; try tauto. cbn [option_map arr_shape bind]. now rewrite !Sh. }
  rewrite Hc. destruct (check_args (NdArr [n] t' tm') _ _ lat); auto. cbn [bind arr_data].
  destruct (drop_normalize parse k t t' e Ht) as [(xs1 & x & xs2 & N1 & Hx & Hk & N2)|(er & N1 & N2)];
    rewrite N1, N2; auto. cbn [bind arr_mask].
  assert (Hl := normalize_length _ _ _ _ N1). fold (time_len t) in Hl. rewrite Hlt in Hl.
  rewrite !masked_invalid_nil. rewrite map_drop, map_app, Hx.
  destruct (masked_invalid_drop k _ _ _ _ Hu Hum) as (c1 & c & c2 & U1 & U2 & Hc1).
  assert (Hlu' := length_masked_invalid us um). rewrite U1, Hlu in Hlu'. rewrite U1, U2.
  rewrite app_length in *. cbn [length] in *.
  assert (K : forall vin vin', clean (map finite xs1 ++ None :: map finite xs2) (c1 ++ c :: c2) vin =
                               clean (map finite xs1 ++ map finite xs2) (c1 ++ c2) vin' ->
     slv_core (map finite xs1 ++ None :: map finite xs2) (c1 ++ c :: c2) vin =
     slv_core (map finite xs1 ++ map finite xs2) (c1 ++ c2) vin').
  { intros vin vin' E. unfold slv_core. now rewrite E. }
  apply K. clear K.
  destruct v as [[vs vm]|], v' as [[vs' vm']|]; try tauto; cbn [option_map fst snd arr_data arr_mask].
  - destruct Hv as (Hv & Hvm & Hlv).
    destruct (masked_invalid_drop k _ _ _ _ Hv Hvm) as (d1 & d & d2 & V1 & V2 & Hd1).
    assert (Hlv' := length_masked_invalid vs vm). rewrite V1, Hlv in Hlv'. rewrite V1, V2.
    rewrite app_length in *. cbn [length] in *.
    rewrite !clean_vector_spec by (rewrite !app_length; cbn [length]; rewrite !map_length; lia).
    rewrite onepass2_drop by (rewrite map_length; lia). rewrite !somes_app. cbn [somes]. reflexivity.
  - rewrite !clean_scalar_spec by (rewrite !app_length; cbn [length]; rewrite !map_length; lia).
    rewrite onepass1_drop by (rewrite map_length; lia). rewrite !somes_app. cbn [somes]. reflexivity.
Qed.

Lemma solve_drop L n k t t' tm tm' us us' um um' v v' lat opts :
  drop_time k t t' -> drops k us us' -> drops_mask k um um' ->
  time_len t = S n -> length us = S n ->
  match v, v' with
  | None, None => True
  | Some (vs, vm), Some (vs', vm') => drops k vs vs' /\ drops_mask k vm vm' /\ length vs = S n
  | _, _ => False
  end ->
  solve L (NdArr [S n] t tm) (NdArr [S n] us um) (option_map (fun p => NdArr [S n] (fst p) (snd p)) v) lat opts =
  solve L (NdArr [n] t' tm') (NdArr [n] us' um') (option_map (fun p => NdArr [n] (fst p) (snd p)) v') lat opts.
Proof.
  intros. apply solve_slvinit_ext.
  - destruct v as [[? ?]|], v' as [[? ?]|]; try tauto; reflexivity.
  - intros e. eapply slvinit_drop; eauto.
Qed.

(** ** even spacing *)
Lemma rsum_cons x l : rsum (x :: l) = x + rsum l.
Proof. reflexivity. Qed.
Lemma rsum_map_plus {A} (f g : A -> R) l : rsum (map (fun x => f x + g x) l) = rsum (map f l) + rsum (map g l).
Proof. induction l; cbn [map]; rewrite ?rsum_cons; [cbn; lra|]. rewrite IHl. lra. Qed.
Lemma rsum_map_scal {A} (f : A -> R) c l : rsum (map (fun x => c * f x) l) = c * rsum (map f l).
Proof. induction l; cbn [map]; rewrite ?rsum_cons; [cbn; lra|]. rewrite IHl. lra. Qed.
Lemma rsum_map_const {A} c (l : list A) : rsum (map (fun _ => c) l) = INR (length l) * c.
Proof. induction l; cbn [map length]; rewrite ?rsum_cons, ?S_INR; [cbn; lra|]. rewrite IHl. lra. Qed.

Lemma mean_min (l : list R) c : l <> [] ->
  rsum (map (fun x => (x - mean l) * (x - mean l)) l) <= rsum (map (fun x => (x - c) * (x - c)) l).
Proof.
  intros Hl. set (m := mean l).
  assert (Hn : INR (length l) > 0) by (apply lt_0_INR; destruct l; [congruence|cbn; lia]).
  assert (E : rsum (map (fun x => (x - c) * (x - c)) l) =
     rsum (map (fun x => (x - m) * (x - m)) l) + INR (length l) * ((m - c) * (m - c))).
  { transitivity (rsum (map (fun x => ((x - m) * (x - m) + (2 * (m - c)) * (x - m)) + (m - c) * (m - c)) l)).
    { f_equal. apply map_ext. intros x. ring. }
    rewrite rsum_map_plus, rsum_map_const, rsum_map_plus, rsum_map_scal.
    assert (Z : rsum (map (fun x => x - m) l) = 0).
    { transitivity (rsum (map (fun x => x + - m) l)); [f_equal; now apply map_ext|].
      rewrite rsum_map_plus, rsum_map_const, map_id. unfold m, mean. field. lra. }
    rewrite Z. ring. }
  rewrite E. assert (H := Rle_0_sqr (m - c)). unfold Rsqr in H. nra.
Qed.

Lemma list_min (l : list R) : l <> [] -> exists a, In a l /\ forall x, In x l -> a <= x.
Proof.
  induction l as [|x l IH]; [congruence|]. intros _. destruct l as [|y l].
  - exists x. split; [now left|]. intros z [->|[]]. lra.
  - destruct IH as (a & Ha & Hm); [discriminate|]. destruct (Rle_lt_dec x a).
    + exists x. split; [now left|]. intros z [->|Hz]; [lra|]. specialize (Hm z Hz). lra.
    + exists a. split; [now right|]. intros z [<-|Hz]; [lra|]. now apply Hm.
Qed.
Lemma list_max (l : list R) : l <> [] -> exists a, In a l /\ forall x, In x l -> x <= a.
Proof.
  intros Hl. destruct (list_min (map Ropp l)) as (a & Ha & Hm); [destruct l; [congruence|discriminate]|].
  apply in_map_iff in Ha. destruct Ha as (b & <- & Hb). exists b. split; auto.
  intros x Hx. specialize (Hm (- x) (in_map _ _ _ Hx)). lra.
Qed.

Lemma rsum_le {A} (f g : A -> R) l : (forall x, In x l -> f x <= g x) -> rsum (map f l) <= rsum (map g l).
Proof.
  induction l as [|a l IH]; intros H; [cbn; lra|]. cbn [map]; rewrite !rsum_cons.
  assert (f a <= g a) by (apply H; now left). assert (rsum (map f l) <= rsum (map g l)); [|unfold rsum in *; lra].
  apply IH. intros; apply H; now right.
Qed.
Lemma rsum_lt {A} (f g : A -> R) l : l <> [] -> (forall x, In x l -> f x < g x) -> rsum (map f l) < rsum (map g l).
Proof.
  destruct l as [|a l]; [congruence|]. intros _ H. cbn [map]; rewrite !rsum_cons.
  assert (f a < g a) by (apply H; now left).
  assert (rsum (map f l) <= rsum (map g l)); [|unfold rsum in *; lra].
  apply rsum_le. intros; left; apply H; now right.
Qed.

Lemma var_small (l : list R) d : l <> [] -> 0 < d -> (forall a b, In a l -> In b l -> a - b < 2 * d) ->
  exists s, var l = Some s /\ s < d * d.
Proof.
  intros Hl Hd H. destruct l as [|a0 l0]; [congruence|]. set (l := a0 :: l0) in *.
  cbn [var]. unfold var, l. fold l. eexists. split; [reflexivity|].
  destruct (list_min l Hl) as (lo & Hlo & Mlo). destruct (list_max l Hl) as (hi & Hhi & Mhi).
  assert (Hn : INR (length l) > 0) by (apply lt_0_INR; cbn; lia).
  unfold mean at 1. rewrite map_length. apply Rlt_div_l; auto.
  eapply Rle_lt_trans; [apply (mean_min l ((lo + hi) / 2) Hl)|].
  replace (d * d * INR (length l)) with (rsum (map (fun _ => d * d) l)) by (rewrite rsum_map_const; ring).
  apply rsum_lt; auto. intros x Hx. specialize (Mlo x Hx). specialize (Mhi x Hx).
  specialize (H hi lo Hhi Hlo). assert (- d < x - (lo + hi) / 2 < d) by lra. nra.
Qed.

Lemma diffs_steps l : diffs l = steps l.
Proof. reflexivity. Qed.

Lemma equi_close l : (2 <= length l)%nat ->
  (forall a b, In a (steps l) -> In b (steps l) -> a - b < 2 / 2 ^ 26) -> equi_of l = true.
Proof.
  intros Hl H. unfold equi_of. rewrite diffs_steps.
  assert (Hne : uniqueR (steps l) <> []).
  { destruct l as [|a [|b l]]; cbn in Hl; try lia. intros E.
    assert (In (b - a) (uniqueR (steps (a :: b :: l)))) by (apply nodup_In; now left).
    rewrite E in H0. destruct H0. }
  destruct (var_small (uniqueR (steps l)) (/ 2 ^ 26) Hne) as (s & -> & Hs).
  - apply Rinv_0_lt_compat, pow_lt. lra.
  - intros a b Ha Hb. apply nodup_In in Ha, Hb. apply (H a b Ha Hb).
  - destruct (Rlt_dec s eps) as [|N]; auto. exfalso. apply N. eapply Rlt_le_trans; [exact Hs|].
    unfold eps. rewrite <- Rinv_mult_distr by (apply pow_nonzero; lra). rewrite <- pow_add. simpl Nat.add. lra.
Qed.

(** conversely an evenly spaced record has steps near their common mean *)
Lemma equi_conv l : equi_of l = true -> exists mu k, (1 <= k <= length (steps l))%nat /\
  forall a, In a (steps l) -> (a - mu) * (a - mu) < INR k / 2 ^ 52.
Proof.
  unfold equi_of. rewrite diffs_steps. set (U := uniqueR (steps l)).
  destruct (var U) as [s|] eqn:E; [|discriminate]. destruct (Rlt_dec s eps) as [Hs|]; [|discriminate]. intros _.
  assert (HU : U <> []) by (intros ->; discriminate).
  exists (mean U), (length U). split.
  { split; [destruct U; [congruence|cbn; lia]|].
    apply NoDup_incl_length; [apply NoDup_nodup|]. intros x Hx. now apply nodup_In in Hx. }
  intros a Ha. assert (HaU : In a U) by now apply nodup_In.
  assert (Es : s = mean (map (fun x => (x - mean U) * (x - mean U)) U)).
  { destruct U; [congruence|]. cbn [var] in E. now injection E. }
  assert (Hn : INR (length U) > 0) by (apply lt_0_INR; destruct U; [congruence|cbn; lia]).
  rewrite Es in Hs. unfold mean at 1 in Hs. rewrite map_length in Hs.
  apply Rlt_div_l in Hs; auto. unfold eps in Hs.
  eapply Rle_lt_trans; [|unfold Rdiv; rewrite Rmult_comm; exact Hs].
  assert (G : forall f (l : list R), (forall x, 0 <= f x) -> In a l -> f a <= rsum (map f l)).
  { clear. intros f l Hf. induction l as [|b l IH]; [intros []|]. intros H. cbn.
    assert (P : 0 <= rsum (map f l)).
    { clear -Hf. induction l; cbn; [lra|]. specialize (Hf a). unfold rsum in IHl. lra. }
    unfold rsum in *. destruct H as [->|H]; [lra|]. specialize (IH H). specialize (Hf b). lra. }
  apply (G (fun x => (x - mean U) * (x - mean U))); auto. intros x. exact (Rle_0_sqr (x - mean U)).
Qed.

Lemma slvinit_tin_indep parse t u v u' v' lat lat' e si si' : 
  slvinit parse t u v lat e = Ok si -> slvinit parse t u' v' lat' e = Ok si' ->
  si_tin si = si_tin si' /\ si_equi si = si_equi si' /\
  (si_equi si = true -> si_tref si = si_tref si' /\ si_lor si = si_lor si' /\ si_elor si = si_elor si').
Proof.
  intros H H'. unfold slvinit in *. inv_bind H. inv_bind H. inv_bind H'. inv_bind H'.
  assert (a2 = a0) by congruence. subst a2.
  destruct (clean (masked_invalid a0 []) (masked_invalid (arr_data u) (arr_mask u)) (option_map (fun v => masked_invalid (arr_data v) (arr_mask v)) v)) as [[[T x1] x2] x3] eqn:C.
  destruct (clean (masked_invalid a0 []) (masked_invalid (arr_data u') (arr_mask u')) (option_map (fun v => masked_invalid (arr_data v) (arr_mask v)) v')) as [[[T' y1] y2] y3] eqn:C'.
  assert (T = T').
  { unfold clean in C, C'. destruct (_ || _) in C; destruct (_ || _) in C'; congruence. }
  subst T'. destruct (slv_core_fields _ _ _ _ _ _ _ _ C H) as (A1 & _ & _ & _ & A2 & A3 & A4 & A5).
  destruct (slv_core_fields _ _ _ _ _ _ _ _ C' H') as (B1 & _ & _ & _ & B2 & B3 & B4 & B5).
  split; [congruence|]. split; [congruence|]. rewrite A2. intros E. rewrite E in *.
  assert (si_lor si = si_lor si') by congruence. repeat split; congruence.
Qed.

(** record length = largest minus smallest base time *)
Lemma rmax_ub l d : d <= rmax l d /\ forall x, In x l -> x <= rmax l d.
Proof.
  unfold rmax. revert d. induction l as [|a l IH]; intros d; cbn; [split; [lra|tauto]|].
  destruct (IH (Rmax d a)) as [H1 H2]. split.
  - eapply Rle_trans; [apply Rmax_l|exact H1].
  - intros x [->|H]; [|now apply H2]. eapply Rle_trans; [apply Rmax_r|exact H1].
Qed.
Lemma rmax_in l d : In (rmax l d) (d :: l).
Proof.
  unfold rmax. revert d. induction l as [|a l IH]; intros d; cbn; [auto|].
  destruct (IH (Rmax d a)) as [H|H]; [|auto].
  rewrite <- H. unfold Rmax. destruct (Rle_dec d a); auto.
Qed.
Lemma rmin_lb l d : rmin l d <= d /\ forall x, In x l -> rmin l d <= x.
Proof.
  unfold rmin. revert d. induction l as [|a l IH]; intros d; cbn; [split; [lra|tauto]|].
  destruct (IH (Rmin d a)) as [H1 H2]. split.
  - eapply Rle_trans; [exact H1|apply Rmin_l].
  - intros x [->|H]; [|now apply H2]. eapply Rle_trans; [exact H1|apply Rmin_r].
Qed.
Lemma rmin_in l d : In (rmin l d) (d :: l).
Proof.
  unfold rmin. revert d. induction l as [|a l IH]; intros d; cbn; [auto|].
  destruct (IH (Rmin d a)) as [H|H]; [|auto].
  rewrite <- H. unfold Rmin. destruct (Rle_dec d a); auto.
Qed.

Lemma ptp_spec l r : ptp l = Ok r -> exists lo hi, In lo l /\ In hi l /\
  (forall x, In x l -> lo <= x <= hi) /\ r = hi - lo.
Proof.
  destruct l as [|a l]; [discriminate|]. cbn. intros H. injection H as <-.
  exists (rmin l a), (rmax l a). split; [apply rmin_in|]. split; [apply rmax_in|].
  split; auto. intros x Hx. destruct (rmin_lb l a) as [A1 A2], (rmax_ub l a) as [B1 B2].
  destruct Hx as [->|Hx]; auto.
Qed.

(** first and last *)
Lemma midpoint_spec l a b m : hd_error l = Some a -> hd_error (rev l) = Some b -> midpoint l = m ->
  m = (a + b) / 2.
Proof.
  intros Ha Hb <-. unfold midpoint.
  assert (hd 0 l = a) by (destruct l; cbn in *; congruence).
  assert (last l 0 = b).
  { destruct (rev l) as [|x r] eqn:E; [discriminate|]. cbn in Hb. injection Hb as ->.
    assert (l = (rev r ++ [b])%list) by (rewrite <- (rev_involutive l), E; reflexivity).
    subst l. apply last_last. }
  rewrite H, H0. lra.
Qed.

(** ** argument checks *)
Lemma check_args_iff {T U} (t : pyarr T) (u : pyarr U) (v : option (pyarr U)) lat :
  check_args t u v lat = Ok tt <->
  lat <> None /\ exists n, arr_shape t = Ok [n] /\ arr_shape u = Ok [n] /\
    (v = None \/ exists v', v = Some v' /\ arr_shape v' = Ok [n]).
Proof.
  unfold check_args. split.
  - destruct lat; [|discriminate]. intros H. inv_bind H. inv_bind H. split; [discriminate|].
    unfold shape_eqb in H. destruct (list_eq_dec Nat.eq_dec a a0) as [->|]; [|discriminate]. cbn in H.
    destruct a0 as [|n [|? ?]]; try discriminate. cbn in H. exists n. split; auto. split; auto.
    destruct v as [v|]; auto. right. exists v. split; auto. inv_bind H. rewrite Ha1.
    destruct (list_eq_dec Nat.eq_dec a [n]) as [->|]; [auto|discriminate].
  - intros (Hl & n & -> & -> & Hv). destruct lat; [|congruence]. cbn [bind].
    assert (Sh : shape_eqb [n] [n] = true) by (unfold shape_eqb; destruct (list_eq_dec _ _ _); congruence).
    rewrite Sh. cbn. destruct Hv as [->|(v' & -> & ->)]; auto. cbn [bind]. now rewrite Sh.
Qed.

Lemma check_args_err {T U} st (dt : T) mt su (du : U) mu v lat :
  match v with Some (PyList _) => False | _ => True end ->
  (lat = None \/ length st <> 1%nat \/ length su <> 1%nat \/ st <> su \/
   exists sv dv mv, v = Some (NdArr sv dv mv) /\ sv <> su) ->
  check_args (NdArr st dt mt) (NdArr su du mu) v lat = Err ValueError.
Proof.
  intros Hp H. unfold check_args. destruct lat; auto. cbn [arr_shape bind].
  unfold shape_eqb. destruct (list_eq_dec Nat.eq_dec st su) as [<-|]; auto. cbn [negb orb].
  destruct (Nat.eqb_spec (length st) 1); cbn [negb orb]; auto.
  destruct H as [H|[H|[H|[H|(sv & dv & mv & -> & H)]]]]; try congruence.
  cbn [arr_shape bind]. destruct (list_eq_dec Nat.eq_dec sv st); [congruence|reflexivity].
Qed.

Lemma solve_bad_args L t u v lat opts compat e : process_opts opts (is2d v) = Ok compat ->
  check_args t u v lat = Err e -> solve L t u v lat opts = Err e.
Proof.
  intros Hp Hc. unfold solve. fold (is2d v). rewrite Hp. cbn [bind]. unfold solv1, slvinit. now rewrite Hc.
Qed.

Lemma solve_good_args L t u v lat opts c : solve L t u v lat opts = Ok c -> check_args t u v lat = Ok tt.
Proof.
  intros H. destruct (solve_inv _ _ _ _ _ _ _ H) as
    [(compat & si & la & o & s & B & xraw & m & W & c1 & c2 & P1 & P2 & _)].
  unfold slvinit in P2. inv_bind P2. now destruct a.
Qed.

Lemma solve_lists L t u v lat opts compat : process_opts opts (is2d v) = Ok compat -> lat <> None ->
  (exists d, t = PyList d) \/ ((exists s d m, t = NdArr s d m) /\ exists d, u = PyList d) ->
  solve L t u v lat opts = Err AttributeError.
Proof.
  intros Hp Hl H. eapply solve_bad_args; [exact Hp|]. unfold check_args. destruct lat; [|congruence].
  destruct H as [[d ->]|[(s & d & m & ->) [d' ->]]]; reflexivity.
Qed.

(** ** observable consequences for the result *)
Lemma fit_ols_weights L t u v tref lor la o s B xraw m W : o_method o = PStr "ols" ->
  fit L t u v tref lor la o s = Ok (B, xraw, m, W) -> W = map (fun _ => Fin 1) t /\ xraw = raw_data u v.
Proof.
  intros Hm H. unfold fit in H. inv_bind H. destruct (finite_mat a); [|discriminate].
  rewrite Hm in H. cbn in H. inv_bind H. destruct a0 as [[[m' r] rk] sv]. injection H as <- <- <- <-. auto.
Qed.

Lemma weights_count_scalar L n t mt us um lat opts c xs : unique_keys opts -> one_d n us um ->
  normalize_time (l_parse L) t (o_epoch (c_opt c)) = Ok xs -> length xs = n ->
  setting opts "method" (PStr "ols") ->
  solve L (NdArr [n] t mt) (NdArr [n] us um) None lat opts = Ok c ->
  length (c_weights c) = length (valid_scalar xs us um).
Proof.
  intros Hu H1 Hn Hl Hm Hc. assert (Ho := set_method L _ _ _ _ _ Hu c Hc _ Hm).
  destruct (solve_slv _ _ _ _ _ _ _ Hu Hc) as (si & la & -> & Hs & _ & _ & _ & s & B & xraw & m & W & _ & Hf & ->).
  destruct (fit_ols_weights _ _ _ _ _ _ _ _ _ _ _ _ _ Ho Hf) as [-> _].
  destruct (fitted_scalar _ _ _ _ _ _ _ _ _ _ H1 Hn Hl Hs) as (_ & -> & _). now rewrite !map_length.
Qed.

Lemma equi_lemma L t u v lat opts c xs : unique_keys opts -> solve L t u v lat opts = Ok c ->
  normalize_time (l_parse L) (arr_data t) (o_epoch (c_opt c)) = Ok xs ->
  (2 <= length (valid_times xs))%nat ->
  (forall a b, In a (steps (valid_times xs)) -> In b (steps (valid_times xs)) -> a - b < 2 / 2 ^ 26) ->
  o_equi (c_opt c) = true.
Proof.
  intros Hu Hc Hn Hl Hd. destruct (solve_slv _ _ _ _ _ _ _ Hu Hc) as (si & la & -> & Hs & _ & _ & -> & _).
  destruct (slvinit_times _ _ _ _ _ _ _ Hs) as (xs' & Hn' & Ht). rewrite Hn in Hn'. injection Hn' as <-.
  assert (E : si_equi si = equi_of (si_tin si)).
  { unfold slvinit in Hs. inv_bind Hs. inv_bind Hs.
    match type of Hs with slv_core ?a ?b ?c = _ => destruct (clean a b c) as [[[T x1] x2] x3] eqn:C end.
    destruct (slv_core_fields _ _ _ _ _ _ _ _ C Hs) as (A1 & _ & _ & _ & A2 & _). congruence. }
  rewrite E, Ht. apply equi_close; auto.
Qed.

Lemma reftime_lemma L t u v lat opts c xs : unique_keys opts -> solve L t u v lat opts = Ok c ->
  normalize_time (l_parse L) (arr_data t) (o_epoch (c_opt c)) = Ok xs -> o_equi (c_opt c) = true ->
  exists a b, hd_error (valid_times xs) = Some a /\ hd_error (rev (valid_times xs)) = Some b /\
    c_reftime c = (a + b) / 2.
Proof.
  intros Hu Hc Hn He. destruct (solve_slv _ _ _ _ _ _ _ Hu Hc) as (si & la & -> & Hs & -> & _ & Heq & _).
  destruct (slvinit_times _ _ _ _ _ _ _ Hs) as (xs' & Hn' & Ht). rewrite Hn in Hn'. injection Hn' as <-.
  change (flat_map _ xs) with (valid_times xs) in Ht. rewrite He in Heq.
  unfold slvinit in Hs. inv_bind Hs. inv_bind Hs.
  match type of Hs with slv_core ?a ?b ?c = _ => destruct (clean a b c) as [[[T x1] x2] x3] eqn:C end.
  destruct (slv_core_fields _ _ _ _ _ _ _ _ C Hs) as (A1 & _ & _ & _ & A2 & A3 & A4 & _).
  rewrite <- A2, <- Heq in A3, A4. rewrite <- A1, Ht in A3, A4.
  destruct (valid_times xs) as [|x l] eqn:E; [discriminate|].
  assert (E2 : exists b, hd_error (rev (x :: l)) = Some b).
  { destruct (rev (x :: l)) as [|y r] eqn:Er; [|exists y; reflexivity].
    apply (f_equal (@length R)) in Er. rewrite rev_length in Er. discriminate. }
  destruct E2 as [b Hb]. exists x, b. split; auto. split; auto.
  apply (midpoint_spec (x :: l) x b); [reflexivity|exact Hb|]. now symmetry.
Qed.

Lemma blanking_lemma L t u v u' v' lat opts c c' : unique_keys opts ->
  is2d v = is2d v' ->
  solve L t u v lat opts = Ok c -> solve L t u' v' lat opts = Ok c' ->
  o_equi (c_opt c) = o_equi (c_opt c') /\
  (o_equi (c_opt c) = true -> c_reftime c = c_reftime c' /\
     c_nNR c = c_nNR c' /\ c_nR c = c_nR c' /\ c_nI c = c_nI c').
Proof.
  intros Hu H2 Hc Hc'.
  destruct (solve_inv _ _ _ _ _ _ _ Hc) as
    [(compat & si & la & o & s & B & xraw & m & W & c1 & c2 & P1 & P2 & -> & P4 & P5 & P6 & P7 & P8 & P9)].
  destruct (solve_inv _ _ _ _ _ _ _ Hc') as
    [(compat' & si' & la' & o' & s' & B' & xraw' & m' & W' & c1' & c2' & Q1 & Q2 & Q3 & Q4 & Q5 & Q6 & Q7 & Q8 & Q9)].
  injection Q3 as <-. rewrite <- H2 in Q1. rewrite P1 in Q1. injection Q1 as <-.
  assert (SB := solve_base _ _ _ _ _ _ _ _ _ _ _ _ P7 P8 P9).
  assert (SB' := solve_base _ _ _ _ _ _ _ _ _ _ _ _ Q7 Q8 Q9).
  destruct (slvinit_tin_indep _ _ _ _ _ _ _ _ _ _ _ P2 Q2) as (T1 & T2 & T3).
  rewrite <- H2, <- T2, P4 in Q4. injection Q4 as <-.
  assert (Ho : c_opt c = o) by (rewrite (sb_opt _ _ SB); reflexivity).
  assert (Ho' : c_opt c' = o) by (rewrite (sb_opt _ _ SB'); reflexivity).
  assert (Heq : o_equi o = si_equi si).
  { destruct (used_options opts (is2d v) (si_equi si) Hu compat o P1 P4) as (_ & _ & _ & E & _). exact E. }
  rewrite Ho, Ho'. split; auto. rewrite Heq. intros E. destruct (T3 E) as (R1 & R2 & R3).
  rewrite <- R1, <- R2, P5 in Q5. injection Q5 as <-. split.
  { rewrite (sb_reftime _ _ SB), (sb_reftime _ _ SB'). exact R1. }
  rewrite (sb_nNR _ _ SB), (sb_nR _ _ SB), (sb_nI _ _ SB), (sb_nNR _ _ SB'), (sb_nR _ _ SB'), (sb_nI _ _ SB').
  repeat split.
Qed.

Lemma slvinit_ok parse t u v lat e xs T t' u' v' : check_args t u v lat = Ok tt ->
  normalize_time parse (arr_data t) e = Ok xs ->
  clean (masked_invalid xs []) (masked_invalid (arr_data u) (arr_mask u))
        (option_map (fun v => masked_invalid (arr_data v) (arr_mask v)) v) = (T, t', u', v') ->
  T <> [] -> t' <> [] -> exists si, slvinit parse t u v lat e = Ok si.
Proof.
  intros Hc Hn Hcl HT Ht. unfold slvinit. rewrite Hc. cbn [bind]. rewrite Hn. cbn [bind]. unfold slv_core. rewrite Hcl.
  destruct (equi_of T); [destruct T|destruct t']; try congruence; cbn [ptp bind]; eauto.
Qed.

Lemma elor_val T n : (2 <= n)%nat -> elor_of T n = Fin (T / INR (n - 1) * INR n).
Proof.
  intros N. unfold elor_of, xdiv. assert (1 < INR n) by (apply (lt_INR 1); lia).
  destruct (Req_EM_T (INR n - 1) 0) as [E|E]; [lra|]. f_equal. rewrite minus_INR by lia. cbn [INR]. field. exact E.
Qed.

Lemma base_lemma parse n t mt us um lat e si xs : one_d n us um ->
  normalize_time parse t e = Ok xs -> length xs = n ->
  slvinit parse (NdArr [n] t mt) (NdArr [n] us um) None lat e = Ok si ->
  let base := if si_equi si then valid_times xs else map fst (valid_scalar xs us um) in
  exists first last lo hi,
    hd_error base = Some first /\ hd_error (rev base) = Some last /\
    In lo base /\ In hi base /\ (forall x, In x base -> lo <= x <= hi) /\
    si_tref si = (first + last) / 2 /\ si_lor si = hi - lo /\
    ((2 <= length base)%nat -> si_elor si = Fin ((hi - lo) / INR (length base - 1) * INR (length base))).
Proof.
  intros Ho Hn Hl Hs. destruct (fitted_scalar _ _ _ _ _ _ _ _ _ _ Ho Hn Hl Hs) as (_ & Ft & _ & FT).
  unfold slvinit in Hs. inv_bind Hs. inv_bind Hs.
  match type of Hs with slv_core ?a ?b ?c = _ => destruct (clean a b c) as [[[T x1] x2] x3] eqn:C end.
  destruct (slv_core_fields _ _ _ _ _ _ _ _ C Hs) as (A1 & A1' & _ & _ & A2 & A3 & A4 & A5).
  rewrite <- A2 in A3, A4, A5. rewrite <- A1, <- A1', FT, Ft in A3, A4, A5. cbv zeta.
  set (base := if si_equi si then valid_times xs else map fst (valid_scalar xs us um)) in *. clearbody base.
  destruct (ptp_spec _ _ A3) as (lo & hi & L1 & L2 & L3 & L4).
  destruct base as [|x l]; [discriminate|].
  assert (E2 : exists b, hd_error (rev (x :: l)) = Some b).
  { destruct (rev (x :: l)) as [|y r] eqn:Er; [|exists y; reflexivity].
    apply (f_equal (@length R)) in Er. rewrite rev_length in Er. discriminate. }
  destruct E2 as [b Hb]. exists x, b, lo, hi. repeat split; auto; try (now apply L3).
  - apply (midpoint_spec (x :: l) x b); [reflexivity|exact Hb|]. now symmetry.
  - intros N. rewrite A5, L4. now apply elor_val.
Qed.

Lemma base_lemma_vector parse n t mt us um vs vm lat e si xs : one_d n us um -> one_d n vs vm ->
  normalize_time parse t e = Ok xs -> length xs = n ->
  slvinit parse (NdArr [n] t mt) (NdArr [n] us um) (Some (NdArr [n] vs vm)) lat e = Ok si ->
  let base := if si_equi si then valid_times xs else map (fun s => fst (fst s)) (valid_vector xs us um vs vm) in
  exists first last lo hi,
    hd_error base = Some first /\ hd_error (rev base) = Some last /\
    In lo base /\ In hi base /\ (forall x, In x base -> lo <= x <= hi) /\
    si_tref si = (first + last) / 2 /\ si_lor si = hi - lo /\
    ((2 <= length base)%nat -> si_elor si = Fin ((hi - lo) / INR (length base - 1) * INR (length base))).
Proof.
  intros Ho Ho' Hn Hl Hs. destruct (fitted_vector _ _ _ _ _ _ _ _ _ _ _ _ Ho Ho' Hn Hl Hs) as (Ft & _ & _ & FT).
  unfold slvinit in Hs. inv_bind Hs. inv_bind Hs.
  match type of Hs with slv_core ?a ?b ?c = _ => destruct (clean a b c) as [[[T x1] x2] x3] eqn:C end.
  destruct (slv_core_fields _ _ _ _ _ _ _ _ C Hs) as (A1 & A1' & _ & _ & A2 & A3 & A4 & A5).
  rewrite <- A2 in A3, A4, A5. rewrite <- A1, <- A1', FT, Ft in A3, A4, A5. cbv zeta.
  set (base := if si_equi si then valid_times xs else map (fun s => fst (fst s)) (valid_vector xs us um vs vm)) in *.
  clearbody base.
  destruct (ptp_spec _ _ A3) as (lo & hi & L1 & L2 & L3 & L4).
  destruct base as [|x l]; [discriminate|].
  assert (E2 : exists b, hd_error (rev (x :: l)) = Some b).
  { destruct (rev (x :: l)) as [|y r] eqn:Er; [|exists y; reflexivity].
    apply (f_equal (@length R)) in Er. rewrite rev_length in Er. discriminate. }
  destruct E2 as [b Hb]. exists x, b, lo, hi. repeat split; auto; try (now apply L3).
  - apply (midpoint_spec (x :: l) x b); [reflexivity|exact Hb|]. now symmetry.
  - intros N. rewrite A5, L4. now apply elor_val.
Qed.

(** ** concrete records *)
Lemma example_scalar : exists si,
  slvinit (fun _ => None) (NdArr [4%nat] (TNum [Fin 1; Fin 2; NaN; Fin 4]) [])
    (NdArr [4%nat] [Fin 5; Fin 6; Fin 7; Fin 8] [false; true; false; false]) None (Some 45) (PStr "python") = Ok si /\
  si_t si = [1; 4] /\ si_u si = [5; 8].
Proof.
  destruct (slvinit_ok (fun _ => None) (NdArr [4%nat] (TNum [Fin 1; Fin 2; NaN; Fin 4]) [])
    (NdArr [4%nat] [Fin 5; Fin 6; Fin 7; Fin 8] [false; true; false; false]) None (Some 45) (PStr "python")
    [Fin 1; Fin 2; NaN; Fin 4] [1; 2; 4] [1; 4] [5; 8] None) as [si Hs]; try reflexivity; try discriminate.
  exists si. split; auto.
  destruct ((fun O N E => fitted_scalar _ _ _ _ _ _ _ _ _ [Fin 1; Fin 2; NaN; Fin 4] O N E Hs) (conj eq_refl (or_intror eq_refl)) eq_refl eq_refl) as (_ & -> & -> & _).
  split; reflexivity.
Qed.

Lemma example_vector : exists si,
  slvinit (fun _ => None) (NdArr [3%nat] (TNum [Fin 1; Fin 2; Fin 4]) [])
    (NdArr [3%nat] [Fin 5; Fin 6; Fin 7] []) (Some (NdArr [3%nat] [Fin 5; NaN; Fin 9] [])) (Some 45) (PStr "python") = Ok si /\
  si_t si = [1; 4] /\ si_u si = [5; 7] /\ si_v si = Some [5; 9].
Proof.
  destruct (slvinit_ok (fun _ => None) (NdArr [3%nat] (TNum [Fin 1; Fin 2; Fin 4]) [])
    (NdArr [3%nat] [Fin 5; Fin 6; Fin 7] []) (Some (NdArr [3%nat] [Fin 5; NaN; Fin 9] [])) (Some 45) (PStr "python")
    [Fin 1; Fin 2; Fin 4] [1; 2; 4] [1; 4] [5; 7] (Some [5; 9])) as [si Hs]; try reflexivity; try discriminate.
  exists si. split; auto.
  destruct ((fun O O' N E => fitted_vector _ _ _ _ _ _ _ _ _ _ _ [Fin 1; Fin 2; Fin 4] O O' N E Hs)
    (conj eq_refl (or_introl eq_refl)) (conj eq_refl (or_introl eq_refl)) eq_refl eq_refl) as (-> & -> & -> & _).
  repeat split.
Qed.

(** a masked time with valid data is fitted *)
Lemma example_masked_time : exists si,
  slvinit (fun _ => None) (NdArr [2%nat] (TNum [Fin 1; Fin 2]) [false; true])
    (NdArr [2%nat] [Fin 5; Fin 6] []) None (Some 45) (PStr "python") = Ok si /\ si_t si = [1; 2].
Proof.
  destruct (slvinit_ok (fun _ => None) (NdArr [2%nat] (TNum [Fin 1; Fin 2]) [false; true])
    (NdArr [2%nat] [Fin 5; Fin 6] []) None (Some 45) (PStr "python")
    [Fin 1; Fin 2] [1; 2] [1; 2] [5; 6] None) as [si Hs]; try reflexivity; try discriminate.
  exists si. split; auto.
  destruct ((fun O N E => fitted_scalar _ _ _ _ _ _ _ _ _ [Fin 1; Fin 2] O N E Hs) (conj eq_refl (or_introl eq_refl)) eq_refl eq_refl) as (_ & -> & _ & _).
  reflexivity.
Qed.

Lemma masked_times_refuted : ~ (forall parse n t mt us um lat e si xs i x,
  slvinit parse (NdArr [n] t mt) (NdArr [n] us um) None lat e = Ok si ->
  normalize_time parse t e = Ok xs -> nth i mt false = true -> nth_error xs i = Some (Fin x) ->
  (forall j, nth_error xs j = Some (Fin x) -> j = i) -> ~ In x (si_t si)).
Proof.
  intros H. destruct example_masked_time as (si & Hs & Ht).
  apply (H _ _ _ _ _ _ _ _ si [Fin 1; Fin 2] 1%nat 2 Hs eq_refl eq_refl eq_refl).
  - intros [|[|[|j]]]; cbn; intros E; try discriminate; auto. injection E. lra.
  - rewrite Ht. cbn. auto.
Qed.

Lemma equi_lemma_slv parse t u v lat e si xs : slvinit parse t u v lat e = Ok si ->
  normalize_time parse (arr_data t) e = Ok xs ->
  (2 <= length (valid_times xs))%nat ->
  (forall a b, In a (steps (valid_times xs)) -> In b (steps (valid_times xs)) -> a - b < 2 / 2 ^ 26) ->
  si_equi si = true.
Proof.
  intros Hs Hn Hl Hd.
  destruct (slvinit_times _ _ _ _ _ _ _ Hs) as (xs' & Hn' & Ht). rewrite Hn in Hn'. injection Hn' as <-.
  assert (E : si_equi si = equi_of (si_tin si)).
  { unfold slvinit in Hs. inv_bind Hs. inv_bind Hs.
    match type of Hs with slv_core ?a ?b ?c = _ => destruct (clean a b c) as [[[T x1] x2] x3] eqn:C end.
    destruct (slv_core_fields _ _ _ _ _ _ _ _ C Hs) as (A1 & _ & _ & _ & A2 & _). congruence. }
  rewrite E, Ht. apply equi_close; auto.
Qed.

Lemma equi_conv_solve L t u v lat opts c xs : unique_keys opts -> solve L t u v lat opts = Ok c ->
  normalize_time (l_parse L) (arr_data t) (o_epoch (c_opt c)) = Ok xs -> o_equi (c_opt c) = true ->
  exists mu k, (1 <= k <= length (steps (valid_times xs)))%nat /\
    forall a, In a (steps (valid_times xs)) -> (a - mu) * (a - mu) < INR k / 2 ^ 52.
Proof.
  intros Hu Hc Hn He. destruct (solve_slv _ _ _ _ _ _ _ Hu Hc) as (si & la & -> & Hs & _ & _ & Heq & _).
  destruct (slvinit_times _ _ _ _ _ _ _ Hs) as (xs' & Hn' & Ht). rewrite Hn in Hn'. injection Hn' as <-.
  change (flat_map _ xs) with (valid_times xs) in Ht. rewrite He in Heq.
  unfold slvinit in Hs. inv_bind Hs. inv_bind Hs.
  match type of Hs with slv_core ?a ?b ?c = _ => destruct (clean a b c) as [[[T x1] x2] x3] eqn:C end.
  destruct (slv_core_fields _ _ _ _ _ _ _ _ C Hs) as (A1 & _ & _ & _ & A2 & _).
  apply equi_conv. rewrite <- Ht. congruence.
Qed.

Lemma solve_fit_lemma L t u v lat opts c : unique_keys opts -> solve L t u v lat opts = Ok c ->
  exists si la s B xraw m W, lat = Some la /\
    slvinit (l_parse L) t u v lat (o_epoch (c_opt c)) = Ok si /\
    fit L (si_t si) (si_u si) (si_v si) (si_tref si) (si_lor si) la (c_opt c) s = Ok (B, xraw, m, W) /\
    c_weights c = W.
Proof.
  intros Hu Hc. destruct (solve_slv _ _ _ _ _ _ _ Hu Hc) as (si & la & Hl & Hs & _ & _ & _ & s & B & xraw & m & W & _ & Hf & Hw).
  exists si, la, s, B, xraw, m, W. auto.
Qed.

Lemma drop_example :
  drop_time 1 (TNum [Fin 1; NaN; Fin 4]) (TNum [Fin 1; Fin 4]) /\
  drops 1 [Fin 5; Fin 6; Fin 7] [Fin 5; Fin 7] /\ drops_mask 1 [false; false; true] [false; true] /\
  time_len (TNum [Fin 1; NaN; Fin 4]) = 3%nat.
Proof.
  split; [|split; [|split; [|reflexivity]]].
  - apply (drop_number 1 NaN [Fin 1] [Fin 4]); [reflexivity|discriminate].
  - exists [Fin 5], (Fin 6), [Fin 7]. auto.
  - right. exists [false], false, [true]. auto.
Qed.

Lemma steps_example a b : In a (steps [0; / 24; / 24 + / 24]) -> In b (steps [0; / 24; / 24 + / 24]) ->
  a - b < 2 / 2 ^ 26.
Proof.
  assert (0 < 2 / 2 ^ 26) by (apply Rdiv_lt_0_compat; [lra|apply pow_lt; lra]).
  cbn -[pow]. intros [<-|[<-|[]]] [<-|[<-|[]]]; lra.
Qed.
