(** The model matrix row by row, and the model as a sum over constituents. *)
From Coq Require Import Lia Lra Permutation.
From Verif Require Import M_Base M_Lib M_Tables M_Const M_Options M_Time M_Slvinit M_Harmonics M_Select M_Ellipse
  M_Robust M_Period M_Conf M_Diag M_Solve S_Dict S_Options S_Order S_Basis S_Select S_Fit
  L_Base L_SolveInv L_Order L_Select L_Fit L_Align L_Basis.
Open Scope R_scope.

(** ** rows *)
Lemma hcat_maps {A B} (f : B -> list A) (c : B -> A) l : hcat (map f l) (map c l) = map (fun x => f x ++ [c x])%list l.
Proof. unfold hcat. induction l as [|x l IH]; cbn; auto. now f_equal. Qed.
Lemma hcats_maps {A B D} (c : D -> B -> A) Rs l : forall (f : B -> list A),
  fold_left hcat (map (fun r => map (c r) l) Rs) (map f l) = map (fun x => f x ++ map (fun r => c r x) Rs)%list l.
Proof.
  induction Rs as [|r Rs IH]; intros f; cbn [map fold_left].
  - apply map_ext. intros x. now rewrite app_nil_r.
  - rewrite hcat_maps, IH. apply map_ext. intros x. now rewrite <- app_assoc.
Qed.
Lemma combine_maps {A B D} (f : A -> B) (g : A -> D) l : combine (map f l) (map g l) = map (fun x => (f x, g x)) l.
Proof. induction l; cbn; auto. now f_equal. Qed.

(** entries of the reference columns, from the basis functions e of one time *)
Definition ref_p (ap : bool) (e : nat -> option C) (r : refstruct) : option C :=
  if ap then e (r_lind r) else etil_p (e (r_lind r)) (map e (r_Ilind r)) (r_Rp r).
Definition ref_m (ap : bool) (e : nat -> option C) (r : refstruct) : option C :=
  if ap then e (r_lind r) else etil_m (e (r_lind r)) (map e (r_Ilind r)) (r_Rm r).

Definition trend_entry (tref lor x : R) : option C :=
  if Req_EM_T lor 0 then None else Some (RtoC ((x - tref) / lor)).

Definition model_row (ap trend : bool) (e : nat -> option C) (te : option C) (s : sel) : list (option C) :=
  (((map e (s_NRlind s) ++ map oconj (map e (s_NRlind s))) ++ map (ref_p ap e) (s_R s)) ++
    map (fun r => oconj (ref_m ap e r)) (s_R s) ++ [Some (RtoC 1)] ++ (if trend then [te] else []))%list.

Definition is_approx (o : optr) : bool := match o_infer o with Some inf => inf_approx inf | None => false end.

Record sel_lin (tref : R) (s : sel) : Prop := {
  sn_NR : s_NRfrq s = map (fun i => nth i (linearized_freqs tref) 0) (s_NRlind s);
  sn_R : forall r, In r (s_R s) -> r_frq r = nth (r_lind r) (linearized_freqs tref) 0 /\
    r_Ifrq r = map (fun i => nth i (linearized_freqs tref) 0) (r_Ilind r);
  sn_lind : s_lind s = (s_NRlind s ++ map r_lind (s_R s) ++ flat_map r_Ilind (s_R s))%list }.

Lemma in_mapM {A B} (f : A -> res B) l r y : mapM f l = Ok r -> In y r -> exists x, In x l /\ f x = Ok y.
Proof.
  revert r. induction l as [|a l IH]; cbn [mapM]; intros r H Hy.
  - apply Ok_inj in H. subst r. destruct Hy.
  - inv_bind H. inv_bind H. apply Ok_inj in H. subst r. destruct Hy as [<-|Hy]; [exists a; split; auto; now left|].
    destruct (IH _ Ha0 Hy) as (x & X1 & X2). exists x. split; auto. now right.
Qed.

Lemma map_one {A B} (f : A -> B) a b : [b] = map f [a] -> b = f a.
Proof. intros H. now injection H. Qed.

Lemma sel_lin_ok tref mr inc inf s : ut_cnstitsel tref mr inc inf = Ok s -> sel_lin tref s.
Proof.
  destruct inf as [inf|]; intros H.
  - apply sel_infer in H. constructor; [apply (sl_NRal _ _ _ _ _ H)| |apply H].
    intros r Hr. destruct (in_mapM _ _ _ _ (sl_R _ _ _ _ _ H) Hr) as (n & _ & Hn).
    destruct (one_ref_spec _ _ _ _ _ Hn) as (_ & [_ A] & [_ B] & _). split; [|exact B].
    exact (map_one _ _ _ A).
  - apply sel_none in H. destruct H as (_ & A & R0 & _ & _ & El & _). constructor; rewrite ?R0.
    + apply A.
    + intros r [].
    + cbn. now rewrite app_nil_r, El.
Qed.

Lemma ref_columns_eq t tref lat g ap r a b :
  r_frq r = nth (r_lind r) (linearized_freqs tref) 0 ->
  r_Ifrq r = map (fun i => nth i (linearized_freqs tref) 0) (r_Ilind r) ->
  ref_columns t tref lat g ap r = Ok (a, b) ->
  a = map (fun x => ref_p ap (basis_at g tref lat x) r) t /\ b = map (fun x => ref_m ap (basis_at g tref lat x) r) t.
Proof.
  intros H1 H2. unfold ref_columns.
  assert (E1 : first_col None (ut_E t tref [r_frq r] [r_lind r] lat g) = map (fun x => basis_at g tref lat x (r_lind r)) t).
  { rewrite H1. change [nth (r_lind r) (linearized_freqs tref) 0] with (map (fun i => nth i (linearized_freqs tref) 0) [r_lind r]).
    rewrite ut_E_rows. unfold first_col. rewrite map_map. reflexivity. }
  rewrite E1. clear E1. destruct ap.
  - destruct (Nat.eqb _ _); [|discriminate]. intros H. apply Ok_inj in H. inversion H. subst. split; reflexivity.
  - rewrite H2, ut_E_rows, combine_maps, !map_map. intros H. apply Ok_inj in H. inversion H. subst. split; reflexivity.
Qed.

Lemma basis_rows t tref lor lat o s B : sel_lin tref s -> (o_infer o = None -> s_R s = []) ->
  basis t tref lor lat o s = Ok B ->
  B = map (fun x => model_row (is_approx o) (negb (o_notrend o)) (basis_at (flags_of o) tref lat x) (trend_entry tref lor x) s) t.
Proof.
  intros SL Hn. unfold basis. destruct (bad_empty_index _ _); [discriminate|]. intros H. inv_bind H.
  assert (E0 : map (fun r => r ++ map oconj r)%list (ut_E t tref (s_NRfrq s) (s_NRlind s) lat (flags_of o)) =
    map (fun x => map (basis_at (flags_of o) tref lat x) (s_NRlind s) ++
      map oconj (map (basis_at (flags_of o) tref lat x) (s_NRlind s)))%list t).
  { rewrite (sn_NR _ _ SL), ut_E_rows, map_map. reflexivity. }
  rewrite E0 in Ha. clear E0.
  assert (E1 : a = map (fun x => ((map (basis_at (flags_of o) tref lat x) (s_NRlind s) ++
      map oconj (map (basis_at (flags_of o) tref lat x) (s_NRlind s))) ++
      map (ref_p (is_approx o) (basis_at (flags_of o) tref lat x)) (s_R s)) ++
      map (fun r => oconj (ref_m (is_approx o) (basis_at (flags_of o) tref lat x) r)) (s_R s))%list t).
  { unfold is_approx. destruct (o_infer o) as [inf|].
    - inv_bind Ha. apply Ok_inj in Ha. subst a.
      assert (C : map fst a0 = map (fun r => map (fun x => ref_p (inf_approx inf) (basis_at (flags_of o) tref lat x) r) t) (s_R s) /\
        map (fun c => map oconj (snd c)) a0 =
        map (fun r => map (fun x => oconj (ref_m (inf_approx inf) (basis_at (flags_of o) tref lat x) r)) t) (s_R s)).
      { assert (Hr := sn_R _ _ SL). clear H. revert a0 Ha0 Hr. generalize (s_R s). induction l as [|r l IH]; cbn [mapM]; intros cols H1 Hr.
        - apply Ok_inj in H1. subst cols. split; reflexivity.
        - inv_bind H1. inv_bind H1. apply Ok_inj in H1. subst cols. destruct a as [p q].
          destruct (Hr r (or_introl eq_refl)) as [F1 F2].
          destruct (ref_columns_eq _ _ _ _ _ _ _ _ F1 F2 Ha) as [-> ->].
          destruct (IH a0 Ha0 (fun q Hq => Hr q (or_intror Hq))) as [I1 I2]. cbn [map fst snd]. rewrite I1, I2, map_map. split; reflexivity. }
      destruct C as [-> ->]. rewrite (hcats_maps (fun r x => ref_p (inf_approx inf) (basis_at (flags_of o) tref lat x) r)).
      rewrite (hcats_maps (fun r x => oconj (ref_m (inf_approx inf) (basis_at (flags_of o) tref lat x) r))). reflexivity.
    - apply Ok_inj in Ha. subst a. rewrite Hn by reflexivity. cbn [map]. apply map_ext. intros x. now rewrite !app_nil_r. }
  clear Ha. subst a. apply Ok_inj in H. subst B. rewrite map_map. unfold model_row. destruct (o_notrend o); cbn [negb].
  - apply map_ext. intros x. now rewrite app_nil_r, <- !app_assoc.
  - change (map (fun x => if Req_EM_T lor 0 then None else Some (RtoC ((x - tref) / lor))) t) with (map (trend_entry tref lor) t).
    rewrite hcat_maps. apply map_ext. intros x. now rewrite <- !app_assoc.
Qed.

(** ** complex sums *)
Lemma csum_app a b : csum (a ++ b) = Cplus (csum a) (csum b).
Proof. unfold csum. induction a as [|x a IH]; cbn [app fold_right]; [now rewrite Cplus_0_l|]. rewrite IH. apply Cplus_assoc. Qed.
Lemma csum_map_plus {A} (f g : A -> C) l : csum (map (fun x => Cplus (f x) (g x)) l) = Cplus (csum (map f l)) (csum (map g l)).
Proof. unfold csum. induction l as [|x l IH]; cbn [map fold_right]; [now rewrite Cplus_0_l|]. rewrite IH. ring. Qed.
Lemma csum_map_scal {A} (f : A -> C) c l : csum (map (fun x => Cmult c (f x)) l) = Cmult c (csum (map f l)).
Proof. unfold csum. induction l as [|x l IH]; cbn [map fold_right]; [ring|]. rewrite IH. ring. Qed.
Lemma csum_perm a b : Permutation a b -> csum a = csum b.
Proof. unfold csum. induction 1; cbn [fold_right]; try congruence. ring. Qed.
Lemma cdot_app a b c d : length a = length c -> cdot (a ++ b) (c ++ d) = Cplus (cdot a c) (cdot b d).
Proof.
  unfold cdot. revert c. induction a as [|x a IH]; intros [|y c] H; try discriminate.
  - cbn [app]. cbn [combine map csum fold_right]. now rewrite Cplus_0_l.
  - cbn [app combine map csum fold_right fst snd] in *. unfold csum in IH. rewrite IH by now injection H. apply Cplus_assoc.
Qed.
Lemma cdot_one x y : cdot [x] [y] = Cmult x y.
Proof. unfold cdot. cbn. ring. Qed.
Lemma cdot_nil_l b : cdot [] b = RtoC 0. Proof. reflexivity. Qed.

(** the sum of p e + q conj e *)
Definition hsum (es : list C) (pq : list (C * C)) : C :=
  csum (map (fun z => Cplus (Cmult (fst z) (fst (snd z))) (Cmult (Cconj (fst z)) (snd (snd z)))) (combine es pq)).
Lemma combine_app {A B} (a : list A) (b : list B) c d : length a = length b ->
  combine (a ++ c) (b ++ d) = (combine a b ++ combine c d)%list.
Proof. revert b. induction a as [|x a IH]; intros [|y b] H; try discriminate; cbn; auto. f_equal. apply IH. now injection H. Qed.
Lemma hsum_app a b c d : length a = length c -> hsum (a ++ b) (c ++ d) = Cplus (hsum a c) (hsum b d).
Proof. intros H. unfold hsum. now rewrite combine_app, map_app, csum_app. Qed.
Lemma hsum_split es a b : length es = length a -> length es = length b ->
  hsum es (combine a b) = Cplus (cdot es a) (cdot (map Cconj es) b).
Proof.
  revert a b. induction es as [|e es IH]; intros [|x a] [|y b] H1 H2; try discriminate.
  - unfold hsum, cdot. cbn. now rewrite Cplus_0_l.
  - unfold hsum, cdot in *. cbn [combine map csum fold_right fst snd] in *. unfold csum in *. rewrite IH by (cbn in *; lia). ring.
Qed.

(** ** exact inference: the column of a reference carries its inferred constituents *)
Lemma etil_p_sum e eI Rp z : length eI = length Rp -> etil_p e eI Rp = Some z ->
  exists e0 es, e = Some e0 /\ eI = map Some es /\ z = Cplus e0 (cdot es Rp).
Proof.
  unfold etil_p. intros Hl H. destruct e as [e|]; [|discriminate]. exists e.
  assert (G : forall w, ocsum (map (fun p => ocmul (ocdiv (fst p) (Some e)) (Some (snd p))) (combine eI Rp)) = Some w ->
     exists es, eI = map Some es /\ Cmult e w = cdot es Rp).
  { clear H z. revert Rp Hl. induction eI as [|[a|] eI IH]; intros [|r Rp] Hl w H; try discriminate.
    - injection H as <-. exists []. split; auto. unfold cdot. cbn. ring.
    - cbn [combine map ocsum fold_right fst snd ocdiv] in H. destruct (Ceq_dec e (RtoC 0)) as [Z|Z]; [discriminate|].
      cbn [ocmul] in H. fold (ocsum (map (fun p => ocmul (ocdiv (fst p) (Some e)) (Some (snd p))) (combine eI Rp))) in H.
      destruct (ocsum (map (fun p => ocmul (ocdiv (fst p) (Some e)) (Some (snd p))) (combine eI Rp))) as [w'|] eqn:Ew; [|discriminate].
      injection H as <-. destruct (IH Rp ltac:(now injection Hl) w' Ew) as (es & -> & E).
      exists (a :: es). split; auto. unfold cdot in *. cbn [combine map csum fold_right fst snd]. unfold csum in E. rewrite <- E. field. exact Z. }
  cbn [ocadd] in H. destruct (ocsum (map (fun p => ocmul (ocdiv (fst p) (Some e)) (Some (snd p))) (combine eI Rp))) as [w|] eqn:Ew; [|discriminate].
  cbn [ocmul] in H. injection H as <-. destruct (G w eq_refl) as (es & -> & E). exists es. split; auto. split; auto.
  rewrite <- E. ring.
Qed.
Lemma etil_m_conj e eI Rm : etil_m e eI Rm = etil_p e eI (map Cconj Rm).
Proof.
  unfold etil_m, etil_p. do 3 f_equal. revert Rm. induction eI as [|a eI IH]; intros [|r Rm]; cbn [combine map]; auto. now rewrite IH.
Qed.
Lemma cdot_conj a b : Cconj (cdot a b) = cdot (map Cconj a) (map Cconj b).
Proof.
  unfold cdot, csum. revert b. induction a as [|x a IH]; intros [|y b]; cbn [combine map fold_right fst snd];
    try (unfold Cconj, RtoC; cbn [fst snd]; now rewrite Ropp_0).
  rewrite <- IH. unfold Cconj, Cplus, Cmult. cbn [fst snd]. f_equal; ring.
Qed.
Lemma conj_conj z : Cconj (Cconj z) = z. Proof. unfold Cconj. cbn. destruct z. cbn. now rewrite Ropp_involutive. Qed.
Lemma map_conj_conj l : map Cconj (map Cconj l) = l.
Proof. rewrite map_map. transitivity (map (fun x => x) l); [|apply map_id]. apply map_ext. intros; apply conj_conj. Qed.
Lemma conj_plus a b : Cconj (Cplus a b) = Cplus (Cconj a) (Cconj b).
Proof. unfold Cconj, Cplus. cbn. f_equal; ring. Qed.

Lemma somes_inj {A} (a b : list A) : map Some a = map Some b -> a = b.
Proof. revert b. induction a; intros [|y b] H; try discriminate; auto. cbn in H. injection H as -> H. f_equal. auto. Qed.
Lemma map_Some_app {A} (l1 l2 : list (option A)) r : (l1 ++ l2)%list = map Some r ->
  exists r1 r2, r = (r1 ++ r2)%list /\ l1 = map Some r1 /\ l2 = map Some r2.
Proof.
  intros H. symmetry in H. apply map_eq_app in H. destruct H as (r1 & r2 & -> & <- & <-). eauto.
Qed.

(** a reference with its inferred constituents: columns times (p, q) = sum over reference and inferred *)
Lemma refs_sum (e : nat -> option C) Rs : (forall r, In r Rs -> length (r_Rp r) = length (r_Ilind r) /\ length (r_Rm r) = length (r_Ilind r)) ->
  forall zp zm p q, map (ref_p false e) Rs = map Some zp -> map (fun r => oconj (ref_m false e r)) Rs = map Some zm ->
  length p = length Rs -> length q = length Rs ->
  exists eR eI, map e (map r_lind Rs) = map Some eR /\ map e (flat_map r_Ilind Rs) = map Some eI /\
    Cplus (cdot zp p) (cdot zm q) =
    Cplus (hsum eR (combine p q)) (hsum eI (combine (inferred_coefs (map r_Rp Rs) p) (inferred_coefs (map r_Rm Rs) q))).
Proof.
  intros Hl. induction Rs as [|r Rs IH]; intros zp zm p q Hp Hm Lp Lq.
  - destruct zp, zm, p, q; try discriminate. exists [], []. split; [reflexivity|]. split; reflexivity.
  - destruct zp as [|zp0 zp], zm as [|zm0 zm], p as [|p0 p], q as [|q0 q]; try discriminate.
    cbn [map] in Hp, Hm. injection Hp as Hp0 Hp. injection Hm as Hm0 Hm. injection Lp as Lp. injection Lq as Lq.
    destruct (IH (fun r Hr => Hl r (or_intror Hr)) zp zm p q Hp Hm Lp Lq) as (eR & eI & E1 & E2 & E3).
    destruct (Hl r (or_introl eq_refl)) as [H1 H2].
    unfold ref_p in Hp0. unfold ref_m in Hm0. rewrite etil_m_conj in Hm0.
    destruct (etil_p_sum (e (r_lind r)) (map e (r_Ilind r)) (r_Rp r) zp0 ltac:(rewrite map_length; congruence) Hp0) as (e0 & es & F1 & F2 & F3).
    assert (Hm1 : exists z, etil_p (e (r_lind r)) (map e (r_Ilind r)) (map Cconj (r_Rm r)) = Some z /\ zm0 = Cconj z).
    { destruct (etil_p _ _ (map Cconj (r_Rm r))) as [z|]; [|discriminate]. cbn in Hm0. injection Hm0 as <-. eauto. }
    destruct Hm1 as (z & Hm1 & ->).
    destruct (etil_p_sum (e (r_lind r)) (map e (r_Ilind r)) (map Cconj (r_Rm r)) z ltac:(rewrite !map_length; congruence) Hm1) as (e0' & es' & G1 & G2 & G3).
    rewrite F1 in G1. injection G1 as <-. rewrite F2 in G2. apply somes_inj in G2. subst es'.
    exists (e0 :: eR), (es ++ eI)%list. split; [cbn [map]; now rewrite F1, E1|]. split; [cbn [flat_map]; now rewrite map_app, F2, E2, map_app|].
    assert (Les : length es = length (r_Ilind r)) by (rewrite <- (map_length Some es), <- F2; apply map_length).
    cbn [map]. unfold inferred_coefs. cbn [combine map List.concat fst snd].
    fold (inferred_coefs (map r_Rp Rs) p). fold (inferred_coefs (map r_Rm Rs) q).
    rewrite combine_app by (rewrite !map_length; congruence).
    rewrite hsum_app by (rewrite combine_length, !map_length; lia).
    rewrite hsum_split by (rewrite !map_length; congruence).
    assert (HS : forall a (c : C) l, hsum (e0 :: a) ((c, q0) :: l) =
      Cplus (Cplus (Cmult e0 c) (Cmult (Cconj e0) q0)) (hsum a l)) by reflexivity. rewrite HS. clear HS.
    assert (CS : forall a b x y, cdot (a :: x) (b :: y) = Cplus (Cmult a b) (cdot x y)) by reflexivity. rewrite !CS. clear CS.
    assert (SC : forall c a b, cdot a (map (fun r => Cmult r c) b) = Cmult (cdot a b) c).
    { intros c a. induction a as [|x a IHa]; intros [|y b]; cbn [map]; unfold cdot, csum in *; cbn [combine map fold_right fst snd];
        try (unfold Cmult, RtoC; cbn; f_equal; ring). rewrite IHa. ring. }
    rewrite !SC. subst zp0 z. rewrite conj_plus, cdot_conj, map_conj_conj.
    transitivity (Cplus (Cplus (Cmult (Cplus e0 (cdot es (r_Rp r))) p0) (Cmult (Cplus (Cconj e0) (cdot (map Cconj es) (r_Rm r))) q0))
      (Cplus (cdot zp p) (cdot zm q))); [ring|]. rewrite E3. ring.
Qed.

(** ** the vector of coefficients *)
Definition cat_m (tr : bool) (a b p q : list C) (mn sl : C) : list C :=
  (((a ++ b) ++ p) ++ q ++ [mn] ++ (if tr then [sl] else []))%list.
Lemma cat_m_len tr a b p q mn sl : length (cat_m tr a b p q mn sl) =
  (length a + length b + length p + length q + 1 + (if tr then 1 else 0))%nat.
Proof. unfold cat_m. rewrite !app_length. cbn [length]. destruct tr; cbn [length]; lia. Qed.
Lemma firstn_exact {A} (a b : list A) n : length a = n -> firstn n (a ++ b) = a.
Proof. intros <-. rewrite firstn_app, Nat.sub_diag, firstn_all. cbn. apply app_nil_r. Qed.
Lemma skipn_exact {A} (a b : list A) n : length a = n -> skipn n (a ++ b) = b.
Proof. intros <-. rewrite skipn_app, Nat.sub_diag, skipn_all. reflexivity. Qed.
Lemma split_at {A} (l : list A) n k : length l = (n + k)%nat -> exists a b, l = (a ++ b)%list /\ length a = n /\ length b = k.
Proof.
  intros H. exists (firstn n l), (skipn n l). split; [symmetry; apply firstn_skipn|]. rewrite firstn_length, skipn_length. lia.
Qed.
Lemma split_m (tr : bool) nNR nR (m : list C) : length m = (2 * (nNR + nR) + 1 + (if tr then 1 else 0))%nat -> exists (a b p q : list C) (mn sl : C),
  m = cat_m tr a b p q mn sl /\ length a = nNR /\ length b = nNR /\ length p = nR /\ length q = nR.
Proof.
  intros H. destruct (split_at m nNR (nNR + nR + nR + 1 + (if tr then 1 else 0))%nat ltac:(lia)) as (a & r1 & -> & La & H1).
  destruct (split_at r1 nNR (nR + nR + 1 + (if tr then 1 else 0))%nat ltac:(lia)) as (b & r2 & -> & Lb & H2).
  destruct (split_at r2 nR (nR + 1 + (if tr then 1 else 0))%nat ltac:(lia)) as (p & r3 & -> & Lp & H3).
  destruct (split_at r3 nR (1 + (if tr then 1 else 0))%nat ltac:(lia)) as (q & r4 & -> & Lq & H4).
  exists a, b, p, q. destruct tr.
  - destruct r4 as [|x [|y [|]]]; try discriminate. exists x, y. unfold cat_m. rewrite <- !app_assoc. auto.
  - destruct r4 as [|x [|]]; try discriminate. exists x, x. unfold cat_m. rewrite <- !app_assoc. auto.
Qed.
Lemma cat_ap tr a b p q mn sl nNR nR : length a = nNR -> length b = nNR -> length p = nR -> length q = nR ->
  ap_of (cat_m tr a b p q mn sl) nNR nR = (a ++ p)%list /\ am_of (cat_m tr a b p q mn sl) nNR nR = (b ++ q)%list.
Proof.
  intros La Lb Lp Lq. unfold ap_of, am_of, cslice, cat_m. rewrite <- !app_assoc. cbn [skipn]. split.
  - f_equal; [now apply firstn_exact|]. rewrite app_assoc. rewrite skipn_exact by (rewrite app_length; lia). now apply firstn_exact.
  - f_equal; [rewrite skipn_exact by auto; now apply firstn_exact|].
    rewrite app_assoc, (app_assoc (a ++ b)). rewrite skipn_exact by (rewrite !app_length; lia). now apply firstn_exact.
Qed.
Lemma nth_mid {A} (a b : list A) x d : nth (length a) (a ++ x :: b) d = x.
Proof. rewrite app_nth2, Nat.sub_diag by lia. reflexivity. Qed.
Lemma cat_last tr a b p q mn sl : m_last (cat_m tr a b p q mn sl) (if tr then 2 else 1)%nat = mn /\
  (tr = true -> m_last (cat_m tr a b p q mn sl) 1 = sl).
Proof.
  unfold m_last. rewrite cat_m_len. unfold cat_m. rewrite app_assoc. split; [|intros ->].
  - replace (length a + length b + length p + length q + 1 + (if tr then 1 else 0) - (if tr then 2 else 1))%nat
      with (length (((a ++ b) ++ p) ++ q)) by (rewrite !app_length; destruct tr; lia). apply nth_mid.
  - rewrite app_assoc. replace (length a + length b + length p + length q + 1 + 1 - 1)%nat
      with (length ((((a ++ b) ++ p) ++ q) ++ [mn])) by (rewrite !app_length; cbn; lia). apply nth_mid.
Qed.
Lemma cat_pm tr a b p q mn sl s : length a = s_nNR s -> length b = s_nNR s -> length p = s_nR s -> length q = s_nR s ->
  all_pm (cat_m tr a b p q mn sl) s = (combine a b ++ combine p q ++
    combine (inferred_coefs (map r_Rp (s_R s)) p) (inferred_coefs (map r_Rm (s_R s)) q))%list.
Proof.
  intros La Lb Lp Lq. unfold all_pm. cbv zeta. destruct (cat_ap tr a b p q mn sl _ _ La Lb Lp Lq) as [-> ->].
  rewrite !skipn_exact by assumption. rewrite combine_app by congruence. now rewrite <- app_assoc.
Qed.

(** ** one row of the model times the coefficients *)
Lemma map_conj_some l r : map oconj (map Some l) = map Some r -> r = map Cconj l.
Proof. rewrite map_map. intros H. apply somes_inj. rewrite <- H, map_map. reflexivity. Qed.

Lemma row_sum tr e te s row m : sel_lens s -> s_lind s = (s_NRlind s ++ map r_lind (s_R s) ++ flat_map r_Ilind (s_R s))%list ->
  model_row false tr e te s = map Some row -> length m = (2 * (s_nNR s + s_nR s) + 1 + (if tr then 1 else 0))%nat ->
  exists es, map e (s_lind s) = map Some es /\ length es = length (all_pm m s) /\
    (tr = true -> exists w, te = Some w) /\
    cdot row m = Cplus (Cplus (hsum es (all_pm m s)) (m_last m (if tr then 2 else 1)%nat))
                   (if tr then Cmult (match te with Some w => w | None => RtoC 0 end) (m_last m 1) else RtoC 0).
Proof.
  intros SL Hlind H Lm. destruct (split_m tr _ _ _ Lm) as (a & b & p & q & mn & sl & -> & La & Lb & Lp & Lq).
  destruct (cat_last tr a b p q mn sl) as [-> Hsl]. rewrite cat_pm by assumption.
  unfold model_row in H. apply map_Some_app in H. destruct H as (r123 & r456 & -> & H1 & H2).
  apply map_Some_app in H1. destruct H1 as (r12 & r3 & -> & H1 & H3). apply map_Some_app in H1. destruct H1 as (r1 & r2 & -> & H1 & Hr2).
  apply map_Some_app in H2. destruct H2 as (r4 & r56 & -> & H4 & H5). apply map_Some_app in H5. destruct H5 as (r5 & r6 & -> & H5 & H6).
  rewrite H1 in Hr2. apply map_conj_some in Hr2. subst r2.
  destruct r5 as [|x [|]]; try discriminate. injection H5 as <-.
  assert (HI : forall r, In r (s_R s) -> length (r_Rp r) = length (r_Ilind r) /\ length (r_Rm r) = length (r_Ilind r)).
  { intros r Hr. destruct (ln_I _ SL r Hr) as (_ & I2 & I3 & I4). split; congruence. }
  assert (NR := ln_nR _ SL). assert (NN := ln_nNR _ SL).
  destruct (refs_sum e (s_R s) HI r3 r4 p q H3 H4 ltac:(lia) ltac:(lia)) as (eR & eI & E1 & E2 & E3).
  assert (L1 : length r1 = s_nNR s) by (rewrite <- (map_length Some r1), <- H1, map_length; lia).
  assert (L3 : length r3 = s_nR s) by (rewrite <- (map_length Some r3), <- H3, map_length; lia).
  assert (L4 : length r4 = s_nR s) by (rewrite <- (map_length Some r4), <- H4, map_length; lia).
  assert (LR : length eR = s_nR s) by (rewrite <- (map_length Some eR), <- E1, !map_length; lia).
  assert (LI : length eI = length (flat_map r_Ilind (s_R s))) by (rewrite <- (map_length Some eI), <- E2; apply map_length).
  assert (LP : length (combine (inferred_coefs (map r_Rp (s_R s)) p) (inferred_coefs (map r_Rm (s_R s)) q)) = length (flat_map r_Ilind (s_R s))).
  { rewrite combine_length. unfold inferred_coefs. clear - HI Lp Lq NR. revert p q Lp Lq HI. rewrite NR. clear NR. generalize (s_R s).
    induction l as [|r l IH]; intros [|p0 p] [|q0 q] Lp Lq HI; try discriminate; auto. cbn [map combine List.concat flat_map fst snd].
    rewrite !app_length, !map_length. destruct (HI r (or_introl eq_refl)). specialize (IH p q ltac:(now injection Lp) ltac:(now injection Lq)
      (fun r Hr => HI r (or_intror Hr))). lia. }
  exists (r1 ++ eR ++ eI)%list. split; [now rewrite Hlind, !map_app, H1, E1, E2|].
  split; [rewrite !app_length, LP, !combine_length; lia|].
  split.
  { intros ->. destruct r6 as [|w r6]; [discriminate|]. injection H6 as H6 _. eauto. }
  rewrite hsum_app by (rewrite combine_length; lia). rewrite hsum_app by (rewrite combine_length; lia).
  rewrite hsum_split by lia. unfold cat_m.
  rewrite cdot_app by (rewrite !app_length, !map_length; lia). rewrite cdot_app by (rewrite !app_length, !map_length; lia).
  rewrite cdot_app by lia. rewrite (cdot_app r4) by lia. rewrite (cdot_app [RtoC 1]) by reflexivity. rewrite cdot_one.
  assert (T : cdot r6 (if tr then [sl] else []) =
     (if tr then Cmult (match te with Some w => w | None => RtoC 0 end) (m_last (cat_m tr a b p q mn sl) 1) else RtoC 0)).
  { destruct tr.
    - rewrite Hsl by reflexivity. destruct r6 as [|w [|]]; try discriminate. injection H6 as ->. apply cdot_one.
    - destruct r6; [|discriminate]. reflexivity. }
  unfold cat_m in T. rewrite T.
  transitivity (Cplus (Cplus (Cplus (cdot r1 a) (cdot (map Cconj r1) b)) (Cplus (cdot r3 p) (cdot r4 q))) (Cplus mn
     (if tr then Cmult (match te with Some w => w | None => RtoC 0 end) (m_last (((a ++ b) ++ p) ++ q ++ [mn] ++ (if tr then [sl] else []))%list 1) else RtoC 0)));
    [ring|]. rewrite E3. ring.
Qed.
