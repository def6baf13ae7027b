(** Reconstruction from well-formed coefficients as a sum over constituents; the coefficients behind a
    result of solve; the coefficient vector of a rival. *)
From Coq Require Import Lia Lra Permutation.
From Verif Require Import M_Base M_Lib M_Tables M_Const M_Options M_Time M_Slvinit M_Harmonics M_Select M_Ellipse
  M_Robust M_Period M_Conf M_Diag M_Solve M_Recon S_Dict S_Options S_Order S_Basis S_Select S_Fit S_Ellipse S_Slv S_Recon S_Model
  L_Base L_Options L_SolveInv L_OptSolve L_Order L_Select L_Fit L_Align L_SelOrder L_Basis L_Angle L_Ellipse L_Recon L_Recon2 L_Recon3 L_Core L_Model L_Lsq.
Open Scope R_scope.

Definition pms (c : coef) : list (C * C) := map (pm_of c) (seq 0 (length (c_name c))).
Definition e_of (c : coef) (x : R) (i : nat) : option C := basis_at (flags_of (c_opt c)) (c_reftime c) (c_lat c) x i.

Lemma map_nth_seq {A B} (f : A -> B) (l : list A) d n : length l = n -> map (fun i => f (nth i l d)) (seq 0 n) = map f l.
Proof.
  intros <-. rewrite <- (map_map (fun i => nth i l d) f). f_equal.
  induction l as [|a l IH]; cbn [length seq map]; auto. f_equal. rewrite <- seq_shift, map_map. exact IH.
Qed.

Lemma filter_all {A} (p : A -> bool) l : (forall x, In x l -> p x = true) -> filter p l = l.
Proof. induction l as [|a l IH]; intros H; cbn; auto. rewrite H by now left. f_equal. apply IH. intros; apply H; now right. Qed.
Lemma all_chosen c : filter (chosen c CNone 0 0) (rows c) = rows c.
Proof.
  apply filter_all. intros r Hr. unfold chosen. destruct (w_name_some _ _ Hr) as [n ->].
  destruct (o_nodiagn (c_opt c)); auto. destruct (Req_EM_T 0 0); [reflexivity|lra].
Qed.

Lemma all_some_some {A} (l : list A) : all_some (map Some l) = Some l.
Proof. induction l as [|a l IH]; cbn; auto. now rewrite IH. Qed.

Lemma tides_hsum c x es : well_formed c -> map (e_of c x) (c_lind c) = map Some es ->
  tides c x (rows c) = Some (hsum es (pms c)) /\ length es = length (pms c).
Proof.
  intros W H. assert (A := wf_aligned _ W). destruct A as (_ & A2 & _).
  assert (Le : length es = length (c_name c)) by (rewrite <- (map_length Some es), <- H, map_length; exact A2).
  assert (Lp : length (pms c) = length (c_name c)) by (unfold pms; now rewrite map_length, seq_length).
  split; [|congruence].
  unfold rows. rewrite <- (fit_row_tides c x (seq 0 (length (c_name c))) W) by (intros i Hi; apply in_seq in Hi; lia).
  fold (pms c). change (map (basis_at (flags_of (c_opt c)) (c_reftime c) (c_lat c) x) (c_lind c) = map Some es) in H. rewrite (map_nth_seq (basis_at (flags_of (c_opt c)) (c_reftime c) (c_lat c) x)) by assumption.
  rewrite H. unfold fit_row. rewrite all_some_some. f_equal. symmetry.
  rewrite <- hsum_split by (rewrite map_length; congruence). f_equal.
  generalize (pms c). clear. induction l as [|[a b] l IH]; cbn; auto. now f_equal.
Qed.

Definition od (o : option R) : R := match o with Some x => x | None => 0 end.
Definition mnC (c : coef) : C := if o_twodim (c_opt c) then (od (c_umean c), od (c_vmean c)) else (od (c_mean c), 0).
Definition slC (c : coef) : C := if o_twodim (c_opt c) then (od (c_uslope c), od (c_vslope c)) else (od (c_slope c), 0).
Definition bgC (c : coef) (x : R) : C :=
  Cplus (mnC c) (if o_notrend (c_opt c) then RtoC 0 else Cmult (RtoC (x - c_reftime c)) (slC c)).

(** scalar coefficients have conjugate pairs *)
Lemma pms_conj c pq : well_formed c -> o_twodim (c_opt c) = false -> In pq (pms c) -> snd pq = Cconj (fst pq).
Proof.
  intros W T H. destruct (wf_1d _ W T) as (E & (a & Ea) & _). apply in_map_iff in H. destruct H as (i & <- & _).
  unfold pm_of. rewrite E, Ea. reflexivity.
Qed.
Lemma hsum_real es pqs : (forall pq, In pq pqs -> snd pq = Cconj (fst pq)) -> snd (hsum es pqs) = 0.
Proof.
  revert pqs. induction es as [|e es IH]; intros [|pq pqs] H; try reflexivity.
  assert (E : hsum (e :: es) (pq :: pqs) = Cplus (Cplus (Cmult e (fst pq)) (Cmult (Cconj e) (snd pq))) (hsum es pqs)) by reflexivity.
  rewrite E. specialize (IH pqs (fun q Hq => H q (or_intror Hq))). rewrite (H pq (or_introl eq_refl)).
  unfold Cplus, Cmult, Cconj in *. cbn [fst snd]. rewrite IH. ring.
Qed.

Lemma recon_vals c x es : well_formed c -> map (e_of c x) (c_lind c) = map Some es ->
  let z := Cplus (hsum es (pms c)) (bgC c x) in
  recon_u c x = Fin (fst z) /\ (o_twodim (c_opt c) = true -> recon_v c x = Fin (snd z)) /\
  (o_twodim (c_opt c) = false -> snd z = 0).
Proof.
  intros W H. destruct (tides_hsum c x es W H) as [T Le]. cbv zeta. unfold recon_u, recon_v, value_u, value_v.
  rewrite all_chosen, T. cbv zeta. cbn [option_map]. unfold bgC, mnC, slC, background.
  destruct (o_twodim (c_opt c)) eqn:E2.
  - destruct (wf_2d _ W E2) as (_ & _ & _ & (um & ->) & (vm & ->) & Hs & _). cbn [od].
    destruct (o_notrend (c_opt c)) eqn:En.
    + cbn [plus]. split; [|split; [intros _|discriminate]]; f_equal; cbn; ring.
    + destruct (Hs eq_refl) as ((us & ->) & (vs & ->)). cbn [plus option_map od]. split; [|split; [intros _|discriminate]]; f_equal; cbn; ring.
  - assert (HR := hsum_real es (pms c) (fun pq Hq => pms_conj c pq W E2 Hq)).
    destruct (wf_1d _ W E2) as (_ & _ & (mn & ->) & Hs & _). cbn [od].
    destruct (o_notrend (c_opt c)) eqn:En.
    + cbn [plus]. split; [|split; [discriminate|intros _]]; [f_equal; cbn; ring|]. cbn. rewrite HR. ring.
    + destruct (Hs eq_refl) as (sl & ->). cbn [plus option_map od]. split; [|split; [discriminate|intros _]]; [f_equal; cbn; ring|].
      cbn. rewrite HR. ring.
Qed.

(** ** rotary components *)
Lemma rad_rpd x : x * rpd = rad x. Proof. unfold rpd, rad. field. Qed.
Lemma rotary_row c i : well_formed c -> (i < length (c_name c))%nat -> rotary (crow_of c i) = Some (pm_of c i).
Proof.
  intros W Hi. assert (A := wf_aligned _ W). destruct A as (_ & A2 & A3 & A4 & A5 & A6 & A7 & _).
  unfold rotary, crow_of, pm_of. cbn [w_g w_Lsmaj w_Lsmin w_theta w_A]. rewrite (nth_error_at (c_g c) i 0) by lia.
  destruct (o_twodim (c_opt c)) eqn:T.
  - destruct (wf_2d _ W T) as ((a & Ea) & (b & Eb) & (th & Et) & _). rewrite Ea, Eb, Et in *. cbn [at_ option_map].
    specialize (A5 _ eq_refl). specialize (A6 _ eq_refl). specialize (A7 _ eq_refl).
    rewrite (nth_error_at a i 0), (nth_error_at b i 0), (nth_error_at th i 0) by lia. unfold pm2. rewrite !rad_rpd.
    do 2 f_equal; (f_equal; f_equal; field).
  - destruct (wf_1d _ W T) as (Ea & (a & Eb) & _). rewrite Ea, Eb in *. specialize (A4 _ eq_refl). cbn [at_ option_map].
    rewrite (nth_error_at a i 0) by lia. unfold pm1. rewrite !rad_rpd. do 2 f_equal; [f_equal; f_equal; field|].
    rewrite rad_opp. unfold cis, Cmult, Cconj, RtoC. cbn [fst snd]. rewrite cos_neg, sin_neg. apply C_eq; cbn [fst snd]; field.
Qed.

(** name, table position and rotary components together *)
Definition triple (r : crow) : option string * option nat * option (C * C) := (w_name r, w_lind r, rotary r).
Definition triples (c : coef) : list (string * nat * (C * C)) :=
  combine (combine (c_name c) (c_lind c)) (pms c).
Lemma triples_rows c : well_formed c -> map triple (rows c) = map (fun t => (Some (fst (fst t)), Some (snd (fst t)), Some (snd t))) (triples c).
Proof.
  intros W. assert (A := wf_aligned _ W). destruct A as (_ & A2 & _). unfold triples, rows, pms.
  set (n := length (c_name c)) in *.
  assert (E : combine (c_name c) (c_lind c) = map (fun i => (nth i (c_name c) EmptyString, nth i (c_lind c) 0%nat)) (seq 0 n)).
  { transitivity (map (fun p => p) (combine (c_name c) (c_lind c))); [symmetry; apply map_id|].
    rewrite <- (map_nth_seq (fun p => p) (combine (c_name c) (c_lind c)) (EmptyString, 0%nat) n) by (rewrite combine_length; unfold n in *; lia).
    apply map_ext. intros i. apply combine_nth. unfold n in A2. lia. }
  rewrite E, combine_maps, !map_map. apply map_ext_in. intros i Hi. apply in_seq in Hi. cbn [fst snd]. unfold triple.
  rewrite rotary_row by (auto; unfold n in Hi; lia). cbn [crow_of w_name w_lind].
  rewrite (nth_error_at (c_name c) i EmptyString) by (unfold n in Hi; lia). rewrite (nth_error_at (c_lind c) i 0%nat) by lia. reflexivity.
Qed.

Lemma triples_perm c c' : well_formed c -> well_formed c' -> Permutation (rows c) (rows c') -> Permutation (triples c) (triples c').
Proof.
  intros W W' P. apply (Permutation_map triple) in P. rewrite !triples_rows in P by assumption.
  apply (Permutation_map (fun t : option string * option nat * option (C * C) =>
    (match fst (fst t) with Some x => x | None => EmptyString end, match snd (fst t) with Some x => x | None => 0%nat end,
     match snd t with Some x => x | None => (RtoC 0, RtoC 0) end))) in P.
  rewrite !map_map in P. cbn [fst snd] in P.
  rewrite !(map_ext (fun x : string * nat * (C * C) => (fst (fst x), snd (fst x), snd x)) (fun x => x)) in P by (intros [[? ?] ?]; reflexivity).
  now rewrite !map_id in P.
Qed.

(** hsum from pairs *)
Definition hterm (e : nat -> option C) (t : nat * (C * C)) : C :=
  match e (fst t) with Some z => Cplus (Cmult z (fst (snd t))) (Cmult (Cconj z) (snd (snd t))) | None => RtoC 0 end.
Lemma hsum_terms e ls es pq : map e ls = map Some es -> hsum es pq = csum (map (hterm e) (combine ls pq)).
Proof.
  unfold hsum. revert es pq. induction ls as [|i ls IH]; intros [|z es] pq H; try discriminate; [reflexivity|].
  destruct pq as [|p pq]; [reflexivity|]. cbn [map] in H. injection H as H1 H2.
  cbn [combine map csum fold_right fst snd]. specialize (IH es pq H2). unfold csum in IH. rewrite IH. unfold hterm at 2. cbn [fst snd]. rewrite H1. reflexivity.
Qed.
Lemma triples_pairs c : well_formed c -> map (fun t => (snd (fst t), snd t)) (triples c) = combine (c_lind c) (pms c).
Proof.
  intros W. assert (A := wf_aligned _ W). destruct A as (_ & A2 & _). unfold triples.
  assert (G : forall (a : list string) (b : list nat) (q : list (C * C)), length b = length a ->
    map (fun t => (snd (fst t), snd t)) (combine (combine a b) q) = combine b q).
  { induction a as [|x a IH]; intros [|y b] q H; try discriminate; auto. destruct q; cbn; auto. f_equal. apply IH. now injection H. }
  now apply G.
Qed.
