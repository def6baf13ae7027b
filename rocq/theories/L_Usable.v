(** Whether a basis function is finite does not depend on the time. *)
From Coq Require Import Lia Lra Permutation.
From Verif Require Import M_Base M_Lib M_Tables M_Const M_Options M_Time M_Slvinit M_Harmonics M_Select M_Ellipse M_Diag M_Solve M_Recon
  S_Dict S_Options S_Basis S_Slv S_Order S_Select S_Fit S_Recon S_Model L_Base L_Harm2 L_Recon L_Recon3 L_Recon4 L_Recon5.
Open Scope R_scope.

Definition alike {A B} (a : option A) (b : option B) : Prop := a = None <-> b = None.
Lemma alike_some {A B} (a : option A) (b : option B) : alike a b -> (exists x, a = Some x) -> exists y, b = Some y.
Proof. intros [_ H2] [x ->]. destruct b as [y|]; [eauto|]. discriminate (H2 eq_refl). Qed.
Lemma alike_refl {A} (a : option A) : alike a a.
Proof. split; auto. Qed.
Lemma alike_nth {A B} (l : list (option A)) (l' : list (option B)) i : Forall2 alike l l' -> alike (nth i l None) (nth i l' None).
Proof. intros H. revert i. induction H; intros [|i]; cbn; auto; split; auto. Qed.
Lemma alike_set {A B} (l : list (option A)) (l' : list (option B)) k a b : Forall2 alike l l' -> alike a b -> Forall2 alike (list_set l k a) (list_set l' k b).
Proof. intros H Hab. revert k. induction H; intros [|k]; cbn [list_set]; constructor; auto. Qed.
Lemma alike_omap {A B A' B'} (f : A -> A') (g : B -> B') a b : alike a b -> alike (option_map f a) (option_map g b).
Proof. intros [H1 H2]. destruct a, b; cbn; split; intros E; try discriminate; auto; [discriminate (H2 eq_refl)|discriminate (H1 eq_refl)]. Qed.
Lemma alike_map {X A B} (f : X -> option A) (g : X -> option B) l : (forall x, alike (f x) (g x)) -> Forall2 alike (map f l) (map g l).
Proof. intros H. induction l; cbn; constructor; auto. Qed.
Lemma alike_map2 {A B A' B'} (f : option A -> option A') (g : option B -> option B') l l' : (forall a b, alike a b -> alike (f a) (g b)) ->
  Forall2 alike l l' -> Forall2 alike (map f l) (map g l').
Proof. intros H F. induction F; cbn; constructor; auto. Qed.
Lemma alike_two {A B A' B' D D'} (f : A -> B -> D) (g : A' -> B' -> D') a b a' b' : alike a a' -> alike b b' ->
  alike (match a, b with Some x, Some y => Some (f x y) | _, _ => None end) (match a', b' with Some x, Some y => Some (g x y) | _, _ => None end).
Proof.
  intros [H1 H2] [K1 K2].
  destruct a, a'; try (discriminate (H2 eq_refl)); try (discriminate (H1 eq_refl)); destruct b, b'; try (discriminate (K2 eq_refl)); try (discriminate (K1 eq_refl));
    split; intros E; try discriminate E; reflexivity.
Qed.
Lemma alike_fold {A B} (f : option A -> option A -> option A) (g : option B -> option B -> option B) a0 b0 l l' :
  (forall a b a' b', alike a a' -> alike b b' -> alike (f a b) (g a' b')) -> alike a0 b0 -> Forall2 alike l l' -> alike (fold_right f a0 l) (fold_right g b0 l').
Proof. intros H H0 F. induction F; cbn; auto. Qed.
Lemma alike_loop (g : list (option R) -> nat -> nat -> option R) loop : (forall F F' i n, Forall2 alike F F' -> alike (g F i n) (g F' i n)) ->
  forall F F', Forall2 alike F F' ->
  Forall2 alike (fold_left (fun F '(i0, n, k) => list_set F k (g F i0 n)) loop F) (fold_left (fun F '(i0, n, k) => list_set F k (g F i0 n)) loop F').
Proof.
  intros H. induction loop as [|[[i n] k] loop IH]; intros F F' HF; cbn [fold_left]; auto. apply IH. apply alike_set; auto.
Qed.
Lemma alike_oprod l l' : Forall2 alike l l' -> alike (oprod l) (oprod l').
Proof. apply alike_fold; [|split; discriminate]. intros a b a' b' H K. unfold omul. exact (alike_two Rmult Rmult _ _ _ _ H K). Qed.
Lemma alike_osum l l' : Forall2 alike l l' -> alike (osum l) (osum l').
Proof. apply alike_fold; [|split; discriminate]. intros a b a' b' H K. unfold oadd. exact (alike_two Rplus Rplus _ _ _ _ H K). Qed.
Lemma alike_ocsum l l' : Forall2 alike l l' -> alike (ocsum l) (ocsum l').
Proof. apply alike_fold; [|split; discriminate]. intros a b a' b' H K. unfold ocadd. exact (alike_two Cplus Cplus _ _ _ _ H K). Qed.
Lemma alike_ocadd a b a' b' : alike a a' -> alike b b' -> alike (ocadd a b) (ocadd a' b').
Proof. intros H K. unfold ocadd. exact (alike_two Cplus Cplus _ _ _ _ H K). Qed.
Lemma alike_omul a b a' b' : alike a a' -> alike b b' -> alike (omul a b) (omul a' b').
Proof. intros H K. unfold omul. exact (alike_two Rmult Rmult _ _ _ _ H K). Qed.
Lemma alike_filter {A B} (p : nat -> bool) ks (l : list (option A)) (l' : list (option B)) : Forall2 alike l l' ->
  Forall2 alike (map snd (filter (fun q => p (fst q)) (combine ks l))) (map snd (filter (fun q => p (fst q)) (combine ks l'))).
Proof.
  intros H. revert ks. induction H; intros [|k ks]; cbn [combine filter map]; try constructor. cbn [fst]. destruct (p k); cbn [map snd]; [constructor|]; auto.
Qed.
Lemma alike_terms (rr : list xr) (f f' : R -> C) (g : R -> C -> C) u u' : length u = length u' ->
  Forall2 alike (map (fun p => match fst p with Fin r => Some (g r (f (snd p))) | _ => None end) (combine rr u))
    (map (fun p => match fst p with Fin r => Some (g r (f' (snd p))) | _ => None end) (combine rr u')).
Proof.
  revert u u'. induction rr as [|x rr IH]; intros [|a u] [|b u'] H; cbn [combine map] in *; try discriminate; constructor.
  - cbn [fst]. destruct x; split; intros E; (discriminate E || reflexivity).
  - apply IH. now injection H.
Qed.
Lemma mat_alike x x' la : Forall2 alike (sat_mat x la) (sat_mat x' la).
Proof.
  unfold sat_mat. apply (alike_terms (sat_rr la) (fun y => cis (2 * PI * y)) (fun y => cis (2 * PI * y)) (fun r z => Cmult (RtoC r) z)).
  unfold sat_uu. now rewrite !map_length.
Qed.
Lemma F_alike0 x x' la : Forall2 alike (sat_F x la) (sat_F x' la).
Proof.
  unfold sat_F. apply alike_map. intros ii. apply alike_ocadd; [apply alike_refl|]. apply alike_ocsum.
  exact (alike_filter (fun k => Nat.eqb (pred k) ii) sat_iconst _ _ (mat_alike x x' la)).
Qed.
Lemma F_alike x x' la : Forall2 alike (F_col x la) (F_col x' la).
Proof.
  unfold F_col. apply (alike_loop (fun F i0 n => oprod (map (fun ik => option_map (fun f => rpow f (Rabs (sh_coef ik))) (nth (sh_j ik) F None)) (seq i0 n)))).
  - intros F F' i n H. apply alike_oprod. apply alike_map. intros ik. apply alike_omap. now apply alike_nth.
  - apply alike_map2; [|apply F_alike0]. intros a b. apply alike_omap.
Qed.
Lemma U_alike x x' la : Forall2 alike (U_col x la) (U_col x' la).
Proof.
  unfold U_col. apply (alike_loop (fun U i0 n => osum (map (fun ik => omul (nth (sh_j ik) U None) (Some (sh_coef ik))) (seq i0 n)))).
  - intros F F' i n H. apply alike_osum. apply alike_map. intros ik. apply alike_omul; [now apply alike_nth|apply alike_refl].
  - apply alike_map2; [|apply F_alike0]. intros a b. apply alike_omap.
Qed.
Lemma basis_alike g tref la x x' i : (i < 146)%nat -> (exists e, basis_at g tref la x i = Some e) -> exists e, basis_at g tref la x' i = Some e.
Proof.
  intros Hi [e H]. unfold basis_at, wave in *.
  assert (HF : exists f, F_at g tref la x' i = Some f).
  { apply (alike_some (F_at g tref la x i)); [|destruct (F_at g tref la x i); [eauto|discriminate]]. unfold F_at. destruct (NodsatNone g); [apply alike_refl|]. apply alike_nth. apply F_alike. }
  assert (HU : exists f, U_at g tref la x' i = Some f).
  { apply (alike_some (U_at g tref la x i)).
    - unfold U_at. destruct (NodsatNone g); [apply alike_refl|]. apply alike_nth. apply U_alike.
    - destruct (F_at g tref la x i); [|discriminate]. destruct (U_at g tref la x i); [eauto|discriminate]. }
  destruct (V_at_some g tref x' i Hi) as [v Hv]. destruct HF as [f ->], HU as [w ->]. rewrite Hv. eauto.
Qed.
Lemma tides_alike c x x' l : well_formed c -> known_lind c -> incl l (rows c) -> (exists p, tides c x l = Some p) -> exists p, tides c x' l = Some p.
Proof.
  intros W K. induction l as [|r l IH]; intros Hl [p Hp]; cbn [tides] in *; [eauto|].
  assert (Hr := Hl r (or_introl eq_refl)). unfold rows in Hr. apply in_map_iff in Hr. destruct Hr as (i & <- & Hi). apply in_seq in Hi.
  rewrite tide_row in * by (auto; lia).
  destruct (basis_at (flags_of (c_opt c)) (c_reftime c) (c_lat c) x (nth i (c_lind c) 0%nat)) as [e|] eqn:E; [|discriminate].
  destruct (tides c x l) as [q|] eqn:Q; [|discriminate].
  destruct IH as [q' ->]; [intros y Hy; apply Hl; now right|eauto|].
  destruct (basis_alike (flags_of (c_opt c)) (c_reftime c) (c_lat c) x x' (nth i (c_lind c) 0%nat)) as [e' ->].
  - apply K. apply nth_In. rewrite (proj1 (proj2 (wf_aligned c W))). lia.
  - eauto.
  - eauto.
Qed.
Lemma tides_sub c x l l' : (forall r, In r l' -> In r l) -> (exists p, tides c x l = Some p) -> exists p, tides c x l' = Some p.
Proof.
  intros S [p H]. assert (E : forall r, In r l -> exists q, tide c x r = Some q).
  { clear S l'. revert p H. induction l as [|r l IH]; intros p H r' []; cbn [tides] in H; destruct (tide c x r) eqn:T; try discriminate;
      destruct (tides c x l) eqn:U; try discriminate; [subst; eauto|eapply IH; eauto]. }
  induction l' as [|r l' IH]; cbn [tides]; [eauto|]. destruct (E r (S r (or_introl eq_refl))) as [q ->]. destruct IH as [q' ->]; [intros r' Hr'; apply S; now right|]. eauto.
Qed.
