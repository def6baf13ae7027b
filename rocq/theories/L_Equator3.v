(** The constituents that cannot be corrected at the equator, by name. *)
From Coq Require Import Lia Lra Permutation.
From Verif Require Import M_Base M_Lib M_Tables M_Const M_Options M_Time M_Slvinit M_Harmonics M_Select M_Ellipse M_Robust M_Period M_Conf M_Diag M_Solve M_Recon
  S_Dict S_Options S_Slv S_Order S_Basis S_Tables S_Harm S_Fit S_Recon S_Model S_Errors S_Perm S_Noise S_Accept S_Equator
  L_Base L_Tables L_Select L_Harm L_Harm2 L_Harm3 L_Recon L_Recon3 L_Recon4 L_Model15 L_Accept L_Range L_Nested L_Usable2 L_Equator L_Equator2.
Open Scope R_scope.

Definition pair_b (a b : list nat) (x y : nat) : bool := existsb (fun p => Nat.eqb (fst p) x && Nat.eqb (snd p) y) (combine a b).
Lemma pair_b_spec a b x y : pair_b a b x y = true <-> exists j, nth_error a j = Some x /\ nth_error b j = Some y.
Proof.
  unfold pair_b. rewrite existsb_exists. split.
  - intros ((p & q) & Hin & E). cbn [fst snd] in E. apply andb_prop in E. destruct E as [E1 E2]. apply Nat.eqb_eq in E1, E2. subst p q.
    destruct (In_nth_error _ _ Hin) as [j Hj]. exists j. now apply nth_error_both.
  - intros (j & H1 & H2). exists (x, y). split; [exact (nth_error_In _ _ (nth_error_combine _ _ j _ _ H1 H2))|]. cbn [fst snd]. now rewrite !Nat.eqb_refl.
Qed.
Definition diurnal_b (k : nat) : bool := pair_b sat_iconst sat_ilatfac (S k) 1.
Lemma diurnal_iff k : diurnal_b k = true <-> diurnal_satellite k.
Proof. exact (pair_b_spec sat_iconst sat_ilatfac (S k) 1). Qed.
Definition primary_b (k : nat) : bool := match nth_error const_doodson k with Some (Some _) => true | _ => false end.
Lemma primary_iff k : primary_b k = true <-> is_primary k.
Proof.
  unfold primary_b, is_primary. generalize (nth_error const_doodson k). intros o. split.
  - destruct o as [[d|]|]; [eauto|discriminate..].
  - intros [d ->]. reflexivity.
Qed.
Definition calm_at (p : bool) (d : nat -> bool) (k : nat) (rs : list nat) : bool :=
  if p then negb (d k) else forallb (fun r => negb (d (row_parent r))) rs.
Lemma calm_at_spec p d k rs (P S : Prop) (D : nat -> Prop) : (p = true <-> P) -> (forall j, d j = true <-> D j) -> (P -> ~ S) -> (S \/ P) ->
  (calm_at p d k rs = true <-> (P /\ ~ D k) \/ (S /\ forall r, In r rs -> ~ D (row_parent r))).
Proof.
  intros HP HD X E. unfold calm_at. destruct p.
  - assert (PP : P) by (apply HP; reflexivity). rewrite Bool.negb_true_iff. split.
    + intros N. left. split; [exact PP|]. rewrite <- HD. congruence.
    + intros [[_ N]|[C _]]; [|destruct (X PP C)]. rewrite <- HD in N. destruct (d k); congruence.
  - assert (NP : ~ P) by (rewrite <- HP; discriminate). rewrite forallb_forall. split.
    + intros N. right. split; [tauto|]. intros r Hr. rewrite <- HD. assert (Q := N r Hr). destruct (d (row_parent r)); [discriminate|congruence].
    + intros [[C _]|[_ N]] r Hr; [tauto|]. assert (Q := N r Hr). rewrite <- HD in Q. destruct (d (row_parent r)); [congruence|reflexivity].
Qed.
Lemma table_names : forallb (fun p => Bool.eqb (calm_at (primary_b (fst p)) diurnal_b (fst p) (rows_of (fst p))) (negb (existsb (String.eqb (snd p)) restless)))
  (combine (seq 0 146) const_name) = true.
Proof. vm_compute. reflexivity. Qed.
Lemma at_place (f : nat -> string -> bool) n (l : list string) k x : forallb (fun p => f (fst p) (snd p)) (combine (seq 0 n) l) = true ->
  (k < n)%nat -> nth_error l k = Some x -> f k x = true.
Proof.
  intros H Hk Hx. assert (S : nth_error (seq 0 n) k = Some k) by (rewrite (nth_error_nth' _ 0%nat) by (rewrite seq_length; exact Hk); now rewrite seq_nth).
  exact (proj1 (forallb_forall _ _) H (k, x) (nth_error_In _ _ (nth_error_combine _ _ k _ _ S Hx))).
Qed.
Lemma restless_iff n k : constit_index n = Ok k -> (calm k <-> ~ In n restless).
Proof.
  intros E. apply constit_index_iff in E. assert (Hk := names_lt _ _ E).
  assert (T := at_place (fun k n => Bool.eqb (calm_at (primary_b k) diurnal_b k (rows_of k)) (negb (existsb (String.eqb n) restless))) 146 const_name k n table_names Hk E).
  cbv beta in T. apply Bool.eqb_prop in T.
  assert (CS := calm_at_spec (primary_b k) diurnal_b k (rows_of k) (is_primary k) (is_shallow k) diurnal_satellite (primary_iff k) diurnal_iff
    (fun p s => shallow_not_primary k s p) (shallow_or_primary k Hk)).
  unfold calm. rewrite <- CS, T, Bool.negb_true_iff. generalize restless. intros l. split.
  - intros H I. assert (X : existsb (String.eqb n) l = true) by (apply existsb_exists; exists n; split; [exact I|apply String.eqb_refl]). congruence.
  - intros N. destruct (existsb (String.eqb n) l) eqn:X; [|reflexivity]. apply existsb_exists in X. destruct X as (y & Y1 & Y2). apply String.eqb_eq in Y2. subst y. contradiction.
Qed.
Lemma equator_names L t u v opts sm names : lstsq_shape L -> lstsq_returns L -> argsort_perm L -> documented_call L t u v opts sm ->
  setting opts "constit"%string (PSeq (map PStr names)) -> names <> [] -> (exists x, setting opts "nodal"%string x /\ ~ falsy x) ->
  (forall x, setting opts "trend"%string x -> ~ falsy x -> exists s s', In s sm /\ In s' sm /\ fst s <> fst s') ->
  setting opts "conf_int"%string (PStr "none") ->
  ((exists c, solve L t u v (Some 0) opts = Ok c) <-> forall n, In n names -> ~ In n restless).
Proof.
  intros SH RT AP DC CN NE ND TR CF. rewrite (equator_iff L t u v opts sm names SH RT AP DC CN NE ND TR CF). split.
  - intros H n Hn. assert (KN : In n const_name).
    { destruct (dc_constit _ _ _ _ _ _ DC) as [C|(ns & K & C)]; assert (X := setting_unique opts "constit" _ _ (dc_keys _ _ _ _ _ _ DC) ltac:(cbn; tauto) CN C).
      - discriminate.
      - injection X as X. apply K. assert (Y : In (PStr n) (map PStr ns)) by (rewrite <- X; now apply in_map). apply in_map_iff in Y. destruct Y as (y & E & Y). injection E as <-. exact Y. }
    destruct (constit_index_known n KN) as [k E]. exact (proj1 (restless_iff n k E) (H n k Hn E)).
  - intros H n k Hn E. exact (proj2 (restless_iff n k E) (H n Hn)).
Qed.
Lemma equator_result L t u v opts sm c : analysis L t u v (Some 0) opts sm c -> approximate (c_opt c) = false -> o_nodsatnone (c_opt c) = false ->
  forall n, In n (c_name c) -> ~ In n restless.
Proof.
  intros AN AP NN n Hn. assert (W := analysis_wf _ _ _ _ _ _ _ _ AN). destruct (In_nth_error _ _ Hn) as [i Hi].
  destruct (nth_error_same (c_name c) (c_lind c) i n Hi (eq_sym (proj1 (proj2 (wf_aligned c W))))) as [k Hk].
  assert (E := analysis_indexed _ _ _ _ _ _ _ _ AN n k (nth_error_In _ _ (nth_error_combine _ _ i _ _ Hi Hk))).
  apply (proj1 (restless_iff n k (proj2 (constit_index_iff n k) E))). exact (equator_calm _ _ _ _ _ _ _ AN AP NN k (nth_error_In _ _ Hk)).
Qed.
