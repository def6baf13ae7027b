(** The shortcut, and row-wise computation. *)
From Coq Require Import Lia Lra.
From Coquelicot Require Import Coquelicot.
From Verif Require Import M_Base M_Harmonics S_Tables L_Base S_Basis L_Basis S_Harm L_Tables L_Harm L_Harm2.
Open Scope R_scope.

Lemma general_rows t tref lind lat g :
  (let '(F, U, V) := FUV t tref lind lat g in E_rows (bcast (length t) F) (bcast (length t) U) (bcast (length t) V)) =
  map (fun x => map (basis_at g tref lat x) lind) t.
Proof.
  unfold FUV.
  assert (P : (if NodsatNone g then (ones (length t) (length lind) 1, ones (length t) (length lind) 0)
    else let tt := if NodsatLint g then [tref] else t in
      (map (fun x => pick lind (F_col x lat)) tt, map (fun x => pick lind (U_col x lat)) tt)) =
    (if NodsatNone g then ones (length t) (length lind) 1 else map (fun x => pick lind (F_col x lat)) (if NodsatLint g then [tref] else t),
     if NodsatNone g then ones (length t) (length lind) 0 else map (fun x => pick lind (U_col x lat)) (if NodsatLint g then [tref] else t))).
  { destruct (NodsatNone g); reflexivity. }
  cbv zeta in P |- *. rewrite P.
  rewrite (nod_rows g (fun x => F_col x lat) t tref 1 lind), (nod_rows g (fun x => U_col x lat) t tref 0 lind).
  assert (V := V_rows g t tref lind). cbv zeta in V. rewrite V. rewrite E_rows_map. apply map_ext. intros x.
  rewrite col_row_F, col_row_U, E_row_map. reflexivity.
Qed.
Lemma shortcut_lemma t tref lind lat g : ut_E t tref (sel_freq tref lind) lind lat g =
  let '(F, U, V) := FUV t tref lind lat g in E_rows (bcast (length t) F) (bcast (length t) U) (bcast (length t) V).
Proof. rewrite general_rows. apply ut_E_rows. Qed.
Lemma rowwise tref frq lind lat g : exists f, forall t, ut_E t tref frq lind lat g = map f t.
Proof.
  destruct (NodsatNone g && GwchNone g) eqn:Hg.
  - eexists. intros. now apply ut_E_short.
  - eexists. intros. now apply ut_E_general.
Qed.

Lemma no_nodal t tref lind lat g : NodsatNone g = true -> exists V,
  FUV t tref lind lat g = (repeat (repeat (Some 1) (length lind)) (length t), repeat (repeat (Some 0) (length lind)) (length t), V).
Proof. intros H. unfold FUV. rewrite H. eexists. reflexivity. Qed.
Definition exact_nodal (g : ngflgs) : ngflgs :=
  {| NodsatLint := false; NodsatNone := false; GwchLint := GwchLint g; GwchNone := GwchNone g |}.
Lemma linear_nodal t tref lind lat g : NodsatNone g = false -> NodsatLint g = true ->
  fst (FUV t tref lind lat g) = fst (FUV [tref] tref lind lat (exact_nodal g)).
Proof. intros H1 H2. unfold FUV. rewrite H1, H2. reflexivity. Qed.

Lemma V_modes tref x k g : (k < 146)%nat -> exists v,
  nth k (V_col tref) None = Some v /\
  (GwchNone g = false -> GwchLint g = true -> V_at g tref x k = Some (v + (x - tref) * Derive (arg k) tref)) /\
  (GwchNone g = true -> V_at g tref x k = Some ((x - tref) * Derive (arg k) tref)) /\
  (GwchNone g = false -> GwchLint g = false -> V_at g tref tref k = Some v).
Proof.
  intros Hk. destruct (V_wrap tref k Hk) as (v & E & _). exists v. split; [exact E|].
  rewrite (is_derive_unique _ _ _ (lin_derive tref k Hk)). unfold V_at. rewrite E. generalize (nth k (linearized_freqs tref) 0). intros f.
  split; [|split].
  - intros -> ->. f_equal. ring.
  - intros ->. f_equal. ring.
  - intros -> ->. reflexivity.
Qed.
Lemma nodal_basis tref lat x k g :
  (NodsatNone g = true -> F_at g tref lat x k = Some 1 /\ U_at g tref lat x k = Some 0) /\
  (NodsatNone g = false -> NodsatLint g = true ->
   F_at g tref lat x k = nth k (F_col tref lat) None /\ U_at g tref lat x k = nth k (U_col tref lat) None) /\
  (NodsatNone g = false -> NodsatLint g = false ->
   F_at g tref lat x k = nth k (F_col x lat) None /\ U_at g tref lat x k = nth k (U_col x lat) None).
Proof.
  unfold F_at, U_at. split; [|split].
  - intros ->. split; reflexivity.
  - intros -> ->. split; reflexivity.
  - intros -> ->. split; reflexivity.
Qed.
