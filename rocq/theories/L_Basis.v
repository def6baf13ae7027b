(** Rows of the basis matrix, constituent by constituent. *)
From Coq Require Import Lia Lra.
From Verif Require Import M_Base M_Harmonics S_Basis L_Base.
Open Scope R_scope.

Lemma E_entry_wave f u v : E_entry f u v = wave f u v.
Proof.
  destruct f as [f|], u as [u|], v as [v|]; cbn; auto. unfold Cmult, RtoC, cis. cbn.
  replace ((u + v) * (2 * PI)) with (2 * PI * (u + v)) by ring. do 2 f_equal; ring.
Qed.
Lemma map_repeat' {A B} (f : A -> B) x n : map f (repeat x n) = repeat (f x) n.
Proof. induction n; cbn; congruence. Qed.
Lemma map_const_repeat {A B} (x : B) (l : list A) : map (fun _ => x) l = repeat x (length l).
Proof. induction l; cbn; congruence. Qed.

Lemma E_row_map {A} (f u v : A -> option R) l : E_row (map f l) (map u l) (map v l) = map (fun a => wave (f a) (u a) (v a)) l.
Proof. induction l as [|a l IH]; cbn; auto. now rewrite E_entry_wave, IH. Qed.
Lemma E_rows_map {A} (f u v : A -> list (option R)) l :
  E_rows (map f l) (map u l) (map v l) = map (fun a => E_row (f a) (u a) (v a)) l.
Proof. induction l as [|a l IH]; cbn; auto. now rewrite IH. Qed.

Lemma bcast_one {A} (x : A) (t : list R) : bcast (length t) [x] = map (fun _ => x) t.
Proof. cbn. symmetry. apply map_const_repeat. Qed.
Lemma bcast_map {A} (f : R -> A) (t : list R) : bcast (length t) (map f t) = map f t.
Proof. destruct t as [|x [|y t]]; reflexivity. Qed.

Definition col_row (g : ngflgs) (col : R -> list (option R)) (tref x d : R) (lind : list nat) : list (option R) :=
  if NodsatNone g then map (fun _ => Some d) lind
  else map (fun i => nth i (col (if NodsatLint g then tref else x)) None) lind.
Lemma nod_rows g (col : R -> list (option R)) t tref d lind :
  bcast (length t) (if NodsatNone g then ones (length t) (length lind) d
    else map (fun x => pick lind (col x)) (if NodsatLint g then [tref] else t)) =
  map (fun x => col_row g col tref x d lind) t.
Proof.
  unfold col_row. destruct (NodsatNone g).
  - unfold ones. rewrite <- (map_const_repeat (Some d) lind), <- map_const_repeat. apply bcast_map.
  - destruct (NodsatLint g); [apply bcast_one|apply bcast_map].
Qed.
Lemma V_rows g t tref lind :
  bcast (length t)
   (if GwchNone g then map (fun x => map Some (lin_arg x tref (sel_freq tref lind))) t
    else
      let tt := if GwchLint g then [tref] else t in
      let V := map (fun x => pick lind (V_col x)) tt in
      if GwchLint g then
        map (fun p => map (fun q => oadd (fst q) (Some (snd q)))
                          (combine (fst p) (lin_arg (snd p) tref (sel_freq tref lind))))
            (combine (bcast (length t) V) t)
      else V) =
  map (fun x => map (V_at g tref x) lind) t.
Proof.
  unfold V_at. destruct (GwchNone g).
  - rewrite bcast_map. apply map_ext. intros x. unfold lin_arg, sel_freq. now rewrite !map_map.
  - cbv zeta. destruct (GwchLint g).
    + cbn [map]. rewrite bcast_one.
      assert (E : map (fun p : list (option R) * R => map (fun q => oadd (fst q) (Some (snd q)))
            (combine (fst p) (lin_arg (snd p) tref (sel_freq tref lind)))) (combine (map (fun _ => pick lind (V_col tref)) t) t) =
         map (fun x => map (fun i => match nth i (V_col tref) None with
              | Some v => Some (v + 24 * (x - tref) * nth i (linearized_freqs tref) 0) | None => None end) lind) t).
      { generalize (V_col tref). intros l. induction t as [|x t IH]; [reflexivity|].
        cbn [map combine fst snd]. apply f_equal2; [|exact IH]. clear IH. unfold pick, lin_arg, sel_freq.
        rewrite map_map. induction lind as [|i li IH]; [reflexivity|]. cbn [map combine fst snd]. apply f_equal2; [|exact IH].
        destruct (nth i l None); reflexivity. }
      rewrite E. apply bcast_map.
    + apply bcast_map.
Qed.

Lemma col_row_F g tref lat x lind : col_row g (fun x => F_col x lat) tref x 1 lind = map (F_at g tref lat x) lind.
Proof. unfold col_row, F_at. destruct (NodsatNone g); reflexivity. Qed.
Lemma col_row_U g tref lat x lind : col_row g (fun x => U_col x lat) tref x 0 lind = map (U_at g tref lat x) lind.
Proof. unfold col_row, U_at. destruct (NodsatNone g); reflexivity. Qed.

Lemma ut_E_general t tref frq lind lat g : NodsatNone g && GwchNone g = false ->
  ut_E t tref frq lind lat g = map (fun x => map (basis_at g tref lat x) lind) t.
Proof.
  intros Hg. unfold ut_E. rewrite Hg. unfold FUV.
  assert (P : (if NodsatNone g then (ones (length t) (length lind) 1, ones (length t) (length lind) 0)
    else let tt := if NodsatLint g then [tref] else t in
      (map (fun x => pick lind (F_col x lat)) tt, map (fun x => pick lind (U_col x lat)) tt)) =
    (if NodsatNone g then ones (length t) (length lind) 1 else map (fun x => pick lind (F_col x lat)) (if NodsatLint g then [tref] else t),
     if NodsatNone g then ones (length t) (length lind) 0 else map (fun x => pick lind (U_col x lat)) (if NodsatLint g then [tref] else t)))
    by (destruct (NodsatNone g); reflexivity).
  cbv zeta in P |- *. rewrite P.
  rewrite (nod_rows g (fun x => F_col x lat) t tref 1 lind), (nod_rows g (fun x => U_col x lat) t tref 0 lind).
  assert (V := V_rows g t tref lind). cbv zeta in V. rewrite V. rewrite E_rows_map. apply map_ext. intros x.
  rewrite col_row_F, col_row_U, E_row_map. reflexivity.
Qed.
Lemma ut_E_short t tref frq lind lat g : NodsatNone g && GwchNone g = true ->
  ut_E t tref frq lind lat g = map (fun x => map (fun f => wave (Some 1) (Some 0) (Some (24 * (x - tref) * f))) frq) t.
Proof.
  intros Hg. unfold ut_E. rewrite Hg. unfold ones, lin_arg.
  rewrite <- !(map_const_repeat _ frq), <- !(map_const_repeat _ t), !bcast_map, E_rows_map. apply map_ext. intros x.
  rewrite map_map. rewrite E_row_map. reflexivity.
Qed.

(** with frequencies from the linearised table both paths agree *)
Lemma ut_E_rows t tref lind lat g :
  ut_E t tref (map (fun i => nth i (linearized_freqs tref) 0) lind) lind lat g =
  map (fun x => map (basis_at g tref lat x) lind) t.
Proof.
  destruct (NodsatNone g && GwchNone g) eqn:Hg; [|now apply ut_E_general].
  rewrite ut_E_short by assumption. apply map_ext. intros x. rewrite map_map. apply map_ext. intros i.
  apply andb_prop in Hg. destruct Hg as [H1 H2]. unfold basis_at, F_at, U_at, V_at. now rewrite H1, H2.
Qed.
