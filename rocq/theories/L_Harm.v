(** Astronomical arguments: wrapping, derivatives, linearised frequencies. *)
From Coq Require Import QArith Qreals Lia Lra.
From Coquelicot Require Import Coquelicot.
From Verif Require Import M_Base M_Tables M_Const M_Slvinit M_Harmonics S_Tables L_Base L_Tables S_Basis S_Harm.
Open Scope R_scope.

(** ** integers *)
Lemma int_0 : is_integer 0. Proof. now exists 0%Z. Qed.
Lemma int_IZR z : is_integer (IZR z). Proof. now exists z. Qed.
Lemma int_add a b : is_integer a -> is_integer b -> is_integer (a + b).
Proof. intros [x ->] [y ->]. exists (x + y)%Z. now rewrite plus_IZR. Qed.
Lemma int_sub a b : is_integer a -> is_integer b -> is_integer (a - b).
Proof. intros [x ->] [y ->]. exists (x - y)%Z. now rewrite minus_IZR. Qed.
Lemma int_opp a : is_integer a -> is_integer (- a).
Proof. intros [x ->]. exists (- x)%Z. now rewrite opp_IZR. Qed.
Lemma int_mul a b : is_integer a -> is_integer b -> is_integer (a * b).
Proof. intros [x ->] [y ->]. exists (x * y)%Z. now rewrite mult_IZR. Qed.
Lemma int_sum (l : list R) : (forall x, In x l -> is_integer x) -> is_integer (rsum l).
Proof.
  unfold rsum. induction l as [|a l IH]; intros H; cbn; [apply int_0|]. apply int_add; [apply H; now left|]. apply IH. intros x Hx. apply H. now right.
Qed.
Lemma int_fmod x : is_integer (fmod1 x - x).
Proof. unfold fmod1. exists (- rtrunc x)%Z. rewrite opp_IZR. ring. Qed.
Lemma int_pymod x : is_integer (pymod x 1 - x).
Proof. unfold pymod. exists (- Int_part (x / 1))%Z. rewrite opp_IZR. ring. Qed.

(** ** the six variables *)
Lemma daten_val : daten = 693595.5. Proof. unfold daten. lra. Qed.
Lemma poly_row a b c e jd : let d := jd - daten in let D := d / 10000 in
  rdot [a; b; c; e] [1; d; D * D; D * D * D] / 360 = poly a b c e jd.
Proof. cbv zeta. unfold poly, rdot, rsum. cbn [map combine fold_right fst snd]. rewrite daten_val. field. Qed.

Lemma coefs_val : astro_coefs =
  [[270.434164; 13.1763965268; -0.0000850; 0.000000039]; [279.696678; 0.9856473354; 0.00002267; 0];
   [334.329556; 0.1114040803; -0.0007739; -0.00000026]; [-259.183275; 0.0529539222; -0.0001557; -0.000000050];
   [281.220844; 0.0000470684; 0.0000339; 0.000000070]].
Proof. unfold astro_coefs. repeat (apply f_equal2; [repeat (apply f_equal2; [lra|]); reflexivity|]). reflexivity. Qed.

Lemma astro_eq jd : astro jd = [pymod jd 1 + fmod1 (sun jd) - fmod1 (moon jd); fmod1 (moon jd); fmod1 (sun jd);
  fmod1 (perigee jd); fmod1 (node jd); fmod1 (perihelion jd)].
Proof.
  unfold astro. rewrite coefs_val. cbn [map]. rewrite !poly_row. reflexivity.
Qed.
Lemma ader_eq jd : ader jd =
  let d := jd - daten in let D := d / 10000 in
  let r b c e := (b + c * (2 / 10 ^ 4 * D) + e * (3 / 10 ^ 4 * D * D)) / 360 in
  let m := r 13.1763965268 (-0.0000850) 0.000000039 in let s := r 0.9856473354 0.00002267 0 in
  [1 + s - m; m; s; r 0.1114040803 (-0.0007739) (-0.00000026); r 0.0529539222 (-0.0001557) (-0.000000050);
   r 0.0000470684 0.0000339 0.000000070].
Proof.
  unfold ader. rewrite coefs_val. cbn [map]. unfold rdot, rsum. cbn [map combine fold_right fst snd nth]. cbv zeta.
  repeat (apply f_equal2; [field|]). reflexivity.
Qed.

Lemma astro_len jd : length (astro jd) = 6%nat. Proof. reflexivity. Qed.
Lemma ader_len jd : length (ader jd) = 6%nat. Proof. reflexivity. Qed.

Lemma astro_wrap jd i : (i < 6)%nat -> is_integer (nth i (astro jd) 0 - astro_var i jd).
Proof.
  intros Hi. rewrite astro_eq. unfold astro_var.
  destruct i as [|i]; [|do 5 (destruct i as [|i]; [cbn [nth]; apply int_fmod|]); lia].
  cbn [nth]. unfold lunar_time. replace (pymod jd 1 + fmod1 (sun jd) - fmod1 (moon jd) - (jd + sun jd - moon jd)) with
    ((pymod jd 1 - jd) + (fmod1 (sun jd) - sun jd) - (fmod1 (moon jd) - moon jd)) by ring.
  apply int_sub; [apply int_add|]; auto using int_pymod, int_fmod.
Qed.

Lemma poly_derive a b c e jd : let D := (jd - daten) / 10000 in
  is_derive (poly a b c e) jd ((b + c * (2 / 10 ^ 4 * D) + e * (3 / 10 ^ 4 * D * D)) / 360).
Proof. cbv zeta. unfold poly. rewrite daten_val. auto_derive; auto. field. Qed.

Lemma astro_derive jd i : (i < 6)%nat -> is_derive (astro_var i) jd (nth i (ader jd) 0).
Proof.
  intros Hi. rewrite ader_eq. unfold astro_var. cbv zeta.
  assert (T : forall b c e b' c' e' a a', is_derive (fun x => x + poly a' b' c' e' x - poly a b c e x) jd
    (1 + (b' + c' * (2 / 10 ^ 4 * ((jd - daten) / 10000)) + e' * (3 / 10 ^ 4 * ((jd - daten) / 10000) * ((jd - daten) / 10000))) / 360
     - (b + c * (2 / 10 ^ 4 * ((jd - daten) / 10000)) + e * (3 / 10 ^ 4 * ((jd - daten) / 10000) * ((jd - daten) / 10000))) / 360)).
  { intros. apply (is_derive_minus (fun x => x + poly a' b' c' e' x) (poly a b c e)).
    - apply (is_derive_plus (fun x => x) (poly a' b' c' e')); [apply (is_derive_id jd)|apply poly_derive].
    - apply poly_derive. }
  do 6 (destruct i as [|i]; [cbn [nth]; first [apply poly_derive|apply T]|]). lia.
Qed.

(** ** arguments of the constituents *)
Lemma rdot_doodson d x : length d = 6%nat -> length x = 6%nat -> rdot (zrow d) x = doodson_sum d (fun i => nth i x 0).
Proof.
  destruct d as [|d0 [|d1 [|d2 [|d3 [|d4 [|d5 [|]]]]]]]; try discriminate.
  destruct x as [|x0 [|x1 [|x2 [|x3 [|x4 [|x5 [|]]]]]]]; try discriminate. intros _ _. reflexivity.
Qed.
Lemma doodson_int d x y : (forall i, (i < 6)%nat -> is_integer (x i - y i)) -> is_integer (doodson_sum d x - doodson_sum d y).
Proof.
  intros H. unfold doodson_sum. cbn [seq map fold_right].
  match goal with |- is_integer ?g =>
    replace g with (rsum (map (fun i => IZR (nth i d 0%Z) * (x i - y i)) (seq 0 6))) by (unfold rsum; cbn [seq map fold_right]; ring) end.
  apply int_sum. intros z Hz. apply in_map_iff in Hz. destruct Hz as (i & <- & Hi). apply in_seq in Hi.
  apply int_mul; [apply int_IZR|]. apply H. lia.
Qed.

Lemma nth_combine_map {A B D} (f : A * B -> D) (l : list A) (m : list B) k a b d0 : (k < length l)%nat -> length l = length m ->
  nth k (map f (combine l m)) d0 = f (nth k l a, nth k m b).
Proof.
  intros Hk Hl. rewrite (nth_indep _ d0 (f (a, b))) by (rewrite map_length, combine_length; lia).
  rewrite (map_nth f), combine_nth by assumption. reflexivity.
Qed.

Lemma int_wrap a b c : is_integer (a - b) -> is_integer (fmod1 (a + c) - (b + c)).
Proof.
  intros H. replace (fmod1 (a + c) - (b + c)) with ((fmod1 (a + c) - (a + c)) + (a - b)) by ring.
  apply int_add; [apply int_fmod|exact H].
Qed.

Lemma primary_data k : is_primary k -> (k < 146)%nat /\ exists d s, nth k const_doodson None = Some d /\ nth k const_semi None = Some s /\
  length d = 6%nat /\ nth k const_ishallow None = None.
Proof.
  intros Hp. destruct (proj1 (primary_in k) Hp) as [Hk Hn]. split; auto.
  destruct (class_k k Hk) as (C1 & _ & C3 & C4 & C5).
  assert (E : in_natb k kshallow = false) by (apply not_true_iff_false; intros X; apply in_natb_iff in X; contradiction).
  rewrite E in *. destruct (nth k const_doodson None) as [d|]; [|discriminate]. destruct (nth k const_semi None) as [s|]; [|discriminate].
  destruct (nth k const_ishallow None); [discriminate|]. exists d, s. repeat split; assumption.
Qed.
Lemma shallow_data k : is_shallow k -> exists i, nth k const_ishallow None = Some i.
Proof. intros [i H]. exists i. now apply nth_error_nth. Qed.

Lemma V_primary jd k : is_primary k -> exists d s, nth k const_doodson None = Some d /\ nth k const_semi None = Some s /\ length d = 6%nat /\
  nth k (V_col jd) None = Some (fmod1 (doodson_sum d (fun i => nth i (astro jd) 0) + Q2R s)).
Proof.
  intros Hp. destruct (primary_data k Hp) as (Hk & d & s & E1 & E2 & E3 & _). exists d, s. repeat (split; [assumption|]).
  unfold V_col. set (x := map _ (combine const_doodson const_semi)). assert (Hx : length x = 146%nat) by reflexivity.
  transitivity (nth k x None); [exact (proj1 (sh_fold_eq None (fun ik v => omul v (Some (sh_coef ik))) osum x Hx) k Hp)|].
  unfold x. rewrite (nth_combine_map _ const_doodson const_semi k None None) by first [exact Hk|reflexivity].
  rewrite E1, E2, rdot_doodson by (auto using astro_len). reflexivity.
Qed.
Lemma arg_of_primary jd k : is_primary k -> arg k jd = arg_primary k jd.
Proof. intros Hp. destruct (primary_data k Hp) as (_ & d & s & _ & _ & _ & E). unfold arg. rewrite E. reflexivity. Qed.
Lemma arg_of_shallow jd k : is_shallow k -> arg k jd = rsum (map (fun r => row_coef r * arg_primary (row_parent r) jd) (rows_of k)).
Proof. intros Hs. destruct (shallow_data k Hs) as [i E]. unfold arg, rsum. rewrite E. reflexivity. Qed.

Lemma V_primary_wrap jd k : is_primary k -> exists v, nth k (V_col jd) None = Some v /\ is_integer (v - arg k jd).
Proof.
  intros Hp. destruct (V_primary jd k Hp) as (d & s & E1 & E2 & E3 & E4). eexists. split; [exact E4|].
  rewrite arg_of_primary by assumption. unfold arg_primary. rewrite E1, E2.
  apply int_wrap.
  apply doodson_int. intros i Hi. now apply astro_wrap.
Qed.

Lemma int_step a b c e f : is_integer (a * (b - e)) -> is_integer (c - f) -> is_integer (a * b + c - (a * e + f)).
Proof. intros H1 H2. replace (a * b + c - (a * e + f)) with (a * (b - e) + (c - f)) by ring. now apply int_add. Qed.
Definition M7 : nat := 117.
Lemma osum_some (l : list nat) (f : nat -> option R) (g : nat -> R) : (forall r, In r l -> f r = Some (g r)) ->
  osum (map f l) = Some (rsum (map g l)).
Proof.
  induction l as [|r l IH]; intros H; cbn; auto. rewrite (H r) by now left. cbn in IH. fold (osum (map f l)).
  rewrite IH by (intros; apply H; now right). reflexivity.
Qed.
Definition oget0 (o : option R) : R := match o with Some x => x | None => 0 end.

Lemma V_shallow jd k : is_shallow k -> nth k (V_col jd) None =
  Some (rsum (map (fun r => row_coef r * oget0 (nth (row_parent r) (V_col jd) None)) (rows_of k))).
Proof.
  intros Hs. rewrite V_col_eq by assumption. apply osum_some. intros r Hr.
  assert (Hp := row_parent_primary k r Hr Hs). destruct (V_primary_wrap jd _ Hp) as (v & E & _). rewrite E. cbn. f_equal. ring.
Qed.

Lemma row_coef_int k r : is_shallow k -> k <> M7 -> In r (rows_of k) -> is_integer (row_coef r).
Proof.
  intros Hs Hk Hr. destruct (shallow_loop_of k Hs) as (i0 & n & Hin). rewrite <- (loop_rows _ _ _ Hin) in Hr. apply in_seq in Hr.
  destruct (sh_coef_int r k _ _ (row_of_loop _ _ _ _ Hin Hr)) as [z Hz].
  - intros E. apply Hk. exact (index_NoDup _ _ _ E (proj1 (proj2 M7_row))).
  - exists z. exact Hz.
Qed.

Lemma V_wrap jd k : (k < 146)%nat -> exists v, nth k (V_col jd) None = Some v /\ (k <> M7 -> is_integer (v - arg k jd)).
Proof.
  intros Hk. destruct (shallow_or_primary k Hk) as [Hs|Hp].
  - eexists. split; [now apply V_shallow|]. intros HM. rewrite arg_of_shallow by assumption.
    assert (G : forall l, (forall r, In r l -> In r (rows_of k)) -> is_integer
      (rsum (map (fun r => row_coef r * oget0 (nth (row_parent r) (V_col jd) None)) l) - rsum (map (fun r => row_coef r * arg_primary (row_parent r) jd) l))).
    { unfold rsum. induction l as [|r l IH]; intros H; cbn [map fold_right].
      - replace (0 - 0) with 0 by ring. apply int_0.
      - apply int_step; [|apply IH; intros; apply H; now right]. assert (Hr := H r (or_introl eq_refl)).
        apply int_mul; [now apply (row_coef_int k)|]. assert (Hp := row_parent_primary k r Hr Hs).
        destruct (V_primary_wrap jd _ Hp) as (v & E & I). rewrite E. cbn [oget0]. now rewrite arg_of_primary in I. }
    apply G. auto.
  - destruct (V_primary_wrap jd k Hp) as (v & E & I). eauto.
Qed.

(** ** derivatives *)
Lemma derive_sum (l : list nat) (f : nat -> R -> R) (df : nat -> R) x : (forall i, In i l -> is_derive (f i) x (df i)) ->
  is_derive (fun y => rsum (map (fun i => f i y) l)) x (rsum (map df l)).
Proof.
  unfold rsum. induction l as [|i l IH]; intros H; cbn [map fold_right].
  - apply (is_derive_const (0 : R) x).
  - apply (is_derive_plus (f i) (fun y => fold_right Rplus 0 (map (fun i => f i y) l))); [apply H; now left|]. apply IH. intros; apply H; now right.
Qed.
Lemma derive_scale c f x l : is_derive f x l -> is_derive (fun y => c * f y) x (c * l).
Proof. intros H. apply (is_derive_scal f x c l H). Qed.

Lemma primary_derive jd k d : is_primary k -> nth k const_doodson None = Some d ->
  is_derive (arg_primary k) jd (doodson_sum d (fun i => nth i (ader jd) 0)).
Proof.
  intros Hp Ed. destruct (primary_data k Hp) as (_ & d' & s & E1 & E2 & _). rewrite Ed in E1. injection E1 as <-.
  unfold arg_primary. rewrite Ed, E2.
  replace (doodson_sum d (fun i => nth i (ader jd) 0)) with (doodson_sum d (fun i => nth i (ader jd) 0) + 0) by ring.
  apply (is_derive_plus (fun x => doodson_sum d (fun i => astro_var i x)) (fun _ => Q2R s)); [|apply (is_derive_const (Q2R s : R) jd)].
  unfold doodson_sum. apply (derive_sum (seq 0 6) (fun i x => IZR (nth i d 0%Z) * astro_var i x) (fun i => IZR (nth i d 0%Z) * nth i (ader jd) 0)).
  intros i Hi. apply in_seq in Hi. apply derive_scale. apply astro_derive. lia.
Qed.

Lemma lin_primary tref k d : is_primary k -> nth k const_doodson None = Some d ->
  nth k (linearized_freqs tref) 0 = doodson_sum d (fun i => nth i (ader tref) 0) / 24.
Proof.
  intros Hp Ed. destruct (primary_data k Hp) as (Hk & d' & s & E1 & E2 & E3 & _). rewrite Ed in E1. injection E1 as <-.
  unfold linearized_freqs. set (x := map _ (combine freqR const_doodson)). assert (Hx : length x = 146%nat) by reflexivity.
  transitivity (nth k x 0); [exact (proj1 (sh_fold_eq 0 (fun ik v => v * sh_coef ik) rsum x Hx) k Hp)|].
  unfold x. rewrite (nth_combine_map _ freqR const_doodson k 0 None) by first [exact Hk|reflexivity].
  cbn [snd]. rewrite Ed, rdot_doodson by (auto using ader_len). reflexivity.
Qed.

Lemma d24 a : 24 * (a / 24) = a. Proof. field. Qed.
Lemma scale_sum (f g : nat -> R) l : rsum (map (fun r => f r * (24 * g r)) l) = 24 * rsum (map (fun r => g r * f r) l).
Proof. unfold rsum. induction l as [|r l IH]; cbn [map fold_right]; [ring|]. rewrite IH. ring. Qed.
Lemma lin_derive tref k : (k < 146)%nat -> is_derive (arg k) tref (24 * nth k (linearized_freqs tref) 0).
Proof.
  intros Hk. destruct (shallow_or_primary k Hk) as [Hs|Hp].
  - apply (is_derive_ext (fun x => rsum (map (fun r => row_coef r * arg_primary (row_parent r) x) (rows_of k)))).
    { intros x. symmetry. now apply arg_of_shallow. }
    rewrite lin_freq_eq by assumption.
    replace (24 * rsum (map (fun r => nth (row_parent r) (linearized_freqs tref) 0 * row_coef r) (rows_of k))) with
      (rsum (map (fun r => row_coef r * (24 * nth (row_parent r) (linearized_freqs tref) 0)) (rows_of k))).
    + apply (derive_sum (rows_of k) (fun r x => row_coef r * arg_primary (row_parent r) x)
        (fun r => row_coef r * (24 * nth (row_parent r) (linearized_freqs tref) 0))).
      intros r Hr. apply derive_scale. assert (Hp := row_parent_primary k r Hr Hs).
      destruct (primary_data _ Hp) as (_ & d & s & E1 & _). rewrite (lin_primary tref _ d Hp E1).
      rewrite d24. now apply primary_derive.
    + exact (scale_sum (fun r => row_coef r) (fun r => nth (row_parent r) (linearized_freqs tref) 0) (rows_of k)).
  - destruct (primary_data _ Hp) as (_ & d & s & E1 & _). apply (is_derive_ext (arg_primary k)).
    { intros x. symmetry. now apply arg_of_primary. }
    rewrite (lin_primary tref _ d Hp E1).
    rewrite d24. now apply primary_derive.
Qed.
