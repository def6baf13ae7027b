(** Least squares with complex matrices given as lists of rows. *)
From Coq Require Import Lia Lra Psatz.
From Verif Require Import M_Base M_Lib S_Recon S_Model L_Slv2 L_Model.
Open Scope R_scope.

(** real inner product of complex vectors given by functions on a list *)
Definition ip {A} (f g : A -> C) (l : list A) : R :=
  rsum (map (fun a => fst (f a) * fst (g a) + snd (f a) * snd (g a)) l).
Definition nrm {A} (f : A -> C) (l : list A) : R := rsum (map (fun a => fst (f a) ^ 2 + snd (f a) ^ 2) l).

Lemma nrm_nonneg {A} (f : A -> C) l : 0 <= nrm f l.
Proof.
  unfold nrm. induction l as [|a l IH]; [unfold rsum; cbn; lra|]. cbn [map]. rewrite rsum_cons. nra.
Qed.
Lemma nrm_zero {A} (f : A -> C) l : nrm f l = 0 -> forall a, In a l -> f a = RtoC 0.
Proof.
  induction l as [|b l IH]; cbn [map]; intros H a Ha; [destruct Ha|].
  unfold nrm in *. cbn [map] in H. rewrite rsum_cons in H. assert (N := nrm_nonneg f l). unfold nrm in N.
  assert (Z : fst (f b) ^ 2 + snd (f b) ^ 2 = 0) by nra. destruct Ha as [<-|Ha]; [|apply IH; auto; nra].
  destruct (f b) as [x y]. cbn in Z. unfold RtoC. f_equal; nra.
Qed.
Lemma nrm_add {A} (f g : A -> C) e l :
  nrm (fun a => Cplus (f a) (Cmult (RtoC e) (g a))) l = nrm f l + 2 * e * ip f g l + e * e * nrm g l.
Proof.
  unfold nrm, ip. induction l as [|a l IH]; cbn [map].
  - unfold rsum. cbn. ring.
  - rewrite !rsum_cons, IH. unfold Cplus, Cmult, RtoC. cbn [fst snd]. ring.
Qed.
(** stationarity *)
Lemma stationary (N I G : R) : 0 <= G -> (forall e, N <= N + 2 * e * I + e * e * G) -> I = 0.
Proof.
  intros HG H. destruct (Req_dec G 0) as [Z|Z].
  - subst G. assert (A := H (- I)). nra.
  - assert (A := H (- I / G)). assert (0 < G) by lra.
    assert (E : 2 * (- I / G) * I + - I / G * (- I / G) * G = - (I * I / G)) by (field; lra).
    assert (0 <= - (I * I / G)) by lra. assert (0 <= I * I / G) by (apply Rmult_le_pos; [nra|left; now apply Rinv_0_lt_compat]).
    assert (Q : I * I / G = 0) by lra. assert (I * I = 0) by (replace (I * I) with (I * I / G * G) by (field; lra); rewrite Q; ring). nra.
Qed.

(** rows paired with right-hand sides *)
Definition sys (B : list (list C)) (x : list C) : list (list C * C) := combine B x.
Definition resid (m : list C) (p : list C * C) : C := Cminus (cdot (fst p) m) (snd p).
Lemma norm2_sys B x m : norm2 (csub (cmatvec B m) x) = nrm (resid m) (sys B x).
Proof.
  unfold norm2, csub, cmatvec, nrm, sys, resid. revert x. induction B as [|r B IH]; intros [|y x]; cbn [map combine]; auto.
  rewrite !rsum_cons. cbn [fst snd]. f_equal. apply IH.
Qed.

Definition vadd (m d : list C) (e : C) : list C := map (fun p => Cplus (fst p) (Cmult e (snd p))) (combine m d).
Lemma vadd_len m d e : length d = length m -> length (vadd m d e) = length m.
Proof. intros H. unfold vadd. rewrite map_length, combine_length. lia. Qed.
Lemma cdot_vadd row m d e : length d = length m -> cdot row (vadd m d e) = Cplus (cdot row m) (Cmult e (cdot row d)).
Proof.
  unfold vadd. revert m d. induction row as [|x row IH]; intros m d Hl.
  - unfold cdot. cbn. unfold Cplus, Cmult, RtoC. cbn. f_equal; ring.
  - destruct m as [|a m], d as [|b d]; try discriminate.
    + unfold cdot. cbn. unfold Cplus, Cmult, RtoC. cbn. f_equal; ring.
    + cbn [combine map fst snd]. assert (CS : forall a b x y, cdot (a :: x) (b :: y) = Cplus (Cmult a b) (cdot x y)) by reflexivity.
      rewrite !CS, IH by now injection Hl. ring.
Qed.

(** minimality *)
Definition best (l : list (list C * C)) (m : list C) : Prop := forall m', length m' = length m -> nrm (resid m) l <= nrm (resid m') l.

(** a minimiser leaves a residual orthogonal to everything the model can produce *)
Lemma best_orth l m : best l m -> forall d, length d = length m -> ip (resid m) (fun p => cdot (fst p) d) l = 0.
Proof.
  intros H d Hd. apply (stationary (nrm (resid m) l) _ (nrm (fun p => cdot (fst p) d) l)); [apply nrm_nonneg|]. intros e.
  rewrite <- nrm_add. assert (Q := H (vadd m d (RtoC e)) (vadd_len _ _ _ Hd)).
  replace (nrm (fun a => Cplus (resid m a) (Cmult (RtoC e) (cdot (fst a) d))) l) with (nrm (resid (vadd m d (RtoC e))) l); auto.
  unfold nrm. f_equal. apply map_ext. intros p. unfold resid. rewrite cdot_vadd by assumption.
  replace (Cminus (Cplus (cdot (fst p) m) (Cmult (RtoC e) (cdot (fst p) d))) (snd p)) with
    (Cplus (Cminus (cdot (fst p) m) (snd p)) (Cmult (RtoC e) (cdot (fst p) d))) by ring. reflexivity.
Qed.
(** and conversely *)
Lemma orth_best l m : (forall d, length d = length m -> ip (resid m) (fun p => cdot (fst p) d) l = 0) -> best l m.
Proof.
  intros H m' Hm. assert (E : nrm (resid m') l = nrm (fun a => Cplus (resid m a) (Cmult (RtoC 1) (cdot (fst a) (vadd m' m (RtoC (-1)))))) l).
  { unfold nrm. f_equal. apply map_ext. intros p. unfold resid. rewrite cdot_vadd by auto.
    replace (Cplus (Cminus (cdot (fst p) m) (snd p)) (Cmult (RtoC 1) (Cplus (cdot (fst p) m') (Cmult (RtoC (-1)) (cdot (fst p) m)))))
      with (Cminus (cdot (fst p) m') (snd p)); auto.
    unfold Cminus, Cplus, Cmult, Copp, RtoC. cbn [fst snd]. f_equal; ring. }
  rewrite E, nrm_add, H by (rewrite vadd_len; auto). assert (N := nrm_nonneg (fun a => cdot (fst a) (vadd m' m (RtoC (-1)))) l). lra.
Qed.

(** consistent systems are solved exactly *)
Lemma best_exact l m m' : best l m -> length m' = length m -> (forall p, In p l -> resid m' p = RtoC 0) ->
  forall p, In p l -> resid m p = RtoC 0.
Proof.
  intros H Hl Z. apply nrm_zero. assert (Q := H m' Hl). assert (N := nrm_nonneg (resid m) l).
  assert (nrm (resid m') l = 0).
  { unfold nrm. rewrite (map_ext_in _ (fun _ => 0)).
    - rewrite rsum_map_const. ring.
    - intros p Hp. rewrite (Z p Hp). unfold RtoC. cbn. ring. }
  lra.
Qed.

(** columns independent on l *)
Definition independent (l : list (list C * C)) (n : nat) : Prop :=
  forall d, length d = n -> (forall p, In p l -> cdot (fst p) d = RtoC 0) -> forall z, In z d -> z = RtoC 0.
Lemma vadd_zero m m' : length m' = length m -> (forall z, In z (vadd m m' (RtoC (-1))) -> z = RtoC 0) -> m = m'.
Proof.
  unfold vadd. revert m'. induction m as [|a m IH]; intros [|b m'] Hl H; try discriminate; auto. cbn [combine map fst snd] in H.
  f_equal; [|apply IH; [now injection Hl|]; intros z Hz; apply H; now right].
  assert (Z := H _ (or_introl eq_refl)). destruct a as [a1 a2], b as [b1 b2]. unfold Cplus, Cmult, RtoC in Z. cbn in Z. injection Z as Z1 Z2.
  f_equal; lra.
Qed.
(** the minimiser is unique when the columns are independent *)
Lemma best_unique l m m' : best l m -> best l m' -> length m' = length m -> independent l (length m) -> m = m'.
Proof.
  intros H H' Hl Hi. apply vadd_zero; auto. apply Hi; [now apply vadd_len|]. 
  set (d := vadd m m' (RtoC (-1))). assert (Hd : length d = length m) by now apply vadd_len.
  assert (O1 := best_orth _ _ H d Hd). assert (O2 := best_orth _ _ H' d ltac:(congruence)).
  assert (N : nrm (fun p => cdot (fst p) d) l = 0).
  { assert (E : nrm (fun p => cdot (fst p) d) l = ip (resid m) (fun p => cdot (fst p) d) l - ip (resid m') (fun p => cdot (fst p) d) l); [|lra].
    unfold nrm, ip. clear O1 O2. clear - Hl. induction l as [|p l IH]; [unfold rsum; cbn; ring|]. cbn [map]. rewrite !rsum_cons, IH.
    unfold d. rewrite cdot_vadd by auto. unfold resid, Cminus, Cplus, Cmult, Copp, RtoC. cbn [fst snd]. ring. }
  intros p Hp. exact (nrm_zero _ _ N p Hp).
Qed.
