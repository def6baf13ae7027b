(** Least squares with a basis closed under conjugation: weights of the estimates and inverse Gram matrices. *)
From Coq Require Import Lia Lra Permutation.
From Coquelicot Require Import Complex.
From Verif Require Import M_Base L_Base L_Angle L_Model6 L_Model9.
Open Scope R_scope.

Definition Sm (n : nat) (f : nat -> C) : C := csum (map f (seq 0 n)).

Lemma csum_app a b : csum (a ++ b)%list = Cplus (csum a) (csum b).
Proof. induction a as [|x a IH]; cbn [app]; [cbn [csum fold_right]; apply C_eq; cbn; ring|]. rewrite !csum_cons', IH. apply C_eq; cbn; ring. Qed.
Lemma Sm_S n f : Sm (S n) f = Cplus (Sm n f) (f n).
Proof. unfold Sm. rewrite seq_S, map_app, csum_app. cbn [map plus]. rewrite csum_cons'. apply C_eq; cbn; ring. Qed.
Lemma Sm_ext n f g : (forall a, (a < n)%nat -> f a = g a) -> Sm n f = Sm n g.
Proof. intros H. unfold Sm. f_equal. apply map_ext_in. intros a Ha. apply in_seq in Ha. apply H. lia. Qed.
Lemma Sm_0 n f : (forall a, (a < n)%nat -> f a = RtoC 0) -> Sm n f = RtoC 0.
Proof. induction n as [|n IH]; intros H; [reflexivity|]. rewrite Sm_S, IH, H by auto. apply C_eq; cbn; ring. Qed.
Lemma Sm_plus n f g : Sm n (fun a => Cplus (f a) (g a)) = Cplus (Sm n f) (Sm n g).
Proof. induction n as [|n IH]; [apply C_eq; cbn; ring|]. rewrite !Sm_S, IH. apply C_eq; cbn; ring. Qed.
Lemma Sm_minus n f g : Sm n (fun a => Cminus (f a) (g a)) = Cminus (Sm n f) (Sm n g).
Proof. induction n as [|n IH]; [apply C_eq; cbn; ring|]. rewrite !Sm_S, IH. apply C_eq; cbn; ring. Qed.
Lemma Sm_l n k f : Sm n (fun a => Cmult k (f a)) = Cmult k (Sm n f).
Proof. induction n as [|n IH]; [apply C_eq; cbn; ring|]. rewrite !Sm_S, IH. apply C_eq; cbn; ring. Qed.
Lemma Sm_r n k f : Sm n (fun a => Cmult (f a) k) = Cmult (Sm n f) k.
Proof. induction n as [|n IH]; [apply C_eq; cbn; ring|]. rewrite !Sm_S, IH. apply C_eq; cbn; ring. Qed.
Lemma Sm_conj n f : Cconj (Sm n f) = Sm n (fun a => Cconj (f a)).
Proof. induction n as [|n IH]; [apply C_eq; cbn; ring|]. rewrite !Sm_S, <- IH. apply C_eq; cbn; ring. Qed.
Lemma Sm_swap n k (f : nat -> nat -> C) : Sm n (fun a => Sm k (f a)) = Sm k (fun b => Sm n (fun a => f a b)).
Proof.
  induction n as [|n IH]; [symmetry; apply Sm_0; reflexivity|]. rewrite Sm_S, IH, <- Sm_plus. apply Sm_ext. intros b _.
  now rewrite Sm_S.
Qed.
Lemma Sm_add n k f : Sm (n + k) f = Cplus (Sm n f) (Sm k (fun a => f (n + a)%nat)).
Proof.
  induction k as [|k IH]; [rewrite Nat.add_0_r; apply C_eq; cbn; ring|].
  rewrite Nat.add_succ_r, !Sm_S, IH. apply C_eq; cbn; ring.
Qed.
Definition kd (i j : nat) : C := if Nat.eqb i j then RtoC 1 else RtoC 0.
Lemma Sm_kd n i f : (i < n)%nat -> Sm n (fun a => Cmult (kd i a) (f a)) = f i.
Proof.
  induction n as [|n IH]; intros H; [lia|]. rewrite Sm_S. destruct (Nat.eq_dec i n) as [->|N].
  - rewrite Sm_0; unfold kd.
    + rewrite Nat.eqb_refl. apply C_eq; cbn; ring.
    + intros a Ha. destruct (Nat.eqb_spec n a); [lia|]. apply C_eq; cbn; ring.
  - rewrite IH by lia. unfold kd. destruct (Nat.eqb_spec i n); [lia|]. apply C_eq; cbn; ring.
Qed.
Lemma kd_sym i j : kd i j = kd j i. Proof. unfold kd. now rewrite Nat.eqb_sym. Qed.

Definition inv_of (n : nat) (M X : nat -> nat -> C) : Prop :=
  forall i j, (i < n)%nat -> (j < n)%nat ->
    Sm n (fun k => Cmult (M i k) (X k j)) = kd i j /\ Sm n (fun k => Cmult (X i k) (M k j)) = kd i j.

(** M y = z gives y = X z, and the other way round *)
Lemma solve_with n M X y z : inv_of n M X -> (forall i, (i < n)%nat -> Sm n (fun k => Cmult (M i k) (y k)) = z i) ->
  forall i, (i < n)%nat -> Sm n (fun k => Cmult (X i k) (z k)) = y i.
Proof.
  intros H E i Hi. transitivity (Sm n (fun k => Sm n (fun l => Cmult (Cmult (X i k) (M k l)) (y l)))).
  - apply Sm_ext. intros k Hk. rewrite <- (E k Hk), <- Sm_l. apply Sm_ext. intros l _. apply C_eq; cbn; ring.
  - rewrite Sm_swap. transitivity (Sm n (fun l => Cmult (kd i l) (y l))); [|now apply Sm_kd].
    apply Sm_ext. intros l Hl. rewrite Sm_r. now rewrite (proj2 (H i l Hi Hl)).
Qed.
Lemma inv_of_sym n M X : inv_of n M X -> inv_of n X M.
Proof. intros H i j Hi Hj. destruct (H i j Hi Hj). auto. Qed.

(** an inverse of a symmetric (Hermitian) matrix is symmetric (Hermitian); [f] is the identity or the conjugation *)
Lemma inv_sym n M X (f : C -> C) : (forall a b, f (Cmult a b) = Cmult (f a) (f b)) -> (forall k g, f (Sm k g) = Sm k (fun a => f (g a))) ->
  f (RtoC 0) = RtoC 0 -> f (RtoC 1) = RtoC 1 -> inv_of n M X -> (forall i j, (i < n)%nat -> (j < n)%nat -> M i j = f (M j i)) ->
  forall i j, (i < n)%nat -> (j < n)%nat -> X i j = f (X j i).
Proof.
  intros F1 F2 F3 F4 H S i j Hi Hj. symmetry.
  rewrite <- (Sm_kd n j (fun a => X i a)) by exact Hj.
  assert (E := solve_with n M X (fun k => f (X j k)) (fun k => kd j k) H). cbv beta in E.
  rewrite <- (E ltac:(intros k Hk; transitivity (f (Sm n (fun l => Cmult (X j l) (M l k))));
     [rewrite F2; apply Sm_ext; intros l Hl; rewrite F1, (S k l Hk Hl); apply C_eq; cbn; ring
     |rewrite (proj2 (H j k Hj Hk)); unfold kd; destruct (Nat.eqb j k); auto]) i Hi).
  apply Sm_ext. intros k Hk. apply C_eq; cbn; ring.
Qed.

Lemma inv_symmetric n M X : inv_of n M X -> (forall i j, (i < n)%nat -> (j < n)%nat -> M i j = M j i) ->
  forall i j, (i < n)%nat -> (j < n)%nat -> X i j = X j i.
Proof. intros H S. apply (inv_sym n M X (fun z => z)); auto. Qed.
Lemma inv_hermitian n M X : inv_of n M X -> (forall i j, (i < n)%nat -> (j < n)%nat -> M i j = Cconj (M j i)) ->
  forall i j, (i < n)%nat -> (j < n)%nat -> X i j = Cconj (X j i).
Proof.
  intros H S. apply (inv_sym n M X Cconj); auto.
  - intros a b. apply Cconj_mult.
  - intros. apply Sm_conj.
  - apply Cconj_R.
  - apply Cconj_R.
Qed.

Section Weights.
Variables (n N : nat) (b : nat -> nat -> C) (P : nat -> nat).
Hypothesis P_lt : forall a, (a < N)%nat -> (P a < N)%nat.
Hypothesis P_conj : forall s a, (s < n)%nat -> (a < N)%nat -> Cconj (b s a) = b s (P a).
Hypothesis P_sum : forall f, Sm N (fun a => f (P a)) = Sm N f.
Hypothesis P_P : forall a, (a < N)%nat -> P (P a) = a.
Notation M := (fun a a' => Sm n (fun s => Cmult (Cconj (b s a)) (b s a'))).
Notation T := (fun a a' => Sm n (fun s => Cmult (b s a) (b s a'))).
Variables (X Y : nat -> nat -> C).
Hypothesis HX : inv_of N M X.
Hypothesis HY : inv_of N T Y.
Variable tau : nat -> C.
Hypothesis tau_conj : forall a, (a < N)%nat -> Cconj (tau (P a)) = tau a.

Definition yv (a : nat) : C := Sm N (fun a' => Cmult (X a a') (tau a')).
Definition phi (s : nat) : C := Sm N (fun a => Cmult (b s a) (yv a)).

Lemma M_y a : (a < N)%nat -> Sm N (fun a' => Cmult (M a a') (yv a')) = tau a.
Proof.
  intros Ha. apply (solve_with N X M tau yv (inv_of_sym _ _ _ HX)); auto.
Qed.

Lemma dual a : (a < N)%nat -> Sm n (fun s => Cmult (Cconj (b s a)) (phi s)) = tau a.
Proof.
  intros Ha. rewrite <- (M_y a Ha). unfold phi.
  transitivity (Sm n (fun s => Sm N (fun a' => Cmult (Cmult (Cconj (b s a)) (b s a')) (yv a')))).
  - apply Sm_ext. intros s _. rewrite <- Sm_l. apply Sm_ext. intros a' _. apply C_eq; cbn; ring.
  - rewrite Sm_swap. apply Sm_ext. intros a' _. now rewrite Sm_r.
Qed.

Lemma y_conj a : (a < N)%nat -> Cconj (yv (P a)) = yv a.
Proof.
  intros Ha. unfold yv at 2.
  apply eq_sym, (solve_with N M X (fun a => Cconj (yv (P a))) tau HX); auto. clear a Ha. intros a Ha.
  rewrite <- (tau_conj a Ha), <- (M_y (P a) (P_lt a Ha)), Sm_conj.
  rewrite <- (P_sum (fun a' => Cconj (Cmult (Sm n (fun s => Cmult (Cconj (b s (P a))) (b s a'))) (yv a')))).
  apply Sm_ext. intros a' Ha'. rewrite Cconj_mult. f_equal. rewrite Sm_conj. apply Sm_ext. intros s Hs.
  rewrite Cconj_mult, Cconj_conj, <- !P_conj, Cconj_conj by auto. apply C_eq; cbn; ring.
Qed.

Lemma phi_real s : (s < n)%nat -> Cconj (phi s) = phi s.
Proof.
  intros Hs. unfold phi. rewrite Sm_conj, <- (P_sum (fun a => Cconj (Cmult (b s a) (yv a)))). apply Sm_ext. intros a Ha.
  rewrite Cconj_mult, y_conj, <- P_conj, Cconj_conj by auto. reflexivity.
Qed.

Lemma dual_T a : (a < N)%nat -> Sm n (fun s => Cmult (b s a) (phi s)) = Cconj (tau a).
Proof.
  intros Ha. rewrite <- (dual a Ha), Sm_conj. apply Sm_ext. intros s Hs. rewrite Cconj_mult, Cconj_conj, phi_real by auto. reflexivity.
Qed.

Lemma Y_tau a : (a < N)%nat -> Sm N (fun a' => Cmult (Y a a') (Cconj (tau a'))) = yv a.
Proof.
  intros Ha. apply (solve_with N T Y yv (fun a => Cconj (tau a)) HY); auto. clear a Ha. intros a Ha.
  rewrite <- (dual_T a Ha). unfold phi.
  transitivity (Sm n (fun s => Sm N (fun a' => Cmult (Cmult (b s a) (b s a')) (yv a')))).
  - rewrite Sm_swap. apply Sm_ext. intros a' _. now rewrite Sm_r.
  - apply Sm_ext. intros s _. rewrite <- Sm_l. apply Sm_ext. intros a' _. apply C_eq; cbn; ring.
Qed.

(** pairing of phi with anything that has the same products with the basis as z *)
Lemma pair_phi (x : nat -> C) (z : nat -> C) :
  (forall a, (a < N)%nat -> Sm n (fun s => Cmult (Cconj (b s a)) (x s)) = z a) ->
  Sm n (fun s => Cmult (phi s) (x s)) = Sm N (fun a => Cmult (Cconj (yv a)) (z a)).
Proof.
  intros H. transitivity (Sm n (fun s => Sm N (fun a => Cmult (Cconj (yv a)) (Cmult (Cconj (b s a)) (x s))))).
  - apply Sm_ext. intros s Hs. rewrite <- phi_real by auto. unfold phi. rewrite Sm_conj, <- Sm_r. apply Sm_ext. intros a _.
    rewrite Cconj_mult. apply C_eq; cbn; ring.
  - rewrite Sm_swap. apply Sm_ext. intros a Ha. now rewrite Sm_l, H.
Qed.

Lemma phi_phi : Sm n (fun s => Cmult (phi s) (phi s)) = Sm N (fun a => Cmult (Cconj (tau a)) (yv a)).
Proof.
  transitivity (Cconj (Sm n (fun s => Cmult (phi s) (phi s)))).
  - rewrite Sm_conj. apply Sm_ext. intros s Hs. rewrite Cconj_mult, phi_real by auto. reflexivity.
  - rewrite (pair_phi phi tau dual), Sm_conj. apply Sm_ext. intros a _. rewrite Cconj_mult, Cconj_conj. apply C_eq; cbn; ring.
Qed.

(** the estimates are weighted sums of the data *)
Lemma phi_data (x m : nat -> C) :
  (forall a, (a < N)%nat -> Sm n (fun s => Cmult (Cconj (b s a)) (Cminus (x s) (Sm N (fun a' => Cmult (b s a') (m a'))))) = RtoC 0) ->
  Sm n (fun s => Cmult (phi s) (x s)) = Sm N (fun a => Cmult (Cconj (tau a)) (m a)).
Proof.
  intros H. rewrite (pair_phi x (fun a => Sm n (fun s => Cmult (Cconj (b s a)) (Sm N (fun a' => Cmult (b s a') (m a')))))).
  2: { intros a Ha. assert (E := H a Ha).
    transitivity (Cplus (Sm n (fun s => Cmult (Cconj (b s a)) (Cminus (x s) (Sm N (fun a' => Cmult (b s a') (m a'))))))
                        (Sm n (fun s => Cmult (Cconj (b s a)) (Sm N (fun a' => Cmult (b s a') (m a')))))).
    - rewrite <- Sm_plus. apply Sm_ext. intros s _. apply C_eq; cbn; ring.
    - rewrite E. apply C_eq; cbn; ring. }
  transitivity (Sm n (fun s => Cmult (Cconj (phi s)) (Sm N (fun a' => Cmult (b s a') (m a'))))).
  - transitivity (Sm N (fun a => Sm n (fun s => Cmult (Cconj (Cmult (b s a) (yv a))) (Sm N (fun a' => Cmult (b s a') (m a')))))).
    + apply Sm_ext. intros a _. rewrite <- Sm_l. apply Sm_ext. intros s _. rewrite Cconj_mult. apply C_eq; cbn; ring.
    + rewrite Sm_swap. apply Sm_ext. intros s _. rewrite Sm_r. f_equal. unfold phi. now rewrite Sm_conj.
  - transitivity (Sm n (fun s => Sm N (fun a' => Cmult (Cmult (Cconj (phi s)) (b s a')) (m a')))).
    + apply Sm_ext. intros s _. rewrite <- Sm_l. apply Sm_ext. intros a' _. apply C_eq; cbn; ring.
    + rewrite Sm_swap. apply Sm_ext. intros a' Ha'. rewrite Sm_r. f_equal. rewrite <- (dual a' Ha'), Sm_conj. apply Sm_ext. intros s _.
      rewrite Cconj_mult, Cconj_conj. apply C_eq; cbn; ring.
Qed.

(** among all real weights with the same products, phi has the least sum of squares *)
Lemma phi_least (psi : nat -> R) : (forall a, (a < N)%nat -> Sm n (fun s => Cmult (Cconj (b s a)) (RtoC (psi s))) = tau a) ->
  Sm n (fun s => Cmult (RtoC (psi s)) (RtoC (psi s))) =
  Cplus (Sm n (fun s => Cmult (phi s) (phi s))) (Sm n (fun s => Cmult (Cminus (RtoC (psi s)) (phi s)) (Cminus (RtoC (psi s)) (phi s)))).
Proof.
  intros H. assert (E : Sm n (fun s => Cmult (phi s) (RtoC (psi s))) = Sm n (fun s => Cmult (phi s) (phi s))).
  { rewrite (pair_phi _ _ H), (pair_phi _ _ dual). reflexivity. }
  transitivity (Cplus (Cplus (Sm n (fun s => Cmult (phi s) (phi s))) (Sm n (fun s => Cmult (Cminus (RtoC (psi s)) (phi s)) (Cminus (RtoC (psi s)) (phi s)))))
     (Cmult (RtoC 2) (Cminus (Sm n (fun s => Cmult (phi s) (RtoC (psi s)))) (Sm n (fun s => Cmult (phi s) (phi s)))))).
  - rewrite <- Sm_minus, <- Sm_l, <- !Sm_plus. apply Sm_ext. intros s _. apply C_eq; cbn; ring.
  - rewrite E. apply C_eq; cbn; ring.
Qed.
End Weights.
