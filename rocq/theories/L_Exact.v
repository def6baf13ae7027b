(** A library whose linear algebra is exact: pseudo-inverse, least squares and inverse by orthogonalisation. *)
From Coq Require Import Lia Lra Permutation.
From Verif Require Import M_Base M_Lib M_Robust M_Conf S_Order S_Model S_Conf S_Period S_Robust S_Errors S_Fit S_Accept S_RobustAccept
  L_Base L_Select L_Slv2 L_Model L_Model6 L_Lsq L_Gauss L_Errors L_Accept2 L_RobustAccept L_Example L_Example9 L_LombEx.
Open Scope R_scope.

Lemma conj_inv z : z <> RtoC 0 -> Cconj (Cinv z) = Cinv (Cconj z).
Proof.
  intros N. assert (D : fst z * fst z + snd z * snd z <> 0).
  { intros Q. apply N. destruct z as [x y]. cbn in Q. unfold RtoC. f_equal; nra. }
  destruct z as [x y]. cbn in D. unfold Cinv, Cconj. cbn. f_equal; field; intros Q; apply D; rewrite <- Q; ring.
Qed.
(** ** the pseudo-inverse of r x n matrices *)
Definition colsq (r n : nat) (X : nat -> nat -> C) : C := Sm r (fun s => Cmult (Cconj (X s n)) (X s n)).
Definition colip (r n : nat) (X : nat -> nat -> C) (j : nat) : C := Sm r (fun s => Cmult (Cconj (X s n)) (X s j)).
Definition perp (r n : nat) (X : nat -> nat -> C) (s j : nat) : C := Cminus (X s j) (Cmult (X s n) (Cdiv (colip r n X j) (colsq r n X))).
Fixpoint pv (r n : nat) (X : nat -> nat -> C) : nat -> nat -> C :=
  match n with
  | O => fun _ _ => RtoC 0
  | S n =>
      if Ceq_dec (colsq r n X) (RtoC 0) then fun j s => if Nat.eqb j n then RtoC 0 else pv r n X j s
      else fun j s => if Nat.eqb j n then Cminus (Cdiv (Cconj (X s n)) (colsq r n X)) (Sm n (fun k => Cmult (Cdiv (colip r n X k) (colsq r n X)) (pv r n (perp r n X) k s)))
                      else pv r n (perp r n X) j s
  end.
Definition hat (r n : nat) (X : nat -> nat -> C) (s t : nat) : C := Sm n (fun j => Cmult (X s j) (pv r n X j t)).

Lemma colsq_real r n X : Cconj (colsq r n X) = colsq r n X.
Proof. unfold colsq. rewrite Sm_conj. apply Sm_ext. intros a _. rewrite Cconj_mult, Cconj_conj. ring. Qed.
Lemma perp_orth r n X j : colsq r n X <> RtoC 0 -> Sm r (fun s => Cmult (Cconj (X s n)) (perp r n X s j)) = RtoC 0.
Proof.
  intros N. transitivity (Cminus (colip r n X j) (Cmult (colsq r n X) (Cdiv (colip r n X j) (colsq r n X)))); [|field; exact N].
  unfold perp. generalize (Cdiv (colip r n X j) (colsq r n X)). intros q. unfold colip, colsq. rewrite <- Sm_r, <- Sm_minus. apply Sm_ext. intros a _. ring.
Qed.
Lemma hat_zero r n X s t : colsq r n X = RtoC 0 -> hat r (S n) X s t = hat r n X s t.
Proof.
  intros E. unfold hat. rewrite Sm_S. cbn [pv]. destruct (Ceq_dec _ _); [|contradiction]. rewrite Nat.eqb_refl.
  rewrite (Sm_ext n _ (fun j => Cmult (X s j) (pv r n X j t))); [ring|]. intros a Ha. destruct (Nat.eqb_spec a n); [lia|reflexivity].
Qed.
Lemma hat_step r n X s t : colsq r n X <> RtoC 0 -> hat r (S n) X s t = Cplus (hat r n (perp r n X) s t) (Cmult (X s n) (Cdiv (Cconj (X t n)) (colsq r n X))).
Proof.
  intros N. unfold hat. rewrite Sm_S. cbn [pv]. destruct (Ceq_dec _ _); [contradiction|]. rewrite Nat.eqb_refl.
  set (a := colsq r n X) in *. set (P := pv r n (perp r n X)).
  rewrite (Sm_ext n _ (fun j => Cplus (Cmult (perp r n X s j) (P j t)) (Cmult (X s n) (Cmult (Cdiv (colip r n X j) a) (P j t))))).
  - rewrite Sm_plus, Sm_l. ring.
  - intros j Hj. destruct (Nat.eqb_spec j n); [lia|]. unfold perp. fold a. ring.
Qed.
Lemma hat_herm r n : forall X s t, hat r n X s t = Cconj (hat r n X t s).
Proof.
  induction n as [|n IH]; intros X s t; [unfold hat, Sm; cbn; apply injective_projections; cbn; ring|].
  destruct (Ceq_dec (colsq r n X) (RtoC 0)) as [E|N]; [rewrite !hat_zero by exact E; apply IH|].
  rewrite !hat_step by exact N. rewrite Cconj_plus, <- IH, Cconj_mult. f_equal. unfold Cdiv. rewrite Cconj_mult, Cconj_conj.
  rewrite conj_inv by exact N. rewrite colsq_real. ring.
Qed.
Lemma hat_perp r n X s : colsq r n X <> RtoC 0 -> Sm r (fun t => Cmult (hat r n (perp r n X) s t) (X t n)) = RtoC 0.
Proof.
  intros N. rewrite <- (Cconj_conj (Sm r _)). replace (RtoC 0) with (Cconj (RtoC 0)) by (apply injective_projections; cbn; ring). f_equal. rewrite Sm_conj.
  rewrite (Sm_ext r _ (fun t => Sm n (fun j => Cmult (pv r n (perp r n X) j s) (Cmult (Cconj (X t n)) (perp r n X t j))))).
  - rewrite Sm_swap. apply Sm_0. intros j _. rewrite Sm_l, perp_orth by exact N. ring.
  - intros t _. rewrite Cconj_mult, <- hat_herm. unfold hat. rewrite <- Sm_r. apply Sm_ext. intros j _. ring.
Qed.
Lemma hat_fix r n : forall X s k, (s < r)%nat -> (k < n)%nat -> Sm r (fun t => Cmult (hat r n X s t) (X t k)) = X s k.
Proof.
  induction n as [|n IH]; intros X s k Hs Hk; [lia|].
  destruct (Ceq_dec (colsq r n X) (RtoC 0)) as [E|N].
  - rewrite (Sm_ext r _ (fun t => Cmult (hat r n X s t) (X t k))) by (intros t _; rewrite hat_zero by exact E; reflexivity).
    destruct (Nat.eq_dec k n) as [->|Nk]; [|apply IH; lia].
    assert (Z : forall t, (t < r)%nat -> X t n = RtoC 0) by (apply sq_sum; exact E).
    rewrite (Z s Hs). apply Sm_0. intros t Ht. rewrite (Z t Ht). ring.
  - assert (Q := hat_perp r n X s N). set (a := colsq r n X) in *. set (q := Cdiv (colip r n X k) a).
    rewrite (Sm_ext r _ (fun t => Cplus (Cmult (hat r n (perp r n X) s t) (X t k)) (Cmult (Cdiv (X s n) a) (Cmult (Cconj (X t n)) (X t k))))) by (intros t _; rewrite hat_step by exact N; fold a; field; exact N).
    rewrite Sm_plus, Sm_l. fold (colip r n X k). destruct (Nat.eq_dec k n) as [->|Nk].
    + rewrite Q. replace (colip r n X n) with a by reflexivity. field. exact N.
    + rewrite (Sm_ext r _ (fun t => Cplus (Cmult (hat r n (perp r n X) s t) (perp r n X t k)) (Cmult (Cmult (hat r n (perp r n X) s t) (X t n)) q))) by (intros t _; unfold perp; fold a; fold q; ring).
      rewrite Sm_plus, Sm_r, Q, IH by lia. unfold perp. fold a. fold q. unfold q. field. exact N.
Qed.

(** projections of data *)
Lemma hat_idem r n X s t : (s < r)%nat -> Sm r (fun k => Cmult (hat r n X s k) (hat r n X k t)) = hat r n X s t.
Proof.
  intros Hs. unfold hat at 2 3. rewrite (Sm_ext r _ (fun k => Sm n (fun j => Cmult (Cmult (hat r n X s k) (X k j)) (pv r n X j t)))) by (intros k _; rewrite <- Sm_l; apply Sm_ext; intros j _; ring).
  rewrite Sm_swap. apply Sm_ext. intros j Hj. rewrite Sm_r, hat_fix by auto. reflexivity.
Qed.
Definition indep (r n : nat) (X : nat -> nat -> C) : Prop := forall d : nat -> C, (forall s, (s < r)%nat -> Sm n (fun j => Cmult (X s j) (d j)) = RtoC 0) -> forall j, (j < n)%nat -> d j = RtoC 0.
Lemma pv_left r n X : indep r n X -> forall j k, (j < n)%nat -> (k < n)%nat -> Sm r (fun t => Cmult (pv r n X j t) (X t k)) = kd j k.
Proof.
  intros I j k Hj Hk. assert (Z := I (fun j => Cminus (Sm r (fun t => Cmult (pv r n X j t) (X t k))) (kd j k))). cbn beta in Z.
  assert (E : Cminus (Sm r (fun t => Cmult (pv r n X j t) (X t k))) (kd j k) = RtoC 0).
  { apply Z; [|exact Hj]. intros s Hs. rewrite (Sm_ext n _ (fun j => Cminus (Sm r (fun t => Cmult (Cmult (X s j) (pv r n X j t)) (X t k))) (Cmult (kd k j) (X s j)))).
    - rewrite Sm_minus, Sm_kd, Sm_swap by exact Hk. rewrite (Sm_ext r _ (fun t => Cmult (hat r n X s t) (X t k))) by (intros t _; unfold hat; now rewrite Sm_r).
      rewrite hat_fix by auto. ring.
    - intros i _. rewrite (kd_sym k i).
      assert (Q : Sm r (fun t => Cmult (Cmult (X s i) (pv r n X i t)) (X t k)) = Cmult (X s i) (Sm r (fun t => Cmult (pv r n X i t) (X t k)))) by (rewrite <- Sm_l; apply Sm_ext; intros; ring).
      rewrite Q. ring. }
  replace (Sm r _) with (Cplus (Cminus (Sm r (fun t => Cmult (pv r n X j t) (X t k))) (kd j k)) (kd j k)) by ring. rewrite E. ring.
Qed.
Lemma hat_orth r n X y k : (k < n)%nat -> Sm r (fun s => Cmult (Cconj (X s k)) (Cminus (Sm r (fun t => Cmult (hat r n X s t) (y t))) (y s))) = RtoC 0.
Proof.
  intros Hk. rewrite (Sm_ext r _ (fun s => Cminus (Sm r (fun t => Cmult (Cmult (Cconj (X s k)) (hat r n X s t)) (y t))) (Cmult (Cconj (X s k)) (y s)))).
  - rewrite Sm_minus, Sm_swap. rewrite (Sm_ext r (fun b => Sm r _) (fun t => Cmult (Cconj (X t k)) (y t))); [ring|]. intros t Ht. rewrite Sm_r. f_equal.
    transitivity (Cconj (Sm r (fun s => Cmult (hat r n X t s) (X s k)))); [|now rewrite hat_fix]. rewrite Sm_conj. apply Sm_ext. intros s _. rewrite Cconj_mult, <- hat_herm. ring.
  - intros s _. assert (Q : Sm r (fun t => Cmult (Cmult (Cconj (X s k)) (hat r n X s t)) (y t)) = Cmult (Cconj (X s k)) (Sm r (fun t => Cmult (hat r n X s t) (y t)))) by (rewrite <- Sm_l; apply Sm_ext; intros; ring).
    rewrite Q. ring.
Qed.

(** ** matrices as lists *)
Definition width (B : cmat) : nat := match B with [] => 0%nat | row :: _ => length row end.
Definition rect (B : cmat) : bool := forallb (fun row => Nat.eqb (length row) (width B)) B.
Definition pvm (B : cmat) : cmat := map (fun j => map (fun t => pv (length B) (width B) (bf B) j t) (seq 0 (length B))) (seq 0 (width B)).
Definition lsq (B : cmat) (x : list C) : list C := map (fun j => Sm (length B) (fun t => Cmult (pv (length B) (width B) (bf B) j t) (nth t x (RtoC 0)))) (seq 0 (width B)).
Definition linv (B : cmat) : bool := forallb (fun j => forallb (fun k =>
  if Ceq_dec (Sm (length B) (fun t => Cmult (pv (length B) (width B) (bf B) j t) (bf B t k))) (kd j k) then true else false) (seq 0 (width B))) (seq 0 (width B)).

Lemma rect_spec B n : B <> [] -> (forall row, In row B -> length row = n) -> rect B = true /\ width B = n.
Proof.
  intros N H. destruct B as [|b B]; [congruence|]. assert (E : length b = n) by (apply H; now left). cbn [width]. split; [|exact E].
  unfold rect. apply forallb_forall. intros r Hr. apply Nat.eqb_eq. cbn [width]. rewrite E. auto.
Qed.
Lemma rect_rows B row : rect B = true -> In row B -> length row = width B.
Proof. unfold rect. rewrite forallb_forall. intros H Hr. apply Nat.eqb_eq. auto. Qed.
Lemma cdot_bf B m s : rect B = true -> length m = width B -> (s < length B)%nat -> cdot (nth s B []) m = Sm (width B) (fun j => Cmult (bf B s j) (nth j m (RtoC 0))).
Proof. intros R1 Lm Hs. rewrite (cdot_Sm _ _ (width B)); [reflexivity| |exact Lm]. apply rect_rows; [exact R1|]. now apply nth_In. Qed.
Lemma full_indep B : rect B = true -> full_rank (width B) B -> indep (length B) (width B) (bf B).
Proof.
  intros R1 F d H j Hj. assert (Q := F (map d (seq 0 (width B)))). rewrite <- (nth_map_seq d (width B) j (RtoC 0) Hj).
  apply Q; [now rewrite map_length, seq_length| |apply nth_In; rewrite map_length, seq_length; exact Hj].
  intros row Hr. destruct (In_nth _ _ [] Hr) as (s & Hs & <-). rewrite cdot_bf by (rewrite ?map_length, ?seq_length; auto).
  rewrite <- (H s Hs). apply Sm_ext. intros a Ha. now rewrite nth_map_seq.
Qed.
Lemma linv_spec B : linv B = true -> forall j k, (j < width B)%nat -> (k < width B)%nat ->
  Sm (length B) (fun t => Cmult (pv (length B) (width B) (bf B) j t) (bf B t k)) = kd j k.
Proof.
  unfold linv. rewrite forallb_forall. intros H j k Hj Hk. assert (A := H j). rewrite forallb_forall in A.
  assert (Q := A ltac:(apply in_seq; lia) k ltac:(apply in_seq; lia)). cbn beta in Q. destruct (Ceq_dec _ _); [assumption|discriminate].
Qed.
Lemma full_linv B : rect B = true -> full_rank (width B) B -> linv B = true.
Proof.
  intros R1 F. unfold linv. apply forallb_forall. intros j Hj. apply forallb_forall. intros k Hk. rewrite in_seq in Hj, Hk.
  destruct (Ceq_dec _ _) as [|N]; [reflexivity|]. exfalso. apply N. apply pv_left; [now apply full_indep|lia..].
Qed.
Lemma linv_full B : rect B = true -> linv B = true -> full_rank (width B) B.
Proof.
  intros R1 H d Hd Z z Hz. assert (Q := linv_spec B H). destruct (In_nth _ _ (RtoC 0) Hz) as (j & Hj & <-). rewrite Hd in Hj.
  rewrite <- (Sm_kd (width B) j (fun k => nth k d (RtoC 0)) Hj).
  rewrite (Sm_ext (width B) _ (fun k => Sm (length B) (fun t => Cmult (pv (length B) (width B) (bf B) j t) (Cmult (bf B t k) (nth k d (RtoC 0)))))).
  - rewrite Sm_swap. apply Sm_0. intros t Ht. rewrite Sm_l, <- cdot_bf by auto. rewrite Z by now apply nth_In. ring.
  - intros k Hk. rewrite <- (Q j k Hj Hk), <- Sm_r. apply Sm_ext. intros; ring.
Qed.

(** least squares *)
Lemma lsq_len B x : length (lsq B x) = width B. Proof. unfold lsq. now rewrite map_length, seq_length. Qed.
Lemma lsq_fit B x s : rect B = true -> (s < length B)%nat -> cdot (nth s B []) (lsq B x) = Sm (length B) (fun t => Cmult (hat (length B) (width B) (bf B) s t) (nth t x (RtoC 0))).
Proof.
  intros R1 Hs. rewrite cdot_bf by (rewrite ?lsq_len; auto). unfold hat.
  rewrite (Sm_ext (length B) _ (fun t => Sm (width B) (fun j => Cmult (Cmult (bf B s j) (pv (length B) (width B) (bf B) j t)) (nth t x (RtoC 0))))) by (intros; now rewrite Sm_r).
  rewrite Sm_swap. apply Sm_ext. intros j Hj. unfold lsq. rewrite nth_map_seq by exact Hj. rewrite <- Sm_l. apply Sm_ext. intros; ring.
Qed.
Lemma sum_app l k : rsum (l ++ k) = rsum l + rsum k.
Proof. induction l as [|a l IH]; [unfold rsum; cbn; lra|]. cbn [app]. rewrite !rsum_cons, IH. ring. Qed.
Lemma ip_Sm {A} (f g : A -> C) l d : ip f g l = fst (Sm (length l) (fun s => Cmult (Cconj (g (nth s l d))) (f (nth s l d)))).
Proof.
  induction l as [|a l IH] using rev_ind; [reflexivity|]. unfold ip. rewrite map_app, sum_app. cbn [map]. fold (ip f g l). rewrite IH, app_length. cbn [length].
  rewrite Nat.add_1_r, Sm_S. rewrite app_nth2, Nat.sub_diag by lia. cbn [nth]. unfold Cplus at 1. cbn [fst]. f_equal.
  - f_equal. apply Sm_ext. intros s Hs. now rewrite app_nth1.
  - unfold rsum. cbn. ring.
Qed.
Lemma lsq_best B x : rect B = true -> length x = length B -> best (sys B x) (lsq B x).
Proof.
  intros R1 LX. apply orth_best. intros d Hd. rewrite lsq_len in Hd. unfold sys. rewrite (ip_Sm _ _ _ ([], RtoC 0)). rewrite combine_length, LX, Nat.min_id.
  replace (Sm (length B) _) with (RtoC 0); [reflexivity|]. symmetry.
  rewrite (Sm_ext (length B) _ (fun s => Sm (width B) (fun k => Cmult (Cconj (nth k d (RtoC 0)))
    (Cmult (Cconj (bf B s k)) (Cminus (Sm (length B) (fun t => Cmult (hat (length B) (width B) (bf B) s t) (nth t x (RtoC 0)))) (nth s x (RtoC 0))))))).
  - rewrite Sm_swap. apply Sm_0. intros k Hk. rewrite Sm_l. rewrite hat_orth by exact Hk. ring.
  - intros s Hs. rewrite combine_nth by auto. unfold resid. cbn [fst snd]. rewrite lsq_fit by auto. rewrite cdot_bf by auto. rewrite Sm_conj, <- Sm_r. apply Sm_ext.
    intros k _. rewrite Cconj_mult. ring.
Qed.
Lemma lsq_unique B x m' : rect B = true -> length x = length B -> linv B = true -> length m' = width B -> m' <> lsq B x -> nrm (resid (lsq B x)) (sys B x) < nrm (resid m') (sys B x).
Proof.
  intros R1 LX I Lm N. assert (H := lsq_best B x R1 LX). assert (Q := H m' ltac:(now rewrite lsq_len)).
  destruct (Rle_lt_or_eq_dec _ _ Q) as [?|E]; [assumption|]. exfalso. apply N. symmetry. apply (best_unique (sys B x)); [exact H| |now rewrite lsq_len|].
  - intros m2 L2. rewrite <- E. apply H. rewrite lsq_len. congruence.
  - rewrite lsq_len. intros d Hd Z. apply (linv_full B R1 I d Hd). intros row Hr. destruct (In_nth _ _ [] Hr) as (s & Hs & <-).
    apply (Z (nth s B [], nth s x (RtoC 0))). unfold sys. rewrite <- combine_nth by auto. apply nth_In. rewrite combine_length, LX, Nat.min_id. exact Hs.
Qed.

(** pseudo-inverse and inverse *)
Lemma pvm_len B : length (pvm B) = width B. Proof. unfold pvm. now rewrite map_length, seq_length. Qed.
Lemma pvm_nth B j t : (j < width B)%nat -> (t < length B)%nat -> nth t (nth j (pvm B) []) (RtoC 0) = pv (length B) (width B) (bf B) j t.
Proof. intros Hj Ht. unfold pvm. rewrite (nth_map_seq _ _ j) by exact Hj. now rewrite nth_map_seq. Qed.
Lemma mul_hat B i j : rect B = true -> (i < length B)%nat -> (j < length B)%nat -> entry_at (mat_mul B (pvm B)) i j = hat (length B) (width B) (bf B) i j.
Proof.
  intros R1 Hi Hj. unfold entry_at, mat_mul. set (f := fun row : list C => map _ _). rewrite (nth_indep _ [] (f [])) by (rewrite map_length; exact Hi). rewrite map_nth. unfold f. clear f.
  rewrite nth_map_seq by exact Hj. assert (LR : length (nth i B []) = width B) by (apply rect_rows; [exact R1|now apply nth_In]).
  rewrite (csum_Sm _ _ (RtoC 0, [])). rewrite combine_length, LR, pvm_len, Nat.min_id. unfold hat. apply Sm_ext. intros k Hk.
  rewrite combine_nth by (rewrite LR, pvm_len; reflexivity). cbn [fst snd]. now rewrite pvm_nth.
Qed.
Lemma pvm_projection B : rect B = true -> projection (mat_mul B (pvm B)) (length B).
Proof.
  intros R1 i j Hi Hj. rewrite !mul_hat by auto. split; [apply hat_herm|]. rewrite (csum_Sm _ _ 0%nat), seq_length.
  rewrite <- (hat_idem (length B) (width B) (bf B) i j Hi) at 1. apply Sm_ext. intros k Hk. rewrite seq_nth by exact Hk. cbn [Nat.add]. now rewrite !mul_hat.
Qed.
Lemma square_hat B s t : rect B = true -> length B = width B -> linv B = true -> (s < length B)%nat -> (t < length B)%nat -> hat (length B) (width B) (bf B) s t = kd s t.
Proof.
  intros R1 SQ I Hs Ht. assert (F := linv_full B R1 I).
  set (y := fun k => kd t k). set (X := map (fun k => y k :: nth k B []) (seq 0 (length B))).
  destruct (underdetermined (length B) (S (width B)) X) as (d & Ld & Z & z & Hz & Nz).
  - unfold X. now rewrite map_length, seq_length.
  - lia.
  - intros row Hr. unfold X in Hr. rewrite in_map_iff in Hr. destruct Hr as (k & <- & Hk). rewrite in_seq in Hk. cbn [length]. f_equal. apply rect_rows; [exact R1|]. apply nth_In. lia.
  - destruct d as [|w d]; [discriminate|]. injection Ld as Ld.
    assert (Z' : forall k, (k < length B)%nat -> Cplus (Cmult (y k) w) (cdot (nth k B []) d) = RtoC 0).
    { intros k Hk. rewrite <- cdot_c. apply Z. unfold X. apply in_map_iff. exists k. split; [reflexivity|]. apply in_seq. lia. }
    assert (Nw : w <> RtoC 0).
    { intros ->. apply Nz. destruct Hz as [<-|Hz]; [reflexivity|]. apply (F d Ld); [|exact Hz]. intros row Hr. destruct (In_nth _ _ [] Hr) as (k & Hk & <-).
      rewrite <- (Z' k Hk). ring. }
    assert (Y : forall k, (k < length B)%nat -> y k = Copp (Cdiv (cdot (nth k B []) d) w)).
    { intros k Hk. replace (y k) with (Cdiv (Cminus (Cplus (Cmult (y k) w) (cdot (nth k B []) d)) (cdot (nth k B []) d)) w) by (field; exact Nw). rewrite (Z' k Hk). field. exact Nw. }
    assert (E : Sm (length B) (fun k => Cmult (hat (length B) (width B) (bf B) s k) (y k)) = y s).
    { rewrite (Sm_ext _ _ (fun k => Sm (width B) (fun j => Cmult (Cmult (hat (length B) (width B) (bf B) s k) (bf B k j)) (Cmult (Copp (Cinv w)) (nth j d (RtoC 0)))))).
      - rewrite Sm_swap. rewrite (Y s Hs), (cdot_bf B d s R1 Ld Hs). unfold Cdiv. rewrite (Sm_ext (width B) _ (fun j => Cmult (Cmult (bf B s j) (nth j d (RtoC 0))) (Copp (Cinv w)))).
        + rewrite Sm_r. ring.
        + intros j Hj. rewrite Sm_r, hat_fix by auto. ring.
      - intros k Hk. rewrite (Y k Hk), (cdot_bf B d k R1 Ld Hk). unfold Cdiv.
        transitivity (Cmult (Cmult (hat (length B) (width B) (bf B) s k) (Copp (Cinv w))) (Sm (width B) (fun j => Cmult (bf B k j) (nth j d (RtoC 0))))); [ring|].
        rewrite <- Sm_l. apply Sm_ext. intros; ring. }
    rewrite (Sm_ext _ _ (fun k => Cmult (kd t k) (hat (length B) (width B) (bf B) s k))) in E by (intros; unfold y; ring).
    rewrite Sm_kd in E by exact Ht. rewrite E. unfold y. apply kd_sym.
Qed.

(** ** the library *)
Definition exactL : lib :=
  {| l_parse := fun _ => None;
     l_lstsq := fun B x _ => match B with [] => Err LinAlgError | _ =>
       if (rect B && Nat.eqb (length x) (length B))%bool
       then Ok (lsq B x, if (linv B && Nat.ltb (width B) (length B))%bool then [norm2 (csub (cmatvec B (lsq B x)) x)] else [], width B, [])
       else Err LinAlgError end;
     l_pinv := fun X => match X with [] => Err LinAlgError | _ => if rect X then Ok (pvm X) else Err LinAlgError end;
     l_inv := fun M => if (rect M && Nat.eqb (length M) (width M) && linv M)%bool then Ok (pvm M) else Err LinAlgError;
     l_svd := sym_svd; l_eigvals := fun M => Ok (map (fun _ => RtoC 0) M);
     l_is_PD := fun _ => true; l_spacing := fun _ => 0;
     l_mvn := fun _ m _ n => Ok (repeat m n); l_lomb := fun t x f => map (power_at t x) f;
     l_argsort := ins_argsort |}.
Lemma exact_lstsq B x rc q : l_lstsq exactL B x rc = Ok q -> B <> [] /\ rect B = true /\ length x = length B /\
  q = (lsq B x, if (linv B && Nat.ltb (width B) (length B))%bool then [norm2 (csub (cmatvec B (lsq B x)) x)] else [], width B, []).
Proof.
  cbn [exactL l_lstsq]. destruct B as [|b B]; [discriminate|]. destruct (rect (b :: B)) eqn:E1; [|discriminate]. destruct (Nat.eqb _ _) eqn:E2; [|discriminate].
  apply Nat.eqb_eq in E2. cbn [andb]. intros H. apply Ok_inj in H. split; [discriminate|]. auto.
Qed.
Lemma exact_contract rc : lstsq_contract exactL rc.
Proof.
  intros B x m r k s H. destruct (exact_lstsq _ _ _ _ H) as (_ & R1 & LX & E). injection E as -> -> _ _. rewrite !lsq_len. split; [intros; now apply rect_rows|]. split.
  - intros m' Lm. rewrite !norm2_sys. apply lsq_best; auto. now rewrite lsq_len.
  - destruct (linv B) eqn:I; [|now left]. destruct (Nat.ltb _ _); [|now left]. right. split; [reflexivity|]. intros m' Lm N. rewrite !norm2_sys. apply lsq_unique; auto.
Qed.
Lemma exact_shape : lstsq_shape exactL.
Proof. intros B x rc m r k s H row Hr. symmetry. now apply (proj1 (exact_contract rc _ _ _ _ _ _ H)). Qed.
Lemma exact_minimises : lstsq_minimises exactL.
Proof. intros B x m r k s H. apply (proj2 (exact_contract _ _ _ _ _ _ _ H)). Qed.
Lemma exact_returns : lstsq_returns exactL.
Proof.
  intros B x rc N LX H. cbn [exactL l_lstsq]. assert (R1 : rect B = true). { apply (rect_spec B (length (hd [] B)) N). intros r Hr. apply H; [exact Hr|]. destruct B; [congruence|now left]. }
  destruct B as [|b B]; [congruence|]. rewrite R1, LX, Nat.eqb_refl. cbn [andb]. eauto.
Qed.
Lemma exact_sums rc : lstsq_sums exactL rc.
Proof.
  intros n B x LT LX LR F. assert (N : B <> []) by (intros ->; cbn in LT; lia). destruct (rect_spec B n N LR) as [R1 <-]. cbn [exactL l_lstsq].
  destruct B as [|b B]; [congruence|]. rewrite R1, LX, Nat.eqb_refl, (full_linv _ R1 F). apply Nat.ltb_lt in LT. rewrite LT. cbn [andb]. eauto 6.
Qed.
Lemma exact_no_sums : lstsq_no_sums exactL.
Proof.
  intros B x rc m r k s H LE. destruct (exact_lstsq _ _ _ _ H) as (_ & R1 & LX & E). injection E as -> -> _ _. rewrite lsq_len in LE.
  replace (Nat.ltb (width B) (length B)) with false by (symmetry; apply Nat.ltb_ge; exact LE). now rewrite Bool.andb_false_r.
Qed.
Lemma exact_pinv : pinv_exact exactL.
Proof.
  intros n X N LR F. destruct (rect_spec X n N LR) as [R1 <-]. exists (pvm X). split; [|split; [apply pvm_len|now apply pvm_projection]].
  cbn [exactL l_pinv]. destruct X as [|a X]; [congruence|]. now rewrite R1.
Qed.
Lemma exact_inv : inv_exact exactL.
Proof.
  intros n M X [LM LR] H. cbn [exactL l_inv] in H. destruct (rect M) eqn:R1; [|discriminate]. destruct (Nat.eqb _ _) eqn:SQ; [|discriminate]. destruct (linv M) eqn:I; [|discriminate].
  cbn [andb] in H. apply Ok_inj in H. subst X. apply Nat.eqb_eq in SQ. subst n. split; intros i j Hi Hj; rewrite (csum_Sm _ _ 0%nat), seq_length.
  - transitivity (kd i j); [|unfold kd; now destruct (Nat.eqb i j)]. rewrite <- (square_hat M i j R1 SQ I Hi Hj). unfold hat. rewrite <- SQ. apply Sm_ext. intros k Hk. rewrite seq_nth by exact Hk. cbn [Nat.add].
    f_equal. unfold centry_at. rewrite pvm_nth by (rewrite <- ?SQ; assumption). now rewrite <- SQ.
  - transitivity (kd i j); [|unfold kd; now destruct (Nat.eqb i j)]. rewrite <- (linv_spec M I i j) by (rewrite <- SQ; assumption). apply Sm_ext. intros k Hk. rewrite seq_nth by exact Hk. cbn [Nat.add].
    f_equal. apply pvm_nth; [rewrite <- SQ|]; assumption.
Qed.
Lemma exact_inv_returns : inv_returns exactL.
Proof.
  intros n M [LM LR] F. cbn [exactL l_inv]. assert (Q : rect M = true /\ width M = n).
  { destruct M as [|a M]; [split; [reflexivity|exact LM]|]. apply rect_spec; [discriminate|]. intros row Hr. rewrite Forall_forall in LR. auto. }
  destruct Q as [R1 W]. rewrite R1, W, LM, Nat.eqb_refl. rewrite <- W in F. rewrite (full_linv _ R1 F). cbn [andb]. eauto.
Qed.
Lemma exact_lomb : lomb_contract exactL.
Proof. now apply power_contract. Qed.
Lemma exact_perm : argsort_perm exactL.
Proof. exact (ex_perm []). Qed.
Lemma exact_sorts : argsort_sorts exactL.
Proof. exact (ex_sorts []). Qed.
Lemma exact_mvn : mvn_shape exactL.
Proof. intros c mean cov n smp H. cbn in H. injection H as <-. split; [apply repeat_length|]. apply Forall_forall. intros r Hr. apply repeat_spec in Hr. now subst. Qed.
Lemma exact_svd : svd_exact exactL 2.
Proof. intros B U s V. apply sym_svd_exact. Qed.
