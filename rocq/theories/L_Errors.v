(** Standard errors of a whole analysis: matrices and sums. *)
From Coq Require Import Lia Lra Permutation.
From Verif Require Import M_Base M_Bunch M_Lib M_Tables M_Const M_Options M_Time M_Slvinit M_Harmonics M_Select M_Ellipse
  M_Robust M_Period M_Conf M_Diag M_Solve M_Recon S_Dict S_Options S_Order S_Basis S_Select S_Fit S_Ellipse S_Slv S_Recon S_Model S_Errors
  L_Base L_Options L_SolveInv L_OptSolve L_Slv L_Slv2 L_Order L_Select L_Fit L_Align L_SelOrder L_Basis L_Angle L_Ellipse L_Recon L_Recon2 L_Recon3 L_Core
  L_Ellipse2 L_Model L_Lsq L_Model2 L_Model3 L_Model4 L_Model5 L_Model6 L_Model7 L_Model8 L_Model9 L_Gauss.
Open Scope R_scope.
Open Scope string_scope.

Lemma csum_Sm {A} (f : A -> C) l d : csum (map f l) = Sm (length l) (fun s => f (nth s l d)).
Proof. unfold Sm. f_equal. symmetry. now apply map_nth_seq. Qed.

Lemma combine_nth' {A B} (l : list A) (k : list B) i x y : length l = length k -> nth i (combine l k) (x, y) = (nth i l x, nth i k y).
Proof. intros H. now apply combine_nth. Qed.

Definition bf (B : cmat) (s a : nat) : C := nth a (nth s B []) (RtoC 0).

Lemma conj0 : Cconj (RtoC 0) = RtoC 0. Proof. apply Cconj_R. Qed.
Lemma bf_conj B s a : bf (cconj_mat B) s a = Cconj (bf B s a).
Proof.
  unfold bf, cconj_mat. change (@nil C) with (map Cconj []) at 1. rewrite map_nth. rewrite <- conj0 at 1. now rewrite map_nth.
Qed.

Lemma nth_map_seq {A} (f : nat -> A) n i d : (i < n)%nat -> nth i (map f (seq 0 n)) d = f i.
Proof. intros H. rewrite (nth_indep _ d (f 0%nat)) by now rewrite map_length, seq_length. rewrite map_nth, seq_nth by auto. reflexivity. Qed.

Lemma ones_nth {A} (l : list A) s : (s < length l)%nat -> nth s (map (fun _ => 1) l) 0 = 1.
Proof. revert s. induction l as [|x l IH]; cbn; intros s H; [lia|]. destruct s; auto. apply IH. lia. Qed.

Lemma gram_entry {A} B B' (o : list A) N a b : length B = length B' -> length o = length B -> (a < N)%nat -> (b < N)%nat ->
  cent (gram B B' (map (fun _ => 1) o) N) a b = Sm (length B) (fun s => Cmult (bf B s a) (bf B' s b)).
Proof.
  intros H1 H2 Ha Hb. unfold cent, gram. rewrite nth_map_seq by auto. rewrite nth_map_seq by auto.
  rewrite (csum_Sm _ _ ([], [], 0)). rewrite !combine_length, map_length. rewrite <- H1, H2, !Nat.min_id.
  apply Sm_ext. intros s Hs. rewrite !combine_nth' by (rewrite ?combine_length, ?map_length; lia). cbn [fst snd].
  rewrite ones_nth by lia. unfold bf. apply C_eq; cbn; ring.
Qed.
Lemma gram_square B B' W N : csquare N (gram B B' W N).
Proof.
  unfold gram. split; [now rewrite map_length, seq_length|]. apply Forall_map, Forall_forall. intros a _. now rewrite map_length, seq_length.
Qed.

Lemma product_inv n M X f g : product_is_identity n M X -> product_is_identity n X M ->
  (forall i j, (i < n)%nat -> (j < n)%nat -> centry_at M i j = f i j) -> (forall i j, (i < n)%nat -> (j < n)%nat -> centry_at X i j = g i j) ->
  inv_of n f g.
Proof.
  intros H1 H2 E1 E2 i j Hi Hj. assert (K : kd i j = RtoC (if Nat.eqb i j then 1 else 0)) by (unfold kd; destruct (Nat.eqb i j); reflexivity).
  rewrite K. rewrite <- (H1 i j Hi Hj) at 1. rewrite <- (H2 i j Hi Hj). unfold Sm. split; f_equal; apply map_ext_in; intros k Hk; apply in_seq in Hk;
    rewrite E1, E2 by lia; reflexivity.
Qed.

Lemma cent_scaled M z i j : cent (map (map (fun x => Cmult x z)) M) i j = Cmult (cent M i j) z.
Proof.
  unfold cent. change (@nil C) with (map (fun x => Cmult x z) []) at 1. rewrite map_nth.
  replace (RtoC 0) with (Cmult (RtoC 0) z) at 1 by (apply C_eq; cbn; ring). now rewrite (map_nth (fun x => Cmult x z)).
Qed.

Lemma cdot_Sm row m N : length row = N -> length m = N -> cdot row m = Sm N (fun a => Cmult (nth a row (RtoC 0)) (nth a m (RtoC 0))).
Proof.
  intros H1 H2. unfold cdot. rewrite (csum_Sm _ _ (RtoC 0, RtoC 0)). rewrite combine_length, H1, H2, Nat.min_id. apply Sm_ext. intros a _.
  rewrite combine_nth' by congruence. reflexivity.
Qed.

Lemma wdot_Sm {A} a b (o : list A) : length a = length b -> length o = length a ->
  wdot a b (map (fun _ => 1) o) = Sm (length a) (fun s => Cmult (nth s a (RtoC 0)) (nth s b (RtoC 0))).
Proof.
  intros H1 H2. unfold wdot. rewrite (csum_Sm _ _ (RtoC 0, RtoC 0, 0)). rewrite !combine_length, map_length, <- H1, H2, !Nat.min_id.
  apply Sm_ext. intros s Hs. rewrite !combine_nth' by (rewrite ?combine_length, ?map_length; lia). cbn [fst snd].
  rewrite ones_nth by lia. apply C_eq; cbn; ring.
Qed.

Definition swapP (nc a : nat) : nat := if Nat.ltb a nc then (a + nc)%nat else if Nat.ltb a (nc + nc) then (a - nc)%nat else a.
Lemma swapP_lt nc r a : (a < nc + nc + r)%nat -> (swapP nc a < nc + nc + r)%nat.
Proof. unfold swapP. destruct (Nat.ltb_spec a nc), (Nat.ltb_spec a (nc + nc)); lia. Qed.
Lemma swapP_P nc a : swapP nc (swapP nc a) = a.
Proof.
  unfold swapP. destruct (Nat.ltb_spec a nc).
  - destruct (Nat.ltb_spec (a + nc) nc), (Nat.ltb_spec (a + nc) (nc + nc)); lia.
  - destruct (Nat.ltb_spec a (nc + nc)).
    + destruct (Nat.ltb_spec (a - nc) nc); lia.
    + destruct (Nat.ltb_spec a nc), (Nat.ltb_spec a (nc + nc)); lia.
Qed.
Lemma swapP_sum nc r f : Sm (nc + nc + r) (fun a => f (swapP nc a)) = Sm (nc + nc + r) f.
Proof.
  rewrite !Sm_add. 
  rewrite (Sm_ext nc (fun a => f (swapP nc a)) (fun a => f (nc + a)%nat)).
  2: { intros a Ha. f_equal. unfold swapP. destruct (Nat.ltb_spec a nc); lia. }
  rewrite (Sm_ext nc (fun a => f (swapP nc (nc + a)%nat)) f).
  2: { intros a Ha. f_equal. unfold swapP. destruct (Nat.ltb_spec (nc + a) nc), (Nat.ltb_spec (nc + a) (nc + nc)); lia. }
  rewrite (Sm_ext r (fun a => f (swapP nc (nc + nc + a)%nat)) (fun a => f (nc + nc + a)%nat)).
  2: { intros a Ha. f_equal. unfold swapP. destruct (Nat.ltb_spec (nc + nc + a) nc), (Nat.ltb_spec (nc + nc + a) (nc + nc)); lia. }
  apply C_eq; cbn; ring.
Qed.
