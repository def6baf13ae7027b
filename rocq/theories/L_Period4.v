(** Frequencies for unevenly spaced residuals. *)
From Coq Require Import Lia Lra Psatz.
From Verif Require Import M_Base M_Lib M_Slvinit M_Period S_Conf S_Period L_Base L_Conf6 L_Bands L_Period L_Period2 L_Period3.
Open Scope R_scope.

Lemma linspace_nth a b n i : (i < n)%nat -> nth i (linspace a b n) 0 = a + INR i * ((b - a) / INR (n - 1)).
Proof. intros H. unfold linspace. rewrite (nth_map0 _ _ i 0%nat) by now rewrite seq_length. now rewrite seq_nth. Qed.
Lemma linspace_len a b n : length (linspace a b n) = n.
Proof. unfold linspace. now rewrite map_length, seq_length. Qed.
Lemma last_nth (l : list R) : last l 0 = nth (length l - 1) l 0.
Proof.
  induction l as [|a l IH]; [reflexivity |]. destruct l as [|b l]; [reflexivity |].
  change (last (a :: b :: l) 0) with (last (b :: l) 0). rewrite IH. cbn [length].
  replace (S (S (length l)) - 1)%nat with (S (length l)) by lia. cbn [nth]. now replace (S (length l) - 1)%nat with (length l) by lia.
Qed.
Lemma hd_nth (l : list R) : hd 0 l = nth 0 l 0.
Proof. now destruct l. Qed.
Lemma linspace_spaced a b n : (2 <= n)%nat -> spaced a b n (linspace a b n).
Proof.
  intros Hn. assert (0 < INR (n - 1)) by (apply lt_0_INR; lia). split; [apply linspace_len |]. split; [| split].
  - rewrite hd_nth, linspace_nth by lia. cbn [INR]. ring.
  - rewrite last_nth, linspace_len, linspace_nth by lia. field. lra.
  - intros i Hi. rewrite !linspace_nth by lia. rewrite S_INR. ring.
Qed.

Lemma grid_eq t : hd 0 t < last t 0 ->
  map (fun i => INR i / (INR (length t) * ((last t 0 - hd 0 t) / INR (length t - 1)))) (seq 1 (length t / 2 - 1)) = fourier_grid t.
Proof.
  intros Ht. unfold fourier_grid. apply map_ext. intros i. unfold fourier.
  destruct (Nat.le_gt_cases 2 (length t)) as [H | H].
  - assert (0 < INR (length t)) by (apply lt_0_INR; lia). assert (0 < INR (length t - 1)) by (apply lt_0_INR; lia). field. repeat split; lra.
  - destruct t as [|a [|b t]]; cbn in *; try lra. lia.
Qed.

Lemma band_freqs_spec grid limit b : (2 <= limit)%nat -> non_decreasing grid ->
  let i0 := searchsorted grid (fst b) in let i1 := Nat.min (length grid) (searchsorted grid (snd b) + 1) in
  band_freqs grid limit (fst b) (snd b)
    (if Nat.ltb limit (i1 - i0) then linspace (nth i0 grid 0) (nth (i1 - 1) grid 0) limit else slice grid i0 i1).
Proof.
  intros Hl Hnd i0 i1. exists i0, (i1 - i0)%nat. split.
  - intros i. rewrite counts_iff by exact Hnd. fold i0 i1. lia.
  - destruct (Nat.ltb_spec limit (i1 - i0)) as [H | H].
    + destruct (Nat.leb_spec (i1 - i0) limit); [lia |]. replace (i0 + (i1 - i0) - 1)%nat with (i1 - 1)%nat by lia.
      now apply linspace_spaced.
    + destruct (Nat.leb_spec (i1 - i0) limit); [| lia]. apply slice_map. unfold i1. lia.
Qed.

Lemma fourier_pos t j : hd 0 t < last t 0 -> (0 < j)%nat -> 0 < fourier t j.
Proof.
  intros Ht Hj. unfold fourier. assert ((2 <= length t)%nat) by (destruct t as [|a [|b t]]; cbn in *; try lra; lia).
  apply Rdiv_lt_0_compat; apply Rmult_lt_0_compat; try (apply lt_0_INR; lia). lra.
Qed.
Lemma fourier_nth t i : (i < length t / 2 - 1)%nat -> nth i (fourier_grid t) 0 = fourier t (S i).
Proof. intros H. unfold fourier_grid. rewrite (nth_map0 _ _ i 0%nat) by now rewrite seq_length. now rewrite seq_nth. Qed.
Lemma fourier_len t : length (fourier_grid t) = (length t / 2 - 1)%nat.
Proof. unfold fourier_grid. now rewrite map_length, seq_length. Qed.
Lemma fourier_lin t i j : fourier t (i + j) = fourier t i + fourier t j.
Proof. unfold fourier. rewrite plus_INR. unfold Rdiv. ring. Qed.
Lemma fourier_0 t : fourier t 0 = 0.
Proof. unfold fourier. cbn [INR]. unfold Rdiv. ring. Qed.
Lemma fourier_sorted t : hd 0 t < last t 0 -> non_decreasing (fourier_grid t).
Proof.
  intros Ht i j. rewrite fourier_len. intros H. rewrite !fourier_nth by lia.
  replace (S j) with (S i + (j - i))%nat by lia. rewrite fourier_lin.
  destruct (Nat.eq_dec i j) as [-> | Hij].
  - rewrite Nat.sub_diag, fourier_0. lra.
  - pose proof (fourier_pos t (j - i) Ht ltac:(lia)). lra.
Qed.

Lemma lomb_spec t bands limit : (2 <= limit)%nat -> hd 0 t < last t 0 ->
  exists ls, lomb_freqs t bands limit = List.concat ls /\
    Forall2 (fun b l => band_freqs (fourier_grid t) limit (fst b) (snd b) l) bands ls.
Proof.
  intros Hl Ht. unfold lomb_freqs. rewrite grid_eq by exact Ht.
  eexists. split; [apply flat_map_concat_map |].
  pose proof (fourier_sorted t Ht) as Hs.
  induction bands; cbn [map]; constructor; [now apply band_freqs_spec | assumption].
Qed.

(** ** Consequences *)
Lemma spaced_nth a b n l : spaced a b n l -> forall i, (i < n)%nat -> nth i l 0 = a + INR i * ((b - a) / INR (n - 1)).
Proof.
  intros [Hl [Ha [_ Hs]]] i. induction i as [|i IH]; intros Hi.
  - rewrite <- hd_nth, Ha. cbn [INR]. ring.
  - specialize (Hs i Hi). specialize (IH ltac:(lia)). rewrite S_INR. lra.
Qed.
Lemma spaced_sorted a b n l : a <= b -> spaced a b n l -> non_decreasing l.
Proof.
  intros Hab H i j. rewrite (proj1 H). intros Hij. rewrite !(spaced_nth a b n l H) by lia.
  assert (0 <= (b - a) / INR (n - 1)).
  { destruct (Nat.eq_dec n 1) as [-> | Hn]; [cbn; unfold Rdiv; rewrite Rinv_0; lra |].
    apply Rmult_le_pos; [lra |]. left. apply Rinv_0_lt_compat, lt_0_INR. lia. }
  pose proof (le_INR i j ltac:(lia)). nra.
Qed.
Lemma spaced_range a b n l x : a <= b -> (2 <= n)%nat -> spaced a b n l -> In x l -> a <= x <= b.
Proof.
  intros Hab Hn H Hx. destruct (In_nth _ _ 0 Hx) as [i [Hi <-]]. rewrite (proj1 H) in Hi.
  assert (N : 0 < INR (n - 1)) by (apply lt_0_INR; lia).
  rewrite (spaced_nth a b n l H) by exact Hi.
  assert (H0 : 0 <= (b - a) / INR (n - 1)) by (apply Rmult_le_pos; [lra | left; now apply Rinv_0_lt_compat]).
  assert (H1 : (b - a) = INR (n - 1) * ((b - a) / INR (n - 1))) by (field; lra).
  pose proof (pos_INR i). pose proof (le_INR i (n - 1) ltac:(lia)). split; nra.
Qed.

(** every frequency of a band lies between two bins that count for it *)
Lemma band_freqs_in grid limit lo hi l x : (2 <= limit)%nat -> non_decreasing grid -> band_freqs grid limit lo hi l -> In x l ->
  exists i j, counts grid lo hi i /\ counts grid lo hi j /\ nth i grid 0 <= x <= nth j grid 0.
Proof.
  intros Hl Hnd [f [c [Hc H]]] Hx. destruct (Nat.leb_spec c limit) as [Hle | Hgt].
  - subst l. apply in_map_iff in Hx. destruct Hx as [i [<- Hi]]. apply in_seq in Hi. exists i, i.
    assert (counts grid lo hi i) by (apply Hc; lia). repeat split; try apply H; lra.
  - assert (Hf : counts grid lo hi f) by (apply Hc; lia). assert (He : counts grid lo hi (f + c - 1)) by (apply Hc; lia).
    exists f, (f + c - 1)%nat. split; [exact Hf |]. split; [exact He |].
    refine (spaced_range _ _ limit l x _ Hl H Hx). apply Hnd. destruct He as [He _]. lia.
Qed.
Lemma band_freqs_sorted grid limit lo hi l : (2 <= limit)%nat -> non_decreasing grid -> band_freqs grid limit lo hi l -> non_decreasing l.
Proof.
  intros Hl Hnd [f [c [Hc H]]]. destruct (Nat.leb_spec c limit) as [Hle | Hgt].
  - subst l. intros i j. rewrite map_length, seq_length. intros Hij.
    rewrite !(nth_map0 _ _ _ 0%nat) by (rewrite seq_length; lia). rewrite !seq_nth by lia. apply Hnd.
    assert (He : counts grid lo hi (f + j)) by (apply Hc; lia). destruct He as [He _]. lia.
  - assert (He : counts grid lo hi (f + c - 1)) by (apply Hc; lia). destruct He as [He _].
    refine (spaced_sorted _ _ limit l _ H). apply Hnd; lia.
Qed.
Lemma band_freqs_len grid limit lo hi l : band_freqs grid limit lo hi l -> (length l <= limit)%nat.
Proof.
  intros [f [c [_ H]]]. destruct (Nat.leb_spec c limit); [subst l; rewrite map_length, seq_length; lia |]. destruct H as [-> _]. lia.
Qed.

Lemma lomb_each t bands limit : (2 <= limit)%nat -> hd 0 t < last t 0 -> forall ls,
  Forall2 (fun b l => band_freqs (fourier_grid t) limit (fst b) (snd b) l) bands ls ->
  Forall2 (fun b l => (length l <= limit)%nat /\ non_decreasing l /\
     forall f, In f l -> 0 < f /\ fst b <= f /\ (0 < snd b -> f < snd b + fourier t 1)) bands ls.
Proof.
  intros Hl Ht ls H. eapply Forall2_imp; [| exact H]. intros b l Hb. cbn beta in *.
  pose proof (fourier_sorted t Ht) as Hs.
  split; [eapply band_freqs_len; exact Hb |]. split; [eapply band_freqs_sorted; eassumption |].
  intros f Hf. destruct (band_freqs_in _ _ _ _ _ _ Hl Hs Hb Hf) as [i [j [[Hi [Hi1 Hi2]] [[Hj [Hj1 Hj2]] Hr]]]].
  rewrite fourier_len in *.
  assert (0 < nth i (fourier_grid t) 0) by (rewrite fourier_nth by lia; apply fourier_pos; [exact Ht | lia]).
  split; [lra |]. split; [lra |]. intros Hp. pose proof (fourier_pos t 1 Ht ltac:(lia)). apply Rle_lt_trans with (nth j (fourier_grid t) 0); [lra |].
  rewrite fourier_nth by lia. replace (S j) with (j + 1)%nat by lia. rewrite fourier_lin.
  destruct j as [|j]; [rewrite fourier_0; lra |].
  assert (Hlt : nth j (fourier_grid t) 0 < snd b) by (apply Hj2; lia). rewrite fourier_nth in Hlt by lia. lra.
Qed.

Lemma nd_app l1 l2 : non_decreasing l1 -> non_decreasing l2 -> (forall x y, In x l1 -> In y l2 -> x <= y) -> non_decreasing (l1 ++ l2).
Proof.
  intros H1 H2 H i j. rewrite app_length. intros Hij.
  destruct (Nat.lt_ge_cases j (length l1)) as [Hj | Hj].
  - rewrite !app_nth1 by lia. apply H1. lia.
  - rewrite (app_nth2 l1 l2 0 (n := j)) by lia. destruct (Nat.lt_ge_cases i (length l1)) as [Hi | Hi].
    + rewrite app_nth1 by lia. apply H; apply nth_In; lia.
    + rewrite app_nth2 by lia. apply H2. lia.
Qed.

(** bands in ascending order *)
Fixpoint ascending (bands : list (R * R)) : Prop :=
  match bands with [] => True | b :: bs => (forall b', In b' bs -> snd b <= fst b') /\ ascending bs end.
Lemma counts_order grid lo hi lo' hi' i j : non_decreasing grid -> hi <= lo' -> counts grid lo hi i -> counts grid lo' hi' j -> nth i grid 0 <= nth j grid 0.
Proof.
  intros Hnd Hb [Hi [_ Hi2]] [Hj [Hj1 _]]. apply Hnd. split; [| exact Hj].
  destruct (Nat.le_gt_cases i j) as [H | H]; [exact H |]. specialize (Hi2 j H). lra.
Qed.
Lemma concat_sorted grid limit : (2 <= limit)%nat -> non_decreasing grid -> forall bands ls, ascending bands ->
  Forall2 (fun b l => band_freqs grid limit (fst b) (snd b) l) bands ls -> non_decreasing (List.concat ls).
Proof.
  intros Hl Hnd. induction bands as [|b bs IH]; intros ls Ha H; inversion H as [|? l1 ? ls1 HF HR]; subst; cbn [List.concat]; [intros i j; cbn; lia |].
  destruct Ha as [Ha1 Ha2]. apply nd_app.
  - eapply band_freqs_sorted; eassumption.
  - now apply IH.
  - intros x z Hx Hz. apply in_concat in Hz. destruct Hz as [l [Hin Hz]].
    assert (exists b', In b' bs /\ band_freqs grid limit (fst b') (snd b') l) as [b' [Hb' Hf]].
    { clear - HR Hin. induction HR; [destruct Hin |]. destruct Hin as [<- | Hin]; [exists x; split; [now left | assumption] |].
      destruct (IHHR Hin) as [b' [H1 H2]]. exists b'. split; [now right | assumption]. }
    destruct (band_freqs_in _ _ _ _ _ _ Hl Hnd HF Hx) as [i0 [j [Hi0 [Hj Hr]]]].
    destruct (band_freqs_in _ _ _ _ _ _ Hl Hnd Hf Hz) as [i [j0 [Hi [Hj0 Hr']]]].
    pose proof (counts_order grid _ _ _ _ j i Hnd (Ha1 b' Hb') Hj Hi). lra.
Qed.
Lemma freq_bands_ascending : ascending freq_bands.
Proof.
  unfold freq_bands. cbn [ascending In fst snd].
  repeat split; intros b' H; repeat (destruct H as [<- | H]; [cbn [fst snd]; lra |]); destruct H.
Qed.
Lemma lomb_sorted t : hd 0 t < last t 0 -> non_decreasing (lomb_freqs t freq_bands 500).
Proof.
  intros Ht. destruct (lomb_spec t freq_bands 500 ltac:(lia) Ht) as [ls [-> H]].
  eapply concat_sorted; [| exact (fourier_sorted t Ht) | exact freq_bands_ascending | exact H]. lia.
Qed.
