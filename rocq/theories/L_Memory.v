(** Lemmas on memory, the satellite table and the series of reconstruct. *)
From Coq Require Import QArith Qreals Lia Lra.
From Verif Require Import M_Base M_Lib M_Tables M_Const M_Time M_Options M_Slvinit M_Harmonics M_Select M_Ellipse M_Robust M_Period M_Conf M_Diag M_Solve M_Recon M_Memory
  S_Memory L_Slv.
Open Scope R_scope.

(** ** store *)
Lemma store_free m a l : free (store m a l) = free m.
Proof. revert m l. induction a as [|i a IH]; intros m [|x l]; cbn [store]; auto. rewrite IH. reflexivity. Qed.
Lemma store_other m a l j : ~ In j a -> cell (store m a l) j = cell m j.
Proof.
  revert m l. induction a as [|i a IH]; intros m [|x l] H; cbn [store]; auto. rewrite IH by (intros K; apply H; now right).
  cbn. destruct (Nat.eqb_spec j i) as [->|]; auto. exfalso. apply H. now left.
Qed.
Lemma look_other m a l b : apart b a -> look (store m a l) b = look m b.
Proof. intros H. apply map_ext_in. intros i Hi. apply store_other. now apply H. Qed.
Lemma look_store m a l : NoDup a -> length l = length a -> look (store m a l) a = l.
Proof.
  revert m l. induction a as [|i a IH]; intros m [|x l] ND Hl; try discriminate; auto. inversion ND; subst. cbn [store look map]. f_equal.
  - rewrite store_other by auto. cbn. now rewrite Nat.eqb_refl.
  - apply IH; auto.
Qed.

(** values written to the selected places of an array *)
Fixpoint merge (mask : list bool) (l old : list xr) : list xr :=
  match mask, old with
  | true :: mk, o :: old' => hd o l :: merge mk (tl l) old'
  | false :: mk, o :: old' => o :: merge mk l old'
  | _, _ => old
  end.
Lemma compress_in {A} mask (a : list A) x : In x (compress mask a) -> In x a.
Proof. revert a. induction mask as [|[|] mk IH]; intros [|y a]; cbn; try easy; intros H; [destruct H as [->|H]; [now left|right; auto]|right; auto]. Qed.
Lemma compress_nodup {A} mask (a : list A) : NoDup a -> NoDup (compress mask a).
Proof.
  revert a. induction mask as [|[|] mk IH]; intros [|y a] H; cbn; try constructor; inversion H; subst; auto.
  intros K. now apply compress_in in K.
Qed.
Lemma look_merge mask a l m : NoDup a -> length l = length (compress mask a) -> look (store m (compress mask a) l) a = merge mask l (look m a).
Proof.
  revert a l m. induction mask as [|[|] mk IH]; intros [|i a] l m ND Hl; cbn [compress merge look map store] in *; auto; inversion ND; subst.
  - destruct l as [|x l]; [discriminate|]. cbn [store hd tl]. injection Hl as Hl. f_equal.
    + rewrite store_other by (intros K; now apply compress_in in K). cbn. now rewrite Nat.eqb_refl.
    + fold (look (store (poke m i x) (compress mk a) l) a). rewrite IH by auto. f_equal.
      apply map_ext_in. intros j Hj. cbn. destruct (Nat.eqb_spec j i) as [->|]; auto. easy.
  - f_equal.
    + apply store_other. intros K. now apply compress_in in K.
    + fold (look (store m (compress mk a) l) a). now rewrite IH.
Qed.
Lemma look_compress m mask a : look m (compress mask a) = compress mask (look m a).
Proof. symmetry. apply compress_map. Qed.
Lemma look_length m a : length (look m a) = length a.
Proof. apply map_length. Qed.

(** ** what a piece of program may do, seen from an earlier memory m0 *)
Definition later (m0 m : mem) : Prop := (free m0 <= free m)%nat /\ forall i, (i < free m0)%nat -> cell m i = cell m0 i.
Lemma later_refl m : later m m.
Proof. split; auto. Qed.
Lemma later_trans a b c : later a b -> later b c -> later a c.
Proof. intros [H1 H2] [K1 K2]. split; [lia|]. intros i Hi. rewrite K2 by lia. auto. Qed.
Lemma later_look m m' a : later m m' -> exists_in m a -> look m' a = look m a.
Proof. intros [_ H] E. apply map_ext_in. intros i Hi. apply H. unfold exists_in in E. rewrite Forall_forall in E. auto. Qed.
Lemma later_exists m m' a : later m m' -> exists_in m a -> exists_in m' a.
Proof. intros [H _] E. eapply Forall_impl; [|exact E]. cbn. intros; lia. Qed.
Lemma later_nothing m m' : later m m' -> nothing_changed m m'.
Proof. intros H. split; [apply H|]. intros a. now apply later_look. Qed.
Lemma later_intact m m' : table_intact m -> later m m' -> table_intact m'.
Proof.
  intros [H1 H2] K. split; [destruct K; lia|]. rewrite <- H2. apply later_look; auto. unfold exists_in, table. apply Forall_forall. intros i Hi. apply in_seq in Hi. lia.
Qed.

Lemma alloc_spec l m a m' : alloc l m = (Ok a, m') -> a = seq (free m) (length l) /\ look m' a = l /\ later m m' /\ free m' = (free m + length l)%nat.
Proof.
  unfold alloc. intros H. injection H as <- <-. split; [reflexivity|]. split; [apply look_store; [apply seq_NoDup|now rewrite seq_length]|].
  split; [|now rewrite store_free]. split; [rewrite store_free; cbn; lia|]. intros i Hi. rewrite store_other; auto. rewrite in_seq. lia.
Qed.
Lemma store_later m0 m a l : later m0 m -> (forall i, In i a -> (free m0 <= i)%nat) -> later m0 (store m a l).
Proof. intros [H1 H2] H. split; [now rewrite store_free|]. intros i Hi. rewrite store_other; auto. intros K. apply H in K. lia. Qed.

(** ** satellites *)
Lemma merge_scale (f : xr -> xr) mask old : length mask = length old ->
  merge mask (map f (compress mask old)) old = map (fun p : bool * xr => if fst p then f (snd p) else snd p) (combine mask old).
Proof. revert old. induction mask as [|[|] mk IH]; intros [|o old] H; cbn in *; try discriminate; auto; f_equal; apply IH; lia. Qed.

Definition rr_spec (lat : R) (il : list nat) (l : list xr) : list xr :=
  map (fun p => if Nat.eqb 2 (snd p) then xmul (fst p) (latfac lat 2) else if Nat.eqb 1 (snd p) then xmul (fst p) (latfac lat 1) else fst p) (combine l il).

Lemma two_scales lat il l : length il = length l ->
  map (fun p : bool * xr => if fst p then xmul (snd p) (latfac lat 2) else snd p) (combine (map (Nat.eqb 2) il)
    (map (fun p : bool * xr => if fst p then xmul (snd p) (latfac lat 1) else snd p) (combine (map (Nat.eqb 1) il) l))) = rr_spec lat il l.
Proof.
  revert l. induction il as [|i il IH]; intros [|x l] H; try discriminate; auto. cbn [map combine fst snd rr_spec]. f_equal; [|apply IH; now injection H].
  destruct (Nat.eqb_spec 2 i) as [<-|]; reflexivity.
Qed.
Lemma rr_spec_value lat (am : list Q) il : 
  rr_spec lat il (map (fun q => Fin (Q2R q)) am) = map (fun p => xmul (Fin (Q2R (fst p))) (latfac lat (snd p))) (combine am il).
Proof.
  unfold rr_spec. revert il. induction am as [|q am IH]; intros [|i il]; auto. cbn [map combine fst snd]. f_equal; [|apply IH].
  destruct i as [|[|[|i]]]; try reflexivity; cbn [Nat.eqb latfac xmul]; now rewrite Rmult_1_r.
Qed.
(** with any tables *)
Definition rr_gen (tab : arr) (il : list nat) (lat : R) : act (list xr) :=
  go rr <- copy tab;
  go d1 <- scale_in_place (compress (map (Nat.eqb 1) il) rr) (latfac lat 1);
  go d2 <- scale_in_place (compress (map (Nat.eqb 2) il) rr) (latfac lat 2);
  fetch rr.
Lemma scale_step mask rr f m : NoDup rr -> length mask = length rr ->
  exists m', scale_in_place (compress mask rr) f m = (Ok tt, m') /\ free m' = free m /\ (forall i, ~ In i rr -> cell m' i = cell m i) /\
    look m' rr = map (fun p : bool * xr => if fst p then xmul (snd p) f else snd p) (combine mask (look m rr)).
Proof.
  intros ND Hl. eexists. split; [reflexivity|]. split; [apply store_free|]. split.
  - intros i Hi. apply store_other. intros K. apply Hi. eapply compress_in, K.
  - cbn. rewrite look_merge by (auto; now rewrite map_length, look_length). rewrite look_compress. apply (merge_scale (fun x => xmul x f)). now rewrite look_length.
Qed.
Lemma rr_gen_spec tab il lat m : length il = length tab ->
  exists m', rr_gen tab il lat m = (Ok (rr_spec lat il (look m tab)), m') /\ later m m'.
Proof.
  intros Hl. unfold rr_gen, copy, andthen, fetch. destruct (alloc (look m tab) m) as [[a|e] m1] eqn:EA; [|discriminate].
  destruct (alloc_spec _ _ _ _ EA) as (Ea & La & LT & FR). rewrite look_length in Ea.
  assert (ND : NoDup a) by (rewrite Ea; apply seq_NoDup). assert (Ln : length a = length tab) by (rewrite Ea; apply seq_length).
  destruct (scale_step (map (Nat.eqb 1) il) a (latfac lat 1) m1 ND) as (m2 & -> & F2 & O2 & L2); [now rewrite map_length, Ln|].
  destruct (scale_step (map (Nat.eqb 2) il) a (latfac lat 2) m2 ND) as (m3 & -> & F3 & O3 & L3); [now rewrite map_length, Ln|].
  exists m3. split.
  - rewrite L3, L2, La. rewrite two_scales by now rewrite look_length. reflexivity.
  - assert (K : forall i, (i < free m)%nat -> ~ In i a) by (intros i Hi; rewrite Ea, in_seq; lia).
    destruct LT as [LT1 LT2]. split; [lia|]. intros i Hi. rewrite O3, O2 by auto. auto.
Qed.
Lemma ilat_length : length sat_ilatfac = length sat_amprat.
Proof. vm_compute. reflexivity. Qed.
Lemma rr_mem_spec lat m : table_intact m -> exists m', rr_mem lat m = (Ok (sat_rr lat), m') /\ later m m'.
Proof.
  intros [_ H]. destruct (rr_gen_spec table sat_ilatfac lat m) as (m' & E & LT).
  { unfold table. rewrite seq_length. exact ilat_length. }
  exists m'. split; [|exact LT]. rewrite H, rr_spec_value in E. exact E.
Qed.
Lemma rr_mem_later lat m : exists r m', rr_mem lat m = (Ok r, m') /\ later m m'.
Proof.
  destruct (rr_gen_spec table sat_ilatfac lat m) as (m' & E & LT).
  { unfold table. rewrite seq_length. exact ilat_length. }
  eexists. exists m'. split; [exact E|exact LT].
Qed.

Lemma E_of_value t tref frq lind lat g : ut_E_of (sat_rr lat) t tref frq lind g = ut_E t tref frq lind lat g.
Proof.
  assert (HM : forall x, sat_mat_of (sat_rr lat) x = sat_mat x lat) by (intros; unfold sat_mat_of, sat_mat; exact eq_refl).
  assert (HF : forall x, sat_F_of (sat_rr lat) x = sat_F x lat) by (intros; unfold sat_F_of, sat_F; rewrite HM; exact eq_refl).
  assert (H1 : forall x, pick lind (F_col_of (sat_rr lat) x) = pick lind (F_col x lat)) by (intros; unfold F_col_of, F_col; rewrite HF; exact eq_refl).
  assert (H2 : forall x, pick lind (U_col_of (sat_rr lat) x) = pick lind (U_col x lat)) by (intros; unfold U_col_of, U_col; rewrite HF; exact eq_refl).
  unfold ut_E_of, ut_E, FUV_of, FUV. destruct (NodsatNone g).
  - exact eq_refl.
  - cbn [andb]. rewrite (map_ext _ _ H1), (map_ext _ _ H2). exact eq_refl.
Qed.
Lemma E_of_none rr t tref frq lind lat g : NodsatNone g = true -> ut_E_of rr t tref frq lind g = ut_E t tref frq lind lat g.
Proof. intros H. unfold ut_E_of, ut_E, FUV_of, FUV. rewrite H. exact eq_refl. Qed.

(** outcomes with a value and a later memory *)
Definition runs {A} (p : act A) (m : mem) (r : res A) : Prop := exists m', p m = (r, m') /\ later m m'.
Lemma ut_E_mem_spec t tref frq lind lat g m : table_intact m -> runs (ut_E_mem t tref frq lind lat g) m (Ok (ut_E t tref frq lind lat g)).
Proof.
  intros H. unfold ut_E_mem. destruct (NodsatNone g) eqn:E.
  - exists m. split; [|apply later_refl]. unfold ret. now rewrite (E_of_none [] t tref frq lind lat g E).
  - destruct (rr_mem_spec lat m H) as (m' & E' & LT). exists m'. split; [|exact LT]. unfold andthen. rewrite E'. unfold ret. now rewrite E_of_value.
Qed.

(** rows of ut_E *)
Lemma bcast_len {A} n (l : list A) : length l = n \/ length l = 1%nat -> length (bcast n l) = n.
Proof. destruct l as [|a [|b l]]; cbn; intros [H|H]; try easy; apply repeat_length. Qed.
Lemma E_rows_len n f u v : length f = n -> length u = n -> length v = n -> length (E_rows f u v) = n.
Proof. revert f u v. induction n as [|n IH]; intros [|a f] [|b u] [|c v]; cbn; intros; try discriminate; auto. Qed.
Lemma ut_E_len t tref frq lind lat g : length (ut_E t tref frq lind lat g) = length t.
Proof.
  unfold ut_E. destruct (NodsatNone g && GwchNone g).
  - apply E_rows_len; apply bcast_len; left; unfold ones; now rewrite ?repeat_length, ?map_length.
  - unfold FUV. destruct (NodsatNone g), (NodsatLint g), (GwchNone g), (GwchLint g);
      apply E_rows_len; apply bcast_len; unfold ones; rewrite ?repeat_length, ?map_length, ?combine_length, ?bcast_len, ?Nat.min_id by (rewrite map_length; auto); auto.
Qed.
