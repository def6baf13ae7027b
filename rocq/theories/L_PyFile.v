(** Reading variables from a file. *)
From Coq Require Import Ascii.
From Verif Require Import M_Base M_Bunch M_PyFile S_Dict S_PyFile L_Base.
Open Scope string_scope.

Lemma app_s_assoc (a b c : string) : (a ++ b) ++ c = a ++ b ++ c.
Proof. induction a as [|x a IH]; [reflexivity|]. cbn. now rewrite IH. Qed.
Lemma app_s_nil (a : string) : a ++ "" = a.
Proof. induction a as [|x a IH]; [reflexivity|]. cbn. now rewrite IH. Qed.
Lemma part_refl s : part s s.
Proof. exists "", "". cbn. now rewrite app_s_nil. Qed.
Lemma part_left s a t : part s t -> part s (a ++ t).
Proof. intros (x & y & ->). exists (a ++ x), y. now rewrite app_s_assoc. Qed.
Lemma part_right s t b : part s t -> part s (t ++ b).
Proof. intros (x & y & ->). exists x, (y ++ b). now rewrite !app_s_assoc. Qed.
Lemma single_cons a s : single_line (String a s) -> a <> ascii_of_nat 10 /\ single_line s.
Proof.
  intros H. split.
  - intros ->. apply H. exists "", s. reflexivity.
  - intros (x & y & ->). apply H. exists (String a x), y. reflexivity.
Qed.
Lemma single_cons' a s : a <> ascii_of_nat 10 -> single_line s -> single_line (String a s).
Proof.
  intros N H (x & y & E). destruct x as [|z x]; cbn in E; injection E as E1 E2; [apply N; exact E1|]. apply H. exists x, y. exact E2.
Qed.

Lemma lines_single s : s <> "" -> single_line s -> file_lines s = [s].
Proof.
  induction s as [|a s IH]; [congruence|]. intros _ H. apply single_cons in H. destruct H as [N H]. cbn [file_lines].
  destruct (Ascii.eqb_spec a (ascii_of_nat 10)); [congruence|]. destruct s as [|b s]; [reflexivity|]. now rewrite IH by (congruence || assumption).
Qed.
Lemma lines_more s t : single_line s -> file_lines (s ++ nl ++ t) = (s ++ nl) :: file_lines t.
Proof.
  induction s as [|a s IH]; intros H; [reflexivity|]. apply single_cons in H. destruct H as [N H].
  change (String a s ++ nl ++ t) with (String a (s ++ nl ++ t)). cbn [file_lines]. destruct (Ascii.eqb_spec a (ascii_of_nat 10)); [congruence|]. now rewrite IH.
Qed.
Lemma lines_are text ls : lines_of text ls -> file_lines text = ls.
Proof.
  induction 1 as [|s N H|s t ls H _ IH]; [reflexivity|now apply lines_single|]. rewrite lines_more by assumption. now rewrite IH.
Qed.
Lemma lines_exist text : exists ls, lines_of text ls.
Proof.
  induction text as [|a r (ls & IH)]; [exists []; constructor|]. destruct (ascii_dec a (ascii_of_nat 10)) as [-> |N].
  - exists (("" ++ nl) :: ls). apply (li_more "" r ls); [|exact IH]. intros (x & y & E). destruct x; discriminate E.
  - inversion IH; subst.
    + exists [String a ""]. constructor; [congruence|]. apply single_cons'; [exact N|]. intros (x & y & E). destruct x; discriminate E.
    + exists [String a r]. constructor; [congruence|]. now apply single_cons'.
    + exists ((String a s ++ nl) :: ls0). apply (li_more (String a s) t ls0); [now apply single_cons'|assumption].
Qed.
Lemma lines_unique text : exists ls, lines_of text ls /\ forall ls', lines_of text ls' -> ls' = ls.
Proof. destruct (lines_exist text) as (ls & H). exists ls. split; [exact H|]. intros ls' H'. apply lines_are in H, H'. congruence. Qed.
Lemma concat_joined l : String.concat "" l = joined l.
Proof. induction l as [|x [|y l] IH]; [reflexivity|cbn; now rewrite app_s_nil|]. change (x ++ "" ++ String.concat "" (y :: l) = x ++ joined (y :: l)). now rewrite IH. Qed.
Lemma joined_app a b : joined (a ++ b)%list = joined a ++ joined b.
Proof. induction a as [|x a IH]; [reflexivity|]. cbn [joined fold_right List.app]. fold (joined (a ++ b)%list) (joined a). now rewrite IH, app_s_assoc. Qed.
Lemma code_is text ls : lines_of text ls -> code_text text = in_function ls.
Proof.
  intros H. unfold code_text, in_function. rewrite (lines_are _ _ H), concat_joined, !joined_app. reflexivity.
Qed.

Lemma file_read {V} (run : string -> res (dict V)) self text ls d : unique_keys self -> unique_keys d -> lines_of text ls -> run (in_function ls) = Ok d ->
  exists b, from_pyfile run self (Ok text) = (b, Ok tt) /\ unique_keys b /\ forall k v, entry b k v <-> given [self; d] k v.
Proof.
  intros U1 U2 H E. unfold from_pyfile. rewrite (code_is _ _ H), E. eexists. split; [reflexivity|].
  assert (U : unique_keys (dupdate self d)) by (apply NoDup_dupdate; exact U1). split; [exact U|]. intros k v. unfold entry. rewrite <- dget_In by exact U.
  rewrite dget_dupdate by exact U2. split.
  - destruct (dget d k) as [w|] eqn:G; intros K.
    + inversion K; subst. exists [self], d, []. split; [reflexivity|]. split; [now apply dget_In|]. intros d' [].
    + exists [], self, [d]. split; [reflexivity|]. split; [now apply dget_In|]. intros d' [<-|[]]. now apply dget_None.
  - intros (pre & x & post & A & B & N). destruct pre as [|p [|q pre]].
    + inversion A; subst. assert (G : dget d k = None) by (apply dget_None, N; now left). rewrite G. now apply dget_In.
    + inversion A; subst. apply (dget_In _ _ _ U2) in B. now rewrite B.
    + inversion A. destruct pre; discriminate.
Qed.
Lemma file_fails {V} (run : string -> res (dict V)) self text ls e : lines_of text ls -> run (in_function ls) = Err e -> from_pyfile run self (Ok text) = (self, Err e).
Proof. intros H E. unfold from_pyfile. now rewrite (code_is _ _ H), E. Qed.

Lemma file_unchanged {V} (run : string -> res (dict V)) self file :
  (forall e, file = Err e -> from_pyfile run self file = (self, Err e)) /\ forall b e, from_pyfile run self file = (b, Err e) -> b = self.
Proof.
  split; [intros e ->; reflexivity|]. unfold from_pyfile. intros b e. destruct file as [text|e']; [destruct (run (code_text text)) as [d|e']|]; intros H; inversion H; reflexivity.
Qed.

Lemma cut_pre c y b s : forall x, s ++ b = x ++ String c y -> ~ part (String c "") s -> exists b', x = s ++ b'.
Proof.
  induction s as [|e s IH]; intros x E N; [exists x; reflexivity|]. destruct x as [|f x]; cbn in E; injection E as E1 E2.
  - subst e. elim N. exists "", s. reflexivity.
  - subst f. destruct (IH x E2) as (b' & ->); [|exists b'; reflexivity]. intros (p & q & ->). apply N. exists (String e p), q. reflexivity.
Qed.
Lemma cut_part c y b s : forall a x, a ++ s ++ b = x ++ String c y -> ~ part (String c "") s -> part s x \/ part s y.
Proof.
  induction a as [|e a IH]; intros x E N.
  - left. destruct (cut_pre c y b s x E N) as (b' & ->). exists "", b'. reflexivity.
  - destruct x as [|f x]; cbn in E; injection E as E1 E2.
    + right. exists a, b. now symmetry.
    + subst f. destruct (IH x E2 N) as [H|H]; [left|now right]. now apply (part_left s (String e "")).
Qed.
Lemma one_line text ls s : lines_of text ls -> single_line s -> part s text -> exists l, (s = "" \/ In l ls) /\ part s l.
Proof.
  intros H N. induction H as [|x Nx Hx|x t ls Hx Ht IH]; intros P.
  - exists "". split; [|exact P]. left. destruct P as (a & b & E). destruct a; [|discriminate E]. destruct s; [reflexivity|discriminate E].
  - exists x. split; [right; now left|exact P].
  - destruct P as (a & b & E). symmetry in E. destruct (cut_part _ _ _ _ _ _ E N) as [K|K].
    + exists (x ++ nl). split; [right; now left|]. now apply part_right.
    + destruct (IH K) as (l & [-> |Hl] & Pl); [exists l; auto|exists l; split; [right; now right|exact Pl]].
Qed.
Lemma part_empty t : part "" t.
Proof. exists "", t. reflexivity. Qed.
Lemma part_joined s l ls : In l ls -> part s l -> part s (joined ls).
Proof.
  induction ls as [|x ls IH]; intros H P; [destruct H|]. change (joined (x :: ls)) with (x ++ joined ls). destruct H as [-> |H]; [now apply part_right|]. apply part_left. auto.
Qed.
Lemma kept_pieces text s : single_line s -> part s text -> part s (code_text text).
Proof.
  intros N P. destruct (lines_exist text) as (ls & H). rewrite (code_is _ _ H). destruct (one_line _ _ _ H N P) as (l & [-> |Hl] & Pl); [apply part_empty|].
  unfold in_function. apply (part_joined s ("    " ++ l)); [|now apply part_left]. apply in_or_app. right. apply in_or_app. left. apply in_map_iff. eauto.
Qed.

Fixpoint part_b (s t : string) : bool := String.prefix s t || match t with "" => false | String _ r => part_b s r end.
Lemma prefix_app s b : String.prefix s (s ++ b) = true.
Proof. induction s as [|a s IH]; [destruct b; reflexivity|]. cbn. destruct (ascii_dec a a); [exact IH|congruence]. Qed.
Lemma part_dec s t : part s t -> part_b s t = true.
Proof.
  intros (a & b & ->). induction a as [|x a IH].
  - change ("" ++ s ++ b) with (s ++ b). assert (P := prefix_app s b). destruct (s ++ b); cbn [part_b]; now rewrite P.
  - change (String x a ++ s ++ b) with (String x (a ++ s ++ b)). cbn [part_b]. rewrite IH. apply Bool.orb_true_r.
Qed.
Definition two_lines : string := "x = " ++ quotes ++ ("a" ++ nl ++ "b") ++ quotes ++ nl.
Lemma multiline : exists text s s', part (quotes ++ s ++ quotes) text /\ ~ part quotes s /\ ~ part (quotes ++ s ++ quotes) (code_text text) /\
  part (quotes ++ s' ++ quotes) (code_text text) /\ ~ part (quotes ++ s' ++ quotes) text.
Proof.
  exists two_lines, ("a" ++ nl ++ "b"), ("a" ++ nl ++ "    b"). split; [|split; [|split; [|split]]].
  - exists "x = ", nl. vm_compute. reflexivity.
  - intros P. apply part_dec in P. vm_compute in P. discriminate P.
  - intros P. apply part_dec in P. vm_compute in P. discriminate P.
  - exists ("def _temp_func():" ++ nl ++ "    x = "), (nl ++ nl ++ "    return(locals())" ++ nl ++ "_temp_out = _temp_func()" ++ nl ++ "del(_temp_func)" ++ nl). vm_compute. reflexivity.
  - intros P. apply part_dec in P. vm_compute in P. discriminate P.
Qed.

(** x = 1 and y = 2, without a newline at the end *)
Definition ex_text : string := "x = 1" ++ nl ++ "y = 2".
Definition ex_run (p : string) : res (dict nat) :=
  if String.eqb p ("def _temp_func():" ++ nl ++ "    x = 1" ++ nl ++ "    y = 2" ++ nl ++ "    return(locals())" ++ nl ++
                   "_temp_out = _temp_func()" ++ nl ++ "del(_temp_func)" ++ nl)
  then Ok [("x", 1%nat); ("y", 2%nat)] else Err NameError.
