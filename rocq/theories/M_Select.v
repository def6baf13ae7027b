(** utide/constituent_selection.py (ut_cnstitsel). *)
From Coq Require Import QArith Qreals.
From Verif Require Import M_Base M_Tables M_Const M_Options M_Harmonics.
Open Scope R_scope.

(** One reference constituent with its inferred constituents (cnstit.R[i]). *)
Record refstruct := {
  r_name : string;
  r_lind : nat;
  r_frq : R;
  r_Rp : list C;
  r_Rm : list C;
  r_Iname : list string;
  r_Ilind : list nat;
  r_Ifrq : list R
}.

Record sel := {
  s_NRname : list string;
  s_NRlind : list nat;
  s_NRarr : bool;            (* cnstit.NR.lind is an integer ndarray (else a Python list) *)
  s_NRfrq : list R;
  s_R : list refstruct;
  s_name : list string;      (* coef.name *)
  s_frq : list R;            (* coef.aux.frq *)
  s_lind : list nat;         (* coef.aux.lind *)
  s_nNR : nat;
  s_nR : nat;
  s_nI : nat
}.

(** utide/constituent_selection.py:46-47: [np.where(const.df >= minres)[0]] *)
Definition auto_lind (minres : xr) : list nat :=
  map fst (filter (fun p => xge (Fin (snd p)) minres) (enumerate dfR)).

(** utide/constituent_selection.py:46-49 *)
Definition initial_lind (minres : xr) (incnstit : pyval) : res (list nat) :=
  if eq_str incnstit "auto" then Ok (auto_lind minres)
  else do names <- as_names incnstit; mapM constit_index names.

(** keys of an OrderedDict: first occurrences; utide/constituent_selection.py:70 *)
Definition first_occ (l : list string) : list string :=
  fold_left (fun acc x => if mem_str x acc then acc else acc ++ [x])%list l [].

(** Sequence indexing [l[i]] *)
Definition seq_get {A} (l : list A) (i : nat) : res A :=
  match nth_error l i with Some x => Ok x | None => Err IndexError end.

(** utide/constituent_selection.py:79-98: data of the inferred constituent at input position ilk *)
Definition one_inferred (freqs : list R) (inf : infer_r) (nI ilk : nat)
  : res (C * C * string * nat * R) :=
  do a <- seq_get (inf_amp inf) ilk;
  do o <- seq_get (inf_off inf) ilk;
  let Rp := Cmult (RtoC a) (cis (o * PI / 180)) in
  do Rm <- (if Nat.ltb nI (length (inf_amp inf)) then
              do a2 <- seq_get (inf_amp inf) (ilk + nI);
              do o2 <- seq_get (inf_off inf) (ilk + nI);
              Ok (Cmult (RtoC a2) (cis (- (o2 * PI / 180))))
            else Ok (Cconj Rp));
  do iname <- seq_get (inf_inferred inf) ilk;
  do l <- constit_index iname;
  do f <- seq_get freqs l;
  Ok (Rp, Rm, iname, l, f).

(** utide/constituent_selection.py:72-102: one reference constituent *)
Definition one_ref (freqs : list R) (inf : infer_r) (nI : nat) (name : string) : res refstruct :=
  do l <- constit_index name;
  do f <- seq_get freqs l;
  let ind := map fst (filter (fun p => String.eqb name (snd p)) (enumerate (inf_reference inf))) in
  do items <- mapM (one_inferred freqs inf nI) ind;
  Ok {| r_name := name; r_lind := l; r_frq := f;
        r_Rp := map (fun x => fst (fst (fst (fst x)))) items;
        r_Rm := map (fun x => snd (fst (fst (fst x)))) items;
        r_Iname := map (fun x => snd (fst (fst x))) items;
        r_Ilind := map (fun x => snd (fst x)) items;
        r_Ifrq := map (fun x => snd x) items |}.

(** utide/constituent_selection.py:10-130.  The set comprehension at line 54 looks up every
    inferred and reference name (KeyError if unknown). *)
Definition ut_cnstitsel (tref : R) (minres : xr) (incnstit : pyval) (infer : option infer_r)
  : res sel :=
  let freqs := linearized_freqs tref in
  do lind0 <- initial_lind minres incnstit;
  do lind <- match infer with
             | None => Ok lind0
             | Some inf =>
                 do ri <- mapM constit_index (inf_inferred inf ++ inf_reference inf);
                 Ok (filter (fun i => negb (existsb (Nat.eqb i) ri)) lind0)
             end;
  do NRfrq <- take_idx freqs lind;
  do NRname <- take_idx const_name lind;
  let nNR := length NRfrq in
  match infer with
  | None =>
      Ok {| s_NRname := NRname; s_NRlind := lind; s_NRarr := eq_str incnstit "auto";
            s_NRfrq := NRfrq; s_R := [];
            s_name := NRname; s_frq := NRfrq; s_lind := lind;
            s_nNR := nNR; s_nR := 0; s_nI := 0 |}
  | Some inf =>
      let nI := length (inf_inferred inf) in
      let allrefs := first_occ (inf_reference inf) in
      do R <- mapM (one_ref freqs inf nI) allrefs;
      Ok {| s_NRname := NRname; s_NRlind := lind; s_NRarr := false;
            s_NRfrq := NRfrq; s_R := R;
            s_name := (NRname ++ allrefs ++ flat_map r_Iname R)%list;
            s_frq := (NRfrq ++ map r_frq R ++ flat_map r_Ifrq R)%list;
            s_lind := (lind ++ map r_lind R ++ flat_map r_Ilind R)%list;
            s_nNR := nNR; s_nR := length allrefs; s_nI := nI |}
  end.
