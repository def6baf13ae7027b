(** Specification vocabulary for the options of solve: names and defaults as documented in the
    docstring of solve (utide/_solve.py:122-215), and the value a call selects for an option. *)
From Verif Require Import M_Base S_Dict.
Open Scope R_scope.
Open Scope string_scope.

Definition documented : list (string * pyval) :=
  [("epoch", PNone);
   ("constit", PStr "auto");
   ("conf_int", PStr "linear");
   ("method", PStr "ols");
   ("trend", PBool true);
   ("phase", PStr "Greenwich");
   ("nodal", PBool true);
   ("infer", PNone);
   ("order_constit", PNone);
   ("MC_n", PNum 200);
   ("robust_kw", PDict false [("weight_function", PStr "cauchy")]);
   ("Rayleigh_min", PNum 1);
   ("white", PBool false);
   ("verbose", PBool true)].

(** [setting opts k v]: a call with keywords [opts] uses the value [v] for the option [k]. *)
Definition setting (opts : list (string * pyval)) (k : string) (v : pyval) : Prop :=
  entry opts k v \/ (~ In k (keys opts) /\ entry documented k v).

(** Values that count as false in Python. *)
Definition falsy (v : pyval) : Prop :=
  v = PNone \/ v = PBool false \/ v = PNum 0 \/ v = PStr "" \/ v = PSeq [] \/ exists b, v = PDict b [].

(** A well-formed inference object for scalar or vector data: the four lists and their lengths. *)
Definition has_length (v : pyval) (n : nat) : Prop :=
  (exists l, v = PSeq l /\ List.length l = n) \/ (exists s, v = PStr s /\ String.length s = n) \/
  (exists b d, v = PDict b d /\ List.length d = n).

Definition infer_lengths_ok (d : list (string * pyval)) (twodim : bool) : Prop :=
  exists a b c e n,
    entry d "inferred_names" a /\ entry d "reference_names" b /\
    entry d "amp_ratios" c /\ entry d "phase_offsets" e /\
    has_length a n /\ has_length b n /\
    (let m := if twodim then (2 * n)%nat else n in has_length c m /\ has_length e m).

(** Acceptable values of order_constit, given the value of conf_int. *)
Definition order_ok (x : pyval) (conf : pyval) : Prop :=
  x = PNone \/ x = PStr "PE" \/ x = PStr "frequency" \/ (x = PStr "SNR" /\ conf <> PStr "none") \/
  (exists l, x = PSeq l) \/ (exists b d, x = PDict b d).

