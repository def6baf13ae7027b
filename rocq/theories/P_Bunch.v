(** Properties C69-C71: the Bunch container (options, results). *)
From Coq Require Import Sorted Permutation.
From Verif Require Import M_Base M_Bunch S_Dict L_Bunch.
Open Scope string_scope.

(** C69.  [ds] are the dictionaries applied, in order; the keyword "strict" is not data. *)
Theorem C69_update_values : forall (self : dict pyval) (args : list (dict pyval)) (kw : dict pyval),
  unique_keys self -> (forall d, In d args -> unique_keys d) -> unique_keys kw ->
  forall r o, update_values self args kw = (r, o) ->
  let ds := (args ++ [without "strict" kw])%list in
  ((exists v, entry kw "strict" v /\ truthy v = true) /\
   (exists k v, given ds k v /\ ~ In k (keys self)) /\ o = Err KeyError /\ r = self)
  \/
  (((~ exists v, entry kw "strict" v /\ truthy v = true) \/
    (forall k v, given ds k v -> In k (keys self))) /\
   o = Ok tt /\ keys r = keys self /\
   forall k v, entry r k v <->
     (In k (keys self) /\ given ds k v) \/ (entry self k v /\ not_given ds k)).
Proof. exact update_values_lemma. Qed.
Print Assumptions C69_update_values.

Theorem C69_update_None : forall (self : dict pyval) (args : list (dict pyval)) (kw : dict pyval),
  unique_keys self -> (forall d, In d args -> unique_keys d) -> unique_keys kw ->
  forall r o, update_None self args kw = (r, o) ->
  let ds := (args ++ [without "strict" kw])%list in
  ((exists v, entry kw "strict" v /\ truthy v = true) /\
   (exists k v, given ds k v /\ ~ In k (keys self)) /\ o = Err KeyError /\ r = self)
  \/
  (((~ exists v, entry kw "strict" v /\ truthy v = true) \/
    (forall k v, given ds k v -> In k (keys self))) /\
   o = Ok tt /\ keys r = keys self /\
   forall k v, entry r k v <->
     (entry self k PNone /\ given ds k v) \/ (entry self k v /\ (v <> PNone \/ not_given ds k))).
Proof. exact update_None_lemma. Qed.
Print Assumptions C69_update_None.

Example C69_example_lax :
  update_values [("a", PBool true); ("b", PNone)] [[("a", PStr "x"); ("c", PNone)]] [("b", PStr "y")]
  = ([("a", PStr "x"); ("b", PStr "y")], Ok tt).
Proof. reflexivity. Qed.
Example C69_example_strict :
  update_values [("a", PBool true)] [] [("a", PNone); ("c", PNone); ("strict", PBool true)]
  = ([("a", PBool true)], Err KeyError).
Proof. reflexivity. Qed.
Example C69_example_None :
  update_None [("a", PBool true); ("b", PNone)] [] [("a", PStr "x"); ("b", PStr "y")]
  = ([("a", PBool true); ("b", PStr "y")], Ok tt).
Proof. reflexivity. Qed.

(** A Bunch built from dictionaries and keywords holds, for each key, the value of the last of the
    dictionaries that has it; keywords come after all of them. *)
Theorem C69_construction : forall {V} (args : list (dict V)) (kw : dict V),
  (forall d, In d args -> unique_keys d) -> unique_keys kw ->
  unique_keys (bunch_init args kw) /\
  forall k v, entry (bunch_init args kw) k v <-> given (args ++ [kw])%list k v.
Proof. exact @construct_lemma. Qed.
Print Assumptions C69_construction.

Example C69_example_construction :
  bunch_init [[("a", 1); ("b", 2)]; [("b", 3); ("c", 4)]] [("a", 5); ("d", 6)]
  = [("a", 5); ("b", 3); ("c", 4); ("d", 6)].
Proof. reflexivity. Qed.

(** C70.  Attribute writes are item writes, and attribute reads are item reads, for every name that
    is not a method of dict or Bunch. *)
Theorem C70_attribute_is_item : forall {V} (d : dict V) n v,
  unique_keys d -> ~ In n (dict_method_names ++ bunch_names)%list ->
  let d' := bunch_setattr d n v in
  unique_keys d' /\
  (forall v', entry d' n v' <-> v' = v) /\
  (forall k v', k <> n -> (entry d' k v' <-> entry d k v')) /\
  bunch_getattr d' n = Ok (AItem v) /\
  (forall v', bunch_getattr d n = Ok (AItem v') <-> entry d n v').
Proof. exact @attribute_access_lemma. Qed.
Print Assumptions C70_attribute_is_item.

(** Names of methods never read the item, even after it was set. *)
Theorem C70_method_names_shadow_items : forall {V} (d : dict V) n,
  In n (dict_method_names ++ bunch_names)%list -> bunch_getattr d n = Ok (AMethod n).
Proof. exact @getattr_method'. Qed.
Print Assumptions C70_method_names_shadow_items.

Theorem C70_missing_attribute : forall {V} (d : dict V) n,
  ~ In n (dict_method_names ++ bunch_names)%list -> n <> "t_mpl" ->
  (bunch_getattr d n = Err AttributeError <-> ~ In n (keys d)).
Proof. exact @getattr_missing. Qed.
Print Assumptions C70_missing_attribute.

(** The unrestricted claim is false: a missing t_mpl raises KeyError. *)
Theorem C70_missing_attribute_refuted :
  ~ (forall (d : dict pyval) n, ~ In n (dict_method_names ++ bunch_names)%list ->
       ~ In n (keys d) -> bunch_getattr d n = Err AttributeError).
Proof. exact missing_attribute_refuted_lemma. Qed.
Print Assumptions C70_missing_attribute_refuted.

Example C70_example :
  bunch_getattr (bunch_setattr [("A", PBool true)] "g" PNone) "g" = Ok (AItem PNone)
  /\ bunch_getattr (bunch_setattr [("A", PBool true)] "items" PNone) "items" = Ok (AMethod "items")
  /\ bunch_getattr [("A", PBool true)] "g" = Err AttributeError.
Proof. repeat split. Qed.

(** C71. *)
Theorem C71_str_lists_every_key_once_sorted : forall {V} (vstr : V -> string) (d : dict V), d <> [] ->
  exists items lines out kw vw,
    formatted vstr d = Ok out /\ out = String.concat "" lines /\
    Permutation items d /\ StronglySorted (fun x y => str_before (fst x) (fst y)) items /\
    column_width 20 (keys d) kw /\ column_width 40 (map (fun kv => vstr (snd kv)) d) vw /\
    Forall2 (fun kv line => exists p q, blanks p /\ blanks q /\
               String.length p = (kw - String.length (fst kv))%nat /\
               String.length q = (vw - String.length (vstr (snd kv)))%nat /\
               line = fst kv ++ p ++ " : " ++ q ++ vstr (snd kv) ++ newline) items lines.
Proof. exact @formatted_lemma. Qed.
Print Assumptions C71_str_lists_every_key_once_sorted.

Theorem C71_str_of_empty_raises : forall {V} (vstr : V -> string),
  formatted vstr [] = Err ValueError.
Proof. exact @formatted_empty. Qed.
Print Assumptions C71_str_of_empty_raises.

Example C71_example :
  formatted (fun v : string => v) [("name", "M2"); ("A", "1.25")]
  = Ok ("A    : 1.25" ++ newline ++ "name :   M2" ++ newline).
Proof. reflexivity. Qed.
