(** utide/_solve.py:16-119, 220-224: option processing with the objects that are shared between the caller, the module and the result.
    Dictionaries and Bunches live in a heap; arrays, strings and numbers are values.  M_Options.v has the same functions for values. *)
From Verif Require Import M_Base M_Bunch M_Lib M_Options M_Time M_Slvinit M_Select M_Ellipse M_Robust M_Period M_Conf M_Diag M_Solve.
Open Scope R_scope.
Open Scope string_scope.

(** an object: is it a Bunch (or else a plain dict), and its items *)
Definition heap := nat -> bool * dict pyval.
Definition write (h : heap) (l : nat) (o : bool * dict pyval) : heap := fun l' => if Nat.eqb l' l then o else h l'.

(** the value of an option: a value, or a reference to an object *)
Inductive arg := Given (v : pyval) | Object (l : nat).
Definition value (h : heap) (a : arg) : pyval := match a with Given v => v | Object l => PDict (fst (h l)) (snd (h l)) end.
Definition read_args (h : heap) (d : dict arg) : dict pyval := map (fun kv => (fst kv, value h (snd kv))) d.
Definition aget (d : dict arg) (k : string) : arg := match dget d k with Some a => a | None => Given PNone end.

(** utide/_solve.py:16-31.  The dictionary in default_opts["robust_kw"] (line 27) is object 0; it exists once, from the import on. *)
Definition shared_kw : nat := 0.
Definition default_kw : bool * dict pyval := (false, [("weight_function", PStr "cauchy")]).
Definition default_args : dict arg :=
  map (fun kv => (fst kv, if String.eqb (fst kv) "robust_kw" then Object shared_kw else Given (snd kv))) default_opts.

(** utide/_solve.py:88-103 (validate_infer): the assignment at line 102 writes to the object that was passed *)
Definition validate_infer_st (h : heap) (a : arg) (is_2D : bool) : res arg * heap :=
  match a with
  | Given v => (do r <- validate_infer v is_2D; Ok (Given r), h)
  | Object l =>
      match validate_infer (PDict (fst (h l)) (snd (h l))) is_2D with
      | Ok (PDict b d) => (Ok (Object l), write h l (b, d))
      | Ok r => (Ok (Given r), h)
      | Err e => (Err e, h)
      end
  end.

(** utide/_solve.py:34-44 (_process_opts): Bunch(default_opts) at line 35 copies references.  Result: newopts, which the result of solve
    keeps (line 82, coef.aux.opt.newopts), and the translated options. *)
Definition process_opts_st (h : heap) (opts : dict arg) (is_2D : bool) : res (dict arg * dict pyval) * heap :=
  if dmem opts "strict" then (Err TypeError, h)
  else
    let newopts := bunch_init [default_args] [] in
    let newkw := dupdate [] opts in
    match check_strict newopts true newkw with
    | Err e => (Err e, h)
    | Ok _ =>
        let newopts := dupdate newopts (filter (fun kv => dmem newopts (fst kv)) newkw) in
        let (inf, h) := validate_infer_st h (aget newopts "infer") is_2D in
        match inf with
        | Err e => (Err e, h)
        | Ok inf =>
            let newopts := dset newopts "infer" inf in
            let snr := negb (eq_str (value h (aget newopts "conf_int")) "none") in
            match validate_order_constit (value h (aget newopts "order_constit")) snr with
            | Err e => (Err e, h)
            | Ok ord =>
                let newopts := dset newopts "order_constit" (match aget newopts "order_constit" with Object l => Object l | Given _ => Given ord end) in
                (do compat <- translate_opts (read_args h newopts); Ok (newopts, compat), h)
            end
        end
    end.

(** utide/_solve.py:122, 220-224 (solve).  Result: the coefficients and the references kept in coef.aux.opt.newopts
    (coef.aux.opt.infer is the object of its entry "infer"). *)
Definition solve_st (L : lib) (h : heap) (t : pyarr tarray) (u : pyarr (list xr)) (v : option (pyarr (list xr)))
    (lat : option R) (opts : dict arg) : res (coef * dict arg) * heap :=
  let (r, h) := process_opts_st h opts (match v with Some _ => true | None => false end) in
  (do p <- r; do c <- solv1 L t u v lat (snd p); Ok (c, fst p), h).

(** a call of solve *)
Record call := { k_lib : lib; k_t : pyarr tarray; k_u : pyarr (list xr); k_v : option (pyarr (list xr)); k_lat : option R; k_opts : dict arg }.
Definition run_call (h : heap) (k : call) : heap := snd (solve_st (k_lib k) h (k_t k) (k_u k) (k_v k) (k_lat k) (k_opts k)).
Definition run_calls (h : heap) (ks : list call) : heap := fold_left run_call ks h.
