(** utide/_ut_constants.py: constants and look-up dictionaries. *)
From Coq Require Import QArith Qreals Ascii.
From Verif Require Import M_Base M_Tables.
Open Scope R_scope.

(** Python [str.rstrip()] on blanks; utide/utilities.py:322-323 (convert_unicode_arrays). *)
Fixpoint rstrip (s : string) : string :=
  match s with
  | EmptyString => EmptyString
  | String c s' =>
      match rstrip s' with
      | EmptyString => if Ascii.eqb c " "%char then EmptyString else String c EmptyString
      | r => String c r
      end
  end.

(** utide/_ut_constants.py:11-14: constit_names after rstrip. *)
Definition const_name : list string := map rstrip const_name_raw.

(** utide/_ut_constants.py:17: [{name: i for (i, name) in enumerate(constit_names)}] *)
Definition constit_index_dict : dict nat :=
  fold_left (fun d p => dset d (snd p) (fst p)) (enumerate const_name) [].

(** [constit_index_dict[n]]: KeyError for an unknown name. *)
Definition constit_index (n : string) : res nat :=
  match dget constit_index_dict n with Some i => Ok i | None => Err KeyError end.

(** const.freq, const.df as reals. *)
Definition freqR : list R := map Q2R const_freq.
Definition dfR : list R := map Q2R const_df.

(** utide/_ut_constants.py:20: [Bunch(zip(_uc.name, _uc.freq))] *)
Definition cycles_per_hour : dict R :=
  fold_left (fun d p => dset d (fst p) (snd p)) (combine const_name freqR) [].

(** utide/_ut_constants.py:21-22: [Bunch(zip(_uc.name, 1 / _uc.freq))] *)
Definition hours_per_cycle : dict xr :=
  fold_left (fun d p => dset d (fst p) (snd p))
            (combine const_name (map (fun f => xdiv (Fin 1) (Fin f)) freqR)) [].
