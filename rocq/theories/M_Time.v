(** utide/_time_conversion.py *)
From Verif Require Import M_Base.
Open Scope R_scope.

(** utide/_time_conversion.py:8 *)
Definition DAY_TO_GREGORIAN_EPOCH : Z := 719163.
(** utide/_time_conversion.py:11 *)
Definition MS_PER_DAY : Z := 1000 * 86400.

(** numpy cast of a datetime64 in unit [u] to datetime64[ms] (floor for finer units),
    used at utide/_time_conversion.py:26.  64-bit overflow is not modelled. *)
Definition to_ms (u : tunit) (n : Z) : Z :=
  match u with
  | UDay => n * 86400000
  | UHour => n * 3600000
  | UMin => n * 60000
  | USec => n * 1000
  | UMs => n
  | UUs => n / 1000
  | UNs => n / 1000000
  end%Z.

(** Time arrays by dtype kind: datetime64 / datetime objects (None = NaT), signed integer or
    float ('i','f'), unsigned ('u'), strings ('U').  Other kinds are not modelled. *)
Inductive tarray :=
| TDate (u : tunit) (l : list (option Z))
| TNum (l : list xr)
| TUns (l : list Z)
| TStr (l : list string).

(** numpy cast of a float to datetime64[ms]: truncation toward zero, non-finite gives NaT. *)
Definition num_to_ms (x : xr) : option Z := option_map rtrunc (finite x).

(** utide/_time_conversion.py:40: [(date - epoch).astype(float) / _MS_PER_DAY], NaT -> NaN,
    with the default epoch 1970-01-01. *)
Definition ms_to_datenum (m : option Z) : xr :=
  match m with Some z => Fin (IZR z / IZR MS_PER_DAY) | None => NaN end.

Section Time.
(** [np.datetime64(string, "ms")] as milliseconds since 1970; None = ValueError. *)
Variable parse_date : string -> option Z.

(** utide/_time_conversion.py:23-29: cast to datetime64[ms] *)
Definition array_to_ms (t : tarray) : res (list (option Z)) :=
  match t with
  | TDate u l => Ok (map (option_map (to_ms u)) l)
  | TNum l => Ok (map num_to_ms l)
  | TUns l => Ok (map Some l)
  | TStr l => mapM (fun s => match parse_date s with
                             | Some z => Ok (Some z) | None => Err ValueError end) l
  end.

(** utide/_time_conversion.py:14-41 (_date2num) with the default epoch *)
Definition date2num (t : tarray) : res (list xr) :=
  do ms <- array_to_ms t; Ok (map ms_to_datenum ms).

(** utide/_time_conversion.py:44-53 (_python_gregorian_datenum) *)
Definition python_gregorian_datenum (t : tarray) : res (list xr) :=
  do d <- date2num t; Ok (map (fun x => xadd x (Fin (IZR DAY_TO_GREGORIAN_EPOCH))) d).

(** The epoch argument as a 0-d array for [np.asarray(epoch)]; utide/_time_conversion.py:77.
    Containers and booleans are treated as unparsable. *)
Definition epoch_array (e : pyval) : res tarray :=
  match e with
  | PStr s => Ok (TStr [s])
  | PDate u n => Ok (TDate u [Some n])
  | PNum x => Ok (TNum [Fin x])
  | _ => Err ValueError
  end.

(** utide/_time_conversion.py:56-85 (_normalize_time) *)
Definition normalize_time (t : tarray) (epoch : pyval) : res (list xr) :=
  if is_none epoch then python_gregorian_datenum t
  else match t with
  | TNum l =>
      if eq_str epoch "python" then Ok l
      else if eq_str epoch "matlab" then Ok (map (fun x => xsub x (Fin 366)) l)
      else
        do ea <- epoch_array epoch;
        do ofs <- python_gregorian_datenum ea;
        Ok (map (fun x => xadd x (hd NaN ofs)) l)
  | _ => Err ValueError
  end.
End Time.
