(** The external numerical routines called by utide, as a record of functions that every model
    function receives as an argument.  Nothing is assumed about them here. *)
From Verif Require Import M_Base.
Open Scope R_scope.

Definition cmat := list (list C).   (* list of rows *)
Definition rmat := list (list R).

Record lib := {
  (** np.datetime64(string, "ms"): milliseconds since 1970, None = ValueError *)
  l_parse : string -> option Z;
  (** np.linalg.lstsq(a, b, rcond): solution, residual sums of squares ([] when rank deficient or
      not overdetermined), rank, singular values *)
  l_lstsq : cmat -> list C -> pyval -> res (list C * list R * nat * list R);
  (** np.linalg.pinv *)
  l_pinv : cmat -> res cmat;
  (** np.linalg.inv *)
  l_inv : cmat -> res cmat;
  (** np.linalg.svd of a real matrix: U, S, V with A = U diag(S) V *)
  l_svd : rmat -> res (rmat * list R * rmat);
  (** np.linalg.eigvals *)
  l_eigvals : rmat -> res (list C);
  (** np.linalg.cholesky succeeds *)
  l_is_PD : rmat -> bool;
  (** np.spacing *)
  l_spacing : R -> R;
  (** np.random.multivariate_normal(mean, cov, n); the first argument numbers the calls *)
  l_mvn : nat -> list R -> rmat -> nat -> res rmat;
  (** scipy.signal.lombscargle(t, x, angular freqs) *)
  l_lomb : list R -> list R -> list R -> list R;
  (** ndarray.argsort(): indices that sort the array, NaN last; the order of ties is unspecified *)
  l_argsort : list xr -> list nat
}.

(** A matrix all of whose entries are finite. *)
Fixpoint all_some {A} (l : list (option A)) : option (list A) :=
  match l with
  | [] => Some []
  | Some x :: l' => option_map (cons x) (all_some l')
  | None :: l' => None
  end.
Definition finite_mat {A} (M : list (list (option A))) : option (list (list A)) :=
  all_some (map all_some M).
