# UTide in Rocq: design

The subject is the Python package in `/repo/utide` at the pinned commit. `properties.jsonl` lists what is claimed,
`rocq/` holds the model and the proofs, `MANIFEST.json` maps each claim to its theorems, `seeded/LOG.jsonl` records
the wrong programs the theorems were tried on, and `ASSUMPTIONS.md` lists the axioms of every theorem.

## 1. Trusted base

* **Coq 8.16.1's kernel** (and `vm_compute`, which is part of it).
* **Axioms.** Every theorem depends on a subset of four axioms of the standard library:
  `ClassicalDedekindReals.sig_forall_dec`, `ClassicalDedekindReals.sig_not_dec` (construction of the real numbers),
  `FunctionalExtensionality.functional_extensionality_dep`, and `Classical_Prop.classic`.
  `ASSUMPTIONS.md` (generated by `tools/assumptions.py`) gives the list per theorem; each theorem is also followed by
  `Print Assumptions` in its file. No axiom of any other library is used. Coquelicot (derivatives, complex numbers)
  and Flocq (binary64 format, only in `*_Float.v` and `*_FloatTime*.v`) are used for definitions and lemmas.
* **The transcription.** The model was written by reading `/repo`; the code was never run. Each definition of an
  `M_*.v` file cites the lines it transcribes. `M_Tables.v` is generated from `utide/data/ut_constants.npz` by
  `tools/gen_tables.py` (standard library only), exactly: each binary64 value becomes a dyadic rational.
* **numpy and scipy.** Their numerical routines are *arguments* of the model (record `lib`, file `M_Lib.v`).
  Nothing is assumed of them globally. A theorem that needs something has it as a named hypothesis:

| hypothesis | file | meaning |
|---|---|---|
| `argsort_perm`, `argsort_sorts` | S_Order | `argsort` returns a permutation; the permuted values ascend, NaN last; ties in any order |
| `lstsq_shape` | S_Fit | `lstsq` returns one coefficient per column |
| `lstsq_minimises` | S_Model | with `rcond=None`, the returned vector minimises the misfit |
| `lstsq_contract` | S_Robust | the same for a given rcond, plus: a non-empty residual is the misfit and the minimiser is unique. LAPACK treats `robustfit`'s default rcond=1 as machine epsilon; a user's rcond strictly between 0 and 1 may cut singular values off, then the hypothesis fails |
| `lstsq_sums`, `lstsq_no_sums` | S_RobustAccept | `lstsq` reports the misfit for more rows than columns and full rank, and reports none when there are no more rows than columns |
| `pinv_exact` | S_RobustAccept | `pinv` P of a full-rank X makes X P an orthogonal projection |
| `lstsq_returns` | S_Accept | `lstsq` does not raise for a finite matrix with at least one row |
| `inv_exact` | S_Errors | a returned inverse is a two-sided inverse |
| `inv_returns` | S_Accept | `inv` does not raise for a square matrix with trivial kernel |
| `svd_exact` | S_Conf | `svd` decomposes its argument with orthogonal factors and non-negative singular values |
| `mvn_returns`, `svd_returns`, `eigvals_returns` | S_McAccept | `multivariate_normal` draws for every square covariance of the size of the mean; `svd` gives a result for every symmetric, `eigvals` for every square matrix |
| `mvn_shape` | S_Conf | `multivariate_normal` returns n rows of the length of the mean |
| `lomb_contract` | S_Period | `lombscargle` is the Lomb formula where the frequency is resolved by the times |
| `lomb_quadratic` | S_RobustErr | the `lombscargle` power of data times k is k² times the power of the data |
| `arctan2_rough` | S_Float | `arctan2` of small ratios is a positive binary64 at most twice the ratio |
| `arrays_ok` | S_Fit | an ndarray has as many elements as its shape says |

  Each hypothesis is met by a concrete instance in the Examples next to the theorems (`L_Example*.v`).
  All those on linear algebra, sorting, sampling and the periodogram hold at once for the library `exactL`
  (L_Exact.v: pseudo-inverse by orthogonalisation; `svd` for 2×2), see `C103_library`.

## 2. How the code is modelled

* **Numbers** are exact reals (`R`); complex numbers are pairs (`C`). Rounding is not modelled, except in `M_Float.v`,
  which models the angle arithmetic of `ut_cs2cep`, and `M_FloatTime.v`, which models the conversion of times and the
  test for even spacing, with Flocq's binary64 (round to nearest even, no overflow; sums in any order).
  Values the code tests or produces as NaN or infinity are of type `xr` (`Fin r | PInf | NInf | NaN`) or `option`.
  Signed zeros are not modelled.
* **Arrays** are lists, matrices lists of rows. Mutation returns the new value.
* **Exceptions** are values: `res A := Ok a | Err exn`.
* **Python values** in options are the datatype `pyval`; dictionaries are association lists in insertion order.
* **Randomness**: `l_mvn` takes the number of the call as an argument, so successive draws may differ.
* Loops with a bound in the code are structural; the unbounded loop of `nearestSPD` is modelled with the code's own
  limit (100 adjustments).

### Modelled, file by file

| code | model | claims |
|---|---|---|
| `_time_conversion.py` (all) | M_Time, M_FloatTime | C01–C04, C102 |
| `_solve.py` 16–119 options | M_Options | C09–C14 |
| `_solve.py` 16–119, 220–224: objects shared by caller, package and result | M_State | C99 |
| `_solve.py`, `_reconstruct.py`, `harmonics.py` 110–131, `_time_conversion.py` 56–85: arrays shared or written in place | M_Memory | C109 |
| `_solve.py` 122–433 `solve`, `_solv1` | M_Solve | C20, C35–C41, C76, C77, C80–C82, C86–C98, C100, C101, C103, C105–C108, C110–C113 |
| `_solve.py` 436–462 `_reorder` | M_Diag | C42–C44, C90 |
| `_solve.py` 465–562 `_slvinit` | M_Slvinit, M_FloatTime | C05–C08, C94, C102 |
| `constituent_selection.py` (all) | M_Select | C15–C19, C95, C110 |
| `astronomy.py`, `harmonics.py` (all) | M_Harmonics | C21–C29, C78, C95, C110, C111 |
| `ellipse_params.py` (all) | M_Ellipse, M_Float | C30–C34, C93, C96 |
| `diagnostics.py` (all) | M_Diag | C45, C46, C90 |
| `_reconstruct.py` (all) | M_Recon | C36–C38, C47–C51, C92–C96, C98, C101, C104–C106, C111 |
| `robustfit.py` (all) | M_Robust | C52–C56, C74, C75, C86, C87, C89–C91, C97, C103, C106, C108 |
| `confidence.py` (all) | M_Conf | C57–C65, C76–C82, C87, C88, C90, C91, C94, C106–C108, C112 |
| `periodogram.py` (all) | M_Period | C66–C68, C79, C88, C90, C91 |
| `utilities.py` `Bunch`, `complex_interp` | M_Bunch, M_Period | C69–C71 |
| `utilities.py` 102–125 `Bunch.from_pyfile` | M_PyFile | C114 |
| `utilities.py` 180–331 (`loadbunch`, `showmatbunch`, `convert_unicode_arrays`) | M_Load | C83–C85 |
| `_ut_constants.py`, `data/ut_constants.npz` | M_Const, M_Tables | C72, C73, C85 |

### Not modelled

* Printing (`verbose`), warnings, the `RuntimeWarning`s of numpy.
* `formatted` with another format (`types=True` is the instance of the model of `formatted` whose text of a value is the name of its
  type), double-underscore attributes of a Bunch. What Python does with the program text of `from_pyfile` (compile, exec) is an argument.
* File access itself: `loadmat` and `np.load` are arguments of the model of `loadbunch`.
* Strings that denote NaT, 64-bit overflow of millisecond counts.
* Arrays in memory are modelled in M_Memory (arguments, the satellite table, arrays written in place after creation from others, results
  of reconstruct); the in-place steps of `confidence.py` on its own new arrays are values.  Everywhere else arrays are values; C109_solve_value and
  C109_reconstruct_value connect the two.  Dictionaries and Bunches (the option values `infer` and `robust_kw`, the
  defaults table) are objects in M_State and immutable values in M_Options; C99_value connects the two.

### Simplifications

* `lstsq` with a non-finite entry gives `LinAlgError` (numpy's SVD does not converge there).
* When there are as many samples as parameters the residual variance divides by zero; the model's covariance is then NaN.
* `np.interp` is modelled for increasing abscissae. `searchsorted` counts the elements below the value.
* `band_psd` with zero record length or zero time step divides by zero; there the model is not faithful.
* `_lomb_freqs` is modelled with `ofac=1`, the only value the package passes.
* The weight functions `andrews`, `huber`, `logistic` always raise `ValueError` for the arrays the package passes (truth value of an array), so they are modelled so.
* `robustfit` stores its first solution in an output structure that the package does not read (`coef.rf` is not modelled).
* A matrix without rows has no column count.
* Basis functions that are not finite (latitude 0) are `None`.

## 3. Files

`theories/` is flat.
`M_*.v` model (no proofs), `S_*.v` specifications (no reference to the model's helpers beyond its data types),
`L_*.v` lemmas and example runs, `P_*.v` property theorems: each is closed by `exact`, followed by `Print Assumptions`, with Examples that
show its hypotheses can be met by a non-trivial case.
`tools/props.py`, `tools/manifest.py`, `tools/assumptions.py` regenerate the JSON and the axiom list.

Main proof ideas: the calendar is specified by stepping from one day to the next; table-wide claims are computed by the kernel on the decoded
tables and lifted with `forallb_forall`; a record `behind` (L_Model3.v) inverts a successful `solve` into its stages,
so that theorems about a whole analysis speak only of data, options and results; least-squares claims use the variational
characterisation; error propagation uses Coquelicot derivatives; spectra use orthogonality of finite Fourier sums.

## 4. Where the code does not do what is documented or expected

Each is proved, with a witness, in a theorem ending in `_refuted` or described by an exact theorem.

| finding | theorem |
|---|---|
| instants less than a millisecond apart are merged | `C03_distinct_instants_refuted` |
| numbers without `epoch` are taken as milliseconds since 1970 instead of being rejected | `C04_numeric_without_epoch_rejected_refuted` |
| masks of the time array are ignored | `C06_masked_times_excluded_refuted` |
| missing keys of `infer` give TypeError or AttributeError; a plain dict is not accepted | `C13_*_refuted` |
| K1 and M2 may be selected together although not resolved by the criterion | `C16_K1_M2_refuted` |
| a comparison constituent need not be among the selected ones | `C17_comparison_selected_refuted` |
| the basis function of M7 jumps when an angle wraps, since a shallow-water coefficient is 3.5 | `C22_M7_refuted`, `C73_M7_not_integer_refuted` |
| nodal corrections are not finite on the equator | `C26_equator_refuted`, `C48_equator_refuted` |
| for circular motion the phase does not follow a rotation | `C33_circular_refuted` |
| in binary64 a phase may be reported as exactly 360 and an orientation as 180 | `C34_*_refuted` |
| approximate inference does not reproduce its own fit | `C41_approximate_fit_refuted` |
| with an incomplete `order_constit` list the PE used by `reconstruct` differs from the PE reported | `C50_reported_refuted` |
| after `maxit` passes the robust weights returned do not belong to the coefficients | `C53_maxit_refuted` |
| on convergence the reported rms belongs to the previous pass | `C55_converged_refuted` |
| the robust scale of complex residuals depends on the orientation of the axes | `C56_rotation_refuted` |
| a zero v cosine coefficient gives zero intervals for minor axis and orientation | `C58_refuted` |
| coloured vector noise rescales v only, so swapping components changes the result | `C59_*_refuted` |
| with inference the intervals read covariance columns of other constituents | `C60_inference_refuted` |
| the Monte-Carlo spread of orientations is taken with period 360 instead of 180 | `C63_orientation_refuted` |
| a missing `t_mpl` raises KeyError instead of AttributeError | `C70_missing_attribute_refuted` |
| intervals of inferred constituents are not propagated from their reference | `C76_inferred_refuted`, `C76_scalar`, `C76_vector` |
| The linearised intervals of a robust analysis depend on the vertical datum and can become NaN: the noise variance is taken from weight × datum × residual although the fit uses squared weights | `C87_datum`, `C87_datum_refuted` |
| `MC_n` is ignored: 200 realisations are drawn | `C81_scalar`, `C81_vector` |
| `convert_unicode_arrays` does not turn an array of one string into a string, and does not strip boxed strings | `C85_single_string_refuted`, `C85_white_space_refuted` |
| the reference time is the midpoint of the first and last samples as given, so unsorted input changes the reported mean when a trend is fitted | `C94_any_order_refuted`, `C94_reference_time` |
| latitudes within five degrees of the equator are replaced by ±5 (0 by 0), so results there do not depend on the latitude given | `C95_latitude` |
| a Bunch passed as `infer` without `approximate` gets the item `approximate = False` written to it, also when the call fails later | `C99_frame`, `C99_arguments_unchanged_refuted` |
| `coef.aux.opt.newopts.robust_kw` is the package's own default dictionary; editing it changes every later robust call with default settings | `C99_kept`, `C99_own_result_refuted` |
| at latitude 0 with nodal corrections (the default) solve raises as soon as a constituent with diurnal satellites such as K1 or O1 is fitted | `C100_equator` |
| the constituents that cannot be analysed at latitude 0 with nodal corrections are 44 of the 146 | `C111_equator`, `C111_restless` |
| a record that the model meets exactly (synthetic data without noise) has no robust analysis: the scale of the residuals is zero and the weights are NaN (in floating point: residuals of rounding size decide) | `C103_noise` |
| `conf_int='MC'` raises LinAlgError when there are as many samples as parameters, and, for coloured noise, when the model meets u (or v) exactly or a constituent's band has no free spectral bin; `conf_int='linear'` gives NaN intervals there | `C107_spare`, `C107_noise` |
| `constit=[]` (the mean, and the trend) works only with `nodal=False` and `phase='raw'`; otherwise IndexError | `C100_no_constituents` |
| `reconstruct(constit='SO1')` also uses O1: a string is searched for names, not compared; `solve(constit='M2')` raises | `C49_string`, `C49_string_refuted`, `C18_string` |
| evenly spaced dates become times with different steps, since days are rounded to binary64; the test for even spacing tolerates this | `C102_equal_steps_refuted`, `C102_even` |
