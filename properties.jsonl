{"id": "C01", "title": "Datetimes become days since 0000-12-31", "statement": "With epoch=None, a date-time given to solve or reconstruct is turned into its proleptic Gregorian day number (1 on 1 January of year 1) plus the elapsed fraction of the day, for dates before and after 1970 alike; a NaT becomes an invalid time.", "quantifier": "every calendar date (all years, leap or not) and every millisecond of the day", "why_tests_cant": "a test checks a few dates; the claim is about an unbounded calendar with 4/100/400-year leap rules", "anchors": ["utide/_time_conversion.py:_date2num", "utide/_time_conversion.py:_python_gregorian_datenum", "utide/_time_conversion.py:_normalize_time"]}
{"id": "C02", "title": "The result does not depend on the time convention", "statement": "The same instants given as 'python' day numbers, as 'matlab' day numbers (366 larger), as days since an arbitrary epoch date, or as date-times lead to the same internal times, so solve and reconstruct return the same numbers for all of them.", "quantifier": "every list of instants (with invalid ones anywhere), every epoch date, every data series and option set", "why_tests_cant": "tests compare six literal forms of one instant", "anchors": ["utide/_time_conversion.py:_normalize_time", "utide/_solve.py:_slvinit", "utide/_reconstruct.py:reconstruct"]}
{"id": "C03", "title": "Date-time conversion is order preserving with millisecond resolution", "statement": "Converting date-times of any resolution never reverses order and never moves an instant by a millisecond or more; instants on the millisecond grid stay distinct. Instants inside one millisecond collapse to the same time (so 'distinct in, distinct out' is false in general).", "quantifier": "every pair of date-times at day/hour/minute/second/ms/us/ns resolution", "why_tests_cant": "the pairs on either side of a truncation boundary are unbounded in number", "anchors": ["utide/_time_conversion.py:_date2num"]}
{"id": "C04", "title": "Time arrays of the wrong kind", "statement": "Numeric times are accepted with epoch 'python', 'matlab' or a date; a non-numeric time array together with an epoch raises ValueError, and so does an unparsable epoch. A numeric array with epoch=None is NOT rejected: it is read as milliseconds since 1970.", "quantifier": "every time array (any dtype kind) and every epoch argument", "why_tests_cant": "dispatch over dtype kind x epoch has to be total", "anchors": ["utide/_time_conversion.py:_normalize_time", "utide/_time_conversion.py:_date2num"]}
{"id": "C05", "title": "Which samples enter the fit", "statement": "solve fits exactly the samples whose time, u and (for vectors) v are all valid (finite and unmasked), in the original order and with their original values.", "quantifier": "every time/u/v series with any pattern of NaN, inf or masked entries", "why_tests_cant": "the mask logic has two stages with several branches; the patterns of gaps are exponentially many", "anchors": ["utide/_solve.py:_slvinit"]}
{"id": "C06", "title": "Samples at invalid times have no effect", "statement": "Inserting or removing samples whose time is invalid (NaN or NaT) never changes the result of solve, whatever the data values there. A mask on the time array is ignored: samples at masked times are fitted (contrary to what masking suggests).", "quantifier": "every series and every set of invalid-time samples", "why_tests_cant": "metamorphic statement over all insertions", "anchors": ["utide/_solve.py:_slvinit", "utide/_solve.py:_solv1"]}
{"id": "C07", "title": "Even-spacing decision, record length and reference time", "statement": "A record is treated as evenly spaced when its time steps differ by less than about 2.5 ms; then the record length and reference time come from all valid times, so blanking data values in place never changes them (nor the automatically chosen constituents); otherwise they come from the fitted samples. The reference time is the midpoint of first and last time; the effective record length counts the last sampling interval too (n times the mean step).", "quantifier": "every list of valid times and every pattern of missing data", "why_tests_cant": "threshold on a variance of distinct steps; unbounded lengths", "anchors": ["utide/_solve.py:_slvinit"]}
{"id": "C08", "title": "Argument validation of solve", "statement": "solve raises ValueError when latitude is missing, when t or u is not 1-D, when t and u have different shapes, or when v has another shape than u; otherwise these checks do not reject. Plain Python lists for t or u raise AttributeError.", "quantifier": "all array shapes and latitudes", "why_tests_cant": "all shapes", "anchors": ["utide/_solve.py:_slvinit"]}
{"id": "C09", "title": "Unknown options are rejected, defaults are never altered", "statement": "solve raises KeyError exactly when some keyword is not one of the 14 documented options (the keyword 'strict' gives TypeError instead); accepted keywords override the default and all other options keep their default; the table of defaults is never modified, so earlier calls cannot influence later ones.", "quantifier": "every keyword dictionary, and every sequence of calls", "why_tests_cant": "history property: all call sequences", "anchors": ["utide/_solve.py:_process_opts", "utide/_solve.py:default_opts", "utide/utilities.py:Bunch.update_values"]}
{"id": "C10", "title": "nodal and phase options select the documented correction modes", "statement": "For every value of `nodal` and `phase`, solve uses: linearized / none / exact nodal corrections for nodal='linear_time' / falsy / otherwise, and linearized / raw / Greenwich phases for phase='linear_time' / 'raw' / otherwise; never two modes at once. reconstruct applies the same modes as the solve that produced the coefficients.", "quantifier": "every option value (any Python value)", "why_tests_cant": "the intermediate dictionary uses misspelt keys, so only the merged result tells", "anchors": ["utide/_solve.py:_translate_opts", "utide/_solve.py:_slvinit", "utide/_reconstruct.py:_reconstruct"]}
{"id": "C11", "title": "conf_int option", "statement": "conf_int accepts exactly 'linear', 'MC' and 'none'; anything else raises ValueError. With 'none' the result has no confidence intervals or SNR and reconstruct uses all constituents whatever the thresholds.", "quantifier": "every conf_int value, every series and thresholds", "why_tests_cant": "cross-function contract between solve and reconstruct", "anchors": ["utide/_solve.py:_translate_opts", "utide/_solve.py:_solv1", "utide/_reconstruct.py:_reconstruct"]}
{"id": "C12", "title": "order_constit option", "statement": "order_constit accepts None (meaning 'PE'), 'PE', 'frequency', a non-string sequence, and 'SNR' exactly when confidence intervals are computed; everything else raises ValueError.", "quantifier": "every value of order_constit and conf_int", "why_tests_cant": "all Python values", "anchors": ["utide/_solve.py:validate_order_constit", "utide/_solve.py:_process_opts"]}
{"id": "C13", "title": "infer option validation", "statement": "An inference specification is accepted only if the inferred and reference lists have equal length N and both ratio and offset lists have length N (scalar) or 2N (vector). The documented ValueError for missing keys and the documented plain-dict input do not hold: a specification with missing keys raises TypeError or AttributeError and a plain dict raises AttributeError. Validation writes `approximate=False` into the caller's object when absent and changes nothing else.", "quantifier": "every inference specification, scalar and vector", "why_tests_cant": "all subsets of keys and all list lengths", "anchors": ["utide/_solve.py:validate_infer"]}
{"id": "C14", "title": "method option", "statement": "method='ols' gives ordinary least squares; every other value silently gives the robust fit (so a misspelt method is not rejected).", "quantifier": "every value of method", "why_tests_cant": "all Python values", "anchors": ["utide/_solve.py:_solv1"]}
{"id": "C15", "title": "Automatic constituent selection", "statement": "With constit='auto' and no inference the constituents are exactly those of the table, in table order, whose frequency separation df is at least Rayleigh_min/(24*record length in days). A longer record or a smaller Rayleigh_min never loses a constituent.", "quantifier": "every record length > 0, every Rayleigh_min", "why_tests_cant": "threshold over all reals", "anchors": ["utide/constituent_selection.py:ut_cnstitsel", "utide/_solve.py:_solv1", "utide/data/ut_constants.npz"]}
{"id": "C16", "title": "Auto-selected constituents are mutually resolvable", "statement": "For Rayleigh resolution 1/(record hours) finer than 0.0387306 cph (record longer than about 25.8 h per unit of Rayleigh_min) any two automatically selected constituents differ in frequency by at least that resolution. Without the bound it is false: K1 and M2 are selected together although closer than the criterion.", "quantifier": "every minimum resolution, all pairs of the 146 constituents", "why_tests_cant": "all real thresholds", "anchors": ["utide/constituent_selection.py:ut_cnstitsel", "utide/data/ut_constants.npz"]}
{"id": "C17", "title": "Comparison constituents", "statement": "Automatic selection of a constituent does not imply selection of the larger constituent it is compared with (counterexample ETA2/K2); each tabulated separation is the difference of the two tabulated frequencies.", "quantifier": "all table entries, all thresholds", "why_tests_cant": "table-wide and over all thresholds", "anchors": ["utide/constituent_selection.py:ut_cnstitsel", "utide/data/ut_constants.npz"]}
{"id": "C18", "title": "Explicit constituent lists", "statement": "With an explicit constit list (no inference) the fitted constituents are exactly the listed names, in the listed order; a name that is not in the table raises KeyError, and a string other than 'auto' in place of the list gives no result.", "quantifier": "every list of names", "why_tests_cant": "unbounded lists", "anchors": ["utide/constituent_selection.py:ut_cnstitsel"]}
{"id": "C19", "title": "Layout of the constituents with inference", "statement": "coef.name is the non-reference names, then the distinct reference names in first-occurrence order, then the inferred names grouped by reference; nNR+nR+nI is its length; no name of the first group is a reference or inferred name; frequencies and table indices are aligned with names.", "quantifier": "every constituent list and inference specification", "why_tests_cant": "unbounded lists with repetitions", "anchors": ["utide/constituent_selection.py:ut_cnstitsel"]}
{"id": "C20", "title": "Each inferred constituent is tied to its own reference, ratio and offset", "statement": "The regrouping of inferred constituents keeps every (inferred, reference, ratio(s), offset(s)) tuple together: the complex ratio stored for an inferred constituent is amp_ratio*exp(i*offset) of the same input position (and, for vectors, the second-half ratio with exp(-i*offset)), under the reference given at that position; none is lost or duplicated.", "quantifier": "every inference specification", "why_tests_cant": "unbounded lists with repeated references", "anchors": ["utide/constituent_selection.py:ut_cnstitsel"]}
{"id": "C21", "title": "Astronomical rates are the derivatives of the astronomical arguments", "statement": "The rates returned with the astronomical variables are the exact time derivatives of the (unwrapped) variables, at every time.", "quantifier": "every real time", "why_tests_cant": "all times", "anchors": ["utide/astronomy.py:ut_astron"]}
{"id": "C22", "title": "Wrapping angles to one cycle is invisible, except for M7", "statement": "Reducing the astronomical arguments modulo one cycle does not change the basis function of any constituent other than M7 (all its Doodson numbers and shallow-water multipliers are integers). For M7 the multiplier is 3.5, and the Greenwich-phase basis function jumps by half a cycle whenever M2 wraps.", "quantifier": "all 146 constituents, every time", "why_tests_cant": "all times; depends on integrality of the table", "anchors": ["utide/harmonics.py:FUV", "utide/astronomy.py:ut_astron", "utide/data/ut_constants.npz"]}
{"id": "C23", "title": "Linearized frequencies", "statement": "The frequency used for every constituent at reference time tref equals 1/24 of the time derivative of its (unwrapped) astronomical argument at tref; shallow-water frequencies are the tabulated integer combinations of their parents.", "quantifier": "all 146 constituents, every reference time", "why_tests_cant": "all times", "anchors": ["utide/harmonics.py:linearized_freqs", "utide/harmonics.py:FUV"]}
{"id": "C24", "title": "Linearized and raw phase modes agree with the exact mode at the reference time", "statement": "At t = tref the 'linear_time' astronomical argument equals the exact one for every constituent, and the 'raw' argument is zero; elsewhere the linearized argument is the tangent line.", "quantifier": "all constituents, all tref and t", "why_tests_cant": "all times", "anchors": ["utide/harmonics.py:FUV", "utide/harmonics.py:ut_E"]}
{"id": "C25", "title": "Shortcut for nodal=False, phase='raw'", "statement": "The shortcut taken when neither nodal nor Greenwich corrections are wanted yields the same basis functions as the general path.", "quantifier": "all times, all constituent lists with frequencies from the linearized table", "why_tests_cant": "two code paths, all inputs", "anchors": ["utide/harmonics.py:ut_E", "utide/harmonics.py:FUV"]}
{"id": "C26", "title": "Nodal corrections are finite away from the equator", "statement": "For every non-zero latitude and every time, all nodal amplitude factors and phase corrections of all constituents are finite (and the amplitude factors non-negative); latitudes within 5 degrees are treated as +/-5. At latitude exactly 0 this fails: corrections of the diurnal satellites are not finite.", "quantifier": "every latitude in [-90,90], every time, all constituents", "why_tests_cant": "continuum of latitudes with one singular point", "anchors": ["utide/harmonics.py:FUV"]}
{"id": "C27", "title": "nodal=False means no nodal correction", "statement": "With nodal=False amplitude factors are 1 and phase corrections 0 at all times; with nodal='linear_time' they do not vary with time and equal the exact ones at the reference time.", "quantifier": "all times, constituents, latitudes", "why_tests_cant": "all inputs", "anchors": ["utide/harmonics.py:FUV"]}
{"id": "C28", "title": "Basis functions are computed time by time", "statement": "The basis function values at one time depend only on that time (not on the other times in the array or on the array length), for every correction mode.", "quantifier": "all time arrays and flags", "why_tests_cant": "broadcasting over arrays of any length", "anchors": ["utide/harmonics.py:ut_E", "utide/harmonics.py:FUV"]}
{"id": "C29", "title": "Every constituent falls in exactly one noise band", "statement": "At any reference time within 1000 years of 1900 each constituent except Z0 has its linearized frequency inside exactly one of the nine noise bands, so its background noise level is always assigned from that band; Z0 lies in none and gets zero noise.", "quantifier": "all constituents, every reference time in the range", "why_tests_cant": "continuum of reference times", "anchors": ["utide/periodogram.py:freq_bands", "utide/confidence.py:band_averaged_psd_by_constit", "utide/harmonics.py:linearized_freqs", "utide/data/ut_constants.npz"]}
{"id": "C30", "title": "Ellipse parameters: ranges", "statement": "In exact arithmetic the ellipse parameters satisfy Lsmaj >= |Lsmin|, 0 <= theta < 180 and 0 <= g < 360; for scalars A >= 0 and 0 <= g < 360.", "quantifier": "all cosine/sine coefficients", "why_tests_cant": "all reals, including branch cuts", "anchors": ["utide/ellipse_params.py:ut_cs2cep"]}
{"id": "C31", "title": "Ellipse parameters describe the same motion as the cosine/sine coefficients", "statement": "The ellipse traced by (Lsmaj, Lsmin, theta, g) is at every phase exactly the velocity given by the cosine/sine coefficients; the sign of Lsmin gives the sense of rotation. For scalars A*cos(phase-g) equals X*cos+Y*sin.", "quantifier": "all coefficients and all phases", "why_tests_cant": "all reals; quadrant and wrap cases", "anchors": ["utide/ellipse_params.py:ut_cs2cep"]}
{"id": "C32", "title": "Axes are the extreme speeds and carry the energy", "statement": "Lsmaj is the largest and |Lsmin| the smallest speed over the tidal cycle, both attained; Lsmaj^2+Lsmin^2 is the sum of squares of the four coefficients.", "quantifier": "all coefficients", "why_tests_cant": "extremum over all phases", "anchors": ["utide/ellipse_params.py:ut_cs2cep"]}
{"id": "C33", "title": "Ellipse parameters under rotation, swap and scaling", "statement": "Rotating the coordinate axes leaves both axes unchanged and turns theta (except for circular motion, which has no orientation: there theta does not follow); swapping u and v keeps Lsmaj and negates Lsmin; multiplying both by c>0 multiplies the axes by c and leaves the angles.", "quantifier": "all coefficients, angles and factors", "why_tests_cant": "metamorphic over all reals", "anchors": ["utide/ellipse_params.py:ut_cs2cep"]}
{"id": "C34", "title": "Phase range in binary64", "statement": "In binary64 arithmetic the reported g and theta lie in the closed ranges [0,360] and [0,180]; the half-open range promised by the documentation fails: tiny negative angles give exactly 360 (180).", "quantifier": "all finite binary64 inputs of the modulo operation", "why_tests_cant": "needs all floating-point values near the wrap", "anchors": ["utide/ellipse_params.py:ut_cs2cep"]}
{"id": "C35", "title": "reconstruct(solve) at the sample times is the fitted model", "statement": "Reconstructing with all constituents at the sample times returns exactly the model fit of solve (harmonics, inferred constituents, mean and trend), for scalars and vectors, OLS or robust, any options except approximate inference.", "quantifier": "all series, options, constituent sets; whatever coefficients the solver returned", "why_tests_cant": "two independent code paths with angle conversions in between", "anchors": ["utide/_solve.py:_solv1", "utide/_reconstruct.py:_reconstruct", "utide/ellipse_params.py:ut_cs2cep"]}
{"id": "C36", "title": "OLS results are best possible", "statement": "With method='ols' no other amplitudes, phases, mean and trend for the same constituents give a smaller sum of squared misfits at the sample times than the reconstruction from the returned coefficients.", "quantifier": "all series and all competing coefficients", "why_tests_cant": "quantifies over all competitors", "anchors": ["utide/_solve.py:_solv1", "utide/_reconstruct.py:_reconstruct"]}
{"id": "C37", "title": "Exact recovery", "statement": "If the data are exactly a tide made of the fitted constituents (plus mean and trend), OLS followed by reconstruct returns the data; if moreover the fitted functions are linearly independent at the sample times, the reconstruction is exact at every other time too, and amplitudes, Greenwich phases, mean and slope are recovered.", "quantifier": "all tides, sample times and constituent sets", "why_tests_cant": "tests try one M2 signal", "anchors": ["utide/_solve.py:_solv1", "utide/_reconstruct.py:_reconstruct"]}
{"id": "C38", "title": "Residuals are orthogonal to the model", "statement": "OLS residuals have zero mean, are uncorrelated with the trend and with the cosine and sine of every fitted constituent, and the mean square misfit used for confidence intervals equals the residual sum of squares over (samples - parameters).", "quantifier": "all series", "why_tests_cant": "all inputs", "anchors": ["utide/_solve.py:_solv1", "utide/confidence.py:_confidence"]}
{"id": "C39", "title": "Scaling and offsets of the data", "statement": "For OLS with linearly independent basis functions: multiplying the data by c>0 multiplies amplitudes, mean and slope by c and leaves phases unchanged; adding a constant changes only the mean; adding a linear trend changes only mean and slope; negating shifts phases by 180.", "quantifier": "all series and constants", "why_tests_cant": "metamorphic over all inputs", "anchors": ["utide/_solve.py:_solv1"]}
{"id": "C40", "title": "Inferred constituents have the prescribed ratio and offset", "statement": "For scalars every inferred constituent has amplitude |ratio| times that of its reference and (ratio > 0) phase g_ref - offset modulo 360; for vectors its counter-clockwise and clockwise components are the prescribed complex multiples of those of its reference.", "quantifier": "all series and inference specifications", "why_tests_cant": "all reals", "anchors": ["utide/_solve.py:_solv1", "utide/constituent_selection.py:ut_cnstitsel"]}
{"id": "C41", "title": "Exact inference is self-consistent, approximate inference is not", "statement": "With exact inference the fitted model is the sum over reference and inferred constituents with the reported coefficients. With approximate=True the correction factors are computed and then dropped: the reconstruction differs from the fit, and two or more inferred constituents of one reference raise ValueError.", "quantifier": "all inference specifications", "why_tests_cant": "all inputs", "anchors": ["utide/_solve.py:_solv1"]}
{"id": "C42", "title": "Re-ordering keeps rows together", "statement": "Whatever order_constit is, every per-constituent output (name, amplitude/axes, phases, confidence intervals, PE, SNR, frequency, table index) is re-ordered by one and the same index list; for 'PE', 'SNR' and 'frequency' that list is a permutation, so no constituent is lost or duplicated.", "quantifier": "all coefficient sets and orders", "why_tests_cant": "all permutations", "anchors": ["utide/_solve.py:_reorder"]}
{"id": "C43", "title": "Order produced", "statement": "The default order has non-increasing PE, 'SNR' non-increasing SNR and 'frequency' non-decreasing frequency. A name sequence gives exactly that sequence of rows; an unknown name raises ValueError; constituents not named are dropped.", "quantifier": "all coefficient sets", "why_tests_cant": "all inputs", "anchors": ["utide/_solve.py:_reorder"]}
{"id": "C44", "title": "Order does not affect the reconstruction", "statement": "Reconstructions (at any times, with any thresholds or names) from results that differ only in order_constit among None/'PE'/'SNR'/'frequency'/a full name list are identical.", "quantifier": "all coefficient sets, orders, times, selections", "why_tests_cant": "all permutations", "anchors": ["utide/_solve.py:_reorder", "utide/_reconstruct.py:_reconstruct"]}
{"id": "C45", "title": "Percent energy", "statement": "PE values are non-negative and sum to 100 whenever some constituent has non-zero energy; they are proportional to A^2 (Lsmaj^2+Lsmin^2) and unaffected by scaling the data. If all amplitudes are zero, all PE are NaN.", "quantifier": "all coefficient sets", "why_tests_cant": "all reals", "anchors": ["utide/diagnostics.py:_PE"]}
{"id": "C46", "title": "diagn table", "statement": "The diagn table lists all constituents sorted by non-increasing PE with their own PE and SNR, independent of order_constit.", "quantifier": "all coefficient sets and orders", "why_tests_cant": "all inputs", "anchors": ["utide/diagnostics.py:ut_diagn", "utide/_solve.py:_solv1"]}
{"id": "C47", "title": "reconstruct computes the documented harmonic sum", "statement": "At each valid time reconstruct returns mean + slope*(t-tref) + sum over the selected constituents of A*F*cos(2*pi*(V+U) - g) (scalar), or the corresponding ellipse motion in u and v (vector).", "quantifier": "all coefficient sets, times and selections", "why_tests_cant": "all inputs", "anchors": ["utide/_reconstruct.py:_reconstruct"]}
{"id": "C48", "title": "Invalid times in reconstruct", "statement": "The output has the same length as the time input; it is NaN exactly at invalid times (with nodal corrections at latitude exactly 0 also at valid times); the value at a valid time does not depend on the other times (so arrays may be split or concatenated); times of dimension other than 0 or 1 raise ValueError.", "quantifier": "all time arrays and coefficient sets", "why_tests_cant": "all NaN patterns", "anchors": ["utide/_reconstruct.py:reconstruct", "utide/_reconstruct.py:_reconstruct"]}
{"id": "C49", "title": "Constituent selection in reconstruct", "statement": "With constit given, exactly the named constituents present in coef are used, irrespective of order, repetition and unknown names, and thresholds are ignored. Otherwise a constituent is used iff SNR >= min_SNR and PE >= min_PE (NaN never passes), except that both thresholds 0 (or coefficients without diagnostics) select everything. A string in place of the list stands for every constituent whose name it contains, which may be more than the one meant.", "quantifier": "all coefficient sets, name lists and thresholds", "why_tests_cant": "all inputs", "anchors": ["utide/_reconstruct.py:_reconstruct"]}
{"id": "C50", "title": "Selection thresholds are monotone and consistent with the reported diagnostics", "statement": "Raising min_SNR or min_PE (from non-zero values) never adds a constituent. The SNR and PE used for selection are those reported by solve in coef.SNR and coef.PE, unless an order_constit list leaves out some constituents.", "quantifier": "all coefficient sets and thresholds", "why_tests_cant": "all inputs; duplicated formulas", "anchors": ["utide/_reconstruct.py:_reconstruct", "utide/diagnostics.py:_PE", "utide/diagnostics.py:_SNR"]}
{"id": "C51", "title": "Reconstruction is additive over constituents", "statement": "For disjoint sets of names S and T, the reconstruction with S and T together equals the sum of the two reconstructions minus the mean and trend, at every valid time.", "quantifier": "all coefficient sets and name sets", "why_tests_cant": "all inputs", "anchors": ["utide/_reconstruct.py:_reconstruct"]}
{"id": "C52", "title": "Robust weights", "statement": "For the weight functions bisquare, cauchy, fair, talwar, welsch and ols every weight lies in [0,1], is 1 at zero residual and never increases with the size of the residual. The weight is the documented formula of the residual over tuning constant, scale and leverage factor. andrews, huber and logistic are unusable: ValueError.", "quantifier": "all residual vectors", "why_tests_cant": "all reals and lengths", "anchors": ["utide/robustfit.py:andrews", "utide/robustfit.py:bisquare", "utide/robustfit.py:cauchy", "utide/robustfit.py:fair", "utide/robustfit.py:huber", "utide/robustfit.py:logistic", "utide/robustfit.py:ols", "utide/robustfit.py:talwar", "utide/robustfit.py:welsch"]}
{"id": "C53", "title": "Robust fit: returned coefficients belong to returned weights", "statement": "When the robust iteration stops by convergence or by deterioration, the returned coefficients solve the least-squares problem whose samples are multiplied by the returned weights; so no coefficients with the same constituents and inference reconstruct to a smaller misfit when the samples are weighted with coef.weights. When it stops at maxit the returned weights are newer than the coefficients (contract violated).", "quantifier": "all data and iteration histories", "why_tests_cant": "loop invariant over all iteration histories", "anchors": ["utide/robustfit.py:robustfit"]}
{"id": "C54", "title": "Robust fit: iteration", "statement": "The robust iteration performs at most maxit least-squares solves, the accepted weighted mean squares never increase, and the returned fit has the smallest weighted mean square among the solves performed. maxit=0 is an error. The ols fields of the result belong to the unweighted first fit.", "quantifier": "all data and solver behaviours", "why_tests_cant": "loop over arbitrary histories", "anchors": ["utide/robustfit.py:robustfit"]}
{"id": "C55", "title": "Robust fit: reported rms residual", "statement": "rms_resid is the rms of the unweighted residuals of the returned coefficients when the iteration stopped by deterioration or at maxit; after normal convergence it belongs to the previous iterate (documented contract violated).", "quantifier": "all data and histories", "why_tests_cant": "loop invariant", "anchors": ["utide/robustfit.py:robustfit"]}
{"id": "C56", "title": "Robust scale estimate", "statement": "The scale estimate of residuals is non-negative, equals the median absolute deviation from the median over 0.6745, is unaffected by adding a constant and proportional to |c| under multiplication by a real c. It is not invariant under rotation of vector data.", "quantifier": "all residual vectors", "why_tests_cant": "order statistics of any length", "anchors": ["utide/robustfit.py:sigma_hat"]}
{"id": "C57", "title": "Linearized confidence intervals are first-order error propagation", "statement": "The sigma values are the square root of the sum of squared partial derivatives of amplitude/axes, phase and orientation with respect to the cosine/sine coefficients times the variances, wherever the ellipse is neither zero nor circular; where it is, they are NaN.", "quantifier": "all coefficients and variances", "why_tests_cant": "derivative identities over all reals", "anchors": ["utide/confidence.py:ut_linci"]}
{"id": "C58", "title": "Vector confidence intervals with a zero v cosine coefficient", "statement": "The minor-axis and orientation intervals are computed for vector data whenever the v cosine coefficient is non-zero. When it is exactly zero they come out as 0 regardless of the variances (contract violated).", "quantifier": "all coefficients and variances", "why_tests_cant": "measure-zero set of inputs", "anchors": ["utide/confidence.py:ut_linci", "utide/confidence.py:_confidence"]}
{"id": "C59", "title": "Coloured-noise variances", "statement": "With white=False (linear) the variances of scalar coefficients are rescaled so that their sum is the band noise level. For vectors only the v variances are rescaled; u variances keep their white-noise values, so exchanging u and v does not exchange their variances.", "quantifier": "all covariance matrices and noise levels", "why_tests_cant": "symmetry over all inputs", "anchors": ["utide/confidence.py:_confidence"]}
{"id": "C60", "title": "Confidence intervals read the covariance of their own constituent", "statement": "Without inference the interval of constituent c is computed from the covariance entries of its own positive- and negative-frequency columns. With inference (and at least one reference and one non-reference constituent) it is not: other constituents' entries are used.", "quantifier": "all numbers of non-reference and reference constituents", "why_tests_cant": "index arithmetic over all sizes", "anchors": ["utide/confidence.py:_confidence", "utide/_solve.py:_solv1"]}
{"id": "C61", "title": "Confidence intervals are never negative", "statement": "Every computed confidence half-width is NaN or >= 0, for linear and Monte-Carlo intervals.", "quantifier": "all inputs and random samples", "why_tests_cant": "all inputs", "anchors": ["utide/confidence.py:_confidence", "utide/confidence.py:ut_linci"]}
{"id": "C62", "title": "Clustering of angles", "statement": "Clustering maps each angle to the equivalent angle within half a period of the first one, and leaves the first unchanged.", "quantifier": "all angle lists and periods", "why_tests_cant": "wrap cases", "anchors": ["utide/confidence.py:cluster"]}
{"id": "C63", "title": "Monte-Carlo orientation spread", "statement": "The spread of Monte-Carlo orientations should depend only on orientations modulo 180; it does not, because they are clustered with period 360: samples within a fraction of a degree of each other across 0/180 give a spread of many degrees.", "quantifier": "all samples", "why_tests_cant": "needs adversarial sample sets", "anchors": ["utide/confidence.py:_confidence", "utide/confidence.py:cluster"]}
{"id": "C64", "title": "Nearest covariance repair terminates with a usable matrix", "statement": "The repair loop stops after at most 101 adjustments, and returns a symmetric matrix that passed the positive-definiteness test, or the diagonal of the input with a warning.", "quantifier": "all matrices and all behaviours of the linear-algebra routines", "why_tests_cant": "termination over arbitrary behaviours", "anchors": ["utide/confidence.py:nearestSPD"]}
{"id": "C65", "title": "Monte-Carlo inference is refused", "statement": "conf_int='MC' together with an inference specification raises NotImplementedError, never silently wrong intervals.", "quantifier": "all inputs", "why_tests_cant": "all inputs", "anchors": ["utide/confidence.py:_confidence"]}
{"id": "C66", "title": "Band averages", "statement": "The noise level of a band is the mean of periodogram values whose frequencies lie in the band (plus the first one above it), leaving out the bins nearest to constituent frequencies; it lies between the least and largest of them; it is NaN when none is left; no constituent frequency, however large, causes an index error; with no frequency at all (for example two or three unevenly spaced samples) the call fails with ValueError.", "quantifier": "all periodograms, frequency grids and constituents", "why_tests_cant": "index arithmetic over all grids", "anchors": ["utide/periodogram.py:fbndavg"]}
{"id": "C67", "title": "Power spectra", "statement": "The auto-spectrum is non-negative, quadratic under scaling of the residual, and the total power equals the mean square of the windowed, demeaned residual divided by the mean square window; the squared cross-spectrum never exceeds the product of the auto-spectra, also after band averaging; for evenly spaced times the Lomb-Scargle and FFT spectra agree at interior Fourier frequencies.", "quantifier": "all residual series of even length", "why_tests_cant": "Parseval for all lengths", "anchors": ["utide/periodogram.py:_psd", "utide/periodogram.py:band_psd"]}
{"id": "C68", "title": "Lomb frequencies", "statement": "At most 500 frequencies per band are used; all are positive multiples or interpolations of Fourier frequencies, non-decreasing within a band.", "quantifier": "all time arrays and bands", "why_tests_cant": "all lengths", "anchors": ["utide/periodogram.py:_lomb_freqs"]}
{"id": "C69", "title": "Option containers: update_values and update_None", "statement": "update_values never adds a key and overwrites exactly the given keys that exist; with strict=True an unknown key raises KeyError and leaves the container unchanged. update_None changes only entries that are None. A container built from dictionaries and keywords holds, for each key, the value of the last of them that has it, keywords last.", "quantifier": "all containers and updates", "why_tests_cant": "all dictionaries", "anchors": ["utide/utilities.py:Bunch.update_values", "utide/utilities.py:Bunch.update_None", "utide/utilities.py:Bunch._check_strict", "utide/utilities.py:Bunch.__init__"]}
{"id": "C70", "title": "Option containers: attribute and item access", "statement": "Setting an attribute sets the item and vice versa; reading an attribute returns the item for names that are not dict methods; for names of dict methods (keys, items, update, ...) the attribute is not the item. A missing attribute raises AttributeError, except t_mpl, which raises KeyError.", "quantifier": "all names and values", "why_tests_cant": "all strings", "anchors": ["utide/utilities.py:Bunch.__getattr__", "utide/utilities.py:Bunch.__setattr__"]}
{"id": "C71", "title": "Printing containers", "statement": "str() of a non-empty container lists every key once in sorted order, one line each, keys padded to the longest key (at most 20) and values right-aligned to the longest value (at most 40); str() of an empty container raises ValueError.", "quantifier": "all containers", "why_tests_cant": "all dictionaries", "anchors": ["utide/utilities.py:Bunch.formatted"]}
{"id": "C72", "title": "Constituent table", "statement": "The 146 names are distinct, the index dictionary inverts the name list, tabulated frequencies are strictly increasing, and hours_per_cycle is the reciprocal of cycles_per_hour (infinite only for Z0).", "quantifier": "whole table", "why_tests_cant": "data invariant the other properties rest on", "anchors": ["utide/_ut_constants.py:constit_index_dict", "utide/_ut_constants.py:cycles_per_hour", "utide/_ut_constants.py:hours_per_cycle", "utide/data/ut_constants.npz"]}
{"id": "C73", "title": "Table integrity for shallow-water and satellite data", "statement": "Every shallow-water constituent is a combination of primary constituents only (so evaluation order is irrelevant), its rows in the shallow table are its own, and exactly the primary constituents have Doodson numbers.", "quantifier": "whole table", "why_tests_cant": "data invariant", "anchors": ["utide/harmonics.py:linearized_freqs", "utide/harmonics.py:FUV", "utide/data/ut_constants.npz"]}
{"id": "C74", "title": "Robust fit of perfectly fitted data", "statement": "Data that the model reproduces exactly (for example a constant series, or a series of zeros) cannot be fitted with a smooth robust weight function (bisquare, cauchy, fair, welsch): the scale is zero, the weights are undefined and LinAlgError is raised.", "quantifier": "all exactly reproduced data, tuning constants and maxit >= 2", "why_tests_cant": "all data in the model space", "anchors": ["utide/robustfit.py:robustfit", "utide/robustfit.py:r_normed", "utide/robustfit.py:sigma_hat"]}
{"id": "C75", "title": "Leverage", "statement": "The leverages of the robust fit are the diagonal of the hat matrix, one per sample, each between 0 and 1.", "quantifier": "all design matrices", "why_tests_cant": "all matrices", "anchors": ["utide/robustfit.py:leverage"]}
{"id": "C76", "title": "Intervals of inferred constituents", "statement": "An inferred constituent of scalar data is its reference scaled by a fixed amplitude ratio r and shifted by a fixed phase, so first-order propagation gives it r times the reference's amplitude half-width and the reference's phase half-width. The reported ones are different (contract violated): with equal coefficient variances both are r/sqrt(2) times those of the reference. In general, with linearised intervals, an inferred constituent is reported with the half-widths that the reference's own coefficients would have under half the scaled and rotated variances.", "quantifier": "all references, ratios and variances", "why_tests_cant": "needs the propagation formula for all values", "anchors": ["utide/confidence.py:_confidence"]}
{"id": "C77", "title": "Standard errors of a whole analysis", "statement": "With ordinary least squares, no inference, linearised intervals and white noise, the reported amplitude and phase are those of the best linear unbiased estimates of the cosine and sine coefficients, and the reported half-widths are 1.96 times their propagated standard errors: the noise variance is the sum of squared residuals (data minus reconstruction) divided by samples minus parameters, separately for u and v.", "quantifier": "all data sets, constituent selections, latitudes, times and options with more samples than parameters", "why_tests_cant": "needs the covariance algebra for all bases; a test compares a few numbers with a reference implementation", "anchors": ["utide/confidence.py:_confidence", "utide/confidence.py:ut_linci", "utide/_solve.py:_solv1"]}
{"id": "C78", "title": "Nodal corrections are the satellite sums", "statement": "Away from the equator the nodal amplitude factor and phase correction of a primary constituent are modulus and argument of 1 plus the sum of its satellites (amplitude ratio, latitude factor, phase from lunar perigee, node and perihelion); those of a shallow-water constituent are the products and signed combinations of its parents'. With the astronomical argument of the tables they make up the basis functions and the contribution of each constituent to a reconstruction, in every correction mode. (M7, with multiplier 3.5, is excepted: see C22.)", "quantifier": "all times, all latitudes but 0, all constituents, all correction modes", "why_tests_cant": "needs all 162 satellites and 146 constituents at all times", "anchors": ["utide/harmonics.py:FUV", "utide/harmonics.py:ut_E", "utide/_reconstruct.py:reconstruct"]}
{"id": "C79", "title": "Noise level attributed to a constituent", "statement": "For coloured noise the level attributed to a constituent is that of the frequency band that contains its frequency, per frequency step of the record; the residuals of an evenly spaced record with missing samples are first interpolated linearly to all its times; frequencies outside the nine bands get level zero.", "quantifier": "all time vectors, residual series and frequencies", "why_tests_cant": "all band edges, gaps and series lengths", "anchors": ["utide/confidence.py:band_averaged_psd_by_constit", "utide/confidence.py:_confidence"]}
{"id": "C80", "title": "Intervals for coloured noise of a whole analysis", "statement": "With ordinary least squares, no inference, linearised intervals, coloured noise and an evenly spaced record (possibly with gaps), the noise level comes from the windowed spectrum of data minus reconstruction without the bins of the analysed constituents, averaged over the constituent's band, divided by the effective record length (n times the mean step). It is shared between cosine and sine coefficients in the ratio of their variances and propagated to 1.96 standard errors of amplitude and phase. For vector data this applies to the coefficients of v; those of u keep the white-noise variances.", "quantifier": "all data sets, selections, latitudes, times and options with more samples than parameters", "why_tests_cant": "needs the chain from residuals to intervals for all records", "anchors": ["utide/confidence.py:_confidence", "utide/confidence.py:band_averaged_psd_by_constit", "utide/periodogram.py:band_psd", "utide/_solve.py:_slvinit"]}
{"id": "C81", "title": "Monte-Carlo intervals of a whole analysis", "statement": "With ordinary least squares, no inference, conf_int='MC' and white noise, the half-widths of a constituent come from 200 draws (whatever MC_n says) of its cosine and sine coefficients around the best unbiased estimates, with the covariance of those estimates: noise variance of u and of v and noise covariance of u with v, each times the sums of squares and products of the estimators' weights. The half-widths of the amplitudes are 1.96 normalised median absolute deviations of the draws' ellipses, those of the angles too, after reading the angles on the branch of the fitted one.", "quantifier": "all data sets, selections, latitudes, times and options with more samples than parameters", "why_tests_cant": "needs the covariance algebra for all bases; the sampler is random", "anchors": ["utide/confidence.py:_confidence", "utide/ellipse_params.py:ut_cs2cep", "utide/_solve.py:_solv1"]}
{"id": "C82", "title": "Monte-Carlo intervals of a whole analysis with coloured noise", "statement": "For evenly spaced data solve(conf_int='MC', white=False, method='ols') without inference draws 200 realisations of each constituent's cosine and sine coefficients around the reported estimate. Their covariance has the shape of the least-squares covariance (variances and correlation of the best unbiased estimates) scaled so that its trace is the noise level which the residual spectrum has in the constituent's frequency band. For vector data the blocks of u and v are scaled to their own noise levels, and the block between them to the cross-spectral level with the sign of the residual covariance. If this covariance is not positive definite to rounding it is replaced: by nearestSPD's result, or by its diagonal when nearestSPD gives up (scalar data). The reported intervals are those of C81 computed from these draws.", "quantifier": "for all records, option dicts, coefficient sets and noise realisations; lstsq, inv, SVD exact in real arithmetic; residual variances positive", "why_tests_cant": "The draws are random and the covariance behind them is internal: a test can only compare intervals statistically, for the few spectra and designs it samples.", "anchors": ["utide/confidence.py:_confidence", "utide/confidence.py:nearestSPD", "utide/periodogram.py:band_psd"]}
{"id": "C83", "title": "Loading a file keeps names, structure and values", "statement": "loadbunch(fname) gives a Bunch with every top-level name of the file that does not begin with two underscores, in the order of the file. A MATLAB structure becomes a Bunch with the same field names in the same order, at every depth; every other value is found under the same path of names. An array of one element becomes that element; other arrays keep all their elements in order and lose only dimensions of length one. With masked=True a float array that has NaN or infinite elements becomes a masked array masked at exactly those elements; nothing else is masked. A name without the extension .mat or .npz gives ValueError.", "quantifier": "for all file contents (any depth of nesting), all readers, all file names, masked or not", "why_tests_cant": "Tests load a few files; nesting depth, shapes and mixtures of types are unbounded, and a lost or renamed field shows only if the test looks at it.", "anchors": ["utide/utilities.py:loadbunch", "utide/utilities.py:_structured_to_bunch", "utide/utilities.py:_crunch"]}
{"id": "C84", "title": "Listing a loaded file", "statement": "showmatbunch(b) has exactly one line for every value of b that is not a Bunch, at any depth, and no other line. A line shows the dotted path and a description (the text itself if shorter than 50 characters, else its length; shape and dtype of an array; type and value otherwise). Lines are sorted by path. If there is nothing to list the call fails with ValueError.", "quantifier": "for all nested Bunches", "why_tests_cant": "The recursion shares and sorts one list at every level; omissions or duplicates would depend on nesting and key order.", "anchors": ["utide/utilities.py:showmatbunch", "utide/utilities.py:_showmatbunch"]}
{"id": "C85", "title": "Cleaning of string arrays", "statement": "convert_unicode_arrays(b) returns a new Bunch with the same keys in the same order, recursively. One-dimensional string arrays become object arrays of their strings without trailing white space (all characters Python calls white space); single-element string arrays inside one-dimensional object arrays are replaced by their string; everything else is unchanged. Doing it twice is doing it once. Applied to the package's data file it gives the constituent names of the table, and the float tables unchanged. The documented 'single string if there is only one' and 'trailing whitespace removed' do not hold for an array of one string and for boxed strings.", "quantifier": "for all nested dictionaries", "why_tests_cant": "Names that keep a blank or lose a character make look-ups fail for single constituents only; idempotence and recursion are statements about all inputs.", "anchors": ["utide/utilities.py:convert_unicode_arrays", "utide/_ut_constants.py"]}
{"id": "C86", "title": "Robust analysis of a whole record", "statement": "solve with a method other than 'ols' fits the samples by iteratively reweighted least squares: unit weights first, then weights from the misfits of the pass before (weight function of misfit over tuning constant, scale and leverage factor), until the weighted mean square rises, falls by less than the fraction tol, or maxit passes are made. Weight function, tuning constant, tol and maxit are those in robust_kw; what it does not name is bisquare, the constant of the weight function, 0.001 and 50. Without robust_kw the weights are Cauchy's with constant 2.385. coef.weights are the weights of the pass returned and reconstruct gives the values of its coefficients. An unknown keyword gives TypeError.", "quantifier": "all data sets, selections, options (exact or no inference), libraries that solve least squares", "why_tests_cant": "the pass at which the iteration stops and its weights depend on all samples; a test compares final numbers of a few runs", "anchors": ["utide/_solve.py:_solv1", "utide/robustfit.py:robustfit", "utide/robustfit.py:leverage"]}
{"id": "C87", "title": "Intervals of a robust analysis", "statement": "For every analysis whose reported weights are finite (any method), without inference and with linearised intervals for white noise, the half-widths are 1.96 standard errors of the amplitudes and angles, for the unbiased estimates of least variance when a sample of weight w has an error variance of 1/w times a common variance (weight 0: left out). The common variance, per component, is the sum of weight times datum times residual over the degrees of freedom; when it is negative the half-widths are NaN. One would expect the intervals not to depend on the vertical datum: they do, since the robust residuals are orthogonal to the model under the squared weights. Adding K changes the variance by K times the weighted sum of the residuals over the degrees of freedom.", "quantifier": "all data sets, selections, latitudes, times, weights and options with more samples than parameters", "why_tests_cant": "depends on all weights and residuals at once; a test compares final numbers of a few runs at one datum", "anchors": ["utide/confidence.py:_confidence", "utide/_solve.py:_solv1", "utide/robustfit.py:robustfit"]}
{"id": "C88", "title": "Units and vertical datum of the data", "statement": "Multiplying the data of an ordinary least-squares analysis by a positive factor (metres to feet) and adding a constant, or a linear trend where a trend is fitted, multiplies the amplitudes (axes) and their linearised confidence intervals by the factor and leaves phases, orientations and their intervals unchanged, for white and for coloured noise, even and uneven times. NaN intervals stay NaN. (A robust analysis does not have this property, see C87.)", "quantifier": "all pairs of analyses with the same times, latitude and options, all factors, constants and trends, more samples than parameters, without inference", "why_tests_cant": "relates two runs on arbitrary data; a test compares one pair", "anchors": ["utide/_solve.py:_solv1", "utide/confidence.py:_confidence", "utide/periodogram.py:band_psd"]}
{"id": "C89", "title": "Units, datum and trend of the data of a robust analysis", "statement": "Multiplying the data of a robust analysis by a positive factor and adding a constant, or a linear trend where a trend is fitted, leaves the sample weights, the set of constituents, the phases and the orientations as they are, multiplies the amplitudes by the factor, and moves mean and trend accordingly: the iteration takes the same passes. Data of the opposite sign give the same weights and amplitudes and phases half a turn away. For robustfit itself: data k y + X d, k not 0, give the solution k b + d, the same weights, leverages and number of passes, and misfits |k| times as large. (The intervals do depend on the datum, see C87.)", "quantifier": "all pairs of analyses with the same times, latitude and options, all weight functions and tuning constants, all factors, constants and trends", "why_tests_cant": "the stopping pass, the scale and the weights depend on all samples; a constant that is not scale-free would show only in some units", "anchors": ["utide/robustfit.py:robustfit", "utide/robustfit.py:sigma_hat", "utide/_solve.py:_solv1"]}
{"id": "C90", "title": "Units of the whole result", "statement": "Multiplying the data by a positive factor k changes the result of solve in this way only: amplitudes, axes, their half-widths, mean(s) and trend(s) are k times as large. Names, order of the constituents (also by energy or signal-to-noise ratio), phases, orientations and their half-widths, percent energies, signal-to-noise ratios, sample weights, options and the diagnostics table are equal, with or without inferred constituents, for ordinary least squares and for robust analyses.", "quantifier": "all pairs of analyses with the same times, latitude and options, all factors, scalar and vector data, white or coloured noise, linearised or no intervals", "why_tests_cant": "relates two whole results on arbitrary data; a threshold with units anywhere in the chain would break it for some data only", "anchors": ["utide/_solve.py:_solv1", "utide/_solve.py:_reorder", "utide/confidence.py:_confidence", "utide/diagnostics.py:ut_diagn", "utide/robustfit.py:robustfit"]}
{"id": "C91", "title": "Coloured noise in a robust analysis", "statement": "For an analysis with sample weights (robust) and coloured noise on an evenly spaced record, the noise level of a constituent is read from the spectrum of the residuals times their weights, with missing times filled in linearly. The linearised half-widths are those of a coefficient pair that shares this level like the weighted variances of the two estimates; the noise measure of C87 drops out (a measure of exactly zero gives NaN). So, for one series, the half-widths do not depend on the vertical datum and follow the units of the data, unlike those for white noise. For two components only the second one is treated in this way; the first keeps the white-noise measure.", "quantifier": "all data sets, selections, latitudes, weights and options with more samples than parameters; for the datum also uneven times", "why_tests_cant": "depends on all weights and residuals at once; a test compares final numbers of a few runs at one datum", "anchors": ["utide/confidence.py:_confidence", "utide/confidence.py:band_averaged_psd_by_constit", "utide/_solve.py:_solv1", "utide/periodogram.py:band_psd"]}
{"id": "C92", "title": "Superposition", "statement": "With ordinary least squares the result of a sum of two series at the same times is the sum of their results: the rotary (complex) amplitudes of every constituent add, so do mean and trend, and reconstruct gives the sum at every time. A tide added to arbitrary data (constituents, mean, trend of the model) is added to the result in full. The residuals of an analysis, analysed again with the same options, give amplitude zero for every constituent, mean zero and trend zero: nothing of the tide is left in them.", "quantifier": "all triples of analyses with the same times, latitude and options, scalar and vector data, with or without (exact) inference, identifiable coefficients", "why_tests_cant": "relates whole results on arbitrary data; a test compares a few synthetic series", "anchors": ["utide/_solve.py:_solv1", "utide/_reconstruct.py:_reconstruct"]}
{"id": "C93", "title": "Components of a vector analysis", "statement": "The eastward and the northward series of a current record, each analysed alone as a scalar with the same options, give the same constituents as the vector analysis; the two oscillations of a constituent (amplitude A, phase g) are the eastward and northward components of the motion on its ellipse (Lsmaj, Lsmin, theta, g) at every instant. Their means and trends are umean, vmean, uslope and vslope, and their reconstructions are the components u and v of the vector reconstruction at every time.", "quantifier": "all records and options with ordinary least squares and no inference, identifiable coefficients", "why_tests_cant": "relates three whole results on arbitrary data; a test compares a few synthetic series", "anchors": ["utide/_solve.py:_solv1", "utide/ellipse_params.py:ut_cs2cep", "utide/_reconstruct.py:_reconstruct"]}
{"id": "C94", "title": "Order of the samples", "statement": "solve does not require sorted times. The same samples in another order, with the same reference time, give the same constituents, complex amplitudes, mean, trend and reconstruction; where the even-spacing decision is also the same, the whole result is identical for white noise or without intervals, including half-widths, diagnostics and order of the constituents. The reference time of a record without invalid samples is the midpoint of its first and last entries, in the order given, not of its earliest and latest times: an order that moves these changes the reported mean of an analysis with a trend.", "quantifier": "all pairs of analyses with the same options whose samples are permutations of one another, identifiable coefficients, ordinary least squares", "why_tests_cant": "quantifies over all permutations of arbitrary records; tests use sorted times", "anchors": ["utide/_solve.py:_slvinit", "utide/_solve.py:_solv1", "utide/confidence.py:_confidence"]}
{"id": "C95", "title": "What does not change the fit", "statement": "With ordinary least squares and identifiable coefficients the result is the only one that leaves the smallest misfit, so two analyses of the same samples with the same model agree (constituents, complex amplitudes, mean, trend, reconstruction) whatever the least-squares routine, the order of the samples, and the way or order in which the constituents were chosen (automatically or by name). For every method, the options outside nodal, phase, trend, infer, epoch, method, robust_kw, constit and Rayleigh_min change nothing but the half-widths, the diagnostics and the order of the constituents. Without nodal corrections the latitude changes nothing at all (errors, intervals and predictions included); with them, two latitudes on one side of the equator and within five degrees of it are equivalent.", "quantifier": "all pairs of analyses, all options, all data; latitude: all calls, also those that raise", "why_tests_cant": "relates whole results of different calls on arbitrary data; tests compare few option combinations", "anchors": ["utide/_solve.py:solve", "utide/_solve.py:_solv1", "utide/constituent_selection.py:ut_cnstitsel", "utide/harmonics.py:FUV", "utide/_reconstruct.py:_reconstruct"]}
{"id": "C96", "title": "Axes of current data", "statement": "Current data given in turned axes, analysed with the same options, give the turned result: every constituent keeps Lsmaj, Lsmin and (up to the 180 degrees that go with a half turn) its phase lag g, the orientation theta turns by the angle, and mean, trend and reconstruct are turned vectors at every time. Mirrored data (exchanged components u and v, or one component with the opposite sign) change the sign of Lsmin and the orientation to phi - theta. Also for circular ellipses, whose orientation is arbitrary, the motion at each instant is the turned or mirrored one.", "quantifier": "all angles, all vector data, all options with ordinary least squares, identifiable coefficients; turned: also with (exact) inference; mirrored: no inference", "why_tests_cant": "relates two whole results on arbitrary data and angles; tests use few angles and synthetic series", "anchors": ["utide/_solve.py:_solv1", "utide/ellipse_params.py:ut_cs2cep", "utide/_reconstruct.py:_reconstruct"]}
{"id": "C97", "title": "Robust analyses that agree with ordinary ones", "statement": "When the weights that a robust analysis ends with are 0 for some samples and one other number for the rest, it gives the constituents, complex amplitudes, mean, trend and reconstruction of an ordinary least-squares analysis of the samples that were kept; in particular equal weights give the ordinary analysis of all samples. (Runs stopped by maxit are excepted: their weights belong to no fit.) The weight function 'ols' gives, however many passes are made, everything the method 'ols' gives: coefficients, weights, half-widths, diagnostics and order of the constituents.", "quantifier": "all data, all options, every outcome of the iteration; identifiable coefficients", "why_tests_cant": "relates whole results of different methods on arbitrary data and for any number of passes; a test compares a few series", "anchors": ["utide/robustfit.py:robustfit", "utide/_solve.py:_solv1"]}
{"id": "C98", "title": "Adding, removing and repeating samples", "statement": "Filling gaps with values that reconstruct gives for an analysis leaves the fit (constituents, complex amplitudes, mean, trend, reconstruction) of a repeated analysis unchanged, as does leaving out samples that the reconstruction meets exactly, and giving every sample the same number of times. Two records with the same fit have it together. The reference time must stay the same.", "quantifier": "all records, added or removed samples, numbers of repetitions; same model, ordinary least squares, identifiable coefficients", "why_tests_cant": "relates whole results on arbitrary data of different lengths; a test fills a few gaps in synthetic series", "anchors": ["utide/_solve.py:_solv1", "utide/_solve.py:_slvinit", "utide/_reconstruct.py:_reconstruct"]}
{"id": "C99", "title": "Side effects and shared objects", "statement": "A call of solve leaves the dictionaries and Bunches that were passed to it, and the package's own, as they were, with one exception: a Bunch given as infer without the item approximate gets it, with the value False. Its outcome depends only on the values of the arguments: any earlier calls, successful or failed, with the same or other objects, leave it unchanged. The result keeps references to the infer and robust_kw objects, and to the package's default robust_kw dictionary when none was given; reconstruct does not read them, but a change to the latter through a result changes later calls.", "quantifier": "all sequences of calls, all objects and options", "why_tests_cant": "quantifies over all histories of calls in a process; tests run in a few fixed orders", "anchors": ["utide/_solve.py:solve", "utide/_solve.py:_process_opts", "utide/_solve.py:validate_infer", "utide/_solve.py:default_opts", "utide/_reconstruct.py:reconstruct"]}
{"id": "C100", "title": "Which input is accepted", "statement": "A call of solve with documented options, constituents of the table and at least one valid sample gives a result when the model can be evaluated: a latitude off the equator for nodal corrections, two different times for a trend, at least one constituent unless both corrections are off. Without confidence intervals nothing else is needed, however few the samples; with linearised intervals the samples must tell the coefficients apart and, unless the noise is taken as white, the times must increase, with at least four samples and no gap above 100 days. Outside this no result is given: samples at one time with a trend, nodal corrections at the equator for a constituent with diurnal satellites, an empty list of constituents with corrections.", "quantifier": "all data, times, latitudes, constituent lists and options without inference, ordinary least squares, conf_int none or linear", "why_tests_cant": "the absence of an exception on every valid input; tests run on a few inputs", "anchors": ["utide/_solve.py:solve", "utide/_solve.py:_solv1", "utide/_solve.py:_slvinit", "utide/_solve.py:_process_opts", "utide/harmonics.py:FUV", "utide/confidence.py:_confidence", "utide/periodogram.py:band_psd"]}
{"id": "C101", "title": "Wider and narrower models", "statement": "With ordinary least squares a model with more constituents, or with the trend, never fits worse: the values reconstruct returns for it at the sample times are at least as near to the samples as those for the narrower model, whatever method the latter was fitted with. When the narrower model explains the samples the wider one gives the same constituents, mean and trend, and amplitude zero for every constituent (and the trend) that was added. The energy of the data is the energy of the values reconstruct returns plus that of the residuals.", "quantifier": "all pairs of analyses of the same samples (in any order) with the same corrections, latitude and reference time, the constituents of one contained in those of the other; scalar and vector data, no inference; energy: also with exact inference", "why_tests_cant": "relates whole results of different models on arbitrary data; a test compares a few", "anchors": ["utide/_solve.py:_solv1", "utide/_reconstruct.py:_reconstruct"]}
{"id": "C102", "title": "Times in double precision", "statement": "Dates, and numbers with an epoch, are turned into day numbers with an error of at most 2^-30 days (81 microseconds) in the years 1 to 9999, so instants at least a millisecond apart keep their order. Dates at multiples of 1/1024 day (every 45 minutes, 3, 6, 12 hours) and MATLAB day numbers are exact. solve finds evenly spaced dates evenly spaced although their rounded steps may differ.", "quantifier": "all lists of dates or numbers, all units and epochs; even spacing: any number of dates from the year 110 on with a step of at most 1024 days, sums formed in any order", "why_tests_cant": "rounding errors on every date and for every order of summation; a test tries a few", "anchors": ["utide/_time_conversion.py:_date2num", "utide/_time_conversion.py:_python_gregorian_datenum", "utide/_time_conversion.py:_normalize_time", "utide/_solve.py:_slvinit"]}
{"id": "C103", "title": "When a robust analysis gives a result", "statement": "A call of solve with a robust method, documented options and a weight function that never vanishes (cauchy, fair, welsch, or constant weights) gives a result when every sample can be spared (the others still tell the coefficients apart) and no coefficients meet more than half of the samples exactly. With a single pass, or constant weights, it is enough that the samples tell the coefficients apart and outnumber them. Conversely, whenever a robust analysis gives a result there were more samples than coefficients, they tell the coefficients apart, and (with more than one pass and weights that depend on the residuals) no coefficients meet all samples exactly: a record without noise has no robust analysis.", "quantifier": "all data, times, latitudes, constituent lists and options without inference, conf_int none; converses: any intervals", "why_tests_cant": "the absence of an exception in an iteration of any length on every valid input; tests run on a few inputs", "anchors": ["utide/_solve.py:solve", "utide/_solve.py:_solv1", "utide/robustfit.py:robustfit", "utide/robustfit.py:leverage", "utide/robustfit.py:r_normed"]}
{"id": "C104", "title": "Size, period and smoothness of predictions", "statement": "With the result of any analysis the tidal part of what reconstruct returns (the value less mean and trend) is never larger than the sum, over the constituents that take part, of nodal factor times reported amplitude (semi-major axis); without nodal corrections, than the sum of the amplitudes. With nodal corrections off or taken at the reference time, and phases likewise, a single constituent reaches factor times amplitude within one period of any time; predictions repeat after T days when 24 T times each reported frequency is a whole number and are opposite when it is a whole number and a half; and predictions at two times differ by at most the time between them times the sum of 2 pi 24 frequency factor amplitude.", "quantifier": "all analyses, all choices of constituents and thresholds, all times", "why_tests_cant": "bounds over all times and all results; a test samples a few times", "anchors": ["utide/_reconstruct.py:_reconstruct", "utide/harmonics.py:ut_E", "utide/_solve.py:_solv1", "utide/ellipse_params.py:ut_cs2cep"]}
{"id": "C105", "title": "Stability against changes in the data", "statement": "Two ordinary least-squares analyses of different data at the same times: the sum of squares of the change in the data is that of the change in the predictions plus that of the change in the residuals, so predictions at the sample times never change by more than the data. When a single sample changes, the prediction at its time moves towards it and never beyond it, and every other prediction moves by at most half of the change.", "quantifier": "all pairs of analyses with the same times, latitude and options, scalar and vector data, with or without exact inference", "why_tests_cant": "relates results on arbitrary pairs of data; a test tries a few perturbations", "anchors": ["utide/_solve.py:_solv1", "utide/_reconstruct.py:_reconstruct", "utide/harmonics.py:ut_E"]}
{"id": "C106", "title": "What depends on chance", "statement": "Unless conf_int='MC', solve uses no random numbers: the outcome is the same whatever the generator returns. With Monte-Carlo intervals everything but the intervals and what is computed from them (SNR, diagn) is the same whatever the random numbers, and the same as with linearised or no intervals: constituents, amplitudes, phases, ellipses, means, trends, weights, and what reconstruct returns from all constituents. reconstruct itself uses no numerical library routine and no random numbers.", "quantifier": "all data, options, outcomes of numpy.random.multivariate_normal", "why_tests_cant": "quantifies over all random sequences; a test run sees one", "anchors": ["utide/_solve.py:solve", "utide/_solve.py:_solv1", "utide/confidence.py:_confidence", "utide/_reconstruct.py:reconstruct"]}
{"id": "C107", "title": "When Monte-Carlo intervals can be computed", "statement": "If a call with conf_int='linear' gives half-widths of amplitude (major axis) that are all numbers, the same call with conf_int='MC' gives a result: for scalar data with white or coloured noise and for vector data with white noise, ordinary or robust, and for vector data with coloured noise and ordinary least squares when the residuals of u are not all zero. With white noise and ordinary least squares an identifiable model with more samples than parameters is enough. Conversely, whenever a call with conf_int='MC' gives a result the one with conf_int='linear' does; Monte-Carlo intervals need a number of samples other than the number of parameters, and with coloured noise residuals that are not all zero in u, and in v.", "quantifier": "all data, times, latitudes, constituent lists and options without inference; all outcomes of the random generator", "why_tests_cant": "the absence of an exception on every valid input, and its necessity for whole classes of inputs; tests run on a few", "anchors": ["utide/_solve.py:solve", "utide/confidence.py:_confidence", "utide/confidence.py:nearestSPD", "utide/confidence.py:band_averaged_psd_by_constit"]}
{"id": "C108", "title": "When intervals of a weighted analysis can be computed", "statement": "Take an analysis, ordinary or robust, whose sample weights are numbers. If the samples of positive weight tell the coefficients apart, the same call with conf_int='linear' gives a result (white noise, or times that increase with at least four samples and no gap over 100 days). Conversely whenever linearised or Monte-Carlo intervals were computed, the samples of positive weight tell the coefficients apart: the samples the robust fit rejected outright do not count. With the weight functions cauchy, fair, ols and welsch every sample has positive weight, so a robust analysis with linearised intervals gives a result under the conditions of the analysis without.", "quantifier": "all data, times, latitudes, constituent lists and options without inference; robust iterations of any length", "why_tests_cant": "the absence of an exception on every valid input, and its necessity; tests run on a few inputs", "anchors": ["utide/_solve.py:_solv1", "utide/robustfit.py:robustfit", "utide/confidence.py:_confidence"]}
{"id": "C109", "title": "Arrays that exist are left alone", "statement": "solve and reconstruct write to no array that existed before the call: not to the times and data of the caller, not to results of earlier calls, not to the satellite table of the package, whether the call succeeds or raises. So after any sequence of calls, with the caller free to write to any array but that table, the outcome of a call is a function of the present contents of its arguments. The series reconstruct returns are new arrays, u and v without a number in common: writing to them changes no array that existed. t_in is the object the caller gave; t_mpl is the same object with epoch='python' and otherwise a new array.", "quantifier": "all arguments, overlapping or not, all sequences of calls and writes, failing calls included", "why_tests_cant": "concerns every array in memory after every history; a test compares a few arrays after one call", "anchors": ["utide/_solve.py:solve", "utide/_solve.py:_slvinit", "utide/_reconstruct.py:reconstruct", "utide/_reconstruct.py:_reconstruct", "utide/harmonics.py:FUV", "utide/_time_conversion.py:_normalize_time"]}
{"id": "C110", "title": "When an analysis with inference gives a result", "statement": "With conf_int='none' and method='ols', every call with documented options, a complete infer Bunch, constituents of the table, at least one valid sample and a model that can be evaluated gives a result, for scalar and vector data, provided some constituent takes no part in the inference or both corrections are off; approximate inference needs distinct references, exact inference references whose nodal correction does not vanish. That holds of every constituent of the table at every latitude but the equator, NO1, OO1, UPS1 and M7 being left open. Conversely, if every constituent asked for takes part in the inference and a correction is on, or if a name in the inference is not in the table, there is no result.", "quantifier": "all data, times, latitudes, inference lists (exact or approximate) and options", "why_tests_cant": "the absence of an exception on every valid input, and its necessity; tests run on a few inputs", "anchors": ["utide/_solve.py:solve", "utide/_solve.py:_solv1", "utide/_solve.py:validate_infer", "utide/constituent_selection.py:ut_cnstitsel", "utide/harmonics.py:ut_E"]}
{"id": "C111", "title": "What solve returns can be used for prediction", "statement": "Whatever solve returns, reconstruct gives a result for every readable array of times of at most one dimension and every choice of constituents and thresholds; every series has numbers exactly at the valid times and NaN at the others, at every latitude including the equator, unless inference was approximate, when it still holds for constituents that are not inferred. For any coefficients, one choice of constituents gives numbers at all valid times or at none, whatever the times. At the equator with nodal corrections an analysis of listed constituents gives a result if and only if none of 44 constituents of the table is listed: those that have, or are made of constituents that have, a satellite whose factor divides by the sine of the latitude (K1, O1, P1, Q1, MK3 and others, but not M2, S2, N2, K2). However constituents are selected or inferred, none of the 44 is in a result there.", "quantifier": "all results of solve, all times, all choices of constituents and thresholds, all data and options at the equator", "why_tests_cant": "the absence of NaN and of exceptions for every prediction time; a test tries a few dates and stations", "anchors": ["utide/_reconstruct.py:reconstruct", "utide/_reconstruct.py:_reconstruct", "utide/_solve.py:_solv1", "utide/harmonics.py:FUV", "utide/harmonics.py:ut_E"]}
{"id": "C112", "title": "Intervals of an analysis with inference", "statement": "Take an analysis with exact inference, of scalar data or with the same amplitude ratios and phase offsets for both senses of rotation. If the samples of positive weight tell its model apart (references with their inferred constituents attached, the other constituents, mean and trend), the same call with conf_int='linear' gives a result (white noise, or times that increase with at least four samples and no gap over 100 days). Conversely, whenever an analysis with exact inference and linearised intervals gave a result, for scalar and vector data and any ratios, the samples of positive weight tell its model apart.", "quantifier": "all data, times, latitudes, constituent lists, exact inference lists, options and weights", "why_tests_cant": "the absence of an exception on every valid input, and its necessity; tests run on a few inputs", "anchors": ["utide/_solve.py:_solv1", "utide/confidence.py:_confidence", "utide/constituent_selection.py:ut_cnstitsel"]}
{"id": "C113", "title": "Approximate inference leaves the other constituents alone", "statement": "With approximate inference (infer.approximate true) and ordinary least squares, the constituents that are not inferred, the mean and the trend are exactly what solve finds from the same samples for those constituents with the same corrections and no inference: the complex amplitudes agree constituent by constituent, and whatever reconstruct gives for the analysis without inference it gives for the other analysis restricted to the constituents that are not inferred. An inferred constituent is the prescribed multiple of what the analysis without inference finds for its reference. In particular the amplitude ratios and phase differences given for the inference have no influence on the constituents that are not inferred, the mean and the trend.", "quantifier": "For every two analyses of the same samples (in any order), one with approximate inference of any constituents with any ratios, the other without inference, whose model the samples tell apart.", "why_tests_cant": "Unit tests compare one inference with stored numbers; that the inferred constituents have no influence at all on the fit of the others must hold for every data set, ratio and set of constituents.", "anchors": ["utide/_solve.py:_solv1", "utide/constituent_selection.py:ut_cnstitsel", "utide/_reconstruct.py:reconstruct"]}
{"id": "C114", "title": "Variables read from a Python file", "statement": "Bunch.from_pyfile runs the lines of the file as the body of a function; every variable this leaves is an item of the Bunch afterwards, replacing one of the same name, and no other item changes; if the file cannot be run the Bunch is as before. Every piece of the file within one line reaches the interpreter unchanged. (The stronger claim that every string in the file keeps its value is false: a triple-quoted string that spans lines gets four more blanks in each further line.)", "quantifier": "all files, all Bunches, whatever the interpreter does", "why_tests_cant": "the program text is assembled from the file; which files survive the re-indentation is a statement about all texts", "anchors": ["utide/utilities.py:Bunch.from_pyfile"]}
