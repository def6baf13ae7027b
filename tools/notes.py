PARTIAL = set()
NOTES = {
 "C22": "Proved for the 145 constituents other than M7; for M7 the jump is exhibited (C22_M7_refuted) and discontinuity of its basis function proved.",
 "C26": "Finiteness proved for every latitude with 0 < |lat| <= 90; at latitude 0 the claim is refuted for every primary constituent with a satellite carrying the diurnal latitude factor.",
 "C48": "NaN exactly at invalid times holds when nodal corrections are off or the latitude is not 0 (0 < |lat| <= 90); C48_equator_refuted shows NaN at valid times on the equator.",
 "C50": "Selection uses the reported PE and SNR for every order that keeps all constituents; for an order_constit list naming only some, C50_reported_refuted shows the PE used differs from the PE reported.",
 "C09": "The defaults table is an immutable value in the model; 'earlier calls cannot influence later ones' holds by construction. The keyword 'strict' is rejected with TypeError instead of KeyError.",
 "C13": "The documented ValueError for missing keys and the documented plain dict are refuted.",
 "C70": "A missing attribute raises AttributeError for every name except t_mpl (KeyError), shown by the refutation.",
 "C53": "Proved for stops by convergence or deterioration (robustfit and solve level, any solver meeting lstsq_contract); C53_maxit_refuted shows the returned weights do not match after maxit passes.",
 "C55": "Proved: rms of the returned coefficients, or of the previous pass after convergence; C55_converged_refuted shows the two differ.",
 "C56": "The rotation part is refuted (C56_rotation_refuted).",
 "C75": "The range is proved for pseudo-inverses whose hat matrix is a projection (hypothesis on the library's pinv).",
 "C57": "C57_vector and C57_half_widths include the case Xv = 0, where minor axis and orientation get 0 (see C58).",
 "C58": "For Xv <> 0 see C57_vector; C58_zero and C58_refuted cover Xv = 0.",
 "C59": "Scalar rescaling proved; for vectors u is not rescaled (two refutations).",
 "C60": "Proved without inference; refuted for every constituent as soon as there is at least one reference and one non-reference constituent.",
 "C63": "What the half-widths are is proved; independence of the branch of the orientations is refuted.",
 "C64": "The last theorem needs an exact SVD (hypothesis on the library).",
 "C66": "scipy.signal.lombscargle is an oracle satisfying lomb_contract (S_Period).",
 "C67": "Uneven spectra: values and bounds at frequencies resolved by the sample times, under lomb_contract.",
 "C34": "Angle arithmetic in binary64 (Flocq formats, round to nearest even, no overflow); closed ranges proved, half-open ranges refuted.",
 "C76": "The propagated intervals are refuted; C76_scalar and C76_vector give the reported ones of a whole analysis in terms of the variances behind the reference's intervals.",
 "C77": "Under exact least squares and exact matrix inversion (hypotheses on numpy.linalg.lstsq and inv). For Xv = 0 the minor-axis and orientation half-widths are 0 (see C58).",
 "C81": "Under exact least squares, exact matrix inversion and shape-correct draws (hypotheses on numpy); the sampler itself is an oracle.",
 "C82": "Even sampling, exact least squares, inversion and 2x2 SVD, shape-correct draws (hypotheses on numpy); the sampler is an oracle. In the vector case the repaired covariance is stated as the result of nearestSPD.",
 "C83": "scipy.io.loadmat and numpy.load are oracles giving the file's contents; contents are assumed well formed (as many elements as the shape says, distinct field names).",
 "C84": "The texts of numbers and of shape and dtype are supplied by the formatter (arguments of the model).",
 "C85": "Two sentences of the docstring are refuted.",
 "C86": "Under the least-squares contract for every rcond (hypothesis on numpy.linalg.lstsq); pinv is whatever the library returns. Approximate inference excluded.",
 "C87": "Under exact matrix inversion (hypothesis on numpy.linalg.inv). Independence of the datum is refuted by two robust analyses of seven samples; C87_datum gives the change.",
 "C88": "Under exact least squares and matrix inversion (hypotheses on numpy.linalg); sample times that tell the coefficients apart; for uneven times and coloured noise the Lomb-Scargle power is assumed quadratic in the data.",
 "C89": "Under the least-squares contract for every rcond (hypothesis on numpy.linalg.lstsq), without approximate inference for whole analyses.",
 "C90": "Linearised intervals (or none); Monte-Carlo intervals depend on random draws and are not covered. Least squares as in C35 (ols) or C86 (robust); for uneven times and coloured noise the Lomb-Scargle power is assumed quadratic in the data. Ordinary least squares: no approximate inference, identifiable coefficients.",
 "C91": "Under exact matrix inversion (hypothesis on numpy.linalg.inv); C91_datum under the least-squares contract for every rcond, and for uneven times with a Lomb-Scargle power quadratic in the data. The first component of vector data keeps the white-noise measure, so vector intervals do depend on the datum (C87).",
 "C92": "Under exact least squares (hypothesis on numpy.linalg.lstsq); approximate inference excluded (C41 shows why); complete times in all series (the samples of each have the same times).",
 "C93": "Under exact least squares (hypothesis on numpy.linalg.lstsq), without inference (the inference options of scalar and vector analyses differ in form).",
 "C94": "Under exact least squares (hypothesis on numpy.linalg.lstsq); approximate inference excluded. That any order is harmless is refuted by a rising level with the last two samples exchanged (mean 2 and mean 1). With coloured noise the order of the samples enters the spectra; not covered.",
 "C95": "C95_only_minimum and C95_choice under exact least squares (hypothesis on numpy.linalg.lstsq), approximate inference excluded; C95_options and C95_latitude without numerical hypotheses.",
 "C96": "Under exact least squares (hypothesis on numpy.linalg.lstsq); approximate inference excluded. Intervals are not covered: linearised half-widths for one component at a time are not invariant (C58).",
 "C97": "Under exact least squares (hypothesis lstsq_contract on numpy.linalg.lstsq for every rcond); approximate inference excluded. A run that used up maxit passes is left open by C97_discarded and C97_equal_weights (C53_maxit_refuted shows why), not by C97_ols_weights.",
 "C98": "Under exact least squares (hypothesis on numpy.linalg.lstsq); approximate inference excluded. Half-widths change with the number of samples and are not covered.",
 "C99": "Dictionaries and Bunches are objects, everything else is a value; arrays inside them are not shared objects of the model. That arguments are never changed is refuted by an infer Bunch without approximate. That a result may be edited without consequences is refuted by an item written to its robust_kw, which belongs to the package.",
 "C100": "Hypotheses on numpy: lstsq and inv return (lstsq_returns for matrices with a row, inv_returns for regular matrices). Monte-Carlo intervals, robust analyses and inference are not covered. In C100_linear_intervals that the samples tell the coefficients apart is said of the analysis without intervals, which exists by C100_no_intervals.",
 "C101": "Under exact least squares (hypothesis on numpy.linalg.lstsq) for the wider model; nothing is assumed of the routine used for the narrower one. No inference, except in C101_energy (exact inference allowed). Exact arithmetic.",
 "C102": "Binary64 round to nearest even; overflow and signed zeros not modelled; np.var as two rounded sums in any order of additions and rounded quotients. That the rounded times are themselves evenly spaced is refuted (hourly dates).",
 "C103": "Hypotheses on numpy: lstsq reports the sum of squares for full-rank overdetermined matrices (lstsq_sums) and not otherwise (lstsq_no_sums), pinv of a full-rank matrix gives the orthogonal projection (pinv_exact). Exact arithmetic: in floating point a noiseless record leaves residuals of rounding size. Bisquare and talwar weights can vanish, so acceptance with them is stated for one pass only. All library hypotheses of the development hold together for the exact library exactL (C103_library).",
 "C104": "Exact arithmetic. The steady case (period, half period, attained, smoothness) needs nodal False or linear_time and phase raw or linear_time; with the default settings factors and phases drift with time and only the bound on the size applies.",
 "C105": "Under exact least squares (hypothesis on numpy.linalg.lstsq); approximate inference excluded; exact arithmetic. Not claimed for robust methods, where one sample can change the weights of all.",
 "C106": "Random numbers are the results of numpy.random.multivariate_normal (oracle l_mvn), the only random routine the package calls. Rows are compared up to their order. Robust and ordinary fits are both covered.",
 "C107": "Library hypotheses: multivariate_normal draws for every square covariance, svd gives a result for every symmetric and eigvals for every square matrix; vector data with coloured noise: also an exact inverse, an exact minimiser and the Lomb-Scargle contract. Acceptance of the linearised call itself is C100_linear_intervals.",
 "C108": "Library hypotheses: inv gives the exact inverse of every invertible matrix (acceptance) and gives only inverses (necessity); robust acceptance: lstsq returns residual sums and pinv is exact; coloured noise: the Lomb-Scargle contract. Options without inference.",
 "C109": "An array is a list of addresses, so views and overlapping arguments are covered. Modelled in memory: arguments, the table sat.amprat, arrays created from others and then written in place, results of reconstruct. Arrays that the package creates and nobody writes to later are values; the other tables of the package are never written to. np.ma.masked_invalid is modelled as copying. The in-place steps of confidence.py on its own new arrays (_psd, nearestSPD) are values.",
 "C110": "Assumes of numpy that lstsq returns a solution of the right shape (lstsq_shape, lstsq_returns) and that argsort returns a permutation (argsort_perm). The references NO1, OO1, UPS1 (satellite ratios adding up to one or more) and M7 (a shallow-water coefficient of 3.5, so its correction is not a product of whole powers) are covered only when their correction is known not to vanish, with nodal corrections off, or with approximate inference.",
 "C111": "The equator claims use that numpy's lstsq raises for a non-finite matrix (as in the model of _solv1); every analysis is one whose lstsq returns a solution of the right shape and whose argsort returns a permutation. With approximate inference only constituents of the fit are covered, because the corrections of inferred ones are not part of the matrix.",
 "C112": "Assumes of numpy that inv gives a matrix for a square matrix of full rank (inv_returns) and, for the converse, that what it gives is the inverse (inv_exact); coloured noise needs the Lomb periodogram contract (lomb_contract). Approximate inference, and acceptance for vector data whose two senses of rotation have different ratios, are not covered.",
    "C113": "Ordinary least squares only. Hypotheses: the least-squares oracles of both analyses minimise, the analysis without inference has a model the samples tell apart, no constituent occurs twice. The two analyses need not use the same library and may hold the samples in different orders.",
    "C114": "compile and exec are an oracle from the program text to the variable _temp_out or an exception; Python's translation of line endings is taken as done. That strings spanning lines keep their value is refuted.",
}
