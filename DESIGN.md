# Formal model of EMVA1288/emva1288: design

## 1. Approach

The Python functions are transcribed, function by function, into total computable
Gallina functions; Python exceptions become values of the type `exn` inside the
error monad `res`.  Properties are proved about those functions for all inputs.
Nothing of /repo is executed; the code is read as text.

Layout of `rocq/theories` (flat, one prefix `Verif`):

* `Base_*.v`   error monad, dictionaries, Python strings, number formats, finite sums
* `Model_*.v`  definitions only, each with a comment citing file and lines of /repo
* `Spec_*.v`   small, model-independent specifications (textbook formulas, grammars)
* `Proofs_*.v` lemmas
* `Props_*.v`  the property theorems, closed by `exact`, with `Print Assumptions`
               and a concrete `Example` next to each theorem

### Representation choices

* **Integers** (pixels, sums): `Z`.  numpy int64 arithmetic is modelled with its
  wrap-around modulo 2^64; theorems say when it does not wrap.
* **Floats that only go through rational operations** (means, variances, fits,
  thresholds): exact rationals `Q`.  Rounding of these operations is *not* modelled.
  Comparison and dictionary-key equality is numeric equality.
* **Floats read from text**: exact decimal value rounded to binary64 (nearest even),
  because key equality depends on it.
* **Floats that go through sqrt/log/exp/pi**: exact reals `R`, with NaN and infinity
  as separate constructors where the code produces them.
* **Images**: a height, a width and an index function `nat -> nat -> Z`.
* **Dictionaries**: insertion-ordered association lists.
* **Strings**: lists of 8-bit characters (Latin-1 range of Python str).
* **External calls** (file system, random generator, image decoding, `leastsq`,
  LaTeX, matplotlib): arguments of the model functions (oracles), over which the
  theorems quantify; assumptions on them are stated in the theorem or in section 3.

## 2. Plan per property

| id | what is modelled / how it is proved |
|----|----|
| C01 | parser loop on token lines; induction on the remaining lines, invariant "entries of the dictionary are a permutation of the blocks read so far" |
| C02 | success characterised by a declarative well-formedness predicate, induction on lines |
| C03 | `readlines`/`strip`/`split` modelled on characters; parse is a function of the token lines |
| C04 | `replace` and `float` on strings modelled |
| C05 | invariant on the dictionary, kind by image count |
| C06 | consequence of C01+C02 over permutations of blocks |
| C07 | expected to be false (stray `i` lines); refutation by witness plus the true version |
| C08 | `posixpath.join/normpath/dirname` modelled on strings |
| C09 | executable round-to-nearest-even on rationals, proved equal to Flocq's `round` |
| C10-C12 | `get_int_imgs` with wrap-around; ring homomorphism modulo 2^64, induction over the series, Cauchy-Schwarz for pvar>=0 |
| C13-C15 | loader as state machine over the shape set, order oracle for the set iteration |
| C16 | algebra on double sums |
| C17-C20 | sorting by insertion sort; induction over exposures; refutations for length mismatch and negative photon counts |
| C21-C22 | algebra on double sums; case analysis |
| C23-C24 | downward loop invariant; peak at index 1 expected to be refuted |
| C25 | state machine of the cache; index 0 expected to be refuted |
| C26 | filter/extremum reasoning |
| C27 | closed form of the minimiser; completing the square; `leastsq` assumed to return a minimiser |
| C28-C30, C33-C35 | field identities over R, sqrt/log lemmas |
| C31 | weighted normal equations, completing the square |
| C32 | field identities over Q; uniqueness of the linear system |
| C36-C37 | integer division arithmetic, counting over lists |
| C38-C39 | finite window sums; linear arithmetic on sums |
| C40 | in-place buffer algorithm with explicit aliasing, loop invariant |
| C41 | real DFT by cos/sin sums; orthogonality by telescoping |
| C42 | expected to be refuted |
| C43-C44 | string splitting, induction on lines / dictionaries |
| C45-C46 | XML trees; reflexivity expected to be refuted for None, NaN and with numpy>=1.24 |
| C47 | `Model_Camera`: the camera's state, binary64 arithmetic (`Base_Float`, every operation rounded by Flocq's nearest-even and NaN/inf propagated), the draws of the random generator as an argument; clip and rounding monotone |
| C48 | same state machine; invariant over every list of operations; argmin by induction |
| C49-C50 | `Model_Optics`, extended reals (division by zero explicit); `field` identities; double sums exchanged; refutations for mean 0, another exposure, a mean below the dark signal |
| C51 | `Model_Tile`: numpy's tile/resize on lists; index arithmetic with mod; odd Bayer sizes refuted |
| C52 | `Model_Search`: for/break loops over the camera state, images from arbitrary draws; loop invariant; failing image refuted |
| C53 | `Model_Points`: camera answers as oracles; induction over the exposure loop; binary64 error bounds for `linspace` and `round` show that spaced exposures stay apart; ignored arguments refuted |
| C54 | `Model_Dataset`: run = list of effects; printed decimals read back (`Spec_Dataset.as_printed`); descriptor is a sequence of blocks, composed with the parser theorems C01/C02 |
| C55 | induction over the effects: every prefix of the events and of the text |
| C56 | positions from the random choice as an argument; frame property; exact count refuted for repeated draws |
| C57 | real analysis on exp/log; shape check: exception class refuted |
| C58 | `Model_Report`: operation point dictionaries on a heap (aliasing visible), figures and results as oracles that may fail; invariant over every history of `add` |
| C59 | values with object identity of `np.nan`; formatted decimals against an independent half-even spec |
| C60 | loop of `Plotting1288.__init__`; what is drawn is characterised exactly, the property refuted |
| C61 | `Model_Profile`: reductions along an axis over the unmasked pixels (exact rationals), positions; min/max/mean inequalities; binary64 counterexample |
| C62 | `emva` composes parser, loader, data and results; the visiting orders of the two exposure sets are arguments. Specification: entries of the text, rows (bright pair with its dark pair), figures of rows from pixels. Proved by refinement through each stage; order independence because sorted rows are unique, statistics are permutation invariant and every figure respects equal rationals |
| C63 | normal curve as a real function, compared with the density; factor bounded by integer division |
| C64 | histogram partition transported through the rescaling of the bins |
| C65 | result dictionary as a map over the documented attributes, values as oracle |
| C66 | triangle inequality from an abstract rounding good to one unit of the 7th digit |
| C67 | every saved image comes from a grab; reduction modulo 2^8 or 2^32 is the identity on the pixel range of C47 |
| C68 | `Model_Report.make_dirs`: dictionaries, paths (`normpath`/`join`/`basename`) and a disk as a function; copies followed one by one |
| C69 | `Model_Profile`: images of the plots from the spatial data; curves characterised for every number of images by the scale L_dark/L |
| C70 | spectrogram composed with C41; curve equals percent * sqrt(mean)/100; the property refuted |
| C71 | `Model_Generated.disk_of`: the files left by the generator; C54 (the text lists the shots) composed with C62. For exposure series completeness is derived from the operation points, and rows are counted by a bijection with the bright shots |
| C72 | `Model_Plot.plot_sensitivity`, `plot_ptc`, `plot_linearity`, `plot_deviation`: lists of labelled curves. Spec: the points by index, slopes by the minimisation property of C27/C31, range ends by "last point at or below 70 %" etc. Proved by rewriting every numpy array as a function of the index; end-to-end version by composition with C62 |
| C73 | `plot_snr` over reals with `arange`; `plot_snrs` threads `max_ideal`. Proved: ceil(100) samples, sqrt bound from C35, induction over the tests. `snr_samples_f`: the same in binary64, refuted by computation |
| C74 | `plot_uydark` (exact) and `joined_f` (binary64). The mean equals the least element iff all are equal: sum inequality by induction |
| C75 | `plot_tests`, `rearrange`: the list of limits. Spec: average height of a curve. Induction over the tests |
| C76 | `hist_limits`, `hist_figure` over the histograms of C64 |
| C77 | `Model_Rounded.v`: the temporal branch with every binary64 rounding; a sum is given the tree of its additions (any order). Sums of pixels are exact below 2^53; the error of each later operation by Flocq (`rn_err`), composed by `s2_error`; lifted to the arrays by a relation between exact and rounded tables |
| C78 | The same model, a 1x3 witness by computation |
| C79 | `Model_Jinja.v`: lexer, parser and evaluation of the jinja2 constructs the templates use; `Model_Templates.v`, `Model_Docs.v`: the five templates and the doc strings of Results1288, character by character; `Model_Sheet.v`: `latex`. Spec: a reader of LaTeX text (comments, tables, rows, cells) and the list of 33 lines. Proof: the parsed templates are cut into pieces; the reader runs symbolically on a piece whose variables are ordinary texts (`sread_ok`), pieces compose (`reads_app`), loops by induction over points and items; `add` by C58 |
| C80 | The same; the reader collects the arguments of includegraphics |
| C81 | The same; the reader collects label and value of the entries |
| C82 | The style sheet as a function of the basic information; refuted |
| C83 | Witness by computation on the model; refuted |
| C84 | Witness by computation; refuted |
| C85 | Witness by computation; refuted |
| C86 | `_u_i`, `_u_therm` over the reals; the law is stated by its value at the reference, doubling, n-th roots and monotony, without powers of real exponents |
| C87 | Default settings as witness; refuted |
| C88 | `get_photons` against the formula of the standard; the exact factor between the two; refuted |
| C89 | `_u_e` against a separate formula; induction over the wavelengths |
| C90 | The results model on data given by a linear sensor (`Spec_Ideal`); uniqueness of the least-squares minimiser gives the fits, the rest follows by computation |
| C91 | The data model on a random image pair; a law is a finite list of outcomes with probabilities, expectation is the weighted sum; linearity of expectation and uncorrelated pixels |
| C92 | As C91 for series of L images; exact biases for a drifting light; unbiasedness with drift is refuted |
| C93 | The digitisation over the reals, integrated over the uniform draw (Riemann integral); it agrees with the binary64 model where sums are exact; 1/12 is refuted |
| C94 | The value of a pixel from the draws to the digitisation (`grab_value`) over the reals; any probability space with an expectation, draws given by mean, variance and being uncorrelated; C93 for the quantisation |
| C95 | `_get_spatial_data` in binary64 (`Model_RoundedSpatial`), every sum an arbitrary tree; error analysis by Flocq's rounding with the length of the longest chain of additions as parameter; C21 gives the textbook figures |
| C96 | As C95; refuted by a computed witness |
| C97 | The loader's sums, `Data1288` and the spatial results on random images over any probability space (an expectation that is linear, monotone and normalised); algebra of covariances of linear combinations |
| C98 | C94 for every pixel of a series of `grab` images gives the hypotheses of C97; the draw of the quantisation noise may be averaged first |
| C99 | `Model_NewReport`: the constructor with its defaults and copies, then `add` and `latex`; composition of C68 and C79-C81; the entry set by the constructor does not appear in the general information |
| C100 | `Model_NewReport`; refuted: KeyError |
| C101 | `Model_Results`; stability of the least squares slope through the origin (normal equation and Cauchy-Schwarz), the peak and the 70 % range are not moved by errors smaller than the gaps |
| C102 | Chebyshev and Markov inequalities on any probability space; the variance is linear in the uncorrelated squares of the differences; union bound over the points; C98 gives the law of the simulated camera |
| C103 | `Model_Figure`: subplots, titles, labels and scales of all plot classes, pyplot's open figures, the loop of `plot`; induction over the plots; what the tests draw is a parameter (C60, C69-C76 say what it is) |
| C104 | `Model_Figure`; refuted: figures that are still open are used again; `C104_overlaid` says what is shown |
| C105 | `Model_Figure`, `Model_Hist`; refuted: the values are percentages (C37), the deviations digital numbers |
| C106 | `Model_Print` on the doc strings of the class (`Model_Docs`); the catalogue of the 61 quantities is a separate table in `Spec_Print`; the page is an inductive relation. Telling the lines apart is refuted |
| C107 | `Model_Print`, `Model_Xml`; `C45_round_trip` instantiated with the class, whose names and texts are checked by computation |
| C108 | Two evaluations from descriptor text and pixels (`Model_Emva`), the second with `regraded 1 c` images; all 48 figures `same_value` |
| C109 | The same with `regraded g 0`; the exponent of each figure in grey values, photons and time is a table in `Spec_Units`. Figures of the dark noise refuted (floor 0.24 and 1/12 in grey values), their exact drift is `C109_sigma_d` |
| C110 | The same with exposure times times t and photon counts times p; `follows` for every figure |
| C111 | `rearranged` images with arbitrary permutations of rows and columns (`Spec_Turn`) |
| C112 | `turned` images; the second evaluation has size w by h, `other_direction` names the exchanged figure |
| C113 | `emva` (`Model_Emva`) applied to a file system that depends on the outcome of a `chance` space (`Spec_Whole`): `random_files` gives the true moments behind each listed file; C62 supplies the measured values of every outcome, C102 the probability |
| C114 | `Model_RoundedIndex`: the indices and R over binary64 arrays (as `Model_Rounded` delivers them) against `Model_Results` over exact numbers; equal when no two variances are closer than the rounding bound of C77 and no signal is within 2^(b-49) grey values of a limit; bound for points near the limit; refuted for a point at exactly 70 % |
| C115 | `Model_Data` and `Model_Results` on random series (Spec_Pattern over the probability spaces of C97); spatial variance less the share of the noise is split into a mean of uncorrelated pixel terms and the square of a mean, then Chebyshev and Markov; square roots and quotient bounded; sizes from the law of C98 for simulated series; joined with C102 for DSNU in electrons |
| C116 | `Model_Results` (Spec_Figures: figure within a bound, error of a quotient, error factors of slope and offset of a line); C101 for gain and responsivity; errors of quotients and roots; normal equations of the line through the dark values; joined with C102 and C113 for random pairs and random files |
| C117 | `Model_Results` (Spec_Straight: signs and bounds of the two errors, range not blurred); optimality of the reported line (C31) gives the bound on its relative residuals and their orthogonality to the line, which gives the signs; joined with C102 and C113 for random pairs and random files |
| C118 | `Model_RoundedFigures` (the same formulas, each operation rounded to the nearest double by Flocq's `round`, with overflow and division by zero as `None`; the square and the logarithms are oracles) against `Model_Results`; a calculus of products `(1-u)^k .. (1-u)^-k` with a size bound carried through every operation |
| C119 | `Model_RoundedEmva` (loader, data and chain with every binary64 operation rounded, summation orders as parameters) against `Model_Emva`; lifts the pair and series bounds (C77, C95) through the loader by induction, then reuses the stability theorems of C102, C116 and C117 with the enlarged error |
| C120 | `Model_Camera`, `Model_Dataset`, `Model_Generated` (generator and the files it leaves) composed with `Model_Emva`; the deliveries of every image are a random variable, the file structure is shown to be the same for all outcomes (induction over the shots), so the law of the written pairs is that of the camera's images; a sensor whose light is only known up to a slack is compared with the linear sensor next to it (stability theorem of C102); the printed photons are bounded by the rounding lemmas of `Proofs_Points` |
| C121 | as C120; the slack of the listed photons is carried through the bounds of C116 (figures), C117 (linearity) and C119 (double precision) by comparing with the exactly linear sensor next to it; the law of C120 is derived from the simulated camera of C94 |
| C122 | the spatial statistics of the whole evaluation are traced back to the two spatial entries of the descriptor (the chain from files to results, extended to the spatial series) and, for a generated run, to the numbers of the images grabbed for the two spatial shots; then C115 gives the figures and C116/C121 the gain |
| C123 | random series given by their means and covariances (row, column, pixel and image parts) on any probability space; exact expected values of the three figures by second moments of the average image, its column and its row means; then the distance to the true parts for a uniform mean image; refuted as stated, with the exact bias |
| C124 | the spatial statistics of C21 specialised to one row and the decomposition of C32 give all three variances in closed form; refuted, with the closed form for every series |
| C125 | the binary64 model of C119 (data computed with a rounding after every operation, any association of the sums) gives spatial figures near the exact ones; with the deviation bounds of C115 for the exact ones, the four numbers behind DSNU and PRNU are right up to the sum of both errors, and the proof of C115 applies to the computed object |
| C126 | the dictionary of results built from the doc strings of the class (transcribed, parsed by the model of `cls_1288_info`); refuted with a witness, then the complete list of pairs sharing a name, for every evaluation |
| C127 | `s_2_y` and its parts over binary64 numbers from the spatial data of C95 (`Model_RoundedLines`); ranges of the exact figures, error of each rounded operation; images of one row or column (where hw - h - w = -1) are outside the bound, the failing case is settled for all sizes |
| C128 | the unit texts of the doc strings, parsed by the model of `cls_1288_info`, read by a small reader of units in the spec, against the rescaling theorems behind C108-C110 (induction over files and rows) and the area figures; also that every figure is shown and no other result has a unit; the values in the dictionary are those of the figures by C65 |
| C129 | `linearity` over binary64 numbers (`Model_RoundedLinearity`): five sums in any order, offset, slope, deviations, np.min and np.max with NaN; induction over the points; with one photon level the determinant of the normal equations is 0, hence no result with exact numbers; refuted in double precision by a measurement evaluated from its image pairs |
| C130 | the model of C129 against the exact fit of C31: relative errors of the five sums by induction over the tree of additions, then the errors of determinant, offset, slope, fitted value and deviation one operation after the other over the real numbers (Cauchy-Schwarz with the spread kappa), overflow excluded at each step; the extremes follow from the deviations. `C130_measurement` starts from the image pairs: the points selected are those of exact arithmetic (C114) and the signals are within 4 * 2^b * 2^-53 |
| C131 | the rounded variances of C127 and means of C95 fed into the rounded figures of C118: the error of a square root and of a quotient whose arguments are known up to an absolute bound, over the real numbers; overflow excluded at each step |

## 3. Trusted base

### 3.1 What is trusted

* Coq 8.16.1's kernel (and its independent checker `coqchk`, run by the gate); no kernel
  check is switched off, no plugin is loaded, no axiom is added.
* The standard-library axioms of 3.2.
* The transcription: that each Gallina definition does what the cited lines of /repo do.
  Every model definition names these lines; simplifications are stated beside it and
  summarised in 3.3 and 3.4.
* The specifications (`Spec_*.v`): that they say what the English statement says.

### 3.2 Assumptions listed by `Print Assumptions`

All of them belong to the standard library of Coq (real numbers, functional
extensionality, excluded middle). No theorem depends on any other axiom.

* Closed under the global context (178 theorems):
  `C01_every_text_has_content`, `C01_blocks_are_entries`, `C01_version_and_format`,
  `C02_accepts_iff_well_formed`, `C02_rejection_class`, `C02_undecodable_is_type_error`,
  `C03_only_content_matters`, `C03_insert_comment`, `C04_decimal_comma`, `C05_kind_by_count`,
  `C05_no_clash`, `C05_duplicate_raises`, `C05_fewer_than_two_rejected`, `C06_block_order`,
  `C07_no_image_dropped_refuted`, `C07_no_image_dropped_partial`, `C08_image_location_partial`,
  `C08_every_name_refuted`, `C08_mixed_dotdot_refuted`, `C09_denotation_unique`,
  `C10_exact_integers`, `C11_scaled_sample_variance`, `C11_nonnegative_zero_iff_constant`,
  `C11_offset_invariant`, `C12_order_irrelevant`, `C12_drift_telescopes`,
  `C13_one_shape_reported`, `C13_different_shapes_raise`, `C14_visiting_order`,
  `C15_success_iff`, `C15_exception_class`, `C15_entries_kept`, `C16_emva_estimators`,
  `C16_nonnegative_symmetric`, `C16_constant_shift_has_no_noise`, `C17_sorted_and_aligned`,
  `C17_exposures_sorted`, `C18_equal_lengths_iff`, `C18_dark_aligned_partial`,
  `C18_equal_lengths_refuted`, `C19_rejected_iff`, `C20_temporal_partial`,
  `C20_spatial_partial`, `C20_temporal_refuted`, `C20_spatial_refuted`,
  `C21_spatial_statistics`, `C22_accepted_iff`, `C23_saturation_index`,
  `C23_last_point_counts`, `C23_single_negative_raises`, `C24_peak_found_partial`,
  `C24_peak_refuted`, `C24_never_index_one`, `C25_forced_index_refuted`, `C26_sensitivity_max`,
  `C26_linearity_max`, `C26_linearity_min`, `C26_below_saturation`, `C28_u_p_sat`,
  `C32_bright`, `C32_dark`, `C32_total`, `C38_high_pass`, `C38_even_size_refused`,
  `C38_gradient_is_zero`, `C38_linear`, `C38_size_one_refuted`, `C39_masked_high_pass`,
  `C39_masked_values_irrelevant`, `C40_row_compression`, `C43_metadata`, `C43_undocumented`,
  `C44_grouped`, `C44_succeeds`, `C45_empty_array_refuted`, `C45_case_refuted`,
  `C46_symmetric`, `C46_self_partial`, `C46_self_ok`, `C46_self_none_refuted`,
  `C46_self_nan_refuted`, `C46_self_new_numpy_refuted`, `C47_deep_refuted`, `C47_64_refuted`,
  `C48_available`, `C48_accepted`, `C51_tile`, `C51_tile_row`, `C51_line`, `C51_line_row`,
  `C51_bayer`, `C51_bayer_refuted`, `C52_failure_refuted`, `C53_exposures`,
  `C53_count_refuted`, `C53_radiances_ignored`, `C53_radiance_limits_refuted`,
  `C53_gain_ignored`, `C54_generator`, `C54_fewer_images`, `C54_dim_refuted`, `C55_stopped`,
  `C55_completed`, `C55_saved_once`, `C55_completes`, `C56_marks`, `C56_count_refuted`,
  `C57_shape`, `C57_shape_error_refuted`, `C58_points_in_order`, `C58_only_failures`,
  `C58_shared_dictionary_refuted`, `C58_second_try_refuted`, `C59_missing`, `C59_nan_refuted`,
  `C60_last_test_only`, `C60_figures`, `C60_all_tests_refuted`, `C61_plain`, `C61_masked`,
  `C61_bracketed`, `C61_rounding_refuted`, `C61_no_mask_refuted`, `C61_masked_middle_refuted`,
  `C65_results`, `C65_succeeds`, `C66_ok_means_close`, `C67_deep_refuted`, `C68_files_lead`,
  `C68_same_name_refuted`, `C68_reuse_fails`, `C69_profiles`, `C69_profiles_scaled`,
  `C69_counts_refuted`, `C72_no_range`, `C73_samples_refuted`, `C74_dark_partial`,
  `C74_joined_refuted`, `C74_apart_refuted`, `C75_levels_partial`, `C75_outside_refuted`,
  `C75_reversed_refuted`, `C76_bins`, `C78_variance_nonnegative_refuted`,
  `C82_header_vendor_refuted`, `C82_vendor_ignored`, `C83_percent_refuted`,
  `C84_cover_page_refuted`, `C85_absent_refuted`, `C91_temporal`, `C92_unbiased`, `C92_bright`,
  `C92_dark`, `C96_uniform_refuted`, `C99_keywords`, `C100_incomplete_refuted`,
  `C100_key_needed`, `C103_windows`, `C103_all_plots`, `C103_failure`, `C103_after_failure`,
  `C104_calls_refuted`, `C104_overlaid`, `C106_page`, `C106_all_or_nothing`,
  `C106_distinct_lines_refuted`, `C114_at_limit_refuted`, `C126_distinct_refuted`,
  `C126_shared`, `C126_others`, `C127_exact`, `C127_two_by_two`, `C128_shown`,
  `C128_no_others`, `C129_extremes`, `C129_reported`, `C129_one_level`,
  `C129_one_point_refuted`

* `ClassicalDedekindReals.sig_forall_dec`, `FunctionalExtensionality.functional_extensionality_dep` (48 theorems):
  `C27_responsivity`, `C27_gain`, `C27_proportional_exact`, `C27_line`, `C27_line_exact`,
  `C30_from_mean`, `C30_from_variance`, `C31_relative_least_squares`, `C31_exactly_linear`,
  `C42_labels`, `C48_far_refuted`, `C48_monotone_refuted`, `C50_even_response`, `C59_number`,
  `C72_sensitivity`, `C72_ptc`, `C72_linearity`, `C72_deviation`, `C79_sheets`, `C80_pictures`,
  `C81_entries`, `C93_mean`, `C93_variance`, `C94_mean`, `C94_variance_exists`, `C97_temporal`,
  `C97_spatial`, `C99_report`, `C99_nothing`, `C101_near`, `C101_stable`, `C102_mean`,
  `C102_variance`, `C102_measured`, `C102_enough_pixels`, `C113_measured`,
  `C113_enough_pixels`, `C115_bright`, `C115_dark`, `C116_dark_current`, `C116_files_current`,
  `C117_sides`, `C119_shown`, `C120_approximate_light`, `C123_expected`, `C123_uniform`,
  `C123_unbiased_refuted`, `C124_parts`

* `ClassicalDedekindReals.sig_forall_dec`, `ClassicalDedekindReals.sig_not_dec`, `FunctionalExtensionality.functional_extensionality_dep` (70 theorems):
  `C28_identities`, `C29_sigma_y_dark`, `C29_sigma_d`, `C33_dsnu`, `C33_prnu`, `C34_per_area`,
  `C35_ordered`, `C35_threshold`, `C36_partition`, `C36_nothing_to_count`,
  `C36_masked_refuted`, `C37_dark`, `C37_bright`, `C41_power_spectrum`, `C41_mirror`,
  `C41_sum_of_images`, `C41_constant`, `C41_pure_wave`, `C41_masked`, `C42_labels_refuted`,
  `C42_odd_width`, `C49_inverse`, `C49_inverse_photons`, `C49_formula`, `C49_proportional`,
  `C49_no_exposure`, `C63_model_curve`, `C64_dark`, `C64_bright`, `C69_spectrogram`,
  `C69_spectrogram_scaled`, `C70_scale`, `C70_percent_refuted`, `C73_one_test`, `C73_figure`,
  `C76_two_tests_refuted`, `C88_factor`, `C88_units_refuted`, `C89_electrons`, `C89_linear`,
  `C89_exposure`, `C90_dark_recovered`, `C92_drift_refuted`, `C93_twelfth_refuted`,
  `C94_variance`, `C94_transfer`, `C94_response`, `C98_temporal`, `C98_transfer`,
  `C98_spatial`, `C102_simulated`, `C105_number_refuted`, `C105_percent_refuted`,
  `C113_simulated`, `C115_figures`, `C115_enough_pixels`, `C115_simulated`, `C116_derived`,
  `C116_stable`, `C116_measured`, `C116_files`, `C117_line`, `C117_stable`, `C117_measured`,
  `C117_files`, `C122_files`, `C122_enough_pixels`, `C124_dsnu`, `C124_prnu`,
  `C124_pixel_refuted`

* `ClassicalDedekindReals.sig_forall_dec`, `ClassicalDedekindReals.sig_not_dec`, `Classical_Prop.classic`, `FunctionalExtensionality.functional_extensionality_dep` (111 theorems):
  `C09_literal_read_to_nearest`, `C09_nearest_is_nearest`, `C09_accepted`, `C09_same_key`,
  `C25_history_irrelevant`, `C25_forced_index_partial`, `C28_snr`, `C28_dynamic_range`,
  `C45_round_trip`, `C47_bit_depth`, `C47_full_well`, `C48_range`, `C48_nearest`,
  `C48_granted`, `C48_idempotent`, `C48_exact`, `C48_tie`, `C48_monotone`, `C50_mean`,
  `C50_zero_refuted`, `C50_other_exposure_refuted`, `C50_negative_refuted`, `C52_gain`,
  `C52_offset`, `C53_exposure_count`, `C53_lights`, `C54_parses_back`, `C54_series`,
  `C54_two_images`, `C57_efficiency`, `C57_transmission`, `C57_nominal`, `C57_normalised`,
  `C59_integer`, `C62_end_to_end`, `C62_order_free`, `C67_saved_pixels`, `C71_evaluates`,
  `C71_series`, `C72_end_to_end`, `C77_mean_correctly_rounded`, `C77_variance_error`,
  `C77_identical_images`, `C77_all_arrays`, `C86_reference`, `C86_doubles`, `C86_fraction`,
  `C86_increases`, `C86_exposure`, `C86_environment`, `C86_no_interval`,
  `C87_documented_refuted`, `C90_recovered`, `C93_average`, `C93_same`, `C95_figures`,
  `C95_whole`, `C107_file`, `C107_text`, `C108_black_level`, `C109_grey_scale`, `C109_sigma_d`,
  `C109_dark_noise_refuted`, `C110_units`, `C111_rearranged`, `C112_turned`,
  `C114_same_points`, `C114_margin`, `C114_responsivity`, `C115_electrons`, `C118_figures`,
  `C118_dark_current`, `C118_spatial`, `C118_per_area`, `C118_ratio_dB`, `C118_range_dB`,
  `C118_ratio_bit`, `C119_near`, `C119_gain`, `C119_linearity`, `C119_figures`, `C119_current`,
  `C120_listed`, `C120_measured`, `C120_enough_pixels`, `C120_simulated`, `C121_law`,
  `C121_figures`, `C121_current`, `C121_linearity`, `C121_float_gain`, `C121_float_figures`,
  `C122_files_electrons`, `C122_generated`, `C122_generated_electrons`, `C122_simulated`,
  `C125_files`, `C125_files_electrons`, `C125_enough_pixels`, `C125_generated`,
  `C125_generated_electrons`, `C125_simulated`, `C127_parts`, `C127_sum`, `C127_whole`,
  `C128_units`, `C128_area`, `C130_accuracy`, `C130_measurement`, `C131_measured`,
  `C131_response`


### 3.3 What is modelled

| source | modelled | not modelled |
|----|----|----|
| `process/parser.py` | whole class, from the characters of the file to the dictionary; `posixpath` functions it uses; `float()` of text in binary64 | messages of exceptions, decoding of the bytes of the file (text is Latin-1 characters) |
| `process/loader.py` | whole class except `load_image` itself; the set of exposures may be visited in any order | decoding of image files by PIL (an oracle from path to pixels) |
| `process/data.py` | whole class: temporal and spatial data, exact arithmetic; int64 sums with wrap-around; temporal and spatial data also in binary64 (C77, C78, C95, C96) | - |
| `process/routines.py` | `get_int_imgs`, `LinearB0`, `LinearB`, `FFT1288`, `GetFrecs`, `Histogram1288`, `high_pass_filter`, row compression, `cls_1288_info`, `_sections_first`, `obj_to_dict`, `dict_to_xml`, `xml_to_dict`, `compare_xml`, `round_significant` | the algorithm inside `leastsq` (taken to return the minimiser), numpy's FFT algorithm (its mathematical definition is used), the XML library's handling of characters outside the modelled set |
| `process/results.py` | all quantities with their exceptions, the saturation index with its cache, all histograms, the printed page, the export; the indices and R also in binary64 (C114); the derived figures also in binary64 over the real numbers (C118), the row, column and pixel variances in binary64 (C127), the linearity fit in binary64 (C129, C130; the scalar `x ** 2` taken as correctly rounded) | binary64 rounding inside the fits of gain and dark current |
| `process/plotting.py` | the points of every curve, axis limits, titles, labels and scales, the windows and the loop of `Plotting1288.plot`, the tests it keeps; SNR samples and the dark plot condition also in binary64 | drawing itself, colours, legends, tick marks, `_get_extremes` (never called) |
| `process/__init__.py` | `Emva1288`: the chain parser - loader - data - results, with exact numbers and, up to the numbers handed to the results, in binary64 | |
| `camera/camera.py` | settings, `grab`, thermal and photon signal, images; the digitisation also over the reals (C93); PRNU/DSNU/dark signal as oracles | the generator's distributions (theorems hold for every draw; C93, C94 and C98 assume means and variances) |
| `camera/routines.py` | quantum efficiency and thermal formulas, photons and radiance, `nearest_value`, tiles, Bayer filter | |
| `camera/points_generator.py`, `camera/dataset_generator.py`, `camera/bad_images.py` | all functions | image encoding by PIL |
| `report/report.py` and its templates | `__init__`, `info_setup`, `info_basic`, `info_marketing`, `add`, `_plots`, `_make_dirs`, `missingnumber`, `missing`, `_stylesheet`, `_report`, `latex`; the five templates, character by character; of jinja2: text, output, if/elif/else, for, include, white space control, attributes, filters, `%`, `==`, `not` | other constructs of jinja2; str() of arrays, lists and dictionaries; running LaTeX |
| `tests/`, `doc/`, `examples` | nothing | everything |

### 3.4 Assumptions on what is outside

* `scipy.optimize.leastsq` returns the parameters with the least sum of squares; where all
  parameters give the same sum, its start value.
* numpy functions do what their documentation says; their floating-point rounding is
  modelled only where a definition says "binary64".
* Random generators, the file system, PIL and the order of iteration over sets are
  arguments of the model functions; theorems quantify over them.
* Python is 3.11 with dictionaries in insertion order; strings are restricted to Latin-1.

## 4. Findings (properties refuted on the faithful model)

* **C07** (`C07_no_image_dropped_refuted`): an `i` line that follows a `v`, `n` or
  unknown line is not inside a block and is ignored without a message.
* **C02, side finding**: a descriptor that is not valid text makes the parser raise
  `TypeError`, not a parsing error.
* **C08** (`C08_every_name_refuted`, `C08_mixed_dotdot_refuted`): in a name such as
  `images\/a.png` the piece after the backslash starts with a slash, so `join`
  discards the descriptor's directory; in `a\b/../c` normalisation removes the
  component `a\b` before it is split at the backslash.
* **C18** (`C18_equal_lengths_refuted`): two exposures of which one has two bright
  points are accepted, giving three bright and two dark values; the element-wise
  difference `u_y - u_ydark` of the results then has no meaning.
* **C20** (`C20_temporal_refuted`, `C20_spatial_refuted`): with a negative photon
  count the 0.0 entry is not the first after sorting and the dark point is used as a
  bright point as well.
* **C23, side finding**: an `s2_y` array with a single negative entry makes
  `index_u_ysat` raise `IndexError` (`s2_y[abs(0-1)]`).  With exact numbers this is not reachable from
  images, whose variances are not negative (C16); with binary64 numbers it is (C78).
* **C24** (`C24_peak_refuted`, `C24_never_index_one`): the lower neighbour of index 0
  is taken to be index 1 (`abs(i-1)`), so the loop always walks from index 1 on to
  index 0: a variance peak at index 1 is reported as saturation index 0, and 1 is
  never the answer.
* **C25** (`C25_forced_index_refuted`): `index_u_ysat=0` is treated as "not given".
* **C36** (`C36_masked_refuted`): for a masked (colour) image the bin range comes from
  the unmasked pixels, but `np.histogram` ignores the mask and counts masked pixels
  whose stored value falls into the range.
* **C38, side finding** (`C38_size_one_refuted`): filter size 1 passes the check for odd
  sizes, but the crop `[0:-0]` is empty.
* **C42** (`C42_labels_refuted`): `GetFrecs` divides by twice the number of entries of the
  half spectrum, not by the number of columns.  A line at k/w periods per pixel is drawn
  at k/(w+2) (w even) or k/(w+1) (w odd); the last label of an even width is not 0.5.
* **C45** (`C45_empty_array_refuted`): an empty array is written as an element without
  text; reading the file then calls `.strip()` on None (`AttributeError`).
  (`C45_case_refuted`): names are lower-cased on reading, so `K` and `k` are merged.
* **C46** (`C46_self_none_refuted`, `C46_self_nan_refuted`): a None or NaN value is
  reported as FAIL when a file is compared with itself.
  (`C46_self_new_numpy_refuted`): `np.int` was removed in NumPy 1.24; the
  AttributeError is swallowed and every non-zero value is reported as FAIL.
* **xml_to_dict, side finding** (visible in the model definition, not a theorem): the
  branch for XML given as text uses `etree.ElementTree.fromstring`, which does not exist;
  the exception is swallowed and None returned for every text.
* **C47** (`C47_deep_refuted`, `C47_64_refuted`): `2**bit_depth - 1` is rounded to the
  float `2**bit_depth` for more than 53 bits; a saturated pixel of a 54-bit camera is
  2^54, and for 64 bits the conversion to uint64 is out of range.
* **C48** (`C48_far_refuted`, `C48_monotone_refuted`): far from the available values the
  floating point distances are equal after rounding and `argmin` takes the first one: a
  huge requested gain can be answered by the smallest one.
* **C50** (`C50_zero_refuted`): `get_radiance_for(mean=0)` is treated as "not given" and
  saturates the camera.  (`C50_other_exposure_refuted`): the thermal signal is taken at
  the camera's exposure, not at the `exposure` argument.  (`C50_negative_refuted`): a
  mean below the thermal signal gives a negative radiance without an error.
* **C51** (`C51_bayer_refuted`): `get_bayer_filter` builds `height//2 x width//2` cells:
  odd sizes give a filter that is too small for the sensor.
* **C52** (`C52_failure_refuted`): when `grab` raises during the search, the camera stays
  at the gain that was tried.
* **C56** (`C56_count_refuted`): positions are drawn with replacement, so fewer than the
  requested number of pixels may be marked.
* **C57** (`C57_shape_error_refuted`): the message of the shape check formats the shape
  tuple with `%`, which raises `TypeError` instead of the intended `ValueError`.
* **C53** (`C53_count_refuted`): exposures are rounded to one decimal and used as
  dictionary keys, so equal (or too near) limits give fewer points than `steps`.
  (`C53_radiance_limits_refuted`): `radiance_min` and `radiance_max` are overwritten or
  never read.  (`C53_gain_ignored`): `gain` and `blackref` have no effect when the
  exposure varies.  Also (in `Spec_Points.limit`) a limit of 0 counts as "not given".
* **C54, side findings** (`C54_two_images`, `C54_fewer_images`, `C54_dim_refuted`): with
  L <= 2 or bright images with fewer than 0.0005 photons the generator writes a
  descriptor its own parser rejects.
* **C67** (`C67_deep_refuted`): images are converted to uint32; a 33-bit camera loses the
  highest bit.
* **C58** (`C58_shared_dictionary_refuted`): `add` stores the caller's dictionary itself; a
  dictionary added twice appears twice with the last id.  (`C58_second_try_refuted`): when
  the first `add` fails after the name was filled in, an unnamed point keeps the id of that
  try as its name.
* **C59** (`C59_nan_refuted`): `value in (None, np.nan)` compares NaN by object identity, so
  a NaN that was computed (and not copied from `np.nan`) is printed as `nan`.
* **C60** (`C60_all_tests_refuted`): the statement that appends a test is outside the loop,
  so `Plotting1288(t1, ..., tn)` draws `tn` only; with no test it raises
  `UnboundLocalError` (modelled as `NameError`).
* **C68** (`C68_same_name_refuted`): two files with the same name from different directories
  overwrite each other in the upload directory.  (`C68_reuse_fails`): the dictionary of the
  caller is changed in place, so a second report made from it fails.
* **C61** (`C61_rounding_refuted`): in binary64 the mean of three pixels 0.1 (sum 1 over ten
  images) is 0.10000000000000002, above their maximum.  (`C61_no_mask_refuted`): a masked
  array without a mask has the scalar mask False, whose `len` raises `TypeError`.
  (`C61_masked_middle_refuted`): with at most two rows and a masked row h//2 the "next" row
  does not exist (`IndexError`).
* **C69** (`C69_counts_refuted`): the sums of the dark images are divided by the number of
  bright images; with three dark and four bright images an 8 DN dark level is drawn as 6 DN.
* **C70** (`C70_percent_refuted`): the spectrum is divided by the mean before the root and
  not multiplied by 100; the curve is off by sqrt(mean)/100 from the lines drawn with it.
* **C73** (`C73_samples_refuted`): for a threshold of 5 and a saturation of 62,
  `np.arange(5, 62, 57 / 100)` has 101 elements, the last one 62.00000000000003; the SNR
  curves then end beyond the saturation line.
* **C74** (`C74_joined_refuted`): `np.mean(texp) == texp[0]` fails for three exposures of
  0.1, which are then joined; (`C74_apart_refuted`): 1, 1 and the next binary64 number are
  treated as equal.
* **C75** (`C75_outside_refuted`): the axis of the bright panel is the overall mean plus and
  minus 10 %; a bright image of 0 and 20 is drawn completely outside.
  (`C75_reversed_refuted`): with bright images darker than the dark ones 0.9 times the
  (negative) mean is above 1.1 times it and the axis is upside down.
* **C76** (`C76_two_tests_refuted`): each test overwrites the limits of the axis; the largest
  bin of an earlier test can be outside.
* **C78** (`C78_variance_nonnegative_refuted`): for the 1x3 images (1, 1, 2) and (2, 2, 3) the
  variance of the difference is 0; the rounded means differ by 1.0000000000000002 and the
  float64 variance is -2^-52.  A test with this bright point only has no saturation index
  (`IndexError`).
* **C82** (`C82_header_vendor_refuted`, `C82_vendor_ignored`): the style sheet prints
  `marketing.vendor`, an entry that `info_marketing` does not have; the vendor is an entry of
  the basic information and never gets into the header.
* **C83** (`C83_percent_refuted`): texts are put into the LaTeX source unescaped; the model
  `100% HD` is shown as `100`, the rest of the line is a comment.
* **C84** (`C84_cover_page_refuted`): the entry `cover_page` of `info_marketing` is never
  read; only the argument `cover_page` of Report1288 counts.
* **C85** (`C85_absent_refuted`): the filter `missing` compares with None and np.nan; an
  absent entry is jinja2's Undefined and prints nothing instead of a dash.
* **C87** (`C87_documented_refuted`): `temperature_doubling` is documented as the temperature
  "at which the dark current is two times the reference dark current"; the code uses it as
  the interval over which the current doubles.  With the default settings (30 and 8 degrees)
  the current at 8 degrees is less than a quarter of the reference.
* **C88** (`C88_units_refuted`, `C88_factor`): `get_photons` documents a radiance in W/sr/cm^2
  but multiplies it by an area in m^2 and once more by the wavelength in m; the count is that
  of the standard times the wavelength in nm over 10^13.  `get_radiance` makes the same
  error the other way round, so the two agree with each other (C49).
* **C92** (`C92_drift_refuted`): the images of a series are averaged before the spatial variance
  is taken, but the subtracted temporal variance also contains the change of the light between
  the images.  A uniform noiseless sensor under drifting light gets a negative spatial variance,
  and its DSNU is NaN.  `C92_bright` and `C92_dark` give the exact biases.
* **C93** (`C93_twelfth_refuted`): the simulated camera adds a uniform draw before rounding.
  This makes the mean exact (`C93_mean`), but the variance is f(1-f) for a signal with
  fractional part f (`C93_variance`), 1/6 on average (`C93_average`), and not the 1/12 that
  the results subtract.
* **C96** (`C96_uniform_refuted`): five images of three equal pixels (grey values 1, 0, 0, 0, 0)
  have the average image 0.2, 0.2, 0.2, whose computed mean is 0.20000000000000004, so the
  computed spatial variance is about 1e-33 and not 0.  C95 bounds the effect.
* **C100** (`C100_incomplete_refuted`, `C100_key_needed`): `Report1288(outdir, basic={'vendor':
  'Vendor'})` raises KeyError, because `_make_dirs` reads `basic['qe_plot']`; the dictionaries
  have to come from `info_basic` and `info_marketing`, which the documentation only calls useful.

* **C104** (`C104_calls_refuted`): `plot` numbers its figures from 0 with `plt.figure(i)`, which
  gives an open figure of that number back. Where `plt.show()` does not wait for the windows to be
  closed (scripts and notebooks with a non-interactive backend, interactive mode), a second call
  draws on top of the plots of the first one: `p.plot(PlotPTC)` and then `p.plot(PlotSensitivity)`
  show the photon transfer curve under the sensitivity plot.
* **C105** (`C105_number_refuted`, `C105_percent_refuted`): the y axis of both accumulated
  histograms says "Number of pixels", but the values are percentages (the first one is always 100,
  also for 30 pixels); the x axis of the PRNU one says "[%]", but the bins are digital numbers.

* **C106** (`C106_distinct_lines_refuted`): `s_2_y` and `s_2_y_dark` have the same description
  ("Spatial variance from image") and the same symbol (`$s^2_{y}$`): two lines of the printed page
  cannot be told apart but by the alphabetical order of names that are not printed.

* **C109** (`C109_dark_noise_refuted`, `C109_sigma_d`): the floor 0.24 for the dark variance and the
  quantisation noise 1/12 are constants in grey values.  A camera whose images are stored with doubled
  grey values (left-aligned) gets half the dark noise in electrons, a smaller sensitivity threshold and a
  larger dynamic range if its dark noise is below the floor; above the floor sigma_d grows by exactly
  1/12 (1 - 1/g^2) / K^2 in its square.

* **C114** (`C114_at_limit_refuted`): 0.7 is not a binary64 number.  With a saturation signal of 90 the
  limit is 62.99999999999999, so that a point with the signal 63, exactly 70 % of saturation, is left out of
  the fits of R and K although `Y <= m` is meant to include it (the same for saturation signals 45, 85, 165,
  170, 175, ...).  If no darker point was measured, `max()` of the empty selection raises ValueError.

* **C123** (`C123_unbiased_refuted`, `C123_uniform`): the row and column variances are always too small
  on average, the pixel variance too large.  The average image is centred on its own mean, which takes away
  only 1 - 1/N of the noise of the column means, but `_get_spatial_data` subtracts all of it.  A perfectly
  uniform sensor with noise has negative row and column variances on average, hence NaN for DSNU_row and
  DSNU_col.  The error is at most 2 / min(rows, columns) of all variance, so it is small for large images.
* **C124** (`C124_pixel_refuted`, `C124_parts`): for images of one row `M*N - M - N` is -1.  The column
  variance is then (2 - 1/N) times the measured spatial variance (not corrected for the temporal noise) and the
  pixel variance is minus the sum of the measured variance and its noise share, so `DSNU1288_pixel` is NaN for
  every line sensor whose dark images are not constant.  Nothing rejects such images.

* **C126** (`C126_distinct_refuted`, `C126_shared`, `C126_others`): five LaTeX names stand for two quantities
  each: UPMin, UEMin, UPSat and UESat for the figure per pixel and the figure per area, UIVar for `u_I_var` and
  `u_I_var_DN`.  doc/exts/sphinx_directives.py calls the name the one to use when referring to the value in
  LaTeX reports; a report that defines a command per name would print the wrong one of the two.  All other
  names are different.

* **C129** (`C129_one_point_refuted`): with a single point between 5 and 95 % of saturation both determinants
  of the linearity fit are 0, but NumPy computes them with rounding errors.  A point of 3 grey values at 1000
  photons gives the line of slope 0.001 and offset 2 and linearity errors of exactly 0 %, as for a perfect
  camera; 4 grey values give NaN, 15 an infinite slope.  Nothing checks that the range has two levels.
