{"id": "C01", "title": "Descriptor blocks map one-to-one to image groups", "statement": "When ParseEmvaDescriptorFile accepts a file, .images contains exactly one entry per 'b'/'d' block of the file: the entry's exposure and photon count are the numbers on the header line (photons 0.0 for 'd'), its file list is the list of the 'i' lines that immediately follow, in file order, and there are no other entries.", "quantifier": "every descriptor text", "why_tests_cant": "the claim is about every arrangement, number and size of blocks; a test parses a handful of generated files", "anchors": ["src/emva1288/process/parser.py:_fill_info", "src/emva1288/process/parser.py:_get_images_filenames", "src/emva1288/process/parser.py:_add_pcount"]}
{"id": "C02", "title": "A descriptor is accepted exactly when it is well formed", "statement": "Parsing succeeds if and only if every non-comment line has at least two fields, there is at most one 'n' line and it has three integers, every 'b' line has two numbers and every 'd' line one, each is followed by at least two 'i filename' lines with exactly one filename each, and no two blocks of the same kind have equal exposure and photon count. In every other case the constructor raises instead of returning partial data.", "quantifier": "every descriptor text", "why_tests_cant": "needs all malformed inputs, of which tests have none (the branches are marked no cover)", "anchors": ["src/emva1288/process/parser.py:_fill_info", "src/emva1288/process/parser.py:_split_line", "src/emva1288/process/parser.py:_get_images_filenames", "src/emva1288/process/parser.py:_add_pcount"]}
{"id": "C03", "title": "Comments, blank lines and spacing never change the result", "statement": "Inserting or removing blank lines and '#' comment lines anywhere (including between the images of a block), or changing the amount of white space around and between fields, leaves the outcome of parsing (value or error class) unchanged.", "quantifier": "every descriptor text and every such edit", "why_tests_cant": "infinitely many insertion points and spacings", "anchors": ["src/emva1288/process/parser.py:_load_file", "src/emva1288/process/parser.py:_split_line"]}
{"id": "C04", "title": "Decimal comma and decimal point are interchangeable", "statement": "Writing exposure times and photon counts with ',' instead of '.' as the decimal separator gives the same parsed images.", "quantifier": "every descriptor whose 'b'/'d' header fields are edited this way", "why_tests_cant": "must hold for every number on every line", "anchors": ["src/emva1288/process/parser.py:_fill_info"]}
{"id": "C05", "title": "No measurement point is ever overwritten, and the kind follows the image count", "statement": "A block with 2 images is stored as temporal, with more than 2 as spatial, with fewer than 2 the file is rejected; two blocks of the same kind whose exposure and photon count are numerically equal make the parser raise SyntaxError, so no block's file list is ever replaced by another's.", "quantifier": "every descriptor text", "why_tests_cant": "quantifies over all pairs of blocks in all files", "anchors": ["src/emva1288/process/parser.py:_get_kind", "src/emva1288/process/parser.py:_add_pcount"]}
{"id": "C06", "title": "Block order is irrelevant", "statement": "Reordering the blocks (header plus its images) of an accepted descriptor gives an accepted descriptor with the same set of (kind, exposure, photons, files) entries.", "quantifier": "every accepted descriptor and every permutation of its blocks", "why_tests_cant": "n! permutations for every file", "anchors": ["src/emva1288/process/parser.py:_fill_info", "src/emva1288/process/parser.py:_add_pcount"]}
{"id": "C07", "title": "No image line of an accepted descriptor is silently dropped", "statement": "If the parser accepts a descriptor then every 'i filename' line in it contributes its file to .images.", "quantifier": "every descriptor text", "why_tests_cant": "a universally quantified claim; one unusual interleaving is enough to break it", "anchors": ["src/emva1288/process/parser.py:_fill_info", "src/emva1288/process/parser.py:_get_images_filenames"]}
{"id": "C08", "title": "Image paths are resolved against the descriptor's directory", "statement": "A relative image name written with '/' or '\\\\' separators resolves to the same components below the descriptor's directory (or the given path); an absolute '/' name is left pointing where it says. Image names written by the dataset generator resolve to the files it saved.", "quantifier": "every directory string and every image name", "why_tests_cant": "all path strings", "anchors": ["src/emva1288/process/parser.py:_get_images_filenames", "src/emva1288/process/parser.py:_load_file", "src/emva1288/camera/dataset_generator.py:run_test", "src/emva1288/camera/dataset_generator.py:save_image"]}
{"id": "C09", "title": "Numeric header fields are read to the nearest double", "statement": "A decimal exposure or photon field is stored as the binary64 number nearest to it (ties to even), overflowing to infinity; two fields denote the same dictionary key exactly when these doubles are equal.", "quantifier": "every decimal literal", "why_tests_cant": "all literals; rounding is about infinitely many inputs", "anchors": ["src/emva1288/process/parser.py:_fill_info"]}
{"id": "C10", "title": "Summed images and pseudo-variances are exact integers", "statement": "For image series whose values fit the documented bit depths (up to 16 bit, up to 1000 images) get_int_imgs returns, per pixel, exactly sum = sum_l y_l and pvar = L*(L*sum_l y_l^2 - (sum_l y_l)^2): the int64 arithmetic never wraps.", "quantifier": "every image size, every pixel value, every L within the stated bound", "why_tests_cant": "overflow corner cases depend on all values at once", "anchors": ["src/emva1288/process/routines.py:get_int_imgs"]}
{"id": "C11", "title": "Pseudo-variance is a scaled unbiased sample variance", "statement": "pvar of a pixel is never negative, is zero exactly when the pixel has the same value in every image, equals L^2*(L-1) times the unbiased sample variance of the pixel over the series, and does not change when a constant is added to all images.", "quantifier": "every series of at least two images", "why_tests_cant": "for all pixel histories", "anchors": ["src/emva1288/process/routines.py:get_int_imgs", "src/emva1288/process/data.py:_get_spatial_data"]}
{"id": "C12", "title": "Series statistics do not depend on image order; drift telescopes", "statement": "sum and pvar are the same for every ordering of the series, and dmean equals mean(last image) - mean(first image), whatever the images in between.", "quantifier": "every series, every permutation", "why_tests_cant": "L! orderings", "anchors": ["src/emva1288/process/routines.py:get_int_imgs"]}
{"id": "C13", "title": "All images share one shape, and that shape is reported", "statement": "LoadImageData succeeds only if every loaded image of both kinds has the same shape, and then data['height'] and data['width'] are that shape; if two images differ in shape it raises.", "quantifier": "every images dictionary and every file system content", "why_tests_cant": "every position of the odd image", "anchors": ["src/emva1288/process/loader.py:_load_imgs", "src/emva1288/process/loader.py:_load_data"]}
{"id": "C14", "title": "Loading does not depend on set iteration order", "statement": "The exposures are visited in the arbitrary order of a Python set. Whatever that order is, loading either succeeds for all orders with the same data for every (kind, exposure, photons), or fails for all orders.", "quantifier": "every images dictionary, every visiting order of the exposures", "why_tests_cant": "hash order is not controllable by a test", "anchors": ["src/emva1288/process/loader.py:_load_data"]}
{"id": "C15", "title": "Loading succeeds exactly for complete, readable series", "statement": "LoadImageData returns data if and only if every exposure of both kinds has a 0.0 photon entry and at least one other entry, every listed file exists, all images have one shape, and there is at least one image; a missing file raises IOError, a missing dark or bright raises ValueError. Every parsed entry then has a data entry under the same key.", "quantifier": "every images dictionary and file system", "why_tests_cant": "all combinations of missing pieces", "anchors": ["src/emva1288/process/loader.py:_load_data", "src/emva1288/process/loader.py:_get_imgs_data", "src/emva1288/process/loader.py:_load_imgs"]}
{"id": "C16", "title": "Temporal mean and variance are the EMVA 1288 estimators of the raw pixels", "statement": "For a pair of equally sized images A, B, Data1288's u_y is the mean of all pixels of both and its s2_y is 1/(2NM) * sum ((A-mean A)-(B-mean B))^2. Hence s2_y is never negative, does not change if A and B are swapped, and is zero if B is A plus a constant.", "quantifier": "every pair of images", "why_tests_cant": "an algebraic identity over all images", "anchors": ["src/emva1288/process/routines.py:get_int_imgs", "src/emva1288/process/loader.py:_get_imgs_data", "src/emva1288/process/data.py:_get_temporal_data", "src/emva1288/process/data.py:_get_temporal"]}
{"id": "C17", "title": "Temporal arrays are sorted and aligned", "statement": "data['temporal'] lists exposures in increasing order and, inside each exposure, the bright points in increasing photon count; entry i of u_p, u_y and s2_y belongs to the same measurement point, and every bright measurement point appears exactly once.", "quantifier": "every temporal data dictionary with non-negative photon counts", "why_tests_cant": "all dictionaries, all insertion orders", "anchors": ["src/emva1288/process/data.py:_get_temporal"]}
{"id": "C18", "title": "Temporal arrays of an accepted data set have equal length", "statement": "Whenever Data1288 accepts a data set, texp, u_p, u_y, s2_y, u_ydark and s2_ydark have the same length, so u_y - u_ydark is an element-wise difference of corresponding points.", "quantifier": "every accepted data set", "why_tests_cant": "universally quantified over the number of exposures and bright points", "anchors": ["src/emva1288/process/data.py:_get_temporal"]}
{"id": "C19", "title": "Temporal data is rejected exactly when a dark or a bright point is missing", "statement": "_get_temporal raises ValueError if and only if some exposure lacks a 0.0 photon entry or has fewer than two entries.", "quantifier": "every temporal data dictionary", "why_tests_cant": "all dictionaries", "anchors": ["src/emva1288/process/data.py:_get_temporal"]}
{"id": "C20", "title": "The dark point never ends up among the bright points", "statement": "In the temporal and spatial results the 0.0 photon entry is used only as dark data and every other entry only as bright data.", "quantifier": "every accepted data set", "why_tests_cant": "all sets of photon counts", "anchors": ["src/emva1288/process/data.py:_get_temporal", "src/emva1288/process/data.py:_get_spatial"]}
{"id": "C21", "title": "Spatial statistics are the textbook quantities of the image stack", "statement": "For a stack of L>=2 images of M x N>=2 pixels: avg_mean is the mean of all pixels, var_mean is the pixel mean of the unbiased temporal variance, avg_var is the unbiased variance of the average image, avg_var_cav / avg_var_rav are the (population) variances of the column / row means of the average image minus var_mean/(L*M) resp. var_mean/(L*N).", "quantifier": "every stack of images", "why_tests_cant": "identity over all stacks", "anchors": ["src/emva1288/process/data.py:_get_spatial_data"]}
{"id": "C22", "title": "Spatial data is accepted exactly for one exposure with one dark and one bright", "statement": "_get_spatial raises ValueError unless there is exactly one exposure and it has exactly two photon counts, one of them 0.0.", "quantifier": "every spatial data dictionary", "why_tests_cant": "all dictionaries", "anchors": ["src/emva1288/process/data.py:_get_spatial"]}
{"id": "C23", "title": "The saturation index is always a valid index with a simple characterisation", "statement": "index_u_ysat of a non-empty s2_y is a valid index; it is the smallest index reached going down from the end while each visited point or its lower neighbour is not below the previously visited point.", "quantifier": "every variance array", "why_tests_cant": "all arrays; loop behaviour", "anchors": ["src/emva1288/process/results.py:index_u_ysat"]}
{"id": "C24", "title": "The saturation index finds the variance peak", "statement": "If s2_y is non-negative, strictly increases up to index p and does not increase after it, index_u_ysat is p.", "quantifier": "every unimodal variance array and every peak position", "why_tests_cant": "all lengths and peak positions, including the borders", "anchors": ["src/emva1288/process/results.py:index_u_ysat"]}
{"id": "C25", "title": "A forced saturation index is honoured and results never depend on access history", "statement": "Results1288(..., index_u_ysat=i) uses i as saturation index. Any sequence of property accesses on a Results1288 object returns for each property the same value as a first access on a fresh object.", "quantifier": "every forced index; every sequence of property accesses", "why_tests_cant": "all histories", "anchors": ["src/emva1288/process/results.py:__init__", "src/emva1288/process/results.py:index_u_ysat"]}
{"id": "C26", "title": "Fit ranges are the extreme indices within the 70% / 5% / 95% limits", "statement": "index_sensitivity_max is the largest index whose signal is at most 70% of the saturation signal, index_linearity_max the largest at most 95%, index_linearity_min the smallest at least 5%; they raise exactly when no such index exists. For a non-decreasing signal with positive saturation signal the sensitivity range ends before the saturation index.", "quantifier": "every signal array and saturation index", "why_tests_cant": "all arrays", "anchors": ["src/emva1288/process/results.py:index_sensitivity_max", "src/emva1288/process/results.py:index_linearity_min", "src/emva1288/process/results.py:index_linearity_max"]}
{"id": "C27", "title": "R and K are the least-squares slopes through the origin", "statement": "R (K) is the unique m minimising sum (Y_i - m X_i)^2 over the sensitivity range of mean signal versus photons (variance versus mean signal), whenever the X_i are not all zero; data that is exactly proportional gives the exact factor. Dark fits are the unique least-squares line.", "quantifier": "every temporal data set", "why_tests_cant": "optimality ranges over all real slopes", "anchors": ["src/emva1288/process/routines.py:LinearB0", "src/emva1288/process/routines.py:LinearB", "src/emva1288/process/results.py:R", "src/emva1288/process/results.py:K", "src/emva1288/process/results.py:sigma_y_dark"]}
{"id": "C28", "title": "Sensitivity figures are mutually consistent", "statement": "QE*K = 100*R; u_e_min = sigma_y_dark/K + 1/2 and u_e_min = QE*u_p_min/100; u_e_sat = QE*u_p_sat/100; DR = u_p_sat/u_p_min = u_e_sat/u_e_min; SNR_max^2 = u_e_sat; SNR_max_dB = 10*log10(u_e_sat); 2^(2*SNR_max_bit) = u_e_sat; inverse_K*K = 1; inverse_SNR_max*SNR_max = 100.", "quantifier": "every data set for which K, R are non-zero (positive where a root or logarithm is taken)", "why_tests_cant": "identities over all reals", "anchors": ["src/emva1288/process/results.py:QE", "src/emva1288/process/results.py:u_p_min", "src/emva1288/process/results.py:u_e_min", "src/emva1288/process/results.py:u_e_sat", "src/emva1288/process/results.py:DR", "src/emva1288/process/results.py:SNR_max", "src/emva1288/process/results.py:SNR_max_dB", "src/emva1288/process/results.py:SNR_max_bit"]}
{"id": "C29", "title": "Dark noise is bounded below and sigma_d is always real", "statement": "sigma_y_dark >= sqrt(0.24) for every data set, so sigma_d never takes the root of a negative number and sigma_y_dark^2 = (K*sigma_d)^2 + 1/12. With one or two distinct exposures the first dark variance is used, with three or more the intercept of the least-squares line.", "quantifier": "every temporal data set", "why_tests_cant": "all data sets", "anchors": ["src/emva1288/process/results.py:sigma_y_dark", "src/emva1288/process/results.py:sigma_d"]}
{"id": "C30", "title": "Dark current is NaN exactly when it cannot be estimated", "statement": "u_I_var(_DN) is NaN iff there are at most two distinct exposure times or the fitted dark-variance slope is negative; u_I_mean(_DN) is NaN iff there are at most two distinct exposure times; otherwise u_I_mean_DN = 1e9*slope, u_I_mean = 1e9*slope/K, u_I_var = 1e9*slope/K^2.", "quantifier": "every temporal data set with K non-zero", "why_tests_cant": "all data sets", "anchors": ["src/emva1288/process/results.py:u_I_var_DN", "src/emva1288/process/results.py:u_I_var", "src/emva1288/process/results.py:u_I_mean_DN", "src/emva1288/process/results.py:u_I_mean"]}
{"id": "C31", "title": "The linearity fit is the relative least-squares line", "statement": "linearity() returns the unique (a, b) minimising sum ((Y_i - a X_i - b)/Y_i)^2 over the 5%..95% range; exactly linear data has LE_min = LE_max = 0; otherwise LE_min <= every relative deviation in the range <= LE_max and both are attained.", "quantifier": "every signal/photon array with non-zero signals and two distinct photon counts in the range", "why_tests_cant": "optimality over all lines", "anchors": ["src/emva1288/process/results.py:linearity", "src/emva1288/process/results.py:LE_min", "src/emva1288/process/results.py:LE_max"]}
{"id": "C32", "title": "Row, column and pixel variances add up to the total", "statement": "s_2_y_row + s_2_y_col + s_2_y_pixel = s_2_y, s_2_y_cav = s_2_y_col + s_2_y_pixel/M and s_2_y_rav = s_2_y_row + s_2_y_pixel/N, and these three equations determine the three values uniquely, for both bright and dark; the only image sizes (M,N>=1) for which they are undefined are 2 x 2, where ZeroDivisionError is raised.", "quantifier": "every spatial data set and image size", "why_tests_cant": "identities over all sizes and values", "anchors": ["src/emva1288/process/results.py:s_2_y_row", "src/emva1288/process/results.py:s_2_y_col", "src/emva1288/process/results.py:s_2_y_pixel", "src/emva1288/process/results.py:s_2_y"]}
{"id": "C33", "title": "DSNU and PRNU are NaN exactly for negative variances and never imaginary", "statement": "DSNU1288(_row,_col,_pixel) is NaN iff the corresponding dark variance is negative, otherwise its square times K^2 is that variance; PRNU1288(...) is NaN when bright minus dark variance is negative, otherwise (PRNU/100*(mean-mean_dark))^2 is that difference.", "quantifier": "every spatial data set", "why_tests_cant": "all data sets", "anchors": ["src/emva1288/process/results.py:DSNU1288", "src/emva1288/process/results.py:DSNU1288_DN", "src/emva1288/process/results.py:PRNU1288"]}
{"id": "C34", "title": "Per-area figures are None exactly without a pixel area", "statement": "u_p_min_area, u_e_min_area, u_p_sat_area, u_e_sat_area are None iff pixel_area is None or 0, otherwise the figure divided by the area.", "quantifier": "every pixel area and data set", "why_tests_cant": "all values", "anchors": ["src/emva1288/process/results.py:u_p_min_area", "src/emva1288/process/results.py:u_e_min_area", "src/emva1288/process/results.py:u_p_sat_area", "src/emva1288/process/results.py:u_e_sat_area"]}
{"id": "C35", "title": "SNR curves are ordered and the sensitivity threshold has SNR just below one", "statement": "At every photon count: total SNR <= theoretical SNR <= sqrt(QE/100*photons), and <= the ideal sqrt(photons) when QE<=100. At u_p_min the theoretical SNR lies in [sqrt(1/2), 1).", "quantifier": "every photon count and every parameter set", "why_tests_cant": "inequalities over all reals", "anchors": ["src/emva1288/process/plotting.py:PlotSNR", "src/emva1288/process/results.py:u_p_min"]}
{"id": "C36", "title": "Histogram bins partition the pixels", "statement": "Histogram1288 of an integer image puts every pixel into exactly one bin: values[i] counts the pixels with bins[i] <= y < bins[i]+W for one integer width W, the values sum to the number of pixels, there are at most Qmax bins, with W = 1 whenever the value range has at most Qmax values, and the counts equal those of the reference algorithm in the comment.", "quantifier": "every non-empty integer image and every Qmax >= 1", "why_tests_cant": "all images and ranges", "anchors": ["src/emva1288/process/routines.py:Histogram1288"]}
{"id": "C37", "title": "Accumulated histograms are decreasing percentages from 100%", "statement": "histogram_DSNU_accumulated (PRNU likewise) has values[i] = 100 * (fraction of pixels whose absolute deviation is at least the i-th bin edge); the values start at 100, never increase and stay positive at the last bin.", "quantifier": "every spatial data set", "why_tests_cant": "all images", "anchors": ["src/emva1288/process/results.py:histogram_DSNU_accumulated", "src/emva1288/process/results.py:histogram_PRNU_accumulated"]}
{"id": "C38", "title": "The high-pass filter is the scaled difference to the local mean", "statement": "For odd dim >= 3, high_pass_filter returns at each pixel dim^2*y minus the sum of the dim x dim neighbourhood, with multiplicator dim^2, on the image cropped by dim//2 on each side; it is zero for constant and for linear-gradient images, unchanged by adding a constant, additive in the image; even dim raises ValueError.", "quantifier": "every image and odd size", "why_tests_cant": "all images and sizes", "anchors": ["src/emva1288/process/routines.py:high_pass_filter"]}
{"id": "C39", "title": "The masked high-pass filter ignores masked pixels", "statement": "For a masked (colour) image the filter gives at each unmasked pixel n*y minus the sum of the n unmasked neighbours and multiplicator n, does not depend on the values under the mask, and raises ValueError when n is not the same for all unmasked pixels of the cropped image.", "quantifier": "every image and mask", "why_tests_cant": "all masks", "anchors": ["src/emva1288/process/routines.py:high_pass_filter"]}
{"id": "C40", "title": "Masked rows are compressed in place without mixing rows", "statement": "_row_wise_compress returns, for every row with an unmasked entry and in order, the first c unmasked entries of the row, where c is the smallest non-zero number of unmasked entries; fully masked rows are removed; reusing the input buffer never corrupts a row that is still to be read.", "quantifier": "every masked image", "why_tests_cant": "aliasing of buffer and input over all masks", "anchors": ["src/emva1288/process/routines.py:_row_wise_compress"]}
{"id": "C41", "title": "The spectrum is a symmetric power spectrum with the image's energy", "statement": "FFT1288 returns cols//2+1 non-negative values; the omitted half is the mirror image of the returned one; the full spectrum sums to the sum over columns of the mean squared deviation from the image mean (Parseval); the spectrum of k times an image with n=k is the spectrum of the image; a constant image has spectrum 0.", "quantifier": "every real image and size", "why_tests_cant": "identities over all images", "anchors": ["src/emva1288/process/routines.py:FFT1288", "src/emva1288/process/plotting.py:PlotHorizontalSpectrogramPRNU"]}
{"id": "C42", "title": "Frequency axis labels are the true spatial frequencies", "statement": "GetFrecs labels entry k of the spectrum of an image with c columns with k/c periods per pixel, so the last label of an even-width image is the Nyquist frequency 0.5.", "quantifier": "every spectrum length", "why_tests_cant": "all sizes", "anchors": ["src/emva1288/process/routines.py:GetFrecs", "src/emva1288/process/routines.py:FFT1288"]}
{"id": "C43", "title": "Documentation tags become result metadata faithfully", "statement": "For a docstring containing a '.. emva1288::' block of ':Key: value' lines ended by a blank line, cls_1288_info returns exactly these keys (lower-cased, last one wins) and values; text outside the block contributes nothing; a missing section becomes 'other'; attributes without a block are omitted.", "quantifier": "every docstring", "why_tests_cant": "all texts", "anchors": ["src/emva1288/process/routines.py:cls_1288_info"]}
{"id": "C44", "title": "Grouping results by section neither loses nor duplicates results", "statement": "results_by_section contains every result exactly once, under its own section, sections sorted, and results of one section in the original order.", "quantifier": "every results dictionary", "why_tests_cant": "all dictionaries", "anchors": ["src/emva1288/process/routines.py:_sections_first"]}
{"id": "C45", "title": "XML export and import are inverse on results", "statement": "Writing results with dict_to_xml to a file and reading them with xml_to_dict gives back, for each section and result (names lower-cased), the same value (None stays None) or the same arrays.", "quantifier": "every results dictionary", "why_tests_cant": "all dictionaries", "anchors": ["src/emva1288/process/routines.py:dict_to_xml", "src/emva1288/process/routines.py:xml_to_dict"]}
{"id": "C46", "title": "Comparing a result file with itself reports no failure, and comparison is symmetric", "statement": "compare_xml(f, f) reports OK on every line, and compare_xml(f, g) and compare_xml(g, f) report OK on the same lines.", "quantifier": "every pair of result files", "why_tests_cant": "all files", "anchors": ["src/emva1288/process/routines.py:compare_xml", "src/emva1288/process/routines.py:round_significant"]}
{"id": "C47", "title": "Simulated images respect the bit depth for every noise draw", "statement": "Every pixel of Camera.grab is an integer between 0 and 2^bit_depth-1 that fits the chosen unsigned dtype, and does not exceed the full-well level K*u_esat+blackoffset+1/2 rounded, whatever numbers the random generator delivers.", "quantifier": "every camera, radiance and random draw", "why_tests_cant": "all random draws", "anchors": ["src/emva1288/camera/camera.py:grab", "src/emva1288/camera/camera.py:__init__"]}
{"id": "C48", "title": "Gain and black offset always are available settings nearest to the request", "statement": "After any sequence of camera operations K is an element of Ks and blackoffset of blackoffsets; after setting either to v it is an available value with minimal distance to v (the smaller one on ties, for an increasing list), setting is idempotent and monotone in v.", "quantifier": "every camera, every sequence of operations, every requested value", "why_tests_cant": "all histories", "anchors": ["src/emva1288/camera/camera.py:K", "src/emva1288/camera/camera.py:blackoffset", "src/emva1288/camera/routines.py:nearest_value"]}
{"id": "C49", "title": "Photons and radiance conversions are mutually inverse", "statement": "get_photons and get_radiance with the same exposure, area, f-number and wavelength invert each other; photons are proportional to exposure, radiance and area and quadruple with doubled wavelength.", "quantifier": "all positive parameters", "why_tests_cant": "identity over all reals", "anchors": ["src/emva1288/camera/routines.py:get_photons", "src/emva1288/camera/routines.py:get_radiance", "src/emva1288/camera/camera.py:get_photons"]}
{"id": "C50", "title": "get_radiance_for yields the requested mean signal", "statement": "With cam at exposure t, illuminating by get_radiance_for(mean=m, exposure=t) gives an expected light plus thermal signal K*(u_e+u_therm) of m averaged over the pixels, for every m and t.", "quantifier": "every camera, mean and exposure", "why_tests_cant": "all reals", "anchors": ["src/emva1288/camera/camera.py:get_radiance_for", "src/emva1288/camera/camera.py:_u_e", "src/emva1288/camera/camera.py:_u_therm"]}
{"id": "C51", "title": "Tiling repeats the pattern and has exactly the requested size", "statement": "get_tile(arr, h, w) has shape (h, w) ((w,) if h = 1) and entry (i, j) equals arr[i mod rows, j mod cols] (arr[j mod len] for 1-D); get_bayer_filter returns an array of the requested height and width.", "quantifier": "every pattern and size", "why_tests_cant": "all sizes", "anchors": ["src/emva1288/camera/routines.py:get_tile", "src/emva1288/camera/routines.py:array_tile", "src/emva1288/camera/routines.py:get_bayer_filter"]}
{"id": "C52", "title": "Automatic gain / black offset search leaves the camera unchanged", "statement": "_get_emva_gain and _get_emva_blackoffset restore the camera's gain and offset whatever images the camera delivers, and return the first available setting that meets the criterion, or the last setting if none does.", "quantifier": "every camera state and every sequence of delivered images", "why_tests_cant": "all random images", "anchors": ["src/emva1288/camera/dataset_generator.py:_get_emva_gain", "src/emva1288/camera/dataset_generator.py:_get_emva_blackoffset"]}
{"id": "C53", "title": "Operation points: one spatial point, the requested number of temporal points, requested radiance limits", "statement": "PointsGenerator yields exactly one spatial exposure with one bright and one dark radiance and, per mode, `steps` temporal exposures with one bright and one dark each or one exposure with `steps` bright and one dark; given radiance_min and radiance_max are the limits used.", "quantifier": "every camera and argument", "why_tests_cant": "all arguments", "anchors": ["src/emva1288/camera/points_generator.py:_get_points", "src/emva1288/camera/points_generator.py:__init__"]}
{"id": "C54", "title": "A generated data set parses back to its operation points", "statement": "For L >= 3 and points that print to distinct numbers, ParseEmvaDescriptorFile on the descriptor written by DatasetGenerator returns the version, the format, and for each operation point, under its printed exposure and photon count, the images written for it - 2 for temporal, L for spatial - in order.", "quantifier": "every set of operation points, every L >= 3", "why_tests_cant": "all point sets", "anchors": ["src/emva1288/camera/dataset_generator.py:run_test", "src/emva1288/camera/dataset_generator.py:_get_descriptor_line", "src/emva1288/process/parser.py:_fill_info"]}
{"id": "C55", "title": "Data set generation is crash consistent and completes consistently", "statement": "Whenever generation stops, the saved images are a prefix image0..imagek of the sequence, each saved exactly once, and any prefix of the descriptor text that was written names at most one image that is not saved; when it completes, the images named in the descriptor are exactly the saved ones.", "quantifier": "every crash point of every run", "why_tests_cant": "all crash points", "anchors": ["src/emva1288/camera/dataset_generator.py:run_test", "src/emva1288/camera/dataset_generator.py:save_image"]}
{"id": "C56", "title": "bad_pixel marks exactly the requested number of pixels", "statement": "bad_pixel(cam, n) sets exactly n pixels of the DSNU image, all inside the image, to bad_value*u_esat and changes no other pixel.", "quantifier": "every image size, n, and random choice", "why_tests_cant": "all random draws", "anchors": ["src/emva1288/camera/bad_images.py:bad_pixel"]}
{"id": "C57", "title": "Simulated filters and efficiencies are physical", "statement": "gen_qe values are never negative; a Bayer transmission curve is normalised to at most 1 with the maximum at its nominal wavelength; Qe rejects efficiencies of the wrong shape with ValueError.", "quantifier": "all wavelengths and filters", "why_tests_cant": "all reals", "anchors": ["src/emva1288/camera/routines.py:Qe", "src/emva1288/camera/routines.py:poisson", "src/emva1288/camera/routines.py:get_bayer_filter"]}
{"id": "C58", "title": "Report operation points get unique consecutive ids", "statement": "After adding n operation points the report holds them in order with ids OP1..OPn, each with its own results and plot paths below its own directory; an unnamed point is named by its id, a named one keeps its name.", "quantifier": "every sequence of add calls", "why_tests_cant": "all histories", "anchors": ["src/emva1288/report/report.py:add", "src/emva1288/report/report.py:_plots"]}
{"id": "C59", "title": "Missing values are printed as '-' in the report", "statement": "The report's missing/missingnumber filters print '-' for None and for every NaN result, and the formatted number otherwise.", "quantifier": "every result value", "why_tests_cant": "all values and NaN provenances", "anchors": ["src/emva1288/report/report.py:template_renderer"]}
{"id": "C60", "title": "Plotting1288 plots every test it is given", "statement": "Plotting1288(t1, ..., tn).plot() draws each of the n tests on every figure.", "quantifier": "every list of tests", "why_tests_cant": "all lists", "anchors": ["src/emva1288/process/plotting.py:Plotting1288"]}
{"id": "C61", "title": "Profiles are bracketed by their extremes", "statement": "In horizontal and vertical profiles min <= mean <= max and min <= mid <= max at every position, the profile has one entry per column (row), and the vertical profile is the horizontal profile of the transposed image.", "quantifier": "every image", "why_tests_cant": "all images", "anchors": ["src/emva1288/process/plotting.py:ProfileBase"]}
{"id": "C62", "title": "End to end: results are functions of the raw pixels", "statement": "Emva1288 on a well-formed descriptor of a complete measurement (a dark and a bright image pair at each exposure, one dark and one bright spatial series, readable equally sized images) succeeds. Its points are the bright pairs sorted by exposure time and then photon count. Its saturation index, fit range, R and K are the EMVA estimators of the raw pixel values of the listed files at these points. No figure depends on the order of the files in a block, the order of the blocks, or the iteration order of Python sets.", "quantifier": "every well-formed descriptor and image content", "why_tests_cant": "all inputs", "anchors": ["src/emva1288/process/__init__.py:Emva1288", "src/emva1288/process/parser.py:ParseEmvaDescriptorFile", "src/emva1288/process/loader.py:LoadImageData", "src/emva1288/process/data.py:Data1288", "src/emva1288/process/results.py:Results1288"]}
{"id": "C63", "title": "The normal curve shown with a histogram belongs to the image", "statement": "The 'model' list of Histogram1288 has one value per bin: the normal density with the mean and standard deviation of the image at the bin's lower limit, times the number of pixels and the bin width, reduced by a factor (ymax-ymin)/(number of bins * width) that is below 1 and at least (n-1)/n for n bins; for a constant image it is NaN.", "quantifier": "every non-empty integer image and Qmax >= 1", "why_tests_cant": "all images and bin widths", "anchors": ["src/emva1288/process/routines.py:Histogram1288"]}
{"id": "C64", "title": "DSNU and PRNU histograms count pixels by deviation in digital numbers", "statement": "histogram_DSNU counts every pixel of the averaged dark image once, by its deviation from the image mean in DN; histogram_PRNU counts every pixel of the high-pass filtered difference of the averaged bright and dark images once, by its value in DN; the bins are consecutive intervals of one width, at most 256.", "quantifier": "every spatial data set", "why_tests_cant": "all images", "anchors": ["src/emva1288/process/results.py:histogram_DSNU", "src/emva1288/process/results.py:histogram_PRNU"]}
{"id": "C65", "title": "The results dictionary holds exactly the documented quantities", "statement": "Results1288.results contains one entry for every attribute with an emva1288 block, in alphabetical order, each with its documentation tags unchanged plus the computed value (or, for a dictionary of arrays, the arrays under 'data'); it is available if and only if every documented quantity can be computed.", "quantifier": "every class, documentation and computed values", "why_tests_cant": "all classes and values", "anchors": ["src/emva1288/process/routines.py:obj_to_dict", "src/emva1288/process/results.py:results"]}
{"id": "C66", "title": "OK in a comparison report means numerical agreement", "statement": "If compare_xml reports OK for a result, both files contain it, and its values - or, for arrays under the same names, all corresponding elements - differ by at most two parts in a million.", "quantifier": "every pair of result files", "why_tests_cant": "all files and numbers", "anchors": ["src/emva1288/process/routines.py:compare_xml", "src/emva1288/process/routines.py:round_significant"]}
{"id": "C67", "title": "Saved images hold the pixels the camera delivered", "statement": "Every image file DatasetGenerator saves holds, pixel by pixel, the values of the image grabbed for it at the exposure of its operation point.", "quantifier": "every camera, operation points and random deliveries", "why_tests_cant": "all bit depths and pixel values", "anchors": ["src/emva1288/camera/dataset_generator.py:save_image", "src/emva1288/camera/dataset_generator.py:run_test"]}
{"id": "C68", "title": "Files handed to a report end up in the report directory", "statement": "Creating a Report1288 copies the logo, the replacement picture and the QE plot that the user names into the upload directory of the report; the entries of the report lead to files with the same contents, missing ones lead to the default pictures, and no other file is touched.", "quantifier": "every working directory, output directory, file system content and set of given files", "why_tests_cant": "all paths, names and combinations of files", "anchors": ["src/emva1288/report/report.py:_make_dirs"]}
{"id": "C69", "title": "Dark curves show the averaged dark image", "statement": "The DSNU panels of the profile plots and the DSNU spectrograms show the average of the dark images, and the PRNU panels the averaged bright minus the averaged dark image, whatever the numbers of bright and dark images.", "quantifier": "every accepted spatial data set", "why_tests_cant": "all image contents and all numbers of images", "anchors": ["src/emva1288/process/plotting.py:ProfileBase", "src/emva1288/process/plotting.py:PlotHorizontalSpectrogramDSNU", "src/emva1288/process/plotting.py:PlotVerticalSpectrogramDSNU"]}
{"id": "C70", "title": "PRNU spectrograms are in percent", "statement": "The curve of the PRNU spectrograms gives, for each frequency, the standard deviation in percent of the mean signal, the unit of its axis and of the PRNU1288 line drawn into it.", "quantifier": "every accepted spatial data set with positive mean", "why_tests_cant": "all image contents", "anchors": ["src/emva1288/process/plotting.py:PlotHorizontalSpectrogramPRNU", "src/emva1288/process/plotting.py:PlotVerticalSpectrogramPRNU"]}
{"id": "C71", "title": "A generated data set can be evaluated", "statement": "When the dataset generator has finished on a camera of at most 16 bits with two pixels or more, evaluating the descriptor it returns, on the image files it has saved, raises no exception and returns results: the listed measurements are the camera's shots with their printed exposure and photons, every image saved is used by the entry it was taken for, the saturation is found within the measured points, and the responsivity is the best slope of the measured signals. For an exposure series the number of measured points is the number of steps requested.", "quantifier": "every camera, every noise draw, every light source, every number of steps, every number of spatial images up to 1000, every order in which the exposure sets are visited, every image format, every output directory", "why_tests_cant": "tests run one small simulated camera with one random seed", "anchors": ["src/emva1288/camera/dataset_generator.py:DatasetGenerator", "src/emva1288/process/routines.py", "src/emva1288/process/parser.py:ParseEmvaDescriptorFile", "src/emva1288/process/loader.py:LoadImageData"]}
{"id": "C72", "title": "Plots show the measured points and the fits behind the figures", "statement": "The sensitivity and photon transfer plots draw every measured point once and in order, a line through the origin whose slope is the reported responsivity or gain (the least squares slope up to 70 % of saturation), and markers at the ends of the fitted range and at saturation. The linearity plots draw the measured points with the best relative line, and the deviations of exactly the points between 5 % and 95 % of saturation, whose extremes are the reported LE_min and LE_max. Starting from a descriptor and its image files, the drawn points are the signals and variances of the pixels.", "quantifier": "every data set with one saturation point; from files: every complete measurement and every visiting order", "why_tests_cant": "all data; the tests do not look at the curves", "anchors": ["src/emva1288/process/plotting.py:PlotSensitivity", "src/emva1288/process/plotting.py:PlotPTC", "src/emva1288/process/plotting.py:PlotLinearity", "src/emva1288/process/plotting.py:PlotDeviationLinearity"]}
{"id": "C73", "title": "SNR curves end between threshold and saturation and stay on the axis", "statement": "For tests with positive gain and responsivity, quantum efficiency of at most 100 % and threshold below saturation, the SNR plot succeeds, draws its computed curves at 100 equally spaced photon counts from the absolute sensitivity threshold up to (and never beyond) the saturation, with the heights of the theoretical, total and ideal SNR, shows each measured point with non-zero variance, and whatever the number of tests in the figure no computed curve exceeds the upper end of the axis.", "quantifier": "every list of such tests", "why_tests_cant": "all data and numbers of tests", "anchors": ["src/emva1288/process/plotting.py:PlotSNR"]}
{"id": "C74", "title": "Dark signal is drawn as a line exactly for an exposure series", "statement": "The plot of the mean gray value in dark draws one point per exposure time; the points are joined by a line exactly when the exposure times are not all the same.", "quantifier": "every ascending list of exposure times", "why_tests_cant": "all lists of times", "anchors": ["src/emva1288/process/plotting.py:PlotUyDark"]}
{"id": "C75", "title": "Profile plots show their curves", "statement": "Whatever tests are drawn into a profile plot, the axis of each panel runs upwards and contains the curves drawn into it.", "quantifier": "every list of tests", "why_tests_cant": "all image contents and combinations of tests", "anchors": ["src/emva1288/process/plotting.py:ProfileBase", "src/emva1288/process/plotting.py:PlotHorizontalProfile", "src/emva1288/process/plotting.py:PlotVerticalProfile"]}
{"id": "C76", "title": "Histogram plots show every occupied bin", "statement": "In the logarithmic histogram plots every bin that holds a pixel lies within the limits of the axis, for each test drawn into the figure.", "quantifier": "every histogram, every list of tests", "why_tests_cant": "all image contents and combinations of tests", "anchors": ["src/emva1288/process/plotting.py:PlotLogarithmicHistogramDSNU", "src/emva1288/process/plotting.py:PlotLogarithmicHistogramPRNU"]}
{"id": "C77", "title": "Rounding does not spoil the temporal figures", "statement": "For a pair of images of b bits (b at most 16, at most 2^29 pixels) the float64 mean given to the evaluation is the exact mean of all pixels rounded once to the nearest double, and the float64 temporal variance differs from the exact one by at most 2^(2b-50), whatever order NumPy adds the pixels in; identical images give exactly zero. Over a whole data set every array has these values at the same places as with exact numbers, or the same exception is raised.", "quantifier": "every pair of images, every order of additions, every data set of pairs", "why_tests_cant": "all pixel contents and all summation orders; a bound on rounding errors is a statement about every operation", "anchors": ["src/emva1288/process/routines.py:get_int_imgs", "src/emva1288/process/loader.py:LoadImageData._get_imgs_data", "src/emva1288/process/data.py:Data1288._get_temporal_data", "src/emva1288/process/data.py:Data1288._get_temporal"]}
{"id": "C78", "title": "The temporal variance is never negative", "statement": "The temporal variance computed from two images is not negative, so the search for the saturation point always finds an index.", "quantifier": "every pair of images", "why_tests_cant": "the sign depends on rounding in rare cases", "anchors": ["src/emva1288/process/data.py:Data1288._get_temporal_data", "src/emva1288/process/results.py:Results1288.index_u_ysat"]}
{"id": "C79", "title": "The summary sheet shows every figure with its symbol, decimals and unit", "statement": "The report's LaTeX file contains, for each operation point in the order of add, one table of 33 rows: each row has the symbol of a quantity, its value of that point's results rounded to the stated number of decimals, and its unit; quantities that may be missing (for lack of a pixel size or of exposure times) show a dash when they are None or np.nan. No row belongs to another quantity or another point.", "quantifier": "every sequence of added points, all values of the figures (including infinities and NaN), all texts without LaTeX's special characters", "why_tests_cant": "the text is made by templates from 33 paths of names; a wrong path, decimals or unit in one of them shows only for particular values, and the order and number of points is unbounded", "anchors": ["src/emva1288/report/report.py:Report1288.latex", "src/emva1288/report/report.py:Report1288._report", "src/emva1288/report/report.py:Report1288.add", "src/emva1288/report/templates/report.tex", "src/emva1288/report/templates/op.tex", "src/emva1288/process/results.py:Results1288.results_by_section"]}
{"id": "C80", "title": "The pictures of a report", "statement": "The report includes the quantum efficiency picture and then, for each point in order, the 16 plots that add saved for this very point (the first two for a point that is only summarised); the style sheet includes the EMVA logo and the given logo.", "quantifier": "every sequence of added points", "why_tests_cant": "unbounded number of points; the names of the files are spelled in three places", "anchors": ["src/emva1288/report/report.py:Report1288._plots", "src/emva1288/report/report.py:Report1288.latex", "src/emva1288/report/templates/op.tex", "src/emva1288/report/templates/general_info.tex", "src/emva1288/report/templates/emvadatasheet.sty"]}
{"id": "C81", "title": "The labelled entries of a report", "statement": "The report shows each item of the basic information under its label, with a dash for None and np.nan, the readout and transfer type for CCD and the shutter type and overlap capabilities for CMOS sensors, each item of the setup, and for each point its camera settings and test parameters in the order given, on the first pages and again on its sheet.", "quantifier": "every basic information, setup, settings and parameters (without LaTeX's special characters)", "why_tests_cant": "all dictionaries and their contents", "anchors": ["src/emva1288/report/report.py:info_basic", "src/emva1288/report/report.py:info_setup", "src/emva1288/report/templates/general_info.tex", "src/emva1288/report/templates/op_header.tex"]}
{"id": "C82", "title": "The header of the pages shows vendor and model", "statement": "The vendor given in the basic information appears in the header of the report's pages.", "quantifier": "every basic information", "why_tests_cant": "a statement about all contents of the dictionary", "anchors": ["src/emva1288/report/templates/emvadatasheet.sty", "src/emva1288/report/report.py:Report1288._stylesheet"]}
{"id": "C83", "title": "Texts appear as given", "statement": "A text given for an entry of the report (for example the model) is shown completely, whatever characters it has.", "quantifier": "every text", "why_tests_cant": "all texts; tests use harmless ones", "anchors": ["src/emva1288/report/templates/general_info.tex", "src/emva1288/report/report.py:Report1288.template_renderer"]}
{"id": "C84", "title": "The cover page of the marketing information is used", "statement": "The cover page named in the dictionary of info_marketing is part of the report.", "quantifier": "every marketing information", "why_tests_cant": "absence of an effect", "anchors": ["src/emva1288/report/report.py:info_marketing", "src/emva1288/report/templates/report.tex"]}
{"id": "C85", "title": "Entries that are not given show a dash", "statement": "An entry that is not in the dictionary of the basic information is shown as a dash, like one that is None.", "quantifier": "every basic information", "why_tests_cant": "all dictionaries", "anchors": ["src/emva1288/report/report.py:Report1288.template_renderer", "src/emva1288/report/templates/general_info.tex"]}
{"id": "C86", "title": "The dark current doubles with the doubling interval", "statement": "The mean number of thermal electrons of a simulated exposure is dark_current_ref times the exposure at temperature_ref, doubles for every temperature_doubling degrees, changes continuously in between (by the n-th root of 2 for an n-th of the interval), grows with the temperature and is proportional to the exposure time.", "quantifier": "every camera, temperature and exposure", "why_tests_cant": "a law over all temperatures; the mean is hidden behind random draws", "anchors": ["src/emva1288/camera/camera.py:Camera._u_i", "src/emva1288/camera/camera.py:Camera._u_therm"]}
{"id": "C87", "title": "temperature_doubling is the temperature of twice the dark current", "statement": "As documented for the constructor, at the temperature temperature_doubling the dark current is twice the reference dark current.", "quantifier": "every camera", "why_tests_cant": "the mean is hidden behind random draws", "anchors": ["src/emva1288/camera/camera.py:Camera.__init__", "src/emva1288/camera/camera.py:Camera._u_i"]}
{"id": "C88", "title": "Photon counts follow the standard for the documented units", "statement": "With the radiance in W/sr/cm^2, the pixel area in um^2, the exposure in ns and the wavelength in nm, get_photons is the photon count of the EMVA 1288 standard (pi L / (1 + 4 f^2) times area, time and wavelength over h c).", "quantifier": "all inputs", "why_tests_cant": "units are a convention between caller and function, tests only compare the function with itself", "anchors": ["src/emva1288/camera/routines.py:get_photons"]}
{"id": "C89", "title": "The simulated light signal is linear", "statement": "The mean number of light electrons in a pixel is the sum over the wavelengths of photons times quantum efficiency, times the pixel's PRNU factor; it is additive and proportional in the radiance and proportional to the exposure time.", "quantifier": "every camera, radiance, exposure and pixel", "why_tests_cant": "linearity over all inputs; the mean is hidden behind random draws", "anchors": ["src/emva1288/camera/camera.py:Camera._u_e", "src/emva1288/camera/camera.py:Camera.get_photons"]}
{"id": "C90", "title": "A sensor that obeys the linear camera model is recovered exactly", "statement": "If the temporal means are exactly offset + K*eta*photons, the temporal variances exactly dark variance + K^2*eta*photons up to saturation, and the saturation is a drop of the variance, then the results return exactly the K, eta and saturation of the sensor: responsivity K*eta, gain K, quantum efficiency 100*eta %, the saturation capacities, maximal SNR, zero linearity errors, the sensitivity threshold and the dynamic range; and a dark signal growing linearly with the exposure gives back its rate and its variance.", "quantifier": "every sensor, number of points and exposure series of the linear model", "why_tests_cant": "end-to-end correctness over all sensors; a test tries a simulated camera with noise and a tolerance", "anchors": ["src/emva1288/process/results.py:Results1288"]}
{"id": "C91", "title": "Expected temporal data of a noisy sensor", "statement": "For a random pair of images with uncorrelated pixels the expected mean is the mean of the pixel means, and the expected temporal variance is (1 - 1/N) times the mean pixel variance (N pixels), whatever the change of the light between the two images.", "quantifier": "every finite law of images, every size, mean, variance and drift", "why_tests_cant": "statistical expectation over all laws; tests see single draws", "anchors": ["src/emva1288/process/data.py:Data1288._get_temporal"]}
{"id": "C92", "title": "Expected spatial data of a noisy sensor", "statement": "For a random series of L images with uncorrelated pixels the spatial variances with the temporal noise subtracted are unbiased estimators of the spatial variance of the pixel means, in bright and dark; the light may drift between images.", "quantifier": "every finite law of image series, every L >= 2 and size", "why_tests_cant": "statistical expectation over all laws; tests see single draws", "anchors": ["src/emva1288/process/data.py:Data1288._get_spatial"]}
{"id": "C93", "title": "Quantisation noise of the simulated camera", "statement": "The digitisation of the simulated camera adds no error on average, and quantisation noise of variance 1/12, the value that the results subtract.", "quantifier": "every signal, gain and offset inside the range of the camera", "why_tests_cant": "an average over the uniform draw, for every signal", "anchors": ["src/emva1288/camera/camera.py:Camera.grab", "src/emva1288/process/results.py:Results1288.sigma_y_dark"]}
{"id": "C94", "title": "The simulated camera obeys the linear camera model", "statement": "While neither the well nor the digital range clips, a pixel of the simulated camera has the mean offset + K*(dark + light + DSNU + mean of the dark noise) and a variance of K^2*(dark + light + dark noise variance) plus at most 1/4 of quantisation noise; so the variance grows with the mean with slope K (photon transfer) up to 1/4, and the mean grows by K per electron made from photons.", "quantifier": "every gain, offset, bit depth, dark signal, light, DSNU and noise, and every random law with the requested means and variances", "why_tests_cant": "a statement about means and variances of all draws; tests see single images", "anchors": ["src/emva1288/camera/camera.py:Camera.grab"]}
{"id": "C95", "title": "Rounding does not spoil the spatial figures", "statement": "For 2 to 1000 images of at most 16 bits and at most 2^29 pixels, in whatever order numpy adds the pixels, the computed mean, temporal variance, spatial variance and column and row variances are within a proven bound of the textbook figures (below 2^-26 for 8 bits and at most 100 additions depending on each other), and the data step gives an exception exactly when exact arithmetic would.", "quantifier": "every image series, size, bit depth and order of addition", "why_tests_cant": "rounding errors over all inputs and all summation orders", "anchors": ["src/emva1288/process/data.py:Data1288._get_spatial_data", "src/emva1288/process/data.py:Data1288._get_spatial"]}
{"id": "C96", "title": "A uniform sensor shows no spatial variance", "statement": "If all pixels of each image of a series are equal, the spatial variance is 0.", "quantifier": "every series of uniform images", "why_tests_cant": "the rounding of the mean only shows for particular sums", "anchors": ["src/emva1288/process/data.py:Data1288._get_spatial_data"]}
{"id": "C97", "title": "The measured noise and non-uniformity are right on average, for every noise law", "statement": "For random images whose pixels are uncorrelated, have means mu + drift of the image and any variances (which may differ from pixel to pixel and from image to image), the expected mean of a pair is the mean of mu plus the average drift, the expected temporal variance of a pair is (1 - 1/N) times the average pixel variance, independent of the drift; of a stack of L images the expected temporal noise is the average variance plus the variance of the drift, and the expected spatial variance is the spatial variance of mu minus the variance of the drift / L.", "quantifier": "every probability law (continuous ones too), image size, number of images, mean, variance and drift", "why_tests_cant": "an expectation over all images; a test sees samples", "anchors": ["src/emva1288/process/routines.py:get_int_imgs", "src/emva1288/process/data.py:Data1288._get_temporal", "src/emva1288/process/data.py:Data1288._get_spatial_data", "src/emva1288/process/results.py:Results1288.s_2_y"]}
{"id": "C98", "title": "Evaluating simulated images recovers the simulated camera on average", "statement": "For image series of the simulated camera that do not clip, the measured mean is on average the linear model's mean; the measured temporal variance is on average K^2*(dark + light + dark noise), with quantisation of at most 1/4, times (1 - 1/N) for a pair; the variance between a bright and a dark pair grows by K times the growth of the mean up to 1/4; the measured spatial variance is on average K^2 times the spatial variance of light plus DSNU electrons, without any contribution of the temporal noise or the quantisation.", "quantifier": "every camera setting, light and DSNU map, image size, number of images and every random law with the requested means and variances", "why_tests_cant": "an expectation over all simulated images; a test sees samples", "anchors": ["src/emva1288/camera/camera.py:Camera.grab", "src/emva1288/process/data.py:Data1288._get_temporal", "src/emva1288/process/data.py:Data1288._get_spatial_data", "src/emva1288/process/results.py:Results1288.s_2_y"]}
{"id": "C99", "title": "A report shows what was handed to its constructor", "statement": "From Report1288(...) through add() to latex(): the general information shows the entries of the dictionaries that were given (dashes for None), an omitted or empty dictionary gives dashes everywhere, the logo and the quantum efficiency plot are the given files or the default pictures, and each operation point has its table, its settings and its pictures. info_setup, info_basic and info_marketing keep every keyword argument and fill the other entries with None.", "quantifier": "every directory, dictionaries, files, cover page and sequence of operation points", "why_tests_cant": "needs all combinations of given and omitted information", "anchors": ["src/emva1288/report/report.py:Report1288.__init__", "src/emva1288/report/report.py:info_basic", "src/emva1288/report/report.py:Report1288.latex"]}
{"id": "C100", "title": "Information left out of a dictionary is treated as missing", "statement": "A report can be made from a dictionary that holds only some of the basic information; what is left out counts as missing.", "quantifier": "every non-empty dictionary", "why_tests_cant": "which entries are optional is not stated by any test", "anchors": ["src/emva1288/report/report.py:Report1288.__init__", "src/emva1288/report/report.py:Report1288._make_dirs"]}
{"id": "C101", "title": "Small errors of the measured data change the results little", "statement": "If the measured means and variances of a linear sensor are off by at most e, and the exposure points are further apart than the errors, saturation is found at the right point, the responsivity is off by at most 2e divided by the mean number of photons, the gain by at most (2e(1+K)+q) divided by the mean signal (less 2e), and the quantum efficiency correspondingly; q is the part of the noise that is not shot noise.", "quantifier": "every linear sensor, number of points, measured data within e of the truth", "why_tests_cant": "the error bounds have to hold for all perturbations at once, including those that could move the saturation point or the 70 % range", "anchors": ["src/emva1288/process/results.py:Results1288.index_u_ysat", "src/emva1288/process/results.py:Results1288.R", "src/emva1288/process/results.py:Results1288.K", "src/emva1288/process/results.py:Results1288.QE"]}
{"id": "C102", "title": "With enough pixels a wrong gain or responsivity is unlikely", "statement": "The mean and the variance computed from a pair of images deviate from the truth by more than e with a probability that is inversely proportional to the number of pixels. Hence for every error and every failure probability there is a number of pixels from which on the gain and the responsivity of a linear sensor, in particular of the simulated camera, are wrong by more than the bounds of C101 with at most that probability.", "quantifier": "every probability space, noise law with bounded fourth moments, sensor, number of points and of pixels", "why_tests_cant": "a probability statement over all noise laws; a test sees single draws", "anchors": ["src/emva1288/process/data.py:Data1288._get_temporal", "src/emva1288/process/results.py:Results1288.R", "src/emva1288/process/results.py:Results1288.K"]}
{"id": "C103", "title": "Every requested plot appears in its own window", "statement": "Plotting1288(...).plot(*plots), called without open figures, shows exactly one window per plot, in the order given (all 16 plots, which have different names, if none is given). Each window is named after its plot; its subplots carry the plot's title (or its name), axis labels and scales and exactly the curves drawn for it. If a plot raises, the call raises the same exception and nothing is shown. The complete windows of the plots before it and the unfinished window of the failing plot, with its subplots, then stay open.", "quantifier": "every list of plot classes, tests and curves; both behaviours of matplotlib's add_subplot", "why_tests_cant": "any combination and number of plots, including user defined classes with empty titles", "anchors": ["src/emva1288/process/plotting.py:Plotting1288.plot", "src/emva1288/process/plotting.py:Emva1288Plot.setup_figure", "src/emva1288/process/plotting.py:PlotHorizontalProfile.setup_figure"]}
{"id": "C104", "title": "The plots of two calls do not mix", "statement": "A call of plot() shows the plots of this call, whatever was plotted before.", "quantifier": "every two calls, figures still open or not", "why_tests_cant": "depends on the figures left open by earlier calls", "anchors": ["src/emva1288/process/plotting.py:Plotting1288.plot"]}
{"id": "C105", "title": "The axis labels of the accumulated histograms name what is drawn", "statement": "The accumulated histograms show numbers of pixels over the deviation in digital numbers (DSNU) or in percent of the mean (PRNU), as their axes say.", "quantifier": "every image", "why_tests_cant": "labels are not compared with values by any test", "anchors": ["src/emva1288/process/plotting.py:PlotAccumulatedLogHistogramDSNU", "src/emva1288/process/plotting.py:PlotAccumulatedLogHistogramPRNU", "src/emva1288/process/results.py:Results1288.histogram_PRNU_accumulated"]}
{"id": "C106", "title": "print_results lists every scalar result", "statement": "Results1288.print_results() (and Emva1288.results()) prints the sections in alphabetical order and in each of them every documented scalar quantity exactly once, with its description, its symbol and its value in columns; quantities made of arrays are left out. If a documented quantity cannot be computed nothing is printed. The description and symbol of a line tell which quantity it is.", "quantifier": "every evaluation, whatever the values (numbers of any length, None, NaN)", "why_tests_cant": "61 quantities with arbitrary values; the layout depends on the lengths of all texts", "anchors": ["src/emva1288/process/results.py:Results1288.print_results", "src/emva1288/process/results.py:Results1288.results_by_section", "src/emva1288/process/__init__.py:Emva1288.results"]}
{"id": "C107", "title": "The exported results of an evaluation can be read back", "statement": "Results1288.xml(filename) (and Emva1288.xml) writes a file from which xml_to_dict gives back, for every documented quantity and nothing else, its description and its value as a float (None stays None, arrays stay arrays). Without a file name the same text is returned and nothing is written.", "quantifier": "every evaluation without empty arrays, every file name", "why_tests_cant": "all values of all 61 quantities at once", "anchors": ["src/emva1288/process/results.py:Results1288.xml", "src/emva1288/process/routines.py:dict_to_xml", "src/emva1288/process/routines.py:xml_to_dict", "src/emva1288/process/__init__.py:Emva1288.xml"]}
{"id": "C108", "title": "The black level does not matter", "statement": "Adding the same constant to every grey value of every image of a measurement (a different black level) changes none of the results of an evaluation.", "quantifier": "every complete measurement and every constant that keeps the grey values within 16 bits", "why_tests_cant": "all pixels of all images at once", "anchors": ["src/emva1288/process/__init__.py:Emva1288", "src/emva1288/process/data.py:Data1288", "src/emva1288/process/results.py:Results1288"]}
{"id": "C109", "title": "Scaled grey values scale the results", "statement": "Multiplying every grey value of a measurement by the same factor (images left-aligned in a wider word) multiplies the grey-value figures R, K and sigma_y_dark by it and the spatial variances by its square, and leaves all others (quantum efficiency, saturation capacity, SNR, sensitivity threshold, dynamic range, DSNU, PRNU, linearity) unchanged.", "quantifier": "every complete measurement and every positive integer factor that keeps the grey values within 16 bits", "why_tests_cant": "all pixels of all images and every factor", "anchors": ["src/emva1288/process/__init__.py:Emva1288", "src/emva1288/process/data.py:Data1288", "src/emva1288/process/results.py:Results1288"]}
{"id": "C110", "title": "The results follow the units of the descriptor", "statement": "Giving the photon counts in another unit (or for another area) multiplies responsivity and quantum efficiency by the inverse of that factor and sensitivity threshold and saturation capacity in photons by the factor; giving the exposure times in another unit divides the dark currents by the factor. Nothing else changes.", "quantifier": "every complete measurement and every positive factor for photon counts and exposure times", "why_tests_cant": "every measurement and every pair of factors", "anchors": ["src/emva1288/process/__init__.py:Emva1288", "src/emva1288/process/data.py:Data1288", "src/emva1288/process/results.py:Results1288"]}
{"id": "C111", "title": "The order of rows and columns does not matter", "statement": "Mirroring all images of a measurement, turning them by 180 degrees, or bringing rows and columns into any other order changes none of the results.", "quantifier": "every complete measurement, every permutation of the rows and of the columns", "why_tests_cant": "all permutations", "anchors": ["src/emva1288/process/__init__.py:Emva1288", "src/emva1288/process/data.py:Data1288", "src/emva1288/process/results.py:Results1288"]}
{"id": "C112", "title": "Turned images exchange rows and columns", "statement": "Turning or transposing all images of a measurement exchanges the row and the column figures (s_2_y_row and s_2_y_col, DSNU1288_row and DSNU1288_col, PRNU1288_row and PRNU1288_col) and changes nothing else.", "quantifier": "every complete measurement of any size, transposition combined with any permutation of rows and columns", "why_tests_cant": "all images", "anchors": ["src/emva1288/process/__init__.py:Emva1288", "src/emva1288/process/data.py:Data1288", "src/emva1288/process/results.py:Results1288"]}
{"id": "C113", "title": "Evaluating random image files rarely gives a wrong gain or responsivity", "statement": "Whoever takes the images of a descriptor with a linear (or simulated) camera and evaluates the descriptor gets a result object whose gain and responsivity are wrong by more than the bounds of C101 only with a probability that falls with the number of pixels. For every error and probability there is a number of pixels that suffices.", "quantifier": "every descriptor text, every probability space over the image files, noise law with bounded fourth moments, order of the series, number of points and of pixels", "why_tests_cant": "a probability statement over all noise laws and descriptors; a test sees single draws", "anchors": ["src/emva1288/process/__init__.py:Emva1288", "src/emva1288/process/data.py:Data1288", "src/emva1288/process/results.py:Results1288"]}
{"id": "C114", "title": "Rounding does not change which points are used", "statement": "The saturation index, the 70 % limit of the sensitivity fits and the 5 % and 95 % limits of the linearity fit select the points that the exact signals select, and the responsivity is the exact one up to rounding.", "quantifier": "every data set of image pairs of up to 16 bits and 2^29 pixels, every order in which NumPy adds the pixels", "why_tests_cant": "needs a bound over all images, orders of addition and roundings", "anchors": ["src/emva1288/process/data.py:Data1288._get_temporal", "src/emva1288/process/results.py:Results1288.index_u_ysat", "src/emva1288/process/results.py:Results1288.index_sensitivity_max", "src/emva1288/process/results.py:Results1288.index_linearity_min", "src/emva1288/process/results.py:Results1288.index_linearity_max", "src/emva1288/process/results.py:Results1288.R"]}
{"id": "C115", "title": "A wrong DSNU or PRNU is unlikely with many pixels", "statement": "When the pixels of a bright and a dark series are independent, the reported DSNU and PRNU differ from those of the fixed pattern by more than a stated bound only with a probability that is stated and that falls like one over the number of pixels; for series of the simulated camera they approach the DSNU and PRNU of its settings.", "quantifier": "every probability law of the images with bounded fourth moments, every fixed pattern, number of pixels and number of images from two", "why_tests_cant": "a statement about probabilities over all images and all sensor sizes", "anchors": ["src/emva1288/process/data.py:Data1288._get_spatial", "src/emva1288/process/results.py:Results1288.s_2_y", "src/emva1288/process/results.py:Results1288.s_2_y_dark", "src/emva1288/process/results.py:Results1288.DSNU1288_DN", "src/emva1288/process/results.py:Results1288.DSNU1288", "src/emva1288/process/results.py:Results1288.PRNU1288"]}
{"id": "C116", "title": "Small errors change every temporal figure little, and big errors are unlikely", "statement": "When every mean and variance of a measurement of a linear sensor is wrong by at most e, then quantum efficiency, inverse gain, dark noise in grey values and electrons, sensitivity threshold, saturation capacity, maximal signal-to-noise ratio, dynamic range and dark current are numbers and differ from those of the sensor by at most stated bounds that vanish with the errors; the saturation point in photons is exact. When the images are random, a measurement evaluated from its files violates any of these bounds only with a probability that falls like one over the number of pixels.", "quantifier": "every linear sensor with clearly separated points, every error bound, every exposure plan and every probability law of the images with bounded fourth moments", "why_tests_cant": "a statement over all measurement errors and about probabilities over all images", "anchors": ["src/emva1288/process/results.py:Results1288.QE", "src/emva1288/process/results.py:Results1288.inverse_K", "src/emva1288/process/results.py:Results1288.sigma_y_dark", "src/emva1288/process/results.py:Results1288.sigma_d", "src/emva1288/process/results.py:Results1288.u_p_min", "src/emva1288/process/results.py:Results1288.u_e_min", "src/emva1288/process/results.py:Results1288.u_p_sat", "src/emva1288/process/results.py:Results1288.u_e_sat", "src/emva1288/process/results.py:Results1288.SNR_max", "src/emva1288/process/results.py:Results1288.DR", "src/emva1288/process/results.py:Results1288.u_I_mean_DN", "src/emva1288/process/results.py:Results1288.u_I_mean", "src/emva1288/process/results.py:Results1288.u_I_var_DN", "src/emva1288/process/results.py:Results1288.u_I_var", "src/emva1288/process/routines.py:LinearB"]}
{"id": "C117", "title": "A nearly linear sensor gets a small linearity error", "statement": "The smallest reported linearity error is never positive and the largest never negative. If any straight line misses each of the N signals between 5 and 95 % of saturation by at most the part d of the signal, with d times the root of N below 1, then both errors are reported and lie between -100 s/(1+s) and 100 s/(1-s) percent, where s is d times the root of N. When the means of a linear sensor are wrong by at most e this bounds the errors through e and the smallest signal, and for random images a measurement evaluated from its files exceeds the bounds only with a probability that falls like one over the number of pixels.", "quantifier": "every measurement with two different numbers of photons in the range, every line, every error bound and every probability law of the images with bounded fourth moments", "why_tests_cant": "a statement over all data, all lines and about probabilities over all images", "anchors": ["src/emva1288/process/results.py:Results1288.linearity", "src/emva1288/process/results.py:Results1288.LE_min", "src/emva1288/process/results.py:Results1288.LE_max", "src/emva1288/process/results.py:Results1288.index_linearity_min", "src/emva1288/process/results.py:Results1288.index_linearity_max"]}
{"id": "C118", "title": "Double precision hardly changes the derived figures", "statement": "Every figure derived from the responsivity, the gain, the dark variance, the saturation point, the dark slopes and the spatial variances is computed in double precision. If these inputs are right up to m units of 2^-53, and neither they nor the figures are astronomically large or small, no operation overflows or meets a zero divisor, and each figure is right up to a stated small number of units: 2m+5 for the quantum efficiency, m+5 for the dark noise, 4m+14 for the sensitivity threshold, 3m+9 for the largest signal-to-noise ratio, 5m+16 for the dynamic range, 2m+5 for DSNU and 2m+8 for PRNU; the dark noise in electrons, which subtracts the quantization noise, 5m+30. The decibel values are right to about 10^-12 dB. The lower limit of the dark noise cannot be decided differently in a way that matters.", "quantifier": "every measurement, all inputs between 2^-100 and 2^100, every m up to 100, and every square and logarithm function that is accurate to one or two units", "why_tests_cant": "a statement over all real inputs and all admissible library functions; a test sees single values", "anchors": ["src/emva1288/process/results.py:Results1288.inverse_K", "src/emva1288/process/results.py:Results1288.QE", "src/emva1288/process/results.py:Results1288.sigma_y_dark", "src/emva1288/process/results.py:Results1288.sigma_d", "src/emva1288/process/results.py:Results1288.u_p_min", "src/emva1288/process/results.py:Results1288.u_e_min", "src/emva1288/process/results.py:Results1288.u_e_sat", "src/emva1288/process/results.py:Results1288.SNR_max", "src/emva1288/process/results.py:Results1288.SNR_max_dB", "src/emva1288/process/results.py:Results1288.SNR_max_bit", "src/emva1288/process/results.py:Results1288.inverse_SNR_max", "src/emva1288/process/results.py:Results1288.DR", "src/emva1288/process/results.py:Results1288.DR_dB", "src/emva1288/process/results.py:Results1288.u_I_mean", "src/emva1288/process/results.py:Results1288.u_I_mean_DN", "src/emva1288/process/results.py:Results1288.u_I_var", "src/emva1288/process/results.py:Results1288.u_I_var_DN", "src/emva1288/process/results.py:Results1288.DSNU1288", "src/emva1288/process/results.py:Results1288.PRNU1288"]}
{"id": "C119", "title": "Double precision hardly changes a whole evaluation", "statement": "Evaluating a complete measurement in double precision, from the descriptor and the image files to the numbers handed to the results, succeeds whenever exact arithmetic would, with the same exposure times and photons; every mean and variance differs from the exact one by at most 2^(2b-50) grey values for b-bit images, and the spatial averages by stated bounds, however NumPy orders its additions. Pairs of equal images have exactly the variance 0. For random images of a linear sensor, the probability that gain, responsivity, linearity error, dark current or any derived temporal figure is further off than the stated bound is the one for exact arithmetic, with the errors enlarged by that tiny amount.", "quantifier": "every descriptor and complete set of image files of at most 16 bits, every order of the additions and of the traversals, every probability law of the images with uncorrelated pixels", "why_tests_cant": "a statement over all images, all orders of summation and all probability laws; tests use a few images and one order", "anchors": ["src/emva1288/process/__init__.py:Emva1288", "src/emva1288/process/loader.py:LoadImageData._load_data", "src/emva1288/process/loader.py:LoadImageData._get_imgs_data", "src/emva1288/process/data.py:Data1288._get_temporal", "src/emva1288/process/data.py:Data1288._get_spatial"]}
{"id": "C120", "title": "Evaluating a generated data set recovers the simulated camera", "statement": "Generating a data set from a simulated camera whose electrons and noise are random and evaluating the files it writes (descriptor and images) completes and, but for a probability that falls as one over the number of pixels, returns the overall gain and the responsivity of the simulated camera up to the stated errors. The photons the descriptor lists, printed with three decimals, are within 0.0006 of the camera's mean photons, and this enters the errors as a stated slack: the light need only be stated approximately.", "quantifier": "every camera up to 16 bits, every list of points that makes a complete set, every probability law of the deliveries with uncorrelated pixels and bounded fourth moments, every order of the traversals", "why_tests_cant": "a statement over all probability laws and image sizes about a whole run through files; a test runs a few random seeds and accepts a tolerance", "anchors": ["src/emva1288/camera/dataset_generator.py:DatasetGenerator.run_test", "src/emva1288/camera/dataset_generator.py:DatasetGenerator._get_descriptor_line", "src/emva1288/camera/camera.py:Camera.grab", "src/emva1288/process/__init__.py:Emva1288", "src/emva1288/process/results.py:Results1288.overall_system_gain_K", "src/emva1288/process/results.py:Results1288.R"]}
{"id": "C121", "title": "All temporal figures of a generated data set, also in double precision", "statement": "Evaluating the files generated from a simulated camera yields, but for a probability that falls as one over the number of pixels, a quantum efficiency, dark noise, absolute sensitivity threshold, saturation capacity, signal-to-noise ratio, dynamic range, dark current and linearity error within stated bounds of those of the simulated camera. A camera simulated with quantum efficiency eta and gain K obeys the linear law in the listed photons up to the printing of the photons and the quantisation. The bounds for the gain and the figures also hold when the evaluation is carried out in double precision, with the error of the variances added.", "quantifier": "every camera up to 16 bits, every list of points that makes a complete set, every probability law of the deliveries with uncorrelated pixels and bounded fourth moments, every order of the traversals, every order of summation", "why_tests_cant": "a statement over all probability laws, image sizes and roundings about a whole run through files; a test runs a few random seeds and accepts a tolerance", "anchors": ["src/emva1288/camera/dataset_generator.py:DatasetGenerator.run_test", "src/emva1288/camera/camera.py:Camera.grab", "src/emva1288/process/__init__.py:Emva1288", "src/emva1288/process/results.py:Results1288.QE", "src/emva1288/process/results.py:Results1288.sigma_d", "src/emva1288/process/results.py:Results1288.u_p_min", "src/emva1288/process/results.py:Results1288.DR", "src/emva1288/process/results.py:Results1288.linearity", "src/emva1288/process/results.py:Results1288.u_I_mean"]}
{"id": "C122", "title": "Fixed pattern figures of a data set, from files and from a generated run", "statement": "Evaluating a complete data set whose spatial image series are random with independent pixels yields, but for a probability that falls as one over the number of pixels, the DSNU in grey values and the PRNU of the true fixed patterns within stated bounds; if the temporal images follow the linear law, the DSNU in electrons too. The same holds for the files that the generator writes for a camera, and for a simulated camera the figures are those of its dark signal non-uniformity and of its light per pixel.", "quantifier": "every complete data set and every camera up to 16 bits with every list of points that makes a complete set, every probability law of the images with independent pixels and bounded fourth moments, every number of spatial images, every order of the traversals", "why_tests_cant": "a statement over all probability laws, image sizes and patterns about a whole run through files; a test runs a few random seeds and accepts a tolerance", "anchors": ["src/emva1288/camera/dataset_generator.py:DatasetGenerator.run_test", "src/emva1288/camera/camera.py:Camera.grab", "src/emva1288/process/__init__.py:Emva1288", "src/emva1288/process/loader.py:LoadImageData", "src/emva1288/process/data.py:Data1288", "src/emva1288/process/results.py:Results1288.DSNU1288", "src/emva1288/process/results.py:Results1288.DSNU1288_DN", "src/emva1288/process/results.py:Results1288.PRNU1288"]}
{"id": "C123", "title": "Row, column and pixel variances recover the parts of a sensor", "statement": "For a sensor whose pixels vary with their row, with their column, on their own and from image to image, all independently, the reported row, column and pixel variances are on average the variances of these parts.", "quantifier": "every probability law of the images with row, column, pixel and image parts that are uncorrelated, every number of images, every image size (3x3 and larger for the bound), every mean image", "why_tests_cant": "a statement about expected values over all probability laws and image sizes; a test sees a few random images and accepts a tolerance", "anchors": ["src/emva1288/process/data.py:Data1288._get_spatial_data", "src/emva1288/process/results.py:Results1288.s_2_y_row", "src/emva1288/process/results.py:Results1288.s_2_y_col", "src/emva1288/process/results.py:Results1288.s_2_y_pixel", "src/emva1288/process/results.py:Results1288.s_2_y_row_dark", "src/emva1288/process/results.py:Results1288.s_2_y_col_dark", "src/emva1288/process/results.py:Results1288.s_2_y_pixel_dark"]}
{"id": "C124", "title": "Pixel DSNU and PRNU of a line sensor", "statement": "If the images have a single row of pixels (a line sensor), the reported row, column and pixel variances are parts of the spatial variance, and the pixel DSNU and PRNU are numbers.", "quantifier": "every series of at least two images of one row of at least two pixels, bright and dark", "why_tests_cant": "quantifies over all images of one row; the tests use one camera with many rows", "anchors": ["src/emva1288/process/data.py:Data1288._get_spatial_data", "src/emva1288/process/results.py:Results1288.s_2_y_pixel", "src/emva1288/process/results.py:Results1288.s_2_y_pixel_dark", "src/emva1288/process/results.py:Results1288.DSNU1288_pixel", "src/emva1288/process/results.py:Results1288.PRNU1288_pixel"]}
{"id": "C125", "title": "Fixed pattern figures of a data set in double precision", "statement": "Evaluating a complete data set in double precision, whatever the order in which sums are added, still yields DSNU and PRNU of the true fixed patterns with the probability of the exact evaluation, within bounds enlarged by (n+3) 2^(2b-48) for pixels of b bits and chains of n additions; with the linear law for the temporal images the DSNU in electrons too. The same holds for the files that the generator writes, and for a simulated camera the figures are those of its settings. Any probability of a wrong figure is undercut with enough pixels.", "quantifier": "every complete data set and generated run of pixels up to 16 bits, every probability law of the images with independent pixels and bounded fourth moments, every number of spatial images, every order of additions, every order of the traversals", "why_tests_cant": "a statement over all probability laws, image sizes, patterns and orders of addition about rounding and chance together; a test runs one machine and a few random seeds", "anchors": ["src/emva1288/process/__init__.py:Emva1288", "src/emva1288/process/loader.py:LoadImageData", "src/emva1288/process/data.py:Data1288", "src/emva1288/process/results.py:Results1288.s_2_y", "src/emva1288/process/results.py:Results1288.s_2_y_dark", "src/emva1288/process/results.py:Results1288.DSNU1288", "src/emva1288/process/results.py:Results1288.DSNU1288_DN", "src/emva1288/process/results.py:Results1288.PRNU1288", "src/emva1288/camera/dataset_generator.py:DatasetGenerator.run_test"]}
{"id": "C126", "title": "LaTeX names tell the results apart", "statement": "In the results of an evaluation, also in the exported XML file, two different quantities have different LaTeX names, so the name can be used to refer to the value in a report.", "quantifier": "every evaluation, every pair of documented quantities", "why_tests_cant": "quantifies over all pairs of documented quantities and all their values; no test looks at the metadata", "anchors": ["src/emva1288/process/results.py:Results1288", "src/emva1288/process/routines.py:cls_1288_info", "src/emva1288/process/routines.py:obj_to_dict", "src/emva1288/process/results.py:Results1288.u_p_min_area", "src/emva1288/process/results.py:Results1288.u_I_var_DN"]}
{"id": "C127", "title": "Accuracy of the row, column and pixel variances", "statement": "The row, column and pixel variances of a series of images, computed in double precision, differ from the values the formulas of the standard give for these images by at most 4 hw/(hw-h-w) (d+3) 2^(2b-49) (h rows, w columns, b bits, chains of at most d additions), the bright and the dark ones alike, for a whole measurement as for one series; the three add up to the spatial variance up to four times this; for images of two by two pixels, and no others, asking for them fails with a division by zero.", "quantifier": "every series of 2 to 1000 equally sized images of up to 16 bits and 2^29 pixels with more pixels than rows and columns together, every order of the additions", "why_tests_cant": "holds for all images and all orders of summation; a test compares a few values with a tolerance chosen by hand", "anchors": ["src/emva1288/process/results.py:Results1288.s_2_y_col", "src/emva1288/process/results.py:Results1288.s_2_y_row", "src/emva1288/process/results.py:Results1288.s_2_y_pixel", "src/emva1288/process/results.py:Results1288.s_2_y", "src/emva1288/process/data.py:Data1288._get_spatial_data"]}
{"id": "C128", "title": "The units shown are the units of the results", "statement": "Every result shown with a unit (in the dictionary of results, on the printed page and in the XML file) has that unit: stating the same measurement with other units for grey values, photon counts, exposure times or pixel area multiplies the result by exactly the factor the text of its unit gives (DN, p, s, um^2; electrons, per cent, decibels and bits do not change). Only the quantum efficiency, whose per cent are electrons per photon, changes with the photons; for the dark noise the restrictions of C109 apply.", "quantifier": "every complete measurement, every change of units, every documented result", "why_tests_cant": "the factor is a statement about pairs of evaluations with any data; tests check values, never the unit texts", "anchors": ["src/emva1288/process/results.py:Results1288", "src/emva1288/process/routines.py:cls_1288_info", "src/emva1288/process/routines.py:obj_to_dict", "src/emva1288/process/data.py:Data1288"]}
{"id": "C129", "title": "A linearity error needs two illumination levels", "statement": "The linearity errors reported in double precision are the extremes of the deviations of the points between 5 and 95 % of saturation, NaN if one of these is NaN, and a ValueError is raised exactly when no point lies there. If all points there have the same number of photons, no line is determined and no linearity error is reported.", "quantifier": "every data set, every order in which NumPy adds the terms of the fit", "why_tests_cant": "the outcome of 0/0 after rounding changes from grey value to grey value; a test fixes a few", "anchors": ["src/emva1288/process/results.py:Results1288.linearity", "src/emva1288/process/results.py:Results1288.LE_min", "src/emva1288/process/results.py:Results1288.LE_max", "src/emva1288/process/results.py:Results1288.index_linearity_min", "src/emva1288/process/results.py:Results1288.index_linearity_max"]}
{"id": "C130", "title": "Linearity errors are accurate when the illumination levels are spread", "statement": "The linearity errors computed in double precision, and the deviation of each point between 5 and 95 % of saturation whose fitted value is at least half its signal, differ from those of exact arithmetic by at most 20000 (2n+4j+13) n kappa^2 2^-53 per cent, where n is the number of points there, j 2^-53 the largest relative rounding error of their signals and 1/kappa a lower bound of the squared sine of the angle between the two columns of the weighted fit. For a measurement given as image pairs of b bits, j is 4 times full scale over the smallest signal there. For three levels with exact signals and kappa = 3 this is below 10^-8 per cent.", "quantifier": "every measurement with at most 200 points in the range, photons and signals there between 2^-30 and 2^30, signals right up to fewer than 100 units of 2^-53, every kappa for which the bound is below 100 %, every order of the additions; from image pairs: b up to 16, variances and signals not within rounding of the thresholds that select the points", "why_tests_cant": "the fit subtracts nearly equal products; how much precision is lost depends on all points at once", "anchors": ["src/emva1288/process/results.py:Results1288.linearity", "src/emva1288/process/results.py:Results1288.LE_min", "src/emva1288/process/results.py:Results1288.LE_max"]}
{"id": "C131", "title": "DSNU and PRNU computed from images are accurate", "statement": "From stacks of images, the DSNU (whole, by rows, columns, pixels) computed in double precision differs from that of exact arithmetic by at most the part e/v + (2m+8) 2^-53, if the exact variance v is at least 4e, where e is the error bound of the spatial variances (C127) and m 2^-53 the relative error of the gain; it is NaN as the exact one if v is below -e. The PRNU differs by at most the part 2e/D + 4g/M + 12 2^-53, where D and M are the differences of bright and dark variances and means and g the error bound of the means (D at least 8e, M at least 8g); it is NaN as the exact one if D is at most -8e.", "quantifier": "every pair of bright and dark stacks of images of b bits with more pixels than rows and columns together, every order of the additions, every gain and every variance and mean difference between 2^-100 and 2^100 in size, m up to 100", "why_tests_cant": "how the rounding of millions of additions ends up in the square root of a difference, and when it turns a number into NaN, cannot be seen from examples", "anchors": ["src/emva1288/process/results.py:Results1288.DSNU1288", "src/emva1288/process/results.py:Results1288.DSNU1288_row", "src/emva1288/process/results.py:Results1288.PRNU1288", "src/emva1288/process/results.py:Results1288.PRNU1288_row", "src/emva1288/process/data.py:Data1288._get_spatial"]}
