(** The class Results1288 as [cls_1288_info] sees it: its functions and properties with
    their doc strings, character by character (src/emva1288/process/results.py; the line
    of each is given).  Not listed: the attributes Python adds to every class
    (__module__, __doc__, __dict__, __weakref__), whose doc strings hold no
    ".. emva1288::".  Definitions only. *)
From Coq Require Import Ascii String List.
From Verif Require Import Base_Prelude Base_Str.
Import ListNotations.

Definition results_cls : list (str * option str) :=
  [(** results.py:29 *)
   (lit "__init__", Some (lit "Results computation init method.

        This class uses a :class:`python:logging.Logger` object to display
        informations for users.

        Parameters
        ----------
        data : dict
               The data dictionary to compute the results from.
        pixel_area : float, optional
                     The area of one pixel in um^2.
        index_u_ysat : int, optional
                       The index of the u_y array at which we consider
                       that the camera saturates. This is used if forcing
                       the saturation point is necessary.
        loglevel : int, optional
                   The level for the :class:`python:logging.Logger` object.
        "));
   (** results.py:71 *)
   (lit "s2q", Some (lit "Quantification noise."));
   (** results.py:76 *)
   (lit "index_start", Some (lit "The array's starting index.

        .. emva1288::
            :Section: info
            :Short: Start array index
        "));
   (** results.py:86 *)
   (lit "index_u_ysat", Some (lit "Index of saturation.

        .. emva1288::
            :Section: sensitivity
            :Short: Saturation index
        "));
   (** results.py:117 *)
   (lit "index_sensitivity_max", Some (lit "Index for linear fits in sensitivity part of the standard
        (70% of saturation).

        .. emva1288::
            :Section: sensitivity
            :Short: Sensitivity fit maximum index
        "));
   (** results.py:131 *)
   (lit "index_sensitivity_min", Some (lit "Sensitivity minimum index.

        Index for linear fits in sensitivity part of the standard
        (70% of saturation)

        .. emva1288::
            :Section: sensitivity
            :Short: Sensitivity fit minimum index
        "));
   (** results.py:144 *)
   (lit "R", Some (lit "Responsivity.

        Slope of the (u_y - u_y_dark) Vs u_p. Fit with offset = 0
        Uses the :func:`~emva1288.process.routines.LinearB0` function
        to make the fit.

        .. emva1288::
            :Section: sensitivity
            :Short: Responsivity
            :Symbol: R
            :Unit: DN/p
        "));
   (** results.py:169 *)
   (lit "K", Some (lit "Overall system gain.

        Slope of (s2_y - s2_y_dark) Vs (u_y - u_y_dark). Fit with
        offset = 0. Uses the :func:`~emva1288.process.routines.LinearB0`
        to make the fit.

        .. emva1288::
            :Section: sensitivity
            :Short: System gain
            :Symbol: K
            :Unit: $DN/e^-$
            :LatexName: K
        "));
   (** results.py:194 *)
   (lit "inverse_K", Some (lit "Inverse of overall system gain.

        .. emva1288::
            :Section: sensitivity
            :Short: Inverse of overall system gain
            :Symbol: 1/K
            :Unit: $e^-/DN$
            :LatexName: InvK
        "));
   (** results.py:208 *)
   (lit "QE", Some (lit "Quantum efficiency.

        It is retrieved as the ratio of the responsivity to the overall
        system gain.

        .. emva1288::
            :Section: sensitivity
            :Short: Quantum efficiency
            :Symbol: $\eta$
            :Unit: \%
            :LatexName: QE
        "));
   (** results.py:225 *)
   (lit "sigma_y_dark", Some (lit "Temporal Dark Noise.

        Uses :func:`~emva1288.process.routines.LinearB` to make the fit.

        .. emva1288::
            :Section: sensitivity
            :Short: Temporal Dark Noise
            :Symbol: $\sigma_{y.dark}$
            :Unit: DN
            :LatexName: SigmaYDark
        "));
   (** results.py:254 *)
   (lit "sigma_d", Some (lit "Temporal Dark Noise.

        .. emva1288::
            :Section: sensitivity
            :Short: Temporal Dark Noise
            :Symbol: $\sigma_d$
            :Unit: $e^-$
            :LatexName: SigmaDark
        "));
   (** results.py:268 *)
   (lit "u_p_min", Some (lit "Absolute sensitivity threshold.

        .. emva1288::
            :Section: sensitivity
            :Short: Absolute sensitivity threshold
            :Symbol: $\mu_{p.min}$
            :Unit: $p$
            :LatexName: UPMin
        "));
   (** results.py:282 *)
   (lit "u_p_min_area", Some (lit "Sensitivity threshold per pixel area.

        Returns None if pixel area is not defined or 0.

        .. emva1288::
            :Section: sensitivity
            :Short: Sensitivity threshold
            :Symbol: $\mu_{p.min.area}$
            :Unit: $p/\mu m^2$
            :LatexName: UPMin
        "));
   (** results.py:301 *)
   (lit "u_e_min", Some (lit "Sensitivity threshold.

        .. emva1288::
            :Section: sensitivity
            :Short: Sensitivity threshold
            :Symbol: $\mu_{e.min}$
            :Unit: $e^-$
            :LatexName: UEMin
        "));
   (** results.py:314 *)
   (lit "u_e_min_area", Some (lit "Sensitivity threshold per pixel area.

        Returns None if the pixel area is not defined or 0.

        .. emva1288::
            :Section: sensitivity
            :Short: Sensitivity threshold
            :Symbol: $\mu_{e.min.area}$
            :Unit: $e^-/\mu m^2$
            :LatexName: UEMin
        "));
   (** results.py:332 *)
   (lit "u_p_sat", Some (lit "Saturation Capacity.

        .. emva1288::
            :Section: sensitivity
            :Short: Saturation Capacity
            :Symbol: $\mu_{p.sat}$
            :Unit: $p$
            :LatexName: UPSat
        "));
   (** results.py:346 *)
   (lit "u_p_sat_area", Some (lit "Saturation Capacity per pixel area.

        Returns None if pixel area is not defined or 0.

        .. emva1288::
            :Section: sensitivity
            :Short: Saturation Capacity
            :Symbol: $\mu_{p.sat.area}$
            :Unit: $p/\mu m^2$
            :LatexName: UPSat
        "));
   (** results.py:365 *)
   (lit "u_e_sat", Some (lit "Saturation Capacity.

        Number of electrons at saturation.

        .. emva1288::
            :Section: sensitivity
            :Short: Saturation Capacity
            :Symbol: $\mu_{e.sat}$
            :Unit: $e^-$
            :LatexName: UESat
        "));
   (** results.py:381 *)
   (lit "u_e_sat_area", Some (lit "Saturation Capacity per pixel area.

        Returns None if pixel area is not defined or 0.

        .. emva1288::
            :Section: sensitivity
            :Short: Saturation Capacity
            :Symbol: $\mu_{e.sat.area}$
            :Unit: $e^-/\mu m^2$
            :LatexName: UESat
        "));
   (** results.py:400 *)
   (lit "SNR_max", Some (lit "Maximum Signal-to-Noise Ratio.

        .. emva1288::
            :Section: sensitivity
            :Short: Signal-to-Noise Ratio
            :Symbol: $SNR_{max}$
            :LatexName: SNRMax
        "));
   (** results.py:412 *)
   (lit "SNR_max_dB", Some (lit "Maximum Signal to Noise Ratio in Db.

        .. emva1288::
            :Section: sensitivity
            :Short: Maximum Signal to Noise Ratio in Db
            :Symbol: $SNR_{max.dB}$
            :Unit: dB
            :LatexName: SNRMaxDB
        "));
   (** results.py:425 *)
   (lit "SNR_max_bit", Some (lit "Maximum Signal to Noise Ratio in Bits.

        .. emva1288::
            :Section: sensitivity
            :Short: Maximum Signal to Noise Ratio in Bits
            :Symbol: $SNR_{max.bit}$
            :Unit: bit
            :LatexName: SNRMaxBit
        "));
   (** results.py:438 *)
   (lit "inverse_SNR_max", Some (lit "Inverse Maximum Signal to Noise Ratio.

        .. emva1288::
            :Section: sensitivity
            :Short: Inverse Maximum Signal to Noise Ratio
            :Symbol: $SNR_{max}^{-1}$
            :Unit: \%
            :LatexName: InvSNRMax
        "));
   (** results.py:452 *)
   (lit "DR", Some (lit "Dynamic Range.

        Defined as the saturation capacity divided by the absolute sensitivity
        threshold. The greater this number is, the greater the operational
        range of a camera (between the dark noise level and the saturation
        level).

        .. emva1288::
            :Section: sensitivity
            :Short: Dynamic Range
            :Symbol: DR
            :LatexName: DR
        "));
   (** results.py:469 *)
   (lit "DR_dB", Some (lit "Dynamic Range in deciBels.

        It is defined as 20 * log_10 ( Dynamic Range ).

        .. emva1288::
            :Section: sensitivity
            :Short: Dynamic Range
            :Symbol: $DR_{dB}$
            :Unit: dB
            :LatexName: DRDB
        "));
   (** results.py:485 *)
   (lit "index_linearity_min", Some (lit "Linearity fit minimun index.

        Minimum index for linear fit (5% of saturation).

        .. emva1288::
            :Section: linearity
            :Short: Linearity fit minimun index
        "));
   (** results.py:500 *)
   (lit "index_linearity_max", Some (lit "Linearity fit maximum index.

        Maximum index for linear fit (95% of saturation).

        .. emva1288::
            :Section: linearity
            :Short: Linearity fit maximum index
        "));
   (** results.py:514 *)
   (lit "linearity", Some (lit "Returns a dictionary containing linearity information.

        It fits the mean digital signal in function of the mean photon count
        (Linear fit) using the EMVA1288 standard for linear fit.

        Returns
        -------
        dict : Linearity dictionary.
               The keys are:

               - *'fit_slope'* : The slope of the linear fit.
               - *'fit_offset'* : The offset of the fit.
               - *'relative_deviation'* : The relative deviation of the real
                 data from the fit (in %) for the whole array.
               - *'linearity_error_min'* : The minimal value of the
                 relative deviation.
               - *'linearity_error_max'* : The maximal value of the
                 relative deviation.
        "));
   (** results.py:572 *)
   (lit "LE_min", Some (lit " Min Linearity error.

        .. emva1288::
            :Section: linearity
            :Short: Min Linearity error
            :Symbol: $LE_{min}$
            :Unit: \%
            :LatexName: LEMin
        "));
   (** results.py:586 *)
   (lit "LE_max", Some (lit "Max Linearity error.

        .. emva1288::
            :Section: linearity
            :Short: Max Linearity error
            :Symbol: $LE_{max}$
            :Unit: \%
            :LatexName: LEMax
        "));
   (** results.py:600 *)
   (lit "u_I_var_DN", Some (lit "Dark Current from variance.

        The dark current from variance (in DN/s) is the slope of the dark
        signal variance as a function of the exposure time divided by the
        system gain. Returns NaN if the slope is negative.

        .. emva1288::
            :Section: dark_current
            :Short: Dark Current from variance
            :Symbol: $\mu_{I.var.DN}$
            :Unit: $DN/s$
            :LatexName: UIVar
        "));
   (** results.py:626 *)
   (lit "u_I_var", Some (lit "Dark Current from variance.

        The dark current from variance (in e-/s) is the dark current from
        variance (in DN/s) divided by the system gain.
        Returns NaN if the fit slope is negative.

        .. emva1288::
            :Section: dark_current
            :Short: Dark Current from variance
            :Symbol: $\mu_{I.var}$
            :Unit: $e^-/s$
            :LatexName: UIVar
        "));
   (** results.py:647 *)
   (lit "u_I_mean_DN", Some (lit "Dark Current from mean.

        The dark current from mean is the slope of the dark signal mean in
        function of the exposure time.
        Returns NaN if the number of different exposure times is less than 3.

        .. emva1288::
            :Section: dark_current
            :Short: Dark Current from mean
            :Symbol: $\mu_{I.mean.DN}$
            :Unit: $DN/s$
        "));
   (** results.py:670 *)
   (lit "u_I_mean", Some (lit "Dark Current from mean.

        The dark current from mean is the slope of the dark signal mean in
        function of the exposure times divided by the overall system gain.
        Returns NaN if the number of different exposure times is less than 3.

        .. emva1288::
            :Section: dark_current
            :Short: Dark Current from mean
            :Symbol: $\mu_{I.mean}$
            :Unit: $e^-/s$
        "));
   (** results.py:689 *)
   (lit "sigma_2_y_stack", Some (lit "Temporal variance stack.

        Mean value of the bright variance image.

        .. emva1288::
            :Section: spatial
            :Short: Temporal variance stack
            :Symbol: $\sigma^2_{y.stack}$
            :Unit: DN2
        "));
   (** results.py:704 *)
   (lit "sigma_2_y_stack_dark", Some (lit "Temporal variance stack dark.

        Mean value of the dark variance image.

        .. emva1288::
            :Section: spatial
            :Short: Temporal variance stack dark
            :Symbol: $\sigma^2_{y.stack.dark}$
            :Unit: DN2
        "));
   (** results.py:719 *)
   (lit "s_2_y_measured", Some (lit "Spatial variance measure.

        Variance value of the bright variance image.

        .. emva1288::
            :Section: spatial
            :Short: Spatial variance measure
            :Symbol: $s^2_{y.measured}$
            :Unit: DN2
        "));
   (** results.py:735 *)
   (lit "s_2_y_measured_dark", Some (lit "Spatial variance measured dark.

        Variance value of the dark variance image.

        .. emva1288::
            :Section: spatial
            :Short: Spatial variance measured dark
            :Symbol: $s^2_{y.measured.dark}$
            :Unit: DN2
        "));
   (** results.py:749 *)
   (lit "s_2_y", Some (lit "Spatial variance from image.

        .. emva1288::
            :Section: spatial
            :Short: Spatial variance from image
            :Symbol: $s^2_{y}$
            :Unit: DN2
        "));
   (** results.py:762 *)
   (lit "s_2_y_dark", Some (lit "Spatial variance from image,

        .. emva1288::
            :Section: spatial
            :Short: Spatial variance from image
            :Symbol: $s^2_{y}$
            :Unit: DN2
        "));
   (** results.py:775 *)
   (lit "s_2_y_cav", Some (lit "Average of column spatial variance from image.

        .. emva1288::
            :Section: spatial
            :Short: Spatial variance from image
            :Symbol: $s^2_{y.cav}$
            :Unit: DN2
        "));
   (** results.py:787 *)
   (lit "s_2_y_cav_dark", Some (lit "Average of column spatial variance from image.

        .. emva1288::
            :Section: spatial
            :Short: Spatial variance from image
            :Symbol: $s^2_{y.cav.dark}$
            :Unit: DN2
        "));
   (** results.py:799 *)
   (lit "s_2_y_rav", Some (lit "Average of row spatial variance from image.

        .. emva1288::
            :Section: spatial
            :Short: Spatial variance from image
            :Symbol: $s^2_{y.rav}$
            :Unit: DN2
        "));
   (** results.py:811 *)
   (lit "s_2_y_rav_dark", Some (lit "Average of row spatial variance from image.

        .. emva1288::
            :Section: spatial
            :Short: Spatial variance from image
            :Symbol: $s^2_{y.rav.dark}$
            :Unit: DN2
        "));
   (** results.py:823 *)
   (lit "s_2_y_col", Some (lit "Column spatial variance from image.

        .. emva1288::
            :Section: spatial
            :Short: Spatial variance from image
            :Symbol: $s^2_{y.col}$
            :Unit: DN2
        "));
   (** results.py:840 *)
   (lit "s_2_y_col_dark", Some (lit "Column spatial variance from dark image.

        .. emva1288::
            :Section: spatial
            :Short: Spatial variance from image
            :Symbol: $s^2_{y.col.dark}$
            :Unit: DN2
        "));
   (** results.py:857 *)
   (lit "s_2_y_row", Some (lit "Row spatial variance from image.

        .. emva1288::
            :Section: spatial
            :Short: Spatial variance from image
            :Symbol: $s^2_{y.row}$
            :Unit: DN2
        "));
   (** results.py:874 *)
   (lit "s_2_y_row_dark", Some (lit "Row spatial variance from dark image.

        .. emva1288::
            :Section: spatial
            :Short: Spatial variance from image
            :Symbol: $s^2_{y.row.dark}$
            :Unit: DN2
        "));
   (** results.py:891 *)
   (lit "s_2_y_pixel", Some (lit "Pixel spatial variance from image.

        .. emva1288::
            :Section: spatial
            :Short: Spatial variance from image
            :Symbol: $s^2_{y.pixel}$
            :Unit: DN2
        "));
   (** results.py:907 *)
   (lit "s_2_y_pixel_dark", Some (lit "Pixel spatial variance from dark image.

        .. emva1288::
            :Section: spatial
            :Short: Spatial variance from image
            :Symbol: $s^2_{y.pixel.dark}$
            :Unit: DN2
        "));
   (** results.py:923 *)
   (lit "DSNU1288", Some (lit "DSNU overall.

        Dark Signal NonUniformity (in e^-) is defined as the standard
        deviation of the dark signal divided by the overall system gain.
        If the variance is negative, it will return NaN instead of an
        imaginary number.

        .. emva1288::
            :Section: spatial
            :Short: DSNU
            :Symbol: $DSNU_{1288}$
            :Unit: $e^-$
            :LatexName: DSNU
        "));
   (** results.py:943 *)
   (lit "DSNU1288_DN", Some (lit "DSNU in DN.

        Defined as the DSNU in e^- multiplied by the overall system gain.
        Returns NaN if the dark signal variance is negative.

        Returns
        -------
        float : The DSNU in DN.


        .. emva1288::
            :Section: spatial
            :Short: DSNU in DN
            :Symbol: $DSNU_{1288.DN}$
            :Unit: DN
            :LatexName: DSNUDN
        "));
   (** results.py:967 *)
   (lit "DSNU1288_row", Some (lit "DSNU in rows.

        Dark Signal NonUniformity (in e^-) is defined as the standard
        deviation of the dark signal divided by the overall system gain.
        If the variance is negative, it will return NaN instead of an
        imaginary number.

        .. emva1288::
            :Section: spatial
            :Short: DSNUrow
            :Symbol: $DSNU_{1288.row}$
            :Unit: $e^-$
            :LatexName: DSNUrow
        "));
   (** results.py:988 *)
   (lit "DSNU1288_col", Some (lit "DSNU in columns.

        Dark Signal NonUniformity (in e^-) is defined as the standard
        deviation of the dark signal divided by the overall system gain.
        If the variance is negative, it will return NaN instead of an
        imaginary number.

        .. emva1288::
            :Section: spatial
            :Short: DSNUcol
            :Symbol: $DSNU_{1288.col}$
            :Unit: $e^-$
            :LatexName: DSNUcol
        "));
   (** results.py:1009 *)
   (lit "DSNU1288_pixel", Some (lit "DSNU in pixel.

        Dark Signal NonUniformity (in e^-) is defined as the standard
        deviation of the dark signal divided by the overall system gain.
        If the variance is negative, it will return NaN instead of an
        imaginary number.

        .. emva1288::
            :Section: spatial
            :Short: DSNUpixel
            :Symbol: $DSNU_{1288.pixel}$
            :Unit: $e^-$
            :LatexName: DSNUpixel
        "));
   (** results.py:1030 *)
   (lit "PRNU1288", Some (lit "PRNU overall.

        Photo Response NonUniformity (in %) is defined as the square root of
        the difference between the spatial variance of a bright image (or from
        an average of bright images to remove temporal difformities) and the
        spatial variance of dark signal, divided by the difference between the
        mean of a bright image and the mean of a dark image.

        .. emva1288::
            :Section: spatial
            :Short: PRNU
            :Symbol: $PRNU_{1288}$
            :Unit: \%
            :LatexName: PRNU
        "));
   (** results.py:1051 *)
   (lit "PRNU1288_row", Some (lit "PRNU in row.

        Photo Response NonUniformity (in %) is defined as the square root of
        the difference between the spatial variance of a bright image (or from
        an average of bright images to remove temporal difformities) and the
        spatial variance of dark signal, divided by the difference between the
        mean of a bright image and the mean of a dark image.

        .. emva1288::
            :Section: spatial
            :Short: PRNUrow
            :Symbol: $PRNU_{1288.row}$
            :Unit: \%
            :LatexName: PRNUrow
        "));
   (** results.py:1072 *)
   (lit "PRNU1288_col", Some (lit "PRNU in column.

        Photo Response NonUniformity (in %) is defined as the square root of
        the difference between the spatial variance of a bright image (or from
        an average of bright images to remove temporal difformities) and the
        spatial variance of dark signal, divided by the difference between the
        mean of a bright image and the mean of a dark image.

        .. emva1288::
            :Section: spatial
            :Short: PRNUcol
            :Symbol: $PRNU_{1288.col}$
            :Unit: \%
            :LatexName: PRNUcol
        "));
   (** results.py:1093 *)
   (lit "PRNU1288_pixel", Some (lit "PRNU in pixel.

        Photo Response NonUniformity (in %) is defined as the square root of
        the difference between the spatial variance of a bright image (or from
        an average of bright images to remove temporal difformities) and the
        spatial variance of dark signal, divided by the difference between the
        mean of a bright image and the mean of a dark image.

        .. emva1288::
            :Section: spatial
            :Short: PRNUpixel
            :Symbol: $PRNU_{1288.pixel}$
            :Unit: \%
            :LatexName: PRNUpixel
        "));
   (** results.py:1114 *)
   (lit "histogram_PRNU", Some (lit "PRNU histogram.

        Uses the :func:`~emva1288.process.routines.high_pass_filter` function
        to filter the image and then uses the
        :func:`~emva1288.process.routines.Histogram1288` function
        to make the histogram.

        .. emva1288::
            :Section: defect_pixel
            :Short: PRNU histogram
        "));
   (** results.py:1140 *)
   (lit "histogram_PRNU_accumulated", Some (lit "Accumulated PRNU histogram.

        Uses the :func:`~emva1288.process.routines.high_pass_filter` function
        to filter the image and then uses the
        :func:`~emva1288.process.routines.Histogram1288` function
        to make the histogram.

        .. emva1288::
            :Section: defect_pixel
            :Short: accumulated PRNU histogram
        "));
   (** results.py:1172 *)
   (lit "histogram_DSNU", Some (lit "DSNU histogram.

        Uses the :func:`~emva1288.process.routines.Histogram1288` function
        to make the histogram.

        .. emva1288::
            :Section: defect_pixel
            :Short: DSNU histogram
        "));
   (** results.py:1197 *)
   (lit "histogram_DSNU_accumulated", Some (lit "Accumulated DSNU histogram.

        Uses the :func:`~emva1288.process.routines.Histogram1288` function
        to make the histogram.

        .. emva1288::
            :Section: defect_pixel
            :Short: accumulated DSNU histogram
        "));
   (** results.py:1226 *)
   (lit "xml", Some (lit "Method that writes the results in xml format to a file.

        Parameters
        ----------
        filename : str, optional
                   The file to write the results. If None, the xml string
                   won't be written but will be returned instead.

        Returns
        -------
        str : If the xml string is not written into a file, it is returned.
        "));
   (** results.py:1245 *)
   (lit "results", Some (lit "Dictionnary with all the values and metadata for EMVA1288 values.

        It uses the :func:`~emva1288.process.routines.obj_to_dict` to compute
        all the results at once.
        "));
   (** results.py:1254 *)
   (lit "results_by_section", Some (lit "Results ordered by section."));
   (** results.py:1258 *)
   (lit "print_results", Some (lit "Print results to the screen."))].
