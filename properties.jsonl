{"id": "C01", "title": "Binning an image conserves the flux of the covered region", "statement": "FourierUtils.binning(image,k) returns an image of shape (S0//k, S1//k) whose total equals the sum of image[0:k*(S0//k), 0:k*(S1//k)]; hence the total flux is conserved exactly when k divides both sides, otherwise exactly the trailing S mod k rows/columns are lost. Each output pixel is the sum of its own k x k block.", "quantifier": "every image size, every pixel content (positive or negative), every integer bin factor k>=1", "why_tests_cant": "tests bin one or two shapes; flux conservation quantifies over all sizes, factors and pixel values", "anchors": ["p3/aoSystem/FourierUtils.py: binning"]}
{"id": "C02", "title": "Zero padding and cropping are inverse of each other exactly when the padding is symmetric", "statement": "cropSupport(enlargeSupport(x,n),n)=x for every image x of side s exactly when (n-1)*s is even; enlargeSupport never changes the total flux and places the image at offset int((n-1)s/2); when (n-1)*s is odd the crop returns an image one row/column short or shifted.", "quantifier": "every square image side s>=1, integer factor n>=1, every pixel content", "why_tests_cant": "a test on even sizes never sees the odd/even corner; round-trip must hold for all sizes", "anchors": ["p3/aoSystem/FourierUtils.py: enlargeSupport, cropSupport"]}
{"id": "C03", "title": "Image normalisation can be undone and meets its target", "statement": "normalizeImage with normType t returns (im_n,param) such that normalizeImage(im_n, t, param) gives back the original image for every normType whenever the divisor is non zero; for normType 1 the pixels of im_n sum to one; for normType 2 all pixels lie in [0,1], with both bounds reached when the image is not constant; a constant image gives zeros and is still restored.", "quantifier": "every image, every normType value", "why_tests_cant": "all images and all normTypes; includes degenerate constant and zero-sum images", "anchors": ["p3/aoSystem/FourierUtils.py: normalizeImage"]}
{"id": "C04", "title": "The wavelength vector of a spectral cube samples each band completely", "statement": "create_wavelength_vector returns n_bin*n_cen wavelengths; bin j*n_bin+i is w_cen[j]-bw/2+i*bw/(n_bin-1) (band lower edge when n_bin=1), the bands are in increasing order of the distinct central wavelengths. The frequency-domain constructor, which builds its own vector, produces the same vector whenever there is a single central wavelength or a single bin, and fails with a shape error as soon as there are two central wavelengths and two bins.", "quantifier": "every list of central wavelengths (duplicates allowed), bandwidth, number of bins", "why_tests_cant": "the slice bug only shows for >=2 centres and >=2 bins; correctness is for every list", "anchors": ["p3/aoSystem/FourierUtils.py: create_wavelength_vector", "p3/aoSystem/frequencyDomain.py: frequencyDomain.__init__"]}
{"id": "C05", "title": "Compressing a turbulence profile conserves its integrals", "statement": "eqLayers(Cn2,h,n) with 1<=n<=len(Cn2)=len(h) returns n layers; the slabs are consecutive, non-empty and cover every input layer exactly once; sum(Cn2eq)=sum(Cn2), and sum(Cn2eq*altEq^(5/3))=sum(Cn2*h^(5/3)); each equivalent altitude lies between the smallest and largest altitude of its slab; n>len(Cn2) is refused.", "quantifier": "every profile with positive weights and non-negative altitudes, every n", "why_tests_cant": "conservation over all profile lengths and n is an induction over slabs", "anchors": ["p3/aoSystem/FourierUtils.py: eqLayers"]}
{"id": "C06", "title": "A non-negative PSD gives a valid phase structure function", "statement": "For every real non-negative PSD the structure function obtained through psd2cov/cov2sf is real, non-negative, zero at the origin, symmetric under u -> -u, linear in the PSD, and bounded by 4x the variance; the complex maximum taken by the code is the zero-lag covariance.", "quantifier": "every PSD array size nx x ny, every non-negative content, every pixel scale", "why_tests_cant": "the complex max in numpy is lexicographic; needs a proof for every PSD that it selects the zero lag", "anchors": ["p3/aoSystem/FourierUtils.py: psd2cov, cov2sf", "p3/aoSystem/fourierModel.py: phaseStructureFunction"]}
{"id": "C07", "title": "The atmospheric OTF is a valid transfer function and the Strehl never exceeds 100%", "statement": "sf2otf of such a structure function lies in (0,1], equals 1 at the origin and is symmetric; the Strehl ratio returned with the PSF (100*sum|OTF|/sum(OTF_DL)) is at most 100 whenever the instrumental OTF is dominated by the diffraction-limited one, and decreases when the PSD grows.", "quantifier": "every structure function >= 0, every static OTF with |OTF|<=OTF_DL, every shift/jitter", "why_tests_cant": "order property over all inputs", "anchors": ["p3/aoSystem/FourierUtils.py: sf2otf, sf_3D_to_psf_3D, sf_3D_to_psf_4D"]}
{"id": "C08", "title": "The delivered PSF carries exactly the requested flux and background", "statement": "For every source the sum over pixels of the PSF returned by sf_3D_to_psf_3D equals F + nPix^2*bkg, whatever the structure function, static OTF, jitter, shifts, binning factor, crop; the output side is nPix when nPix<fovInPix and fovInPix otherwise.", "quantifier": "every structure function, OTF size, binning, field of view, flux, background (with a non-zero total before scaling)", "why_tests_cant": "normalisation happens after crop; must hold for every geometry", "anchors": ["p3/aoSystem/FourierUtils.py: sf_3D_to_psf_3D"]}
{"id": "C09", "title": "The parameter vector of a PSF model is split without overlap and without loss", "statement": "sort_params_from_labels splits x0 into Cn2/r0, dphi, jitter, flux, dx, dy, background and static-mode parameters in that order; concatenating the parts gives back x0 when x0 has the full length; missing trailing groups get the documented defaults (unit transmittance flux, zero shift and background).", "quantifier": "every number of layers, sources, wavelengths, frames, modes and every vector", "why_tests_cant": "index arithmetic over five independent sizes", "anchors": ["p3/aoSystem/FourierUtils.py: sort_params_from_labels"]}
{"id": "C10", "title": "Ensquared energy is a non-decreasing curve between 0 and 1", "statement": "For every non-negative PSF whose peak is at least nEE pixels away from the upper/left border, getEnsquaredEnergy is non-decreasing, in [0,1]; when the peak is closer to the low border than nEE the slice start is negative and the returned value is not the energy of the square (counter-example).", "quantifier": "every non-negative PSF and peak position", "why_tests_cant": "python negative slice start only bites off-centre peaks; all positions needed", "anchors": ["p3/aoSystem/FourierUtils.py: getEnsquaredEnergy"]}
{"id": "C11", "title": "The polar grid samples each ring adaptively up to the cap", "statement": "precompute_polar_grid should use min(cap, max(3, ceil(2 pi r/step))) points on each ring r>0. The code overwrites the cap inside the loop: every ring gets exactly min(7, cap) points, whatever its radius (finding); the points of a ring are at distance r from the centre.", "quantifier": "every step>0, max radius, cap", "why_tests_cant": "loop-carried variable overwrites the argument: needs induction over rings", "anchors": ["p3/aoSystem/FourierUtils.py: precompute_polar_grid"]}
{"id": "C12", "title": "The Fourier symmetric helper returns x(-u)", "statement": "fftsym(x) should be x[-i mod n, -j mod n], as needed by phase_to_structure_function. It is not, for any size n>=2: the last row and the last column of the result are always zero and every interior sample is a diagonal sample of the input (finding).", "quantifier": "every array", "why_tests_cant": "needs all sizes; the code is wrong for every size >= 3 and writes zeros in the last row/column", "anchors": ["p3/aoSystem/FourierUtils.py: fftsym, phase_to_structure_function"]}
{"id": "C13", "title": "Full spectra rebuilt from half spectra are the true spectra", "statement": "_rfft2_to_fft2(shape, rfft2(x)) equals fft2(x) for every real 2-D array x, for even and odd numbers of columns.", "quantifier": "every real image of any (rows, columns)", "why_tests_cant": "hermitian completion index arithmetic must hold for all parities/sizes", "anchors": ["p3/aoSystem/FourierUtils.py: _rfft2_to_fft2", "p3/psfao21/psfao21.py: get_opd_structure_function"]}
{"id": "C14", "title": "Spatial frequency grids contain the origin at the array centre", "statement": "freq_array(n) has the value offset at index n//2 and spacing L; shift_array(n) reaches 0 exactly at n/2 for even n and never for odd n; both are affine and strictly increasing along their axis.", "quantifier": "every size and scale", "why_tests_cant": "parity case for all n", "anchors": ["p3/aoSystem/FourierUtils.py: freq_array, shift_array, instantiateAngularFrequencies"]}
{"id": "C15", "title": "Changing the atmosphere wavelength is path independent and reversible", "statement": "Setting the wavelength w1, w2, ... wn in any order leaves r0 equal to the r0 obtained by setting wn directly; setting back the initial wavelength restores r0; seeing follows accordingly; attributes other than r0/wavelength are unchanged.", "quantifier": "every history of wavelength settings", "why_tests_cant": "a history property", "anchors": ["p3/aoSystem/atmosphere.py: atmosphere.wvl setter"]}
{"id": "C16", "title": "Layers share the total turbulence strength", "statement": "With weights summing to one, sum over layers of layer.r0^(-5/3) equals atm.r0^(-5/3) after construction; after changing the wavelength the layers keep the old r0 so that slab(k) at a new wavelength is not the layer's fraction (counter-example).", "quantifier": "every number of layers, weights, r0, wavelength", "why_tests_cant": "stale copies only appear after a setter call", "anchors": ["p3/aoSystem/atmosphere.py: atmosphere.__init__, slab, layer"]}
{"id": "C17", "title": "Turbulence power spectra are positive, finite and decreasing", "statement": "atmosphere.spectrum(k) > 0 for all k >= 0, strictly decreasing in k, increasing when r0 decreases, bounded by its value at 0 for finite L0.", "quantifier": "every r0>0, L0>0, spatial frequency", "why_tests_cant": "for all real inputs", "anchors": ["p3/aoSystem/atmosphere.py: spectrum"]}
{"id": "C18", "title": "Angular and temporal covariance at zero separation give the phase variance", "statement": "At zero angle the angular covariance is the phase variance times the total weight and the angular structure function is 0, after every history of wavelength changes; the (angular) structure function is twice the variance minus the covariance and, without outer scale, a positive 5/3 power law. The temporal covariance at zero lag should be the phase variance too; the code sums the un-weighted covariance of each layer so the value is nL times the variance, and a scalar wind (the default) raises IndexError (both proved as counter-examples).", "quantifier": "every number of layers", "why_tests_cant": "needs all layerings", "anchors": ["p3/aoSystem/atmosphere.py: temporalCovariance, variance"]}
{"id": "C19", "title": "The WFS noise variance is physically ordered", "statement": "NoiseVariance returns one non-negative variance per WFS for every valid Shack-Hartmann (cog, wcog, tcog, qc...) or pyramid sensor; it does not decrease when the read-out noise or excess factor grows, when the flux drops or when r0 shrinks; it scales as the inverse square of the science wavelength. Non-positive r0/wavelength/sub-aperture, negative RON or flux, unsupported WFS type or algorithm raise ValueError. A pyramid with the default (infinite) flux gives nan (finding).", "quantifier": "every photon flux, RON, pixel scale, algorithm", "why_tests_cant": "order property for all reals", "anchors": ["p3/aoSystem/sensor.py: NoiseVariance"]}
{"id": "C20", "title": "Photon numbers are assigned to each wavefront sensor", "statement": "sensor(...) gives every WFS its own photon number: a single value is repeated, a list at least as long as the number of WFS is kept (first entries). A shorter list is not completed with numbers: a nested list is appended, one missing entry gives a list instead of a number, two or more missing raise IndexError; the caller's list (or the mutable default) is modified, so that the same call repeated eventually succeeds (all characterised).", "quantifier": "every list of fluxes and number of WFS", "why_tests_cant": "list length cases", "anchors": ["p3/aoSystem/sensor.py: sensor.__init__"]}
{"id": "C21", "title": "Source direction vectors are complete and consistent", "statement": "source(...) accepts equal-length zenith/azimuth lists, nSrc is that length, direction = (tan(z)cos(a), tan(z)sin(a)) per source, and direction is 360-degree periodic in azimuth; a scalar is broadcast against a list when there is a single wavelength. Findings: unequal lengths are accepted at construction and only fail when direction is read; a scalar zenith with several azimuths and several wavelengths is taken as one source; an array of two or more heights is always refused.", "quantifier": "all lists", "why_tests_cant": "all lengths", "anchors": ["p3/aoSystem/source.py: source"]}
{"id": "C22", "title": "Actuator index maps are mutually inverse", "statement": "ind2sub(shape, sub2ind(shape,i,j))=(i,j) and the converse for every valid index on square grids; on a rectangular r x c grid the round trip holds exactly when r=1 or r<=c<=r+1 (the code divides by the number of rows).", "quantifier": "every grid shape and index", "why_tests_cant": "index arithmetic for all shapes", "anchors": ["p3/aoSystem/deformableMirror.py: sub2ind, ind2sub"]}
{"id": "C23", "title": "The science sampling is always Nyquist or better", "statement": "The oversampling factor k = ceil(2/samp) satisfies k>=1, samp*k>=2 and (k-1)*samp<2: PSFs are always computed at least at Nyquist with the smallest integer factor; the OTF side is nPix*kRef.", "quantifier": "every wavelength, pixel scale, telescope diameter, list of wavelengths", "why_tests_cant": "for all reals", "anchors": ["p3/aoSystem/frequencyDomain.py: wvl/psInMas setters, frequencyDomain"]}
{"id": "C24", "title": "The AO-corrected and uncorrected frequency domains partition the frequency plane", "statement": "Corrected and uncorrected masks partition all the frequencies, for the circle and square geometries, and mean what they say (|k|<kc, max(|kx|,|ky|)<kc); cut-offs are 1/(2 pitch) unless non-zero external ones are given; the number of aliasing orders is 2, 3 or 4 according to the ratio of grid to area; the slice of the full grid given to the corrected area has exactly its size iff the area fits, and every pixel of the area lands on the pixel with the same frequency except when the full grid is odd and the area even (finding); the integration step differs from the grid step by less than one part in resAO.", "quantifier": "every grid, cut-off, geometry string", "why_tests_cant": "for all grids", "anchors": ["p3/aoSystem/frequencyDomain.py: mskIn_, mskOut_, resAO"]}
{"id": "C25", "title": "The reconstructor never amplifies the phase and is optimal", "statement": "With one guide star, the reconstructed fraction of the phase (Rx*Sx+Ry*Sy) is real, lies in [0,1], equals 1 without regularisation and 0 at the piston frequency; it is defined at every corrected frequency of a Shack-Hartmann sensor; with MV=1 the reconstructor minimises, over all linear reconstructors, phase error plus propagated noise at each frequency; the noise propagation used is |Rx|^2+|Ry|^2.", "quantifier": "every frequency, gain, noise, wavelength", "why_tests_cant": "for all reals", "anchors": ["p3/aoSystem/fourierModel.py: reconstructionFilter"]}
{"id": "C26", "title": "Every PSD contribution and their total are non-negative and additive", "statement": "powerSpectrumDensity (closed loop) is the sum of the contributions of the AO mode: inside the centred corrected area noise, aliasing, differential refraction, chromatism and spatio-temporal errors (plus vibrations), everywhere cone effect, multi-laser cone error, fitting and the extra error of the source; each contribution is defined and non-negative (layer weights of total at most one), so the total is non-negative with every option; a corrected area larger than the grid raises ValueError; the last sources are the low-order stars and get their own extra error; outside the corrected area only fitting remains; servo-lag is the on-axis spatio-temporal error. Findings: weights summing to slightly more than one (accepted by the configuration check) give a negative PSD; the chromatic error is not masked; normalisation to a given wavefront error does not give that error (sum over all sources, converted twice); open loop returns one plane whatever the number of sources.", "quantifier": "every configuration and frequency", "why_tests_cant": "for all configurations", "anchors": ["p3/aoSystem/fourierModel.py: powerSpectrumDensity, fittingPSD, aliasingPSD, noisePSD, servoLagPSD, spatioTemporalPSD, reconstructionPSD, chromatismPSD"]}
{"id": "C27", "title": "The error breakdown is a quadratic sum and the Marechal Strehl is a percentage", "statement": "errorBreakDown: wfeTot^2 is the sum of squares of its terms, each term is the non-negative root of the integral of its PSD, SRmar is in (0,100] and decreases exactly when wfeTot increases; the integral of the PSD of a source equals wfeTot^2 minus the static and jitter terms, except for the cone effect of a single laser guide star (missing in the breakdown) and the multi-laser cone error (always that of the first source); a term never computed or released raises AttributeError; an open loop has no breakdown.", "quantifier": "all PSDs", "why_tests_cant": "for all reals/configs", "anchors": ["p3/aoSystem/fourierModel.py: errorBreakDown"]}
{"id": "C28", "title": "Extra-error PSD integrates to the requested wavefront error", "statement": "extraErrorPSD summed over the grid equals extraErrorNm^2 (in nm^2) for every spectral exponent and frequency bounds, follows the requested power law on the selected frequencies and vanishes elsewhere; it is defined exactly when some selected frequency passes the piston filter; for low-order stars the error is interpolated linearly between the axis and the edge of the technical field, constant beyond; a list of another length than two raises ValueError.", "quantifier": "every exponent, min/max frequency, grid", "why_tests_cant": "normalisation for all inputs", "anchors": ["p3/aoSystem/fourierModel.py: extraErrorPSD"]}
{"id": "C29", "title": "The chunked layer sum equals the full sum", "statement": "The aliasing PSD does not depend on the chunk size used to limit memory; without any layer it raises ValueError.", "quantifier": "every number of layers, chunk size and layer data", "why_tests_cant": "chunk boundary arithmetic for all sizes", "anchors": ["p3/aoSystem/fourierModel.py: aliasingPSD"]}
{"id": "C30", "title": "The memory estimate is an upper envelope", "statement": "estimate_memory_usage: no entry is negative, totals are the sums of the breakdowns, the peak is never below the persistent part (equal to it when not asked for), both grow with every size, never with reduce_memory, and double with double precision. Finding: not an upper bound (the complex temporal transfer function is counted as real).", "quantifier": "all sizes", "why_tests_cant": "all sizes", "anchors": ["p3/aoSystem/fourierModel.py: estimate_memory_usage"]}
{"id": "C31", "title": "Fit bounds are well formed", "statement": "define_bounds (fourierModel, psfao21, psfR) returns lower and upper lists with the same length = number of parameters, lower <= upper entrywise; the astrometric box is symmetric exactly for even image sizes; update_bounds (psfao21) gives a box around the solution inside the previous bounds. Finding: its layout is fixed (one layer, one source, one wavelength) and it admits negative jitters.", "quantifier": "all numbers of layers/sources/wavelengths/modes/pixels", "why_tests_cant": "python floor of negative odd", "anchors": ["p3/aoSystem/fourierModel.py: define_bounds", "p3/psfao21/psfao21.py: define_bounds", "p3/psfr/psfR.py: define_bounds"]}
{"id": "C32", "title": "Configuration files are validated before use", "statement": "Building an AO system from a parameter file: (a) a file that is accepted has every mandatory section and key (telescope, atmosphere, sources_HO, sources_science, sensor_HO, DM, sensor_science; TelescopeDiameter, Wavelength, PixelScale, FieldOfView, DmPitchs ... and those of sources_LO / sensor_LO when the section is there), a zenith angle below 90 degrees, layer weights summing to 1 within 1e-3, layer, wind, guide-star, mirror and optimisation lists of equal lengths, and existing pupil/apodizer files; (b) removing any mandatory key or section from an accepted file, or replacing an accepted entry by one that breaks one of these rules, raises ValueError; (c) leaving out an optional key gives the same system as writing its documented default; (d) the attributes of the system are the values of the file: the line-of-sight airmass 1/cos(zenith) scales r0 by airmass^(-3/5) and layer heights by airmass, seeing has precedence over r0. Findings: a low-order star without Zenith/Azimuth raises KeyError instead of ValueError.", "quantifier": "every configuration mapping", "why_tests_cant": "every subset of keys", "anchors": ["p3/aoSystem/aoSystem.py: aoSystem.__init__"]}
{"id": "C33", "title": "The science field of view rule", "statement": "The field of view of the science camera: a missing, NaN, None, list, unreadable-string or non-positive request (other than -1) raises ValueError; a positive request is rounded up to the next integer; -1 (within the tolerance of the code) selects the smallest even number of pixels that covers twice the corrected area at the shortest wavelength and the seeing-driven size; with the PSD expansion and several wavelengths the result is multiplied by the ceiling of the wavelength ratio; the value is written back to the configuration.", "quantifier": "every requested value and system", "why_tests_cant": "all reals", "anchors": ["p3/aoSystem/aoSystem.py: _compute_science_field_of_view, get_science_field_of_view"]}
{"id": "C34", "title": "Re-configuring the science channel is idempotent", "statement": "Configuring the science channel again on the map left by a first configuration gives the same system and the same map whenever the PSD expansion is off or there is a single wavelength; with the expansion and several wavelengths the field of view is multiplied by ceil(max/min wavelength) at each call (n calls: power n), so the second configuration is not the first (counter-example 603 -> 1809).", "quantifier": "every configuration, every number of calls", "why_tests_cant": "history property", "anchors": ["p3/aoSystem/aoSystem.py: configLO_SC"]}
{"id": "C35", "title": "The AO mode is determined by the guide stars, mirrors and reconstructed layers", "statement": "The AO mode is a total and exclusive function of the file: without laser star and without low-order stars SCAO; otherwise SLAO with one high-order star, MCAO with several stars and several mirrors, LTAO with several stars, one mirror and more than one reconstructed layer, GLAO otherwise. (Finding: a natural high-order star counts as a laser as soon as sources_LO is present.)", "quantifier": "every combination", "why_tests_cant": "finite/inf combos", "anchors": ["p3/aoSystem/aoSystem.py: aoMode"]}
{"id": "C36", "title": "Config paths are resolved by a fixed priority", "statement": "resolve_config_path gives, in this order: the empty path for an empty value; the path below the root directory when the root is set and that file exists; the P3 package path for names starting with aoSystem and the TIPTOP path for names starting with tiptop (leading slashes ignored, whether the file exists or not); the path itself if it exists; for a path with a leading slash the same name below the P3 package if that exists; otherwise the path as given. An absolute path to an existing file whose first component does not start with aoSystem or tiptop is kept. (Finding: an existing absolute file below a directory /aoSystem... is hidden.)", "quantifier": "every path and every file system state", "why_tests_cant": "all file-system states", "anchors": ["p3/aoSystem/__init__.py: resolve_config_path"]}
{"id": "C37", "title": "Noll indices map one-to-one onto Zernike orders", "statement": "For every Noll index j >= 1 the object reports orders n >= m >= 0 with n-m even, n being the order with n(n+1)/2 < j <= (n+1)(n+2)/2; the map from j to (n, m, parity of j when m > 0) is one-to-one and onto; the two index formulas of the code agree; (n+1)(n+2)/2 is the number of modes up to order n; a list is mapped element by element. (Finding: findNM called with another list than the object's own fails with IndexError when it is shorter and is truncated when it is longer.)", "quantifier": "every j>=1", "why_tests_cant": "infinite range of j", "anchors": ["p3/aoSystem/zernike.py: findNM, nmOrder"]}
{"id": "C38", "title": "Zernike modes are one at the pupil edge and orthonormal", "statement": "The radial polynomial R_n^m is one at the pupil edge for every n >= m with n-m even, and the modes are orthonormal on the unit disc: for all Noll indices j, k the integral over the disc of the product of modes j and k is the area pi if j = k and 0 otherwise.", "quantifier": "every (n,m), every pair of indices", "why_tests_cant": "infinite family", "anchors": ["p3/aoSystem/zernike.py: R_fun, polynomials"]}
{"id": "C39", "title": "Refractivity of the air: one model per wavelength, physical values", "statement": "Each wavelength uses exactly one model: below 1.3 um the visible formula, otherwise the only band whose range contains it, otherwise the polynomial of band K; arrays are treated element by element (one element gives a scalar, none an IndexError). At the conditions always used by the Fourier model the refractivity lies within 2.67e-4 and 2.96e-4 from 0.3 to 16 um, the change of model at 1.3 um makes a step below 1e-6, and the chromatic error is finite, at most 2 % of the turbulence and zero for equal wavelengths. Dry visible refractivity follows the ideal gas law, humidity lowers the visible refractivity, pressure raises the infrared one in every band (-20..40 C, 500..1050 hPa). (Finding, proved: in the Q band the refractivity drops by 40 % between 16 and 28 um and gets negative in cold humid air: a wrong coefficient.)", "quantifier": "every wavelength", "why_tests_cant": "all reals incl. gaps", "anchors": ["p3/aoSystem/airRefraction.py", "p3/aoSystem/fourierModel.py: chromatismPSD, differentialRefractionPSD"]}
{"id": "C40", "title": "A fit moves only the free parameters, within bounds, and minimises the documented criterion", "statement": "psfFitting, for every minimiser, PSF model and image: every parameter vector passed to the model and the final x coincide with the guess on fixed entries; free entries are moved one by one, in order, and every vector with the fixed values is reachable by exactly one point of the minimiser, which starts at the guess; with a bounds-respecting minimiser ('trf') every free parameter stays within the bounds of the caller (or of the model); the sum of squares minimised is the documented weighted criterion (with the positivity term if asked); the fitted image is the given one raised to be non-negative, the model image is on its scale, and im_dif is their difference; the error bars are null on fixed entries, never negative (or all -1 on failure) and equal 1.96 sqrt(rss/(n-p) [(J'J)^-1]_kk). Wrong sizes, infeasible or crossed bounds and non-square images are refused. Findings: bounds without a mask are never accepted; with another method they are ignored; a guess of integers with a mask truncates every iterate; normType=2 always fails; the caller's image is modified.", "quantifier": "every fixed mask, x0, minimizer iterate", "why_tests_cant": "all iterates", "anchors": ["p3/psfFitting/psfFitting.py: mini2input, input2mini"]}
{"id": "C41", "title": "Asking for fewer pixels returns that number of pixels", "statement": "A PSF requested on m <= fov pixels comes back with m x m pixels. The crop factor n/m is computed in floating point and the crop size is int(n/(n/m)): it is m whenever m divides n, and in general m or m-1; when it is m-1 the assignment into the m x m cube fails with ValueError. (Counter-example proved: 14 pixels out of 18.)", "quantifier": "every pair (n,m) below 2^30, in IEEE binary64 arithmetic", "why_tests_cant": "the failing pairs are scattered and depend on binary64 rounding; only a proof about the rounding covers all of them", "anchors": ["p3/aoSystem/FourierUtils.py: cropSupport, sf_3D_to_psf_3D, sf_3D_to_psf_4D"]}
{"id": "C42", "title": "Astrometric shifts move the PSF by the requested number of pixels", "statement": "With integer dx, dy the PSF returned by sf_3D_to_psf_3D is the unshifted one cyclically moved by exactly (dx,dy) detector pixels; the same holds for sf_3D_to_psf_4D except when the binning factor is 2, where the image moves by dx/2 only (finding).", "quantifier": "every structure function, OTF, flux, background, jitter, integer shift and geometry", "why_tests_cant": "Fourier shift theorem through fft-shift, binning and crop for every size", "anchors": ["p3/aoSystem/FourierUtils.py: sf_3D_to_psf_3D, sf_3D_to_psf_4D, getStaticOTF"]}
{"id": "C43", "title": "Static aberrations can only lower the transfer function", "statement": "For every pupil, apodizer and phase map, |OTF with aberrations| <= OTF without, both are equal to 1 at the centre after getStaticOTF normalisation, the diffraction-limited OTF is real and in [0,1]; otf2psf always returns an image of unit sum.", "quantifier": "every pupil, phase map, padding factor", "why_tests_cant": "needs the triangle inequality on the auto-correlation for every pupil", "anchors": ["p3/aoSystem/FourierUtils.py: pupil2otf, getStaticOTF, otf2psf"]}
{"id": "C44", "title": "The polychromatic PSF function accepts its documented defaults", "statement": "sf_3D_to_psf_4D can be called with its default stellar parameters, with one wavelength and several shifted sources, and with an explicit zero jitter. (All three are refuted: it raises.)", "quantifier": "every other argument", "why_tests_cant": "one example is not enough to know that every call of the kind fails or succeeds", "anchors": ["p3/aoSystem/FourierUtils.py: sf_3D_to_psf_4D"]}
{"id": "C45", "title": "A PSF is never negative", "statement": "For every non-negative PSD and every pupil and phase map the PSF (inverse transform of static OTF times atmospheric OTF) is non-negative at every pixel.", "quantifier": "every PSD, pupil, phase, grid size", "why_tests_cant": "Bochner type argument, cannot be tested pixel by pixel for all PSDs", "anchors": ["p3/aoSystem/FourierUtils.py: psd2cov, cov2sf, sf2otf, pupil2otf, sf_3D_to_psf_3D"]}
{"id": "C46", "title": "A field of view too small for the correction area is refused", "statement": "The constructor check (2*kcInMas/pixel scale > nOtf -> ValueError) guarantees that the corrected area fits in the frequency grid. True when no oversampling is needed and the atmosphere wavelength is not smaller than the science wavelengths; false in general, because the check uses the atmosphere wavelength (500 nm) and oversampled pixels: for every size N there is a system accepted by the check whose area is twice the grid, and the PSD assembly then fails with a shape error (finding).", "quantifier": "every pixel scale, wavelength list, pitch, field of view", "why_tests_cant": "needs all combinations of wavelengths and scales", "anchors": ["p3/aoSystem/fourierModel.py: initComputations", "p3/aoSystem/frequencyDomain.py: kcInMas, pitch"]}
{"id": "C47", "title": "Integrated turbulence parameters are consistent with the profile", "statement": "For weights summing to one the mean altitude lies between the lowest and the highest layer; the coherence time and (infinite outer scale) the isoplanatic angle scale as wavelength^(6/5); an outer scale given as a list of equal values is that value. A one-element list L0=[x] however is kept as a list and every statistic (variance, spectrum) raises TypeError (counter-example).", "quantifier": "every profile, wavelength and outer scale", "why_tests_cant": "real-valued inputs of any length", "anchors": ["p3/aoSystem/atmosphere.py: meanHeight, tau0, theta0, __init__ (L0)"]}
{"id": "C48", "title": "Deformable mirror descriptions are consistent", "statement": "deformableMirror(...) is accepted exactly when actuators, pitches, heights have the same length and optimisation directions match their weights; there is one coupling per mirror (list kept, truncated, or first value repeated); valid actuators are nAct^2; the controlled radial order N satisfies (N+1)^2 <= 2*nAct^2 < (N+2)^2. Findings: the controlled modes can exceed the number of actuators, and displaying any mirror raises ValueError because a float is formatted with ':d'.", "quantifier": "every number of mirrors, every list length, every number of actuators", "why_tests_cant": "list length combinations and integer square roots for all sizes", "anchors": ["p3/aoSystem/deformableMirror.py: deformableMirror.__init__, nControlledRadialOrder, __repr__"]}
{"id": "C49", "title": "Loop parameters of the real-time computer", "statement": "The closed-loop bandwidth is defined for non-negative gain, rate and delay, non-negative, increasing with gain and frame rate and decreasing with delay; the low-order loop exists exactly when its gain, rate and delay are all given. Finding: the low-order delay is displayed using the high-order frame rate, hence wrong whenever the two rates differ.", "quantifier": "every gain, rate, delay", "why_tests_cant": "real-valued parameters", "anchors": ["p3/aoSystem/rtc.py: rtc, loop"]}
{"id": "C50", "title": "Loop transfer functions", "statement": "The controller's rejection and correction transfer functions sum to one (away from the instability point); the squared mean transfer never exceeds the mean squared transfer times the total weight; the noise transfer has the modulus of the correction; static turbulence is corrected up to eps/gain for every delay; a zero frame rate raises ZeroDivisionError, a negative one ValueError. Finding: with a null gain no transfer function exists and the noise and aliasing PSDs raise AttributeError.", "quantifier": "every gain, rate, delay, wind, layer weights, frequency", "why_tests_cant": "complex transfer functions for all real parameters", "anchors": ["p3/aoSystem/fourierModel.py: controller, noisePSD, aliasingPSD"]}
{"id": "C51", "title": "The description of the turbulence layers does not matter", "statement": "Reordering the layers, giving one layer in several pieces with the same altitude and wind, or adding layers of null weight changes no PSD contribution (noise, servo-lag, spatio-temporal, anisoplanatism, differential refraction, aliasing).", "quantifier": "every list of layers, every frequency and source", "why_tests_cant": "all permutations and splittings of all profiles", "anchors": ["p3/aoSystem/fourierModel.py: noisePSD, servoLagPSD, spatioTemporalPSD, anisoplanatismPSD, differentialRefractionPSD, aliasingPSD"]}
{"id": "C52", "title": "Multi-laser cone error is bounded by the turbulence removed", "statement": "mcaoWFsensConePSD is non-negative, at most the difference between the turbulence and the residual PSD, so that the total never exceeds the larger of both; it vanishes without turbulence above the ground, for sources seen by the full sensed volume, and where nothing is corrected.", "quantifier": "every geometry, layer profile, frequency", "why_tests_cant": "inequalities over reals with complex filters", "anchors": ["p3/aoSystem/fourierModel.py: mcaoWFsensConePSD"]}
{"id": "C54", "title": "Flux estimate of an image", "statement": "getFlux: for every square image of odd side at least 3, or of side at least 10, the returned flux is the plain sum of the pixels, whatever the image: the background (median of the masked image) is always zero, so normalisation by flux is normalisation by sum. Finding: a uniform background is never removed.", "quantifier": "every square image of these sizes", "why_tests_cant": "statement over all images and sizes (lattice-point count)", "anchors": ["p3/aoSystem/FourierUtils.py: getFlux, normalizeImage"]}
{"id": "C55", "title": "Distance between two images", "statement": "getMSE with a reference of positive sum raises ValueError for different shapes and otherwise is non-negative, zero exactly for equal images, unchanged when both images are multiplied by the same positive factor; the L2 distance never exceeds the L1 distance.", "quantifier": "every pair of images, both norms", "why_tests_cant": "all images", "anchors": ["p3/aoSystem/FourierUtils.py: getMSE"]}
{"id": "C56", "title": "PSF of a transfer function", "statement": "otf2psf of an n x n array is the real part of the Fourier series of the OTF about its sample n//2, read at pixel offsets from n//2 (shifted by half a pixel on both axes for even n unless the one-pixel mode is asked), divided by the central OTF value; a real OTF gives a PSF symmetric about the array centre for even and odd sizes.", "quantifier": "every size, every OTF with non-zero centre, both modes", "why_tests_cant": "every size and parity", "anchors": ["p3/aoSystem/FourierUtils.py: otf2psf"]}
{"id": "C57", "title": "Theoretical error budget of the system", "statement": "With a positive loop gain the theoretical budget attached to the AO system is a quadratic sum: the square of the total is the sum of the squares of fitting, aliasing, servo lag, noise, tip-tilt servo lag, tip-tilt noise and cone terms; the Strehl is the Marechal value of the total at the first science wavelength, in (0,1]; the tip-tilt terms vanish without a tip-tilt loop or sensor and the cone term without a laser; fitting and aliasing are 0.23 (pitch/r0)^(5/3) and 0.07 (d/r0)^(5/3) rad^2 in nm; the servo lag is 0.04 (v/D/f)(D/r0)^(5/3) times the sum over the controlled radial orders of (n+1)^(-2/3), from order 3 with a tip-tilt loop and sensor and from order 1 without, and the tip-tilt servo lag takes order 1; with a non-positive gain there is no budget. The cone term is computed from the layers' altitudes, weights and the laser altitude by the announced formula and is non-negative.", "quantifier": "every telescope, atmosphere, mirror, sensor, loop and source", "why_tests_cant": "all real parameters", "anchors": ["p3/aoSystem/aoSystem.py: aoSystem.errorBreakdown"]}
{"id": "C58", "title": "Field-dependent static aberrations can be loaded", "statement": "Given an existing cube of off-axis static maps with at least two pixels, the system is configured with these maps. False: the consistency check of the cube against its positions file always raises ValueError.", "quantifier": "every cube of off-axis maps, every position file", "why_tests_cant": "for all files", "anchors": ["p3/aoSystem/aoSystem.py: aoSystem.__init__ (PathStaticOff)"]}
{"id": "C59", "title": "The documented low-order threshold is used", "statement": "ThresholdWCoG of [sensor_LO] changes the threshold of the tip-tilt sensor. False: the code reads another key, so for every file the documented key has no effect on the sensor.", "quantifier": "every low-order sensor section and value", "why_tests_cant": "for all sections", "anchors": ["p3/aoSystem/aoSystem.py: configLOsensor"]}
{"id": "C60", "title": "Stars given by Cartesian coordinates get the right azimuth", "statement": "Stars passed as (x,y) coordinates have the azimuth of the point in degrees, as for stars read from the file. False: the angle is left in radians and measured from the y axis.", "quantifier": "every star list", "why_tests_cant": "all coordinates", "anchors": ["p3/aoSystem/aoSystem.py: configLO_SC (coo_stars)"]}
{"id": "C61", "title": "Zernike modes sampled on a grid are the Cartesian polynomials inside the pupil and zero outside", "statement": "zernike(list, u) returns one u x u map per index, in the order of the list, zero outside of the given pupil (or of the default annulus cobs <= r <= 1); inside, with x, y the centred pixel coordinates in units of the radius, piston is 1, the tilts are 2x and 2y, defocus is sqrt(3)(2r^2-1); on the default pupil the tilts sum to zero for every resolution and obscuration.", "quantifier": "every non-empty list of indices >= 1, resolution, pupil mask, obscuration", "why_tests_cant": "all grids, masks and lists; tests look at one grid", "anchors": ["p3/aoSystem/zernike.py: __init__, polynomials"]}
{"id": "C62", "title": "Options of the Zernike constructor", "statement": "A single mode built with unitNorm is divided by its Noll norm, giving the radial polynomial times 1, cos or sin. (Findings, proved: radius/angle coordinates given by the user are always refused; unitNorm with two or more modes raises ValueError unless their number equals the resolution, and then zeroes every off-diagonal pixel; a Noll index that is not in a list leaves an unusable object.)", "quantifier": "every list, resolution >= 2, pupil, coordinates argument", "why_tests_cant": "all sizes: NumPy broadcasting depends on the coincidence of sizes", "anchors": ["p3/aoSystem/zernike.py: __init__, polynomials"]}
{"id": "C63", "title": "The variance of a Zernike coefficient depends on its radial order only", "statement": "CoefficientsVariance([D/r0, D/L0]) returns for every list of indices, sorted or not and with repetitions, one value per mode: the Kolmogorov (D/L0 = 0; infinite for piston) or von Karman variance of its radial order; it scales as (D/r0)^(5/3). An empty list raises IndexError.", "quantifier": "every list of indices >= 1, D/r0 > 0, D/L0 >= 0, every gamma function", "why_tests_cant": "all lists: the code visits only the last index of each run of equal orders", "anchors": ["p3/aoSystem/zernike.py: CoefficientsVariance"]}
{"id": "C64", "title": "The hypergeometric series is truncated at the first index where consecutive terms have equal modulus", "statement": "pochammerSeries(p,q,a,b,z) for p <= q and matching lengths terminates and returns 1 at z = 0, otherwise the partial sum of the series of products of rising factorials up to the first n >= 1 where the moduli of two consecutive terms differ by at most tol, at most nmax+1. (Finding, proved: this rule can stop too early: the exponential series at 1 gives 2.)", "quantifier": "every a, b without non-positive integers, z, tol, nmax", "why_tests_cant": "all parameters; termination and truncation index depend on them", "anchors": ["p3/aoSystem/zernike.py: CoefficientsVariance.pochammerSeries"]}
{"id": "C65", "title": "Tilt covariance is symmetric and the anisokinetism vanishes on axis", "statement": "tiltsAngularCovariance returns a symmetric 2 x 2 matrix that depends only on the difference of the two directions and, without lag, does not change when they are exchanged; for coincident directions it is isotropic; anisokinetism is symmetric, unchanged by exchange and null for coincident directions. (Findings, proved: the tilt argument of anisokinetism is ignored; a lag moves the beam by sqrt(2) times the wind distance; an unknown tilt name ends in a NameError.)", "quantifier": "every telescope, layer list, pair of directions, lag, for arbitrary Bessel functions and quadrature rule", "why_tests_cant": "all profiles and directions", "anchors": ["p3/aoSystem/zernike.py: tiltsAngularCovariance, anisokinetism"]}
{"id": "C66", "title": "The PSF reported by a fit is the unit-flux, centred, background-free PSF", "statement": "psfFitting.psf: with the parameters read back by the model (sort_params_from_labels), the reported PSF has the atmosphere, phase, jitter and static parameters of the fit, flux 1 for the first star and 0 for the others, no shift beyond the dispersion and no background, for a model with jitter parameters, one wavelength and as many atmospheric parameters as n_param_atm. Findings: for psfR (no jitter parameters) the flux and shifts of the fit are kept, the background is 1 and up to three static modes are erased; with fewer reconstructed layers than layers the reported flux is 0; with several wavelengths shifts are kept.", "quantifier": "every parameter vector, number of stars, layers, phase and static parameters", "why_tests_cant": "index arithmetic between two functions for every layout", "anchors": ["p3/psfFitting/psfFitting.py: psfFitting", "p3/aoSystem/FourierUtils.py: sort_params_from_labels"]}
{"id": "C67", "title": "imageModel stacks and saturates", "statement": "imageModel returns the sum over sources and/or wavelengths with unit axes dropped (summing in turn or at once is the same), every pixel above the saturation is set to it and the others are untouched; the argument is not modified when a sum is made, or without saturation. Findings: without a sum the saturation is written in the caller's cube; a 2-D image is returned unsaturated.", "quantifier": "every array of PSFs, stacking options, saturation", "why_tests_cant": "aliasing (numpy views) and shapes for every array", "anchors": ["p3/psfFitting/imageModel.py: imageModel"]}
{"id": "C68", "title": "Quality metrics of a fit", "statement": "evaluateFittingQuality, one image of positive flux: mse = 100 sqrt(sum d^2)/flux, mae = 100 sum|d|/flux, fvu = 100 sum d^2/sum (sky-mean)^2; 0 <= mse <= mae, 0 <= fvu, each is null exactly for a perfect fit, and a common scaling of image and model changes nothing. Finding: for a data cube the result tables share memory, so that SR_sky = SR_fit, FWHMx = FWHMy and mse = mae = fvu whatever the images.", "quantifier": "every image and model image; every cube size", "why_tests_cant": "inequalities and equivalences over all images; aliasing of the result arrays", "anchors": ["p3/psfFitting/psfFitting.py: evaluateFittingQuality"]}
{"id": "C69", "title": "Tiling, mosaic and star extraction place pixels exactly", "statement": "segment_image_in_tiles(im, n) returns n*n tiles of (rows//n) x (cols//n) pixels in row-major order, tile (y,x) being the block of the image that starts at (y*(rows//n), x*(cols//n)), with the pixel coordinates of the middle of each block; every pixel of the tiled part is in exactly one tile at one place, and if n divides both sides the flux is conserved. psf_cube_to_image of n*n square PSFs puts PSF number y*n+x at block (y,x); it rebuilds a square image from its tiles; a number of PSFs that is not a square is refused. extract_multiple_psf returns for each star, in order, the nPx x nPx window whose first row is floor(y - nPx/2), when the window is inside the image; a window that leaves the image is refused with ValueError, except that (finding) when exactly one row is left inside, that row is repeated over the whole sub-image.", "quantifier": "all images, numbers of tiles, PSF cubes, star positions and window sizes", "why_tests_cant": "Index arithmetic for every image size and star position, including windows that touch an edge.", "anchors": ["p3/psfFitting/fittingUtils.py: segment_image_in_tiles, psf_cube_to_image, extract_multiple_psf"]}
{"id": "C70", "title": "Star selection returns the best eligible stars of each segment", "statement": "select_candidates_for_fitting returns nPSFMax coordinates per segment, segment after segment, shifted by the requested origin. They are those of different catalogue entries, each strictly inside the segment by more than nBorder pixels and strictly between the magnitude limits. With 'center' no eligible star left out is closer to the centre of the segment, and they are ordered by distance; with 'isolated' none left out has a larger mean distance to the other eligible stars. A segment is served if and only if it has nPSFMax eligible stars, otherwise ValueError. With a border of half an even window, the extraction window of every selected star lies in its own tile. Findings: limits left to None (the default of generate_psfs_grid_from_image) always raise; an unknown criterion raises UnboundLocalError; for odd windows the border nPx//2 is too small and an eligible star may not be extractable.", "quantifier": "all catalogues, segments, limits, criteria and any correct argsort", "why_tests_cant": "Optimality over all unselected stars, and acceptance for every catalogue.", "anchors": ["p3/psfFitting/fittingUtils.py: select_candidates_for_fitting, extract_multiple_psf, generate_psfs_grid_from_image"]}
{"id": "C71", "title": "PSF interpolation is a convex combination that conserves flux; field-constant parameters", "statement": "interpolate_psfs_in_fov returns at each target a combination of min(nNeighbors, nPSF) different input PSFs with positive weights that sum to one, so that PSFs of equal flux give an interpolated PSF of the same flux; with one PSF per segment these are the nearest ones, weighted by inverse distance. create_spatial_variations_psf_model/compute_psfs_grid: r0, background, alpha, angle and beta are the same at every position, equal to the error-weighted means, hence between the smallest and the largest fitted values; the two others follow the fitted polynomials of the distance to the centre. Findings: a target at the position of an input PSF gives no finite result; with several PSFs per segment, at equal distance the weight is proportional to the mean-square error, so the worst fit weighs most.", "quantifier": "all PSF sets, positions, fit qualities, numbers of neighbours, any correct argsort and any polyfit", "why_tests_cant": "Holds for every configuration of positions and weights.", "anchors": ["p3/psfFitting/fittingUtils.py: interpolate_psfs_in_fov, create_spatial_variations_psf_model, compute_psfs_grid"]}
{"id": "C53", "title": "The tomographic reconstructor is the linear estimator of least error", "statement": "With two guide stars or more, at every spatial frequency and for every valid system (directions and pitches of the sensors, layers, weights, noise variances >= 0) the tomographic reconstructor exists and its estimate of any combination of the modelled layers (a layer, or the phase in any direction) has the least mean square error of all linear estimates from the measurements, both when the linear system is solved and when the generalised inverse is used for singular systems; hence it never does worse than no correction. Finding: one noise variance given for several guide stars fills the whole covariance matrix (fully correlated noise) and other lengths are refused.", "quantifier": "all systems with any number of guide stars and layers, all frequencies, all combinations of layers, all competing estimators, any exact solver and generalised inverse", "why_tests_cant": "Optimality is against every other estimator, for every geometry, including singular systems.", "anchors": ["p3/aoSystem/fourierModel.py: tomographicReconstructor, spatialReconstructor"]}
{"id": "C72", "title": "Noise and spatio-temporal spectra of a tomographic system", "statement": "For any reconstructor, the spatio-temporal spectrum towards each source is, frequency by frequency, the turbulence spectrum times the weighted sum over the layers of the squared modulus of what the mirrors leave of that layer (shift towards the source and wind during the delay, minus mirrors driven by the measurements averaged over the exposure); it is non-negative and null outside the corrected area and at the centre. The noise spectrum is the variance of the combination of sensor noises that the mirrors put in that direction, times a gain that grows with the delay from 0.16 to at most 0.64. Above the cut-off frequencies of all mirrors, nothing is corrected and no noise propagated. Findings: the piston filter enters squared; a noise-free system cannot store its noise spectrum (ValueError).", "quantifier": "all systems, reconstructors, sources and frequencies", "why_tests_cant": "A formula and a sign for every matrix and every frequency.", "anchors": ["p3/aoSystem/fourierModel.py: noisePSD, spatioTemporalPSD, spatialReconstructor, powerSpectrumDensity"]}
{"id": "C73", "title": "The optimal projector from layers to mirrors", "statement": "With one direction of optimisation, at each frequency that some mirror can correct, the mirrors driven by the projector reproduce exactly the phase of the layers in that direction, whatever their amplitudes. With several directions a mirror is never commanded above its cut-off frequency, and, when the Gram matrix of the mirrors is real, the commands minimise the regularised least-squares criterion. Findings: with several directions a mirror at the altitude of the only layer reproduces it only up to a factor in [cond/(cond+1), 1); the system uses the transpose of a complex matrix instead of its conjugate transpose, so for asymmetric directions it is not a least-squares system.", "quantifier": "all mirrors, layers, directions, weights, frequencies, amplitudes, any exact solver and generalised inverse", "why_tests_cant": "Holds for all geometries and all amplitudes.", "anchors": ["p3/aoSystem/fourierModel.py: optimalProjector, spatialReconstructor"]}
{"id": "C74", "title": "Cone effect of one laser guide star is bounded by the turbulence", "statement": "The spectrum of the focal anisoplanatism of a single laser guide star is non-negative and at most four times the turbulence spectrum times the sum of the layer weights at every frequency; a ground layer contributes nothing; it vanishes beyond the corrected band; it is always defined for layers below the laser. False as stated for a layer at the laser altitude (not finite) and for several mirrors (refused unless there are as many mirrors as layers).", "quantifier": "all diameters, laser altitudes, cut-off frequencies, layer profiles, frequency lists and frequencies", "why_tests_cant": "the coefficient is a ratio of standard deviations of sampled sines, which must stay finite and bounded for every frequency and every layer; a few profiles cannot show it", "anchors": ["p3/aoSystem/fourierModel.py: focalAnisoplanatismPSD"]}
{"id": "C75", "title": "Wind shake keeps exactly the residual power of the vibrations; modal filters", "statement": "The wind shake spectrum is non-negative, vanishes outside the corrected mask, and its total over the corrected area in nm^2 is the residual power of the vibrations; with gain 0 that power is the whole power of the file; it never exceeds the integral of |rejection|^2 times the spectrum; loops slower than 0.4 Hz are refused. The tilt and focus filters follow their Bessel formulas, never exceed 1 and have the right limits at the origin; the integer-order Bessel recurrence holds. False: the power equals the integral of |rejection|^2 times the spectrum (phases cancel); Bessel functions of negative even order (wrong sign).", "quantifier": "all gains, delays, rates, vibration files, grids, masks and piston filters", "why_tests_cant": "a sum over an arbitrary file and an arbitrary transfer function; conservation must hold for every one", "anchors": ["p3/aoSystem/fourierModel.py: windShakePSD, TiltFilter, FocusFilter, besselj__n"]}
{"id": "C76", "title": "Structure function of the angular anisoplanatism", "statement": "For every profile, telescope, pair of directions and grid, each structure function (one per source and layer) is non-negative, null at zero separation, symmetric, bounded by four times the power of the differential phase, and on even grids equals 2 step^2 sum of 2(1-cos(2 pi h (k.theta))) times the turbulence spectrum times the mask times 1-cos of the separation; it is null for a ground layer and for coincident directions, unchanged when source and guide star are exchanged, and defined for every finite outer scale. A successful call with a laser leaves the laser's direction as it was, evaluates the focal part on the axis and the angular part at its true direction. False: the laser is restored after a failure of the focal part (it stays on the axis); several lasers are accepted (ValueError); with a natural guide star an off-axis source is accepted by the frequency domain (it always fails: a triple is multiplied by the profile).", "quantifier": "all atmospheres, telescopes, directions, grids, masks; all outcomes of the inner functions", "why_tests_cant": "properties of a 2-D Fourier transform for every spectrum and size; state restored on every path including exceptions", "anchors": ["p3/aoSystem/anisoplanatismModel.py: angular_function, anisoplanatism_structure_function", "p3/aoSystem/frequencyDomain.py: anisoplanatismPhaseStructureFunction"]}
{"id": "C77", "title": "Wavefront errors of the anisoplanatism", "statement": "For layers between the ground and the laser the focal anisoplanatism error is always defined, follows (D/r0)^(5/3) sum w (0.5 t^(5/3) - 0.452 t^2)/0.423, grows with the telescope, and is null for ground layers; Sasiela's anisokinetism error is defined for every profile and direction (the polynomial under the root is never negative), null for coincident directions and symmetric in the two stars; the angular error is defined, non-negative, null for coincident directions. False: the two focal formulas agree (the one of the error budget is strictly smaller); Sasiela's error is independent of the unit of length (it scales as 1/length); the angular error depends on the layer strengths and r0 (it does not); the tip-tilt kernel is the quadratic form of its covariance (the cross terms are lost and it can be negative).", "quantifier": "all telescopes, atmospheres, laser altitudes and directions", "why_tests_cant": "an inequality on real powers for every altitude, a sign of a polynomial for every direction, a scaling law", "anchors": ["p3/aoSystem/anisoplanatismModel.py: anisoplanatism_wfe, focal_anisoplanatism_wfe, anisokinetism_wfe, focal_anisoplanatism_variance, anisokinetism_function"]}
{"id": "C78", "title": "Residual phase structure function reconstructed from the covariance of the mirror modes", "statement": "With the mirror's modes and the covariance C of their coefficients, the structure function computed on the pupil is, at every separation, the mean over all pairs of pupil pixels at that separation of the variance of their phase difference (null where less than 1e-7 of the pupil overlaps), whenever the decomposition used satisfies V diag(s) V^T = C; it is then non-negative, null at zero separation, symmetric, and the OTF lies between 0 and the telescope's, and the computation is defined for every non-zero covariance. False in the code: the decomposition used satisfies that equation (the transposed factor of numpy's svd is used, so that the variances of the modes are permuted: (1,3,2) becomes (2,1,3)); a noise over-subtraction (negative eigenvalue) lowers the structure function (svd's values are positive: its sign is lost); a null covariance gives the diffraction-limited OTF (UnboundLocalError); the alternative basis computes the same function (it ignores the variances of the modes and mode 0).", "quantifier": "all pupils, modal bases, covariances, enlargement factors and separations", "why_tests_cant": "an identity between a Fourier computation and a sum over all pairs of pixels, for every pupil and every matrix", "anchors": ["p3/psfr/psfrUtils.py: modes2Otf", "p3/psfr/psfR.py: residual_phase_structure_function", "p3/aoSystem/FourierUtils.py: enlargeSupport, interpolateSupport"]}
{"id": "C79", "title": "On-axis structure functions, pixel OTF and their sum in the PSF reconstruction", "statement": "The jitter structure function is (2 pi/lambda)^2 w^T C w in the rotated frame, non-negative and null at the centre for every covariance, invariant under a half-turn (and any rotation if isotropic); the covariance measured on any recording is one; the pixel OTF is at most 1 in modulus, 1 at the centre and positive for small pixels; the fitting term is r0^(-5/3)/(D samp)^2 times the structure function of the fitting spectrum and decreases with r0; the aliasing term scales as r0^(-5/3) whatever the atmosphere used; the covariance of the commands is the mean product of their increments over the gain squared, is symmetric and non-negative, and insensitive to a static offset; each source's structure function is the sum of these terms with the gains, plus its own anisoplanatism weighted by the profile, non-negative and increasing with the gains. False: the covariance stays one after the noise subtraction; a profile of the wrong length is refused (the anisoplanatism is silently dropped); a single frame or a null gain is refused (nan).", "quantifier": "all recordings, covariances, angles, sampling, power spectra, r0, gains, profiles and sources", "why_tests_cant": "sign and scaling laws for every covariance matrix, spectrum and grid size", "anchors": ["p3/psfr/psfR.py: fitting_phase_structure_function, aliasing_phase_structure_function, residual_phase_structure_function, jitter_phase_structure_function, pixel_optical_transfer_function, phase_structure_function"]}
{"id": "C80", "title": "Error breakdown of the PSF reconstruction", "statement": "Each term derived from a structure function is the wavefront error whose Marechal Strehl ratio equals the Strehl ratio of that term alone: defined and non-negative for every non-negative structure function, null for a null one, increasing with it; the square of the total is the sum of the squares of the seven terms, so that it is at least each of them; the total with the pixel is at least the total; the Strehl ratios lie in (0, 100] and the one with the pixel is the lower; the breakdown is defined for every consistent telemetry; the parameters then passed to the model give back r0 and the profile; the conversions Strehl - wavefront error are inverse of each other. False: the total contains the aliasing error (it is ignored); the breakdown is defined whatever the noise estimate (a noise above the measured jitter or residual gives nan); the parameters give back r0 with several layers and one reconstructed layer (the first weight is read as r0).", "quantifier": "all structure functions, diffraction OTFs, noise levels, profiles and wavelengths", "why_tests_cant": "an exact inverse relation and inequalities for every structure function", "anchors": ["p3/psfr/psfR.py: get_error_breakdown", "p3/psfr/psfrUtils.py: sr2wfe, wfe2sr", "p3/aoSystem/FourierUtils.py: sort_params_from_labels"]}
{"id": "C81", "title": "The parametric PSF model (PSFAO21) at one wavelength", "statement": "For every non-negative power spectrum (any size) the structure function is that of the spectrum divided by (D samp)^2, identical for all sources, non-negative, null and minimal at the centre, symmetric, at most 4 times the total power. For every parameter vector (one layer, any number of sources, with or without static coefficients) a successful evaluation gives one image per source, of the requested size (at most the field of view), whose total is the source's flux times the transmittance plus the background on each pixel; the Strehl ratios are in [0,100] for a non-negative jitter matrix; in the nominal geometry the evaluation succeeds. The reported errors are sqrt(variance) and r0^(-5/6) times the normalisation, in nm, decreasing with r0. False: with anisoplanatism (laser system) and several layers the evaluation works (every evaluation is refused: the profile multiplies the pixel axis).", "quantifier": "all power spectra, grid sizes, parameter vectors, sources, jitters, static coefficients and object states", "why_tests_cant": "sums over every image size and every parameter vector, and a bound valid for every spectrum", "anchors": ["p3/psfao21/psfao21.py: __call__, get_power_spectrum_density, get_opd_structure_function", "p3/aoSystem/FourierUtils.py: sort_params_from_labels, sf_3D_to_psf_3D, _rfft2_to_fft2"]}
{"id": "C82", "title": "An evaluation of PSFAO21 does not depend on earlier evaluations", "statement": "For every sequence of evaluations of one object in which no vector, or every vector, carries static coefficients, each result is that of a fresh object for the same vector. False in general: an evaluation with static coefficients changes all later evaluations without them (the static OTF is kept): the same vector evaluated before and after gives two different Strehl ratios.", "quantifier": "all sequences of evaluations of any length, all parameter vectors and object states", "why_tests_cant": "the property ranges over every history of calls", "anchors": ["p3/psfao21/psfao21.py: __call__", "p3/aoSystem/FourierUtils.py: sf_3D_to_psf_3D (freq.otfNCPA)"]}
{"id": "C83", "title": "PSFAO21 with several wavelengths", "statement": "For every number of wavelengths and sources, with one background at the end of the vector, every channel gives one image per source whose total is that source's flux at that wavelength plus the background on each pixel, and the evaluation succeeds in the nominal geometry. False: a vector laid out as the bounds of the model (one background per wavelength) is read as such (the construction leaves only the last wavelength in the source, so that one background is read and the others become static aberration coefficients); the default vector gives one image per source (a single source comes back as nwvl identical planes per channel; several sources, unless nwvl of them, are refused).", "quantifier": "all numbers of wavelengths (>= 2) and sources, all parameter vectors", "why_tests_cant": "for every size of the wavelength and source lists", "anchors": ["p3/psfao21/psfao21.py: __init__, __call__, define_bounds", "p3/aoSystem/FourierUtils.py: sort_params_from_labels"]}
{"id": "C84", "title": "Temporal transfer functions of the diagnosed loops close correctly", "statement": "For every loop frequency, latency, controller coefficients and temporal frequency at which systemDiagnosis computes transfer functions, the closed-loop and rejection transfer functions sum to one, the rejection is 1/(1+open loop), the closed loop is open loop x rejection and the noise transfer is servo x rejection; the open loop is sensor x servo x delay, with a delay of unit modulus. The frequency grid has nExp//2 samples ending at fs/2. The noise propagation coefficient is non-negative when nExp^2 >= 2 fs, and defined for every pure gain |g|<1. Refuted, with proofs: the first frequency is the resolution fs/nExp; the noise gain is non-negative for short records; the delay and sensor elements agree with the z-transform of the servo (a factor pi is missing).", "quantifier": "every sampling frequency, latency, controller numerator/denominator, number of exposures and frequency", "why_tests_cant": "It quantifies over all real frequencies and controller coefficients; a unit test samples a few.", "anchors": ["p3/telemetry/systemDiagnosis.py: systemDiagnosis.temporal_transfer_function"]}
{"id": "C85", "title": "Noise covariance estimated from telemetry is a covariance matrix of increments", "statement": "For every telemetry record (frames x signals, at least one frame) and every shift, the default noise estimation gives, for signals i and j, half the mean product of their increments over the shift; the matrix is symmetric, positive semi-definite, zero on the diagonal exactly for shift-periodic signals, and at most twice the signal variance; constant offsets do not matter and a scale factor enters squared. The stored record has its mean removed in place, and repeating the call gives the same matrix. The resulting noise variance is positive for each sensor as soon as one signal is not periodic. Refuted, with proofs: the methods 'rtf' and 'interpolation' work for all records (the first always raises, the second raises when signals outnumber frames), an unknown method is rejected (it silently gives zero noise), and tip-tilt noise is independent of the high-order one (it is reported zero when the high-order matrix is zero).", "quantifier": "every telemetry record of any length and number of signals, every shift, every method name", "why_tests_cant": "Positive semi-definiteness and the exact formula must hold for every record; tests see finitely many.", "anchors": ["p3/telemetry/systemDiagnosis.py: systemDiagnosis.get_noise_variance", "p3/telemetry/systemDiagnosis.py: systemDiagnosis.__init__"]}
{"id": "C86", "title": "Wind speed estimated from modal telemetry", "statement": "For every modal record, the autocorrelation computed with zero-padded FFTs is the biased non-cyclic one and is largest at lag zero; without noise subtraction the normalised one starts at one and stays within [-1,1]. For every window of at least three distinct lags the crossing time is where the least-squares line meets the threshold (slope and offset minimise the residuals), exact with zero uncertainty for linear data, with a finite non-negative uncertainty otherwise. The window has strictly increasing lags. The Student factor is positive and grows with the confidence level. With frozen flow at speed V the wind speed found is V, and it scales with the telescope diameter and the loop frequency. Refuted, with proofs: the window always has non-negative lags; the Student factor decreases with the sample size.", "quantifier": "every record length, coefficients, radial orders, window, threshold, confidence level", "why_tests_cant": "All records and window sizes; FFT identities hold for every length.", "anchors": ["p3/telemetry/systemDiagnosis.py: systemDiagnosis.get_wind_speed"]}
{"id": "C87", "title": "Radial averages, coherence time and atmosphere update after diagnosis", "statement": "For every list of radial orders and values of the same length, the radial average has one value per distinct order, in increasing order, lying between two values of that order. The coherence time satisfies tau0 v0 = 0.314 r0 with relative uncertainty the quadratic sum of those of r0 and v0. After the atmosphere update, for every multi-layer profile, the 5/3-averaged wind speed of the updated profile is the measured one, the shape of the wind profile is kept and seeing x r0 is constant; a single layer takes the measured speed.", "quantifier": "every list of radial orders/values, every profile of strengths and speeds of any length", "why_tests_cant": "Any number of layers and modes.", "anchors": ["p3/telemetry/systemDiagnosis.py: systemDiagnosis.average_radial_order", "p3/telemetry/systemDiagnosis.py: systemDiagnosis.get_atmosphere_statistics", "p3/telemetry/systemDiagnosis.py: systemDiagnosis.__init__"]}
{"id": "C88", "title": "Segmented pupil: assembly", "statement": "A polygonal segment is its reflectivity times its phase factor inside the polygon and zero outside, and is periodic in its orientation (360 degrees) and phase (2 pi). A pupil built from a field of segment centres symmetric about zero without gap filling has every segment inside its array, whose size is that of the field plus one segment; each pixel is the sum of the segments laid there times the transmission of the central obstruction and spiders; the result does not depend on the order of the segments and, without masks, its total is the number of segments times the total of the reference segment. (Findings: circular segments can never be built; a field not centred on zero puts segments outside the array.)", "quantifier": "every reference segment, field of centres, obstruction, spider matrix, order", "why_tests_cant": "The claim ranges over every set of segments, size, phase and sequence of calls; a unit test fixes one pupil.", "anchors": ["p3/aoSystem/segment.py:makeSegment,applyPhase,applyReflexivity", "p3/aoSystem/pupil.py:pupil.__init__,makePupil,getPosSeg,makeCentObs,makeSpiders"]}
{"id": "C89", "title": "Segmented pupil: removal and reflectivity of segments", "statement": "Removing segments sets their pixels to zero and no other, twice is once, in any order. On a pupil as built, with segments that do not overlap, setting the reflectivity of some segments multiplies their pixels by it and leaves the others; a second setting replaces the first; a reflectivity of one changes nothing. (Findings: where a gap was filled any setting reopens it; rotating or shrinking a segment always raises after having removed it.)", "quantifier": "every coherent pupil, list of segments and reflectivities", "why_tests_cant": "The claim ranges over every set of segments, size, phase and sequence of calls; a unit test fixes one pupil.", "anchors": ["p3/aoSystem/pupil.py:removeSegment,applyReflexivitySegment,rotateSegment,shrinkSegment"]}
{"id": "C90", "title": "Segmented pupil: shifts and phase aberrations", "statement": "A null shift changes nothing, and moving a segment to a free place and back restores the pupil. After any sequence of regular calls of applyPhaseErrorSegment on a pupil as built, each segment carries the phase of the latest call that listed it (zero if none), amplitudes are untouched and pixels outside segments stay zero; an inconsistent call changes nothing. (Findings: the limits of the shifts are taken on the wrong axis, so that a segment can be pushed out of the array, or silently lost; setting a reflectivity erases the phase.)", "quantifier": "every pupil as built, every history of calls, lists of segments, modes and coefficients", "why_tests_cant": "The claim ranges over every set of segments, size, phase and sequence of calls; a unit test fixes one pupil.", "anchors": ["p3/aoSystem/pupil.py:shiftSegment,applyPhaseErrorSegment,applyReflexivitySegment", "p3/aoSystem/segment.py:applyPhase"]}
{"id": "C91", "title": "Segmented pupil: reset, padding, border", "statement": "Whatever sequence of removals, shifts, rotations, phases and reflectivities was applied, including those that raised, reset gives back the matrix of the pupil as built. Zero padding by a factor r adds the same number of pixels on each side, to within half a pixel of n(r-1)/2, keeps every pixel at its place relative to the centre and adds only zeros. Removing the zero border cuts a square at the same offset on both axes and drops only zeros before it. (Findings: reset does not put shifted segments back; padding moves the segments twice; the removal of the border also drops the last lit row or column.)", "quantifier": "every pupil as built, every history of operations, padding ratio", "why_tests_cant": "The claim ranges over every set of segments, size, phase and sequence of calls; a unit test fixes one pupil.", "anchors": ["p3/aoSystem/pupil.py:reset,removeZeroBorder,zeroPad"]}
{"id": "C92", "title": "Segmented pupil: filled gaps", "statement": "With the gaps filled the pupil is still the sum of its segments, all with the same modified matrix, and the lit pixels of the lower half of the reference segment are unchanged. (Findings: the reference segment of the caller is modified; a pupil of a single segment, which has no gap, gets every row between the top of the segment and its middle fully lit.)", "quantifier": "every reference segment and centred field of segments", "why_tests_cant": "The claim ranges over every set of segments, size, phase and sequence of calls; a unit test fixes one pupil.", "anchors": ["p3/aoSystem/pupil.py:fillGap,findBestSegmentforFillGap,pupil.__init__"]}
{"id": "C93", "title": "Radial profile and encircled energy", "statement": "radial_profile gives, for each ring of pixels around the chosen centre (distance rounded to whole bins) except the outermost, the mean of the pixels of that ring inside the position-angle wedge, and as encircled energy the sum over the disc up to that ring divided by the largest such sum. Without normalisation the profile stays between the smallest and largest pixel and the image is untouched; for a non-negative image the encircled energy is non-decreasing, lies in [0,1] and ends at 1. On every square image of at least 3 pixels with positive centre the call succeeds, the rings are consecutive, and the reported radii are within a third of a pixel of the ring numbers. The maximal radius only filters radii and profile. radial_stddev gives the standard deviation of the pixels within half a bin of each radius. (Findings: the outermost ring is lost, so that the 'total' energy can be a ninth of the flux; normalising changes the caller's image; 1x1 and 2x2 images raise IndexError; radial_stddev mixes pixels and arcseconds unless the bin is one; the pixel at the centre is excluded from a wedge not containing 0.)", "quantifier": "every image, centre, pixel scale, bin size, wedge, maximal radius, and every sorting routine whatever it does with ties", "why_tests_cant": "The claim ranges over every image, centre, bin size and selection; a unit test fixes one image.", "anchors": ["p3/aoSystem/FourierUtils.py:radial_profile", "p3/aoSystem/FourierUtils.py:getEncircledEnergy", "p3/aoSystem/FourierUtils.py:radial_stddev"]}
{"id": "C94", "title": "Width of a PSF", "statement": "For a profile whose half-maximum level is entered strictly inside the array and which rises after the entry and falls before the exit, fwhm_1d is the distance between the two outermost crossings of half the maximum by the line joining the samples; multiplying the profile by a positive factor does not change it. getFWHM by cutting returns these widths, of the row and column through the maximum, times the pixel scale; the reported aspect ratio is the larger width over the smaller and at least one; contour points lie on the ray from the peak through the far pixel, between the two pixels; widths from a contour are ordered. An image that never falls below half its maximum gets sqrt 2 times its size. (Findings: profiles that reach the border raise ValueError or drop a sample; a steep edge gives a wrong width; a perfectly round contour is discarded and replaced by the cutting; the Gaussian method multiplies by the rebinning factor what it had divided.)", "quantifier": "every profile and image, pixel scale, rebinning factor, method", "why_tests_cant": "The claim ranges over every image, centre, bin size and selection; a unit test fixes one image.", "anchors": ["p3/aoSystem/FourierUtils.py:fwhm_1d", "p3/aoSystem/FourierUtils.py:find_contour_points", "p3/aoSystem/FourierUtils.py:getFWHM"]}
{"id": "C95", "title": "Strehl ratio and diffraction-limited OTF", "statement": "For a non-negative pupil and a sampling above one, telescopeOtf returns an array of the size of the zero-padded pupil with real values between 0 and 1 reaching 1, equal to the self-convolution of the padded pupil divided by its peak, and of total (sum of the pupil)^2 / peak. getStrehl with method 'otf' on a non-negative image of that size is N times the pixel of index (n+1)/2 on each axis over the total of the image, times peak/(sum of the pupil)^2, rounded; it does not depend on the flux and leaves the image unchanged. With method 'max' it is the peak over the total of the image over the same of the diffraction-limited PSF. (Findings: a symmetric pupil gives its autocorrelation but displaced by one pixel from the centre of the array; a pupil without central symmetry does not give an OTF at all - zero at zero frequency for an L-shaped pupil; on images of odd size the pixel next to the centre is read, so that a perfect image has a Strehl ratio of 0; method 'max' divides the caller's image in place.)", "quantifier": "every non-negative pupil, rational sampling above one, non-negative image, flux", "why_tests_cant": "The claim ranges over every pupil, image, size and sampling; a unit test fixes one.", "anchors": ["p3/aoSystem/FourierUtils.py:telescopeOtf", "p3/aoSystem/FourierUtils.py:getStrehl", "p3/aoSystem/FourierUtils.py:psf2otf"]}
{"id": "C96", "title": "Covariance matrix to covariance map", "statement": "matrix_to_map of an n^2 x n^2 matrix is a (2n-1) x (2n-1) map, symmetric under both axis flips, whose values are the means of the matrix over the pairs of grid points with the corresponding separation; its centre is the mean of the diagonal; it stays within the range of the matrix; a stationary covariance that is even on each axis is recovered exactly. Matrices whose size is not a perfect square are refused. get_diags and toeplitz of a matrix constant along its upper diagonals give its first row and the first row weighted by the number of entries. (Finding: a stationary covariance only symmetric through the origin is not recovered - two quadrants are copied onto the other two.)", "quantifier": "every matrix, every grid size, every stationary covariance", "why_tests_cant": "The claim ranges over every pupil, image, size and sampling; a unit test fixes one.", "anchors": ["p3/aoSystem/FourierUtils.py:matrix_to_map", "p3/aoSystem/FourierUtils.py:get_diags", "p3/aoSystem/FourierUtils.py:toeplitz"]}
{"id": "C97", "title": "Focal-angular anisoplanatism maps", "statement": "focal_angular_function returns one map per source and per layer; ground layers give a zero map; the value at zero separation is zero for every direction; on axis the map is the mean, over the pairs of pupil points with each separation, of the structure function of the difference between the cylinder to the source and the cone to the guide star. (Finding: off axis a term enters with the wrong sign of the direction; the theorem gives the exact excess, which does not vanish at non-zero separation.)", "quantifier": "every covariance function, telescope, outer scale, guide star height, heights, directions, number of actuators", "why_tests_cant": "The claim ranges over every pupil, image, size and sampling; a unit test fixes one.", "anchors": ["p3/aoSystem/anisoplanatismModel.py:focal_angular_function", "p3/aoSystem/FourierUtils.py:Ialpha", "p3/aoSystem/FourierUtils.py:mcDonald"]}
{"id": "C98", "title": "Telescope pupil, non-common path aberrations and static modes", "statement": "Building a telescope of diameter D with n pixels (n>=2) and no pupil file gives an n x n pupil of zeros and ones whose pixel is one exactly when its distance to the centre is at most D/2 and larger than obsRatio*D/2; the pupil angle has no effect on it, it has the symmetries of the square, and it decreases with the obstruction. Without obstruction it is the full disc except that, for odd n, the central pixel is dark. An obstruction >= 1 or n <= 2 gives a pupil without light. The map made from Zernike coefficients is the given static map plus the sum of coefficients times profiles, each an affine image of the masked Zernike polynomial with zero mean and unit mean square over the WHOLE array (not the pupil): a tilt coefficient c then gives 2|c| rms over a 4x4 pupil, a defocus leaves an offset outside the pupil, and the profiles are not orthogonal although the code says so. Pupil files have NaN replaced by 0 and are kept when their number of rows is right (even if not square). Static modes are stored one map per mode, modes-first cubes being recognised by s1<>s2 only, so that a cube n x n x n is read along the wrong axis.", "quantifier": "all diameters, obstructions, angles, resolutions, pixels, coefficient lists, files and cubes", "why_tests_cant": "the claim ranges over every resolution, obstruction and coefficient list; parity and degenerate cases escape a few examples", "anchors": ["p3/aoSystem/telescope.py: telescope.__init__, set_pupil, area", "p3/aoSystem/zernike.py: zernike"]}
{"id": "C99", "title": "Spider mask", "statement": "A spider object built with a resolution n, a width of at least a pixel and as many origins as angles (or none) has an n x n mask of zeros and ones; a pixel under one of the spiders is dark, a pixel clear of all of them is transmitting (and in the annular pupil when that mask is requested). A symmetric spider without origin covers the whole band closer to its axis than (w/2)/sqrt(1+(w/2D)^2). A non-symmetric spider extends from its origin AWAY from its direction: no pixel in front of the origin is dark. Spiders thinner than a pixel give a transparent mask even if the pupil mask was requested; inconsistent numbers of origins give no mask; a resolution given later works without origins but yields a mask without any spider when origins were given; keckSpiderMask() raises TypeError; the petals are binary masks that add up to the mask.", "quantifier": "all angles, widths, origins, diameters, resolutions and pixels (point-in-polygon tests that are right on convex polygons, boundary open)", "why_tests_cant": "an all-pixels, all-angles geometric statement; the direction and deferred-resolution defects only show for particular option combinations", "anchors": ["p3/aoSystem/spiders.py: spiders.__init__, makeSpiders, keckSpiderMask", "p3/aoSystem/FourierUtils.py: inpolygon"]}
{"id": "C100", "title": "Detector object: fields of view and wavelengths", "statement": "A detector is accepted only with as many transmittances as dispersion values; its number of wavelengths is that number; the field in arcsec is pixel scale times field /1000, element by element when one or both are lists. Lists with fewer pixel scales than fields are refused; extra pixel scales are silently dropped; printing works exactly for two numbers.", "quantifier": "all scalars and lists of pixel scales, fields, transmittances and dispersions", "why_tests_cant": "the combinations of scalars and lists of every length cannot be enumerated", "anchors": ["p3/aoSystem/detector.py: detector.__init__, __repr__"]}
{"id": "C101", "title": "Atmosphere used by the reconstructor and guide-star stretching", "statement": "Initialising a model on a valid system leaves the profile untouched when the number of reconstructed layers is at least the number of layers; otherwise the modelled altitudes and weights are those of the equivalent-layer compression and the modelled winds are equally spaced between the smallest and largest true wind speeds (and directions), whatever layer carries which wind, and a single modelled layer gets the slowest wind. With a guide star at infinity altitudes are unchanged, with a guide star at height H each altitude h becomes h/(1-h/H). Initialisation succeeds for every consistent profile. A layer above the guide star is not refused (its stretched altitude is negative), and a guide-star height 0 together with compression makes the modelled altitudes collapse.", "quantifier": "all profiles (any number of layers, weights, altitudes, winds), numbers of reconstructed layers and guide-star heights", "why_tests_cant": "the statement ranges over every profile and number of layers; the wind pairing defect is invisible with monotone winds", "anchors": ["p3/aoSystem/fourierModel.py: fourierModel.initComputations", "p3/aoSystem/FourierUtils.py: eqLayers"]}
{"id": "C102", "title": "Initialisation: side effects, noise wavelength, repeated initialisation", "statement": "A system whose construction failed is not initialised. Initialisation moves the shared atmosphere to the guide-star wavelength, builds the spatial-frequency domain for the science wavelengths, and computes the noise variance of each sensor for the r0 at that sensor's wavelength, provided the atmosphere was given at 500 nm; with another wavelength the noise is computed with a wrong r0. For one sensor, initialising again gives the same result as long as the field-of-view test is met; with two or more sensors a second initialisation raises ValueError, and the field-of-view test may refuse on the second run a system it accepted on the first, because the atmosphere's wavelength was changed by the first.", "quantifier": "all systems, numbers of sensors, atmosphere wavelengths and histories of two initialisations", "why_tests_cant": "idempotence and interference through shared objects are statements over histories, not over single calls", "anchors": ["p3/aoSystem/fourierModel.py: fourierModel.__init__, initComputations", "p3/aoSystem/frequencyDomain.py: frequencyDomain.kcInMas", "p3/aoSystem/atmosphere.py: atmosphere.wvl"]}
{"id": "C103", "title": "Reported PSF metrics", "statement": "Asking for the PSF metrics fills, for every source and wavelength, the two contour widths of that PSF at the pixel scale of that wavelength (zeros when widths are not requested), and, when requested, 100 times the ensquared and encircled energy curves of that PSF. The encircled curves of non-negative PSFs of one shape all have the same length, never decrease, lie in [0,100] and end at 100. The ensquared report works for PSFs of even size 2h equal to the OTF size and peaked at the centre: h+1 values, the i-th being the percentage of energy in the square of half-width i, the last one 100. When the detector image is a 1/k crop of the OTF grid (k>=2) and the peak is not in the corner, it raises ValueError.", "quantifier": "all PSF cubes, numbers of sources and wavelengths, oversampling factors and options", "why_tests_cant": "ranges over all cubes and oversampling factors; the failure occurs only for one option with oversampling", "anchors": ["p3/aoSystem/fourierModel.py: fourierModel.getPsfMetrics", "p3/aoSystem/FourierUtils.py: getEnsquaredEnergy, getEncircledEnergy, getStrehl, getFWHM"]}
{"id": "C104", "title": "PSF cube computed by the Fourier model", "statement": "Called without parameters after initialisation the model returns, for every source and wavelength, an image of the requested size, without background, whose flux is the transmittance share of that wavelength; with a complete parameter vector (jitter, flux, position, background, static coefficients) and several wavelengths the flux of each image is the requested flux times that share plus the background. Strehl ratios lie in 0..100 and adding the pixel transfer function never raises them. For several wavelengths, or when static coefficients are given, the result does not depend on earlier calls. Defects: with several wavelengths a Nyquist-sampled request whose spot width is zero fails at construction; when the number of backgrounds in the model is neither 1 nor the number of simulated wavelengths every complete call fails; with one wavelength, static coefficients of an earlier call stay in force in later calls that give none.", "quantifier": "all models (numbers of wavelengths and sources, structure functions, sizes), parameter vectors and histories of earlier calls", "why_tests_cant": "ranges over every parameter vector and every history of calls on the same object", "anchors": ["p3/aoSystem/fourierModel.py: fourierModel.point_spread_function, fourierModel.__call__", "p3/aoSystem/FourierUtils.py: sort_params_from_labels, sf_3D_to_psf_3D, sf_3D_to_psf_4D"]}
{"id": "C105", "title": "Image-processing helpers", "statement": "Adding detector noise scatters each pixel with variance nDIT*ron^2 + dark*T + signal + sky*T, is refused exactly when some photon rate is negative, and clips the caller's image in place; but the mean of the noisy images is twice the noise-free image. Re-centring an image keeps its flux at any resampling factor and refuses rectangular images; on an even square image whose brightest pixel is an odd number of pixels from the centre, it moves the image cyclically by only half that distance, so the brightest pixel is not brought to the centre (unless it was at (h+1,h+1)). The dead-pixel correction never changes an image: it returns its input or fails, and it fails as soon as a row of the frame has a non-zero weight sum. The Gaussian fit function peaks at its amplitude at its centre only, and has full width 2 sqrt(2 ln 2) times the spread along each rotated axis. Interpolated radial profiles are non-negative, reproduce constant images scaled by (step/pixel)^2, and cover the radii from the first up to, excluding, the last.", "quantifier": "all images, sizes, draws of the random generator, numbers of realisations, frames and parameters", "why_tests_cant": "the mean and variance statements are over all sets of draws; the others over all images and frames", "anchors": ["p3/aoSystem/FourierUtils.py: addNoise, centerPsf, correctFromDeadPixels, gaussian, interpolate_1d, interpolate_2d"]}
{"id": "C106", "title": "PSF of a pupil and of a residual-phase PSD", "statement": "At an oversampling of 2 or more, the PSF of any square non-negative pupil with any phase map is the squared modulus of its far field (Fraunhofer diffraction), divided by n^2 times the pupil energy and sampled half a pixel off centre on even grids; hence it is non-negative, sums to 1 and does not depend on piston. The PSF of a residual-phase PSD on an even grid is the inverse transform of exp(-D/2), D being the structure function of that PSD; it sums to 1. Positivity fails: with no residual phase every even grid of at least 4 pixels has a negative pixel, and so has the PSF of a fully open pupil at oversampling 1.", "quantifier": "all pupils, phase maps, sizes, oversamplings and PSDs", "why_tests_cant": "an identity between functions of arbitrary arrays; unit tests compare a few arrays to stored results", "anchors": ["p3/aoSystem/FourierUtils.py: pupil2psf, pupil2otf, otf2psf, fftCorrel, psd2psf, psd2otf"]}
{"id": "C107", "title": "Distributing test files over sub-folders", "statement": "Splitting a test set over about n sub-folders moves every .fits file of the folder, contents unchanged, into exactly one of m >= 2 sub-folders, gives each sub-folder the same number of files and changes nothing else; m is the divisor of the number of files below 2n that is nearest to n (the smaller of two equally near). The call is refused with ValueError exactly when no such m >= 2 is selected. Findings: asking for one sub-folder is always refused, and a file count whose only suitable divisor is 2n-1 is refused too (21 files for 2 sub-folders).", "quantifier": "all folder contents, numbers of files and sub-folders, and random permutations", "why_tests_cant": "a conservation statement over every folder content and every shuffle", "anchors": ["p3/deepLoop/dataGenerator.py: split_test_data"]}
{"id": "C108", "title": "Parameter values of a generated data base", "statement": "Every drawn value of the main parameter and of the variance lies between the edges of the interval recorded for it, the n x n columns enumerate all pairs of intervals once, and the edges are equally spaced between the converted bounds up to rounding; the secondary parameters lie between their bounds, the power-law exponent being a regular ramp. A request is accepted exactly when bounds agree in length and are long enough, n*n does not exceed the number of samples and the static modes are described when used. Finding: rounding the edges can put an edge outside the bounds and give two intervals the same label.", "quantifier": "all bounds, sizes, decimals, wavelength factors and random draws in [0,1]", "why_tests_cant": "ranges over all draws of the random generator and all bounds", "anchors": ["p3/deepLoop/dataGenerator.py: generate_parameters_values"]}
{"id": "C109", "title": "Images of a generated data base", "statement": "Each generated image is the inverse transform of the chosen OTF times exp(-D/2), D the structure function of the spectrum of its parameters, so its total is the OTF at zero frequency. Noise: magnitude 0 adds none; otherwise the image is photon counts plus sky plus read-out noise shifted so that its smallest value is zero (biased background). The test set takes the same number of files from each folder, never more than asked. Finding: with r0 as main parameter (the default) the value of r0 has no effect on the image although it labels it.", "quantifier": "all parameter tables, spectra, OTFs, draws, and numbers of files", "why_tests_cant": "an identity over arbitrary arrays and draws, and a non-interference statement over all pairs of r0 tables", "anchors": ["p3/deepLoop/dataGenerator.py: generate_psf (spectrum, image, noise, test set)"]}
{"id": "C110", "title": "Seeing-monitor tables", "statement": "A time stamp read from the MASS/DIMM files is converted to universal time (ten hours later) correctly except on the last day of a month, where the resulting day does not exist. A look-up returns a record whose time of day is nearest to the one asked, and answers whenever the table is not empty. Combining MASS and DIMM gives the ground layer exactly the remainder of the 5/3 powers of the seeings and no number when the free atmosphere exceeds the total. Appending to a list of exposures makes each line depend on its own date and time only. Findings: the time of day is not circular and dates are ignored, and a record hours away is accepted unless the table is verbose.", "quantifier": "all dates, tables, times, seeings and lists of exposures", "why_tests_cant": "calendar and nearest-neighbour statements over all dates and tables", "anchors": ["p3/telemetry/massdimm.py: DIMM, MASS, MASSPROF, indexTime, append_mass_dimm, CombineMASSandDIMM"]}
{"id": "C111", "title": "Quantities derived from a Keck image header", "statement": "Loop delays exist exactly for the wavefront-processor programs 0 to 7 and lie between 0.74 and 28.04 ms; the laser mode is chosen exactly by LSPROP in any letter case, and the defocus is the distance to the focus of that mode; the airmass is the inverse sine of the elevation; the read-out noise falls as the square root of the number of reads. The filter table is left alone when increasing and becomes strictly increasing when values repeat at most twice with enough room; only transmissions above one percent are kept. The band is sampled end to end by equally spaced wavelengths carrying the least-squares line of the selected transmissions; a narrow band gives the header's central wavelength. Finding: a wavelength repeated three times stays repeated.", "quantifier": "all headers, filter tables and sampling requests", "why_tests_cant": "least-squares optimality over all lines and tables, and header look-ups over all values", "anchors": ["p3/telemetry/keckUtils.py: estimateLoopDelay, getStagePositionWFS, getTelescopeAirmass, getExposureConfig, getFilterProfile, samplingFilterProfile"]}
{"id": "C112", "title": "OTF from a zonal phase covariance", "statement": "Given the covariance matrix of the phase at the valid actuators of an n x n grid, each value of the 2n x 2n transfer function is the mean over the valid actuators of exp(-D/2) for the pairs of actuators separated by that lag, D being the structure function C(k,k)+C(l,l)-2C(k,l). For a covariance with non-negative structure function the values lie in [0,1], the value at zero lag (row n, column n) is one, and the first row and column are zero. A symmetric covariance gives an even transfer function, and adding a constant to the covariance (piston) changes nothing. The lag along the rows of the actuator grid runs along the columns of the result (transposed). Finding: without a mask of valid actuators only the covariances of the first n actuators are used.", "quantifier": "all grid sizes, pitches, masks and covariance matrices", "why_tests_cant": "ranges over all masks, covariance matrices and grid sizes", "anchors": ["p3/psfr/psfrUtils.py: pointWiseLocation, mkotf_indpts, mkotf, zonalCovarianceToOtf"]}
{"id": "C113", "title": "Spectrum of the phase reconstructed from slopes", "statement": "The spectrum has side 2n (n even) or 2n-1 (n odd) for n x n actuators, is non-negative, sums to side^2 times the mean over frames of the total squared phase (Parseval) and its centre is the mean squared total phase. A reconstructor whose number of actuators is not a square, or frames of another length, are refused. Finding: the open-loop slopes add the commands of the same frame and of the previous frame, instead of two and one frames apart: the shift of the other axis is added to that of time.", "quantifier": "all reconstructors, slope series, commands and delays", "why_tests_cant": "Parseval's identity over all slope series and sizes", "anchors": ["p3/psfr/psfrUtils.py: compute_psd_from_slopes, getOLslopes"]}
{"id": "C114", "title": "Screening of SPHERE data and wavefront-sensor tables", "statement": "The wavefront-sensor tables of a SPHERE header are total on the three known filters (wavelength and bandwidth as tabulated), the centroid window is 3, 2 or 1 pixels and does not grow for a fainter star, the loop delay is 1, 2 or 3 frames and does not shrink at a higher rate; an absent filter is a KeyError and an unknown one a TypeError. Screening answers for square frames of 33 pixels or more with noise. Findings: the screening of corrupted images never rejects an image (its conditions are chained comparisons instead of a disjunction): only folders without a SPARTA file are moved; the window of 1.5 pixels is never returned; stars of magnitude 10.5 to 11.3 get a larger gain than brighter ones, fainter ones get None.", "quantifier": "all lists of folders, images, headers, magnitudes and frame rates", "why_tests_cant": "ranges over all images and all real magnitudes and rates", "anchors": ["p3/telemetry/sphereUtils.py: remove_corrupted_data, read_strehl_value, grab_wfs_parameters, define_wfs_wavelength, define_wfs_window, define_loop_delay, define_loop_gain"]}
{"id": "C115", "title": "Tip-tilt filter and low-wind-effect error", "statement": "Filtering a phase map removes the tip and tilt over the pupil that fit it best in the least-squares sense and nothing else: the result is orthogonal to tip and tilt, filtering twice changes nothing more, maps that differ by a tip-tilt over the pupil give the same result and a pure tip-tilt gives zero. The modal coefficients returned are least-squares coefficients of the filtered map. The error of a row of static coefficients is the standard deviation of the non-zero pixels of the filtered map and does not depend on its tip-tilt. Maps or modal bases of another size are refused. Finding: a row without any coefficient makes the call fail when tip-tilt is not removed.", "quantifier": "all pupils, phase maps, modal bases, coefficients; any pseudo-inverse satisfying the Penrose conditions", "why_tests_cant": "orthogonality and optimality over all maps and pupils", "anchors": ["p3/telemetry/sphereUtils.py: compute_tiptilt_filtering_matrix, remove_tiptilt_from_phase, compute_lwe_wavefront_error"]}
{"id": "C116", "title": "Sorting telemetry files and recentring frames", "statement": "Sorting a telemetry folder moves every .fits file of the listing, with its contents, to the sub-folder of its date and changes no other file; the date is the part of the name between the first dot and the next T. Cleaning frames at least as large as the window returns the mean of windows around a brightest pixel of each frame divided by the exposure time and the transmission, brightest pixels stacked on pixel (n/2, n/2); it refuses odd windows and windows leaving the frame. Finding: a frame one pixel smaller than the window with its star in the centre is accepted and its last pixel is repeated over the whole window.", "quantifier": "all file systems, listings, names, frame stacks and window sizes", "why_tests_cant": "ranges over all folder contents and all frames", "anchors": ["p3/telemetry/sphereUtils.py: sort_telemetry_folder, process_clean_data"]}
{"id": "C117", "title": "Row of the SPHERE data base", "statement": "Fitting an image gives one value per column of the data base, all column names being different for any number of modes; fitted parameters, their errors, the coefficients of the static modes and the criteria stand under their names, and -1 under the modes that were not fitted (static modes are fitted when asked for and the Strehl ratio is at least 0.4). The initial guess has one value per parameter; its residual variance gives the measured Strehl ratio by exp(-variance); its flux is the sum of the image made non-negative (or 1 when normalised). Fried's parameter is fixed exactly when the corrected region n_act lambda/D is wider than the image; the jitter is always fixed; the other parameters are free. Findings: the column FWHMY FIT repeats the width along x; static modes without a Strehl ratio fail with a TypeError.", "quantifier": "all images, cameras, numbers of modes, Strehl ratios and fit procedures preserving the number of parameters", "why_tests_cant": "ranges over every fit outcome and number of modes", "anchors": ["p3/telemetry/sphereUtils.py: define_initial_guess, define_fixed_parameters, fitting_image, update_data_struct, define_database_colnames"]}
{"id": "C118", "title": "Resampling of images and transfer functions", "statement": "Resampling returns the size asked for. The linear kind is the bilinear mean of the four surrounding samples on axes normalised by the size with pixel n/2 at 0: it creates no new extremum and is linear in the image. Both linear and cubic kinds reproduce the samples the two grids share: the central one (n/2, n/2) for any sizes, and every d-th one when the size is divided by d. The nearest kind returns only values of the image, in order, corners going to corners. Asking for the present size returns the image; the default cubic kind refuses images that are not square or have fewer than 4 pixels. A Shannon-sampled transfer function gives a PSF of the requested size with unit sum. Findings: with even sizes an image symmetric about its centre loses its symmetry near the edge when enlarged; the nearest kind moves the centre by one pixel when halving.", "quantifier": "all images, sizes and kinds; any cubic interpolant through the samples", "why_tests_cant": "ranges over every image and every pair of sizes", "anchors": ["p3/aoSystem/FourierUtils.py: interpolateSupport, otfShannon2psf, telescopePsf"]}
{"id": "C119", "title": "Phase on petals, rotation and resizing of a pupil", "statement": "Applying coefficients to petals multiplies the pupil by a unit-modulus phase on the petals named and leaves the amplitude of every pixel unchanged; with pistons (Zernike mode 1) each petal receives exactly its own piston; petals beyond the last one are ignored with their coefficients; a call without valid petals, modes or coefficients changes nothing. Rotation leaves the masks of the object non-negative and by zero degrees changes nothing. Resizing gives the size asked for with pixels of the former pupil. Findings: a second call erases the phase of the first one; negative petal indices count from the last petal instead of being refused; after two rotations only the last angle is recorded; after a resize without flagReplace the former size cannot be restored; after a resize with flagReplace a pupil with central obscuration cannot be reset.", "quantifier": "all pupils, petals, modes, coefficients, angles and sizes; any rotation and interpolation routine", "why_tests_cant": "ranges over all sequences of calls and all pupils", "anchors": ["p3/aoSystem/pupil.py: computeModes, applyPhasePetal, rotatePupil, resize, reset"]}
{"id": "C120", "title": "Theoretical error budget of an AO system", "statement": "The error budget computed when a system is configured is the one of its formulas, in nanometres: fitting 0.23 (pitch/r0)^(5/3), aliasing 0.07 (dsub/r0)^(5/3), servo-lag proportional to the mean wind over diameter times bandwidth, means of noise variances, focal anisoplanatism. It answers for every system in its physical range; the total is the quadratic sum of the terms (no smaller than any, no larger than their sum) and the Strehl ratio, at the science wavelength, is strictly between 0 and 1. The turbulence terms do not depend on the wavelength chosen for the atmosphere; a faster loop never has a larger lag, a larger total or a smaller Strehl ratio. Findings: mirrors of up to 4 valid actuators (12 with a tip-tilt loop) get no servo-lag error at all; adding a tip-tilt loop of the same bandwidth drops the second radial order from the budget.", "quantifier": "all systems in their physical range: diameters, atmospheres, loops, sensors, noise variances, laser altitudes", "why_tests_cant": "quantified over all systems; achromaticity and monotonicity relate pairs of systems", "anchors": ["p3/aoSystem/aoSystem.py: errorBreakdown", "p3/aoSystem/rtc.py: __init__", "p3/aoSystem/deformableMirror.py: nControlledRadialOrder"]}
{"id": "C121", "title": "Evaluating a network: reading its results and measuring its accuracy", "statement": "Each line of a results file (truth then estimate, as many numbers as the first line holds) is read as the truth and the estimate of one sample, in order, with the labels of the first half of the label line; lines of words or of another length are refused. For paired lists the metrics are the difference of the means, the standard deviations, medians within one standard deviation of the means, and a correlation in [-1,1] equal to the covariance over the product of deviations: all zero and one for a perfect estimate, +1 or -1 for an affine one, unchanged (relative ones) or proportional (absolute ones) under a change of unit, undefined for a zero truth or a constant list. The mean absolute PSF difference never exceeds the quadratic one; the PSF error in percent vanishes exactly for equal PSFs and ignores a common factor; the accuracy over several tests lies between those of the tests. Findings: the last sample of a file is never read; a line of n+1 numbers is accepted, its last number being taken as the estimate of all parameters; the last static mode is dropped before the PSF is computed; the column 'mean bias' is a mean of medians, zero for networks whose mean error is not.", "quantifier": "all result files, all paired lists of truths and estimates, all PSFs and lists of tests", "why_tests_cant": "statistical identities and inequalities over lists of any length (Cauchy-Schwarz, optimality of the median)", "anchors": ["p3/deepLoop/deepLoopPerformance.py: read_txt_files, get_parameters_metrics, get_psf_metrics, measure_accuracy_metrics"]}
{"id": "C122", "title": "Names and consistency of a training data base", "statement": "The values recovered from the names of the folders are, in increasing order and without repetition, exactly those of the names; malformed names are refused. A file name gives the numbers that follow its r0 label; the number of static modes is the number of consecutive labels m1...mn. The verification accepts a data base exactly when all folders hold the same number of files, r0 and A of the files are (rank by rank, row by row) within the intervals deduced from the names, every other parameter takes as many values as there are files per folder, and the fits succeed. Findings: the last rank of each block is not examined, so the largest r0 or A of each row may be anything; 'identically distributed' is only a count of distinct values, so folders with different distributions pass; a base with a single r0 or A always fails with an IndexError.", "quantifier": "all data bases: any number of folders, files and parameters, any values", "why_tests_cant": "the acceptance condition is an equivalence over bases of any size", "anchors": ["p3/deepLoop/dataBaseVerification.py: verifyDataBase", "p3/deepLoop/recover_list.py: recover_main_parameters_values_from_subfolders"]}
{"id": "C123", "title": "Open-loop operation", "statement": "When the gain of the high-order loop is zero the phase spectrum is the one of the turbulence without its piston: at every pixel it is defined (finite outer scale), nonnegative, at most the turbulence spectrum in nm^2 and equal to it where the piston filter is one, independent of guide stars and loop, and proportional to r0^(-5/3). With an infinite outer scale it is undefined exactly at the null frequency. Finding: a single plane is computed whatever the number of sources, so the other sources have no spectrum.", "quantifier": "all atmospheres, telescopes, frequencies and pixels, all configurations of guide stars and sources", "why_tests_cant": "quantified over all frequencies and atmospheres; scaling relates pairs of systems", "anchors": ["p3/aoSystem/fourierModel.py: powerSpectrumDensity", "p3/aoSystem/atmosphere.py: spectrum", "p3/aoSystem/FourierUtils.py: pistonFilter"]}
{"id": "C124", "title": "Zernike statistics, actuators and photons from telemetry", "statement": "The reconstructed covariances of Zernike coefficients and of tip-tilt are covariance matrices (square, symmetric, nonnegative on every combination of modes); a pattern held during the whole acquisition and a piston of each frame added to the commands do not change them; telemetry k times larger gives coefficients k times larger and covariances k^2 times larger; each frame of the open-loop commands has no piston, each coefficient a zero mean. With two diameters the actuators kept are exactly those whose peak lies between the two radii, in order, each with its own influence function; without, the valid ones. The number of photons is the mean of the brightest pixels (half the number of nonzero entries, rounded up): between the darkest and the brightest pixel and at least the overall mean; the read-out noise is nonnegative, null for identical exposures. Findings: a delay of a whole number of frames counts the residual twice; the shift for the delay is along the actuators and not in time; without laser the tip-tilt covariance is the variance of the focus (1 x 1); a single diameter is refused.", "quantifier": "all telemetry sequences of every size, all delays, all influence functions, masks, diameters, intensities and gains", "why_tests_cant": "quantified over all telemetry sequences; the invariances relate pairs of acquisitions", "anchors": ["p3/telemetry/systemDiagnosis.py: get_number_photons, select_actuators, reconstruct_zernike, get_atmosphere_statistics"]}
{"id": "C125", "title": "Calibration of the PSF over a field", "statement": "A calibration accepted by generate_psfs_grid_from_image returns one interpolated PSF per segment, and nPSFMax stars per segment: positions, sub-images (cut around each star), columns of the table and fitted PSFs in the same number and order. Each column holds the parameters, errors, position, distance and metrics of its own fit, zeros when no star is found; each fitted PSF is the model with its own parameters but one r0 for all, between the smallest and largest fitted. Each fit starts from as many values as flags, fluxes adding up to one, nothing fixed but the constant and the jitter. With equal fluxes and positive errors the interpolated PSFs keep the flux. With one star per segment the stars without fit are ignored. With the interpolation of parameters two targets at the same distance of the centre have the same PSF. When the size is a multiple of twice the number of segments the targets are the centres of the segments. Findings: default magnitude limits are refused; fewer than four fitted stars with one missing, or with several stars per segment one missing, make every value undefined; targets drift from the centres for other sizes.", "quantifier": "all images, catalogues, numbers of segments and stars, all detectors, fitters and models (arbitrary functions), all sorting functions", "why_tests_cant": "quantified over all images and over arbitrary fit results; failures depend on combinations of missing stars", "anchors": ["p3/psfFitting/fittingUtils.py: generate_psfs_grid_from_image, fit_multiple_psfs, interpolate_psfs_in_fov, compute_psfs_grid"]}
{"id": "C126", "title": "Catalogues of stars are read exactly", "statement": "read_catalog with one line of labels returns the labels and the table whose value (k, n) is the word k of the line n+1, for files of any size; a line with too few words or a word that is not a number is refused. Finding: any other number of lines to skip is refused (or, when a single value is left, gives a table of repeated values).", "quantifier": "all files (any number of lines, columns and words), all numbers of lines to skip", "why_tests_cant": "quantified over all files", "anchors": ["p3/psfFitting/fittingUtils.py: read_catalog"]}
{"id": "C127", "title": "Central symmetry of the residual spectrum", "statement": "With one guide star, every contribution to the residual power spectrum except the aliasing takes the same value at a spatial frequency and at the opposite one: noise, reconstruction, anisoplanatism, chromatism, differential refraction and fitting always; servo-lag and spatio-temporal errors when the loop delay is a whole number of frames or no layer crosses exactly half a period per frame. The residual phase is therefore a real field. The aliasing term is not symmetric: its value at the opposite frequency is the one at the frequency itself with fold orders -n+1..n instead of -n..n-1, and on the axis of the frequency plane it is strictly larger at negative frequencies.", "quantifier": "every system with one guide star (sensor type, gains, turbulence profile, wind, source direction), every pixel of the corrected area and its opposite, every number of fold orders", "why_tests_cant": "a test compares a few pixels of one configuration with a tolerance; the symmetry must hold for every configuration and the asymmetry of the aliasing is small enough to hide in the tolerance", "anchors": ["p3/aoSystem/fourierModel.py: noisePSD, reconstructionPSD, servoLagPSD, spatioTemporalPSD, anisoplanatismPSD, chromatismPSD, differentialRefractionPSD, fittingPSD, aliasingPSD"]}
{"id": "C128", "title": "Scaling of the residual error with the turbulence strength", "statement": "With a least-squares reconstructor, changing the Fried parameter from r0 to r multiplies every turbulence-driven spectrum (reconstruction, servo-lag, spatio-temporal, anisoplanatism, differential refraction, chromatism, fitting, aliasing, and the open-loop spectrum) by (r/r0)^(-5/3) at every frequency and leaves the noise spectrum unchanged, so the wavefront errors of the breakdown scale as (r/r0)^(-5/6). With a regularised reconstructor only the noise-to-turbulence ratio matters: multiplying the noise variances by the same factor as the turbulence leaves the reconstructor unchanged and multiplies every contribution, noise included, by that factor.", "quantifier": "every system with one guide star, every pair of positive Fried parameters, every frequency, regularisation, profile and direction; failures included", "why_tests_cant": "tests run at one or two seeings; the scaling law must hold for every pair of r0 and every configuration, and a missing r0 factor in a single contribution only shows at the untested seeing", "anchors": ["p3/aoSystem/fourierModel.py: noisePSD, reconstructionPSD, servoLagPSD, spatioTemporalPSD, anisoplanatismPSD, differentialRefractionPSD, chromatismPSD, fittingPSD, aliasingPSD, errorBreakDown", "p3/aoSystem/atmosphere.py: spectrum"]}
{"id": "C129", "title": "Anisoplanatism vanishes with the angle and with the altitude", "statement": "The anisoplanatism spectrum of a source is non-negative, at most four times the turbulence and at most (2 pi |k| |theta|)^2 times the second moment of the altitudes times the turbulence; it is the same for opposite directions, zero for ground turbulence, zero at frequencies whose phase is constant along the separation, and unchanged when the altitudes are multiplied by s and the angle divided by s. The differential refraction has the same bounds with tan(theta), and is zero at zenith.", "quantifier": "every valid system with one guide star and layer weights summing to one, every source direction, refraction angle, frequency", "why_tests_cant": "a bound over all directions, profiles and frequencies cannot be tested; tests evaluate a few field positions", "anchors": ["p3/aoSystem/fourierModel.py: anisoplanatismPSD, differentialRefractionPSD"]}
{"id": "C130", "title": "Parameters of an observation read from the SPHERE archive", "statement": "For a telemetry table in order of time, the photon number per sub-aperture and the frame rate of an observation are the medians over a window that contains the sample nearest to the date of the observation and every sample within half the exposure time of it, with at most one more sample at each end; the number of photons is divided by the number of sub-apertures. Without table they are nan. The turbulence statistics are the last row (all frames) of the four planes of the file. Temperatures are exactly the floating point header values whose key contains TEMP; the read-out noise is never null; the airmass lies between its two header values; dates are split exactly. Observations without a statistics file, tables with a rate but no flux, and tables in decreasing order are not handled.", "quantifier": "every table, date, exposure time, number of sub-apertures, header and statistics array", "why_tests_cant": "the window depends on the position of the date among arbitrary time stamps; tests use one table", "anchors": ["p3/telemetry/sphereUtils.py: read_sparta_data, find_closest, get_detector_config, get_telescope_pointing, get_temperature, get_date, instantiate_psfao_model"]}
{"id": "C131", "title": "PSF reconstruction over a data base and over simulations", "statement": "Over a data base there is exactly one reconstruction for each identifier carried both by a telemetry file and by an image of the requested date, in increasing order of the identifiers, using the first file of each kind; the order of the directory listings has no influence. A reconstruction with all its entries gives a row with one value per column, each column holding the quantity of its name in its unit (findings: TT NPH and TT WFE repeat the high-order values, FOCAL ANISO and TT ANISO are exchanged). One failed reconstruction: no table at all. The merged table holds all the rows of the unmerged .csv files in order of date, and merging again after saving it changes nothing. Simulations used are those matching every pattern; with true_r0 the reconstruction uses the true parameters and the table keeps the estimates (findings: without it the TRUE columns hold estimates; TAU0 and TRUE TAU0 differ by a factor one million of unit).", "quantifier": "every directory content, listing order, reconstruction content, set of tables and simulation parameters", "why_tests_cant": "directory contents and listing orders are unbounded; no test runs this script", "anchors": ["p3/psfr/psfrRun.py: psfr_on_database, define_database_colnames, unpack_results, merge_dataframe, psfr_kasp_simulations", "p3/telemetry/systemDiagnosis.py: systemDiagnosis.__init__"]}
{"id": "C132", "title": "Telemetry of the Keck adaptive optics", "statement": "Slopes, commands and residuals are used without their time averages: offsets have no effect. The residual error is 1e9 times the root of the mean variance over the actuators that move: constant commands and still actuators do not change it and it is proportional to the volt-to-metre factor. Actuator maps hold the values in order at the valid positions and zero elsewhere, and need as many values as valid actuators. The loop rate is the number of intervals over the total duration; decimation keeps one sample in d; the controller is split without loss. The image is cropped to the requested square when its maximum is far enough from the borders and flagged saturated exactly above coadds times the level; layer weights are positive and of sum one. Findings: a decimated series has a mean again; a star near the lower borders gives an empty image; the influence functions cannot be computed for any mirror, so that every telemetry object given a telemetry file fails.", "quantifier": "every time series, actuator map, list of time stamps, decimation, star position, field, profile and mirror", "why_tests_cant": "time series and maps are arbitrary; the failure concerns every mirror, not a sample of them", "anchors": ["p3/telemetry/telemetryKeck.py: restoringInstrumentData, restoringCalibrationData, restoringTelemetry", "p3/aoSystem/deformableMirror.py: setInfluenceFunction"]}
{"id": "C133", "title": "Telemetry of simulated data", "statement": "The residual wavefront of a simulation is the reconstruction of the slopes without their means (removing its mean again changes nothing; constant slope offsets have no effect); the residual error is 1e9 times the root of trace(R' C R) over the number of commands, with C the covariance of the slopes. The Cn2 profile sums to the sum of the weights times r0^(-5/3) and seeing times r0 does not depend on r0.", "quantifier": "every series of slopes, reconstructor, number of commands, profile and r0", "why_tests_cant": "identities over arbitrary matrices and series", "anchors": ["p3/telemetry/telemetryKASP.py: populating_fields"]}
{"id": "C134", "title": "Images of unshifted sources are symmetric", "statement": "Without a stellar displacement and without binning, every PSF returned by the 3-D and the 4-D function is its own mirror image through its central pixel (even number of pixels), whatever the phase structure function, the jitter, the pixel response, flux and background, also after the field has been reduced to an even divisor. Findings: this holds for every instrumental OTF because only the real part of the OTF of a static aberration is kept: a static tilt, which moves the true diffraction pattern by one pixel, gives a PSF with as much light on either side; and with a binning factor of 2 the PSF is symmetric neither about the pixel fov/2 nor about the middle of the array.", "quantifier": "every structure function, jitter matrix, instrumental OTF, pixel OTF, flux, background, number of sources, channel and even size", "why_tests_cant": "a test looks at a few PSFs; an asymmetry can appear for any one combination of parameters, and the loss of odd aberrations must be shown for all", "anchors": ["p3/aoSystem/FourierUtils.py: sf_3D_to_psf_3D, sf_3D_to_psf_4D, getStaticOTF"]}
{"id": "C135", "title": "What improves the correction and what degrades it", "statement": "At every spatial frequency: a higher cut-off (finer actuator pitch), or a square corrected area instead of the inscribed disc, never increases the fitting spectrum; at the same r0 a larger outer scale, up to infinity, strictly increases the turbulence spectrum; a stronger regularisation of the reconstructor never decreases the reconstruction error and never increases the propagated noise; at a given regularisation a larger mean noise variance never decreases the reconstruction error.", "quantifier": "every valid system, frequency, pair of cut-offs, outer scales, regularisations and lists of noise variances", "why_tests_cant": "monotony is a relation between all pairs of systems", "anchors": ["p3/aoSystem/fourierModel.py: fittingPSD, reconstructionFilter, reconstructionPSD, noisePSD", "p3/aoSystem/atmosphere.py: spectrum", "p3/aoSystem/frequencyDomain.py: mskIn_, mskOut_"]}
{"id": "C136", "title": "Unknown keys of a parameter file have no effect", "statement": "An entry of a parameter file whose name, case included, is not one of the names its section understands (or that is in a section that is not understood) never changes the outcome of building the AO system: the same system, or the same refusal, as without it. In particular a misspelt optional key silently leaves the default value.", "quantifier": "every parameter file, section, unknown key, value, file system and set of constructor arguments", "why_tests_cant": "a test tries a few keys on a few files", "anchors": ["p3/aoSystem/aoSystem.py: aoSystem.__init__, configLO, configLOsensor, configLO_SC"]}
{"id": "C137", "title": "Automatic fit of a directory of Keck images", "statement": "The table written has one row of 111 columns per image kept; every row belongs to an image of the directory whose Strehl ratio exceeds 0.35 and whose width exceeds 35 mas, in the documented order, and reading the table back gives each fitted parameter and error under its name; a header date is read as the numbers it shows; a table with fewer columns, an unknown family of modes and an unknown pupil mask are refused. Findings: the parameter file adjusted to an image builds exactly the system of the original file with only the guide-star wavelength and the spectral description of the high-order sensor replaced, so the pupil mask, static aberrations, pupil angle, image size and chosen static modes of the image have no effect on the fit; with a broad-band filter the adjusted file is refused; a fit with another number than 50 parameters makes the call fail; and by default images are drawn with replacement, so some may never be fitted.", "quantifier": "every directory, header, filter profile, parameter file, sequence of draws, measurement and fit result", "why_tests_cant": "the effect of the adjusted file must be compared for all files and headers; random draws cannot be enumerated", "anchors": ["p3/psfFitting/fittingUtils.py: choose_stat_modes, get_split_date, get_PSF_number, adjust_init_file, fit_all_PSFs, fits_2_dict", "p3/telemetry/keckUtils.py: samplingFilterProfile", "p3/aoSystem/aoSystem.py: _parse_config_value"]}
{"id": "C138", "title": "From an AO system to the images", "statement": "For every physically meaningful AO system object (one natural guide star, no laser guide star, closed loop with non-zero gain, positive layer weights of sum at most 1, finite outer scale, positive wavelengths, pixel scale, diameter and mirror pitches, non-negative noise variances, no extra error), whenever fourierModel's computation succeeds: the wavelength vector is the one of the requested bandwidth and bins and is positive; there is one PSD array per science source, square, of a size that is a whole number of camera fields of view, that contains the corrected area, and every value of it is finite and non-negative; the phase structure function of each source is zero at the centre, non-negative, at most 4 times the sum of the PSD, and equal to the structure function defined from the PSD; there is one image per source and per wavelength, of the size of the camera field of view, whose sum is the transmittance of that wavelength; and every Strehl ratio is in [0,100]. And the computation does succeed for every well-sampled single-wavelength Shack-Hartmann system, with the Strehl ratio of each source given by the Marechal-type sum over the telescope OTF of exp(-SF/2).", "quantifier": "all AO system objects, options and telescope OTFs in that scope: any number of layers, sources, mirrors, wavelengths, any sizes", "why_tests_cant": "a test runs one parameter file; that all the intermediate results fit together (sizes, signs, bounds) for every configuration is a property of the composition of about forty functions", "anchors": ["p3/aoSystem/fourierModel.py: fourierModel.initComputations, powerSpectrumDensity, phaseStructureFunction, point_spread_function", "p3/aoSystem/frequencyDomain.py: frequencyDomain", "p3/aoSystem/FourierUtils.py: sf_3D_to_psf_4D"]}
{"id": "C139", "title": "From a parameter file to the images", "statement": "A parameter file accepted by the constructor whose values are physical (positive diameter, wavelengths, Fried parameter or seeing, outer scale and layer fractions summing to at most 1; one natural guide star; nonnegative noise variances; nonzero loop gain; positive pitches and pixel scale; bandwidth narrower than the wavelengths; nonpositive extra error) gives a run with positive wavelengths, one square nonnegative residual power spectrum per science source whose size is a multiple of the (possibly expanded) field of view, and, with a plain detector and a static pupil, one image per wavelength and source of the size of the field of view, whose flux is the transmittance and whose Strehl ratio is between 0 and 100 per cent. The attributes read by the computation are the values of the file.", "quantifier": "All parameter files, constructor arguments, environments, calculation options, optics and special-function values.", "why_tests_cant": "Tests run a handful of parameter files; the claim covers every value and every combination of optional keys.", "anchors": ["p3/aoSystem/aoSystem.py: aoSystem.__init__, configLO_SC", "p3/aoSystem/fourierModel.py: fourierModel.__init__, initComputations, powerSpectrumDensity, pointSpreadFunction"]}
{"id": "C140", "title": "The blur requested by SpotFWHM", "statement": "For a physical system and a jitter [fx, fy, 0] in milliarcseconds given by SpotFWHM, a run gives exactly the result of the run with no jitter on an instrument whose static transfer functions are multiplied by those of Gaussians of full widths at half maximum kappa*fx and kappa*fy along the two axes, the frequency scale being that of a pixel of ps/k mas where k is the oversampling at the shortest wavelength; a result of one run is a result of the other. Whatever the widths and the angle, the kernel is the transfer function of the Gaussian of covariance proportional to [[fx^2, fxy], [fxy, fy^2]], the jitter never raises a Strehl ratio and a wider jitter never gives a higher one; it changes neither the power spectra nor the structure functions. Findings: kappa = 8 ln2/pi = 1.77, so the blur is wider than requested; all the channels receive the kernel of the shortest wavelength's pixel; the function used for one image and the function used for a cube of images differ by a factor of 2 in width (the former takes the squares of the widths).", "quantifier": "All physical systems, environments, options, optics, widths and oversampling factors.", "why_tests_cant": "Tests compare a few images of one configuration; the claim identifies the kernel for all widths, samplings and systems.", "anchors": ["p3/aoSystem/FourierUtils.py: sf_3D_to_psf_4D, sf_3D_to_psf_3D", "p3/aoSystem/fourierModel.py: fourierModel.point_spread_function"]}
{"id": "C141", "title": "A science source does not depend on the other science sources", "statement": "Take two runs of the same single-guide-star closed-loop system which differ only by the list of science sources (same science wavelengths). Both runs sample the same wavelengths and the same frequency grid and leave the AO system in the same state, and a source of the first run and a source of the second run at the same zenith angle and azimuth have the same power spectrum, the same structure function and, at every wavelength, the same image and the same Strehl ratio, whatever their positions in the lists and the other sources are.", "quantifier": "all systems, telescopes, options and lists of science sources for which both runs complete; images and Strehl ratios: one transmittance and dispersion value per wavelength, three values of SpotFWHM, positive wavelengths, pixel scale and diameter", "why_tests_cant": "a test compares a few lists of sources; the property ranges over all lists, positions and systems", "anchors": ["p3/aoSystem/fourierModel.py: fourierModel.powerSpectrumDensity", "p3/aoSystem/fourierModel.py: fourierModel.spatioTemporalPSD", "p3/aoSystem/fourierModel.py: fourierModel.differentialRefractionPSD", "p3/aoSystem/fourierModel.py: fourierModel.point_spread_function", "p3/aoSystem/source.py: source.direction"]}
{"id": "C142", "title": "The residual phase does not depend on how the images are formed", "statement": "Two runs of the same single-guide-star closed-loop system which differ only by the jitter, transmittance and dispersion of the camera, by the telescope's transfer functions and by addOtfPixel have the same wavelengths, frequency grid, AO system, power spectra and structure functions. With addOtfPixel a run gives exactly what the run without it gives on the telescope whose static transfer functions are multiplied by sinc(u) sinc(v), one run completing if and only if the other does; no Strehl ratio is higher with the pixel than without.", "quantifier": "all systems, environments, options, telescopes, camera settings and sources for which the runs complete; Strehl ratios: diffraction-limited transfer function of positive sum", "why_tests_cant": "a test compares a few images of one configuration; the property ranges over all systems, telescopes and camera settings", "anchors": ["p3/aoSystem/fourierModel.py: fourierModel.point_spread_function, fourierModel.powerSpectrumDensity", "p3/aoSystem/FourierUtils.py: sf_3D_to_psf_4D"]}
