{"id": "C01", "title": "UV-map cache is complete and schedule independent", "statement": "get_uv_map_lightcone returns, and leaves in the save file, a dictionary that holds one uv map for every requested redshift (under its '%.3f' key) and the antenna number; each map equals the one computed for a requested redshift with that key, entries already in a valid save file are kept unchanged, and the result is the same for every n_jobs and every checkpoint setting when keys are distinct.", "quantifier": "all redshift lists, all pre-existing save files with matching parameters, all n_jobs and checkpoint values", "why_tests_cant": "the number of loop shapes (sequential, parallel at once, chunked) times checkpoint positions times cached subsets is unbounded", "anchors": ["src/tools21cm/radio_telescope_noise.py: get_uv_map_lightcone"]}
{"id": "C02", "title": "UV-map cache resumes correctly after any crash between file operations", "statement": "If get_uv_map_lightcone is killed at any point between complete file writes, any number of times, and is then run to completion with the same arguments, the final dictionary equals that of one uninterrupted run, and nothing that had been checkpointed is lost or recomputed.", "quantifier": "every crash point, every number of crashes, all n_jobs/checkpoint settings in each run", "why_tests_cant": "crash points and crash histories are unbounded; a test can only kill at a few", "anchors": ["src/tools21cm/radio_telescope_noise.py: get_uv_map_lightcone", "src/tools21cm/read_files.py: write_dictionary_data, read_dictionary_data"]}
{"id": "C03", "title": "A crash inside a checkpoint write is not survivable", "statement": "write_dictionary_data truncates the target before writing, so a crash during a checkpoint can leave a file that read_dictionary_data rejects: every previously checkpointed redshift is lost. The claim 'checkpointed work survives a crash at any point' is therefore false.", "quantifier": "every prefix of the written bytes at which the crash happens", "why_tests_cant": "needs a crash in the middle of one write, at every byte", "anchors": ["src/tools21cm/radio_telescope_noise.py: get_uv_map_lightcone", "src/tools21cm/read_files.py: write_dictionary_data"]}
{"id": "C04", "title": "Gridding of uv tracks conserves the number of baselines", "statement": "grid_uv_tracks puts every baseline whose rounded coordinates lie in [-ncells/2, ncells/2) into exactly one pixel and drops the others: the sum over the returned map equals the number of in-range baselines (in-range baselines plus in-range mirrored ones, halved, with include_mirror_baselines), no pixel is negative and no index is out of range.", "quantifier": "all baseline lists, all ncells > 0 (odd and even), both mirror settings", "why_tests_cant": "holds for every list of baselines and every grid size", "anchors": ["src/tools21cm/radio_telescope_layout.py: grid_uv_tracks"]}
{"id": "C05", "title": "Position of a baseline in the gridded map", "statement": "A baseline with rounded coordinates (x,y) is added to pixel [x mod ncells, y mod ncells] of the returned map (the layout numpy.fft.fft2 uses) when ncells is even; for odd ncells it is added to pixel [(x-1) mod ncells, (y-1) mod ncells], so the zero-length baseline misses the DC pixel. The older numba map is right for every size, but its daily mean is over the unrotated baselines and slices 1 to T-1: the last slice has no effect on it. With mirrored baselines the pixel holds half the count of the baselines that fall into it plus half the count of those whose opposite does.", "quantifier": "all ncells, all in-range baselines", "why_tests_cant": "the offset must be right for every grid size and coordinate", "anchors": ["src/tools21cm/radio_telescope_layout.py: grid_uv_tracks"]}
{"id": "C06", "title": "Mirror baselines make the uv map point symmetric", "statement": "With include_mirror_baselines=True the map is invariant under (i,j) -> (-i,-j) mod ncells for every even grid at every pixel off the Nyquist row and column, for every baseline list.", "quantifier": "all baseline lists, all even ncells, all pixels with both indices different from ncells/2", "why_tests_cant": "for all baseline lists and grid sizes", "anchors": ["src/tools21cm/radio_telescope_layout.py: grid_uv_tracks"]}
{"id": "C07", "title": "Earth rotation is an isometry of the baselines", "statement": "earth_rotation_effect maps every baseline to one of the same length and preserves all inner products between baselines, for every hour angle and declination. The compiled rotation turns the other way: it is the rotation by minus the angle the Earth has turned since step 1, with the axes a quarter turn back.", "quantifier": "all baselines, all slice numbers, integration times, total times and declinations", "why_tests_cant": "an identity over the reals in five continuous variables", "anchors": ["src/tools21cm/radio_telescope_layout.py: earth_rotation_effect", "src/tools21cm/numba_functions.py: earth_rotation_effect"]}
{"id": "C08", "title": "Baseline list has one entry per antenna pair", "statement": "from_antenna_config returns exactly N(N-1)/2 baselines, one per unordered pair i<j in order, equal to the position difference over the wavelength; the list is unchanged when all antennas are translated by a common vector and scales with the layout.", "quantifier": "all antenna lists of any length", "why_tests_cant": "quantifies over all layouts", "anchors": ["src/tools21cm/radio_telescope_layout.py: from_antenna_config, antenna_positions_to_baselines"]}
{"id": "C09", "title": "Observation-time chunks partition the time steps", "statement": "The chunks built by the antenna-stamp functions cover 0..total_observations-1 exactly once, in order, so concatenated chunk results equal the unchunked computation; with fewer observations than jobs the call fails instead of dropping data.", "quantifier": "all total_observations and n_jobs", "why_tests_cant": "off-by-one at any of unboundedly many sizes", "anchors": ["src/tools21cm/radio_telescope_calibration.py: get_full_uv_map_with_antenna_stamp, _process_chunk"]}
{"id": "C10", "title": "Binary cube files round trip", "statement": "Writing a float array with save_cbin and reading it back with read_cbin (same bits, order, number of dimensions) returns the same shape and the same values in the same cells exactly when the array has at most three dimensions. save_raw_binary/read_raw_binary round-trip exactly the cubes; other arrays raise, unless their size is a perfect cube, in which case a cube with the values in file order is returned.", "quantifier": "all shapes, all values, both orders, every float type", "why_tests_cant": "array shapes and contents are unbounded", "anchors": ["src/tools21cm/helper_functions.py: read_cbin, save_cbin, read_raw_binary, save_raw_binary"]}
{"id": "C11", "title": "Density and clumping files round trip", "statement": "DensityFile/ClumpingFile written with write_to_file and read back with read_from_file give the same mesh dimensions and the same raw density in every cell, for every three-dimensional array; other shapes and cgs densities cannot be written; the headerless old format reads back only 203^3 arrays.", "quantifier": "all mesh dimensions (also non-cubic) and all 32-bit values", "why_tests_cant": "all shapes and contents", "anchors": ["src/tools21cm/density_file.py: DensityFile.read_from_file, DensityFile.write_to_file, ClumpingFile"]}
{"id": "C12", "title": "Ionized-fraction files round trip, also with the neutral flag", "statement": "XfracFile written with write_to_file and read back with the same binary_format and old_format returns the same mesh and the same ionized fraction in every cell when the neutral flags agree, and 1-xi in every cell when they differ; reading with the other old_format raises.", "quantifier": "all meshes, contents and flag combinations", "why_tests_cant": "all shapes and contents", "anchors": ["src/tools21cm/xfrac_file.py: XfracFile.read_from_file, XfracFile.write_to_file"]}
{"id": "C13", "title": "Velocity files round trip", "statement": "VelocityFile.write_to_file followed by read_from_file preserves all three momentum components in every cell of a (3,nx,ny,nz) field; no other field is read back, and a wrongly shaped one can leave an empty file.", "quantifier": "all meshes and contents", "why_tests_cant": "all shapes and contents", "anchors": ["src/tools21cm/vel_file.py: VelocityFile.read_from_file, VelocityFile.write_to_file"]}
{"id": "C14", "title": "CubeMap backends agree under every schedule", "statement": "With multi_marker=True (the default), CubeMap (also numba), CubeMap_joblib with every n_jobs >= 1 and every interleaving of its in-place workers, and CubeMap_torch all produce the same map: 1, 2, 3, 4 on the vertices, edges, faces and cubes of the periodic cubical complex of the marked voxels, 0 elsewhere. Runs of CubeMap_joblib can always finish; with n_jobs < -1 it starts no worker and returns zeros. With multi_marker=False all three backends mark exactly the cells of the complex with 1, for every order of reads and writes; from whatever point the processes have reached they can run on to a complete map.", "quantifier": "all inputs, all worker counts, all interleavings of the cell updates within a stage", "why_tests_cant": "schedules are unbounded", "anchors": ["src/tools21cm/ViteBetti.py: CubeMap, _CubeMap_joblib_worker, CubeMap_joblib, CubeMap_torch"]}
{"id": "C15", "title": "Euler characteristic counts cells of the periodic complex", "statement": "EulerCharacteristic equals V - E + F - C of the periodic cubical complex of the above-threshold voxels for neighbors 6 or 4, and of the union of closed voxels otherwise, whatever backend computes the cube map; it does not change when the field is shifted periodically, and the two connectivities are exchanged by complementing the field.", "quantifier": "all binary cubes of all sizes", "why_tests_cant": "all binary fields", "anchors": ["src/tools21cm/ViteBetti.py: CubeMap", "src/tools21cm/topology.py: EulerCharacteristic"]}
{"id": "C16", "title": "Betti numbers: components and Euler-Poincare", "statement": "betti0 and betti2 return the number of connected components of the voxels above and not above the threshold (6-neighbourhood for neighbors 6/4, 18-neighbourhood otherwise), and betti1 makes betti0 - betti1 + betti2 = EulerCharacteristic hold. They are not the Betti numbers of the periodic field: an empty and a full box both get betti1 = 1, and a periodic shift can change betti0 but not the Euler characteristic.", "quantifier": "all fields of all sizes, all values of neighbors", "why_tests_cant": "all inputs", "anchors": ["src/tools21cm/topology.py: betti0, betti1, betti2, genus"]}
{"id": "C17", "title": "Friends-of-friends search labels connected components", "statement": "FoF_search as shipped returns an all-zero map and no sizes for every input, because set() uses up the zip iterator before the loop. With the iterator materialised it gives two above-threshold cells the same non-zero label iff they are connected by axis steps through above-threshold cells, zero elsewhere, and lists the component sizes, for every array of every dimension, as long as the multiprocessing queue never reports empty with an item in flight; one such report can split a component. fof labels components likewise, and its sizes are complete iff some cell is outside the set.", "quantifier": "all shapes, all thresholded arrays, all queue timings", "why_tests_cant": "component shapes are unbounded", "anchors": ["src/tools21cm/Friends_of_Friends.py: FoF_search"]}
{"id": "C18", "title": "Light-cone slices interpolate the two bracketing snapshots", "statement": "Every slice of make_lightcone at redshift z interpolates the snapshots at the largest file redshift <= z and the smallest file redshift > z, provided the output redshifts ascend and never skip a snapshot; when the low bracket changes the low snapshot used is always the one just above the previous output redshift, which is wrong iff a snapshot was skipped. make_velocity_lightcone needs no such condition. An exception is raised iff some output redshift is below all snapshots or not below the last one; hence make_lightcone with depth_mhz and the default z_high always raises. Whatever range is asked for, the redshifts of a light cone that is made are those one cell apart that lie within the files' range, at least one, all below the highest, with one slice for each. With the default range a light cone is always made: it starts exactly at the lowest snapshot, whose first slice is its first slice under linear interpolation, rises one cell at a time and stops before the highest.", "quantifier": "all snapshot lists, all output-redshift lists, all interpolation functions", "why_tests_cant": "depends on the whole history of the loop state", "anchors": ["src/tools21cm/lightcone.py: make_lightcone, _get_interp_slice"]}
{"id": "C19", "title": "Interpolated slices stay between the snapshots", "statement": "With linear, step or sigmoid interpolation each cell of a light-cone slice lies between the values of the two snapshots in the same cell. Linear interpolation equals the low snapshot at z_low and the high one at z_high and is proportional in between; sigmoid never equals either. The slice index is the slice number modulo the SECOND side of the snapshot, which is periodic for cubes but not for boxes longer along the line of sight. A light cone of cubic snapshots is made exactly when there is one snapshot for each redshift and every slice lies between two of them. Each cell of slice k lies between the cells with index k modulo the side in the two snapshots around its redshift; linear interpolation is proportional to the redshift in between and reproduces a snapshot at its own redshift. Whatever the output redshifts, no cell leaves the range of the snapshots, and snapshots that are all alike give the periodic repetition of the one box.", "quantifier": "all cell values, all z in the bracket, all indices", "why_tests_cant": "continuous inputs", "anchors": ["src/tools21cm/lightcone.py: _get_interp_slice, _get_slice"]}
{"id": "C20", "title": "Step interpolation uses half the bracket width", "statement": "interpolation='step' returns the low snapshot iff z is below half the width of the bracket; so it returns the high snapshot in every bracket with z_high <= 3 z_low, and picks the nearer snapshot iff the bracket starts at redshift 0.", "quantifier": "all z_low < z_high and z in between", "why_tests_cant": "continuous inputs", "anchors": ["src/tools21cm/lightcone.py: _get_interp_slice"]}
{"id": "C21", "title": "Spherical averaging neither loses nor double counts modes", "statement": "radial_average puts each mode with k between the first and the last edge into exactly one bin, reports the number and the mean power of the bin's modes (NaN iff empty) and the bin centre; the numbers and the number-weighted means add up to the number and total power of the modes in range. Edges that decrease somewhere raise. With an integer kbins the lowest edge is 2 pi over the shortest side, so a mode is counted iff its k is at least that: modes along longer sides below it are dropped.", "quantifier": "all mode lists, all ascending edges, all boxes", "why_tests_cant": "all arrays and bin edges", "anchors": ["src/tools21cm/power_spectrum.py: radial_average"]}
{"id": "C22", "title": "(k,mu) binning assigns each mode at most once", "statement": "mu_binning counts and averages in entry (i,j) exactly the modes with mu and k in the half-open bins i and j, allowed by the k_perp mask and with k >= 0.001; each mode is in at most one entry; values on the top edges are in no bin, so with the default mu bins modes along the line of sight never count. Passing an array of weights of more than one element raises.", "quantifier": "all modes, all ascending bins, both mu conventions", "why_tests_cant": "all arrays and edges", "anchors": ["src/tools21cm/power_spectrum.py: mu_binning"]}
{"id": "C23", "title": "Wavenumber grid is aligned with the shifted FFT", "statement": "For 3-D arrays cell i of the k grid holds the wave number of the Fourier mode that fftshift puts into cell i for every size, and the zero mode is at n//2. In 1-D, 2-D and in power_spect_fast every wave number is pi/L too large when the size is even, and right iff it is odd.", "quantifier": "all array sizes and all indices", "why_tests_cant": "all sizes", "anchors": ["src/tools21cm/power_spectrum.py: _get_k", "src/tools21cm/power_spect_fast.py: _get_k"]}
{"id": "C24", "title": "Power spectra are non-negative, symmetric and satisfy Parseval", "statement": "power_spectrum_nd is non-negative; cross_power_spectrum_nd is symmetric, bilinear and equals the power for equal arguments; the sum over all modes equals boxvolume/N times the sum over cells of the product of the fields; power is invariant under periodic translation and point symmetric about the zero mode, which holds the square of the field total.", "quantifier": "all real fields in any number of dimensions and all sizes", "why_tests_cant": "all inputs", "anchors": ["src/tools21cm/power_spectrum.py: power_spectrum_nd, cross_power_spectrum_nd"]}
{"id": "C25", "title": "k_perp=0 modes are excluded from anisotropy statistics", "statement": "The k_perp mask used by exclude_zero_modes excludes a mode iff both transverse wave numbers are zero and both transverse sizes are even; so it is exact iff both are even, and with an odd transverse size it excludes nothing.", "quantifier": "all array shapes and los axes", "why_tests_cant": "all sizes", "anchors": ["src/tools21cm/power_spectrum.py: _get_nonzero_idx"]}
{"id": "C26", "title": "Combined mean and variance equal the pooled statistics", "statement": "combined_mean_variance of the means, Bessel-corrected variances and sizes of several samples is the mean and Bessel-corrected variance of all samples together. Without sample sizes the variances are ignored. With population variances (what mean_estimate feeds into the same formula) the result is too small by the sum of the variances over N-1.", "quantifier": "all non-empty samples, any number of them", "why_tests_cant": "all partitions of all samples", "anchors": ["src/tools21cm/helper_functions.py: combined_mean_variance"]}
{"id": "C27", "title": "Mean subtraction gives zero-mean channels", "statement": "subtract_mean_signal subtracts from every cell the mean of its slice (the cells with the same index along the axis), for the axes -3..2, keeps the shape, leaves every slice with zero mean, is idempotent, and raises for other axes. signal_overdensity divides by the slice mean for the axes 0,1,2 but for -3..-1 silently returns the signal minus one. apply_func_along_los returns one value per slice and rejects negative axes.", "quantifier": "all arrays and axis numbers", "why_tests_cant": "all inputs", "anchors": ["src/tools21cm/statistics.py: subtract_mean_signal, signal_overdensity"]}
{"id": "C28", "title": "Skewness and kurtosis are affine invariants", "statement": "skewness and kurtosis are the means of the third and fourth powers of the data standardised with their mean and Bessel-corrected standard deviation; kurtosis is unchanged and skewness multiplied by the sign of a under x -> a x + b; kurtosis is at least ((n-1)/n)^2; symmetric data have zero skewness; the denominators vanish exactly for constant data.", "quantifier": "all data of at least two elements, all a <> 0 and b", "why_tests_cant": "continuous inputs", "anchors": ["src/tools21cm/statistics.py: skewness, kurtosis"]}
{"id": "C29", "title": "Superpixel statistics are per-label statistics", "statement": "apply_operator_labelled_data applies the operator to exactly the data of each label when the labels in use are 0..k-1, for every order the unstable sort may give; with other non-negative labels it raises; negative labels can mix the data of different labels. superpixel_map gives each cell the value of its label; with the means it keeps the total. binary_stitch thresholds the mean of the cell's superpixel, but a threshold of zero is replaced by the mean of the data. For any labels it works exactly when every label is a Python index into the sorted distinct labels, and judges label z by the mean over the z-th of them, negative ones counted from the end.", "quantifier": "all label arrays and data, all tie orders of the sort", "why_tests_cant": "sort ties and label sets are unbounded", "anchors": ["src/tools21cm/superpixels.py: apply_operator_labelled_data", "src/tools21cm/numba_functions.py: apply_operator_labelled_data_numba"]}
{"id": "C30", "title": "find_idx inverts a monotone array", "statement": "For an ascending or descending array that is not constant, find_idx moves each value to the nearest one in range and returns an index at which linear interpolation gives it; for floating-point values it raises iff the array is empty or not monotone; constant arrays give NaN; an integer values array is clamped with truncation, and for a monotone array raises exactly when the array ends below zero between two whole numbers and a value lies above its end, or below its start with no whole number in its range.", "quantifier": "all arrays and all values", "why_tests_cant": "continuous inputs", "anchors": ["src/tools21cm/helper_functions.py: find_idx"]}
{"id": "C31", "title": "Mean-free-path rays", "statement": "mfp counts in bin k exactly the rays that were inside the region after steps 1..k and outside after step k+1, each ray at most once; recorded plus surviving rays add up to all rays. In 2-D every ray is recorded, so the histogram adds up to the number of rays; in 3-D the number of steps is the longest side and diagonal rays that are still inside are lost. Directions are unit vectors whose two angles are uniform in degrees, so that in 3-D the mean squared component is 1/2 along the third axis and 1/4 along the others instead of 1/3. The curve at size k is k times the recorded fraction. Data with no region give a zero curve if the (effective) threshold is at most 1 and raise otherwise.", "quantifier": "all fields, shapes, start cells and directions", "why_tests_cant": "rays are random and unbounded", "anchors": ["src/tools21cm/mfp_np.py: mfp3d, _ray3d", "src/tools21cm/bubble_stats.py: mfp"]}
{"id": "C32", "title": "Size distributions", "statement": "dist_from_volumes puts each volume into exactly one logarithmic bin; the volume curve holds the fraction of each bin at its lower edge with empty bins and the last edge replaced by the null value, while the radius curve holds the same fractions at the upper edge and keeps zeros: the two curves are shifted by one bin. Unless all volumes are equal the edges run from the smallest to the largest volume in geometric progression and each radius edge is the radius of its volume edge. The null value is a thousandth of the smallest non-empty fraction. get_distribution returns iff there is a label and no label below the largest is missing; its sizes add up to the labelled cells and its curve to 1, each entry being the share of the regions whose size falls into that bin. If all volumes are equal both curves cover one decade centred on that volume and on its radius, so the radius edges are then not the radii of the volume edges.", "quantifier": "all non-empty lists of positive volumes, all numbers of bins, all label arrays", "why_tests_cant": "all inputs", "anchors": ["src/tools21cm/bubble_stats.py: dist_from_volumes, get_distribution"]}
{"id": "C33", "title": "Percolation cluster", "statement": "find_percolation_cluster looks only at the component of the first region cell in C order and returns its size iff two of its cells are adjacent along an axis of the periodic box, 0 otherwise (the doc says -1); an empty region gives 0, a full box its size. With face connectivity this means: iff the component has at least two cells, so clusters that do not span are reported and spanning ones after an earlier cell are missed. Data with fewer than 3 dimensions raise.", "quantifier": "all thresholded 3-D fields of all sizes, all connectivities", "why_tests_cant": "all inputs", "anchors": ["src/tools21cm/percolation.py: find_percolation_cluster"]}
{"id": "C34", "title": "Setting the simulation box is atomic", "statement": "set_sim_constants accepts exactly the sizes within 1e-4 of a documented one and then sets every constant from that size and the current cosmology, independently of the history. For any other size it raises after changing boxsize and LB only: it is not atomic. After any session the mesh, mass and cell-size constants are those of the last accepted call with the cosmology of that moment, and boxsize/LB those of the last call. Positions, velocities and masses in grid units are converted with those constants. A program that never chooses a simulation works with the factors of the 244 Mpc/h simulation, exactly as if it had chosen it at the start.", "quantifier": "all histories of calls", "why_tests_cant": "depends on the call history", "anchors": ["src/tools21cm/conv.py: set_sim_constants"]}
{"id": "C35", "title": "Cosmology setters keep derived constants consistent", "statement": "After any sequence of setter calls the primary parameters are the last ones given, H0 = 100 h and the hydrogen fraction follow, and q0 follows Omega0; OmegaL, H0cgs, rho_crit_0, rho_matter, num_h_0, mean_molecular and meandt keep their import-time values, so they agree with the primary ones iff those still have (or again have) the import values. The luminosity-distance integrand is the expansion rate of the current parameters iff Omega0 + lam = 1.", "quantifier": "all setter histories", "why_tests_cant": "histories are unbounded", "anchors": ["src/tools21cm/const.py: set_hubble_h, set_omega_matter, set_omega_lambda"]}
{"id": "C36", "title": "Unit conversions are inverse pairs", "statement": "nu_to_z/z_to_nu, c_to_p/p_to_c, Mgrid_2_Msolar/Msolar_2_Mgrid, deg_to_cdist/angular_size_comoving, M_to_Tvir/Tvir_to_M and kelvin_2_jansky/jansky_2_kelvin are mutually inverse on their domains; frequency falls with redshift and temperature grows with mass. The virial pair is defined at every z >= 0 as long as Omega0 <= 0.27; it is NaN where the overdensity is negative.", "quantifier": "all positive inputs", "why_tests_cant": "continuous inputs", "anchors": ["src/tools21cm/cosmo.py: nu_to_z, z_to_nu, c_to_p, p_to_c, M_to_Tvir, Tvir_to_M", "src/tools21cm/usefuls.py", "src/tools21cm/radio_telescope_sensitivity.py"]}
{"id": "C37", "title": "Halo readers honour mass window, start line and limit", "statement": "For catalogue lines of at least 19 columns the halo reader returns the haloes of the lines from startline on whose third-last column is strictly inside the mass window, in file order, cut after max_select_number (all if negative), and returns True iff the limit was not reached before the last line; single-number lines are skipped by the full-catalogue reader. The third-last column is the mass only for 19 columns (with 22 it is the first shape column). An upper mass of zero raises. The Rockstar reader reads nothing for any limit >= 0 and always returns True. Repositioning lands inside the box iff the position was at most one box length outside.", "quantifier": "all catalogues, mass windows, start lines and limits", "why_tests_cant": "all files", "anchors": ["src/tools21cm/halo_list.py: HaloList.read_from_file, HaloRockstar.read_from_file, HaloCubeP3MFull.read_from_file"]}
{"id": "C38", "title": "Peculiar-velocity distortion conserves the signal per line of sight", "statement": "In each line of sight the distorted signal is exactly what the particles inside the box after the shift (and wrap) carry; with periodic boundaries the total is kept whenever no cell is shifted by more than the box depth; without them a non-negative line of sight never gains. With zero velocity the input comes back unchanged. Positive velocity shifts to larger positions: a uniform shift by k cells in an open box moves each cell's signal k cells up and leaves the first k empty; with periodic boundaries it is a rotation by k cells except for one particle of the last cell, which is counted one cell too high. The whole cube is treated line by line, but an array of redshifts always runs along the last axis whatever the line of sight, and make_pv_box always uses the first velocity component. All lines of sight are treated iff the two transverse sizes agree; otherwise the call raises or leaves zeros. For boxes deeper or shallower than wide, as light cones, a line of d cells is d times the transverse cell size long, and particles are wrapped and the signal conserved over that length.", "quantifier": "all fields, velocities, sizes and particle numbers (exact arithmetic)", "why_tests_cant": "continuous inputs", "anchors": ["src/tools21cm/pv_mpm.py: get_distorted_dt, make_pv_box"]}
{"id": "C39", "title": "Optical depth is well defined and monotone", "statement": "tau returns len(redshifts)+num_points depths and redshifts; the first num_points divide [0,z0] evenly with the depth of an ionised universe, then each given redshift adds the trapezoidal integral; the wrapped-around fraction of the first step has no effect. The analytic part is the antiderivative of the integrand and starts from zero iff Omega0+lam=1. Depths never fall for non-negative fractions, and the input order does not matter for distinct redshifts. tau_map agrees line by line for ascending redshifts but does not sort; with num_points=0 the first depth is minus the whole integral.", "quantifier": "all ionisation histories, redshift lists and num_points", "why_tests_cant": "continuous inputs of any length", "anchors": ["src/tools21cm/tau.py: tau, tau_map"]}
{"id": "C40", "title": "FFT convolution", "statement": "fftconvolve returns the convolution of the image, continued as the boundary says, with the kernel: 'circular' periodically with kernel centre ceil(size/2), 'constant' with zeros and centre size//2 ('same'), 0 ('full') or size-1 ('valid'), the others with centre size-1-size//2. So a unit impulse at size//2 leaves the image unchanged with 'circular' iff every kernel size is even (or the axis has one cell), with 'constant' always, with the padded boundaries for odd sizes only; 'wrap' and 'circular' results are always one cell apart. It raises iff mode is 'valid' and the kernel is longer along some axis. Circular convolution multiplies totals; non-negative kernels of unit sum keep values within range for all boundaries but 'constant'; it is linear.", "quantifier": "all numbers of axes, sizes, images, kernels, modes and boundaries", "why_tests_cant": "all sizes", "anchors": ["src/tools21cm/fft_functions.py: fftconvolve"]}
{"id": "C41", "title": "Smoothing", "statement": "Gaussian and top-hat kernels (2-D and 3-D) are non-negative and sum to one for all sizes and positive widths (zero width gives NaN); the Gaussian falls with the distance from size//2 and fwhm is its full width at half maximum. A top hat of width w holds floor(w/2)+ceil(w/2) cells per axis around size//2, but one much wider than the array becomes a corner block. Gaussian smoothing keeps total and range; it moves point sources by one cell for odd sizes. smooth_tophat averages over a window centred on the next cell; width one is a shift by one cell. smooth_coeval_tophat also smooths across one sky axis. Along the line of sight, smooth_lightcone_tophat replaces a slice by the mean of the slices within half the interval (rounded outwards), so values stay within range, if redshifts ascend; if they descend each slice is unchanged or NaN.", "quantifier": "all sizes, widths, slices, redshift lists and intervals", "why_tests_cant": "all sizes", "anchors": ["src/tools21cm/smoothing.py: gauss_kernel, tophat_kernel, smooth_lightcone_tophat"]}
{"id": "C42", "title": "Periodic padding of slices", "statement": "_get_padded_slice succeeds on an n x m slice iff (m = n or m = 1) and (n = 1 or n <= padded_n <= 2n); then cell (i,j) is the input cell (i mod n, j mod m), so cropping gives back the input. padding_lightcone in wrap mode puts the input in the middle and is periodic.", "quantifier": "all slices, light cones and padded sizes", "why_tests_cant": "all sizes", "anchors": ["src/tools21cm/angular_coordinates.py: _get_padded_slice"]}
{"id": "C43", "title": "Rebinning a light cone to an observed resolution", "statement": "bin_lightcone_in_mpc with ascending distances of depth n output cells raises iff n is at least twice the number of slices; otherwise it returns floor(n) slices and ceil(n) redshifts, so the lengths agree iff n is a whole number and there is else one redshift too many. Slice i is the mean of the s slices (s = len/n rounded) around the last input slice not beyond its distance, with zeros outside the cube: the first slice of a constant cone is too faint by ceil(s/2)/s. bin_lightcone_in_frequency raises iff the depth is at most one channel; lengths agree; each slice averages the s slices ending at its frequency, and the first is the first input slice divided by s.", "quantifier": "all light cones, distances, frequencies and output resolutions", "why_tests_cant": "all sizes", "anchors": ["src/tools21cm/angular_coordinates.py: bin_lightcone_in_mpc, bin_lightcone_in_frequency"]}
{"id": "C44", "title": "Coeval cubes read the wrong files", "statement": "coeval_xfrac(_c2ray)/coeval_dens at redshift z succeeds iff z is strictly between file redshifts and not itself on disk, and blends two files linearly with the redshifts just below and above z. The two files blended sit as many places too early in the directory listing as there are files on the other side of z before them; so with distinct redshifts at least one of them is always the wrong file, whatever the listing order; with an ascending listing the upper file is the first of the list. coeval_dens_c2ray scales by ((1+z_h)/(1+z))^3 and uses the right file iff all files listed before it are above z.", "quantifier": "all file listings, redshifts and cubes", "why_tests_cant": "all lists", "anchors": ["src/tools21cm/read_files.py: coeval_xfrac_c2ray, coeval_dens_c2ray", "src/tools21cm/usefuls.py"]}
{"id": "C45", "title": "Sub-boxes of the position-dependent power spectrum", "statement": "integrated_bispectrum_cross succeeds iff the shapes agree and Ncuts (positive) divides every axis; its Ncuts^3 windows are the indicator functions of equal blocks and every cell lies in exactly one, so the mean of the sub-box means is the cube's mean. A constant second field v gives v times the mean spectrum and response 1/v; scaling the second field by s scales the result by s, the response by 1/s. The response divides by the mean square of the sub-box means, i.e. their variance plus the squared mean. The sliding windows start a whole number of cells apart and end within (number-1)/2 cells of the axis end, so they need not cover it (refuted by an 11-cell axis). For one cube and a quadratic spectrum the integrated bispectrum is cubic in the field and the response inverse to it.", "quantifier": "all shapes, numbers of cuts, fields and spectrum estimators", "why_tests_cant": "all sizes", "anchors": ["src/tools21cm/position_dependent_power_spectrum.py"]}
{"id": "C46", "title": "Painting bubbles", "statement": "paint_kernel succeeds iff the kernel fits and turns the caller's cube into twice its values plus the kernel wrapped periodically around the position (not the plain sum). spherical_bubble_model on a 0/1 cube returns the 0/1 cube of the start region and the periodic balls around the drawn centres, for all batch sizes; each centre was free when drawn; it stops exactly at the first batch reaching x_ion, after max_iter batches or, for non-overlapping bubbles, when no cell is free; it never raises for x_ion<=1 and bubbles that fit. Bubbles wider than the cube that pass the volume test raise. The caller's array is left holding twice its values plus the first ball. 'Non-overlapping' balls avoid everything painted before except across the periodic faces. With fractional start cubes every cell from 1/4 on becomes ionised.", "quantifier": "all shapes, radii, cubes, random draws, batch sizes and iteration limits", "why_tests_cant": "random histories", "anchors": ["src/tools21cm/test_case.py: paint_kernel, spherical_bubble_model"]}
{"id": "C47", "title": "Source lists, gridding and source files", "statement": "grid_sources succeeds iff all positions are within the mesh (negative ones wrap once); each cell holds the mass of the last listed source in it, so the gridded total is the listed total iff no two sources share a cell, and less otherwise. A positive token t in the file is read as mass t*U (U = grid mass in solar masses), a negative one as NaN. write_to_file followed by read_from_file('hm') keeps positions, but a mass M comes back as U*log10(M*U), not M (NaN for M*U <= 1/10); reading with 'lm' or any other kind raises.", "quantifier": "all source lists, mesh sizes, masses and roundings", "why_tests_cant": "all lists", "anchors": ["src/tools21cm/source_file.py: SourceFile"]}
{"id": "C48", "title": "Brightness temperature is bounded and linear", "statement": "mean_dt is positive and grows with redshift in non-closed cosmologies; it is meandt/h at z=0 and grows as (1+z)^(1/2), 1+z or (1+z)^2 in a universe of matter only, empty, or with a cosmological constant only. For densities without a negative cell calc_dt is mean_dt times neutral fraction times density over the mean density: zero iff ionised or empty, bounded, linear in density and in ionised fraction; the box mean is mean_dt times one minus the mass-weighted ionised fraction. One negative cell anywhere multiplies all other cells by the mean density. Light cones: the slices get the redshifts of comoving distances one cell apart starting at lowest_z, a cell being the box size over the size of the axis after the line of sight; redshifts are broadcast along the last axis, which is the line of sight only for los_axis=2; other axes of a cube are silently wrong, most other shapes raise. calc_dt_full is calc_dt times one minus T_CMB over the (corrected) spin temperature: negative iff that is below the CMB and never above calc_dt; fully ionised cells are 0 below 2e4 K and NaN from there on. calc_dt_full_lightcone uses the mean redshift for all slices. A light cone computed from its arguments, with its line of sight along the last axis, has in slice k the mean signal of the redshift lying k cells beyond the lowest one (the cell being the box length over the number of cells across), times the neutral fraction, times the density over the mean. In a cube the line-of-sight argument changes nothing, since the redshifts always run along the last axis; a differing length along another line of sight raises an error. With spin temperatures a whole light cone is computed at one redshift between those of its ends, so equal cells get equal signals wherever they lie along the line of sight.", "quantifier": "all fields, redshifts and cosmologies", "why_tests_cant": "continuous inputs", "anchors": ["src/tools21cm/temperature.py: calc_dt, mean_dt, calc_dt_full"]}
{"id": "C49", "title": "Opening and granulometry", "statement": "binary_dilation and binary_erosion are the union and the intersection of the image's translates by the structuring element (cells outside the image count as off); the padded variant of the erosion agrees if the padding covers the element's reach. For a symmetric element the opening is the union of the element's translates that fit into the image: anti-extensive, monotone, idempotent; an asymmetric or even-sized element (centre (k-1)//2) can put cells outside the image. Discs and balls hold the displacements no longer than the radius and are symmetric, so an opened area never exceeds the image's and radius 0 gives the image. granulometry_CDF returns the areas in ascending order of size whatever the shuffle. The pattern spectrum sums to the area fraction lost, but can be negative: opened areas need not fall with the radius.", "quantifier": "all images, dimensions, structuring elements, radii, shuffles", "why_tests_cant": "all inputs", "anchors": ["src/tools21cm/morph.py: binary_opening", "src/tools21cm/bubble_stats.py: granulometry_CDF, _granulometry"]}
{"id": "C50", "title": "Regions of interest by thresholds", "statement": "bubbles_from_fixed_threshold marks exactly the cells at most (at least, for lower limits) the threshold: every cell is in one of the two classes, in both iff it equals the threshold, and regions grow with the threshold. bubbles_from_triangle2D uses the median of the slices' thresholds, so at least half of them lie on either side; any loc_axis outside 0,1,-2,-3 means the last axis. bubbles_from_kmeans marks all cells of a single-valued cube and exactly the low (high) cells of a two-valued one whatever labels k-means chose; with two clusters the cut is half way between the two clusters' maxima, so cells of the upper cluster can be marked too (refuted otherwise) and the region is the lower cluster iff none of them lies at or below the cut; with three clusters it is the cluster of the lowest (highest) centre and a region below (above) a cut; every n_clusters but 2 means 3. The triangle method for whole cubes marks a cell iff it is on the chosen side of one threshold, does not notice a change of units in which the threshold follows, and agrees with the method by slices on a cube of one slice.", "quantifier": "all cubes, thresholds, axes and converged cluster assignments", "why_tests_cant": "continuous inputs", "anchors": ["src/tools21cm/identify_regions.py"]}
{"id": "C51", "title": "Antenna stamps list exactly the baselines of a pixel", "statement": "get_full_uv_map_with_antenna_stamp stores at every time step and pixel exactly the antenna pairs whose rotated baseline rounds to that pixel (coordinates modulo ncells), in baseline order; collapsing the stamps gives the number of baselines per pixel summed over time, which agrees with grid_uv_tracks on even grids and can disagree on odd ones.", "quantifier": "all baseline lists, grid sizes, numbers of time steps", "why_tests_cant": "all baseline lists and all grid sizes", "anchors": ["src/tools21cm/radio_telescope_calibration.py: _grid_uv_tracks_with_antenna_stamp, full_uv_map_with_antenna_stamp_to_uv_map"]}
{"id": "C52", "title": "Rows of the Lagrangian uv map lose the baseline identity", "statement": "In get_full_uv_lagrangian_with_antenna_stamp row k of a time step holds the coordinates of the k-th in-range baseline. The documented correspondence (row k belongs to antenna pair k, NaN when it is outside the grid) holds exactly when no out-of-range baseline precedes an in-range one.", "quantifier": "all baseline lists and grid sizes", "why_tests_cant": "the failing configurations depend on the order of in- and out-of-range baselines at each time step", "anchors": ["src/tools21cm/radio_telescope_calibration.py: _grid_uv_lagrangian_tracks_with_antenna_stamp"]}
{"id": "C53", "title": "Declination of the calibration functions", "statement": "The gain and antenna-stamp functions rotate the baselines with declination -30 degrees whatever declination the caller passes; the caller's value only shifts the hour angle (it is passed in the place of the total integration time).", "quantifier": "all baselines, time steps and declinations", "why_tests_cant": "continuous inputs", "anchors": ["src/tools21cm/radio_telescope_calibration.py: get_uv_map_with_gains, get_full_uv_map_with_antenna_stamp, get_full_uv_lagrangian_with_antenna_stamp"]}
{"id": "C54", "title": "Layout frame changes are isometries", "statement": "enu_to_ecef and ecef_to_xyz preserve all distances between antennas and fix the given origin. The local axes of enu_to_ecef are the directions of growing longitude, growing latitude and growing height. After ecef_to_xyz, X lies in the equatorial plane, Y points east and Z to the pole: not X east and Y north as documented. Geographic positions are placed on the sphere of radius 6371 km and their mutual distances do not change under a common shift of longitude.", "quantifier": "all antenna positions, latitudes and longitudes", "why_tests_cant": "identities over the reals", "anchors": ["src/tools21cm/radio_telescope_layout.py: enu_to_ecef, ecef_to_xyz, geographic_to_cartesian_coordinate_system"]}
{"id": "C55", "title": "Mesh size and temperature files", "statement": "get_mesh_size returns the mesh that the readers use for cbin, density and record-format ionized-fraction files, but only two of the three dimensions for temperature files. TemperFile and IonRateFile read a well-formed file correctly exactly when the cell count does not wrap around in int32 arithmetic to a smaller non-negative count; otherwise they raise.", "quantifier": "all meshes and contents", "why_tests_cant": "sizes are unbounded and the failing ones start above 2^32 cells", "anchors": ["src/tools21cm/helper_functions.py: get_mesh_size", "src/tools21cm/temper_file.py: TemperFile.read_from_file", "src/tools21cm/irate_file.py: IonRateFile.read_from_file"]}
{"id": "C56", "title": "Output redshifts at equal frequency spacing", "statement": "redshifts_at_equal_frequncy_width(z_low, z_high, dnu) terminates for dnu > 0 and returns ascending redshifts in (z_low, z_high], ending at z_high, whose frequencies nu0/(1+z) are exactly nu_high + k*dnu, with no further one above z_low; their number is the bandwidth over dnu, rounded up. It raises for z_high <= z_low and never ends for dnu = 0.", "quantifier": "all z_low > -1, z_high and dnu >= 0", "why_tests_cant": "the number of slices is unbounded", "anchors": ["src/tools21cm/lightcone.py: redshifts_at_equal_frequncy_width"]}
{"id": "C57", "title": "Output redshifts at equal comoving distance", "statement": "redshifts_at_equal_comoving_distance terminates and returns strictly ascending redshifts in [z_low, z_high), starting at z_low, each step being the first-order redshift width of one cell, for every expansion rate that is bounded below and for which a cell is thinner than (1+z)c/H. One more cell would reach z_high. If H does not decrease, the true comoving step from z to z' lies between H(z)/H(z') and 1 times (1+z')/(1+z) cells.", "quantifier": "all bounds, all positive expansion rates", "why_tests_cant": "unbounded number of steps, arbitrary cosmology", "anchors": ["src/tools21cm/lightcone.py: redshifts_at_equal_comoving_distance"]}
{"id": "C58", "title": "Light-cone sub-volumes", "statement": "get_lightcone_subvolume cuts the slices between those nearest to the two end redshifts, an odd number of them if asked, each minus its own mean if asked; inside the redshift range it raises exactly when verbose printing looks up the redshift one past the last slice. Every slice in the asked range is returned, except possibly the one nearest to its high end. That exactly one depth must be given is not checked: with both, the one in Mpc wins. A depth in Mpc is returned as the third side whatever was cut.", "quantifier": "all ascending redshift lists, all ranges, both flags", "why_tests_cant": "all ranges and flags", "anchors": ["src/tools21cm/lightcone.py: get_lightcone_subvolume"]}
{"id": "C59", "title": "Fast spherical spectra count edge modes twice", "statement": "power_spect_fast.power_spect_1d: interior bins are closed intervals, so a mode on a shared edge is counted in both; the first linear bin spans from (smallest k + kmin)/2 up to (kmin - smallest k)/2 into the second bin; with logarithmic bins and a mode at k=0 (odd cubes) the first bin averages every mode. power_spect_mu tests mu of cell i+1 for cell i after the zero mode. The last linear bin reaches from (largest k - kmax)/2 inside the last but one up to (kmax + largest k)/2, so that modes above that are in no bin. Over the same equally spaced bins, an inner bin of the fast spectrum averages exactly the modes the ordinary spherical spectrum puts there plus the modes on its upper edge; without such modes value, count and centre agree.", "quantifier": "all mode lists, bin numbers and bin indices", "why_tests_cant": "must hold for all grids", "anchors": ["src/tools21cm/power_spect_fast.py: power_spect_1d", "src/tools21cm/power_spect_fast.py: power_spect_mu"]}
{"id": "C60", "title": "Cylindrical binning", "statement": "power_spectrum_2d averages in entry (i,j) exactly the modes in k_perp bin i and k_par bin j; with automatic bins a mode is counted iff neither component is zero. The documented list form [n_kper, n_kpar] of kbins is the one form that raises.", "quantifier": "all mode lists, all bins, all forms of kbins", "why_tests_cant": "all inputs", "anchors": ["src/tools21cm/power_spectrum.py: power_spectrum_2d"]}
{"id": "C61", "title": "Forms of the box_dims argument", "statement": "Power-spectrum functions accept None, a number or a list for box_dims and use one side per axis; a numpy array of sides raises unless it has exactly one element. The keyword boxsize replaces box_dims altogether. The volume is the product of whatever sides are listed, unnoticed if too few or too many; wave numbers exist iff no axis lacks a side.", "quantifier": "all forms of the argument and all dimensions", "why_tests_cant": "all inputs", "anchors": ["src/tools21cm/power_spectrum.py: _get_dims"]}
{"id": "C62", "title": "Mass-weighted mean ionized fraction", "statement": "mass_weighted_mean_xi is the ionized mass over the mass. It lies between the smallest and largest ionized fraction for all non-negative densities that are not all zero, equals the plain mean for uniform density, and exceeds it by the covariance of fraction and density over the mean density. The unit of density does not matter.", "quantifier": "all cubes of fractions and densities", "why_tests_cant": "continuous inputs of any size", "anchors": ["src/tools21cm/statistics.py: mass_weighted_mean_xi"]}
{"id": "C63", "title": "Integer redshifts and distances lose precision", "statement": "z_to_cdist of a float redshift is the comoving distance; of an integer redshift it is the distance cut to whole Mpc, right iff that is an integer. cdist_to_z of an integer distance is the redshift cut to a whole number; there and back with integers returns the distance iff its redshift is whole, and less otherwise. z_to_age of an integer redshift is 0 whenever the integral is below H0, although the true age is positive.", "quantifier": "all redshifts, all values of the integral, all cosmologies", "why_tests_cant": "dtype of the argument is not part of any documented contract; holds for every value", "anchors": ["src/tools21cm/cosmo.py: z_to_cdist, cdist_to_z, z_to_age"]}
{"id": "C64", "title": "The image seen by an interferometer", "statement": "apply_uv_response_on_image is linear and acts on each Fourier mode by a factor: 1 if the mode and its opposite are observed, 1/2 if just one is, 0 if none. It is idempotent for all images iff the uv coverage is point symmetric, the identity iff the coverage is complete, never increases the sum of squares, and keeps the total flux iff the zero frequency is observed. apply_uv_response_on_coeval does this slice by slice; different shapes raise.", "quantifier": "all grid shapes (any number of axes and sizes), images, uv maps", "why_tests_cant": "A statement about the Fourier transform of every image on every grid and every mask; tests use one mask and a tolerance.", "anchors": ["src/tools21cm/radio_telescope_noise.py:apply_uv_response_on_image", "src/tools21cm/radio_telescope_noise.py:apply_uv_response_on_coeval"]}
{"id": "C65", "title": "Noise maps: scaling, weighting and variance", "statement": "With the same random draws a noise map is proportional to SEFD/sqrt(bandwidth*hours), does not depend on the integration time, is linear in the draws, and lacks every mode that neither a baseline nor its mirror observes. For any uncorrelated unit draws all pixels have the same variance (sum over observed cells of taper^2/uv) and the covariance of two pixels depends on phase differences only. Only the documented weighting names work; uniform weighting overwrites the caller's array. get_SEFD fails for one frequency with numeric T_sys and ep_aperture, and returns a float for several.", "quantifier": "all grid sizes, uv maps, observation parameters, draws and probability laws with uncorrelated unit draws", "why_tests_cant": "Variance and covariance are statements about a probability law; a test sees a few random realisations. Scaling must hold for every parameter choice.", "anchors": ["src/tools21cm/radio_telescope_noise.py:noise_map", "src/tools21cm/radio_telescope_noise.py:apply_uv_response_noise", "src/tools21cm/radio_telescope_sensitivity.py:sigma_noise_radio", "src/tools21cm/radio_telescope_sensitivity.py:get_SEFD"]}
{"id": "C66", "title": "Cut of the uv map at the longest baseline", "statement": "get_uv_map(max_baseline=b) on even grids keeps a cell in place iff its frequency pair, displaced by half a cell on both axes and stretched by n/(n-1), lies within b/lambda*boxsize/distance cells; the cut is nested in b, idempotent, and does not keep point symmetry. On odd grids the whole map is displaced by one cell on each axis.", "quantifier": "all grid sizes, box sizes, uv maps, cell pairs and baseline limits", "why_tests_cant": "Depends on the parity and size of the grid; tests use one even grid.", "anchors": ["src/tools21cm/radio_telescope_noise.py:get_uv_map", "src/tools21cm/radio_telescope_noise.py:max_baseline_to_max_k"]}
{"id": "C67", "title": "Bandwidths of a noise light cone", "statement": "noise_lightcone gives slice k the frequency distance to slice k+1 as bandwidth and repeats it for the last slice; they are positive iff there are at least two slices and consecutive frequencies differ (one redshift gives zero bandwidth, so undefined noise), and add up to the band. noise_cube_lightcone raises for all arguments.", "quantifier": "all lists of redshifts, all slices, all arguments", "why_tests_cant": "Must hold for every list length, including one; the raising holds for every argument tuple.", "anchors": ["src/tools21cm/radio_telescope_noise.py:noise_lightcone", "src/tools21cm/radio_telescope_noise.py:noise_cube_lightcone"]}
{"id": "C68", "title": "Taper of the noise maps", "statement": "The Blackman-Harris window is symmetric, lies in [6e-5, 1], and falls strictly from the centre. Laid over the Fourier plane with fftshift it gives opposite frequencies equal weight only for n <= 2: on even grids frequency -1 weighs as much as 0, on odd grids it has the maximum and 0 has less.", "quantifier": "all window lengths and indices", "why_tests_cant": "A claim for every window length; numerical tests check one or two lengths.", "anchors": ["src/tools21cm/radio_telescope_noise.py:signal_window", "src/tools21cm/radio_telescope_noise.py:noise_map"]}
{"id": "C69", "title": "Power spectrum of Gaussian random fields", "statement": "On three-dimensional grids with even sides the expected power of a field made by make_gaussian_random_field is the requested spectrum at every mode (the mean gets that of a tenth of the smallest k). On odd grids a mode gets the power requested one cell further along every axis, averaged with its opposite; on even two-dimensional grids k is displaced by half a cell. The field is linear in the draws; only 2 and 3 dimensions with one side per axis are accepted.", "quantifier": "all grids, boxes, non-negative spectra, modes and probability laws with uncorrelated unit draws", "why_tests_cant": "An expectation over a probability law at every mode of every grid; a test sees one realisation, and the odd-grid displacement hides in the scatter.", "anchors": ["src/tools21cm/gaussian_random_field.py:make_gaussian_random_field", "src/tools21cm/power_spectrum.py:power_spectrum_nd"]}
{"id": "C70", "title": "Calls that can never succeed", "statement": "By the binding rules of the language: power_spectrum_multipoles and freq_box raise for every input; convolve_uvmap and convolve_uvmap_coeval raise whenever no uv map is passed; halo3d raises for every array that has a cell; horizon_wedge_equation returns a function that raises at every point.", "quantifier": "all argument values, all results of the callees and of earlier statements", "why_tests_cant": "That no input succeeds is a statement about all inputs.", "anchors": ["src/tools21cm/power_legendre.py:power_spectrum_multipoles", "src/tools21cm/deprecated.py:freq_box", "src/tools21cm/smoothing.py:convolve_uvmap", "src/tools21cm/smoothing.py:convolve_uvmap_coeval", "src/tools21cm/Friends_of_Friends.py:halo3d", "src/tools21cm/power_spect_fast.py:horizon_wedge_equation"]}
{"id": "C71", "title": "Correlation functions", "statement": "ps_to_corr at r equals the documented integral at pi*r; it is linear in the spectrum, bounded by its value at zero separation for non-negative spectra, and ignores empty bins. Automatic radii need a numeric box size (the default None raises), go from two cells to half the box and ascend iff there are more than four cells a side. landy_szalay_estimator raises for an array of bin edges, and bins the indices of the pairs: when all points are within rmax the data-data count does not depend on positions at all; it depends on the order of the points. The data-random count is right.", "quantifier": "all spectra, wavenumbers, radii, catalogues, distances and bins", "why_tests_cant": "Equality with an integral formula at every r, and blindness to all positions, are statements over all inputs.", "anchors": ["src/tools21cm/corr_function.py:ps_to_corr", "src/tools21cm/corr_function.py:correlation_function", "src/tools21cm/corr_function.py:landy_szalay_estimator"]}
{"id": "C72", "title": "Smoothing with a uv map", "statement": "convolve_uvmap with a given map multiplies each Fourier mode by the mean of the map (over its maximum) at the mode and its opposite: it is linear and never increases the sum of squares. remove_baselines_from_uvmap keeps exactly the non-zero frequencies within the radius (the baseline in wavelengths times box size over distance), keeps point symmetry, is nested in the limit, and so removes the mean of the image. smooth_lightcone_uv_threshold returns an exception object for non-float or negative thresholds and changes nothing for the default. convolve_uvmap_coeval always rotates the axes, so keeps the shape only of cubes with equal sides.", "quantifier": "all grids, images, uv maps, limits and line-of-sight axes", "why_tests_cant": "Statement about all images and maps; tests use cubes with equal sides, where the rotation of the axes does not show in the shape.", "anchors": ["src/tools21cm/smoothing.py:convolve_uvmap", "src/tools21cm/smoothing.py:remove_baselines_from_uvmap", "src/tools21cm/smoothing.py:smooth_lightcone_uv_threshold", "src/tools21cm/smoothing.py:convolve_uvmap_coeval"]}
{"id": "C73", "title": "Converting a light cone between physical and angular coordinates yields the size the field of view asks for, or fails", "statement": "Physical to angular: with z_low the near end, a slice at or beyond it never exceeds the field of view, is resampled to an odd number of cells, and comes out with exactly int(field of view / resolution) cells; the conversion of the light cone succeeds as long as every slice keeps at least half of those cells, and raises when a slice (of three or more cells) covers less than half of them, i.e. when the far end is about twice as far away as the near end. Mode 'crop' keeps exactly the requested number of cells, centred up to half a cell. Angular to physical: the volume always has int(field of view / cell size) transverse cells, at most the number of the input, and no slice fails to fit. Resampling samples the first and the last cell, so the spacing is (n-1)/(m-1), which equals the ratio n/m of cell sizes only if nothing is resampled.", "quantifier": "All boxes, resolutions, luminosity distances and redshifts with slices not nearer than the near end; all grid sizes.", "why_tests_cant": "Whether a slice fits depends on truncations of ratios of cosmological distances for every slice; a few light cones exercise one combination.", "anchors": ["src/tools21cm/angular_coordinates.py: physical_lightcone_to_observational, observational_lightcone_to_physical, physical_slice_to_angular, angular_slice_to_physical, resample_slice"]}
{"id": "C74", "title": "Test-time augmentation of the neural segmentation undoes every symmetry it applies and changes nothing for pixel-wise networks", "statement": "Every flip/rotation used to augment the cube is undone exactly, for cubes of any side, before the predictions are averaged. A network that decides each pixel by its value gives its own (rounded) answer and zero uncertainty, with and without augmentation. If the network returns probabilities, the mean lies in [0,1], the segmentation is 1 exactly where the mean exceeds one half, and the uncertainty is at most 1/2. The augmentation uses 28 different symmetries, every listed flip/rotation being among them; they are not closed under composition: flipping the input along axis 0 or 1 flips the output for every network, flipping it along axis 2 may change the segmentation. Arrays that are not cubes raise unless the first axis is the shortest, and otherwise cells beyond its length get only 2/3 or 1/3 of the prediction.", "quantifier": "All cubes, sides and networks that see only the pixels of a slice.", "why_tests_cant": "The bookkeeping involves 60 compositions of flips and rotations, index by index; a test with a trained network cannot tell a wrong undo from network noise.", "anchors": ["src/tools21cm/segmentation.py: segunet21cm.prediction, IndependentOperations, UniqueRows"]}
{"id": "C75", "title": "The effective Lyman-alpha optical depth averages the transmission of the cells around each cell on a periodic line", "statement": "For windows of 1 up to twice the line plus one cells, the value at cell i is minus the logarithm of the mean of exp(-tau) over exactly the L cells from L/2 before i on, wrapping around the box; it lies between the smallest and the mean optical depth of that window, is the cell's own depth for L = 1 and for uniform gas, and moves with the line when the box is shifted. For longer windows only part of the window exists while the sum is still divided by L, so fully transparent gas gets a positive depth. With the line of sight along axis 0 or 1 only the neutral fraction is transposed: the result is that of the transposed optical depth when the density is symmetric, and in general neutral gas is paired with the density of another cell. Only the method 'FGPA' works. A density (minimum above one) passed as overdensity is divided by its mean, giving mean overdensity zero, independently of the unit and idempotently.", "quantifier": "All lines, window lengths, positions, neutral fractions and densities.", "why_tests_cant": "The padding is written with negative slices whose meaning changes at zero and at the box size; tests use one window length on one cube.", "anchors": ["src/tools21cm/lyman_alpha_transmission.py: tau_nu_lyA_los, tau_nu_lyA_FGPA"]}
{"id": "C76", "title": "The primary beam is a normalised pattern falling off from the centre, applied slice by slice", "statement": "Whatever the profile, beam values lie in [0,1] and some cell has value 1; step, Gaussian and sigmoid beams never increase with the distance from the centre, which is cell n/2 for even grids and a point half a cell beyond the middle cell for odd grids. On even grids the step ends at half the null and the Gaussian has full width l_null/1.186 at half maximum. The beam has values unless it is a step on an odd grid so coarse that no cell lies within half the null (then nan). The sigmoid reaches one half at r with r^sqrt2 = l_null/2, which is l_null/2 only if that equals 1. A two-dimensional map ignores l_null. A cube is accepted iff its maps are square, there are no more redshifts than slices, and, for a frequency axis other than the last, it is a cube in the strict sense; each slice is multiplied by the beam of its redshift, slices without a redshift become zero. Whichever axis is the frequency axis, each slice across it is multiplied by the beam of its own redshift.", "quantifier": "All grids, box sizes, nulls, profiles, redshift lists and shapes with axes of at least two cells.", "why_tests_cant": "Monotonicity, normalisation and the shape bookkeeping range over all grid sizes and shapes; the existing test compares one cube.", "anchors": ["src/tools21cm/primary_beam.py: primary_beam, circular_beam"]}
{"id": "C77", "title": "The spherical-average size of a cell is the largest scale whose average reaches the threshold", "statement": "With scales increasing from 1 (or 2) to half the box, each cell is given exactly the largest scale at which the average over a ball around it reaches the threshold, or none; for whole scales the ball is centred on the cell, otherwise its diameter is rounded down to a whole number of cells and for odd ones its centre is half a cell off. More ionisation never shrinks a cell's size; the counts add up to the cells reaching the threshold at some scale and the returned distribution is non-negative and sums to one. upper_lim selects averages at most the threshold. For a box of four cells all logarithmic scales coincide. The box is padded with zeros instead of periodic: in a fully ionised box cells far from the faces average to one, but the corner cell averages at most 3/4 at every scale and gets no size. The 'ball' window of the box counting is a cylinder. It holds whole columns over the disc of radius size/2 around the middle.", "quantifier": "All cubes, thresholds, numbers of scales and cell positions.", "why_tests_cant": "The size of every cell depends on all scales and all neighbours; tests look at one synthetic sphere.", "anchors": ["src/tools21cm/spa_np.py: spa_np", "src/tools21cm/bubble_stats.py: spa", "src/tools21cm/box_counting.py: get_kernel"]}
{"id": "C78", "title": "The watershed size distribution is a distribution over radii computed from labels, not volumes", "statement": "Whenever it exists, the returned distribution is non-negative, sums to one, and its bins are centred on whole numbers of cells scaled by the cell size, with r dP/dr equal to r times dP/dr; each bin holds the share of the sizes that lie in it, the top bin closed on both sides. It depends only on which labels occur: regions of one voxel and of a hundred voxels give the same sizes. For regions numbered 1..m it exists iff m is at least five (otherwise nan). Whatever the heights, the flooding gives a region to exactly the mask cells joined to a peak by face neighbours within the mask; every region is joined within itself to a peak, peaks share a region exactly when they touch through peaks, and the regions are numbered 1 to the number of such clusters. So the distribution depends on the image only through that number.", "quantifier": "All label volumes, box sizes and grids.", "why_tests_cant": "That volumes are ignored is invisible unless two volumes with the same labels are compared; the existence threshold depends on every label count.", "anchors": ["src/tools21cm/bubble_stats.py: watershed_bsd"]}
{"id": "C79", "title": "Putting haloes on a grid conserves their mass but spans the extent of the haloes rather than the box", "statement": "The gridded masses sum to the halo masses for every grid and box; every halo is counted in exactly one cell, the half-open bin containing it (last bin closed); for non-negative masses the list of occupied cells carries the full mass without repetitions. For values of either sign halo_value_on_grid lists exactly the cells with a positive sum, and so adds up to the sum of the values iff no cell has a negative one. The result is unchanged if the box size is replaced by any other or all positions are shifted: the bins run from the smallest to the largest halo coordinate, which agrees with the cells of the box when the haloes reach both ends, and otherwise separates haloes lying in one cell of the box. Over every history of calls, masses stored with set_halo_mass never influence halo_mass_on_grid, which fails unless the masses are passed again. Positions given in cm, Mpc or grid units agree after conversion; without a unit the call raises.", "quantifier": "All halo lists, box sizes, grids, shifts and histories of setter calls.", "why_tests_cant": "Conservation and independence of the box size are statements about all halo lists; the tests use haloes filling the box.", "anchors": ["src/tools21cm/nbody_file.py: Halo2Grid, halo_list_to_grid"]}
{"id": "C80", "title": "Particle files are read completely or refused, component by component, and every further read appends", "statement": "read_from_file succeeds iff every node's files are complete (headers at the requested redshift, six numbers and, with identifiers, one identifier per particle, equal counts); then it appends exactly the particles of all nodes in order and npart is their number. Component j of particle i is entry i + n j of the node's data: a file storing particle after particle is misread for every number of particles above one. A failed read keeps npart but has already appended the particles of the nodes before the bad one. After k reads the object holds k times npart particles.", "quantifier": "All numbers of nodes, counts, data, missing or inconsistent files, and numbers of repeated reads.", "why_tests_cant": "The layout, the partial effects of a failing read and repeated reads are statements over all files and histories; no particle files are in the test suite.", "anchors": ["src/tools21cm/nbody_file.py: NbodyFile, read_from_file, get_npart"]}
{"id": "C81", "title": "pkdgrav density contrasts have mean zero and forget the units; halo catalogues ignore the Hubble parameter", "statement": "A density file is accepted iff its length is the cube of the grid size (of some integer when none is given); the contrast at (i,j,k) is the stored value at (k,j,i) over the mean minus one whatever the box size and critical density, sums to zero and is at least -1 for non-negative densities. Lists of halo files are concatenated in order, an empty list fails, a later read replaces an earlier one. The Hubble parameter of the catalogue reader changes nothing: relative to the box in Mpc/h it computes, masses are larger by h^-3 and positions by h^-1. The mass function counts every halo exactly once per volume at the geometric mean of its bin. The message after saving is right iff the reader is verbose or nothing was saved. A read that fails leaves the haloes read before.", "quantifier": "All density files, grid sizes, units, halo lists, histories of reads, Hubble parameters, bins and file names.", "why_tests_cant": "The identities hold for all fields and all lists of haloes; no pkdgrav files are tested.", "anchors": ["src/tools21cm/nbody_pkdgrav.py: Pkdgrav3data, HaloCataloguePkdgrav3", "src/tools21cm/nbody_file.py: read_pkdgrav_fof_halo_catalogue, read_pkdgrav_density_grid"]}
{"id": "C82", "title": "Wedge filtering of an image multiplies modes only on even grids; point sources overwrite each other", "statement": "The point-source map holds in each cell the temperature of the last source drawn there, hence the sum of the sources iff none share a cell in the sense that sharing loses the earlier ones. The step filter keeps a mode iff its transverse wavenumber exceeds the cone |k_par|(1-mu^2)/mu and the shortest baseline; 'gaussian' is the step; the sigmoid lies between 0 and 1, rises with the transverse wavenumber and is one half on the cone; a larger mu never removes more, and the removed cone lies strictly inside the directions with cosine above mu. The wavenumbers used are stretched by n/(n-1) and on even grids displaced by half a mode. On even grids every mode is multiplied by the mean of the filter at the mode and its opposite, so an all-pass filter is the identity but some modes are halved; on odd grids even an all-pass filter multiplies the image by a wave. Only arrays whose last axis is the longest are accepted, barrel_filter works only for a single cell.", "quantifier": "All source lists, grids, boxes, filters, images, shapes and parameters.", "why_tests_cant": "The statements concern every mode of every image and every grid size; nothing of this module is tested.", "anchors": ["src/tools21cm/foreground_model.py: extragalactic_pointsource_fg, diabolo_filter, barrel_filter, remove_wedge_image"]}
{"id": "C83", "title": "Rolling wedge removal cleans each channel from its own neighbourhood, with a fixed gain and a displaced redshift", "statement": "It accepts exactly square light cones with enough redshifts and an even chunk length (at least four, threshold in [0,1)); the buffer then always exists and spans less than half the frequencies. Each output channel is the middle of its tapered neighbourhood after removing modes and depends only on channels within half a chunk. A mode is kept iff it lies outside the wedge and the buffer, independently of the cell size; modes constant along the line of sight are always removed; steeper wedges remove more; each mode of the chunk is kept or removed exactly. If nothing is removed the channel comes back multiplied by the window's value at its middle, which is strictly between 0 and 1. The slope of the wedge is comoving distance times Hubble rate over c (1+z) in the flat cosmology of the given matter density: zero today, growing with redshift, between z/(1+z) and that times the expansion rate, and 2 (sqrt(1+z) - 1) for matter only. The slope used is that of the channel half a chunk minus one later (clipped at the end).", "quantifier": "All light cones, chunk lengths, slopes, cell sizes, thresholds, channels and modes.", "why_tests_cant": "Existence of the buffer, locality and mode selection hold for every chunk length and every light cone; the function is not tested.", "anchors": ["src/tools21cm/foreground_model.py: rolling_wedge_removal_lightcone"]}
{"id": "C84", "title": "The bispectrum estimate is an average over triples of modes, which are closed triangles only on even grids", "statement": "The estimate equals V^2/N^3 times the mean of the product of three amplitudes over all triples of modes in the three shells whose centred frequencies add up to zero on even axes and to three on odd axes: on even grids exactly the closed triangles, with an odd axis of more than three cells not a single closed triangle. It is cubic in the field, symmetric in the shells when equal centres have equal widths (the width of a repeated centre is ignored), and on even grids invariant under periodic translations. Given wavenumber components instead of magnitudes, the shell compares the squared wavenumber with the centre. The third side lies between the difference and the sum of the others; the angle used for equilateral triangles gives a side longer by the root of three. The default bins lie between the fundamental and the Nyquist wavenumber.", "quantifier": "All grids and shapes, boxes, fields, shells, widths, translations and angles.", "why_tests_cant": "Which triples are averaged depends on the parity of every axis; a numerical test of one cube cannot tell closed from displaced triangles.", "anchors": ["src/tools21cm/bispectrum.py"]}
{"id": "C85", "title": "Cosmological distances increase with redshift, are inverted at the nodes of the table, and depend on a possibly stale q0", "statement": "With exact integration the comoving distance is zero at redshift zero, strictly increasing with slope c/H(z) and bounded by the horizon of matter alone. In a flat cosmology with current q0 the luminosity distance is (1+z) times it, by integration or by the closed formula. Setting lambda to zero alone leaves q0 stale: right iff the matter density is one. Positive k lengthens, negative k shortens, and with lambda zero k is ignored. Inverting a distance of a table entry returns its redshift; a distance given as integer returns a truncated redshift.", "quantifier": "All cosmologies with non-negative densities, redshifts, tables, interpolations through their points and histories of constants.", "why_tests_cant": "Monotonicity, bounds and inverses hold for every redshift and cosmology; tests check a few numbers in one cosmology.", "anchors": ["src/tools21cm/cosmo.py: luminosity_distance, z_to_cdist, cdist_to_z"]}
{"id": "C86", "title": "Magnitudes, fields of view and particle masses convert consistently where they convert at all", "statement": "Five magnitudes are a factor of 100 in flux. The absolute-to-apparent conversion fails on numbers and magnitudes and accepts only plain arrays, where it is inverse to the other direction. A plain field of view is taken as steradians while a quantity in square degrees is converted. Particle number and particle mass are inverse to each other and the particles make up the matter of the box; the number of particles for a halo mass is computed from a mass taken as a number per direction, right only on one hypersurface.", "quantifier": "All magnitudes, redshifts, fields of view, boxes, masses and numbers.", "why_tests_cant": "Inverse laws and the set of accepted argument kinds range over all values; the functions are not tested.", "anchors": ["src/tools21cm/astro_tools.py", "src/tools21cm/nbody_tools.py"]}
{"id": "C87", "title": "The analytic noise error of the power spectrum follows one closed formula and its scaling laws", "statement": "Number or function, the error equals one closed formula: proportional to k^(3/2), distance, the root of the depth, the square of the system temperature and the square of the array radius, inverse to frequency, time, bandwidth, stations squared and collecting area to the power 3/2. Hence doubling the time halves it. It is positive whenever distances change across the band.", "quantifier": "All telescopes, frequencies, wavenumbers, times and scale factors.", "why_tests_cant": "Scaling laws are statements about all parameters.", "anchors": ["src/tools21cm/power_spectrum_noise.py: noise_error_ps"]}
{"id": "C88", "title": "A fit object predicts with the parameters in the order of their names and remembers the cross validation of earlier calls", "statement": "After any history of fits, prediction passes, in the order in which the parameters were first named, the solution of the optimizer or per parameter the mean over folds with finite parameters and positive score; it is nan exactly when no fold counts. A number of splits given once stays in force for every later call that gives none. Naming the parameters in another order for a later fit does not reach the prediction. Without cross validation, if the optimizer finds the least value of what it is given, no parameter vector predicts the data with a smaller sum of squares, and data the function can meet exactly are predicted exactly. A fold counts iff it has at least two test points and its parameters predict them better than every constant, or exactly. With at most ten data points every test part is a single point, no fold counts and every cross-validated parameter is undefined. The parameters of a fold depend only on its training points and its score only on its test points.", "quantifier": "All parameter lists, optimizers, folds, scores and histories of calls on one object.", "why_tests_cant": "State carried between calls is a property of all histories; there is no test of refitting.", "anchors": ["src/tools21cm/fitting_methods.py: FitFunction"]}
{"id": "C89", "title": "Gain maps sum the products of the baselines of each cell, with gains renewed at multiples of the timescales, and the response drops their phases", "statement": "n antennas give one row per pair i<j. A snapshot never fails; every cell receives exactly the products of the visible baselines landing on it (and on its opposite with mirror images), totals are conserved (doubled with mirror images) and mirrored maps are point symmetric. An observation sums snapshots made with the gains drawn last; without a timescale it fails at the first step; a timescale tt renews every tt/gcd(tt,int_time) steps. Each mode is multiplied by the principal root of mean rr + i mean ii, zero where unobserved: equal real gains r give |r|, perfect gains give the plain uv mask and with full coverage the image itself. A common phase does not cancel: all gains equal to i give exp(i pi/4) where the true product is 1. A gain model is usable iff it is a known name in any capitalisation, a pair of entries real and imag or amplitude and phase, or an array of two columns, with a gain for every antenna; the documented array of complex numbers and the documented function always raise, a name hides every other entry, and amplitudes and phases are used as real and imaginary parts, right for a common phase iff it is zero. The integer hit map taken from a gain map counts exactly the baselines that land on each cell over all time steps, whatever the gains; on even grids that is the map made without gains times the number of steps, on odd grids the two put the same baseline on different cells. With perfect gains the response to an image is that of the response without gains to the hit map.", "quantifier": "All antenna layouts, gains, maps, times, timescales, integration times and images.", "why_tests_cant": "Cell sums, renewal times and mode factors range over all layouts and schedules; the module has no tests.", "anchors": ["src/tools21cm/radio_telescope_calibration.py: from_antenna_config_with_gains, get_uv_map_with_gains, apply_uv_with_gains_response_on_image"]}
{"id": "C90", "title": "A taper passed to a spectrum is multiplied into the caller's array, once per call", "statement": "A window is accepted iff it is None or names blackmanharris or tukey in any capitalisation, and then only for floating-point arrays of at least three axes; arrays as windows are refused and refused calls leave the data untouched. After any history of calls the caller's array is the original times the product of all tapers along its last axis, and each statistic is that of the array so far, so repeating a call gives another result (a Tukey taper erases the end slices). Both tapers lie in [0,1], are symmetric, end in 0.00006 and 0, and Tukey is one on the middle half.", "quantifier": "All arrays, statistics, window arguments and histories of calls.", "why_tests_cant": "Mutation of the caller's array shows only across histories of calls; tests call each function once on a fresh array.", "anchors": ["src/tools21cm/power_spectrum.py: apply_window, power_spectrum_1d, power_spectrum_2d"]}
{"id": "C91", "title": "Binned cross spectra obey the Cauchy-Schwarz bound, the anisotropy ratio is scale free, and the dimensionless spectrum is the polygon through the bins", "statement": "Per bin, cross power squared is at most the product of the two powers; it is symmetric, equals the power for equal fields, is bilinear, nan in the same bins and unchanged by a common periodic shift; the same holds in angular bins, which never contain the zero mode and whose cosines lie in [-1,1]. Every cell from the first to the last edge, both included, is in exactly one plain bin; angular bins leave out their last edges, so modes exactly along the line of sight are in none. One-dimensional data only count their positive half. The anisotropy ratio is finite iff both halves have modes and the lower one power, is at least -1, bounded by the extreme powers, zero for isotropic power and invariant under rescaling; asking for mode counts always fails. With two bins or more the dimensionless spectrum returns kbins points on the polygon through P k^3/(2 pi^2), from the second bin to the last, a nan bin costing only its own two segments; it never falls below p k^3/(2 pi^2) for power of at least p.", "quantifier": "All shapes, boxes, fields, bin edges, cuts and spectra.", "why_tests_cant": "Inequalities and invariances for all fields and bins cannot be sampled; empty bins and nan need case analysis.", "anchors": ["src/tools21cm/power_spectrum.py: cross_power_spectrum_1d, power_spectrum_mu, cross_power_spectrum_mu, anisotropy_ratio_r_mu, dimensionless_ps, get_kbins"]}
{"id": "C92", "title": "What a file name decides: type, redshift, listing and written format", "statement": "The redshift of a name is the first longest run of digits and dots of its base name without extension, -1 iff there is none, an error iff that run is no number. It is the number in density, velocity and source names, and in xfrac and Temper names iff that number has two characters or more (else the 3 of '3d'); without extension the decimals are lost. The type is that of the first keyword in the documented order. Listings do not depend on the order of the directory, return every redshift in the closed range with multiplicity in ascending order, and with bracketing widen to the nearest outside redshifts, raising iff a bound is missing or outside. A brightness temperature cube uses a given redshift, otherwise the first name with a number, but raises whenever the ionised fraction is not a path. The light cone accepts only lists of names; directories, list files, redshift files and plain lists raise. save_data chooses by extension or type in a fixed order.", "quantifier": "All names, directories, directory orders, bounds, argument kinds and extensions.", "why_tests_cant": "Names are unbounded texts; tests use a handful of well-formed ones.", "anchors": ["src/tools21cm/helper_functions.py: determine_redshift_from_filename, determine_filetype, get_data_and_type, get_xfrac_redshifts, get_dens_redshifts, get_source_redshifts, _get_redshifts_in_range, save_data", "src/tools21cm/temperature.py: calc_dt, calc_dt_full", "src/tools21cm/lightcone.py: _get_filenames, _get_file_redshifts"]}
{"id": "C93", "title": "The noise power spectrum and the Briggs weights", "statement": "noise_coeval_power_spectrum_1d gives, per bin, the mean over the bin's cells of rms^2 divided by the number of baselines, scaled by pixel area squared over the map area. A cell without baselines makes its own bin infinite and every higher bin nan; since a map normally has none at its origin, every default bin (from 2 pi/L up) is then nan. More baselines never raise a finite bin. Observing time and number of antennas have no effect for a given map, and uniform or unknown weightings always raise. Under Briggs weighting cells without baselines carry no noise, the better sampled of two cells weighs more iff w1 w2 10^(2R) is below the squared mean, so the documented direction is inverted (R=-2 is natural, R=+2 penalises sampled cells). ifft2_wrap always raises. make_uv_map_lightcone returns the map of each redshift and the antenna number of the last, raising iff there is none. The default bins run from 2 pi/L to the largest wavenumber of the map.", "quantifier": "All map sizes, boxes, maps, edges, weights, robustness values and redshift lists.", "why_tests_cant": "Infinite and nan cells spread through cumulative sums in a way that depends on all cells; the claims range over all maps and edges.", "anchors": ["src/tools21cm/radio_telescope_noise.py: noise_coeval_power_spectrum_1d, apply_uv_response_noise_briggs, ifft2_wrap, make_uv_map_lightcone", "src/tools21cm/power_spectrum.py: radial_average, get_kbins"]}
{"id": "C94", "title": "Line intensity maps carry the signal of all haloes", "statement": "M_HI_on_grid gives every halo a positive hydrogen mass below the unsuppressed power law, exponentially cut below a mass that falls with redshift, strictly growing with halo mass and redshift; the map sums to the total hydrogen mass for every grid and box, and heavier haloes at the same places never dim a cell. It works only if masses and positions are both plain or both quantities. In L_CII_on_grid the default star formation rate is positive and strictly grows with mass and redshift, luminosity is 10^b rate^a, maps sum to the total luminosity; calls return iff the recipe is one of the four, the rate is absent, a function or a known name, and the lists are non-empty and of equal length. The dictionary of rate parameters offered by the documentation always raises.", "quantifier": "All halo lists with positive masses, redshifts, boxes, grids, recipes and parameters in the physical range.", "why_tests_cant": "Monotonicity and conservation range over all masses and halo lists.", "anchors": ["src/tools21cm/line_intensity.py: M_HI_on_grid, L_CII_on_grid", "src/tools21cm/nbody_file.py: halo_list_to_grid"]}
{"id": "C95", "title": "Segmentation scores and the training loss mean what their names say, up to stated exceptions", "statement": "For probability maps, iou lies in [0,1], is symmetric, is 1 exactly if both maps are the same 0/1 mask, and 0 exactly if the maps are disjoint and not both empty; on masks it is the number of common cells over the number of cells in either. An identical graded map scores below 1. dice_coef lies in (0,1], is symmetric, is 1 exactly if the maps agree in absolute value, and on masks is the usual count ratio with the smoothing term. precision and recall lie strictly between 0 and 1 and are each other with the arguments swapped; even a perfect mask scores below 1, by an exact formula, and an empty prediction has a precision near the true fraction rather than 0. r2score is at most 1, with equality exactly for equal maps. balanced_cross_entropy is non-negative, and is the usual class-balanced cross entropy plus a term for the cells with predicted probability below one half; due to that term lowering the predicted probability of a true cell can lower the loss.", "quantifier": "All maps, of any size, all values in the unit interval, and all small epsilons.", "why_tests_cant": "Symmetry, range and equality cases range over all pairs of maps.", "anchors": ["src/tools21cm/segmentation.py: iou, dice_coef, precision, recall, r2score, balanced_cross_entropy, sigmoid_balanced_cross_entropy_with_logits"]}
{"id": "C96", "title": "Superpixel scores and estimates describe the labelled pixels", "statement": "under_segmentation_error lies between -1 and the number of regions minus one; it is 0 if every superpixel lies in one region and the tolerance b is below 1, never positive if b is at least 1/2 (and then 0 exactly if every superpixel has a region covering more than the tolerance), -1 if b is at least 1, below 1/b-1 for positive b, and non-negative if b times the number of regions is below 1: with the default tolerance it may be negative. get_combined_mean_std gives the mean and sample deviation of all pixels together if the sigmas are sample deviations; with the sigmas computed by get_superpixel_sigmas the deviation is too small by an exact amount. mean_estimate pools exactly the superpixels with mean below -|thres| sigma, in any order, returning minus their pooled mean (positive), or two zeros if there are none; without explicit arrays it always raises, as does get_superpixel_SNRs with pixels. get_superpixel_n_pixels counts each label, see_label marks exactly one label, xfrac_mass_estimate inverts the mean brightness relation, xfrac_volume_estimate is a fraction complementary to the neutral one. The histogram threshold is the centre of a bin strictly before the fullest; the call raises exactly if the fullest bin is the first and is the only peak.", "quantifier": "All labellings, truths, tolerances, pixel values, histograms and orders.", "why_tests_cant": "The bounds hold for all partitions of any size, and the pooling for all groups of pixels.", "anchors": ["src/tools21cm/superpixels.py: under_segmentation_error, see_label, get_superpixel_n_pixels, get_superpixel_SNRs, mean_estimate, get_combined_mean_std, xfrac_mass_estimate, xfrac_volume_estimate, stitch_using_histogram"]}
{"id": "C97", "title": "The genus does not depend on where the structures lie in the periodic box", "statement": "genus is unchanged by moving the data around the periodic box by any vector, by quarter turns in the plane of the first two axes and by half turns in the plane of the first and last axis; a quarter turn in the latter plane can change it. The value is one plus a weighted count of background cells whose 27 surrounding cells are background exactly where one of eight turns of four fixed patterns says; the object itself never contributes, since convolving booleans gives booleans. So every set for which no background cell has 8, 16, 19 or 20 background cells around it has value 1, in particular every solid box of any size, whose genus is 0, while every box-shaped hole at least two cells across, of any size and anywhere, gives 0.", "quantifier": "All periodic grids of any shape, all thresholded data, all shifts and turns.", "why_tests_cant": "Invariance ranges over all data and shifts; tests on one structure do not exercise it.", "anchors": ["src/tools21cm/topology.py: genus, count_neighbors, count_neighbors_once"]}
{"id": "C98", "title": "Sliding windows, Gaussian beams and painted spheres keep their books", "statement": "smooth_gauss_3d keeps the total and non-negativity of any array and turns one bright cell into a Gaussian of the requested full width at half maximum, but returns an array longer by the first side less one along each axis, so of the input's shape only if that side is 1. box_count_sliding at q=0 is the number of cells whatever the data; at q=1 it lies between 0 and the total of non-negative data and equals the total of data that stay half a window away from the faces; scaling data by c scales it by c^q. The cube window of side m spans m//2 cells on one side and (m-1)//2 on the other; the ball window is a disc drawn through all of the third axis, not a ball, for every m>=2. Renyi_diemsnions and beam_convolve raise for every input. put_sphere labels exactly the cells within the radius, plus, if periodic, those within the radius of the image across the far corner only: cells outside the periodic sphere are never touched, but a sphere crossing one face is cut. apply_uv_response undoes to the original when multiplied by the square root of the coverage, is zero where the coverage is zero, never amplifies where the coverage is at least one, and raises exactly if the second axis is shorter than the first.", "quantifier": "All arrays of any shape, window sizes, exponents, widths, centres, radii, labels and coverage maps.", "why_tests_cant": "Conservation and containment must hold for all arrays and sizes.", "anchors": ["src/tools21cm/box_counting.py: box_count_sliding, get_kernel, Renyi_diemsnions", "src/tools21cm/beam_convolve.py: beam_convolve", "src/tools21cm/spa_np.py: put_sphere", "src/tools21cm/radio_telescope_noise.py: gauss_kernel_3d, smooth_gauss_3d", "src/tools21cm/radio_telescope_sensitivity.py: apply_uv_response"]}
{"id": "C99", "title": "The fast cylindrical spectrum averages closed bins, so edge modes count twice and modes on the axes not at all", "statement": "power_spect_fast.power_spect_2d with numbers of bins puts into cell (i,j) exactly the modes with non-zero k_perp and k_par whose (logarithmic or linear) coordinates lie between the two edges of both bins, edges included, and returns their mean power, nan exactly if there are none. So every mode off the axes is counted once, twice if it lies on an inner edge of one direction and four times if of both, and modes with k_perp=0 or k_par=0 never. The choice of nu_axis only exchanges components. With arrays of edges the spectrum has one row and one column more than there are bin centres, always nan, and all bins get the width of the first, so modes of wider bins are lost. A window array, a number of bins that is not a Python int, and another binning name always raise, as does phase_spect_nd; a named window stays multiplied into the caller's array. dimensional_power is k^3 P/(2 pi^2).", "quantifier": "All lists of modes, axes, numbers of bins, arrays of edges, windows and data.", "why_tests_cant": "Coverage and multiplicity are statements about all modes and bin numbers; the loss depends on edges a test would not choose.", "anchors": ["src/tools21cm/power_spect_fast.py: power_spect_2d, phase_spect_nd, dimensional_power"]}
{"id": "C100", "title": "Rays from a point, averaged ray lengths, rebinned curves, granulometric sizes and h-domes mean what they say", "statement": "mfp_from_point with a cell of the region returns, for every k, the share of the rays from that cell that end after k steps (each share and their sum between 0 and 1; the sum is exactly 1 in 2-D); a point outside the region gives None and outside the array an exception, except that numpy integers in 3-D are not looked up; wrong dimensions give 0. averaged_mfp bins the positive mean lengths of the drawn points into fifty equal bins of ln r spanning them, and its curve integrates to one over ln r (nan without positive lengths). rebin_bsd returns n sizes in geometric progression from the lower to the upper limit, all interpolated, by default from min+1 to max-10, which is only a range if the sizes span more than 11 units. granulometry_bsd uses the strict threshold and returns the relative area loss per radius. h_transform returns values between 0 and h, equal to h exactly where no higher cell can be reached without descending by h or more.", "quantifier": "All arrays, thresholds, points, draws of rays, sizes, numbers of bins, images, heights h and neighbourhoods.", "why_tests_cant": "The random rays differ between runs; the statements hold for every draw, and the dome characterisation quantifies over all walks.", "anchors": ["src/tools21cm/bubble_stats.py: mfp_from_point, averaged_mfp, rebin_bsd, granulometry_bsd, h_transform", "src/tools21cm/mfp_np.py: mfp3d, mfp2d (point)"]}
{"id": "C101", "title": "Coeval cubes and simulation files are read, blended and normalised as announced", "statement": "get_zs_list returns the redshifts in the file names in increasing order, whatever order the directory is listed in. coeval_21cm is the brightness temperature of the two cubes found for the redshift, cell by cell; with mean_subtract its mean is zero and it differs from the cube without by one constant. coeval_21cm_c2ray subtracts the mean of each slice across the third axis: each slice ends with mean zero and a second pass changes nothing. coeval_overdens has mean zero, is at least -1 for densities that are not negative and does not depend on the unit of density. coeval_vel never returns: with readable files it raises TypeError for a listed redshift, AttributeError for a bracketed one, ValueError otherwise. read_21cmfast_files reads n^3 numbers as a cube of side n in C order for every n up to 40000 and raises for a number that is no cube and for every n from 60000. read_c2ray_files reads ionised fractions and densities and always raises for velocities. calc_dt_halo gives each cell the mean signal times its halo mass over the mean baryon mass of a cell, independently of the helium fraction. Velocities are 8 momentum/density in the unit of the file's redshift, and zero for a file without one.", "quantifier": "All lists of files and redshifts, cubes, redshifts, cosmologies, sizes, halo masses, box lengths and helium fractions other than 1.", "why_tests_cant": "The rounding of the fractional power depends on the size; the failure of every call is a statement about all directories.", "anchors": ["src/tools21cm/usefuls.py: get_zs_list, coeval_21cm, coeval_overdens, coeval_vel", "src/tools21cm/read_files.py: read_21cmfast_files, read_c2ray_files, read_grizzly_files, coeval_21cm_c2ray", "src/tools21cm/temperature.py: calc_dt_halo", "src/tools21cm/vel_file.py: VelocityFile.get_kms_from_density"]}
{"id": "C102", "title": "Shuffled phases, fields made from a measured spectrum, and amplitudes with phases keep what they promise", "statement": "fourier_phase_shuffled never increases the sum of squares, for any array and any shuffle. Only whole rows of the phase array move; when the shuffle leaves them in place the output is the input times cos(2 pi sum of a/n over the axes of odd length n): the input itself for even sides, but not for odd ones. make_gaussian_random_field_like_field uses a power that is linear between neighbouring bins that hold modes and zero below the first and above the last; modes out of that range vanish for every draw, and with even sides the field has mean zero when a tenth of the smallest |k| lies below the first filled bin. real_to_fourier_amplitude_phase returns the modulus of each mode and a phase within a quarter turn of zero, nan exactly for modes that vanish; they give back the mode iff its real part is not negative, otherwise its opposite, so that a field and its negative are not told apart.", "quantifier": "All real arrays of any shape, all shuffles, binned spectra, draws and modes.", "why_tests_cant": "Energy is a statement about every shuffle; the loss of the sign and the error for odd sides are invisible when amplitudes alone are compared.", "anchors": ["src/tools21cm/gaussian_random_field.py: fourier_phase_shuffled, make_gaussian_random_field_like_field, _get_ps_func_for_field", "src/tools21cm/helper_functions.py: real_to_fourier_amplitude_phase"]}
{"id": "C103", "title": "Names are bound before they are read, or the call never returns", "statement": "Whatever the inputs, a function that reads a name which no earlier statement binds, and which is neither a parameter nor a usable global, never returns; if every name is assigned on every path to each of its reads, no lookup fails on any input, and the function returns whenever no operation raises. Consequently neither method of Bispectrum (bispectrum_k, bispectrum_k1k2) ever returns, the cause being the one name that is windowed; none of the Lyman-alpha coupling functions ever returns, apart from the one that starts another program, which without the arrays of the spectrum never returns either; bispectrum_equilateral returns exactly for the binnings it knows and otherwise misses its bins; reading a list of sources misses no name.", "quantifier": "All inputs, that is all outcomes of tests, numbers of iterations and failing operations.", "why_tests_cant": "A test runs one path; that no path of a function returns, or that no path misses a name, is a statement about all of them.", "anchors": ["src/tools21cm/lyman_alpha_coupling.py", "src/tools21cm/bispectrum.py: Bispectrum.bispectrum_k1k2, Bispectrum.bispectrum_k, bispectrum_equilateral", "src/tools21cm/usefuls.py"]}
{"id": "C104", "title": "Diagnostics of weighted samples: what the medians, intervals, PIT values, coverage and labels mean", "statement": "Weights matter only up to a common factor. A quantile q of the returned intervals has at most weight q strictly below it and at least q minus the largest weight at or below it; the intervals are nested about the median, lie in the range of the samples as the mean does, and move with shifts and scalings of a parameter. For equal weights the quantile k/n is the k-th smallest sample, so the median of a symmetric pair is its lower member, not its mean. The result does not depend on how the samples are sorted if they differ or weigh the same; otherwise ties can change the median. The PIT value lies between the weight of the smallest sample and one, never decreases with the true value, and inverts the quantile for different samples of positive weight. sigma is the sample standard deviation for equal weights, and nan exactly if one sample has all the weight. Distributions of one parameter are always rejected; with more, the call returns exactly for no true values, one, or as many as parameters, and the 95% interval covers whatever the 68% one does. An added distribution is found under its label, no other changes, and a rejected one changes nothing; unlabelled distributions are all kept in order, but one replaces an earlier distribution exactly if that carries the next default label. The means of a grid are those of its marginal sums. Printing chain statistics leaves normalised weights in the caller's array, prints the same numbers the second time, and may print a negative width. A corner plot is refused iff no addition was accepted; unknown backends draw nothing without a message.", "quantifier": "All samples, weights, sorting orders, quantiles, true values, grids and histories of added distributions.", "why_tests_cant": "Bounds on quantiles hold for every set of weights and every order of ties; the replaced label needs a particular history.", "anchors": ["src/tools21cm/plotting.py: DistributionDiagnostic, GriddedProbabilities, SampledDistribution, print_chain_stats"]}
{"id": "C105", "title": "Particle files, halo files and power spectrum tables of pkdgrav are read as they were written", "statement": "A particle file with as many rows as its header says is read back exactly, whatever follows; only a file shorter than its header raises. A count that the file cannot meet gives the whole rows there are, without an error, and nothing for the sections after it; a negative count gives all that is left. Halo files are read in records of 28 words, and the mass and position of each halo come from fixed words of its own record; a file written with the fields that are commented out is still read, with 34/28 times as many haloes, of which only every seventeenth starts where one was written. Of a power spectrum table, the redshift is the number after the last mark in the last comment that has one; the table is refused exactly for fewer than two rows, a mark without a number, or a window of zero. The table is kept as read; what is returned is smoothed to the geometric mean of the entries up to each one, as many as the window holds, so lengths, first entries, bounds and factors are kept.", "quantifier": "All files, headers, rows, trailing bytes, comment lines, tables and windows.", "why_tests_cant": "Round trips and silent truncation are statements about every length of a file; the misaligned records need a file of another version.", "anchors": ["src/tools21cm/nbody_pkdgrav.py: ReaderPkdgrav3.read_particles, HaloCataloguePkdgrav3._read_fof_data, PowerSpectrumPkdgrav3.read_pk_data, dLightSpeedSim"]}
{"id": "C106", "title": "Station layouts, geographic conversion and coeval noise cubes", "statement": "get_SKA_Low_layout chooses the file by the name in any case, returns all its antennas in file order with their separations unchanged in each of the frames enu, ecef and xyz, and raises for every other frame, 'latlon' and 'geodetic' included. An unknown name silently selects the SKA1 file, and a list of positions the configuration of September 2016; the antenna count is that of the layout used. cartesian_to_geographic_coordinate_system gives a longitude, latitude and height from which each point is recovered and inverts geographic_to_cartesian_coordinate_system, but only for quantities without unit: plain arrays and quantities in metres are refused, and the caller's quantity is changed by the call. noise_cube_coeval uses one uv map, one channel width and the antennas of the layout for every slice, the default widths add up to the frequency extent of the box, and the argument N_ant has no effect. Smoothing a uv map with the gaussian method keeps its largest value.", "quantifier": "every layout file, array centre, subarray argument and frame name, every point and table, every uv map, filter and noise cube of any size", "why_tests_cant": "No test runs over all names, frames, points and filters; the change of the caller's quantity shows only in a second call, and the ignored argument only by comparing all of its values.", "anchors": ["src/tools21cm/radio_telescope_layout.py:subarray_type_to_antxyz", "src/tools21cm/radio_telescope_layout.py:cartesian_to_geographic_coordinate_system", "src/tools21cm/radio_telescope_layout.py:get_SKA_Low_layout", "src/tools21cm/radio_telescope_noise.py:_suppress_sharp_features_uv_map", "src/tools21cm/radio_telescope_noise.py:noise_cube_coeval", "src/tools21cm/radio_telescope_noise.py:noise_map"]}
{"id": "C107", "title": "The light-cone interpolation 'step_cell' switches each cell once, between the two snapshots", "statement": "With interpolation='step_cell' every cell of a slice has the value of one of the two snapshots that bracket it. For given random numbers each cell has one redshift inside the bracket, the same for every slice position, at which it changes from the low to the high snapshot, and never changes back. At the upper end the slice is the high snapshot; at the lower end it is not the low one, since at least one cell keeps its high value over the whole bracket. The call raises exactly if no cell differs by more than 0.001. Changed cells switch in the order of the smoothed high snapshot apart from those within 1e-9 of the smallest; the smallest itself switches last for positive fields and first for negative ones. If the smoothed high snapshot is uniform nothing is interpolated at all.", "quantifier": "all pairs of slices of any size, smoothing functions, random numbers in [0,1), redshift brackets and redshifts", "why_tests_cant": "The order of all cells, and that a cell never switches back, are statements about all redshifts and random draws; a test sees one draw.", "anchors": ["src/tools21cm/lightcone.py:_get_step_weighted_slice", "src/tools21cm/lightcone.py:_get_step_transitions"]}
{"id": "C108", "title": "Galactic synchrotron maps: power, parity, ordering and seed", "statement": "galactic_synch_fg returns a finite map exactly for an even number of cells. Its values are never negative, it scales with the random draws, and the sum of its squares is that of the modes: angular power times solid angle times the squared complex draw of each grid point. The angular power is 513 at 150 MHz and l=1000, falls as l^-2.34 at every frequency, and with frequency has slope -5.6 at 150 MHz, steepening by 0.4 per e-fold; a grid point has l = 2 pi times its distance from the middle of the array in wavelengths. But the centred grid is transformed as if its first point were the zero mode, so the mean of the map gets the least power and the fastest oscillation the most. A seed other than zero fixes the maps, zero leaves the generator as it is; all redshifts use the same draws; an integer redshift raises.", "quantifier": "every grid size, box, redshift, table of distances, draws and generator state", "why_tests_cant": "The energy identity is about all draws and sizes, and the misplaced modes need every index of the grid; a test compares one seeded map.", "anchors": ["src/tools21cm/foreground_model.py:galactic_synch_fg"]}
{"id": "C109", "title": "FITS files, package resources, cosmology names, messages and output conversion", "statement": "read_fits always returns the header with the data, whatever its header argument is. It reads the named file exactly if pyfits is installed and the file has primary data; otherwise it silently returns the first extension of a file of that name from astropy's own test directory, or raises. save_fits raises without pyfits and leaves the disk as it was; with it, a save to a free path can be read back with its header, a save to an existing path or of a type that FITS cannot hold is stored without the header, and no other file changes. get_package_resource_path gives the path inside the package and raises only ImportError, exactly if the package is missing or neither a library nor the file is there. A cosmology may be given by name in any case, and every unknown name silently means Planck18. A message is printed exactly if the last set_verbose before it was true. outputify unpacks single elements and leaves unchanged exactly the numbers and the arrays that do not have one element.", "quantifier": "all disks, installed libraries, names, headers, texts, histories of calls and nested values", "why_tests_cant": "Each claim quantifies over the installed libraries, the contents of the disk or the history of calls; a test runs in one environment.", "anchors": ["src/tools21cm/helper_functions.py:read_fits", "src/tools21cm/helper_functions.py:save_fits", "src/tools21cm/helper_functions.py:outputify", "src/tools21cm/helper_functions.py:set_verbose", "src/tools21cm/read_files.py:get_package_resource_path", "src/tools21cm/nbody_tools.py:_set_cosmo"]}
{"id": "C110", "title": "The directly integrated Voigt profile", "statement": "For every offset and every positive damping parameter the integral in direct_voigt_profile exists, and with an exact integrator the profile lies in (0, 1]. It is even in the offset and odd in the damping parameter, each entry of an array depends on its own offset alone, and it equals the profile by the Faddeeva function wherever that has its integral representation.", "quantifier": "all real offsets, positive damping parameters, arrays of any length and exact integrators", "why_tests_cant": "Convergence of an improper integral for all parameters is not testable; a test compares two floating-point routines at a few points.", "anchors": ["src/tools21cm/lyman_alpha_transmission.py:direct_voigt_profile", "src/tools21cm/lyman_alpha_transmission.py:approximation_voigt_faddeeva"]}
{"id": "C111", "title": "Superpixel labels, their means, and the regions stitched from them", "statement": "Where the segmentation library accepts the multichannel keyword, a cube without colour map gets one label per cell, entry i of the means and sigmas is that of superpixel i, and a cell is in a region exactly if the mean of its superpixel is below the threshold found from all means. Where the keyword is gone the last axis is taken for channels: regions are constant along that axis, and the means compared are those of the first cells in memory, so a bright row can be reported as a dark region. Marking boundaries changes the marked cells, or only the first cell, to a multiple of the largest value, which exceeds every value exactly if that largest value is positive and the factor above 1, or negative and the factor below 1. With a colour map every cell is segmented by its red, green and blue, and the labels have the axes of the data.", "quantifier": "all segmentations, cubes, labellings, thresholds, colour maps and marked cells", "why_tests_cant": "Which path is taken depends on the installed library; a test sees one of them, and a symmetric test cube does not show rows paired with wrong cells.", "anchors": ["src/tools21cm/superpixels.py:slic_cube", "src/tools21cm/superpixels.py:boundaries", "src/tools21cm/superpixels.py:get_superpixel_means", "src/tools21cm/superpixels.py:get_superpixel_sigmas", "src/tools21cm/superpixels.py:stitch_superpixels", "src/tools21cm/identify_regions.py:bubbles_from_slic"]}
{"id": "C112", "title": "Wrappers of 21cmFAST map every redshift to its own box", "statement": "Without the package nothing is called and None returned. Otherwise every requested redshift is a key exactly once and no other number is; under it is the field made for that redshift from one common box of initial conditions, which is computed only if none is given, or the coeval box at the last place where that redshift was asked for in one run with all parameters. A single Python number is accepted for coeval boxes only; for matter fields it raises after the initial conditions have been made, and numbers of other types raise after the run. Saving, regenerating and the seed do not reach the matter fields.", "quantifier": "all packages, parameters, lists of redshifts with repetitions, given or missing initial conditions", "why_tests_cant": "The package is an optional external one; tests skip these functions, and repeated redshifts, number types and the order of effects are not sampled.", "anchors": ["src/tools21cm/model_21cmfast.py:run_21cmfast_init", "src/tools21cm/model_21cmfast.py:run_21cmfast_matter", "src/tools21cm/model_21cmfast.py:run_21cmfast_coeval"]}
{"id": "C113", "title": "CubeP3M halo files: fields, nodes, truncation and units", "statement": "Reading a catalogue returns the haloes of all nodes in order, each field from its place, for both definitions of mass and both record formats; nhalo is their number. A file with particles that ends early is always refused, one without is accepted as soon as the last halo has its radii. Redshift zero counts as missing. In cosmological units positions are grid positions times box over mesh, moved by at most one box length and inside the box whenever at most one box away; masses are in Msun/h; a component of the angular momentum is NaN exactly if it is negative. The full catalogue cannot compute positions without the box length although the constructor accepts that.", "quantifier": "all files, node counts, numbers of haloes, lengths, sessions of constants, redshifts and grid values", "why_tests_cant": "Record offsets, truncation points and signs range over unbounded files; a sample catalogue has one format and few haloes.", "anchors": ["src/tools21cm/halo_list.py:HaloCubeP3M", "src/tools21cm/halo_list.py:HaloCubeP3MFull"]}
{"id": "C114", "title": "File objects after any sequence of reads and writes", "statement": "Reading a readable density, clumping or velocity file sets every attribute anew whatever the object held before; an unreadable one raises and leaves a mixture: the new name, the redshift and derived field of before, and, if its head was fine, the new mesh with the numbers as a flat list. After any history the redshift is the one in the name of the last file read to the end. After any call on a density file that returned, raw field, mesh and physical field belong together; passing the physical field always raises and writes nothing. Writing velocities never updates the derived velocities. Writing None destroys the data held. Proper arrays that reach a file are read back in single precision; a file that cannot be opened is not reported; wrong shapes raise for densities and otherwise leave an unreadable file. Objects constructed without a name hold nothing. For ionized fractions a failed read leaves them flat and never complemented; a write takes over name and array even if nothing can be written, and empties the file before a wrong shape or None raises; a write read back gives the array in the file's precision, or its complement if writer and reader disagree about neutral.", "quantifier": "all histories of calls, file contents, names and arrays", "why_tests_cant": "Attributes depend on the whole history of successful and failed calls; tests use each object once.", "anchors": ["src/tools21cm/density_file.py:DensityFile", "src/tools21cm/density_file.py:ClumpingFile", "src/tools21cm/vel_file.py:VelocityFile", "src/tools21cm/xfrac_file.py:XfracFile"]}
{"id": "C115", "title": "Rockstar halo catalogues: columns, header lines, limits and repeated reads", "statement": "A .list or .ascii file gives one halo for each line after the header, in file order, each quantity from the column that the header calls by its name, whatever the order of the columns; redshift, cosmology and particle mass come from their own header lines and no other header line matters; the particle number is the mass over the particle mass, halves to the even number. startline has no effect. A limit on a new object is all or nothing: a negative one reads everything, any other only the header. A second read into the same object keeps the haloes of the first next to the cosmology of the second. A column missing in the header raises; another extension is not reported as such, but every file of three lines or more then fails for an unbound name, and shorter ones are accepted. get returns one entry per halo in order and fails for unknown names.", "quantifier": "all header and data lines, column orders, mass definitions, limits, earlier contents of the object and file names", "why_tests_cant": "Column orders, header contents and histories of reads are unbounded; a sample file has one column order, and no test passes a limit.", "anchors": ["src/tools21cm/halo_list.py:HaloRockstar"]}
{"id": "C116", "title": "What the plotting functions draw: size curves, slices, histograms, corner and forest plots", "statement": "plot_fof_sizes with n bins returns n+1 logarithmically spaced edges and as many values: each filled bin shows its number of regions times its lower edge, over the sum of these or the volume of the box, each empty bin and the last edge one tenth of the smallest filled value; the weights underestimate the total size of the regions by at most the ratio of two edges, and normalised to the ionized volume the filled bins sum to one, so that the curve exceeds one by the filled-in values. plot_slice shows the cells of the requested slice (negative numbers from the end; IndexError or AssertionError otherwise) on axes of the full box size whatever the shape: columns at their comoving position, rows mirrored unless origin='lower'. plot_hist never uses the caller's bins. The corner plot draws every distribution once, fullest first, never transplants into a figure that does not exist, and its legend is in the order of addition. Panel p of the forest plot shows exactly the distributions that have parameter p, in their rows, with bars from the lower to the upper ends of their intervals. plot_triangle succeeds exactly when the parameter names fit the chains (with statistics shown), weights and colours, if given per chain, cover all chains, and, for getdist and chainconsumer, ranges are given; it then draws each chain once, in order, on one figure, with labels and truths on the first; without parameter names, the default, it raises TypeError; whatever happens, the caller's weights of the chains listed so far are left divided by their sum; an unknown backend silently draws nothing.", "quantifier": "all size lists, bin numbers, normalisations and box sizes; all cube shapes, axes and slice numbers; all bins arguments; all lists of distributions with any numbers of parameters; all dictionaries of chains, weights and colours", "why_tests_cant": "Plots are judged by eye on one example; number of bins, slices, distributions and parameters are unbounded.", "anchors": ["src/tools21cm/bubble_stats.py:plot_fof_sizes", "src/tools21cm/plotting.py:plot_slice", "src/tools21cm/plotting.py:plot_hist", "src/tools21cm/plotting.py:DistributionDiagnostic", "src/tools21cm/plotting.py:plot_triangle"]}
{"id": "C117", "title": "What plot_2d_power draws, where, and what it returns", "statement": "Without a wedge the call draws one mesh with the caller's wavenumbers, then colour bar, labels and scales, all on the same axes (the first of the figure if one is given, even next to ax; else ax; else new ones), and returns 1, not the figure. The colour at (kper_i, kpar_j) is the value of the i-th smallest kper and the j-th smallest kpar, so that the picture is right for every table exactly if both lists increase, and mirrored if they decrease; a logarithmic colour scale runs from the smallest to the largest value. With a wedge, which is the default, the call never returns: the mesh is drawn and an AttributeError follows. A dictionary without one of its keys, repeated or single wavenumbers, wrong shapes, a figure without axes and a scipy without interp2d are refused before anything is drawn.", "quantifier": "all tables, lists of wavenumbers, dictionaries and sequences, figures and axes, labels, scales and wedges", "why_tests_cant": "Plots are judged by eye on one increasing example; a mirrored picture looks plausible, and the default call fails only after drawing.", "anchors": ["src/tools21cm/power_spect_fast.py:plot_2d_power", "src/tools21cm/power_spect_fast.py:horizon_wedge_equation"]}
{"id": "C118", "title": "Smoothed light cones", "statement": "smooth_lightcone with one redshift per slice, rising or falling, returns as many slices at the same redshifts, in the order given. Every output slice is the mean of the slices from the lower end of its redshift band up to the first slice at or past the upper end (which always include the slice itself), smoothed with a Gaussian as wide as the resolution element at its redshift in cells. The band is ratio times that resolution element as a redshift interval. Values never leave the range of the input, a constant light cone is not changed, and the sum over an output slice is the mean of the sums of the slices averaged. Reversing light cone and redshifts reverses the result. Where the band of a slice contains no other slice, the slice is still mixed in equal parts with the next one up in redshift; only the last is left alone. A one-entry array stands for the redshifts one cell apart in comoving distance from there; a plain number (as documented), an array of any other length and a light cone of one slice raise.", "quantifier": "all light cones of two or more square slices, all strictly rising or falling redshifts that are not negative, all positive baselines, box sizes and ratios, and all cosmology functions with non-negative values", "why_tests_cant": "The slices averaged depend on where both band ends fall between all the redshifts, at both ends of the light cone and for both orders; a test settles one list of redshifts and one resolution.", "anchors": ["src/tools21cm/smoothing.py:smooth_lightcone", "src/tools21cm/smoothing.py:smooth_lightcone_tophat", "src/tools21cm/smoothing.py:smooth_lightcone_gauss", "src/tools21cm/helper_functions.py:find_idx"]}
