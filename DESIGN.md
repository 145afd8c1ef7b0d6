# Design: a Rocq model of tools21cm

Source: `/repo` (tools21cm, Python), read as text. Model and proofs: `/verif/rocq/theories`.

## Plan per property (written before the proofs)

- **C01 UV-map cache is complete and schedule independent** — UvCache: dictionary as association list, loops mirrored branch by branch (sequential, parallel, chunked); induction over the work list.
- **C02 UV-map cache resumes correctly after any crash between file operations** — UvCache: the run emits a trace of file writes; a crash keeps a prefix of the trace; induction over the number of crashes.
- **C03 A crash inside a checkpoint write is not survivable** — UvCache: torn write = proper prefix of a serialised file; refuted claim with witness.
- **C04 Gridding of uv tracks conserves the number of baselines** — UvGrid: bincount as list update; induction over the baseline list.
- **C05 Position of a baseline in the gridded map** — UvGrid: fftshift index arithmetic over Z mod n.
- **C06 Mirror baselines make the uv map point symmetric** — UvGrid: counting argument over the mirrored list.
- **C07 Earth rotation is an isometry of the baselines** — Rotation: R, sin/cos, ring + sin2_cos2.
- **C08 Baseline list has one entry per antenna pair** — Baselines: list of pairs; induction.
- **C09 Observation-time chunks partition the time steps** — Chunks: list of ranges; induction with div/mod arithmetic.
- **C10 Binary cube files round trip** — BinFiles: byte-level codec (little endian ints, opaque words), F/C order index maps.
- **C11 Density and clumping files round trip** — BinFiles: same.
- **C12 Ionized-fraction files round trip, also with the neutral flag** — BinFiles: same, with values in Q and an abstract bijective word coding.
- **C13 Velocity files round trip** — BinFiles: same, 4-D Fortran order.
- **C14 CubeMap backends agree under every schedule** — CubeMap: in-place cell updates as a fold over any permutation / any interleaving; invariants by stage.
- **C15 Euler characteristic counts cells of the periodic complex** — CubeMap: sums over the doubled grid, re-indexed by cell kind.
- **C16 Betti numbers satisfy Euler-Poincare** — CubeMap: algebra over the library functions, labels as oracle.
- **C17 Friends-of-friends search labels connected components** — FoF: BFS with fuel; invariant proof of soundness and completeness w.r.t. inductive reachability; iterator exhaustion modelled as a one-shot stream.
- **C18 Light-cone slices interpolate the two bracketing snapshots** — Lightcone: loop state (cached low/high snapshot) as a fold over output redshifts.
- **C19 Interpolated slices stay between the snapshots** — Lightcone: R algebra. LcCell: the loop with the interpolation in it; invariant that only snapshots are held.
- **C20 Step interpolation picks the nearer snapshot** — Lightcone: R algebra, refuted + characterisation.
- **C21 Spherical averaging neither loses nor double counts modes** — Binning: numpy histogram semantics as a list function; induction.
- **C22 (k,mu) binning assigns each mode at most once** — Binning: same.
- **C23 Wavenumber grid is aligned with the shifted FFT** — KGrid: integer index algebra.
- **C24 Power spectra are non-negative, symmetric and satisfy Parseval** — Fourier: finite DFT over R pairs; orthogonality of characters.
- **C25 k_perp=0 modes are excluded from anisotropy statistics** — KGrid.
- **C26 Combined mean and variance equal the pooled statistics** — Stats: R sums.
- **C27 Mean subtraction gives zero-mean channels** — Stats.
- **C28 Skewness and kurtosis are affine invariants** — Stats.
- **C29 Superpixel statistics are per-label statistics** — Superpixel: permutation + stable slicing.
- **C30 find_idx inverts a monotone array** — FindIdx.
- **C31 Mean-free-path rays** — Mfp: fuelled loop.
- **C32 Size distributions conserve volume** — Bubble sizes.
- **C33 Percolation cluster** — Percolation.
- **C34 Setting the simulation box is atomic** — Constants state machine.
- **C35 Cosmology setters keep derived constants consistent** — Constants state machine.
- **C36 Unit conversions are inverse pairs** — Units: R algebra, Rpower.
- **C37 Halo readers honour mass window, start line and limit** — Halo readers: line fold.
- **C38 Peculiar-velocity distortion conserves the signal per line of sight** — Pv_mpm: histogram conservation.
- **C39 Optical depth is well defined and monotone** — Tau: recursion over R.
- **C40 FFT convolution is centred** — Conv: index arithmetic, convolution sums.
- **C41 Smoothing kernels are normalised** — Smoothing.
- **C42 Periodic padding of slices** — Padding.
- **C43 Observers' outputs have matching lengths** — Padding.
- **C44 Coeval cubes interpolate the bracketing files** — Coeval.
- **C45 Sub-box windows partition the cube** — Subbox.
- **C46 Bubble painting gives a union of balls** — BubbleModel.
- **C47 Source gridding keeps all sources** — Sources.
- **C48 Brightness temperature is bounded and linear** — Temperature. TempLc: whole light cones from the arguments to the cells.
- **C49 Opening and granulometry** — Morphology.
- **C50 Region thresholds** — Regions.
- **C51 Antenna stamps list exactly the baselines of a pixel** — Ant: stamp lists as a fold; induction over baselines.
- **C52 Rows of the Lagrangian uv map lose the baseline identity** — Ant: same model; exact characterisation of the documented correspondence.
- **C53 Declination of the calibration functions** — Rot: sign of the declination compared between the two rotation routines.
- **C54 Layout frame changes are isometries** — Rot: frame changes as linear maps over R; isometry by ring.
- **C55 Mesh size and temperature files** — Bin: byte layout as for ionized fractions; inverse read/write.
- **C56 Output redshifts at equal frequency spacing** — Lc: closed form of the recursion of redshifts over Q.
- **C57 Output redshifts at equal comoving distance** — Lc: distances as an arbitrary monotone function. Completeness by induction over the loop; the true step by the mean value theorem (LcDistProps).
- **C58 Light-cone sub-volumes** — Lc: slice index arithmetic. SubvolModel.v: the whole call with slices as lists; covering from the order of the redshifts (SubvolProps).
- **C59 Fast spherical spectra count edge modes twice** — Binning: counts of numpy's digitize against the bins; refutation plus exact excess. FastSlow: the same bin of both spectra, mode by mode.
- **C60 Cylindrical binning** — Binning: two-dimensional histogram, induction over modes.
- **C61 Forms of the box_dims argument** — KGrid: the argument forms as a sum type. DimsModel.v: volume and wave numbers from each form (DimsProps).
- **C62 Mass-weighted mean ionized fraction** — Stats: weighted sums over R.
- **C63 Integer redshifts and distances lose precision** — Units: integer arrays as a separate constructor whose stores truncate.
- **C64 The image seen by an interferometer** — UvImage: FFT as its defining sum (DftLib), mask filter.
- **C65 Noise maps: scaling, weighting and variance** — Noise: rms times standard variates, expectations over finite probability spaces (ProbLib).
- **C66 Cut of the uv map at the longest baseline** — UvCut: cut by radius on index grids.
- **C67 Bandwidths of a noise light cone** — UvCut: lists of redshifts; argument binding.
- **C68 Taper of the noise maps** — UvCut: window as a cosine sum.
- **C69 Power spectrum of Gaussian random fields** — Grf: random draws as arguments with finite expectations; orthogonality of the DFT.
- **C70 Calls that can never succeed** — Call: Python's argument binding as a function; every call site evaluated for all arguments.
- **C71 Correlation functions** — Corr: pair counting and trapezoids over R.
- **C72 Smoothing with a uv map** — UvSmooth: mode weights, Parseval; linearity.
- **C73 Converting a light cone between physical and angular coordinates yields the size the field of view asks for, or fails** — Angular: integer sizes from real fields of view.
- **C74 Test-time augmentation of the neural segmentation undoes every symmetry it applies and changes nothing for pixel-wise networks** — Seg: the 24/48 cube symmetries as index maps; network universally quantified.
- **C75 The effective Lyman-alpha optical depth averages the transmission of the cells around each cell on a periodic line** — Lya: window sums on padded lists.
- **C76 The primary beam is a normalised pattern falling off from the centre, applied slice by slice** — BeamP: monotone profiles, normalisation by the maximum. BeamAxis: any frequency axis.
- **C77 The spherical-average size of a cell is the largest scale whose average reaches the threshold** — Spa: fold over increasing scales; kernel support.
- **C78 The watershed size distribution is a distribution over radii computed from labels, not volumes** — Ws: histogram of radii. Flood: markers and flooding with an arbitrary order of the heap; invariant on labelled, waiting and closed cells, fuel by the number of unlabelled cells.
- **C79 Putting haloes on a grid conserves their mass but spans the extent of the haloes rather than the box** — HaloGrid: binned_statistic_dd as bin indices; conservation; setter state machine.
- **C80 Particle files are read completely or refused, component by component, and every further read appends** — Nbody: readers as folds over node files.
- **C81 pkdgrav density contrasts have mean zero and forget the units; halo catalogues ignore the Hubble parameter** — Pkd: reshape/transposition arithmetic; histogram.
- **C82 Wedge filtering of an image multiplies modes only on even grids; point sources overwrite each other** — Foreground: fold of stores; mode filter with the double fftshift.
- **C83 Rolling wedge removal cleans each channel from its own neighbourhood, with a fixed gain and a displaced redshift** — Roll: chunked DFT, existence of the buffer from Blackman's window. WedgeModel.v: the wedge slope with 1/E over the cosmology, distances as integrals (WedgeProps).
- **C84 The bispectrum estimate is an average over triples of modes, which are closed triangles only on even grids** — Bispec: product of three inverse DFTs expanded to a sum over triples of modes.
- **C85 Cosmological distances increase with redshift, are inverted at the nodes of the table, and depend on a possibly stale q0** — Dist: Riemann integrals from the standard library, quad assumed exact.
- **C86 Magnitudes, fields of view and particle masses convert consistently where they convert at all** — Mag: units as tags, Rpower algebra.
- **C87 The analytic noise error of the power spectrum follows one closed formula and its scaling laws** — Mag: closed form by field/sqrt algebra.
- **C88 A fit object predicts with the parameters in the order of their names and remembers the cross validation of earlier calls** — Fit: the object as a state machine over histories of calls. LsqModel.v: the sum of squares handed to the optimizer (an argument), R2 scores and splits; the fold criterion is proved by decomposing the squares around the mean.
- **C89 Gain maps sum the products of the baselines of each cell, with gains renewed at multiples of the timescales, and the response drops their phases** — Gain: per-cell sums, renewal schedule by gcd arithmetic, mode factors and the DFT; GainIn: the gain_model argument case by case; GainCount: hits of the gain map against the map without gains (C05).
- **C90 A taper passed to a spectrum is multiplied into the caller's array, once per call** — Window: array objects with content, induction over histories of calls, cosine identities for the tapers.
- **C91 Binned cross spectra obey the Cauchy-Schwarz bound, the anisotropy ratio is scale free, and the dimensionless spectrum is the polygon through the bins** — Spec: bins as filtered index lists, Cauchy-Schwarz by induction, polarisation for translation, polygon specification for the interpolation.
- **C92 What a file name decides: type, redshift, listing and written format** — Names: texts as lists of characters, the character loop against an inductive grammar of maximal numeric runs, sorted listings up to permutation, first-keyword specification.
- **C93 The noise power spectrum and the Briggs weights** — NoisePs: numpy histogram from cumulative sums over numbers with infinities and nan; case analysis of the bins; Briggs weights over the reals; Python numbers as shifts and bounds.
- **C94 Line intensity maps carry the signal of all haloes** — Line: the recipes over the reals, growth by rewriting each rate as a product of growing factors, conservation through the halo grid of C79, units as argument kinds.
- **C95 Segmentation scores and the training loss mean what their names say, up to stated exceptions** — Metric: cells as pairs of reals, sums over lists, equality cases from sums of squares, the loss by splitting softplus at zero.
- **C96 Superpixel scores and estimates describe the labelled pixels** — SuperScore: cells as label pairs, the error rewritten as a size-weighted sum over superpixels, pooling by the parallel variance formula, argmax by an invariant over the prefix.
- **C97 The genus does not depend on where the structures lie in the periodic box** — Genus: integer convolutions on periodic grids, equality of the two sums shown equivalent to an exact match, symmetries by bijections of the grid and of the 27 offsets.
- **C98 Sliding windows, Gaussian beams and painted spheres keep their books** — Sliding windows and spheres: convolution as its defining sum over boxes of Z^3; totals by exchanging sums and re-indexing; impulse responses; the sphere against a separate periodic distance.
- **C99 The fast cylindrical spectrum averages closed bins, so edge modes count twice and modes on the axes not at all** — Fast cylindrical spectrum: lists of modes over the reals, bins by the code's centres and first width; counting by exchanging sums and a lemma on how many unit intervals hold a point.
- **C100 Rays from a point, averaged ray lengths, rebinned curves, granulometric sizes and h-domes mean what they say** — Rays from a point and averages per point reuse the ray loop of C31 with draws as arguments; the histogram of C32 gives the averaged curve. Interpolation and skimage's reconstruction are arguments; reconstruction has the contract of a least fixed point, from which the dome characterisation follows by induction on walks.
- **C101 Coeval cubes and simulation files are read, blended and normalised as announced** — The choice and blending of files is C44's; temperatures C48's; names C92's. Exceptions caused by shadowed names are outcomes of the model. The side of a 21cmFAST cube is Rpower size 0.333333 rounded half to even; bounds on exp and ln settle all sides up to 40000 and from 60000 (the switch lies near 46500). Slices are subtracted by a fold that updates the cube.
- **C102 Shuffled phases, fields made from a measured spectrum, and amplitudes with phases keep what they promise** — The FFT is its defining sum (C24, DftLib); the shuffle is a function on row numbers, np.angle any function with the defining equations of the argument (one is constructed). Energy: Parseval for the Hermitian part. Unshuffled output: two fftshifts are a roll by one along odd axes, which turns the inverse transform by a phase. The measured spectrum is a list of bins; interpolation is C91's.
- **C103 Names are bound before they are read, or the call never returns** — Python's scoping rules as an interpreter of reads and bindings with an oracle for tests, loops and failures (ScopeModel); soundness of definite assignment and of its failure by nested induction, then the bodies of lyman_alpha_coupling.py and Bispectrum (ScopeProps).
- **C104 Diagnostics of weighted samples: what the medians, intervals, PIT values, coverage and labels mean** — Exact-real model of np.interp, np.cumsum, np.average and np.cov on weighted samples (DiagModel); quantile bounds by induction over the sorted nodes, order statistics, affine covariance, inverse of the interpolant, dictionaries as association lists (DiagProps).
- **C105 Particle files, halo files and power spectrum tables of pkdgrav are read as they were written** — np.fromfile as cutting a list of bytes into items (PkdIoModel on top of BinModel); round trips, counts of truncated files, the word of the file behind each field, the comment lines as strings and the rolling mean of logarithms (PkdIoProps).
- **C106 Station layouts, geographic conversion and coeval noise cubes** — GeoModel.v: the coordinate conversion with the caller's object afterwards, name and frame dispatch of the layouts, uv-map smoothing and the coeval noise cube over exact reals. Proved with the polar-angle lemma for arctan2, the isometry theorems of C54, and induction for the maximum. The astropy location of the array centre, the files and the gaussian filter are arguments.
- **C107 The light-cone interpolation 'step_cell' switches each cell once, between the two snapshots** — StepCellModel.v: the two functions behind interpolation='step_cell' over exact reals, with the smoothing and the random numbers as arguments. Proved through monotonicity of np.interp on ascending nodes, the extremes of a list and the membership of the changed cells (StepCellProps).
- **C108 Galactic synchrotron maps: power, parity, ordering and seed** — SynchModel.v: the foreground map over exact reals, the draws and the comoving distance as arguments, an infinite amplitude as None. Proved through a complex Parseval identity on the n by n grid, the parity of the grid points and monotonicity of the angular spectrum (SynchProps).
- **C109 FITS files, package resources, cosmology names, messages and output conversion** — FitsModel.v: the disk as a partial map from names to lists of header-data units, the installed libraries and astropy's test directory as arguments; the chain of import fallbacks, the cosmology table, the verbose switch and outputify as small functions. Proved by case analysis over the fallbacks and induction over texts and histories (FitsProps).
- **C110 The directly integrated Voigt profile** — VoigtModel.v: the integrand, the prefactor and the elementwise call, with the integrator as an argument. Proved from the Riemann integral of the standard library: the improper integral converges by monotone bounded partial integrals under the Lorentzian, whose integral is an arctangent (VoigtProps).
- **C111 Superpixel labels, their means, and the regions stitched from them** — SlicModel.v: arrays as a shape and a flat list, the segmentation algorithm, argsort and the threshold search as arguments, the library by the keywords it accepts; reuses apply_operator_labelled_data and superpixel_map of SuperpixelModel.v. Proved from the per-label theorem of C29 and index arithmetic on rows (SlicProps).
- **C112 Wrappers of 21cmFAST map every redshift to its own box** — FastModel.v: the package as a record of functions, every call recorded in a trace, dictionaries as association lists filled in order with numbers as keys. Proved by induction over the list of redshifts (FastProps).
- **C113 CubeP3M halo files: fields, nodes, truncation and units** — CubepModel.v: a file as a list of 4-byte words, np.fromfile as firstn/skipn, records, headers, nodes and directories as small functions; units by the conversions of ConstModel.v over sessions, NaN as None. Proved by induction over the haloes and nodes, with an exact length condition for truncated files (CubepProps).
- **C114 File objects after any sequence of reads and writes** — ObjModel.v: the density, clumping and velocity objects as records of fields changed by constructor, read and write; histories as lists of operations on a file system. Proved by case analysis per operation and induction over the history (ObjProps). XfObjModel.v: the same for ionized fractions, with encoding and decoding of the bytes as parameters (XfObjProps).
- **C115 Rockstar halo catalogues: columns, header lines, limits and repeated reads** — RockModel.v: file name, header words and lines of words of a Rockstar catalogue with Python's float as a parameter; the loop over numbered lines with its break, unbound names and attributes of the object. Proved by unrolling the header of either format and induction over the data lines (RockProps).
- **C116 What the plotting functions draw: size curves, slices, histograms, corner and forest plots** — PlotModel.v: the curve of plot_fof_sizes over the reals with numpy's histogram, the slice and extent handed to imshow, the bins handed to hist, drawing order, legend and transplanting of the corner plot, rows and bars of the forest plot. Proved by summing over bins, insertion-sort invariants and uniqueness of sorted permutations (PlotProps). TriModel.v: plot_triangle as the list of calls to the plotting packages or the error, with the state of the weights; proved by induction over the chains (TriProps). Drawing itself is not modelled.
- **C117 What plot_2d_power draws, where, and what it returns** — MeshModel.v: unpacking of the argument, scipy's interp2d on a full table (sorting of knots, bilinear interpolation, sorted evaluation points), choice of axes, colour range and the sequence of drawing calls or the error; the wedge uses the attribute lookup of CallModel.v. Proved with uniqueness of sorted permutations and linear interpolation at knots (MeshProps). Rendering by matplotlib and NaN values are not modelled.
- **C118 Smoothed light cones** — Model smooth_lightcone from its arguments (redshift array, one-entry array or number; box given or not) through the top-hat and Gaussian steps to the returned slices and redshifts, with the cosmology functions as arguments. Prove that the band of each slice is exactly the averaged set, by the characterisation of find_idx on rising arrays, mirror it for falling ones, and carry range and totals through the circular convolution.

## Conventions

- Every model definition is a total Gallina function with a comment citing `file:lines` in `/repo/src/tools21cm`.
- Python exceptions are values (`option`/`result`); loops are structural recursion, folds, or fuelled recursion whose
  out-of-fuel value is excluded by the theorem.
- Floats are idealised: integers `Z`/`nat` where the code manipulates indices, `Q` where the code compares or
  averages numbers (executable), `R` where it uses sqrt/cos/exp/log. Rounding, NaN and infinities are not modelled
  except where stated.
- External calls (numpy FFT, skimage.label, file system, random numbers, comoving-distance quadrature) are function
  arguments of the model (quantified over in the theorems); what is assumed of them is a visible hypothesis.
- File layout: `XModel.v` (model), `XSpec.v` or a spec section (specification independent of the model's helpers),
  `XProofs.v` (lemmas), `XProps.v` (theorems, satisfiability examples, `Print Assumptions`).
- When a claim is false of the code as written, the theorem is named `..._refuted` (with a witness) and accompanied by
  the strongest true statement.

## Trusted base

- The kernel of Coq 8.16.1 (`coqc`), re-checked by `coqchk`; the OCaml runtime and compiler it was built with.
- The reading of the Python text into the model definitions. Nothing was executed; every definition cites the lines it models and names its simplifications. This step is not machine checked.
- Semantics of Python, numpy, scipy, skimage, astropy and joblib calls as written in the model definitions or taken as function arguments.
- Only these axioms of the Coq standard library are used (no other library's, none of our own):
  - **F** `FunctionalExtensionality.functional_extensionality_dep`
  - **S** `ClassicalDedekindReals.sig_forall_dec`
  - **N** `ClassicalDedekindReals.sig_not_dec`
  - **C** `Classical_Prop.classic`
  All four come with `Reals` (S, N and F from its construction of the real numbers, C through its analysis and trigonometry lemmas).
  `coqchk` additionally lists primitive-projection/`ssr`-style constants of loaded standard library files that no theorem here depends on.

### Print Assumptions, per theorem

Letters refer to the axioms above; `-` means *Closed under the global context*.

- C01: **-** `C01_uv_cache_content`, `C01_uv_cache_raises_iff`, `C01_uv_cache_schedule_independent`, `C01_uv_cache_computed`, `C01_uv_cache_final_file`, `C01_uv_cache_other_setup_raises`, `C01_uv_cache_key_resolution`
- C02: **-** `C02_uv_cache_crash_resume`, `C02_uv_cache_checkpointed_kept`, `C02_uv_cache_lost_work_bound`, `C02_uv_cache_crash_resume_duplicates_refuted`
- C03: **-** `C03_uv_cache_torn_write`, `C03_uv_cache_torn_forever`, `C03_uv_cache_crash_safety_refuted`
- C04: **-** `C04_uv_grid_conserves`, `C04_uv_grid_conserves_mirror`, `C04_uv_grid_nonneg`, `C04_uv_daily_total`
- C05: **-** `C05_uv_grid_pixel_even`, `C05_uv_grid_pixel_odd`, `C05_uv_grid_pixel_mirror`, `C05_uv_grid_odd_dc_refuted`, `C05_uv_coverage_pixel`, `C05_uv_daily_pixel`, `C05_uv_old_daily_pixel`, `C05_uv_old_daily_last`
- C06: **-** `C06_uv_grid_mirror_symmetric`, `C06_uv_grid_mirror_odd_refuted`, `C06_uv_grid_mirror_nyquist_refuted`
- C07: **FNS** `C07_rotation_preserves_dot`, `C07_rotation_numba_preserves_dot`, `C07_rotation_proper`, `C07_uv_track_ellipse`, `C07_rotation_hour_angle`, `C07_rotation_daily_period`, `C07_rotation_numba`, `C07_rotation_single_baseline`
- C08: **-** `C08_baselines_all_pairs`, `C08_baselines_translation_invariant`, `C08_baselines_scale`, `C08_all_ordered_baselines`, `C08_stamped_baselines`
- C09: **-** `C09_chunks_partition`, `C09_chunks_shape`
- C10: **-** `C10_cbin_round_trip`, `C10_raw_round_trip`, `C10_raw_other_shapes`
- C11: **-** `C11_density_round_trip`, `C11_clumping_round_trip`, `C11_old_format`
- C12: **-** `C12_xfrac_round_trip`, `C12_wrong_precision_raises`
- C13: **-** `C13_velocity_round_trip`, `C13_other_shapes`
- C14: **-** `C14_one_marker`, `C14_one_marker_joblib`, `C14_one_marker_torch`, `C14_joblib_completes`, `C14_cubemap`, `C14_cubemap_joblib`, `C14_cubemap_joblib_live`, `C14_cubemap_torch`, `C14_cubemap_joblib_negative`
- C15: **-** `C15_euler`, `C15_euler_backends`, `C15_euler_translation`, `C15_euler_complement`
- C16: **-** `C16_betti_components`, `C16_components_unique`, `C16_euler_poincare`, `C16_betti_empty_full`, `C16_betti0_shift_refuted`
- C17: **-** `C17_fof_search_shipped`, `C17_fof_search_list`, `C17_fof_search_queue_race_refuted`, `C17_fof_sizes`, `C17_fof_full_box`
- C18: **-** `C18_lightcone_slices`, `C18_lightcone_low_snapshot`, `C18_velocity_slices`, `C18_lightcone_raises`, `C18_lightcone_slices_refuted`, `C18_depth_mhz_raises`; **FNS** `C18_make_range`, `C18_make_default`
- C19: **CFNS** `C19_sigmoid`; **FNS** `C19_lightcone_made`, `C19_lightcone_cells`, `C19_lightcone_range`, `C19_between`, `C19_linear`, `C19_periodic_index`, `C19_long_box_refuted`
- C20: **FNS** `C20_step_transition`, `C20_step_always_high`, `C20_step_nearest_iff`
- C21: **-** `C21_radial_average`, `C21_one_bin`, `C21_conservation`, `C21_raises`, `C21_integer_kbins`, `C21_mixed_edges`
- C22: **-** `C22_mu_binning`, `C22_one_bin`, `C22_top_edge`, `C22_los_modes_dropped`, `C22_weights_raise`
- C23: **FNS** `C23_grid_3d_aligned`, `C23_zero_mode`, `C23_grid_half_offset`, `C23_half_offset_iff`
- C24: **FNS** `C24_nonneg`, `C24_cross_symmetric`, `C24_parseval`, `C24_parseval_auto`, `C24_translation_invariant`, `C24_point_symmetric`, `C24_zero_mode`, `C24_bilinear`; **FS** `C24_all_cells`
- C25: **FNS** `C25_mask_axis0`, `C25_mask_axis1`, `C25_mask_axis2`, `C25_exact_iff_even`
- C26: **FS** `C26_pooled`, `C26_default_sizes_ignore_variances`, `C26_population_variances`, `C26_docstring_example_refuted`
- C27: **-** `C27_slices`; **FS** `C27_subtract_mean`, `C27_zero_mean`, `C27_idempotent`, `C27_overdensity`; **S** `C27_apply_func`
- C28: **FNS** `C28_denominator_zero_iff_constant`, `C28_affine_invariance`, `C28_kurtosis_lower_bound`, `C28_standardised`, `C28_symmetric_no_skew`
- C29: **-** `C29_contiguous_labels`, `C29_returns_iff_contiguous`, `C29_negative_labels_refuted`; **FS** `C29_mean_map_keeps_total`, `C29_binary_stitch`, `C29_stitch_any`; **S** `C29_superpixel_map`
- C30: **-** `C30_find_idx`, `C30_raises_iff`, `C30_integer_raises_iff`, `C30_constant_nan`, `C30_integer_values_refuted`
- C31: **FNS** `C31_2d_complete`, `C31_directions`, `C31_directions_anisotropic`, `C31_3d_rays_lost_refuted`; **FS** `C31_interpolation_at_cells`, `C31_histogram`, `C31_crossing_rays_end`, `C31_no_region`, `C31_curve`
- C32: **CFNS** `C32_dist_from_volumes`, `C32_edges`, `C32_get_distribution`, `C32_geometric`, `C32_distribution_bins`, `C32_null_value`, `C32_equal_edges`
- C33: **-** `C33_percolation`, `C33_reported_iff_two_cells`, `C33_spanning_refuted`, `C33_flat_data_raise`
- C34: **CFNS** `C34_grid_units`; **FNS** `C34_unset_is_244`, `C34_accepted_box`, `C34_rejected_box`, `C34_last_call_wins`, `C34_mixed_state_refuted`
- C35: **CFNS** `C35_values`; **FNS** `C35_setters`, `C35_stale_iff`, `C35_luminosity_distance`
- C36: **CFNS** `C36_virial`, `C36_virial_domain`, `C36_einstein_de_sitter`; **FNS** `C36_overdensity`; **FS** `C36_inverse_pairs`, `C36_angle_value`, `C36_frequency_value`, `C36_frequency_decreasing`, `C36_kelvin_jansky`, `C36_factor`
- C37: **-** `C37_full_catalogue_limit`, `C37_halo_list`, `C37_full_catalogue`, `C37_mass_column`, `C37_zero_upper_mass`, `C37_rockstar_limit`, `C37_reposition`
- C38: **FS** `C38_cube`, `C38_cube_conserves`, `C38_redshift_axis_refuted`, `C38_velocity_axis_refuted`, `C38_pv_box_component`, `C38_light_cone`, `C38_light_cone_conserves`, `C38_periodic_shift`, `C38_periodic_shift_refuted`, `C38_balance`, `C38_periodic_conserves`, `C38_open_loses`, `C38_no_velocity`, `C38_shift_direction`, `C38_uniform_shift`; **S** `C38_lines_of_sight`, `C38_by_axis`
- C39: **FNS** `C39_depths`, `C39_analytic_part`, `C39_starts_at_zero_iff_flat`, `C39_monotone`, `C39_map_agrees`, `C39_map_unsorted_refuted`, `C39_no_points`; **FS** `C39_order_independent`
- C40: **FNS** `C40_circular_any`, `C40_circular`, `C40_constant`, `C40_padded`, `C40_raises`, `C40_circular_impulse`, `C40_circular_identity_iff`, `C40_constant_impulse`, `C40_padded_impulse`, `C40_wrap_is_not_circular`, `C40_circular_total`, `C40_between`, `C40_linear`
- C41: **-** `C41_los_tophat`, `C41_los_tophat_between`, `C41_los_tophat_descending`, `C41_tophat_block`, `C41_tophat_corner`; **CFNS** `C41_gauss_kernel`, `C41_gauss_shape`, `C41_gauss_fwhm`, `C41_smooth_gauss`, `C41_gauss_point_source`; **FNS** `C41_sphere_kernel`, `C41_smooth_tophat_odd`, `C41_smooth_tophat_even`, `C41_width_one_shifts`, `C41_coeval_tophat`, `C41_coeval_tophat_smooths_the_sky`; **FS** `C41_tophat_kernel`, `C41_tophat_zero_width`
- C42: **-** `C42_padded_slice`, `C42_padded_slice_iff`, `C42_crop_back`, `C42_padding_lightcone`
- C43: **-** `C43_mpc`, `C43_mpc_lengths`, `C43_mpc_first_slice`, `C43_frequency`
- C44: **-** `C44_files_read`, `C44_wrong_pair`, `C44_increasing`, `C44_result`, `C44_blend`, `C44_density`
- C45: **-** `C45_windows`, `C45_partition`, `C45_mean`, `C45_raises`, `C45_constant`, `C45_scaling`, `C45_sigma`, `C45_auto`, `C45_slide`, `C45_slide_refuted`
- C46: **-** `C46_paint_kernel`, `C46_paint_adds_refuted`, `C46_batch`, `C46_bubble_model`, `C46_contains_start`, `C46_no_error`, `C46_wide_bubble`, `C46_caller_array`, `C46_non_overlapping`, `C46_non_overlapping_refuted`, `C46_fractional_start`
- C47: **CFNS** `C47_read_mass`, `C47_write_read`, `C47_mass_round_trip`, `C47_written_column`; **FS** `C47_total_mass`; **S** `C47_grid`
- C48: **FNS** `C48_calc_lightcone`, `C48_calc_lightcone_axis_refuted`, `C48_calc_lightcone_raises`, `C48_calc_full_lightcone_refuted`, `C48_mean_signal`, `C48_mean_value`, `C48_calc_dt`, `C48_linear`, `C48_box_mean`, `C48_negative_cell`, `C48_lightcone`, `C48_lightcone_axis_refuted`, `C48_full`, `C48_full_ionised`, `C48_full_lightcone`; **FS** `C48_lightcone_redshifts`, `C48_lightcone_cell`
- C49: **-** `C49_dilation`, `C49_erosion`, `C49_erosion_variants`, `C49_opening`, `C49_anti_extensive`, `C49_monotone`, `C49_idempotent`, `C49_asymmetric_refuted`, `C49_disk`, `C49_area`, `C49_cdf`, `C49_granulometry`, `C49_pattern_sum`, `C49_pattern_refuted`
- C50: **-** `C50_fixed`, `C50_fixed_partition`, `C50_fixed_monotone`, `C50_fixed_negate`, `C50_triangle2D`, `C50_slices`, `C50_triangle3D`, `C50_triangle_one_slice`, `C50_kmeans_single`, `C50_kmeans_two_values`, `C50_kmeans_two_clusters`, `C50_kmeans_two_clusters_refuted`, `C50_kmeans_three_clusters`, `C50_kmeans_n_clusters`
- C51: **-** `C51_stamps_at_pixel`, `C51_stamps_collapse`, `C51_stamps_agree_with_grid`, `C51_stamps_odd_grid_refuted`
- C52: **-** `C52_lagrangian_rows`, `C52_lagrangian_documented_iff`, `C52_lagrangian_identity_refuted`
- C53: **FNS** `C53_calibration_declination_ignored`, `C53_calibration_declination_is_time_shift`, `C53_calibration_rotation_refuted`
- C54: **FNS** `C54_local_axes`, `C54_xyz_axes`, `C54_documented_axes_refuted`, `C54_enu_to_ecef_isometry`, `C54_enu_to_ecef_origin`, `C54_ecef_to_xyz_isometry`, `C54_geographic_on_sphere`, `C54_geographic_longitude_invariant`
- C55: **-** `C55_mesh_size`, `C55_temper_mesh_size`, `C55_temper_overflow`
- C56: **-** `C56_number`, `C56_never`, `C56_equal_frequency`
- C57: **-** `C57_complete`, `C57_equal_distance`; **CFNS** `C57_step_length`
- C58: **-** `C58_subvolume_range`, `C58_subvolume_raises`, `C58_depths`, `C58_dims`, `C58_slices`, `C58_covers`
- C59: **-** `C59_interior_bins`, `C59_edge_counted_twice_refuted`, `C59_first_bin`, `C59_last_bin`, `C59_log_first_bin`, `C59_mu_index`, `C59_against_ordinary`, `C59_equal_off_edges`
- C60: **-** `C60_binned_2d`, `C60_automatic_bins`, `C60_list_of_numbers_raises`
- C61: **-** `C61_box_dims`; **FNS** `C61_wavenumbers`, `C61_number`; **FS** `C61_boxsize`, `C61_volume`
- C62: **FS** `C62_formula`, `C62_covariance`, `C62_units`, `C62_between`, `C62_uniform_density`
- C63: **FS** `C63_integer_redshift`, `C63_there_and_back`, `C63_integer_distance`, `C63_integer_age_zero_refuted`
- C64: **FNS** `C64_spectrum`, `C64_shapes`, `C64_symmetric`, `C64_idempotent`, `C64_complete`, `C64_linear`, `C64_energy`, `C64_flux`, `C64_coeval`
- C65: **CFNS** `C65_sefd`, `C65_sefd_table`; **FNS** `C65_weighting`, `C65_scaling`, `C65_four_times_longer`, `C65_linear`, `C65_unobserved`, `C65_covariance`, `C65_variance`, `C65_image_sigma`
- C66: **FNS** `C66_even`, `C66_odd`, `C66_radius`, `C66_nested`, `C66_symmetry_refuted`
- C67: **-** `C67_cube_refuted`; **FS** `C67_bandwidth`, `C67_positive`, `C67_band`
- C68: **FNS** `C68_window`, `C68_symmetric`, `C68_centre`
- C69: **FNS** `C69_domain`, `C69_expected_power`, `C69_even_cube`, `C69_odd`, `C69_odd_refuted`, `C69_even_square`, `C69_linear`
- C70: **-** `C70_bind`, `C70_multipoles_refuted`, `C70_multipoles_error`, `C70_freq_box_refuted`, `C70_uvmap_needed`, `C70_uvmap_coeval_needed`, `C70_uvmap_cause`, `C70_multipoles_cause`, `C70_halo3d`, `C70_wedge_refuted`
- C71: **-** `C71_edges_refuted`; **CFNS** `C71_scale_refuted`, `C71_bound`, `C71_radii_domain`, `C71_radii`, `C71_landy_szalay`; **FNS** `C71_scale`, `C71_linear`, `C71_empty_bins`; **FS** `C71_pair_count_blind`, `C71_clustering_refuted`, `C71_pair_count_refuted`, `C71_order_refuted`, `C71_cross_count`, `C71_estimator`, `C71_bins`
- C72: **-** `C72_coeval_axes`, `C72_coeval_no_limit`; **FNS** `C72_convolve`, `C72_linear`, `C72_domain`, `C72_mean_lost`, `C72_limited`, `C72_threshold`, `C72_threshold_argument`; **FS** `C72_cut`, `C72_cut_symmetric`, `C72_cut_nested`, `C72_radius`, `C72_radius_monotone`
- C73: **-** `C73_crop`; **FS** `C73_slice`, `C73_lightcone`, `C73_back`, `C73_resample`
- C74: **-** `C74_undo`, `C74_operations`, `C74_generators`, `C74_closed_refuted`; **FNS** `C74_pointwise`, `C74_range`; **FS** `C74_flip`, `C74_flip_refuted`, `C74_any_shape`, `C74_any_shape_refuted`
- C75: **CFNS** `C75_window`, `C75_bounds`, `C75_uniform`, `C75_one_cell`, `C75_roll`, `C75_long_refuted`, `C75_axis`, `C75_axis_refuted`, `C75_methods`; **FS** `C75_density`, `C75_cells`
- C76: **CFNS** `C76_slices_axis`, `C76_range`, `C76_decreasing`, `C76_defined`, `C76_sigmoid`, `C76_values`, `C76_2d_null`, `C76_shapes`, `C76_slices`, `C76_one_redshift`; **FS** `C76_centre`
- C77: **-** `C77_cylinder`, `C77_window`; **CFNS** `C77_scales`, `C77_scales_refuted`, `C77_distribution`, `C77_shares`; **FS** `C77_average`, `C77_largest`, `C77_monotone`, `C77_counts`, `C77_upper`, `C77_corner_refuted`, `C77_interior`
- C78: **-** `C78_segmentation`; **CFNS** `C78_clusters_only`, `C78_radius`, `C78_values`, `C78_volume_blind`, `C78_volume_refuted`, `C78_defined`, `C78_distribution`
- C79: **FS** `C79_cell`, `C79_units`, `C79_bin`, `C79_conserved`, `C79_occupied`, `C79_box_ignored`, `C79_spanning`, `C79_box_refuted`, `C79_history`, `C79_values`
- C80: **-** `C80_read`, `C80_success`, `C80_failure`, `C80_layout_refuted`, `C80_layout_single`, `C80_history`
- C81: **-** `C81_read`, `C81_save_message`; **CFNS** `C81_hmf`, `C81_hmf_mass`, `C81_hmf_bins`; **FS** `C81_accepts`, `C81_contrast`, `C81_contrast_mean`, `C81_row`, `C81_hubble`; **S** `C81_history`, `C81_failed_read`, `C81_hubble_ignored`
- C82: **-** `C82_accepts`, `C82_image_accepts`; **CFNS** `C82_sigmoid`, `C82_halved`; **FNS** `C82_gaussian_is_step`, `C82_step`, `C82_cone`, `C82_cone_inside`, `C82_wavenumbers`, `C82_even`, `C82_even_identity`, `C82_odd`, `C82_odd_refuted`; **FS** `C82_sources_distinct`, `C82_sources_refuted`; **S** `C82_sources`, `C82_barrel_never`
- C83: **-** `C83_redshift`; **CFNS** `C83_slope_distance`, `C83_slope`; **FNS** `C83_channel`, `C83_local`, `C83_keeps`, `C83_flat_removed`, `C83_monotone`, `C83_spectrum`, `C83_gain`, `C83_preserved`, `C83_buffer`, `C83_accepts`
- C84: **-** `C84_closed`, `C84_odd_refuted`; **FNS** `C84_triangles`, `C84_cubic`, `C84_symmetric`, `C84_width_ignored`, `C84_translation`, `C84_component_mask`, `C84_component_refuted`, `C84_third_side`, `C84_equilateral`, `C84_bins`
- C85: **CFNS** `C85_comoving`, `C85_luminosity_flat`, `C85_curvature`; **FNS** `C85_zero_lambda`; **FS** `C85_inverse_at_nodes`, `C85_integer_refuted`
- C86: **CFNS** `C86_flux`, `C86_magnitudes`, `C86_magnitudes_inverse`, `C86_particles`, `C86_halo_refuted`; **FNS** `C86_field_of_view`
- C87: **CFNS** `C87_formula`, `C87_scaling`, `C87_positive`
- C88: **FNS** `C88_prediction`, `C88_sticky`, `C88_reorder_refuted`, `C88_means`, `C88_least_squares`, `C88_agree`, `C88_few_points_refuted`; **FS** `C88_nan`, `C88_order_free`, `C88_counts`, `C88_held_out`
- C89: **-** `C89_timescale`, `C89_redundant`; **FNS** `C89_unit_gains`, `C89_polar_refuted`, `C89_factor`, `C89_real_gains`, `C89_perfect`, `C89_response`, `C89_response_mirrored`, `C89_phase_refuted`; **FS** `C89_counts`, `C89_counts_plain`, `C89_counts_odd_refuted`, `C89_cells`, `C89_conserved`, `C89_mirror_symmetric`, `C89_observation`; **S** `C89_gain_model`, `C89_name_first`, `C89_documented_refuted`, `C89_polar_as_parts`, `C89_pairs`
- C90: **FNS** `C90_accepted`, `C90_value`, `C90_history`, `C90_untouched`, `C90_tapers`, `C90_ends`, `C90_repeat_refuted`
- C91: **-** `C91_single_bin`, `C91_kbins_needs_array`; **CFNS** `C91_dimensionless`; **FNS** `C91_cauchy_schwarz`, `C91_symmetric`, `C91_sum_of_fields`, `C91_scale`, `C91_translation`, `C91_mu_bins`, `C91_mu_cross`, `C91_mu_range`, `C91_one_dimension`, `C91_scale_invariant`, `C91_ratio_real`, `C91_dimensionless_bound`, `C91_nan_segments`, `C91_partition`, `C91_mu_partition`, `C91_line_of_sight`; **FS** `C91_split`, `C91_ratio_bounds`, `C91_isotropic`, `C91_ratio_finite`, `C91_interp_range`, `C91_mu_edges`
- C92: **-** `C92_runs`, `C92_basename`, `C92_root`, `C92_listing_fields`, `C92_filetype`, `C92_readable`, `C92_save_extension`, `C92_save_untyped`, `C92_save_precedence_refuted`, `C92_save_case`; **FS** `C92_redshift`, `C92_xfrac_name`, `C92_temper_name`, `C92_single_digit_refuted`, `C92_no_extension_refuted`, `C92_leading_names`, `C92_listing_order`, `C92_range`, `C92_bracket`, `C92_given`, `C92_default`, `C92_array_refuted`, `C92_lightcone_text_refuted`, `C92_lightcone_names`, `C92_lightcone_array`
- C93: **-** `C93_uv_lightcone`; **CFNS** `C93_last_edge`, `C93_default_edges`, `C93_briggs_order`, `C93_briggs_direction_refuted`, `C93_briggs_noise`; **FNS** `C93_spectrum`, `C93_origin_refuted`, `C93_observing_time_refuted`, `C93_uniform_refuted`, `C93_coverage`; **FS** `C93_bins`, `C93_briggs_mean`, `C93_wrap_refuted`
- C94: **CFNS** `C94_suppression`, `C94_hydrogen`, `C94_star_formation`, `C94_luminosity`, `C94_HI_total`, `C94_CII_total`, `C94_HI_brighter`, `C94_units_refuted`, `C94_carbon_calls`, `C94_dictionary_refuted`, `C94_recipes`; **FS** `C94_default_grows`
- C95: **CFNS** `C95_loss`, `C95_loss_nonnegative`, `C95_loss_direction_refuted`; **FS** `C95_iou`, `C95_iou_masks`, `C95_iou_graded_refuted`, `C95_dice`, `C95_dice_masks`, `C95_precision`, `C95_empty_prediction_refuted`, `C95_perfect_mask`, `C95_r2`
- C96: **-** `C96_counts`; **FNS** `C96_pooled`, `C96_pooled_std_refuted`, `C96_mean_estimate`, `C96_defaults_refuted`, `C96_fractions`; **FS** `C96_error_bounds`, `C96_error_zero`, `C96_see_label`, `C96_threshold`, `C96_falling_refuted`, `C96_knee`
- C97: **-** `C97_hole`, `C97_exact`, `C97_background`, `C97_translation`, `C97_rotation`, `C97_quiet`, `C97_box_refuted`, `C97_axis_refuted`
- C98: **-** `C98_renyi_raises`; **CFNS** `C98_smooth`, `C98_smooth_shape`, `C98_smooth_impulse`; **FNS** `C98_response`; **FS** `C98_count_zero`, `C98_count_one`, `C98_cube_window`, `C98_count_scale`, `C98_ball_refuted`, `C98_cylinder`, `C98_sphere`, `C98_periodic_refuted`, `C98_periodic_corner`, `C98_beam_raises`
- C99: **CFNS** `C99_counts`, `C99_cells`, `C99_averages`, `C99_centres`, `C99_axis`, `C99_raises`, `C99_taper_stays`; **FNS** `C99_edges_shape`, `C99_edges_refuted`, `C99_dimensional`
- C100: **-** `C100_granulometry`; **CFNS** `C100_averaged`, `C100_averaged_total`, `C100_rebin`, `C100_rebin_default`, `C100_rebin_sizes`, `C100_rebin_refuted`, `C100_averaged_other`; **FNS** `C100_point`, `C100_point_2d`, `C100_point_rejected`, `C100_numpy_point_refuted`, `C100_no_region`, `C100_h_transform`, `C100_h_maximum`; **FS** `C100_average`
- C101: **-** `C101_c2ray`, `C101_c2ray_velocity_refuted`, `C101_grizzly`; **CFNS** `C101_fast`, `C101_fast_only`, `C101_fast_large_refuted`; **FNS** `C101_coeval`, `C101_mean_subtract`, `C101_interpolation`, `C101_halo`, `C101_halo_mean`, `C101_halo_raises`; **FS** `C101_zs`, `C101_zs_order`, `C101_overdens`, `C101_coeval_overdens`, `C101_vel_never`, `C101_vel_raises`, `C101_slices`, `C101_slices_again`, `C101_slices_ramp`, `C101_kms`
- C102: **CFNS** `C102_argument`, `C102_amplitude_phase`, `C102_sign_lost`; **FNS** `C102_energy`, `C102_identity`, `C102_identity_even`, `C102_odd_refuted`, `C102_one_row`, `C102_like_band`, `C102_like_mean`; **FS** `C102_ps_func`
- C103: **-** `C103_unbound`, `C103_definite`, `C103_returns`, `C103_bispectrum_refuted`, `C103_bispectrum_cause`, `C103_coupling_refuted`, `C103_halofile`, `C103_parallel`, `C103_equilateral`
- C104: **-** `C104_add`, `C104_labels`, `C104_unlabelled`, `C104_replaced`, `C104_lost_refuted`, `C104_plot`, `C104_param_labels`; **FNS** `C104_units`, `C104_sigma_equal`, `C104_sigma_nan`, `C104_one_parameter_refuted`, `C104_returns`, `C104_cover`, `C104_metrics`, `C104_default_weights`; **FS** `C104_quantile`, `C104_nested`, `C104_range`, `C104_order_statistics`, `C104_median_refuted`, `C104_sort`, `C104_ties_refuted`, `C104_weights`, `C104_pit`, `C104_inverse`, `C104_grid`, `C104_chain`, `C104_widths`, `C104_width_refuted`, `C104_argsort`
- C105: **-** `C105_particles`, `C105_particles_raise`, `C105_short`, `C105_haloes`, `C105_extra_fields_refuted`, `C105_mark`, `C105_redshift`; **CFNS** `C105_geometric_mean`, `C105_smooth`, `C105_table`; **FS** `C105_velocity`; **S** `C105_rows`
- C106: **-** `C106_file`; **CFNS** `C106_geographic`, `C106_round_trip`, `C106_accepts`, `C106_refuses`; **FNS** `C106_layout`, `C106_subarray`, `C106_suppress`; **FS** `C106_cube`, `C106_antennas_ignored`
- C107: **FS** `C107_raises`, `C107_steps`, `C107_ends`, `C107_monotone`, `C107_order`, `C107_uniform`, `C107_smallest`, `C107_order_refuted`
- C108: **-** `C108_draws`; **CFNS** `C108_finite`, `C108_power`, `C108_scale`, `C108_spectrum`, `C108_frequency`, `C108_order_refuted`, `C108_call`; **FNS** `C108_multipole`
- C109: **-** `C109_read_header`, `C109_read_file`, `C109_save_needs_pyfits`, `C109_round_trip`, `C109_resource`, `C109_cosmo`, `C109_verbose`, `C109_outputify`
- C110: **CFNS** `C110_bounds`, `C110_symmetry`, `C110_faddeeva`; **FNS** `C110_entries`
- C111: **-** `C111_labels`, `C111_coloured`; **FNS** `C111_means`; **FS** `C111_bubbles`, `C111_bubbles_rows`, `C111_bubbles_rows_refuted`, `C111_boundaries`; **S** `C111_channels`
- C112: **-** `C112_missing`, `C112_matter`, `C112_matter_number`, `C112_coeval`, `C112_coeval_number`
- C113: **CFNS** `C113_catalogue`, `C113_refused`, `C113_units`; **FNS** `C113_file`, `C113_truncated`, `C113_full`; **FS** `C113_full_position`
- C114: **-** `C114_read`, `C114_read_fails`, `C114_construct`, `C114_redshift`, `C114_density_consistent`, `C114_cgs_never_written`, `C114_velocity_derived`, `C114_write_nothing`, `C114_write`, `C114_write_wrong_shape`, `C114_xfrac_read`, `C114_xfrac_read_fails`, `C114_xfrac_redshift`, `C114_xfrac_write`, `C114_xfrac_write_read`
- C115: **-** `C115_read`, `C115_limit_refuted`, `C115_object`, `C115_twice`, `C115_wrong_format`, `C115_missing_column`, `C115_extension`, `C115_get`
- C116: **-** `C116_slice`, `C116_legend`, `C116_corner`, `C116_getdist_backend`, `C116_triangle_labels`; **CFNS** `C116_fof_volume`, `C116_fof_curve`, `C116_fof_total`; **FS** `C116_slice_scale`, `C116_hist_refuted`, `C116_forest`, `C116_triangle_weights`, `C116_triangle_default_refuted`, `C116_triangle_corner`, `C116_triangle_getdist`, `C116_triangle_consumer`, `C116_triangle_other`
- C117: **FS** `C117_drawn`, `C117_right_iff_increasing`, `C117_mirrored_refuted`, `C117_wedge_never_returns`, `C117_default_refuted`, `C117_axes`, `C117_no_axes`, `C117_refused`
- C118: **-** `C118_lowest_redshift_refuted`; **CFNS** `C118_smooth_lightcone`, `C118_range`, `C118_orientation`, `C118_lowest_redshift`, `C118_raises`, `C118_narrow_band_refuted`

## What is modelled and what is not

Modelled: per source file, the functions named or covered by a cited line range in the model files. Not modelled: everything else, listed after the dash.
A function counts as modelled if its observable effect (or the part named in the comment) is a Coq definition; printing, timing, progress bars and plotting are dropped everywhere.

- `Friends_of_Friends.py`: FoF_search, gaussian, halo3d, cycle_through_options, recursive_search
- `ViteBetti.py`: CubeMap, _CubeMap_joblib_worker, CubeMap_joblib, CubeMap_torch — not modelled: jit
- `angular_coordinates.py`: physical_lightcone_to_observational, observational_lightcone_to_physical, physical_slice_to_angular, angular_slice_to_physical, resample_slice, bin_lightcone_in_frequency, bin_lightcone_in_mpc, _get_padded_slice, padding_lightcone
- `apply_mpi_lya_c.py`: one_source
- `astro_tools.py`: FoV_cMpc2, mag_to_flux, Muv_to_muv, muv_to_Muv, Muv_to_L1500
- `beam_convolve.py`: beam_convolve
- `bispectrum.py`: fft_nd, bispectrum_k1k2, bispectrum_equilateral, __init__, spherical_shell_mask, cosine_rule, bispectrum_fast, bispectrum_k, run_loop — not modelled: __init__
- `box_counting.py`: box_count_sliding, get_kernel, Renyi_diemsnions
- `bubble_stats.py`: fof, spa, mfp, averaged_mfp, mfp_from_point, rebin_bsd, dist_from_volumes, get_distribution, plot_fof_sizes, disk_structure, granulometry_CDF, granulometry_bsd, _granulometry, h_transform, _watershed, watershed_bsd, disk, ball, func, compute_ray_length
- `compare_constraints.py`: nothing — not modelled: __init__, _load_constraints, _load_models
- `const.py`: set_abundance_helium, set_hubble_h, set_omega_matter, set_omega_baryon, set_omega_lambda, set_ns, set_sigma_8
- `conv.py`: set_sim_constants, gridpos_to_mpc, gridvel_to_kms, gridmass_to_msol
- `corr_function.py`: ps_to_corr, correlation_function, cross_correlation_function, landy_szalay_estimator
- `cosmo.py`: _ldist, luminosity_distance, z_to_cdist, cdist_to_z, z_to_age, angular_size, angular_size_comoving, deg_to_cdist, nu_to_z, nu_to_cdist, hubble_parameter, Tvir_to_M, M_to_Tvir — not modelled: z_to_nu, nu_to_wavel, c_to_p, p_to_c
- `density_file.py`: __init__, read_from_file, write_to_file
- `deprecated.py`: freq_box, smooth — not modelled: read_binary_with_meshinfo, save_binary_with_meshinfo
- `fft_functions.py`: fftconvolve
- `fitting_methods.py`: __init__, residual_func, _optimize, fit, predict, fit_predict, score
- `foreground_model.py`: galactic_synch_fg, extragalactic_pointsource_fg, diabolo_filter, barrel_filter, remove_wedge_image, rolling_wedge_removal_lightcone, one_over_E, multiplicative_factor
- `gaussian_random_field.py`: make_gaussian_random_field, make_gaussian_random_field_like_field, _get_ps_func_for_field, fourier_phase_shuffled
- `halo_list.py`: __init__, read_from_file, get, _reposition, _get_header — not modelled: __init__
- `helper_functions.py`: real_to_fourier_amplitude_phase, get_source_redshifts, get_xfrac_redshifts, get_dens_redshifts, _get_redshifts_in_range, print_msg, flt_comp, get_interpolated_array, read_cbin, read_raw_binary, save_raw_binary, save_cbin, read_fits, save_fits, determine_filetype, get_data_and_type, save_data, get_mesh_size, outputify, determine_redshift_from_filename, find_idx, get_eval, set_verbose, combined_mean_variance
- `identify_regions.py`: bubbles_from_slic, bubbles_from_kmeans, bubbles_from_fixed_threshold, bubbles_from_triangle3D, bubbles_from_triangle2D, threshold_kmeans, threshold_kmeans_3cluster
- `irate_file.py`: read_from_file — not modelled: __init__
- `lightcone.py`: make_lightcone, make_velocity_lightcone, _get_output_z, redshifts_at_equal_comoving_distance, redshifts_at_equal_frequncy_width, get_lightcone_subvolume, _get_interp_slice, _get_step_weighted_slice, _get_step_transitions, _get_slice, _get_filenames, _get_file_redshifts — not modelled: _all_same
- `line_intensity.py`: M_HI_on_grid, L_CII_on_grid
- `lyman_alpha_coupling.py`: _read_halofile, Lya_coupling_coeff, one_source, Lya_coupling_coeff_MPI, Lya_coupling_coeff_, one_source_, Lya_coupling_coeff_useprofile, _get_xc, _get_profile
- `lyman_alpha_transmission.py`: approximation_voigt_faddeeva, direct_voigt_profile, lyA_scattering_cross_section, tau_nu_lyA_FGPA, tau_nu_lyA, tau_nu_lyA_los, out_func
- `mfp_np.py`: _ray3d, mfp3d, mfp2d, loading_verbose
- `model_21cmfast.py`: _is_py21cmfast_installed, run_21cmfast_init, run_21cmfast_matter, run_21cmfast_coeval
- `morph.py`: binary_dilation, binary_erosion, _erode_v1, _erode_v2, binary_opening
- `nbody_file.py`: read_pkdgrav_fof_halo_catalogue, read_pkdgrav_density_grid, halo_list_to_grid, __init__, _get_header, get_npart, read_from_file, set_halo_pos, set_halo_mass, pos_cm_to_grid, pos_mpc_to_grid, construct_tree, value_on_grid, halo_mass_on_grid, halo_value_on_grid
- `nbody_pkdgrav.py`: dLightSpeedSim, read_particles, read_fof_data, _read_fof_data, array_fof_data, save_fof_data, get_hmf_data, read_pk_data, load_density_field — not modelled: __init__
- `nbody_tools.py`: _set_cosmo, ParticleMass_to_ParticleNumber, halo_mass_to_particle_number, particle_number_to_particle_mass
- `numba_functions.py`: apply_operator_labelled_data_numba, get_uv_daily_observation_numba, from_antenna_config, earth_rotation_effect, get_uv_coverage — not modelled: superpixel_map_numba
- `percolation.py`: find_percolation_cluster
- `plotting.py`: plot_slice, plot_hist, print_chain_stats, plot_triangle, __init__, _get_default_param_labels, _get_distribution_label, add_distribution, _calculate_base_metrics, plot_corner, _plot_corner_backend, _plot_getdist_backend, plot_forest, quantile, cdf_at
- `position_dependent_power_spectrum.py`: power_spectrum_response, integrated_bispectrum, integrated_bispectrum_cross, _W_L, integrated_bispectrum_cross_slide
- `power_legendre.py`: power_spectrum_multipoles
- `power_spect_fast.py`: power_spect_nd, phase_spect_nd, _get_k, power_spect_1d, power_spect_2d, dimensional_power, power_spect_mu, plot_2d_power, horizon_wedge_equation
- `power_spectrum.py`: apply_window, power_spectrum_nd, cross_power_spectrum_nd, radial_average, power_spectrum_1d, power_spectrum_2d, cross_power_spectrum_1d, power_spectrum_mu, cross_power_spectrum_mu, mu_binning, get_k, get_kbins, _get_k, _get_mu, _get_kbins, _get_dims, dimensionless_ps, _get_nonzero_idx, anisotropy_ratio_r_mu
- `power_spectrum_noise.py`: noise_error_ps
- `primary_beam.py`: primary_beam, primary_beam_null, circular_beam
- `pv_mpm.py`: get_distorted_dt, make_pv_box
- `radio_telescope_calibration.py`: from_antenna_config_with_gains, get_uv_map_with_gains, _grid_uv_tracks_with_gains, gain_uv_map_to_uv_map, apply_uv_with_gains_response_on_image, from_antenna_config_with_antenna_stamp, get_full_uv_map_with_antenna_stamp, _process_chunk_get_full_uv_map_with_antenna_stamp, _grid_uv_tracks_with_antenna_stamp, full_uv_map_with_antenna_stamp_to_uv_map, get_full_uv_lagrangian_with_antenna_stamp, _grid_uv_lagrangian_tracks_with_antenna_stamp — not modelled: _process_chunk_get_full_uv_lagrangian_with_antenna_stamp
- `radio_telescope_layout.py`: subarray_type_to_antxyz, from_antenna_config, earth_rotation_effect, get_uv_daily_observation, grid_uv_tracks, geographic_to_cartesian_coordinate_system, cartesian_to_geographic_coordinate_system, antenna_positions_to_baselines, enu_to_ecef, ecef_to_xyz, get_SKA_Low_layout — not modelled: get_latest_SKA_Low_layout, SKA1_LowConfig_Sept2016
- `radio_telescope_noise.py`: signal_window, noise_coeval_power_spectrum_1d, get_uv_map_lightcone, noise_map, _suppress_sharp_features_uv_map, apply_uv_response_noise, apply_uv_response_noise_briggs, ifft2_wrap, apply_uv_response_on_image, max_baseline_to_max_k, get_uv_map, make_uv_map_lightcone, apply_uv_response_on_coeval, noise_cube_coeval, noise_cube_lightcone, noise_lightcone, gauss_kernel_3d, smooth_gauss_3d
- `radio_telescope_sensitivity.py`: get_SEFD, sigma_noise_radio, apply_uv_response, kelvin_jansky_conversion, kelvin_2_jansky — not modelled: jansky_2_kelvin
- `read_files.py`: _load_binary_data, read_21cmfast_files, read_c2ray_files, read_grizzly_files, coeval_21cm_c2ray, coeval_xfrac_c2ray, coeval_dens_c2ray, read_dictionary_data, write_dictionary_data, get_package_resource_path, recursively_load, recursive_save
- `scipy_func.py`: numpy_product
- `segmentation.py`: sigmoid_balanced_cross_entropy_with_logits, balanced_cross_entropy, iou, dice_coef, precision, recall, r2score, __init__, load_model, UniqueRows, IndependentOperations, prediction
- `smoothing.py`: gauss_kernel, gauss_kernel_3d, tophat_kernel, tophat_kernel_3d, lanczos_kernel, smooth_gauss, smooth_tophat, smooth_lanczos, smooth_with_kernel, get_beam_w, interpolate3d, interpolate2d, smooth_lightcone, smooth_coeval, smooth_coeval_tophat, smooth_coeval_gauss, smooth_lightcone_tophat, smooth_lightcone_gauss, smooth_lightcone_uv_threshold, remove_baselines_from_uvmap, convolve_uvmap, convolve_uvmap_coeval, smooth_line
- `source_file.py`: read_from_file, grid_sources, write_to_file — not modelled: __init__
- `spa_np.py`: spa_np, put_sphere
- `statistics.py`: skewness, kurtosis, mass_weighted_mean_xi, subtract_mean_signal, signal_overdensity, apply_func_along_los, _get_slice
- `superpixels.py`: slic_cube, see_label, binary_stitch, boundaries, under_segmentation_error, stitch_using_histogram, stitch_superpixels, apply_operator_labelled_data, get_superpixel_means, get_superpixel_sigmas, get_superpixel_n_pixels, get_superpixel_SNRs, get_superpixel_pixels, mean_estimate, get_combined_mean_std, xfrac_mass_estimate, xfrac_volume_estimate, superpixel_map
- `tau.py`: tau, tau_map
- `temper_file.py`: read_from_file — not modelled: __init__
- `temperature.py`: calc_dt_halo, calc_dt, calc_dt_full, calc_dt_lightcone, calc_dt_full_lightcone, mean_dt, _dt, _dt_full
- `test_case.py`: paint_kernel, spherical_bubble_model
- `topology.py`: EulerCharacteristic, betti0, betti2, betti1, genus, count_neighbors, count_neighbors_once
- `usefuls.py`: loading_verbose, loading_msg, Mgrid_2_Msolar, Msolar_2_Mgrid, get_zs_list, coeval_21cm, coeval_xfrac, coeval_dens, coeval_overdens, coeval_vel, get_vel
- `vel_file.py`: __init__, read_from_file, write_to_file, get_kms_from_density
- `xfrac_file.py`: __init__, read_from_file, write_to_file

## Findings: claims that are false of the code as written

Each is a theorem with a witness or an exact characterisation; the properties state what is true instead.

- C02 (UV-map cache resumes correctly after any crash between file operations): `C02_uv_cache_crash_resume_duplicates_refuted`
- C03 (A crash inside a checkpoint write is not survivable): `C03_uv_cache_crash_safety_refuted`
- C05 (Position of a baseline in the gridded map): `C05_uv_grid_odd_dc_refuted`
- C06 (Mirror baselines make the uv map point symmetric): `C06_uv_grid_mirror_odd_refuted`, `C06_uv_grid_mirror_nyquist_refuted`
- C16 (Betti numbers: components and Euler-Poincare): `C16_betti0_shift_refuted`
- C17 (Friends-of-friends search labels connected components): `C17_fof_search_queue_race_refuted`
- C18 (Light-cone slices interpolate the two bracketing snapshots): `C18_lightcone_slices_refuted`
- C19 (Interpolated slices stay between the snapshots): `C19_long_box_refuted`
- C26 (Combined mean and variance equal the pooled statistics): `C26_docstring_example_refuted`
- C29 (Superpixel statistics are per-label statistics): `C29_negative_labels_refuted`
- C30 (find_idx inverts a monotone array): `C30_integer_values_refuted`
- C31 (Mean-free-path rays): `C31_3d_rays_lost_refuted`
- C33 (Percolation cluster): `C33_spanning_refuted`
- C34 (Setting the simulation box is atomic): `C34_mixed_state_refuted`
- C38 (Peculiar-velocity distortion conserves the signal per line of sight): `C38_redshift_axis_refuted`, `C38_velocity_axis_refuted`, `C38_periodic_shift_refuted`
- C39 (Optical depth is well defined and monotone): `C39_map_unsorted_refuted`
- C45 (Sub-boxes of the position-dependent power spectrum): `C45_slide_refuted`
- C46 (Painting bubbles): `C46_paint_adds_refuted`, `C46_non_overlapping_refuted`
- C48 (Brightness temperature is bounded and linear): `C48_calc_lightcone_axis_refuted`, `C48_calc_full_lightcone_refuted`, `C48_lightcone_axis_refuted`
- C49 (Opening and granulometry): `C49_asymmetric_refuted`, `C49_pattern_refuted`
- C50 (Regions of interest by thresholds): `C50_kmeans_two_clusters_refuted`
- C51 (Antenna stamps list exactly the baselines of a pixel): `C51_stamps_odd_grid_refuted`
- C52 (Rows of the Lagrangian uv map lose the baseline identity): `C52_lagrangian_identity_refuted`
- C53 (Declination of the calibration functions): `C53_calibration_rotation_refuted`
- C54 (Layout frame changes are isometries): `C54_documented_axes_refuted`
- C59 (Fast spherical spectra count edge modes twice): `C59_edge_counted_twice_refuted`
- C63 (Integer redshifts and distances lose precision): `C63_integer_age_zero_refuted`
- C66 (Cut of the uv map at the longest baseline): `C66_symmetry_refuted`
- C67 (Bandwidths of a noise light cone): `C67_cube_refuted`
- C69 (Power spectrum of Gaussian random fields): `C69_odd_refuted`
- C70 (Calls that can never succeed): `C70_multipoles_refuted`, `C70_freq_box_refuted`, `C70_wedge_refuted`
- C71 (Correlation functions): `C71_scale_refuted`, `C71_edges_refuted`, `C71_clustering_refuted`, `C71_pair_count_refuted`, `C71_order_refuted`
- C74 (Test-time augmentation of the neural segmentation undoes every symmetry it applies and changes nothing for pixel-wise networks): `C74_closed_refuted`, `C74_flip_refuted`, `C74_any_shape_refuted`
- C75 (The effective Lyman-alpha optical depth averages the transmission of the cells around each cell on a periodic line): `C75_long_refuted`, `C75_axis_refuted`
- C77 (The spherical-average size of a cell is the largest scale whose average reaches the threshold): `C77_scales_refuted`, `C77_corner_refuted`
- C78 (The watershed size distribution is a distribution over radii computed from labels, not volumes): `C78_volume_refuted`
- C79 (Putting haloes on a grid conserves their mass but spans the extent of the haloes rather than the box): `C79_box_refuted`
- C80 (Particle files are read completely or refused, component by component, and every further read appends): `C80_layout_refuted`
- C82 (Wedge filtering of an image multiplies modes only on even grids; point sources overwrite each other): `C82_sources_refuted`, `C82_odd_refuted`
- C84 (The bispectrum estimate is an average over triples of modes, which are closed triangles only on even grids): `C84_odd_refuted`, `C84_component_refuted`
- C85 (Cosmological distances increase with redshift, are inverted at the nodes of the table, and depend on a possibly stale q0): `C85_integer_refuted`
- C86 (Magnitudes, fields of view and particle masses convert consistently where they convert at all): `C86_halo_refuted`
- C88 (A fit object predicts with the parameters in the order of their names and remembers the cross validation of earlier calls): `C88_reorder_refuted`, `C88_few_points_refuted`
- C89 (Gain maps sum the products of the baselines of each cell, with gains renewed at multiples of the timescales, and the response drops their phases): `C89_counts_odd_refuted`, `C89_documented_refuted`, `C89_polar_refuted`, `C89_phase_refuted`
- C90 (A taper passed to a spectrum is multiplied into the caller's array, once per call): `C90_repeat_refuted`
- C92 (What a file name decides: type, redshift, listing and written format): `C92_single_digit_refuted`, `C92_no_extension_refuted`, `C92_array_refuted`, `C92_save_precedence_refuted`, `C92_lightcone_text_refuted`
- C93 (The noise power spectrum and the Briggs weights): `C93_origin_refuted`, `C93_observing_time_refuted`, `C93_uniform_refuted`, `C93_briggs_direction_refuted`, `C93_wrap_refuted`
- C94 (Line intensity maps carry the signal of all haloes): `C94_units_refuted`, `C94_dictionary_refuted`
- C95 (Segmentation scores and the training loss mean what their names say, up to stated exceptions): `C95_iou_graded_refuted`, `C95_empty_prediction_refuted`, `C95_loss_direction_refuted`
- C96 (Superpixel scores and estimates describe the labelled pixels): `C96_pooled_std_refuted`, `C96_defaults_refuted`, `C96_falling_refuted`
- C97 (The genus does not depend on where the structures lie in the periodic box): `C97_box_refuted`, `C97_axis_refuted`
- C98 (Sliding windows, Gaussian beams and painted spheres keep their books): `C98_ball_refuted`, `C98_periodic_refuted`
- C99 (The fast cylindrical spectrum averages closed bins, so edge modes count twice and modes on the axes not at all): `C99_edges_refuted`
- C100 (Rays from a point, averaged ray lengths, rebinned curves, granulometric sizes and h-domes mean what they say): `C100_numpy_point_refuted`, `C100_rebin_refuted`
- C101 (Coeval cubes and simulation files are read, blended and normalised as announced): `C101_fast_large_refuted`, `C101_c2ray_velocity_refuted`
- C102 (Shuffled phases, fields made from a measured spectrum, and amplitudes with phases keep what they promise): `C102_odd_refuted`
- C103 (Names are bound before they are read, or the call never returns): `C103_bispectrum_refuted`, `C103_coupling_refuted`
- C104 (Diagnostics of weighted samples: what the medians, intervals, PIT values, coverage and labels mean): `C104_median_refuted`, `C104_ties_refuted`, `C104_one_parameter_refuted`, `C104_lost_refuted`, `C104_width_refuted`
- C105 (Particle files, halo files and power spectrum tables of pkdgrav are read as they were written): `C105_extra_fields_refuted`
- C107 (The light-cone interpolation 'step_cell' switches each cell once, between the two snapshots): `C107_order_refuted`
- C108 (Galactic synchrotron maps: power, parity, ordering and seed): `C108_order_refuted`
- C111 (Superpixel labels, their means, and the regions stitched from them): `C111_bubbles_rows_refuted`
- C115 (Rockstar halo catalogues: columns, header lines, limits and repeated reads): `C115_limit_refuted`
- C116 (What the plotting functions draw: size curves, slices, histograms, corner and forest plots): `C116_hist_refuted`, `C116_triangle_default_refuted`
- C117 (What plot_2d_power draws, where, and what it returns): `C117_mirrored_refuted`, `C117_default_refuted`
- C118 (Smoothed light cones): `C118_lowest_redshift_refuted`, `C118_narrow_band_refuted`

Partial theorems: none.
