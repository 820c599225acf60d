{"id": "C01", "title": "Charge deposition conserves charge", "statement": "Adding one live macroparticle to the charge-density grid changes the total charge on the grid (density at each node times the volume that node stands for, summed over all nodes) by exactly the charge of that macroparticle, wherever in the domain it is: off axis, in the first cell, or within half a cell of the axis.", "quantifier": "all grids (any positive steps and number of nodes), all particle positions in the domain, all charges, all prior contents of the density grid", "why_tests_cant": "positions and grid steps are continuous; the weighting has three branches that meet at r=dr/2 and r=dr, and a unit test can only sample them", "anchors": ["src/particles.cpp: Particles::charge_weighting", "src/chargeDensity.cpp: ChargeDensity::inc_rho", "include/geometry.h: CELL_VOLUME, CYL_VOL, CYL_RNG_VOL"]}
{"id": "C02", "title": "Charge deposition is local, one-signed and inside the arrays", "statement": "Depositing a live particle that lies in the domain touches only the (at most four) nodes surrounding it, every touched node is inside the density array, every increment has the sign of the particle's charge, and a particle marked dead changes nothing.", "quantifier": "all grids, all positions in the closed domain interior that the mover can produce, all charges, all alive flags", "why_tests_cant": "an out-of-range node or a wrong-signed weight shows only at particular positions (walls, axis, exact grid lines)", "anchors": ["src/particles.cpp: Particles::charge_weighting", "src/chargeDensity.cpp"]}
{"id": "C03", "title": "Charge density does not depend on particle order", "statement": "The density obtained by depositing a list of particles is the sum of the single-particle contributions; every permutation of the particle list, and every interleaving of threads that performs the increments atomically, gives the same density (in exact arithmetic), and the total charge on the grid is the sum of the charges of the live particles.", "quantifier": "all particle lists, all permutations and all interleavings of the atomic increments", "why_tests_cant": "the number of schedules of a parallel loop is not enumerable by tests", "anchors": ["src/particles.cpp: Particles::charge_weighting", "src/chargeDensity.cpp: inc_rho"]}
{"id": "C04", "title": "Current of a move inside one cell satisfies the discrete continuity equation", "statement": "When a particle moves obliquely from one point to another in the same grid cell, the current it deposits, integrated over the faces of each node's control volume for one time step, equals exactly the decrease of the charge that charge deposition assigns to that node.", "quantifier": "all grids, all start and end points in one cell (axis cell outside half a step included), all charges and time steps", "why_tests_cant": "the identity involves logarithms and quartic polynomials of continuous positions and must hold at every node of every cell", "anchors": ["src/particles.cpp: Particles::simple_current_distribution", "src/particles.cpp: Particles::charge_weighting", "src/current.cpp: inc_j_r, inc_j_z"]}
{"id": "C05", "title": "Current of a move that crosses cell borders satisfies the discrete continuity equation", "statement": "When a particle moves obliquely into a side-adjacent cell or into a diagonally adjacent cell, the sum of the currents deposited for the legs of the path still balances exactly the change of node charges, at every node.", "quantifier": "all grids, all pairs of start and end points whose cells are neighbours, all charges and time steps", "why_tests_cant": "there are twelve crossing cases, each with its own formula for the intersection points; only particular cases are ever sampled", "anchors": ["src/particles.cpp: Particles::current_distribution", "src/particles.cpp: simple_current_distribution"]}
{"id": "C06", "title": "Current of a purely axial or purely radial move satisfies the discrete continuity equation", "statement": "When a particle moves parallel to the axis or parallel to the radius (within its cell or into the next one) the deposited current balances exactly the change of the node charges.", "quantifier": "all grids, all axial and all radial moves of at most one cell border, all charges and time steps", "why_tests_cant": "dimension errors vanish for the particular grid step 1 and only show for other steps; continuous data", "anchors": ["src/particles.cpp: Particles::strict_motion_weighting", "include/particles.h: SOME_SHIT_DENSITY_STRICT"]}
{"id": "C07", "title": "Azimuthal current carries exactly charge times azimuthal velocity", "statement": "The azimuthal current deposited by a particle, summed over nodes with the node volumes, is the particle's charge times its azimuthal velocity.", "quantifier": "all grids, all positions off the axis, all velocities and charges", "why_tests_cant": "continuous positions, three branches", "anchors": ["src/particles.cpp: Particles::azimuthal_current_distribution", "src/current.cpp: inc_j_phi"]}
{"id": "C08", "title": "The magnetic field stays divergence-free", "statement": "The discrete divergence of H over every cell is left exactly unchanged by the magnetic field update, for every electric field that satisfies the wall conditions; so a field that starts divergence-free remains so after any number of steps.", "quantifier": "all grids, all electric and magnetic field contents, all time steps, any number of steps", "why_tests_cant": "must hold over the whole history of a run with arbitrary sources", "anchors": ["src/hField.cpp: HField::calc_field"]}
{"id": "C09", "title": "Gauss's law is preserved by the field update", "statement": "If the deposited current satisfies the discrete continuity equation, the residual of Gauss's law (epsilon0 div E minus rho) at every interior node and at every axis node is left unchanged by the electric field update; so a state that satisfies Gauss's law satisfies it after any number of steps.", "quantifier": "all grids, all field contents, all currents and charge densities satisfying continuity, any number of steps", "why_tests_cant": "the property is about arbitrary histories; the code never solves Poisson's equation again after start", "anchors": ["src/eField.cpp: EField::calc_field", "src/particles.cpp: Particles::full_current_distribution"]}
{"id": "C10", "title": "Walls stay perfectly conducting", "statement": "The field update never changes the electric field components tangential to the metal walls, nor the azimuthal field on the axis: they keep their initial value through any run.", "quantifier": "all grids, all field and current contents, all update sequences", "why_tests_cant": "an out-by-one loop bound would only be seen at specific nodes; must hold for all histories", "anchors": ["src/eField.cpp: EField::calc_field, boundary_conditions, set_homogeneous_efield"]}
{"id": "C11", "title": "Field updates do not depend on the thread schedule and have no data race", "statement": "Whatever order (or interleaving over threads) the cells are updated in, the electric and magnetic field after an update is the same as that of the serial loop, because no cell update reads a location another cell update writes.", "quantifier": "all permutations of the cell updates, all interleavings of per-cell reads and writes, all field contents", "why_tests_cant": "schedules are not enumerable; a race is invisible in most runs", "anchors": ["src/eField.cpp: EField::calc_field (omp parallel for)", "src/hField.cpp: HField::calc_field"]}
{"id": "C12", "title": "The relativistic pusher never produces a superluminal particle", "statement": "After a relativistic push the particle's speed is strictly below the speed of light, for every field strength and every time step.", "quantifier": "all velocities below c, all electric and magnetic field values, all charge-to-mass ratios, all time steps", "why_tests_cant": "unbounded field strengths; the gamma computation aborts the whole program when the speed exceeds c", "anchors": ["src/particles.cpp: Particles::boris_pusher_single (PUSHER_BORIS_RELATIVISTIC)", "src/lib.cpp: get_gamma, get_gamma_inv"]}
{"id": "C13", "title": "A magnetic field does no work", "statement": "With zero electric field the push changes the direction of the velocity but never its magnitude; with zero fields the velocity is not changed at all.", "quantifier": "all velocities, all magnetic fields, all time steps", "why_tests_cant": "exact algebraic identity over continuous data", "anchors": ["src/particles.cpp: Particles::boris_pusher_single"]}
{"id": "C14", "title": "An electric field accelerates by exactly q E dt / m", "statement": "With zero magnetic field one push changes the momentum per mass by exactly charge times field times time step divided by mass, whatever the initial velocity; two opposite pushes restore the velocity.", "quantifier": "all velocities, electric fields, charges, masses, time steps", "why_tests_cant": "continuous data; compile-time variants of the pusher", "anchors": ["src/particles.cpp: Particles::boris_pusher_single"]}
{"id": "C15", "title": "Particles never leave the simulation domain", "statement": "A plasma particle that starts at least half a cell away from every wall and moves at most one cell per time step is again at least half a cell away from every wall after a full step, for every number of steps; in between it never leaves the grid.", "quantifier": "all grids, all positions and velocities satisfying the time-step limit, all histories of field values, any number of steps", "why_tests_cant": "corner cases (reflection at two walls in one step) and arbitrarily long histories", "anchors": ["src/particles.cpp: Particles::half_step_pos_single, reflection_single, back_position_to_rz_single", "src/particlesList.cpp"]}
{"id": "C16", "title": "Every grid access made for a particle is inside the arrays", "statement": "Field interpolation, charge deposition and current deposition for a particle that the mover may produce only touch array elements that exist.", "quantifier": "all grids with at least a minimal size, all reachable positions", "why_tests_cant": "memory safety at all positions, including exactly on a grid line", "anchors": ["src/eField.cpp: EField::get_field", "src/hField.cpp: HField::get_field", "src/particles.cpp: *_distribution, charge_weighting"]}
{"id": "C17", "title": "Returning to the r-z plane preserves speed and radius", "statement": "Rotating a particle back to the r-z half-plane after a Cartesian move leaves its radius (distance from the axis), z and speed unchanged, and the velocity is that of the same physical particle seen from the rotated plane (angular momentum about the axis is preserved for free motion).", "quantifier": "all positions off the axis and all velocities", "why_tests_cant": "sign errors in a rotation preserve the speed, so a test on the speed does not reveal them", "anchors": ["src/particles.cpp: Particles::back_position_to_rz_single, back_velocity_to_rz_single, half_step_pos_single"]}
{"id": "C18", "title": "Field interpolation reproduces a uniform field", "statement": "A particle anywhere in the domain that asks for the field of a grid filled with a constant value gets that value; interpolation is linear in the grid values and a zero grid gives zero.", "quantifier": "all grids, all positions in the domain, all constants", "why_tests_cant": "weights depend on continuous position, several branches", "anchors": ["src/eField.cpp: EField::get_field", "src/hField.cpp: HField::get_field"]}
{"id": "C19", "title": "The deterministic number sequence is a proper low-discrepancy sequence", "statement": "The digit-reversal numbers used in test mode lie in [0,1), are pairwise different for different non-negative indices, and among any b^m consecutive indices starting at a multiple of b^m exactly one falls in each interval of length b^-m; the function terminates for every base of at least two.", "quantifier": "all bases >= 2, all non-negative indices, all m", "why_tests_cant": "statement about all indices and all bases; termination", "anchors": ["src/math/rand.cpp: random_reverse", "src/math/maxwellJuttner.cpp: random_reverse"]}
{"id": "C20", "title": "Loaded plasma lies in the domain", "statement": "Every particle placed by the cylindrical spatial loading is at least half a cell away from the walls, for every density gradient and every value of the random source.", "quantifier": "all grids, all pairs of positive densities, all random values in [0,1)", "why_tests_cant": "continuous random input; the axial position comes from inverting a quadratic with a branch for equal densities", "anchors": ["src/particles.cpp: Particles::load_cylindrical_spatial_distribution"]}
{"id": "C21", "title": "Loaded plasma carries the requested charge", "statement": "The sum of the macroparticle charges after loading equals particle charge times average density times the volume of the cylinder, for every outcome of the random source, and all macroparticles of a species keep one charge-to-mass ratio.", "quantifier": "all grids, densities, particle numbers, random outcomes", "why_tests_cant": "the per-particle weight depends on the random radius and is renormalised", "anchors": ["src/particles.cpp: Particles::load_cylindrical_spatial_distribution"]}
{"id": "C22", "title": "Thermal velocities are subluminal", "statement": "Every velocity produced by the thermal loading has magnitude below the speed of light.", "quantifier": "all temperatures, all outcomes of the random source", "why_tests_cant": "depends on the combination of three random components; rare outcomes", "anchors": ["src/particles.cpp: Particles::velocity_distribution", "src/lib.cpp: get_gamma_inv"]}
{"id": "C23", "title": "Bunch injection injects each particle at most once and never out of range", "statement": "Over a whole run the injection of one bunch marks distinct particles alive, never touches an index outside the bunch, after n active steps exactly n times the per-step share is alive, and nothing is injected outside the bunch's time window; all particles of the bunch are eventually injected.", "quantifier": "all bunch sizes, durations, time steps, bunch numbers", "why_tests_cant": "integer truncation effects depend on the combination of number, duration and time step", "anchors": ["src/bunch.cpp: Bunch::bunch_inject"]}
{"id": "C24", "title": "A bunch carries the requested charge", "statement": "The total charge of all macroparticles of a bunch is particle charge times density times bunch volume, for every outcome of the random source.", "quantifier": "all radii, densities, particle numbers, random outcomes", "why_tests_cant": "depends on whether some random radius falls into a narrow window", "anchors": ["src/bunch.cpp: Bunch::Bunch"]}
{"id": "C25", "title": "The number and timing of bunches is as configured", "statement": "At most the configured number of bunches is ever created, bunch number k is never created before time k times (bunch duration + gap), at most one per step, and in increasing order.", "quantifier": "all configurations, any number of steps", "why_tests_cant": "history property of the main loop", "anchors": ["src/loadInitParam.cpp: LoadInitParam::init_beam, run"]}
{"id": "C26", "title": "The main loop performs the configured number of steps and stops", "statement": "The main loop terminates and performs exactly the least number of steps whose accumulated time reaches the end time; each step performs its phases in the fixed order (inject, H, reset current, push, deposit, E, dump).", "quantifier": "all start times, end times and positive time steps", "why_tests_cant": "termination for all inputs, not a sample", "anchors": ["src/loadInitParam.cpp: LoadInitParam::run"]}
{"id": "C27", "title": "Every probe dumps exactly one frame every `schedule` steps", "statement": "A probe with schedule s produces a frame at exactly the steps 0, s, 2s, ... of a run that starts at time zero.", "quantifier": "all time steps, all schedules, any number of steps", "why_tests_cant": "the step number is recovered from an accumulated floating point time, so whether a frame is skipped depends on rounding of the particular step", "anchors": ["src/loadInitParam.cpp: LoadInitParam::dump_data, run"]}
{"id": "C28", "title": "Dump files hold the frames in order, frames_per_file to a file", "statement": "The n-th frame of a probe goes to file n / frames_per_file; concatenating the files in numeric order gives all frames in the order they were dumped, each file but the last holds exactly frames_per_file frames, and each frame holds its values in row-major order.", "quantifier": "all probes, all numbers of frames, all frames_per_file >= 1", "why_tests_cant": "history property of the append-mode files", "anchors": ["src/loadInitParam.cpp: LoadInitParam::dump_data", "src/probePlain.cpp: ProbePlain::write_frame, write_col, write_row, write_dot"]}
{"id": "C29", "title": "The analysis reader returns the frame that was dumped", "statement": "For every complete data file, asking the Python reader for frame n of a probe returns the n-th frame the simulation dumped, element for element.", "quantifier": "all probe shapes, all frame numbers in complete files, all frames_per_file", "why_tests_cant": "two programs in two languages must agree on one file layout for all shapes", "anchors": ["tools/lib/plain_reader.py: PlainReader.get_frame, get_all_frames_in_ds, get_ds_frame_by_frame", "src/probePlain.cpp"]}
{"id": "C30", "title": "The beam density probe shows the beam density", "statement": "Each rho_beam probe dumps the charge density of the beam particles alive at that step, independently of what other probes are configured.", "quantifier": "all probe lists, all beam contents", "why_tests_cant": "depends on the combination and order of configured probes", "anchors": ["src/loadInitParam.cpp: LoadInitParam::dump_data, run"]}
{"id": "C31", "title": "The tridiagonal solver solves its system", "statement": "Whenever no pivot vanishes (in particular for diagonally dominant matrices) the vector computed by the tridiagonal solver satisfies all n equations.", "quantifier": "all sizes, all coefficient arrays with non-zero pivots", "why_tests_cant": "all sizes and all real coefficients", "anchors": ["src/eField.cpp: EField::tridiagonal_solve"]}
{"id": "C32", "title": "The Poisson sweep solves its difference equations without division by zero", "statement": "The sweep used by the Poisson solvers never divides by zero and its result satisfies every radial difference equation including both boundary equations.", "quantifier": "all grid sizes, all right-hand sides, all harmonics", "why_tests_cant": "all sizes and real data", "anchors": ["src/poissonDirichlet.cpp: PoissonDirichlet::poisson_solve", "src/poissonNeumann.cpp"]}
{"id": "C33", "title": "The fast transform computes the discrete Fourier transform", "statement": "For every length that is a power of two, the fast transform returns exactly the discrete Fourier sum, and the fast sine transform applied twice (forward, inverse) returns the input.", "quantifier": "all powers of two, all complex inputs", "why_tests_cant": "induction over the recursion of the butterfly network; all lengths", "anchors": ["src/math/fourier.cpp: Fourier::fast_fourier_alg, fast_sine_transform"]}
{"id": "C34", "title": "The fast transforms stay inside their arrays", "statement": "No fast transform reads or writes outside the arrays it allocates or is given.", "quantifier": "all lengths", "why_tests_cant": "off-by-one writes past a heap block usually go unnoticed", "anchors": ["src/math/fourier.cpp: Fourier::fast_cosine_transform, fast_sine_transform, fast_fourier_transform"]}
{"id": "C35", "title": "An accepted configuration obeys the stability limits", "statement": "If the start-up checks accept a configuration then the time step is below the light-transit limits of both grid directions and below the plasma-period limit, and both grid steps are below the Debye length.", "quantifier": "all configurations", "why_tests_cant": "combination of several real-valued inequalities; a check of the wrong variable is only seen for anisotropic grids", "anchors": ["src/limitationsChecker.cpp: LimitationsChecker::check_velocity_time_step, check_grid_size"]}
{"id": "C36", "title": "Command line handling", "statement": "For every argument vector: -h/--help prints usage, --version prints the version, -f takes the following argument as the configuration file, an -f without argument is refused, and without -f the default file is used; no argument index beyond the vector is read.", "quantifier": "all argument vectors", "why_tests_cant": "unbounded input space", "anchors": ["src/main.cpp: main", "src/lib.cpp: get_cmd_option, cmd_option_exists"]}
{"id": "C37", "title": "Result directories are created", "statement": "Asking for a directory succeeds whenever the whole path can be created, creates all missing parents, and creates nothing outside the path.", "quantifier": "all paths and all file system states", "why_tests_cant": "arbitrary path strings (double slashes, trailing slash) and file-system states", "anchors": ["src/lib.cpp: make_directory, directory_exists"]}
{"id": "C38", "title": "The elapsed time text is correct", "statement": "The text printed for the elapsed wall time denotes exactly the elapsed number of seconds, with minutes and seconds below 60 and hours below 24, and fits in the buffer allocated for it.", "quantifier": "all elapsed times", "why_tests_cant": "boundary values and the buffer size hold for all values or not at all", "anchors": ["src/lib.cpp: get_simulation_duration"]}
{"id": "C39", "title": "Boolean configuration values", "statement": "The text-to-boolean conversion accepts exactly the documented spellings and maps each to the right value.", "quantifier": "all strings", "why_tests_cant": "all strings", "anchors": ["src/lib.cpp: to_bool"]}
{"id": "C40", "title": "Relativistic factors are consistent", "statement": "The factor computed from a velocity is at least one, grows with speed, and converting velocity to momentum and back is the identity for every subluminal velocity; the program aborts exactly for superluminal ones.", "quantifier": "all velocities and momenta", "why_tests_cant": "continuous data", "anchors": ["src/lib.cpp: get_gamma, get_gamma_inv"]}
{"id": "C41", "title": "Temperatures are non-negative and isotropic bulk motion has temperature zero", "statement": "The temperature computed for a cell is never negative for any set of particles in it, and is zero when all particles of the cell share one velocity.", "quantifier": "all particle sets", "why_tests_cant": "sums over arbitrary particle sets", "anchors": ["src/temperatureClassic.cpp: TemperatureClassic::calc_t, normalize"]}
{"id": "C42", "title": "Density diagnostics conserve the number of particles and stay inside their arrays", "statement": "The density map summed with cell volumes gives the number of real particles represented by the macroparticles of the species, and computing it writes only inside the arrays allocated for it.", "quantifier": "all species, all particle sets, all grids", "why_tests_cant": "allocation sizes versus loop bounds for all grids; heap overflow by one row is silent", "anchors": ["src/particlesDensity.cpp", "src/temperatureClassic.cpp", "src/temperature.cpp"]}
{"id": "C43", "title": "Smoothing never overshoots and keeps constants", "statement": "Bilinear postprocessing of a map yields at every node a value between the smallest and the largest input value and leaves a constant map unchanged.", "quantifier": "all maps and sizes", "why_tests_cant": "all array contents and sizes", "anchors": ["src/lib.cpp: bilinear_interpolation, bicubic_interpolation"]}
{"id": "C44", "title": "The absorbing layer is passive", "statement": "The conductivity profile is non-negative everywhere, zero outside the layers, and never exceeds the configured maximum, for every layer configuration that is accepted.", "quantifier": "all grids and layer parameters", "why_tests_cant": "real-valued profile with several overlapping layer branches", "anchors": ["src/geometry.cpp: Geometry::set_pml"]}
{"id": "C45", "title": "Probe configuration is interpreted as written", "statement": "Each probe element of the configuration yields one probe of the given type with the given ranges, in the given order; an unknown type is refused.", "quantifier": "all lists of probe elements", "why_tests_cant": "unbounded configuration space", "anchors": ["src/parameters.cpp: Parameters::init_probes"]}
{"id": "C46", "title": "Without sources the field energy is conserved and bounded", "statement": "Without currents and conductivity the discrete electromagnetic energy of the leap-frog scheme is exactly the same after every step, in every cylindrical cavity.", "quantifier": "all grids, all initial fields, any number of steps", "why_tests_cant": "a stability statement about infinitely many steps", "anchors": ["src/eField.cpp: EField::calc_field", "src/hField.cpp: HField::calc_field"]}
{"id": "C47", "title": "Influence travels at most one cell per step", "statement": "The field at a node after n steps depends only on the initial fields and the currents within n cells of that node.", "quantifier": "all grids, all field contents, all n", "why_tests_cant": "dependency statement over all pairs of states", "anchors": ["src/eField.cpp: EField::calc_field", "src/hField.cpp: HField::calc_field"]}
{"id": "C48", "title": "The two polarisations do not mix", "statement": "Field components (E_r, E_z, H_phi) evolve independently of (H_r, H_z, E_phi): a configuration with one group zero and no azimuthal current keeps that group zero for ever.", "quantifier": "all grids, all field contents, any number of steps", "why_tests_cant": "history property over all states", "anchors": ["src/eField.cpp: EField::calc_field", "src/hField.cpp: HField::calc_field"]}
{"id": "C49", "title": "The Vay pusher agrees with the Lorentz force", "statement": "For small time steps the velocity change of the Vay pusher divided by the time step tends to the Lorentz acceleration, so the magnetic deflection equals that of the Boris pusher to first order; its result is subluminal.", "quantifier": "all velocities and fields", "why_tests_cant": "limit statement; scaling error in one of several multiplications", "anchors": ["src/particles.cpp: Particles::vay_pusher_single"]}
{"id": "C50", "title": "Probe path names fit their buffers", "statement": "For every configuration the path of the probe directory and of every data file fits in the fixed-size buffers it is written to.", "quantifier": "all result paths, components and probe ranges", "why_tests_cant": "buffer overflow depends on string lengths in the configuration", "anchors": ["src/probePlain.cpp: ProbePlain::ProbePlain, get_data_path", "include/probe.h"]}
{"id": "C51", "title": "The frame cache never returns stale data", "statement": "A cached analysis result is returned only if it equals what would be read from the data files now.", "quantifier": "all sequences of simulation runs, reads and cache updates", "why_tests_cant": "history of file modifications between reads", "anchors": ["tools/lib/tinycache.py: TinyCache.__contains__, get_cache, update_cache", "tools/lib/plain_reader.py"]}
{"id": "C52", "title": "Reading a range of frames equals reading the frames one by one", "statement": "The multi-frame read functions return, at position j, the frame from_frame + j for every requested range.", "quantifier": "all ranges, all frames_per_file", "why_tests_cant": "the result depends on how the range straddles file borders", "anchors": ["tools/lib/plain_reader.py: get_frame_range, get_frame_range_col, get_frame_range_row, get_frame_range_dot"]}
{"id": "C53", "title": "The field solver only touches array elements that exist and have been initialised", "statement": "Every array element read or written by the electric and magnetic field updates lies within the allocated arrays, and every element read has been assigned during start-up or belongs to a current array that is reset each step.", "quantifier": "all grid sizes with at least two nodes per direction, all cells", "why_tests_cant": "the arrays have different extents per component and some elements are never initialised; an out-of-range or uninitialised read rarely changes a short run visibly", "anchors": ["src/field.cpp:10-25", "src/eField.cpp:34-170", "src/hField.cpp:7-157", "src/loadInitParam.cpp:250-259"]}
{"id": "C54", "title": "A configuration accepted by the start-up checks runs stably", "statement": "For every configuration that the start-up checks accept, the fields computed without particles in empty space stay bounded for any number of steps by a bound proportional to the initial fields.", "quantifier": "all accepted configurations, all initial fields, any number of steps", "why_tests_cant": "Instability depends on the combination of grid steps, time step and wave pattern and may show only after many steps; tests run a few steps of a few configurations.", "anchors": ["src/limitationsChecker.cpp", "src/fieldE.cpp", "src/fieldH.cpp"]}
{"id": "C55", "title": "Thermal energy sampler", "statement": "For every temperature and every random number in [0,1) the thermal energy sampler reads only inside its tables and returns a finite non-negative energy that grows with the random number and follows the same law, proportional to the temperature in eV, in both of its branches.", "quantifier": "all temperatures >= 0, all sequences of random numbers in [0,1), all table indices", "why_tests_cant": "the out-of-bounds reads, NaNs and the cut tail only occur for random numbers of probability below 1e-8", "anchors": ["src/math/maxwellJuttner.cpp: maxwellJuttner", "src/particles.cpp: velocity_distribution"]}
{"id": "C56", "title": "The Dirichlet Poisson solver solves the discrete Poisson equation", "statement": "For every charge density the potential computed by PoissonDirichlet::poisson_solve satisfies the five-point cylindrical difference form of Poisson's equation at every node except the outer wall, with grounded walls, and the electric field is minus its difference gradient.", "quantifier": "all grid sizes with n_grid_z+1 a power of two, all step sizes, all charge densities", "why_tests_cant": "all real charge densities and all sizes; correctness of sine diagonalisation plus sweep", "anchors": ["src/poissonDirichlet.cpp: PoissonDirichlet::poisson_solve", "src/math/fourier.cpp: Fourier::fast_sine_transform"]}
{"id": "C57", "title": "Walls are mirrors", "statement": "A particle on which no force acts is, after any number of steps, where free flight between mirrors half a cell inside the walls puts it, and has the velocity of that flight, in the axial direction always and in the radial direction if it does not go around the axis.", "quantifier": "all geometries, all time steps within the step limit, all initial positions and velocities, any number of steps", "why_tests_cant": "The claim is about every number of bounces and every phase of the flight at which a bounce happens; a wrong sign in one of the four wall tests shows only for particles that cross that wall.", "anchors": ["src/particles.cpp:1256-1374"]}
{"id": "C58", "title": "The configuration file is read as written", "statement": "Every configuration document yields exactly the grid, absorbing layer, clock, species list, beam and output settings that are written in it (debug variants when debug is on), real numbers as the nearest double; documents that do not describe a configuration are refused with an error status.", "quantifier": "all documents, all lists of species and probes, any order of elements", "why_tests_cant": "unbounded document space; silent truncation by atoi only shows for certain spellings", "anchors": ["src/parameters.cpp: Parameters::Parameters, init_*"]}
{"id": "C59", "title": "A whole run ends normally and keeps every particle in order", "statement": "For every sound configuration (grid of at least 3 x 3 nodes, light passing at most 4/5 of a radial cell and less than an axial cell per step, relativistic pusher, beam slower than light) and every admissible start, a run that ends before bunches are removed makes exactly the least number of steps reaching end_time, never performs an undefined operation, and at its end every live particle is on the grid, off the axis and slower than light.", "quantifier": "all configurations, initial particles, random draws, numbers of steps", "why_tests_cant": "Runs of arbitrary length with arbitrary particle data and random numbers; an out-of-bounds access usually goes unnoticed in a test.", "anchors": ["src/loadInitParam.cpp:450-589", "src/particles.cpp:1296-1373", "src/bunch.cpp:87-155"]}
{"id": "C60", "title": "No magnetic sources and ideal walls in complete runs", "statement": "At the end of every run that ends normally, for whatever particles and beam, the discrete divergence of the magnetic field is zero in every cell and the tangential electric field on the conducting walls is zero.", "quantifier": "all configurations, particles, beams, numbers of steps", "why_tests_cant": "The claim is an invariant of the coupled particle-field loop for arbitrary currents and any number of steps.", "anchors": ["src/loadInitParam.cpp:450-589", "src/hField.cpp", "src/eField.cpp"]}
{"id": "C61", "title": "Particles are neither lost, duplicated nor changed in kind", "statement": "After any number of iterations the list of particle groups is the initial one followed by one bunch per bunch number created since, in order; each group has the same particles with the same charges and masses; particles of species stay alive; an absorbed particle of the beam never changes again.", "quantifier": "all configurations, states, numbers of iterations", "why_tests_cant": "Bookkeeping over unboundedly many particles and iterations.", "anchors": ["src/loadInitParam.cpp:168-248", "src/particles.cpp:1296-1373", "src/bunch.cpp:87-155"]}
{"id": "C62", "title": "The beam density array shows the live beam", "statement": "After every iteration c_rho_bunch is the density of the live beam particles at their present positions, and its total over the grid is their charge.", "quantifier": "all configurations, states, numbers of iterations", "why_tests_cant": "Depends on resets, weightings and output of every earlier iteration.", "anchors": ["src/loadInitParam.cpp:520-589", "src/particles.cpp:100-226"]}
{"id": "C63", "title": "Gauss's law holds throughout a run", "statement": "At every node off the walls the flux of the electric field out of the node's volume equals the charge in it at every time of a run.", "quantifier": "all configurations, states, numbers of iterations", "why_tests_cant": "Exact conservation over arbitrary motions and numbers of steps cannot be sampled.", "anchors": ["src/loadInitParam.cpp:300-589", "src/particles.cpp:476-686", "src/eField.cpp"]}
{"id": "C64", "title": "A macroparticle frame shows exactly the live particles of its cells", "statement": "Frame n of a macroparticle probe, read back with get_mpframe, gives for every component (position r, phi, z, velocity r, phi, z) the values of exactly the live macroparticles of the named species in the cells start..end at the n-th dump of the probe, in the same order for all components; a frame that was not dumped is an error.", "quantifier": "all geometries, bounds, schedules, species lists and particle positions, all histories of dumps, all frame numbers, all fpds", "why_tests_cant": "Which particles are shown depends on every position, on deaths earlier in the run and on how many particles are in the region; a test sees only one population.", "anchors": ["src/probePlain.cpp:173-224", "src/loadInitParam.cpp:393-404", "tools/lib/plain_reader.py:85-94", "tools/lib/plain_reader.py:367-398"]}
{"id": "C65", "title": "Time stamps and frame numbers of the tools agree with the dumps", "statement": "get_timestamp_by_frame_number gives the time at which the n-th frame of a probe was dumped, get_frame_number_by_timestamp inverts it (also in double precision), and the frames below the frame number of the end time all exist.", "quantifier": "all time steps, schedules, frame numbers, lengths of runs", "why_tests_cant": "Rounding at every frame number and every step size; tests try a few.", "anchors": ["tools/lib/parameters.py:201-208", "src/loadInitParam.cpp:329-404"]}
{"id": "C66", "title": "The tools map a radius or longitude to the grid row or column that lives there", "statement": "get_row_by_radius(i*dr) = i for every grid row i of the simulation (same for columns), get_radius_by_row(i) = i*dr, and the two are inverse to each other.", "quantifier": "all grids, all rows and columns", "why_tests_cant": "The error depends on the row and on the grid size; it is invisible in the inner half of the tube.", "anchors": ["tools/lib/parameters.py:229-243", "src/geometry.cpp:45-53"]}
{"id": "C67", "title": "The parameter calculator agrees with the simulation", "statement": "The plasma frequency, Debye length and beam passage time printed by quick_parameters_calculator.py agree to one percent with those that the simulation itself uses (start-up checks, injection schedule).", "quantifier": "all densities, temperatures, beam configurations", "why_tests_cant": "A relation between two formulas in two languages over all parameters.", "anchors": ["tools/quick_parameters_calculator.py:17-47", "tools/quick_parameters_calculator.py:63-77", "src/limitationsChecker.cpp:26-34", "src/bunch.cpp:88-93"]}
{"id": "C68", "title": "The analysis tools read the same configuration as the simulation", "statement": "For one and the same configuration document, the Parameters object of the tools (tools/lib/parameters.py) and the Parameters object of the simulation agree on grid size, geometry, time, beam, species, probes, frames per file and directories, and both accept the document.", "quantifier": "all XML documents that describe a configuration, any order of elements, any white space, any decimal notation", "why_tests_cant": "Two parsers in two languages with two XML libraries and two number readers; agreement is a statement about all documents.", "anchors": ["tools/lib/parameters.py:37-198", "src/parameters.cpp:6-297"]}
{"id": "C69", "title": "The tools look for every data file where the simulation wrote it", "statement": "The file that the reader of the tools opens for a probe and a file number is the file into which the simulation wrote that probe's frames.", "quantifier": "all configurations, probes, file numbers, working directories of both programs", "why_tests_cant": "Depends on the working directories, on relative and absolute paths and on their normalisation; a test fixes one directory layout.", "anchors": ["tools/lib/parameters.py:40-44", "tools/lib/parameters.py:123-135", "tools/lib/plain_reader.py:18-95", "src/loadInitParam.cpp:63-82", "src/probePlain.cpp:33-78"]}
{"id": "C70", "title": "Threads do not change a reproducible run, not even by a rounding error", "statement": "Built with TESTMODE, the main loop computes the same fields, currents, beam density and macroparticles, bit for bit, for every number of threads, every distribution of the iterations of the parallel loops over the threads and every interleaving; and that result is the one of the sequential algorithm.", "quantifier": "all configurations, initial memories, numbers of iterations, numbers of threads, distributions of iterations, interleavings of single loads and stores, and all arithmetics (in particular binary64)", "why_tests_cant": "A data race shows up only in rare interleavings; a test runs few schedules on few machines, and comparing floating point results within a tolerance hides differences.", "anchors": ["src/loadInitParam.cpp:455-589", "src/particles.cpp:1025-1373", "src/bunch.cpp:87-190", "src/eField.cpp:95-180", "src/hField.cpp:80-150", "src/current.cpp:30-135", "src/chargeDensity.cpp:20-49"]}
{"id": "C71", "title": "In double precision no run leaves the arrays", "statement": "Computed in IEEE double precision, with a pow that is accurate to 2^-40, a run with the relativistic pusher never writes outside the charge and current arrays: every live particle stays between the walls up to a rounding error, whatever the fields below 2^251 do to it, and every step ends normally or with the program's own exit(1). The forces on particles come from elements of the field arrays.", "quantifier": "all grids from 3 x 3 to 2^20 x 2^20 nodes of moderate size, time steps, particle lists, fields, beams, numbers of steps; all roundings in the order of operations of the source; all schedules of threads", "why_tests_cant": "A particle has to come within a few units in the last place of a cell border or a reflecting wall; a run has 10^12 such moves and a test sees few of them, on few grids.", "anchors": ["src/particles.cpp:172-355", "src/particles.cpp:420-760", "src/particles.cpp:1025-1373", "src/bunch.cpp:87-190", "src/eField.cpp:182-290", "src/hField.cpp:150-270", "src/loadInitParam.cpp:455-589"]}
{"id": "C72", "title": "In double precision particles stay slower than light and magnetic fields do not change their momentum", "statement": "A particle that is slower than light is never stopped by the program as faster than light (exit(1) in get_gamma), and never becomes as fast as light, as long as its momentum stays within a budget (Lorentz factor of about 10^5): one relativistic Boris push in double precision changes the momentum per mass by at most the impulse |q| dt / m |E| of the electric field plus an explicit rounding error; so in n pushes by magnetic fields alone, however strong, the momentum drifts by n rounding errors at most. A whole run whose momenta and impulses stay within the budget makes all its steps and ends with all live particles slower than light.", "quantifier": "all velocities, fields up to 2^251, charges and masses, time steps up to 2^-18 s, numbers of pushes and of steps, particle lists, grids and beams as in C71; every pow accurate to a units in the last place, a <= 8192; all schedules of threads", "why_tests_cant": "The computed speed differs from the speed by roundings; whether some particle among 10^12 pushes passes the speed of light by a unit in the last place, or slowly gains momentum from rotations, cannot be seen by trying.", "anchors": ["src/lib.cpp:45-79", "src/particles.cpp:1025-1254", "src/particles.cpp:1256-1374", "src/bunch.cpp:87-190"]}
{"id": "C73", "title": "In double precision, too, the deposited currents carry the charge that moved", "statement": "The currents that one oblique move of a particle hands to the current array, computed in IEEE 754 double precision as the program does (cells, crossing points, logarithms), satisfy the discrete continuity equation up to rounding: at every node the share of the particle's charge changes by minus the outflow, within 2^-41 (r/dr + z/dz + 4) of the charge, and all the values are finite. The move may cross no, one or two cell borders, provided that its ends and its legs keep 2^-42 of the size of the grid away from grid lines and zero length.", "quantifier": "all grids up to 2^20 x 2^20 nodes, all time steps within the Courant limit, charges of 2^-200 to 2^200, all moves with the stated clearance and at least 0.49 cells off the axis, every log accurate to two units of 2^-53, every pow", "why_tests_cant": "Each current is a difference of terms that are larger by many orders of magnitude (logarithms divided by the slope of the path); a test of some moves shows small defects for these moves, not for the ones where cancellation is worst, and the C library is free in the last bits of log.", "anchors": ["src/particles.cpp:333-474", "src/particles.cpp:476-685", "include/particles.h:169-178"]}
{"id": "C74", "title": "The deposited currents flow the way the charge moves", "statement": "For a particle that moves by less than one cell, every increment of j_r has the sign of charge times radial displacement and every increment of j_z the sign of charge times axial displacement; along a direction in which the particle does not move, nothing is added. Hence a species whose charges all move one way lowers the current of that direction at no node. (In exact arithmetic this holds for all moves but purely radial ones over a cell border; in double precision it fails for moves nearly along the axis.)", "quantifier": "all grids, charges, time steps, all moves of less than a cell at least half a cell off the axis, over no, one or two borders, short legs and node crossings included; all particle lists", "why_tests_cant": "Each increment is a difference of large terms (polynomials of the radius, quotients and logarithms divided by the slope of the path) whose sign follows only from the monotonicity of a primitive along the path; no finite set of moves covers the ways a path can lie in its cells, and the balance of charge, which tests can check, does not see a circulating current.", "anchors": ["src/particles.cpp:333-474", "src/particles.cpp:476-685", "src/particles.cpp:786-988"]}
{"id": "C75", "title": "Charge deposition in double precision", "statement": "In IEEE double precision, every value that charge_weighting hands to the density array for a particle on the grid is finite; at half a cell or more from the axis the charge put into each node (density times ring volume) is the charge of the particle times the exact share of its cloud in the ring of the node, up to 2^-46 (r/dr + z/dz + 4) of the charge; at any distance from the axis the charges of all nodes add up to the charge of the particle, up to 2^-44 (r/dr + z/dz + 4) of it; and the densities the program computes before and after a move differ by what the currents it computes for that move carry, up to rounding. The same for the whole array at the end of an iteration, the roundings of all additions included: whatever it held before, after reset_charge and the deposition of n living particles each element is finite and holds the charge that the clouds have in its ring, up to 2^-46 (r/dr + z/dz + 4) + 2^-48 n of each charge.", "quantifier": "all grids of up to 2^20 x 2^20 nodes with cells between 2^-30 and 2^10 m, all finite charges between 2^-200 and 2^200 in absolute value, all finite positions on the grid (also on grid lines and within rounding of them); any number n <= 2^40 of particles in any number of bunches", "why_tests_cant": "The interesting positions are those within one rounding of a grid line, where the computed cell is not the true one; there are 2^20 lines per axis and a test that compares with a tolerance does not show that the error stays proportional to the distance.", "anchors": ["src/particles.cpp:100-226", "include/geometry.h:33-47"]}
{"id": "C76", "title": "Poynting's theorem with currents and losses", "statement": "In every step of the field solver the energy of the fields (electric at the step, product of the magnetic fields half a step before and after) falls by exactly dt times the integral of sigma E^2 plus dt times the integral of J E, E being the mean of the electric fields before and after the step; so for a whole run with any currents. Without currents no passive medium ever adds energy, whatever the step length, in particular not the absorbing layers set_pml makes. Below the stability limit the root of the energy grows per step by at most dt/sqrt(2 theta eps0) times the size of the current, so bounded currents give bounded fields in any finite time. Above the limit this fails: on a grid of one cell a step of sqrt(9/8) dr/c doubles the field every step.", "quantifier": "all grids, all permittivities and conductivities for which 2 eps eps0 + sigma dt is not zero (for the bounds: eps >= 1, sigma >= 0), all currents, all fields that respect the metal walls, any number of steps", "why_tests_cant": "An energy balance seen in a run holds up to the tolerance of the diagnostics and for the fields of that run; that no conductivity profile and no current makes the scheme gain or lose energy elsewhere needs all of them.", "anchors": ["src/eField.cpp:85-170", "src/hField.cpp:93-157", "src/loadInitParam.cpp:487-528", "src/geometry.cpp:56-107"]}
{"id": "C77", "title": "The field solver is stable in double precision", "statement": "Computed in IEEE double precision, with any currents, any conducting medium and any number of steps below the stability limit, the fields never overflow and the walls stay at zero as long as an explicit budget stays below 2^300: the root of the field energy stays within (root of the initial energy + dt/sqrt(2 theta eps0) times the sum of the sizes of the currents + n 2^-300) times (1 + 2^-43 K/theta)^n, where theta is the margin of the step below the limit and K bounds eps + sigma dt / (2 eps0). Every component is bounded accordingly. Without currents the root of the energy grows over n steps by at most the fraction n K/theta 2^-42. That it does not grow at all, as without rounding, is false.", "quantifier": "all grids of 2 to 2^20 nodes each way with cells between 2^-30 and 2^10 m, all steps between 2^-80 and 1 s with a margin theta >= 2^-10 below the limit, all media with 1 <= eps <= 2^20 and 0 <= sigma <= 2^40, all finite fields that respect the walls, all finite currents, any number of steps", "why_tests_cant": "Instabilities fed by rounding show up after millions of steps or only for particular fields; a run that stayed finite says nothing about the next one. The bound covers every rounding of every update.", "anchors": ["src/eField.cpp:85-170", "src/hField.cpp:93-157", "src/loadInitParam.cpp:487-528"]}
{"id": "C78", "title": "The currents of a move are numbers", "statement": "The currents that the move of a particle inside the tube hands to the grid are numbers, and so the fields stay numbers. In double precision this is false: on the stock grid with the stock step there is a start one double behind a cell border from which a short step forward and inward hands NaN to the radial current, because the number of the cell is computed by a rounded division while the direction of the crossing is decided by a comparison with the border. A NaN in a free element of the radial electric field never disappears: the field is not a number at the end of every continuation of the run. Every iteration in which a live particle makes such a move ends with such a field. The rounding of the cell number is the only obstacle for short moves: if the ends of a move of at most 1/32 of a cell lie in the cells that the program computes for them, every current is a number and at most 8 times the charge divided by the step and the smallest face of a cell. On a grid whose cell sizes are powers of two this holds for every short move.", "quantifier": "all charges, all pow functions, all log functions that return NaN for negative arguments, for the refutation; all configurations, states and run lengths for the persistence; all grids of the supported sizes, all charges and all short moves along an axis, oblique, over a border or over a corner, and all accurate log functions for the bound", "why_tests_cant": "Sixteen of the 2046 borders of the stock grid are affected, each only for particles that start within one double of them; a test does not hit them, a run of 10^6 particles over 10^5 steps does.", "anchors": ["src/particles.cpp:333-474", "src/particles.cpp:476-572", "src/eField.cpp:101-168", "src/particles.cpp:573-685", "src/particles.cpp:786-988"]}
{"id": "C79", "title": "Particles and fields together stay bounded in double precision", "statement": "Particles make currents, currents make fields and fields push particles. In double precision this feedback does not run away for any number of steps that the charge in the tube allows: if cell numbers agree with the cell borders, a step is a fortieth of a cell at the speed of light, the field step keeps its margin below the stability limit, the starting fields are moderate and the number of steps times the charge of all particles stays below 2^30 coulomb, then no step of the main loop does anything undefined, every element of every field and current array is a number bounded by 2^251 after each step, and every live particle stays inside the tube, until the run ends or stops because a particle is too fast for the pusher. Nothing is assumed of the fields after the start.", "quantifier": "all grids of the supported sizes with consistent borders, all media, starting states with all particles inside, beams with the reproducible generator, all charges and masses, all numbers of steps, every pow function and log function of the accuracy that C72 and C73 ask for", "why_tests_cant": "The statement is about every run: any number of particles and steps, any starting fields. A test run follows one trajectory of the coupled system; that no trajectory reaches an infinity or NaN through the feedback of currents, fields and speeds needs an invariant that bounds the energy and the currents together.", "anchors": ["src/loadInitParam.cpp:455-530", "src/particles.cpp:333-988", "src/eField.cpp:101-168", "src/hField.cpp:93-157", "src/particles.cpp:1025-1373", "src/bunch.cpp:1-120"]}
{"id": "C80", "title": "Both Gauss laws hold in double precision up to rounding", "statement": "In double precision the net magnetic flux out of every ring of the grid, and the residual of Gauss's law (flux of the electric displacement minus charge) at every node off the walls, drift per step by no more than a few dozen units of 2^-53 of the natural scale (surface times the largest fields), plus what the currents fail to balance the charge; so over n steps the two laws stay satisfied up to n times that. No field bound need be assumed when the currents are finite and the energy budget is moderate.", "quantifier": "all grids, media without conduction (electric law), time steps below the Courant limit, all starting fields with metal walls, all current histories, any number of steps, IEEE binary64", "why_tests_cant": "an accumulation of rounding over arbitrary histories; a test measures one run and cannot separate rounding from a wrong stencil", "anchors": ["src/hField.cpp: HField::calc_field", "src/eField.cpp: EField::calc_field", "src/loadInitParam.cpp: LoadInitParam::run (lines 487-528)"]}
{"id": "C81", "title": "Both Gauss laws survive whole runs of the main loop in double precision", "statement": "For the main loop with particles and fields together, in double precision and without a beam: as long as every move is clean (ends off the grid lines, legs not vanishingly short, clear of the axis), the electric flux out of the ring of every node below the walls minus the charge of the particle clouds in it keeps its starting value up to an explicit rounding term per step; with moves of at most 1/32 of a cell the term is (2^-41 (nr+nz+4) + 2^-37 (i+1) N) Q plus the rounding of the field update, for N particles of absolute charge Q. The magnetic flux out of every cell keeps its value up to rounding for every run, with or without a beam and whatever the moves.", "quantifier": "all configurations and states, any number of particles and groups, any number of steps, every node, IEEE binary64 with any logarithm accurate to a few units in the last place", "why_tests_cant": "charge conservation over unbounded runs with rounding in the mover, the deposition, the sums in the current arrays and the field update; a test sees one run and one node at a time", "anchors": ["src/loadInitParam.cpp: LoadInitParam::run (lines 440-560)", "src/particles.cpp: Particles::full_current_distribution", "src/particles.cpp: Particles::current_distribution", "src/current.cpp: Current::inc_j_r, inc_j_phi, inc_j_z", "src/eField.cpp: EField::calc_field", "src/hField.cpp: HField::calc_field"]}
{"id": "C82", "title": "Loading of plasma particles in double precision, and the run that starts from it", "statement": "For every species whose end densities are equal or differ by a thousandth or more: the deterministic loading ends and makes as many live particles as asked for; the random numbers are the mirrored digits of the particle number up to 2^-44 and below one; every particle is in the tube, half a cell from its borders, at the place given by the sequence (up to 2^-22 of a cell in r and, with equal densities, in z; following the linear density profile up to 2^-25 otherwise); its charge and mass are its share of the physical particles, proportional to its radius, up to (2N+64) 2^-53, and so are the sums; its velocity is a number below the speed limit of the pusher, and with an accurate pow each component is X / sqrt(1 + X^2/c^2) up to 2^-16 m/s, X being the random number times 0.74 sqrt(2 e E / m). A run of the main loop from such a plasma does nothing undefined, and fields and particles stay bounded. With densities that are nearly but not exactly equal the claim is false: particles are placed outside of the tube.", "quantifier": "all grids of at most 2^20 x 2^20 nodes, all numbers of particles below 2^31, all densities, charges, masses, energies and random numbers in the stated ranges, any number of species, IEEE binary64, any pow with an error below 2^-50", "why_tests_cant": "the bounds hold for every particle number and every density; a test loads one plasma, and the cancellation in the density gradient formula shows only for densities that a test would not choose", "anchors": ["src/particles.cpp: Particles::load_cylindrical_spatial_distribution (lines 278-331)", "src/particles.cpp: Particles::velocity_distribution (lines 228-272)", "src/math/rand.cpp: random_reverse (lines 34-53)", "src/loadInitParam.cpp: LoadInitParam::run (lines 440-560)"]}
{"id": "C83", "title": "Making of bunches in double precision, and the run with such a beam", "statement": "For every bunch that is at least one cell thick and two cells away from the last node: the constructor ends and makes as many waiting macroparticles as asked for; particle n waits on the circle given by the mirrored digits of n in base 9 stretched over radius minus one cell (up to 2^-22 of a cell), inside of the tube and a cell away from the wall; charge and mass of each are T 2 r dr / V times those of a single particle up to (2N+64) 2^-53, with T the number of physical particles asked for and V the sum of what the constructor takes for volumes; the charge of the whole bunch is f times the requested one, f between 1 and 4, and f = 1 when all are beyond the first node. Bunches made so meet all that C79 and C82 ask of a beam, so a run of the main loop with them does nothing undefined and fields and particles stay bounded. For a bunch thinner than a cell the claim is false: particles are placed at negative radii.", "quantifier": "all grids of at most 2^20 x 2^20 nodes, all numbers of macroparticles below 2^31, all radii, durations, velocities, densities, charges and masses in the stated ranges, any number of bunches, IEEE binary64, any pow with an error below 2^-50", "why_tests_cant": "the bounds hold for every number of macroparticles and every radius; a test makes one bunch, and a negative radius appears only for thin bunches and particle numbers with large mirrored digits", "anchors": ["src/bunch.cpp: Bunch::Bunch (lines 6-80)", "src/bunch.cpp: Bunch::bunch_inject (lines 87-124)", "src/math/rand.cpp: random_reverse (lines 34-53)"]}
{"id": "C84", "title": "A push in double precision is a step of the Boris scheme up to rounding", "statement": "The Boris scheme (half the electric impulse, a rotation about the magnetic field given by an implicit equation, the other half), written down independently of the code, takes each velocity to exactly one velocity. In exact arithmetic the relativistic push of the program is that scheme for every particle slower than light. In double precision the push does not stop and each component of the new velocity differs from the scheme's by at most 2048 (a + 100 g^3) 2^-53 times the momentum (plus 2^-58), g being the Lorentz factor and a the error of pow in units in the last place; without relativity by at most 10000 2^-53 times the speed plus impulse. Without relativity the error of n pushes in changing fields is at most n times about 20000 2^-53 of the largest speed: the scheme keeps distances, so errors add up and are not amplified. For relativistic pushes, compared by momentum, n pushes are off by at most n s^n boris_error, s = 1 + 2 theta b / c: the factor comes from particles of different momentum turning by different angles, and is one without magnetic field. In the main loop each live particle in place is pushed like this by the fields that the program finds at its place.", "quantifier": "all charges and masses with |q| <= 2^50 m, all time steps up to 2^-18 s, all finite fields up to 2^251 in size with a rotation of at most 84 degrees about each axis, all finite velocities below the speed of light (non-relativistic: up to 2^59), IEEE binary64, any pow with an error of at most 8192 units", "why_tests_cant": "a test compares single pushes with a reference that is itself computed in floating point; a formula that is slightly wrong in one term (for example a rotation that does not belong to the field) passes with any tolerance that hides it, and the bound must hold for every field and velocity", "anchors": ["src/particles.cpp: Particles::boris_pusher_single (lines 1025-1150)", "src/lib.cpp: lib::get_gamma, lib::get_gamma_inv (lines 45-79)", "include/constant.h: LIGHT_SPEED, MAGN_CONST, MNZL", "src/particles.cpp: Particles::step_v (lines 1296-1316)"]}
{"id": "C85", "title": "Without forces a particle moves in a straight line", "statement": "A particle on which no field acts and that touches no wall moves on a straight line at constant speed: after a step its distance from the axis, its height and its outward velocity are those of the point of the straight line through its old position. True of the height, and of radius and outward velocity if the particle does not move around the axis. False of every particle that does: the first half step turns the position back into the plane but not the velocity, so the square of the new radius lacks about half of what the sideways motion adds, and a particle that moves exactly around the axis gets a velocity towards the axis although the straight line leads away from it. It then moves towards the axis for ever, however small the steps, until it touches a wall; and the angular momentum about the axis, constant on the straight line, grows with each step of a particle that does not move towards the axis.", "quantifier": "all geometries, time steps, numbers of steps and particles of which the point tested for reflection is inside the walls, exact arithmetic", "why_tests_cant": "a test of a step that is short compared with the radius sees a difference of second order in the step, within any tolerance; that the radius is too small for each particle that goes around, and by how much, is a statement about all of them", "anchors": ["src/particles.cpp: Particles::step_v (lines 1296-1316)", "src/particles.cpp: Particles::half_step_pos_single (lines 1270-1284)", "src/particles.cpp: Particles::back_position_to_rz_single (lines 1286-1294)", "src/particles.cpp: Particles::back_velocity_to_rz_single (lines 1005-1016)", "src/particles.cpp: Particles::move_half_reflect (lines 1355-1365)", "src/particles.cpp: Particles::full_current_distribution (lines 1367-1373)"]}
{"id": "C86", "title": "No sense of rotation is preferred", "statement": "The mirror image of a run in a plane through the axis is a run: if all velocities and currents around the axis change sign, and with them the azimuthal electric field and the radial and axial magnetic field, the program ends in the same way after the same number of steps, in the mirror image of the state, and the probes write the same numbers with the sign of what they show. So a run that starts without rotation never gets any, and its probes of components that go with rotation write only zeros.", "quantifier": "all states, geometries, media, time steps, pushers, beams, probes and numbers of steps, exact arithmetic, the same random numbers in both runs", "why_tests_cant": "a test compares a few runs with their images; a wrong sign in one branch of the deposition, of a pusher or of the field update breaks the symmetry only for the motions that enter that branch", "anchors": ["src/loadInitParam.cpp: LoadInitParam::run (lines 455-589)", "src/particles.cpp: Particles::boris_pusher_single (lines 1025-1150)", "src/particles.cpp: Particles::vay_pusher_single (lines 1152-1254)", "src/particles.cpp: Particles::back_velocity_to_rz_single (lines 1005-1016)", "src/particles.cpp: Particles::azimuthal_current_distribution (lines 688-784)", "src/eField.cpp: EField::calc_field (lines 85-170)", "src/hField.cpp: HField::calc_field (lines 93-157)"]}
