# Formal model of pdp3 in Rocq — design

Subject: `cosmonaut-ok/pdp3`, the read-only checkout in `/repo` (C++ particle-in-cell
plasma code in cylindrical geometry, plus Python tools for its output).
Prover: Rocq/Coq 8.16.1. Sources: `rocq/theories`, logical root `Verif`.

Contents: [layout](#layout), [modelling decisions](#modelling-decisions), [what is modelled](#what-is-modelled),
[what is not](#what-is-not-modelled), [proof ideas](#properties-what-is-modelled-and-how-it-is-proved),
[findings](#findings), [trusted base](#trusted-base) with the [axioms of each theorem](#axioms-of-each-theorem).

## Layout

| directory | content |
|---|---|
| `theories/Lib`   | helper definitions and lemmas about the standard library's types (floor/ceil, sums over ranges, 2-d arrays as functions, permutations, interleavings) |
| `theories/Model` | the model: one Gallina definition per C++ (or Python) function, each with a comment citing file and lines |
| `theories/Spec`  | small specifications, written without using the model's helper functions |
| `theories/Proof` | lemmas and proofs |
| `theories/Props` | the property theorems: statements, non-vacuity examples (`Cxx_hypotheses_met`), `Print Assumptions` |

`properties.jsonl` lists the properties, `MANIFEST.json` says which theorems settle which property,
`seeded/LOG.jsonl` records the wrong programs that the theorems were tried against.

Names: `Cxx_…` proves (part of) property Cxx in full generality of what it says; `…_partial` has hypotheses that the property
does not have (the comment above says what is missing); `…_refuted` proves that the property, or the clause named, is
false of the model — a finding about the code.

## Modelling decisions

* **Numbers.** `double` in the numerical kernels is modelled by the real numbers `R` of the
  standard library, i.e. exact arithmetic: rounding, overflow, NaN and infinities are absent there. Where rounding *is* the
  property, the model uses IEEE binary64 from Flocq: the clock (C26, C27), the injection index (C23), the temperature (C41),
  the text form of dumped values (C29), the conversions of the tools (C65, C66). Where NaN or infinity decide a branch, the model
  has them as values (`num` in `Model/Limits.v`, `ext` in `Model/Pml.v`, `Model/Params.v`).
* **Division by zero.** `x / 0` in `R` is an unspecified number. Theorems whose code path can divide by
  zero carry the hypotheses that exclude it, or the model has an explicit outcome for it.
* **Integers.** `int` / `unsigned` values are `Z`; theorems about index arithmetic show the ranges, so
  that wrap-around cannot occur for them; where the code relies on wrap-around of `unsigned` it is modelled (`u32`).
* **Arrays** `double**` are functions `Z -> Z -> R`, with the allocated extent kept separately; array
  writes made by a deposit are modelled as the list of increments `(row, column, value)` in program order, so that
  "which elements are touched" is observable, and memory safety is "every index is within the extent".
* **Undefined behaviour and process exit** are separate outcomes (`Lib/Outcome.v`), never silently totalised.
* **Loops** are structural recursion over the iteration space in program order; OpenMP loops are modelled both serially and
  as arbitrary distributions of the iterations to threads with arbitrary interleavings of loads and stores (`Lib/Par.v`,
  `Lib/ParShared.v`, `Lib/ParProg.v`; sequentially consistent memory, which is justified where the loops are shown race free).
* **Uninitialised variables** are arbitrary inputs (`use_rel` of the adaptive pusher, `number_macro` of the checker, the counter in
  the removal of bunches, `to_bool`), or undefined behaviour if they are used as an index or pointer.
* **Random numbers** (`uniform`, `uniform2`) are arbitrary inputs within their documented range.
* **The whole program** (`Model/Sim.v`) puts the parts together: state = fields, currents, beam density, particle lists, bunch
  counter, probes and files. Its flag `strict` says whether a field read outside the arrays is undefined behaviour (true) or
  returns whatever value lies there (false).
* **Any arithmetic**: `Model/GenCode.v`, `GenRun.v`, `GenSim.v` are the kernels and the main loop once more, with the arithmetic as a
  parameter (`Model/Arith.v`), in the order of operations of the source. With real numbers they are proved equal to the definitions above
  (`Proof/GenRealP.v`, `GenSimRealP.v`); with Flocq's binary64 they are the program's own arithmetic (without `-ffast-math`).
  `GenRun.v` is the level of single loads and stores by threads, `GenSim.v` the same as functions (`Proof/GenSimP2.v`).
  `GenLoad.v` is the loading of plasma particles and the constructor of bunches in the same way (`Proof/GenLoadP.v` for the real numbers); `pow(b, -k)` is a parameter there.
* **File system**: a tree of directories and files with write permission (`Model/MkDir.v`); probe files are sequences of
  values (`Model/Dump.v`, `Model/MpFrame.v`).
* **XML**: documents are trees as tinyxml2 hands them out (`Model/Xml.v`); the parser itself is not modelled.

## What is modelled

| source | model | remarks |
|---|---|---|
| `include/constant.h` | `Constants` | |
| `src/geometry.cpp`, `include/geometry.h` | `Geometry`, `Pml` | `set_pml` in `Pml` |
| `src/particles.cpp` | `ChargeDeposit`, `CurrentDeposit`, `Pusher`, `Motion`, `Loading` | charge weighting, all current distributions, all pushers, reflection, rotation back, spatial and velocity loading |
| `src/chargeDensity.cpp`, `src/current.cpp`, `src/particlesList.cpp` | `ChargeDeposit`, `CurrentDeposit`, `Sim` | |
| `src/eField.cpp`, `src/hField.cpp`, `src/field.cpp`, `src/boundaryMaxwellConditions.cpp` | `Fields`, `Interp`, `Tridiag` | both updates, initialisation, walls, interpolation, tridiagonal solver |
| `src/poissonDirichlet.cpp`, `src/poissonNeumann.cpp` | `Poisson` | |
| `src/math/fourier.cpp` | `Fourier` | with index traces |
| `src/math/maxwellJuttner.cpp`, `src/math/rand.cpp` | `Juttner`, `JuttnerTables`, `Rand` | the tables as decimal numbers |
| `src/bunch.cpp`, `init_beam` of `src/loadInitParam.cpp` | `Bunch`, `Binary64` | |
| `src/loadInitParam.cpp` | `MainLoop`, `Dump`, `MpFrame`, `Paths`, `Limits`, `Sim` | main loop, `dump_data`, start-up |
| `src/limitationsChecker.cpp` | `Limits` | |
| `src/probePlain.cpp`, `include/probe.h` | `Dump`, `Paths`, `MpFrame`, `Text` | |
| `src/parameters.cpp`, `include/parameters.h`, `src/pdp3Time.cpp` | `Params`, `Xml`, `Pml` | `atoi`, `atof` on the texts they accept |
| `src/lib.cpp` | `Pusher` (gamma), `ToBool`, `Duration`, `MkDir`, `Smooth`, `CmdLine` | |
| `src/main.cpp` | `CmdLine` | |
| `src/particlesDensity.cpp`, `src/temperature.cpp`, `src/temperatureClassic.cpp` | `Diagnostics`, `Temperature64` | |
| `tools/lib/plain_reader.py`, `tools/lib/tinycache.py` | `Reader`, `MpFrame`, `Cache`, `Text` | |
| `tools/lib/parameters.py` | `ToolParams`, `PyPath`, `Tools` | minidom is a search in the parsed document; text of comments used as data, JSON other than literals and whole numbers are not described |
| `tools/quick_parameters_calculator.py` formulas | `Tools` | |

## What is not modelled

* Rounding errors in the numerical kernels (deposition, fields, pusher, Fourier): exact arithmetic is assumed there, except in C70 to C73, `C74_double_refuted`, C75 and C77 to C84. The default build
  uses `-ffast-math`, under which the compiler may also change the order of operations.
* Overflow of `double`, of `int` in the time index and of `atof`; the formatting of infinities.
* Memory allocation and its failure, alignment (the AVX branch of the pusher stores to memory that need not be aligned).
* The OpenMP runtime and weak memory.
* tinyxml2's parser, the C library (`sprintf`, `mkdir`, `atof` are modelled by what they are specified to do), iostream other than the
  default format of numbers, libstdc++'s extraction of a `bool` (modelled in `ToBool` from its specification).
* Printing to the terminal.
* HDF5 output (`probeHDF5.cpp`, refused at start-up: `use_hdf5` ends the program), code compiled only under `LEGACY`
  (`ioText.cpp`, `ioHDF5.cpp`), `tools/lib/h5_reader.py`, plotting scripts and notebooks, `tools/plain2hdf5.py`.
* Symbolic links, limits on the length of file names, other processes that use the same files.

## Properties: what is modelled and how it is proved

| id | model | proof idea |
|---|---|---|
| C01 | `charge_weighting` as a list of four increments, 3 branches | field algebra per branch; sum over an arbitrary grid of density × node volume |
| C02 | same | inequalities on the cell number; weights are products of non-negative factors |
| C03 | fold of increments over a particle list | increments commute; permutation induction; interleavings of per-thread lists |
| C04 | `simple_current_distribution` | node-by-node finite volume balance, field algebra with the logarithm term cancelling |
| C05 | `current_distribution` with all legs | each leg is C04 between the intersection points; node charges telescope |
| C06 | `strict_motion_weighting` | axial case proved; radial crossing: balance holds iff dr = 1 |
| C07 | `azimuthal_current_distribution` | field algebra |
| C08 | `HField::calc_field` in-place loops | closed form of the loops, then algebra per cell; induction over steps |
| C09 | `EField::calc_field` | closed form, algebra at interior and axis nodes; induction over steps |
| C10 | both | frame lemma: indices not in the iteration space are unchanged |
| C11 | loop bodies as read/write sets on cells | permutation of independent updates; small-step interleaving semantics |
| C12–C14, C40, C49 | pushers (Boris classic, relativistic, adaptive; Vay), `get_gamma`, `get_gamma_inv` | vector algebra over R (cross product identities), induction over histories of fields |
| C15, C57 | `step_v` position part, `move_half_reflect`, `reflection_single` | invariant, induction over steps with arbitrary velocities within the limit; reversal of a reflection |
| C16, C53 | index expressions of `get_field`, deposits, field loops | ceil bounds; read traces |
| C17 | `back_position_to_rz_single`, `back_velocity_to_rz_single` | speed and radius: algebra; angular momentum: refuted by a witness |
| C18 | `get_field` of both fields | linearity; exact error of a uniform field |
| C19 | `random_reverse` on naturals with digit expansion | radical inverse: induction on digits |
| C20, C21 | `load_cylindrical_spatial_distribution` | monotonicity of the inverted quadratic; telescoping of the normalisation |
| C22, C55 | `velocity_distribution`, `maxwellJuttner` | bounds per component; table search invariants; witnesses |
| C23–C25 | `bunch_inject`, `Bunch::Bunch`, `init_beam` | index arithmetic; induction over steps |
| C26, C27 | main loop, dump condition, exact and binary64 | induction on remaining steps; forward error analysis of the accumulated clock |
| C28–C30, C50–C52, C64 | probes, files, paths, reader, cache | induction over histories of dumps; list slicing; string lengths |
| C31, C32, C56 | `tridiagonal_solve`, `poisson_solve` | sweep invariants, 0 < alpha <= 1; orthogonality of sines |
| C33, C34 | `fourier.cpp` | decimation-in-time induction; orthogonality of roots of unity; index traces |
| C35, C54 | `limitationsChecker.cpp` | exact characterisation of acceptance; an accepted unstable configuration |
| C36–C39 | command line, directories, elapsed time, booleans | case analysis, induction on paths |
| C41, C42 | diagnostics | Cauchy–Schwarz / triangle inequality on lists; conservation algebra |
| C43, C44 | smoothing, absorbing layer | convexity per node; case analysis |
| C45, C58 | `parameters.cpp` on XML trees | induction over element lists; text-to-number lemmas |
| C46–C48 | field updates | discrete integration by parts (adjoint curls); dependency and polarisation invariants |
| C59–C63 | `Model/Sim.v`, complete runs | the parts' invariants combined, induction over iterations |
| C65–C67 | conversions and estimates of the tools | rounding analysis; algebra |
| C68 | both configuration readers on the same document | getElementsByTagName equals the child list when names are not reused; both number readers on texts of the decimal grammar |
| C69 | file names of both programs | meaning of a path as the place it leads to (`Spec/Place.v`); join, normpath and dirname keep it (invariant of the stack of normpath) |
| C70 | `GenRun`, threads of loads and stores over one memory | footprints of the iterations are disjoint, so steps of different threads commute; then the one-thread run is the function of `GenSim`, and with real numbers that of `Sim` |
| C71 | `GenSim` with Flocq's binary64 | forward error analysis of a push, the moves, the reflections, the rotation back and the cell numbers; invariant over the steps of a run; the clock for repeated injections |
| C72 | the push of `GenCode` with Flocq's binary64, runs of `GenSim` | relative errors of the factors of a push against the exact rotation, which keeps lengths; the inverse of momentum against speed is steep, hence the factor g^3; induction over pushes and steps |
| C73 | current_distribution of `GenCode` with Flocq's binary64 | both currents of a leg contain the same rounded logarithm, which cancels in the continuity equation: errors are linear in the terms (a reflective error analysis, `Ana64P`); crossing points to a fraction of the shortest leg; neighbouring cells agree on the shares at the computed border |
| C74 | `current_single` with all its branches; in double precision `gcurrent_single` with Flocq's binary64 | each bracket of a leg is the increase of a primitive along the path (`SignP`), whose derivative is a product of distances to the borders of the cell; legs of a path by its parameter; the double-precision counterexample by computation, its one logarithm enclosed by ln(1+e) between e - e^2/2 and e - e^2/2 + e^3/2 (`Dir64P`) |
| C75 | `gcharge_weighting_single` (the three branches of `charge_weighting`) with Flocq's binary64; with `gcurrent_single` for the last part | the computed cell is never above the true one and at most one rounding below (`cell_over`); the shares of neighbouring cells agree on their border, so a misplaced particle costs twice the misplacement (`share_r_over`, `share_z_over`); the values by the reflective error analysis of C73, with lengths and rings rescaled to their true size so that the errors add up instead of multiplying (`Charge64P`); the additions of the array by an invariant on the running sum, one relative rounding per addition and none for underflow (`Species64P`) |
| C76 | `field_step`, `calc_efield`, `calc_hfield` with `sigma` and currents; `conductivity` (`Pml.v`) for the layers | volume-weighted sums over the free components (`e_sum`, `h_sum`), the two discrete curls are adjoint (`curls_adjoint`, from the four summations by parts of C46); the balance holds for any memories that satisfy the update equations (`balance`); Cauchy-Schwarz by the discriminant; `driven_step` from the lower bound of C46. |
| C77 | `gfield_step`, `gfield_run` (`GenFields.v`: the solver's step over `GenCode.v`'s updates, generic in the arithmetic, taken at binary64) | each update of a cell is the exact one plus at most 26 units of the terms it adds (`cell_e`, `cell_h`, by the error calculus of C73); the terms are bounded by the root of the energy, volume-weighted (`ce_norm`, `ch_norm`, `e_from`, `h_from`); `perturbed_step` adds that to `driven_step` of C76; induction over steps carries finiteness and the budget (`run64`). |
| C78 | `gcurrent_single`, `gefield` (`GenCode.v`), `giteration`, `gsim_run` (`GenSim.v`) at binary64 | NaN is absorbing for `+`, `-`, `*` and survives the field update (`efield_nan`); the rest of an iteration does not write ER (`iteration_fields`); induction over iterations (`poison_stays`). The witnesses: a boolean test (`nan_test`) of the border branch evaluated by the kernel, `border_nan` turns it into a NaN argument of `inc_j_r` for every log that signals domain errors. The bound for short moves (`Spec/Short.v`): running error analysis of every current formula (`LegBound64P`, `Strict64P`), the crossings stay between the ends (`Short64P`, `ShortMove64P`), assembled in `ShortAll64P`; `ClearAxisP` shows which grids meet the condition. |
| C79 | `giteration`, `gsim_run` (`GenSim.v`) at binary64: injection, fields, pusher, both halves of the motion, azimuthal current, removal | one invariant for particles and fields together (`linv`, `Loop64P`): every particle is in its place and off the wall (`Glide64P`: a push and two moves keep it so), the currents of a step are sums of at most 2^46 short moves, each bounded by C78 (`Sum64P`, `Crowd64P`), the root of the energy grows by C77's budget per step (`loop_step`, `bound`), elements outside the solver's range rest (`Half64P`), energy bounds every element (`settled`), and bounded fields are what the next push needs; induction over steps. |
| C80 | `gfield_step`, `gfield_run` (`GenFields.v`) at binary64 | each updated component is within 26 units of 2^-53 of the exact update (`Cell64P`), the exact updates conserve flux and residual (C08, C09: `flux_update`, `gauss_update`), the components through the walls do not change (`face_still`); bounds over a run from C77 (`budget_within`) |
| C81 | `giteration`, `gsim_run` (`GenSim.v`) at binary64, no beam (electric law) | the arrays hold the rounded sums of the calls (`sums`, `full_sums`), azimuthal calls go to J_PHI only, the pusher and the half steps keep charge and life of each particle (`came`); C73 per move, an error of 2^-52 per addition (`Sum64P`), C80 per field update; induction over the steps (`gauss_sim`, `gauss_short`, `flux_sim`). For the example `fly` gives the positions after a step without the currents (`fly_ok`) |
| C82 | `grandom_reverse`, `gload_group`, `gthermal` (`GenLoad.v`) at binary64; `gsim_run` (`GenSim.v`) | the sum of digits has 31 terms at most and stays 2^-35 below one (`val_high`, `rr64`); positions by exact rounding at the scale of the tube (`Axis64P`), the gradient formula by its square, with the densities apart by a thousandth (`uneven_place`, `uneven_law`); weights by relative errors, the sum of N terms giving N units (`p_vavg`, `p_count`, `weights`); the velocities by the Lipschitz bound of X / sqrt(1 + X^2/c^2) (`speed_lip`, `thermal_near`); then C79 (`species_all`). The refutation is evaluated by the kernel (`close_checked`) |
| C83 | `gbunch_load`, `ginject_rand` (`GenLoad.v`) at binary64; `gsim_run` (`GenSim.v`) | as C82; the two volumes of the constructor differ by a factor between 1 and 4 before the first node (`vol_ring`, `bshare`), which gives the factor of the total charge (`made_total`); `fired_beam` supplies the hypotheses of C79 on the beam. The refutation is evaluated by the kernel (`thin_checked`) |
| C84 | `boris_push` (`Pusher.v`), `gboris_push` (`GenCode.v`) at binary64 | the implicit rotation solved (`turned_solves`, `turned_only`), so the scheme is a function (`boris_step_is`); relative errors of the factors and absolute errors of the sums of the rotation, whose intermediate values are bounded because the half angle is (`turned_near`); pow by `close_pow`; the last division by the Lorentz factor costs g^3 (`boris_near`, `classic_near`); two solutions of the implicit rotation keep their distance (`turn_minus`, `turn_len`), then induction over the pushes (`classic_run`); relativistic: rotations by different fields drift apart by twice the length times the difference (`turn_lip`), 1/gamma is Lipschitz with 1/c (`gamma_p_lip`), momentum against velocity with 2 g^3 (`mom_lip`), induction with C72 for the momenta (`boris_run`); in `gstep_v_one` with the bounds of C71 on the interpolated fields (`step_v_near`) |
| C85 | `move` (`Motion.v`), `boris_push` (`Pusher.v`) | without fields a step is the motion alone (`C85_no_force`); the motion without walls in closed form (`free_move`) compared with the straight line of `Spec/Straight.v`; the missing part of the square of the radius exactly (`deficit`); partial: true of the height, and of radius and outward velocity without motion around the axis; the radius of one step wrong at second order only (`C85_error_partial`), the outward velocity at first order (`line_outward_grows`), angular momentum exactly (`cos_of_sin`), motion towards the axis as an invariant of the steps (`stays_inward`); refuted for every particle with motion around the axis |
| C86 | `run` (`Sim.v`) with all it calls | mirror images (`Spec/Sense.v`); each assignment of the field update is odd or even as its target is (`fair`, `exec_image`), each pusher (`push_image`), interpolation, motion, deposition, injection and output; induction over the loop (`run_image`); a state is its own image exactly if nothing rotates |

## Findings

Each of these is a theorem about the model (`…_refuted`, or the exact characterisation named).

*Physics kernels.*
* A move exactly through a grid node deposits no current at all (C05); a radial move over a cell border balances only if dr = 1, because of
  operator precedence (C06), and may deposit current against the motion (C74).
* In double precision, the radial current of a move nearly along the axis is rounding error: a clean move of a beam particle can deposit a
  current of the wrong sign that is 20000 times as large as all the radial current of the move (C74), although the charges balance (C73).
* In double precision a positive charge exactly on a node row can make the density of the row below negative (`C75_sign_refuted`); by at most the
  rounding error of C75.
* The default pusher, Boris adaptive, branches on the uninitialised local `use_rel`; with the value false it makes superluminal particles and the
  next push ends the program (C12). The Vay pusher multiplies the magnetic field three times by its factor: no deflection in the limit (C49).
* The outer wall is tested before a particle is rotated back into the plane: particles get beyond the reflecting radius (C15), and the
  interpolation of H then reads past the array (C16); in a complete run this is reachable (C59).
* The velocity is rotated in the wrong direction when a particle returns to the plane: angular momentum is not kept (C17).
* A uniform field is not reproduced by the interpolation: wrong cell volumes (C18).
* Thermal velocities are limited per component: speeds up to sqrt(3) c (C22). The sampler reads behind its table for one random
  number, cuts the tail to T, can return NaN or -1, and its branches use different units (C55).
* A bunch near the axis carries up to four times the requested charge (C24); not all particles of a bunch are injected unless the number of
  active steps divides its size (C23); in binary64 a particle can be injected twice (C23); removing bunches reads an uninitialised
  counter (C25). Without TESTMODE the injection loop draws from one generator in all threads: results depend on the schedule (C70).
* In double precision, unless `ceil((n-2)*d / d) - 1` and the comparison with `(n-2)*d` agree (they do for the shipped configurations; not, for
  example, for a tube of one metre with eleven nodes), a particle just above the border of the last cell deposits its current outside the array (C71). A particle
  exactly where particles are reflected at the far end can feel a column of HRH that does not exist: so on the grid of the functional test (C71). A
  particle that is injected twice is so in two successive steps (C23). A particle of a Lorentz factor of 3 10^7 on which no field acts is taken as
  faster than light after eight pushes, and the program stops (C72).
* A free particle that moves around the axis does not fly straight: the first half step turns the position but not the velocity back into the plane, the
  new radius is always too small, and a particle that moves exactly around the axis is turned towards it (C85).
* Loading with a positive left boundary and equal densities leaves the domain (C20).
* The electric field starts at zero whatever the charges, and injection adds charge without field: Gauss's law has a constant
  defect (C63).

*Solvers.* The Neumann Poisson solver races and frees its buffers in every thread (C32); the cosine transform writes out of bounds for every
n >= 3 (C34); the full real transform has no inverse (C33).

*Control and output.* In binary64 the clock can stand still (C26) and the default time step makes step 6 count as step 5 (C27). A second run
appends to the files of the first (C28). The beam density probe shows a multiple of the density (C30). Six digits are kept, rows and dots
on the axis cannot be read back (C29); ranges of frames are read wrongly in some cases (C52); the cache returns old data (C51); path buffers overflow
(C50). Macroparticle frames show dead particles, the reader cuts them, and particles exactly on the axis are in none (C64).
The temperature is 0/0 in empty cells and can be negative by rounding (C41); the density arrays overflow by one on every grid and dead particles are
counted (C42). Smoothing leaves stale values in the last column (C43); the right absorbing layer exceeds its maximum and a thin outer layer is
infinite (C44).

*Configuration.* The checks never compare dz with the Debye length and depend on an uninitialised member (C35); an accepted configuration can be
unstable (C54). `--help` does not exist (C36). Directory names with double or trailing slashes fail (C37). The elapsed time text is wrong at exactly
a minute, an hour, a day, and its buffer is one byte long (C38). Unknown booleans are false, those that begin with true are
true, blank ones uninitialised (C39). Real masses and charges are cut to integers, an empty probe list ends the program, a wrong top element is
undefined behaviour (C45, C58).

*Tools.* Rows and columns are off by one in the outer half of the tube and the walls are outside of every array (C66); the printed Debye length lacks a
factor sqrt(4 pi) (C67); time stamps ignore the start of the clock (C65). A configuration without the section plot runs but cannot be looked at; in debug mode
the tools know the wrong number of macroparticles; `use_hdf5` = `1` is false for the simulation and true for the tools (C68). A relative
result_path means two directories if the simulation is not started beside its configuration file; an absolute data_root is appended by the simulation and
used alone by the tools (C69).

## Trusted base

1. The Coq 8.16.1 kernel (and `coqchk`, which re-checks the compiled files).
2. The axioms that `Print Assumptions` lists, all from Coq's standard library:
   * `ClassicalDedekindReals.sig_forall_dec`, `ClassicalDedekindReals.sig_not_dec` and
     `FunctionalExtensionality.functional_extensionality_dep` — the real numbers of the standard library;
   * `Classical_Prop.classic` — used by Flocq and by parts of the standard library's analysis.
   No axiom of our own, no `Admitted`, no kernel check switched off.
3. Libraries whose theorems are used (and checked by the kernel): the standard library, Flocq 4.1.0, Coquelicot (only in `Proof/JuttnerP.v`).
4. The faithfulness of the hand-written model to the C++/Python text: each definition cites the lines
   it follows and states its simplifications; see *What is not modelled*.
5. The reading of the specifications in `theories/Spec` and of the theorem statements in `theories/Props`.

### Axioms of each theorem

Output of `Print Assumptions`, grouped. F = `functional_extensionality_dep`, D = `sig_forall_dec`, N = `sig_not_dec`,
C = `classic`.

**no axioms (closed under the global context)**

`C02_dead_particle_changes_nothing`; `C26_phase_order`; `C27_schedule_zero`; `C28_concatenation`; `C29_dot_on_axis_refuted` `C29_row_refuted`; `C32_neumann_free_refuted`; `C33_hypotheses_met`; `C34_hypotheses_met`; `C36_cases` `C36_defined` `C36_help_refuted` `C36_order` `C36_partial`; `C37_absolute_partial` `C37_hypotheses_met` `C37_refuted` `C37_relative_partial`; `C39_blank_refuted` `C39_documented` `C39_hypotheses_met` `C39_partial` `C39_refuted`; `C45_hypotheses_met` `C45_none_refuted` `C45_partial` `C45_text_refuted` `C45_unknown_type`; `C50_hypotheses_met` `C50_probe_fits_iff_partial` `C50_refuted` `C50_short_names_partial`; `C51_mpframe_refuted` `C51_refuted` `C51_time_check_never_hits` `C51_unchanged_files_partial`; `C52_frames_partial` `C52_hypotheses_met` `C52_lines_inside_refuted` `C52_lines_partial` `C52_long_refuted` `C52_short_across_refuted`; `C68_nested_refuted` `C68_notation_refuted`; `C69_absolute_refuted` `C69_none_refuted`

**D**

`C27_hypotheses_met`; `C28_row_major`; `C42_allocation_refuted`; `C51_hypotheses_met`; `C53_initialisation_in_bounds`

**F**

`C70_function` `C70_schedule`

**F, D**

`C01_charge_conserved` `C01_hypotheses_met` `C01_node_receives_cloud_share`; `C02_hypotheses_met` `C02_local_one_signed_in_bounds`; `C03_density_is_sum_of_particles` `C03_hypotheses_met` `C03_order_independent` `C03_threads_independent` `C03_total_charge_of_list`; `C04_hypotheses_met`; `C05_hypotheses_met`; `C06_hypotheses_met`; `C07_azimuthal_only` `C07_azimuthal_per_node` `C07_azimuthal_total` `C07_hypotheses_met`; `C08_hypotheses_met`; `C09_gauss_run` `C09_gauss_unchanged` `C09_hypotheses_met`; `C10_hypotheses_met` `C10_walls_unchanged` `C10_walls_zero_from_start`; `C11_efield_schedule_independent` `C11_hfield_schedule_independent` `C11_hypotheses_met` `C11_init_schedule_independent` `C11_no_data_race`; `C12_hypotheses_met`; `C13_hypotheses_met`; `C14_hypotheses_met`; `C15_hypotheses_met` `C15_relativistic_hypotheses_met`; `C16_hypotheses_met` `C16_interpolation_in_bounds_partial`; `C17_hypotheses_met`; `C18_hypotheses_met` `C18_linear` `C18_monotone` `C18_uniform_error_partial` `C18_uniform_refuted` `C18_zero`; `C19_base_one_diverges` `C19_distinct` `C19_equidistributed` `C19_fuel_irrelevant` `C19_hypotheses_met` `C19_mirrored_digits` `C19_terminates`; `C20_hypotheses_met`; `C21_hypotheses_met`; `C22_hypotheses_met`; `C23_all_injected_iff` `C23_all_injected_refuted` `C23_count` `C23_distinct_in_range` `C23_fewer_particles_than_steps` `C23_hypotheses_met` `C23_late_start_skips` `C23_window` `C23_zero_duration_undefined`; `C24_charge_to_mass` `C24_hypotheses_met` `C24_inside_radius` `C24_refuted` `C24_total_charge_partial`; `C25_defined_before_exit` `C25_erase_refuted` `C25_hypotheses_met` `C25_never_early` `C25_on_time` `C25_order_and_number`; `C26_hypotheses_met` `C26_not_earlier` `C26_number_of_steps`; `C27_binary64_hypotheses_met` `C27_exact_run` `C27_exact_step`; `C28_files` `C28_hypotheses_met` `C28_run_succeeds` `C28_second_run_refuted`; `C29_hypotheses_met`; `C30_multiple_partial` `C30_refuted`; `C31_dominant` `C31_hypotheses_met` `C31_solves` `C31_unique` `C31_zero_pivot`; `C32_hypotheses_met`; `C40_hypotheses_met`; `C42_count_partial` `C42_dead_refuted` `C42_electrons_partial` `C42_hypotheses_met` `C42_ions_refuted` `C42_waiting_bunch_refuted`; `C43_bicubic_border_refuted` `C43_bicubic_identity` `C43_constant_partial` `C43_deterministic` `C43_hypotheses_met` `C43_last_column_refuted` `C43_partial`; `C44_bounds_partial` `C44_hypotheses_met` `C44_infinite_refuted` `C44_left_layer` `C44_maximum_refuted` `C44_outer_layer_refuted` `C44_outside`; `C46_energy_bounded` `C46_energy_conserved` `C46_hypotheses_met`; `C47_causality` `C47_hypotheses_met`; `C48_hypotheses_met` `C48_te_independent` `C48_tm_independent` `C48_zero_stays_zero`; `C49_hypotheses_met`; `C53_field_updates_in_bounds` `C53_hypotheses_met` `C53_reads_initialised`; `C56_hypotheses_met`; `C58_notation_refuted`; `C59_hypotheses_met`; `C60_begins`; `C62_hypotheses_met`; `C64_axis_refuted` `C64_hypotheses_met`; `C65_end_frame` `C65_hypotheses_met` `C65_late_start_met` `C65_late_start_refuted` `C65_round_trip` `C65_time_of_frame`; `C66_column_of_node_partial` `C66_hypotheses_met` `C66_radius_error` `C66_round_trip` `C66_row_of_node_partial` `C66_wall_refuted`; `C67_hypotheses_met` `C67_passage_time`; `C74_hypotheses_met`; `C76_absorbing` `C76_hypotheses_met` `C76_layers` `C76_poynting` `C76_run`; `C85_no_force_hypotheses_met`; `C86_hypotheses_met` `C86_no_rotation_hypotheses_met` `C86_own_image`

**F, D, N**

`C08_divH_run` `C08_divH_unchanged` `C08_divH_zero_from_start`; `C12_adaptive_fast_partial` `C12_adaptive_refuted` `C12_subluminal` `C12_subluminal_run`; `C13_magnetic_no_work` `C13_no_fields_no_change` `C13_with_rounding`; `C14_electric_classic` `C14_electric_relativistic` `C14_lorentz_midpoint_classic` `C14_lorentz_midpoint_relativistic` `C14_opposite_push_restores`; `C15_leaves_grid_refuted` `C15_refuted` `C15_relativistic_particle_partial` `C15_stays_in_domain_partial`; `C16_interpolation_refuted`; `C17_angular_momentum_changed` `C17_angular_momentum_refuted` `C17_radius_and_speed_partial`; `C20_left_boundary` `C20_left_boundary_equal_densities_refuted` `C20_loaded_inside`; `C21_charge_by_radius` `C21_charge_to_mass` `C21_total_charge`; `C22_below_sqrt3_partial` `C22_moderate_energy_partial` `C22_refuted`; `C32_all_harmonics` `C32_dirichlet_sweep` `C32_neumann_parallel_refuted` `C32_neumann_sweep`; `C33_order`; `C34_cosine_refuted` `C34_fourier` `C34_solvers_refuted`; `C35_exactly_partial` `C35_grid_refuted` `C35_hypotheses_met` `C35_negative_density_refuted` `C35_no_electrons` `C35_time_step` `C35_uninitialised_refuted`; `C40_gamma` `C40_round_trip` `C40_round_trip_momentum`; `C41_counting_partial` `C41_empty_refuted` `C41_hypotheses_met` `C41_spread_refuted` `C41_weighted_partial`; `C49_vay_electric` `C49_vay_magnetic_refuted` `C49_vay_perpendicular_no_work`; `C54_refuted`; `C57_axial` `C57_hypotheses_met` `C57_radial`; `C67_debye_partial` `C67_plasma_frequency`; `C76_driven` `C76_limit_refuted`; `C84_exact` `C84_scheme`; `C85_error_partial` `C85_hypotheses_met` `C85_inward_refuted` `C85_inward_run_hypotheses_met` `C85_inward_run_refuted` `C85_meridional_partial` `C85_no_force` `C85_run_hypotheses_met` `C85_run_partial` `C85_short_refuted` `C85_slow_refuted` `C85_spin_refuted`; `C86_push`

**F, D, N, C**

`C04_in_cell_continuity`; `C05_border_crossing_continuity_partial` `C05_corner_crossing_refuted` `C05_particle_list_continuity_partial` `C05_short_leg_refuted`; `C06_axial_continuity` `C06_radial_crossing_refuted` `C06_radial_in_cell_continuity_partial`; `C09_gauss_with_particles_partial`; `C16_deposits_in_bounds`; `C23_binary64_hypotheses_met` `C23_binary64_injects` `C23_binary64_injects_hypotheses_met` `C23_binary64_refuted` `C23_binary64_successive`; `C26_binary64_one_more` `C26_binary64_partial` `C26_binary64_refuted`; `C27_binary64_index_partial` `C27_binary64_refuted` `C27_binary64_short_step_partial`; `C29_column_partial` `C29_dot_partial` `C29_frame_partial` `C29_refuted` `C29_text_partial`; `C33_dft` `C33_dft_code_pi` `C33_full_inverse_refuted` `C33_sine` `C33_sine_roundtrip` `C33_sine_roundtrip_code_pi`; `C34_sine`; `C38_boundary_refuted` `C38_buffer_refuted` `C38_hypotheses_met` `C38_partial`; `C41_rounding_refuted`; `C55_cold_partial` `C55_hot_partial` `C55_hypotheses_met` `C55_monotone_partial` `C55_nan_refuted` `C55_overrun_refuted` `C55_tail_refuted` `C55_units_refuted`; `C56_poisson`; `C58_empty_refuted` `C58_hypotheses_met` `C58_mass_refuted` `C58_partial` `C58_root_refuted` `C58_unreadable`; `C59_refuted` `C59_safe_partial` `C59_strict_partial`; `C60_hypotheses_met` `C60_no_magnetic_sources` `C60_walls`; `C61_absorbed_for_good` `C61_hypotheses_met` `C61_particles_kept` `C61_species_kept`; `C62_beam_charge_partial` `C62_beam_density_partial`; `C63_cold_matter` `C63_gauss_kept_partial` `C63_hypotheses_met` `C63_refuted`; `C64_dead_refuted` `C64_frames_partial` `C64_phi_refuted` `C64_truncated_refuted`; `C65_round_trip_binary64`; `C66_round_trip_binary64`; `C67_debye_refuted`; `C68_hypotheses_met` `C68_macro_refuted` `C68_partial` `C68_plot_hypotheses_met` `C68_plot_refuted` `C68_sample`; `C69_directory_refuted` `C69_hypotheses_met` `C69_partial`; `C70_differ` `C70_execution` `C70_first` `C70_hypotheses_met` `C70_hypotheses_met_double` `C70_pieces` `C70_reverse_ends` `C70_safe` `C70_second` `C70_second_ends` `C70_simulation` `C70_uniform_refuted`; `C71_border_refuted` `C71_example_run` `C71_hypotheses_met` `C71_reads_refuted` `C71_run_partial` `C71_threads_partial`; `C72_free_refuted` `C72_hypotheses_met` `C72_magnetic` `C72_push` `C72_push_hypotheses_met` `C72_pushes` `C72_run` `C72_threads`; `C73_current` `C73_hypotheses_met`; `C74_direction` `C74_double_refuted` `C74_radial_refuted` `C74_species`; `C75_continuity` `C75_hypotheses_met` `C75_node` `C75_sign_refuted` `C75_species` `C75_species_hypotheses_met` `C75_total`; `C77_bounded` `C77_conservation_refuted` `C77_hypotheses_met` `C77_quiet` `C77_stable`; `C78_clear_grid` `C78_enters` `C78_finite_refuted` `C78_hypotheses_met` `C78_placed_refuted` `C78_power_of_two` `C78_run_refuted` `C78_short` `C78_short_hypotheses_met` `C78_stays`; `C79_calm` `C79_hypotheses_met` `C79_long_hypotheses_met` `C79_run` `C79_threads`; `C80_exact_refuted` `C80_flux` `C80_gauss` `C80_hypotheses_met` `C80_within`; `C81_flux` `C81_gauss` `C81_hypotheses_met` `C81_short`; `C82_close_densities_refuted` `C82_hypotheses_met` `C82_loaded` `C82_places` `C82_random` `C82_run` `C82_velocities` `C82_weights`; `C83_beam` `C83_hypotheses_met` `C83_made` `C83_places` `C83_run` `C83_thin_refuted` `C83_weights`; `C84_classic` `C84_classic_run` `C84_hypotheses_met` `C84_push` `C84_run` `C84_run_hypotheses_met` `C84_step` `C84_step_hypotheses_met`; `C86_no_rotation` `C86_run`
