# Formal model of tveness/spinchain in Rocq

This file says what is modelled, how each property of `properties.jsonl` is proved,
and what has to be trusted. `MANIFEST.json` maps every property to theorem names.

## 1. Shape of the model

* **Numbers.** Every function of the program that computes with `f64` is written once,
  over an abstract record of operations `NumOps` (`theories/Num.v`): `+ - * /`, unary minus,
  `abs`, `sqrt`, `<`, `cos sin atan acos exp ln tanh`, decimal literals, integer conversions,
  rounding, `is_finite`. The order of operations is the order of the Rust source.
  Three instances are used:
  * `RNum`: real numbers, total (Coq's `x/0`, `sqrt (-1)` …). Only a proof device; no property
    theorem is stated about it alone.
  * `ERNum`: `option R`, *exact reals with NaN*: division by zero, `sqrt` of a negative,
    `acos` outside [-1,1], `ln` of a non-positive number give `None`, `None` is contagious and
    every comparison with it is false. This is the "exact arithmetic" of the property texts.
  * `F64 libm`: IEEE-754 binary64, round to nearest even, by the standard library's
    `SpecFloat` (no axioms, computes). Transcendental functions come from a record `libm`
    that theorems quantify over (only what a theorem assumes about it is used: `sane` in C62, `accurate`
    in C86, C87, C90 to C92, C94 to C97, C99 and C100, written out in the statements: `accurate`, and for C90 to C92, C94 to C97, C99 and C100 `proper`, which adds that NaN
    gives NaN and where acos and atan give numbers).
  Theorems proved for every `NumOps` hold for binary64 bit by bit.
* **Panics** are values (`res` in `theories/Monad.v`: `Ok`, `Panic reason`, `OutOfFuel`).
  Indexing, slicing, `unwrap`, integer overflow (debug profile), empty `gen_range` are explicit.
  Unbounded loops take fuel, theorems exclude or exploit `OutOfFuel` explicitly.
* **Randomness** is a tape of draws that theorems quantify over: `gen_range(0..n)` is any index
  below n, `gen::<f64>()` any number (theorems that need it assume it in [0,1)),
  `Normal(m,s)` is `m + s*z` for an arbitrary `z`.
* **Threads, channels, files, config.toml, command line** are modelled as small
  transition systems / functions on an explicit state (`Runs.v`, `Writers.v`, `Config.v`, `Main.v`);
  schedules are quantified over.

## 2. Trusted base

* The Coq 8.16.1 kernel (`coqc`; the virtual machine, `vm_compute`, is used for closed binary64
  computations), re-checked by `coqchk`.
* Axioms. Only axioms of the standard library occur, and only these four:
  `ClassicalDedekindReals.sig_forall_dec`, `ClassicalDedekindReals.sig_not_dec`,
  `FunctionalExtensionality.functional_extensionality_dep`, `Classical_Prop.classic`.
  The first three come with `Reals`; `classic` enters through Flocq's proved lemmas and a few
  lemmas of the real library. Section 6 lists what `Print Assumptions` says for each theorem.
* Flocq is used for its proved rounding lemmas only (C62). It adds no axioms. No other library
  outside the standard library is used.
* That the Gallina definitions transcribe the Rust text they cite (each definition names file
  and lines and lists its simplifications), and the meaning of the Rust primitives as written in
  `Monad.v` (indexing, slices, overflow checks of the debug profile), `Num.v`/`NumF64.v` (f64
  operations; `as` casts saturate), `Files.v` (create, append, write) and `Toml.v` (serde/toml at the
  level of key-value lines).
* The rules of the `clap` crate (4.5.16) for long and short options, joined values, values with a hyphen, repeated
  options, help and version, as written in `Cli.v` (used by C82 only; all other theorems start from the record `Args`).
* Oracles that theorems quantify over, so nothing about them is trusted: the random draws (site,
  uniforms, normal variates), `libm` (cos, sin, ... of binary64), the order in which messages arrive in
  a channel, how much of its queue `write_in_bg` gets onto the disk, the text of an f64 in a file name, the reading of numbers on the command line,
  the FFT (for binary64 an arbitrary function; for exact reals the discrete Fourier transform).
* C78 to C81 speak of expected values. Independent uniform draws are defined there as the limit of means over
  grids of equally spaced numbers (SpecMean); that the `rand` crate delivers such draws is not modelled.

## 3. Properties (plan)

See the table in `MANIFEST.json` for theorem names. Plan per property:

| property | modelled as | proof |
|---|---|---|
| C01 | `Spin.v` constructors at ERNum | sum of squares algebra; sqrt lemmas; list induction for longer inputs |
| C02-C04 | `rotate` at ERNum | Rodrigues formula = spec; Coquelicot-style derivative from stdlib `derivable_pt_lim`; nsatz/ring with cos²+sin²=1 |
| C05 | `rotate` at F64 libm | case analysis of SpecFloat operations on NaN/zero |
| C06,C07,C08 | `gs`, `rot_perp`, `theta`, `phi` at ERNum, F64 for corner case | algebra, atan/acos lemmas |
| C09 | `spin_eq` | direct |
| C10-C12 | `new` with tape | induction over sites |
| C13-C17 | energies at ERNum vs. an independent Hamiltonian on functions nat->vectors | fold = sum lemmas, re-indexing |
| C18,C19 | `h_ext`,`h_extp` | trig, derivative |
| C20-C27 | `update` | sublattice rotation lemma: simultaneous rotation about own local field conserves energy; involution; derivative; locality by dependency |
| C28-C36 | samplers | local energy difference = global difference; F64 NaN propagation; closed-loop witnesses computed |
| C37-C39 | Langevin chain | as above |
| C40-C41 | bisection with oracle | interval width invariant; F64 by exhaustive computation over all decisions |
| C42 | `solve_beta` with fuel | contraction |
| C43-C46 | partition, channels | arithmetic, multiset/permutation induction, schedules |
| C47-C48 | `average`, `two_point_average` on parsed lines | fold lemmas |
| C49-C50 | time loop | Archimedean; vm_compute for F64 |
| C51-C52, C54-C55 | file-system histories | invariants over histories |
| C53 | TOML table level | record case analysis (byte-level TOML lexing is not modelled) |
| C56-C57 | `main` dispatch as a trace of actions | case analysis |
| C58 | trajectory loop | counting |
| C59 | `energy_spectrum` with FFT as oracle (and concrete DFT) | index arithmetic, Parseval |
| C60 | all chain operations, any NumOps | totality lemmas |
| C61 | `boundary_term` | algebra |
| C62 | `rotate` at F64 via Flocq's proved rounding lemmas | error analysis |
| C63 | `program` with all modes | composition of the totality lemmas |
| C64 | `chain_log`, `mc_line`, `hist_line`, `lchain_log` | evaluation over the finite reals |
| C65 | `snapshot`, `log_ext` | evaluation; re-indexing of the ring sum |
| C66 | `update_no_field`, `response_worker` | reduction to `update`; loop lemma |
| C67 | `energy_at`, `obs_of` | accumulating loop = sum over a path; acceptance rules of the samplers |
| C68 | `tau_worker`, `run_tau` | loop lemma; ceiling arithmetic |
| C69 | `gen_hist`, `gen_hist_magnus` | inversion of the loops into one path; C21 for the energy |
| C70 | `gen_hist_dynamics`, `gen_single_traj` | loop lemma; multiples in an interval |
| C71 | `metropolis_update_mag_full`, `metropolis_update_magnus`, `metropolis_update_maglab` | ring sums changed at three sites, `field`; limits by polynomial bounds |
| C72 | `update` | uniform Taylor expansions (mean value theorem) of the three stages and of the exact motion, coefficient comparison; Lipschitz stability; discrete Gronwall |
| C73 | `SpinChainLangevin::update` | one-sided Lipschitz stages against a Lipschitz field, discrete Gronwall; closed-form runs on two solvable chains |
| C74 | `SpinChain::update`, `SpinChainLangevin::update` | rotation paths with steps 1, 1/2, 1/4, ... form a Cauchy sequence; their limit has the required velocity; uniqueness by the first-order bound |
| C75 | `h_extp`, `total_energy2`, `m_tot`, fields set by the fit modes | derivative of the ring energy; change of frame; C72 and Lipschitz energy |
| C76 | `main`, the fit modes | invariant of the mode sequence on the result files; C40, C67 for the values |
| C77 | `run_mc`, `run_mc_magnus`, `run_mc_profile` | path of the sampler (C71, C67), columns (C64), writers (C44) |
| C78 | the three samplers | detailed balance on grids of directions with an error O(1/N) from the grid of the deciding number; Riemann sums of uniformly continuous functions converge |
| C79 | the three samplers | n steps have a part independent of the start (Doeblin); contraction of the oscillation |
| C80 | means over sampled states, `get_obs*` | covariances decay at the rate of C79; Chebyshev; `expected` as a mean over all move sequences, C67 for the reported numbers |
| C81 | `SpinChain::new` with all its uniform draws on grids | symmetry of the even grid about the rotation direction, Riemann sums for the rotation angle, induction along the chain |
| C82 | command lines: `Args::parse()` and `main` | a grammar of words, letters and values read independently of the parser; induction on words and derivations, the record field by field |
| C83 | `find_beta*` on the Boltzmann averages | averages on grids as functions of b (convexity by pairs of states), limits; intermediate values; invariants of the brackets (`asked`); states of every average density reached by moves always accepted |
| C84 | `find_beta*` over all moves | union bound along the path of the bisection (each estimate has its own moves), C80 for single estimates |
| C85 | `run_langevin`, `run_ext` | paths of states and the time loop lemmas of C49; vm_compute for F64 |
| C86 | `rotate`, `rotate_odd`, `rotate_even`, `h_ext`, `update` over F64 beside R | error of each operation (Flocq), Lipschitz bound of a rotation in spin and field, a discrete Gronwall sum; pi by an arctangent series; C72 for the motion |
| C87 | `rotate`, `rotate_odd`, `rotate_even`, `update`, `total_energy2` over F64 | case split on fields that underflow, overflow or cancel; exact turns keep the energy (C21), each rounding moves it by a bounded amount; a NaN spin stays NaN |
| C88 | `main` with one of --histogram, --magnus-hist, -d, -s, -n, -l | the other branches of `main` drop out; C68, C69, C70 for the mode itself |
| C89 | several invocations of `main` in one directory, then -a or -w | a session is a sequence of completed invocations on one directory; C51, C85 for the logs, C47, C48 for the averages |
| C90 | `chain_new`, the five samplers, `update` over F64 | sizes of the intermediate numbers and the normalising division of `new_xyz` and `rotate`; NaN followed through `ln`, `acos`, `rot_perp`; moves change one spin or none; C87's case split with spins that are only roughly units |
| C91 | `lchain_new`, `lmetropolis_update`, `lmetropolis_update_magnus`, `lupdate` over F64 | as C90; sizes of the damping and noise terms of `end_omega`; `lupdate_pure` site by site; division by zero gives no finite standard deviation |
| C92 | `chain_log`, `sim_worker`, `run_sim` over F64 | C90 at every step; partial sums bounded by multiples of 2^-16 with fewer than 53 bits, which rounding cannot exceed; NaN runs through the energy of the ring; `run_frame_wrote` |
| C93 | `sim_worker`, `profile_worker`, `run_sim`, `run_ext`, `run_dyn_profile`, `trajectory_mean_e`, any numbers | inversion of `iterMi` and `time_loop` into sequences of states; `update` and the moves keep the configuration; `run_frame_wrote`; names of profiles differ from those of logs |
| C94 | `lchain_log`, `langevin_worker`, `run_langevin` over F64 | C91 at every step; the bounds of C92 for the open chain; NaN runs through its energy from either end of a bond; lost spins stay lost, so the three kinds of lines come in order |
| C95 | `mc_line`, `mc_worker`, `run_mc`, `run_mc_magnus` over F64 | `samples_made` of C90: no move loses or repairs a spin; the bounds of C92 for the ring of the subsystem; `frame_value` of C77 |
| C96 | `average`, `run_average` over F64 | sums of bounded numbers of which the bound is itself a binary64 number stay below the multiple of it, and the quotient by the exact count below the bound; NaN + x = NaN; the files found are the logs of C92 (`glob_logs` of C89) |
| C97 | `sim_worker`, `response_worker`, `langevin_worker`, `time_loop`, `due`, the logs, over any numbers; `run_average` over F64 | neither moves nor steps change the configuration of a chain, a step adds dt to its time, a logged line starts with the time; then logs of equal length in C96 |
| C98 | `run_two_point` after `run_sim`, over any numbers and over F64 | no row of a log after the first is taken for the t = 0 line, so its data stay empty; rounding is monotone, so adding a positive step to a number not below it does not go below it, and infinities and NaN are not within 1e-5 of 0 |
| C99 | `run_two_point` after `run_sim`, over F64 | the lines of two-point.dat are those of avg.dat for the products of the rows with the row at time 0 (`paired_average`), whose columns are bounded by products of bounds that are binary64 numbers; then as in C96 and C97 |
| C100 | `run_average` after `run_langevin`, over F64 | the files found are the logs of C94, whose lines after the header are of one length (C97); columns bounded as in C96, and a line with NaN energies is followed by none without |

## 4. What is modelled and what is not

Modelled, function by function: all of `spin.rs`, `spinchain.rs`, `spinchain_langevin.rs`, `writers.rs`,
`obs.rs` and `config.rs`, `main` (`main.rs:139-470`) and the option table with clap's parsing of it
(`main.rs:33-127`, `Cli.v`).
Not modelled:

* unit tests, `build.rs`, `lib.rs`, `macros.rs` (dead code), progress bars, `println!`, `pbc_index_*`
  (unused helpers), the text of `print_config_description` (it prints an empty line);
* the texts of clap's messages, and rules of clap that the option table of the program cannot reach;
* byte-level TOML syntax, float formatting and parsing: files are lists of lines of numbers and words,
  config.toml is a list of key-value lines;
* the FFT algorithm, the RNG algorithm and its statistical quality, libm internals;
* wall-clock time, memory exhaustion, I/O errors other than a missing config.toml;
* after a panic in a worker thread the model stops; the program's other threads may still write.

## 5. Findings about the program

Behaviour of the program that the theorems establish and a user may not expect.

Dynamics and energies
* A vanishing local field turns a spin into NaN instead of leaving it alone (C05), and NaN spins and
  their neighbours are never changed again by Monte Carlo (C36).
* Odd `hsize`: the last spin is frozen, the others form a ring without it; energy is not conserved (C27).
* `drive = staticfield` applies `hs` twice (C19).
* `system_energy` leaves out the field on the last site of the subsystem and is NaN for `ssize = 1` (C15).
* `mc_system_energy` has a bond ssize-1 -> 0 that does not exist when `ssize < hsize` (C14).
* `jvar`, `hvar` are standard deviations, not variances (C11). `beta = 0` gives NaN spins (C12).
* The azimuth of a spin along +y is 3pi/2 (C08).
* The Langevin chain evaluates the drive at t+dt (C37), thermalises without fields and as a closed chain
  (C39), and its damping raises the energy when the step is too long (C38). Because of the drive at t+dt, and
  because the damping field is taken at the beginning of each rotation, its step is accurate to first order
  only, where the plain chain has second order (C72, C73).
* The fit modes overwrite `hfield` and `hs` with (0,0,-2 pi/tau) and (1,0,0). These are the exact rotating-frame
  fields only of a chain whose own static fields are zero and whose couplings are equal in x and y (C75): a static
  field along z given in the configuration acts on the dynamics but is dropped from the sampled ensemble, and with
  `jvar` > 0 (the default configuration has 0.001) the argument does not apply.
* --fit, --fit-effective and --high-freq append to one file betat.dat, with equal columns and no mark of the mode; the
  energies in their lines are different functions (C76, C67). beta.dat gets lines of 3 (--adiab_full) and of 8 numbers
  (--adiabatic).
* In binary64 the default time loop makes one step more than T/dt for T=100, dt=0.1, some loops never end
  (C49), and the default strobing logs at irregular steps (C50).
* Strobing rounds tau/dt down in all modes but `--langevin`: with tau = 0.3 and dt = 0.1 a period is taken to have
  two steps, so the lines are not at whole periods (C85). `--langevin` rounds to the nearest whole number.
* The header of the Langevin logs names six columns; the lines have eight (C85).
* The runs at several periods end up to 0.1 after the last period when the period is 10 or more (C68).
* `energy_spectrum` loses a mode for odd lengths (C59).

Monte Carlo
* The energies reported with the Magnus samplers over-count the corrections (C32, C33); two of the samplers
  (`metropolis_update_magnus`, `metropolis_update_mag_full`) do not sample any energy function at all (C34, C35;
  the second because of an index slip in lines 613 and 794).
* `metropolis_update_magnus` multiplies its first-order term by omega where the others divide, so a fast drive
  swamps the exchange energy instead of dropping out (C71).
* Apart from the index slip, `metropolis_update_mag_full` is the complete second-order expansion on the ring (C71).
* `solve_beta` never ends for e = -1 and is off by more than 0.05 near e = 0 (C42).
* The spins made by `SpinChain::new` are those of an open chain whose spin before the first one is held at
  (cos 0.01, sin 0.01, 0): there is a net magnetisation along that direction, L^(i+1) at site i, which couples to fields
  along x, and the closing bond has L^(n-1) instead of L, so the energy density misses the target by O(1/n) (C81).
* Proposals never reach the south pole (C31).
* The fits in the rotating and the lab frame sample one energy and average another; the plain fit adds the
  rotation energy omega*mz to an energy that is sampled without it (C67).
* Because of that, the energy that `find_beta` inverts need not fall with b. For uncoupled spins in a field between
  -2 pi/tau and 0 along z it rises, and a search with accurate estimates then ends at the wrong end of its bracket
  (C83). The energies of `find_beta2` and `find_betah` always fall, and have one temperature per energy (C83).
* The first line of a default log is data, but -a and -w take it for a header, so averages begin one step late; with
  trel = 0 that line is the one at time 0, and -w panics after any number of default runs (C89); in binary64 too, with the default configuration for all random numbers (C98).
* If `file` is a prefix of "avg", <file>*.dat stands for avg.dat, and a second -a averages the first average in (C89).
* An inverse temperature of 0, or one above about 709, whose exponential overflows, makes every spin of a new chain
  NaN without a message; no mode ever recovers them (C90).  The unit test at
  spinchain.rs:1999 works at beta = 1000 because it changes beta after the chain was drawn.
* At beta = 0 a Langevin run panics at its first step, where the standard deviation of the noise is not finite (C91);
  the other modes go on silently with NaN spins.
* A chain with a NaN spin counts as typical in `gen_hist` (C69).
* `gen_single_traj` takes a line every floor(tau/dt) steps, so unless tau is a multiple of dt its lines drift
  away from the ends of the periods (C70).

Command line
* `--n-steps` shows its value as TAU1,TAU2,... but refuses a list with commas; the option must be repeated (C82).
* `--help` says that -d writes hist_dyn.dat and -s hist_sj.dat; they write dyn-hist-t-<t>.dat and hist-st-t-<t>.dat (C88).
* -r, -f, -F and -H take whatever follows for their value, even another option; -E, -t, -b, -A, -D and -n refuse a negative
  number that is not joined to them, so `-E -0.5` is an error and `-E=-0.5` must be written, although -E asks for an energy
  density like the other four (C82).

Files and configuration
* `average` and `two_point_average` skip the first line of each log, which is data, not a header, except in
  Langevin logs (C47); the two-point average panics on every default log with trel = 0 (C48).
* Monte-Carlo, histogram and fit modes empty low-numbered logs of earlier runs (C51).
* `write_in_bg` can lose lines at exit (C46).
* `run_dyn_profile` hangs when a checkpoint is missed, e.g. tau = 10, dt = 0.03 (C45).
* A crash while config.toml is being rewritten can silently reset the offset to 0 (C55).
* `--ext` works on a clone, so a later saving mode of the same invocation writes over its logs; the histogram
  modes set drive and file persistently, the fits set ssize = hsize (C56, C57).
* Sizes that panic: ssize > hsize, hsize < 2 in the dynamics, ssize < 2 in logs (C60); more than 2^31 Monte-Carlo
  points on one thread (C43).

## 5b. Wrong programs tried

`seeded/LOG.jsonl` has one line per edit of the model.  `tools/mutate.py` applies a batch of edits to
different definitions in a scratch copy, rebuilds, admits every lemma whose proof breaks and reads off
`Print Assumptions` which theorems rest on such a lemma.  `failed_lemmas` are the lemmas about the edited
definition that broke, `failed` the theorems resting on them.  An edit with an empty `failed` list survived;
`tightened` then names the theorem added because of it.

## 6. Print Assumptions

`R` stands for sig_forall_dec, sig_not_dec and functional_extensionality_dep; `C` for classic; `F` for
functional_extensionality_dep alone; `-` for "Closed under the global context". Written by `tools/assumptions.py`.

* `-`: C01_xyz_short_panics, C05_nan_is_forever, C05_zero_field_nan, C08_minus_zero_azimuth, C08_plus_y_azimuth, C09_eq_refl_f64, C10_bad_field_noise_panics, C10_bad_noise_panics, C10_langevin_new, C10_new_shape, C10_short_field_panics, C10_short_hs_empty_subsystem, C16_m_panics, C20_frame, C20_frame_no_field, C25_locality, C27_odd_last_frozen, C29_frame, C29_frame_many, C29_langevin_frame, C36_frozen, C36_rejects, C37_frame, C37_panic_short, C40_ends, C43_large_refuted, C43_lines, C43_split, C43_zero, C44_f64_refuted, C46_lost, C46_prefix, C46_sent, C47_capacity, C47_total, C51_logs, C51_wipe, C52_langevin, C52_modes, C52_moment, C52_schedule, C53_accepts, C53_large_refused, C53_reads, C53_rejects, C53_round_trip, C54_created, C54_unchanged, C55_overwritten, C55_reset, C56_hist, C56_modes, C56_offsets, C56_shared, C57_early, C57_file_conf, C57_langevin, C57_late, C57_saved, C58_samples, C58_zero, C60_actions, C69_hist, C69_magnus, C69_nan, C70_dynamics, C76_lines, C82_comma, C82_every, C82_forms_both, C82_forms_joined, C82_forms_long, C82_forms_short, C82_grammar, C82_hyphens_kept, C82_hyphens_refused, C82_list, C82_modes, C82_negative_long, C82_negative_short, C82_one_reading, C82_order, C82_readme, C87_all_lost, C87_spread, C88_dynhist, C88_histogram, C88_langevin, C88_magnus, C89_again, C93_default, C93_extended, C93_mean, C93_profiles, C96_nan, C97_default, C97_langevin, C97_response, C97_same, C98_off_beat, C47_words, C48_words

* `R`: C31_south_pole_never, C59_parseval, C71_fast_first, C71_fast_lab, C71_fast_second, C75_frame, C75_frame_energy, C75_power

* `R C`: C01_angles_unit, C01_new_unit, C01_xyz_long, C01_xyz_rescale, C01_xyz_unit, C01_xyz_zero, C02_rotate_unit, C02_rotations_unit, C03_precession_is_rotate, C03_rotate_solves_precession, C04_group, C04_inverse, C04_period, C04_rescale, C04_rigid, C05_zero_field_nan_exact, C06_gs, C06_gs_degenerate, C07_rot_perp_angle, C07_rot_perp_defined, C08_roundtrip, C09_eq_iff, C09_eq_not_transitive, C09_eq_refl, C09_eq_sym, C11_fields_and_couplings, C12_inverse_transform, C12_spins_boltzmann, C12_spins_finite_somewhere, C12_step_defined, C13_total_energy, C13_total_energy2, C14_mc_system, C14_mc_system_full, C14_mc_total, C14_mc_total_undriven, C15_one_site_nan, C15_system_energy, C16_m, C16_m_bounded, C16_m_tot, C17_bound, C18_derivative, C18_drive_value, C18_none_static, C18_periodic, C18_xyplane_unit, C19_dynamics, C19_energy, C20_strong_field, C20_unit, C20_unit_no_field, C21_energy_conserved, C22_work, C23_reversible, C24_equation_of_motion, C26_free_spins, C27_energy_conservation_refuted, C28_plain, C29_langevin_unit, C29_unit, C30_detailed_balance, C31_area, C31_direction, C31_reachable, C32_reported_if_isotropic, C32_reported_refuted, C32_step, C33_reported, C33_reported_if_isotropic, C33_reported_refuted, C33_step, C34_bulk, C34_no_energy, C35_antisymmetric, C35_no_energy, C37_energy_conserved, C37_panic_noise, C37_strong_field, C37_unit, C38_chain, C38_exact, C38_long_step_refuted, C38_never_raises, C38_strictly_lowers, C39_closing_bond_refuted, C39_fields_refuted, C39_step, C40_exact, C40_f64, C41_bisect, C41_noisy, C41_search_is_bisect, C41_unreachable, C42_close, C42_ground, C42_loose, C42_solves, C44_bad_index, C44_blocks, C44_messages, C44_profile, C45_at_most_one, C45_mode, C45_one_snapshot, C45_short_period, C47_directory, C47_means, C47_order, C48_blank_line, C48_default_logs, C48_means, C48_no_zero_row, C49_extra_step, C49_files, C49_never_ends, C49_steps, C50_binary64, C50_negative, C50_periods, C50_short_period, C55_runs, C58_cycles, C58_estimate, C58_mean, C58_nothing, C58_order, C59_even, C59_odd, C59_sum, C60_programs, C60_programs_exact, C60_queries, C60_queries_exact, C61_boundary_term, C61_langevin_boundary_term, C62_chain, C62_new_xyz, C62_rotate, C62_rotations, C63_completes, C64_hist, C64_hist_short, C64_langevin_log, C64_log, C64_log_watched, C64_mc_line, C65_ext, C65_profile, C66_conserved, C66_no_field, C66_no_field_steps, C66_response, C67_estimate, C67_observables, C68_mode, C68_worker, C69_energy, C69_typical, C70_single, C71_first, C71_lab, C71_second, C72_completes, C72_order, C72_sharp, C72_step, C73_completes, C73_damped_sharp, C73_drive_sharp, C73_isolated, C73_order, C74_bath_exists, C74_bath_limit, C74_bath_refine, C74_bath_unique, C74_exists, C74_limit, C74_refine, C74_unique, C74_unit, C75_conserved, C75_energy_order, C75_fit_chain, C75_program, C76_fit, C76_high, C77_plain, C77_profile, C77_second, C78_free, C78_observables, C78_stationary, C79_limit, C79_rate, C80_lasting, C80_mean_square, C80_reported, C80_seldom_off, C81_defined, C81_energy, C81_pairs, C81_spins, C81_target, C83_falls, C83_function, C83_good_draws, C83_near, C83_one_temperature, C83_rising, C83_search, C83_slope, C84_search, C84_union, C85_binary64, C85_ext, C85_files, C85_langevin64, C85_periods, C85_short_period, C85_steps, C86_motion, C86_pi, C86_rotate, C86_steps, C87_density, C87_printed, C87_run, C87_step, C87_strong, C87_unit_or_lost, C88_n_steps, C88_trajectory, C89_again_refuted, C89_average, C89_langevin, C89_two_langevin, C89_two_panics, C89_two_point, C90_moves, C90_new, C90_run, C90_temperature, C91_hot, C91_moves, C91_run, C92_files, C92_line, C92_run, C94_files, C94_line, C94_run, C95_line, C95_plain, C95_second, C95_thread, C96_column, C96_files, C97_averages, C98_zero, C98_shipped, C99_files, C100_averages

* `functional_extensionality_dep+sig_forall_dec`: C44_energies, C61_torque_nonnegative, C65_profile_sum, C68_end, C68_end_refuted, C68_short, C70_periods, C70_periods_refuted
