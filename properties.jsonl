{"id": "C01", "title": "Every spin constructor returns a unit vector", "statement": "Spin::new, Spin::new_from_angles and Spin::set_angles always give a direction of length 1. Spin::new_xyz given three finite components that are not all zero gives a direction of length 1 parallel (same sense) to the input, unchanged when the input is rescaled by a positive factor; given the zero vector all three components are NaN; given fewer than three numbers it panics; given more than three, the extra numbers enter the norm, so the result is in general not a unit vector.", "quantifier": "all angle pairs, all component lists of every length", "why_tests_cant": "the inputs are real numbers; tests try a handful of directions", "anchors": ["src/spin.rs:Spin::new", "src/spin.rs:Spin::new_xyz", "src/spin.rs:Spin::new_from_angles", "src/spin.rs:Spin::set_angles"]}
{"id": "C02", "title": "Rotation keeps a spin on the unit sphere for any number of rotations", "statement": "After Spin::rotate the direction has length 1, whatever (nonzero) length it had before, for every nonzero field and every dt; hence after any sequence of rotations about nonzero fields the spin is a unit vector.", "quantifier": "all spins, all nonzero fields, all time steps, all finite sequences of rotations", "why_tests_cant": "drift over unbounded histories cannot be sampled", "anchors": ["src/spin.rs:Spin::rotate"]}
{"id": "C03", "title": "Rotation is the exact solution of the precession equation", "statement": "For a unit spin S0 and nonzero field W, the function dt -> S(dt) computed by Spin::rotate satisfies S(0)=S0 and dS/ddt = S x W at every dt (so the precession sense and rate are right).", "quantifier": "all unit spins, nonzero fields and all real dt", "why_tests_cant": "an identity between functions on the reals", "anchors": ["src/spin.rs:Spin::rotate"]}
{"id": "C04", "title": "Rotation is a rigid motion about the field axis forming a one-parameter group", "statement": "Spin::rotate preserves the component of a unit spin along the field, preserves the dot product of any two unit spins rotated by the same field and time, composes additively in dt, is undone by -dt, and depends on the field only through direction and magnitude*dt (rescaling the field by c>0 equals rescaling dt).", "quantifier": "all unit spins, nonzero fields, all dt", "why_tests_cant": "real-valued identities over a continuum", "anchors": ["src/spin.rs:Spin::rotate"]}
{"id": "C05", "title": "Rotation about a vanishing field poisons the spin", "statement": "In IEEE binary64, for every spin, every dt and every maths library, Spin::rotate about the zero field returns NaN in all three components (it does not leave the spin unchanged); and a spin with any NaN component stays all-NaN under every further rotation.", "quantifier": "all binary64 spins (incl. infinities and NaN), all dt, all libm implementations, all later rotations", "why_tests_cant": "needs the IEEE semantics for every operand, not a sample", "anchors": ["src/spin.rs:Spin::rotate"]}
{"id": "C06", "title": "Gram-Schmidt helper returns a unit vector orthogonal to the first argument", "statement": "For a nonzero vector `old` and a vector `perp` not parallel to it, Spin::gs returns a unit vector orthogonal to `old`, lying in the plane of the two inputs and having positive overlap with `perp`; when `old` is zero or the vectors are parallel the result is NaN.", "quantifier": "all pairs of real vectors", "why_tests_cant": "continuum of inputs; the doc test checks two", "anchors": ["src/spin.rs:Spin::gs"]}
{"id": "C07", "title": "rot_perp turns a direction by exactly the requested angle", "statement": "Given angles of a direction and a rotation direction not parallel to it, Spin::rot_perp returns angles of a direction whose dot product with the original is the cosine of the requested angle (as long as the rotated direction has nonzero x component, where the azimuth is recoverable).", "quantifier": "all angle pairs, all non-parallel rotation directions, all rotation angles", "why_tests_cant": "continuum of inputs", "anchors": ["src/spin.rs:Spin::rot_perp", "src/spin.rs:Spin::theta", "src/spin.rs:Spin::phi"]}
{"id": "C08", "title": "Angles and Cartesian components round-trip", "statement": "For every unit spin with nonzero x component, rebuilding a spin from Spin::theta and Spin::phi gives back the same direction. In binary64 a spin with x = +0 and y > 0 (e.g. along +y) is given an azimuth pointing to -y, for every maths library whose atan of +infinity is the usual pi/2.", "quantifier": "all unit vectors with x<>0; every libm for the exceptional case", "why_tests_cant": "continuum of inputs and a sign-of-zero corner case", "anchors": ["src/spin.rs:Spin::theta", "src/spin.rs:Spin::phi", "src/spin.rs:Spin::new_from_angles"]}
{"id": "C09", "title": "Spin equality is a tolerance relation, not an equivalence", "statement": "Spin == Spin holds exactly when all three component differences are below 0.001 in absolute value; it is symmetric, and reflexive exactly on spins without NaN; it is not transitive.", "quantifier": "all pairs and triples of spins", "why_tests_cant": "universally quantified relation laws", "anchors": ["src/spin.rs:PartialEq for Spin"]}
{"id": "C10", "title": "A new chain has the configured shape", "statement": "SpinChain::new on a configuration with 0 <= hsize and three-component fields returns a chain with exactly hsize spins, couplings and fields, whose clock is -trel, whose configuration is the one given, and which has a log file exactly when logging is on. It panics when hfield has fewer than three components (hsize>0), when hs has fewer than three components and ssize>0, or when jvar/hvar is not finite.", "quantifier": "all configurations and all random draws", "why_tests_cant": "every size and every random outcome", "anchors": ["src/spinchain.rs:SpinChain::new"]}
{"id": "C11", "title": "Static fields are hfield everywhere plus hs on the subsystem plus scaled noise", "statement": "In a new chain the field on site i is hfield + hvar*(standard normal draw), plus hs exactly when i < ssize; the couplings are 1, 1 and lambda plus jvar*(standard normal draw): jvar and hvar act as standard deviations, not variances.", "quantifier": "all sites, configurations and random draws", "why_tests_cant": "statement about every draw", "anchors": ["src/spinchain.rs:SpinChain::new", "src/spinchain_langevin.rs:SpinChainLangevin::new"]}
{"id": "C12", "title": "Initial spins are unit vectors with Boltzmann-distributed neighbour angles", "statement": "In a new chain every spin is a unit vector and the dot product c of neighbouring spins satisfies exp(beta c) = exp(beta) - u (exp(beta)-exp(-beta)) with u the uniform draw for that site: c lies in [-1,1] and is the inverse-transform sample of the density proportional to exp(beta c).", "quantifier": "all beta<>0, all draws in [0,1) for which the construction stays finite, all sites, all chain lengths", "why_tests_cant": "needs all draws and all lengths", "anchors": ["src/spinchain.rs:SpinChain::new", "src/spin.rs:Spin::rot_perp"]}
{"id": "C13", "title": "The two total-energy functions agree with the documented Hamiltonian", "statement": "SpinChain::total_energy and SpinChain::total_energy2 return the same value, namely (1/hsize) times -sum S_i J_i S_{i+1} + sum B_i.S_i with periodic neighbours and B_i the static field plus the drive at the current time on sites below ssize.", "quantifier": "all chains with 1 <= hsize, ssize <= hsize", "why_tests_cant": "all sizes and all states", "anchors": ["src/spinchain.rs:SpinChain::total_energy", "src/spinchain.rs:SpinChain::total_energy2"]}
{"id": "C14", "title": "Monte-Carlo energies are the undriven energies", "statement": "mc_total_energy is the periodic Hamiltonian without the drive, divided by hsize; it equals total_energy when the drive is `none`; mc_system_energy is the same expression restricted to the first ssize sites closed into a ring of their own (equal to mc_total_energy when ssize=hsize), so for ssize<hsize it contains a bond ssize-1 -> 0 that the chain does not have.", "quantifier": "all chains", "why_tests_cant": "all sizes and states", "anchors": ["src/spinchain.rs:SpinChain::mc_total_energy", "src/spinchain.rs:SpinChain::mc_system_energy"]}
{"id": "C15", "title": "system_energy is the open-chain energy per bond of the subsystem", "statement": "system_energy is 1/(ssize-1) times the sum over the first ssize-1 sites of bond energy to the right neighbour plus field energy (static+drive); the field term of site ssize-1 is not included; for ssize=1 the result is NaN.", "quantifier": "all chains with 1 <= ssize <= hsize", "why_tests_cant": "all sizes and states", "anchors": ["src/spinchain.rs:SpinChain::system_energy", "src/spinchain_langevin.rs:SpinChainLangevin::system_energy"]}
{"id": "C16", "title": "Magnetisations are sums over the right sites and bounded", "statement": "m() is the component-wise sum over the first ssize spins and m_tot() over the first hsize; for unit spins every component is at most ssize (hsize) in absolute value; m() panics when ssize exceeds the number of spins.", "quantifier": "all chains", "why_tests_cant": "all sizes and states", "anchors": ["src/spinchain.rs:SpinChain::m", "src/spinchain.rs:SpinChain::m_tot", "src/spinchain_langevin.rs:SpinChainLangevin::m"]}
{"id": "C17", "title": "Energy density is bounded by couplings and fields", "statement": "For unit spins the absolute value of total_energy2 is at most max|J| + max|B| (component-wise maxima times the obvious dimension factors), for every chain and time.", "quantifier": "all chains of unit spins, all times", "why_tests_cant": "all sizes and states", "anchors": ["src/spinchain.rs:SpinChain::total_energy2"]}
{"id": "C18", "title": "The drive is periodic and its derivative function is its derivative", "statement": "The driving field has period tau; it has unit length for xyplane; the field-derivative function times 2 pi/tau is the time derivative of the drive for every drive type; `none` is zero; `staticfield` is hs.", "quantifier": "all times, all tau<>0, all drive types", "why_tests_cant": "functions of a real variable", "anchors": ["src/spinchain.rs:SpinChain::h_ext", "src/spinchain.rs:SpinChain::h_extp", "src/spinchain_langevin.rs:SpinChainLangevin::h_ext"]}
{"id": "C19", "title": "With drive = staticfield the subsystem field is applied twice", "statement": "A new chain with drive staticfield and no noise has, in its energy and in its dynamics, field hfield + 2*hs on subsystem sites (hs from the static field and again from the drive).", "quantifier": "all configurations", "why_tests_cant": "composition of constructor, energy and drive for every configuration", "anchors": ["src/spinchain.rs:SpinChain::new", "src/spinchain.rs:SpinChain::h_ext"]}
{"id": "C20", "title": "A dynamical step changes only spins and clock and keeps spins normalised", "statement": "SpinChain::update (and update_no_field) advance the clock by dt and leave couplings, static fields, configuration, log file and the number of spins unchanged; for even hsize every spin is a unit vector afterwards; this holds after any number of steps.", "quantifier": "all chains, all step counts", "why_tests_cant": "unbounded histories", "anchors": ["src/spinchain.rs:SpinChain::update", "src/spinchain.rs:SpinChain::update_no_field"]}
{"id": "C21", "title": "Undriven evolution conserves the total energy exactly", "statement": "For even hsize and drive none or staticfield, the total energy after any number of update calls equals the initial total energy (in exact arithmetic, for every dt), as long as no local field vanishes on the way.", "quantifier": "all chains of even length, couplings, fields, dt, and numbers of steps", "why_tests_cant": "unbounded histories and a continuum of states", "anchors": ["src/spinchain.rs:SpinChain::update", "src/spinchain.rs:SpinChain::even_omega", "src/spinchain.rs:SpinChain::odd_omega"]}
{"id": "C22", "title": "Driven evolution: the energy changes exactly by the work of the drive", "statement": "For even hsize and any drive, one update changes hsize*total_energy2 by exactly sum over subsystem sites of (h(t+dt)-h(t+dt/2)).S_after + (h(t+dt/2)-h(t)).S_before; i.e. the step conserves the Hamiltonian with the drive frozen at the midpoint.", "quantifier": "all chains, drives, times", "why_tests_cant": "continuum of states and times", "anchors": ["src/spinchain.rs:SpinChain::update"]}
{"id": "C23", "title": "The integrator is exactly time-reversible", "statement": "Running update with dt and then with -dt restores all spins and the clock exactly, for every drive and for any number n of forward followed by n backward steps.", "quantifier": "all chains of even length, all drives, dt, n", "why_tests_cant": "unbounded histories", "anchors": ["src/spinchain.rs:SpinChain::update"]}
{"id": "C24", "title": "The integrator is consistent with the equation of motion", "statement": "For even hsize, the derivative with respect to dt at dt=0 of the spins after one update is S_n x (J_{n-1}S_{n-1} + J_n S_{n+1} - B_n) for every site n.", "quantifier": "all chains, all sites", "why_tests_cant": "a limit statement", "anchors": ["src/spinchain.rs:SpinChain::update"]}
{"id": "C25", "title": "One step propagates information at most three sites", "statement": "The spin at site n after one update does not depend on spins, couplings or fields further than three sites away (periodic distance).", "quantifier": "all chains, all sites", "why_tests_cant": "all sizes and all pairs of states", "anchors": ["src/spinchain.rs:SpinChain::update"]}
{"id": "C26", "title": "Without interactions every spin precesses independently in its own field", "statement": "With all couplings zero, one update rotates every spin by exactly dt about minus its own (static + drive at midpoint) field, for even and odd sites alike.", "quantifier": "all chains with zero coupling", "why_tests_cant": "all sizes, states; the unit test fixes one field and 100 steps", "anchors": ["src/spinchain.rs:SpinChain::update"]}
{"id": "C27", "title": "Odd chain lengths leave the last spin out of the dynamics", "statement": "For odd hsize>=3, update never changes the last spin and evolves the remaining hsize-1 spins as a closed ring that ignores it, while the energy functions still count it: energy conservation fails.", "quantifier": "all odd-length chains; all step counts", "why_tests_cant": "unbounded histories", "anchors": ["src/spinchain.rs:SpinChain::update", "src/spinchain.rs:SpinChain::even_omega"]}
{"id": "C28", "title": "A Metropolis update applies the Metropolis rule for the true energy change", "statement": "For hsize>=2, metropolis_update replaces the spin at the drawn site by the drawn direction exactly when dE<0 or u<exp(-beta dE), where dE is hsize times the change of mc_total_energy caused by that replacement; otherwise nothing changes.", "quantifier": "all chains, sites, draws, beta", "why_tests_cant": "all sizes and states, all draws", "anchors": ["src/spinchain.rs:SpinChain::metropolis_update"]}
{"id": "C29", "title": "Every Metropolis variant changes at most the drawn site and keeps unit spins", "statement": "All five sampler steps of SpinChain and the two of SpinChainLangevin leave every site but the drawn one, the couplings, fields, clock and configuration unchanged, and the new spin is a unit vector; this holds for arbitrary sequences of updates.", "quantifier": "all chains, all draws, all numbers of updates", "why_tests_cant": "unbounded histories", "anchors": ["src/spinchain.rs:SpinChain::metropolis_update*", "src/spinchain_langevin.rs:SpinChainLangevin::metropolis_update*"]}
{"id": "C30", "title": "Metropolis acceptance satisfies detailed balance", "statement": "For the plain sampler, the probability (length of the set of u in [0,1) that accept) of accepting S->S' times exp(-beta*hsize*mc_total_energy(S)) equals the probability of accepting S'->S times exp(-beta*hsize*mc_total_energy(S')).", "quantifier": "all states, sites, proposals, beta>=0", "why_tests_cant": "a statement about every pair of states", "anchors": ["src/spinchain.rs:SpinChain::metropolis_update"]}
{"id": "C31", "title": "Proposals are uniform on the sphere", "statement": "The proposed spin has z = 1-2*u2 and azimuth 2 pi u1, with u1,u2 the uniform draws (Archimedes' area-preserving map), and every unit vector except the south pole (0,0,-1) is reachable, which no draw in [0,1) produces.", "quantifier": "all draws", "why_tests_cant": "continuum of draws", "anchors": ["src/spinchain.rs:SpinChain::metropolis_update"]}
{"id": "C32", "title": "Lab-frame Magnus sampler: the sampled energy is the reported energy only without anisotropy disorder", "statement": "metropolis_update_maglab is a Metropolis step for E = -sum S J S - sum S^z/(2 omega); this agrees with hsize*mc_system_energy_maglab when Jx=Jy on every bond, and disagrees in general.", "quantifier": "all chains with hsize>=2 and tau<>0; a witness for the disagreement", "why_tests_cant": "needs all states for agreement", "anchors": ["src/spinchain.rs:SpinChain::metropolis_update_maglab", "src/spinchain.rs:SpinChain::mc_system_energy_maglab"]}
{"id": "C33", "title": "Rotating-frame Magnus sampler: samples a well-defined energy, which the reported energy over-counts", "statement": "For hsize>=3 metropolis_update_rot_magnus is a Metropolis step for E_rot (each bond and each three-site term counted once); mc_system_energy_rot counts bond corrections twice and three-site corrections three times, so the two agree when Jx=Jy on every bond and differ in general.", "quantifier": "all chains with hsize>=3, tau<>0; witness for the difference", "why_tests_cant": "all sizes and states", "anchors": ["src/spinchain.rs:SpinChain::metropolis_update_rot_magnus", "src/spinchain.rs:SpinChain::mc_system_energy_rot"]}
{"id": "C34", "title": "First-order Magnus sampler has no energy function", "statement": "There is no energy function of the chain state whose change equals the energy difference used by metropolis_update_magnus for all moves (a closed loop of single-spin moves has nonzero total change), and the linear S^z term never influences acceptance.", "quantifier": "all candidate energy functions", "why_tests_cant": "quantifies over all functions", "anchors": ["src/spinchain.rs:SpinChain::metropolis_update_magnus", "src/spinchain_langevin.rs:SpinChainLangevin::metropolis_update_magnus"]}
{"id": "C35", "title": "Second-order Magnus sampler has no energy function", "statement": "There is no energy function of the chain state whose change equals the energy difference used by metropolis_update_mag_full for all moves; the energy difference is however antisymmetric under exchanging old and new spin.", "quantifier": "all candidate energy functions; all states and moves for antisymmetry", "why_tests_cant": "quantifies over all functions", "anchors": ["src/spinchain.rs:SpinChain::metropolis_update_mag_full"]}
{"id": "C36", "title": "A NaN spin is never healed by Monte Carlo in its neighbourhood", "statement": "In binary64, if the drawn spin or one of its neighbours has a NaN component, metropolis_update rejects every proposal (for every libm with exp(NaN)=NaN): the chain is returned unchanged.", "quantifier": "all binary64 chains and draws, all libm", "why_tests_cant": "IEEE semantics for all operands", "anchors": ["src/spinchain.rs:SpinChain::metropolis_update"]}
{"id": "C37", "title": "Langevin step: frame, normalisation and open-chain energy conservation without bath", "statement": "SpinChainLangevin::update changes only spins and clock and returns unit spins; with gamma=0 (no damping, no noise) and no time-dependent drive it conserves the open-chain energy -sum_{i<L-1} S_i J_i S_{i+1} + sum B_i.S_i exactly for even length, any number of steps.", "quantifier": "all chains, draws, step counts", "why_tests_cant": "unbounded histories", "anchors": ["src/spinchain_langevin.rs:SpinChainLangevin::update", "src/spinchain_langevin.rs:SpinChainLangevin::even_omega", "src/spinchain_langevin.rs:SpinChainLangevin::odd_omega"]}
{"id": "C38", "title": "Langevin damping dissipates", "statement": "Without noise and with gamma>=0, the rotation of an end spin about its Landau-Lifshitz-Gilbert field for a small enough time never raises that spin's energy -S.Omega, and strictly lowers it when S and Omega are not parallel; the explicit smallness condition on dt is stated.", "quantifier": "all unit spins, fields, gamma, dt below the bound", "why_tests_cant": "continuum of states", "anchors": ["src/spinchain_langevin.rs:SpinChainLangevin::even_omega", "src/spinchain_langevin.rs:SpinChainLangevin::cross", "src/spin.rs:Spin::rotate"]}
{"id": "C39", "title": "Langevin thermalisation ignores fields and treats the open chain as periodic", "statement": "SpinChainLangevin::metropolis_update is a Metropolis step for the field-free periodic energy, which is in general not the energy that SpinChainLangevin::system_energy reports.", "quantifier": "all chains with hsize>=2; witness for the disagreement", "why_tests_cant": "all states", "anchors": ["src/spinchain_langevin.rs:SpinChainLangevin::metropolis_update"]}
{"id": "C40", "title": "Temperature fits by bisection terminate and bracket", "statement": "find_beta, find_beta2, find_betah, find_beta_rot, find_beta_maglab stop after exactly 13 halvings for every (noisy, arbitrary) energy estimator, in exact and in binary64 arithmetic, and return a value strictly inside the initial bracket; in the exact case the final bracket is narrower than 0.001.", "quantifier": "all estimators, adversarial noise, all targets", "why_tests_cant": "all 2^13 decision sequences and all estimator values", "anchors": ["src/obs.rs:find_beta", "src/obs.rs:find_beta2", "src/obs.rs:find_betah", "src/obs.rs:find_beta_rot", "src/obs.rs:find_beta_maglab"]}
{"id": "C41", "title": "Temperature fits are accurate for monotone estimators", "statement": "If the comparisons with the target that a search asks for are right outside a window of half-width d around beta*, the returned beta is within 0.0005 + d of beta* (d = 0 for a decreasing deterministic function of beta crossing the target at beta*); if the target is never reached the result is within 0.0005 of an end of the bracket.", "quantifier": "all estimators, all decreasing functions", "why_tests_cant": "quantifies over functions", "anchors": ["src/obs.rs:find_beta"]}
{"id": "C42", "title": "solve_beta terminates with an approximate root of the Langevin relation", "statement": "For every energy density e>-1, SpinChain::solve_beta terminates; the result b is positive and there is b2 within 0.01 of b with e = 1/b - coth b2. Near e=0 the stopping rule is too loose: there is e for which the energy of the returned beta misses e by more than 0.05.", "quantifier": "all e>-1", "why_tests_cant": "termination for a continuum of inputs", "anchors": ["src/spinchain.rs:SpinChain::solve_beta", "src/spinchain_langevin.rs:SpinChainLangevin::solve_beta"]}
{"id": "C43", "title": "Monte-Carlo points are split exactly over threads", "statement": "For 1<=threads, 1<=points<2^31, the per-thread sample counts used by run_mc, run_mc_profile and run_mc_magnus are each at least 1 and add up to exactly `points`; with points=0 or threads=0 the program panics.", "quantifier": "all thread counts and point counts", "why_tests_cant": "unbounded arithmetic", "anchors": ["src/obs.rs:run_mc", "src/obs.rs:run_mc_profile", "src/obs.rs:run_mc_magnus"]}
{"id": "C44", "title": "Profile averaging is independent of the thread schedule", "statement": "For every interleaving of the worker messages, profile_in_bg writes for each site the mean over all samples of that site's energy and magnetisation; if fewer than size*pts messages ever arrive while a sender is alive it blocks forever, and an index out of range panics.", "quantifier": "all interleavings, sizes, sample counts, values", "why_tests_cant": "every schedule", "anchors": ["src/writers.rs:profile_in_bg", "src/obs.rs:run_mc_profile"]}
{"id": "C45", "title": "Dynamic profiles take one sample per checkpoint or hang", "statement": "In run_dyn_profile each run contributes at most one snapshot per checkpoint time; it contributes exactly one when the checkpoint lies within dt/5 of a step time, and none otherwise, in which case the collecting thread never finishes.", "quantifier": "all dt>0, tau, trel", "why_tests_cant": "all time grids", "anchors": ["src/obs.rs:run_dyn_profile", "src/writers.rs:profile_in_bg"]}
{"id": "C46", "title": "The background writer may lose lines at exit", "statement": "write_in_bg writes a prefix of the sent lines in order; when the program ends after the workers finish, the prefix may be strict: there is a schedule in which every sample was sent, the program exited, and lines are missing from the file.", "quantifier": "all schedules", "why_tests_cant": "every interleaving", "anchors": ["src/writers.rs:write_in_bg", "src/obs.rs:run_tau", "src/obs.rs:run_mc", "src/obs.rs:gen_hist_dynamics"]}
{"id": "C47", "title": "Averaging computes per-line means over the files", "statement": "average writes, for each line number, the column-wise mean over all log files that have that line, not counting the first line of each file; it never panics on rectangular data, and the result does not depend on the order in which files are found.", "quantifier": "all sets of log files of all lengths", "why_tests_cant": "all histories of files", "anchors": ["src/obs.rs:average"]}
{"id": "C48", "title": "Two-point averaging panics on logs written by the default simulation", "statement": "two_point_average multiplies each column by its value on the t=0 line and averages; because the first line of each file is skipped, it panics on every log produced by run_sim with trel=0 and dt>1e-5 having at least two lines; on logs with a later t=0 line it computes the mean of x(t)x(0).", "quantifier": "all logs", "why_tests_cant": "all file contents", "anchors": ["src/obs.rs:two_point_average", "src/obs.rs:run_sim"]}
{"id": "C49", "title": "A simulation run performs the right number of steps and terminates", "statement": "With dt>0, a run performs exactly ceil((t+trel)/dt) steps in exact arithmetic (none if t<=-trel) and writes one line per step plus the initial line when stroboscopic logging is off. In binary64 there are configurations with dt>0 for which the loop never ends.", "quantifier": "all t, trel, dt>0", "why_tests_cant": "unbounded loops", "anchors": ["src/obs.rs:run_sim", "src/obs.rs:run_langevin", "src/obs.rs:run_ext"]}
{"id": "C50", "title": "Stroboscopic logging selects whole drive periods (exact arithmetic), not in binary64", "statement": "With strob on, trel=0 and tau an integer multiple of dt, exact arithmetic logs after exactly the steps that are multiples of tau/dt; with binary64 and the default configuration (tau=10, dt=0.02) the first period is logged one step late; at negative times every step is logged; tau<dt panics.", "quantifier": "all step counts; the shipped default for the binary64 failure", "why_tests_cant": "unbounded step counts", "anchors": ["src/obs.rs:run_sim", "src/obs.rs:run_sim_response", "src/obs.rs:run_ext"]}
{"id": "C51", "title": "Completed runs never overwrite each other's log files", "statement": "For every sequence of completed default/ext/response/langevin/profile invocations sharing a config.toml, the log files written by different invocations are pairwise distinct and earlier logs stay intact, as long as the offset does not overflow 32 bits; any Monte-Carlo, histogram or fit invocation in between truncates low-numbered logs.", "quantifier": "all histories of invocations", "why_tests_cant": "every history", "anchors": ["src/obs.rs:run_sim", "src/obs.rs:run_langevin", "src/obs.rs:run_mc", "src/spinchain.rs:SpinChain::new"]}
{"id": "C52", "title": "Log file contents do not depend on the thread schedule", "statement": "For every interleaving of worker threads in a run, log file offset+i contains exactly the lines of run i in order.", "quantifier": "all interleavings", "why_tests_cant": "every schedule", "anchors": ["src/obs.rs:run_sim"]}
{"id": "C53", "title": "Configuration survives a save/load cycle", "statement": "Reading back a configuration written by the program gives the same configuration; keys missing from the file take the documented defaults; unknown keys (including the README's `drivetype`) are ignored; integers are accepted for real-valued keys; ill-typed or out-of-range values make the program panic.", "quantifier": "all configurations, all tables", "why_tests_cant": "all configurations", "anchors": ["src/config.rs:Config", "src/spinchain.rs:SpinChain::read_config"]}
{"id": "C54", "title": "A missing configuration file is created with the defaults", "statement": "If the file cannot be read, read_config writes the default configuration to config.toml and returns it; a second call on config.toml returns the same; if the file is valid nothing is written.", "quantifier": "all file-system states", "why_tests_cant": "all histories", "anchors": ["src/spinchain.rs:SpinChain::read_config", "src/spinchain_langevin.rs:SpinChainLangevin::read_config"]}
{"id": "C55", "title": "A crash while saving the configuration can silently reset it", "statement": "If the program stops after writing only the first lines of config.toml, the next start may succeed with default values for the remaining keys, in particular offset 0, so that earlier logs are overwritten.", "quantifier": "all crash points at line granularity", "why_tests_cant": "every crash point", "anchors": ["src/obs.rs:run_sim", "src/spinchain.rs:SpinChain::read_config"]}
{"id": "C56", "title": "The default simulation runs exactly when no mode flag is given", "statement": "The plain simulation is run iff none of the mode flags is given (tau, beta and steps overrides alone do not count); flags run in a fixed order and share one mutable configuration.", "quantifier": "all 2^n flag combinations and values", "why_tests_cant": "all combinations", "anchors": ["src/main.rs:main"]}
{"id": "C57", "title": "Command-line overrides: where they apply and that they persist", "statement": "The beta override does not reach the --ext, --n-steps and fit modes; after a default run the tau override and the solved/overridden beta are saved to config.toml; -l saves hsize=ssize.", "quantifier": "all arguments and configurations", "why_tests_cant": "all combinations", "anchors": ["src/main.rs:main", "src/obs.rs:run_sim", "src/obs.rs:run_langevin"]}
{"id": "C58", "title": "Trajectory energy estimate uses a fixed number of samples", "statement": "trajectory_mean_e averages over every run exactly the system energies at the ends of steps 100c+1, 101c+1, ... (c steps per cycle) below the total; for total = 1000 c that is 900 samples per run; c=0 panics; with no samples the result is NaN.", "quantifier": "all step counts, runs, schedules", "why_tests_cant": "all counts and schedules", "anchors": ["src/obs.rs:trajectory_mean_e"]}
{"id": "C59", "title": "The energy spectrum is the half-shifted power spectrum for even lengths only", "statement": "For even hsize energy_spectrum is the power spectrum of the three spin components rotated by hsize/2 (a permutation of all modes, summing to hsize^2 for unit spins); for odd hsize one mode is lost and the last entry is 0.", "quantifier": "all lengths and states", "why_tests_cant": "all sizes", "anchors": ["src/spinchain.rs:SpinChain::energy_spectrum"]}
{"id": "C60", "title": "No public chain operation panics on a well-formed chain", "statement": "On a chain with 2<=hsize spins/couplings/fields and 1<=ssize<=hsize (3<=... where two neighbours on each side are needed) none of the energies, magnetisations, samplers, steps, logs panics, for any numeric contents including NaN; the sizes outside the range that do panic are characterised.", "quantifier": "all chains incl. all binary64 contents, all draws", "why_tests_cant": "all sizes and contents", "anchors": ["src/spinchain.rs:SpinChain", "src/spinchain_langevin.rs:SpinChainLangevin"]}
{"id": "C61", "title": "The boundary dissipation term is the squared torque", "statement": "In boundary_term of both chains the bracket |S|^2|W|^2-(S.W)^2 equals |S x W|^2 at both ends, hence is never negative.", "quantifier": "all states", "why_tests_cant": "continuum", "anchors": ["src/spinchain.rs:SpinChain::boundary_term", "src/spinchain_langevin.rs:SpinChainLangevin::boundary_term"]}
{"id": "C62", "title": "Rounding does not make spins drift off the sphere", "statement": "In binary64, with any maths library whose cos and sin return numbers in [-1,1] with squares adding up to at least 1/2: a rotation about a field whose squared length neither nearly overflows nor underflows turns a spin within 1/8 of the unit sphere into one whose squared length is within 2^-50 of 1; hence the error does not grow over any sequence of rotations, nor over any number of time steps of an undriven chain in a strong field.", "quantifier": "all binary64 inputs, all libm, all histories", "why_tests_cant": "all roundings over unbounded histories", "anchors": ["src/spin.rs:Spin::rotate", "src/spin.rs:Spin::new_xyz", "src/spinchain.rs:SpinChain::update"]}
{"id": "C63", "title": "Invocations complete: no panic and no endless loop", "statement": "For every combination of the command-line modes other than --hist, --avg, --two-point and --dyn-profile, with -b given, every configuration with 2 <= ssize <= hsize, at least one thread, between 1 and 2^31-1 Monte-Carlo points, finite disorder widths, room for the offset, time loops that reach their end and at least one time step per period, and all random draws: the whole invocation completes without panic, in exact and in binary64 arithmetic.", "quantifier": "all flag combinations, configurations, draws and directories", "why_tests_cant": "all combinations of 18 modes with all configurations and random draws", "anchors": ["src/main.rs:main", "src/obs.rs:run_sim", "src/obs.rs:run_tau", "src/obs.rs:run_mc", "src/obs.rs:run_langevin", "src/obs.rs:find_beta"]}
{"id": "C64", "title": "Output lines show the state of the chain", "statement": "For every chain state in exact arithmetic, the line written to log<n>.dat, mc_live.dat, the two histograms and the Langevin log consists, column by column, of the stated physical quantities of that state: time, energy per site of the closed ring in the field of the moment, energy of the open subsystem (closed ring in mc_live.dat), magnetisation per site of the subsystem and of the chain, and the spins a quarter and three quarters into the subsystem; in binary64 the spin columns are unrounded.", "quantifier": "all chains, sizes, drives and times", "why_tests_cant": "all states; a swapped column or wrong divisor looks like plausible data", "anchors": ["src/spinchain.rs:SpinChain::log", "src/obs.rs:run_mc", "src/obs.rs:gen_hist", "src/obs.rs:gen_hist_magnus", "src/spinchain_langevin.rs:SpinChainLangevin::log"]}
{"id": "C65", "title": "Site energies of profiles and of run_ext", "statement": "A profile snapshot assigns to every site half the exchange energy of its two bonds, and these add up to the exchange energy of the ring for every chain; one logging step of run_ext writes exactly one row for each of the sites 1 to min(ssize, hsize-1)-1 with the site's time, index, spin and energy density, then an empty line.", "quantifier": "all chains and sizes", "why_tests_cant": "the sum rule over all couplings and lengths", "anchors": ["src/obs.rs:run_mc_profile", "src/obs.rs:run_dyn_profile", "src/spinchain.rs:SpinChain::log_ext", "src/spinchain.rs:SpinChain::total_energy"]}
{"id": "C66", "title": "Response runs switch the static fields off at time 0", "statement": "A step without static field is an ordinary step of the chain with all static fields zero and the drive kept; without time-dependent drive any number of such steps conserves exchange plus drive energy of an even ring; a response worker thermalises, writes a line, sets the clock to minus the run time and makes exactly ceil(2t/dt) steps, those before time 0 with the static fields and those from time 0 on without, writing a line after each.", "quantifier": "all chains, draws, run times and step sizes", "why_tests_cant": "off-by-one at time 0 and conservation over arbitrarily many steps", "anchors": ["src/obs.rs:run_sim_response", "src/spinchain.rs:SpinChain::update_no_field"]}
{"id": "C67", "title": "Fit estimates and observables are averages over the sampled states", "statement": "The energy estimate of a temperature search at inverse temperature b is the mean of the energy density over exactly 1000 states, equally spaced, of one Metropolis path at b from the chain just made; the observables of a fit are means over 8000 states of one path of the whole chain; each sampler's path accepts according to the energy of its own ensemble.", "quantifier": "all couplings and fields, all draws, all four searches and four observables", "why_tests_cant": "the estimate depends on millions of random draws; a test can only compare statistically", "anchors": ["src/obs.rs:estim_e", "src/obs.rs:estim_eh", "src/obs.rs:estim_e2", "src/obs.rs:estim_e_rot", "src/obs.rs:estim_e_maglab", "src/obs.rs:get_obs", "src/obs.rs:get_obsh", "src/obs.rs:get_obs_rot", "src/obs.rs:get_obs_maglab"]}
{"id": "C68", "title": "Runs at several drive periods end with the last period", "statement": "For each period the worker thermalises, makes one log line, steps until the clock reaches the k-th period and reports period, time and state; for periods below 10 it makes exactly 100 steps for each period and ends exactly at its end; longer ones end less than a step late; evt<k>.dat receives one line per period and the configuration is unchanged.", "quantifier": "all periods, all k, all chains and draws", "why_tests_cant": "off-by-one at the end of the loop for every period; the number of steps is unbounded", "anchors": ["src/obs.rs:run_tau"]}
{"id": "C69", "title": "Histogram runs: Monte-Carlo lines, then dynamics from a typical state", "statement": "gen_hist makes the requested number of Monte-Carlo lines 10000 steps apart, goes on in rounds of 10000 steps to the first state whose energy is within 0.005 of the wanted one and whose magnetisation components are within 0.003 of zero, and records the same number of lines of the undriven dynamics from there, all of which have an energy within 0.005 of the wanted one; lines are numbered from 0 and added to the files. The Magnus histogram likewise, without dynamics.", "quantifier": "all configurations, draws, numbers of lines; the first part in every number system", "why_tests_cant": "random number of rounds, energy conservation over arbitrarily many steps; NaN passes the test unnoticed", "anchors": ["src/obs.rs:gen_hist", "src/obs.rs:gen_hist_magnus"]}
{"id": "C70", "title": "Histograms over trajectories", "statement": "gen_hist_dynamics records one line for each of the independent chains, after the whole steps that fit in the run time; gen_single_traj records, after 30 periods, a line whenever the number of steps is a multiple of the whole steps per period; if the period is a whole number of steps there are exactly as many lines as requested, at the ends of the periods 31, 32, ...", "quantifier": "all configurations, draws, numbers of lines, periods and steps", "why_tests_cant": "off-by-one over arbitrary period/step ratios", "anchors": ["src/obs.rs:gen_hist_dynamics", "src/obs.rs:gen_single_traj"]}
{"id": "C71", "title": "Exact energy differences of the Magnus samplers", "statement": "The energy difference by which metropolis_update_mag_full decides is, for a site of the subsystem, the change of the ring's exchange energy, plus 1/omega times the change of the first-order terms, plus 1/omega^2 times the change of the second-order terms (site, bond, double cross product, twist) and of one extra term, the x factor in which spin j-2 stands for spin j; outside the subsystem it is the exchange change alone. metropolis_update_magnus uses the exchange change minus omega times the bond terms of the site, of which one direction is left out at each end of the subsystem. As the driving period tends to 0 the differences of mag_full and maglab tend to the exchange change; that of magnus exceeds every bound.", "quantifier": "all well-formed chains, sites, proposed directions, periods", "why_tests_cant": "an identity between polynomials of 27 real variables and limits in the period, for all states", "anchors": ["src/spinchain.rs:SpinChain::metropolis_update_mag_full", "src/spinchain.rs:SpinChain::metropolis_update_magnus", "src/spinchain.rs:SpinChain::metropolis_update_maglab"]}
{"id": "C72", "title": "The step follows the equations of motion to second order", "statement": "Let X solve dS_i/dt = S_i x Omega_i (exchange with both neighbours minus static field and drive, taken at the running time) from the chain's state for a time T. Then the state after k updates with time step dt, k dt <= T, is within K dt^2 of X at time t + k dt on every site, with one K for all dt and k; a single update is within K dt^3. If no field vanishes along X, all sufficiently short steps succeed. The order is not higher: there is a driven chain on which the error after unit time is at least c dt^2 for every step 1/k.", "quantifier": "all well-formed rings of an even number of sites, couplings, fields, drives, unit spins, exact solutions, time steps and step counts", "why_tests_cant": "a convergence order is a statement about all time steps and all times; the unit tests compare a few rotations with closed forms at one step", "anchors": ["src/spinchain.rs:SpinChain::update", "src/spinchain.rs:SpinChain::rotate_even", "src/spinchain.rs:SpinChain::rotate_odd", "src/spin.rs:Spin::rotate"]}
{"id": "C73", "title": "The step with baths follows the damped equations of motion to first order only", "statement": "Let X solve dS/dt = S x Omega inside the open chain and dS/dt = S x (Omega - gamma S x Omega) at its two ends. Then the state of the Langevin chain after k noise-free steps dt, k dt <= T, is within K dt of X on every site, with one K for all dt and k; without bath and drive it is within K dt^2. If no field vanishes along X, all sufficiently short steps succeed. First order is all there is: there is an undamped driven chain and an undriven damped chain on each of which the error at a fixed time is at least c dt.", "quantifier": "all well-formed chains of an even number of sites, couplings, fields, drives, dampings, unit spins, exact solutions, time steps and step counts", "why_tests_cant": "a convergence order is a statement about all time steps; the code has no test of the Langevin step at all, and a loss of one order shows up only as a slowly vanishing bias", "anchors": ["src/spinchain_langevin.rs:SpinChainLangevin::update", "src/spinchain_langevin.rs:SpinChainLangevin::even_omega", "src/spinchain_langevin.rs:SpinChainLangevin::odd_omega", "src/spin.rs:Spin::rotate"]}
{"id": "C74", "title": "The equations of motion have exactly one solution and the steps converge to it", "statement": "For every chain and unit spins the equations of motion of the ring have a solution for any time T, any two solutions agree, and spins stay unit along it; the same for the open chain with damped ends. Hence, with no motion assumed, the program's states after k steps dt are within K dt^2 (Langevin without noise: K dt) of one curve, and two runs to the same time with steps dt and dt' differ by at most K (dt^2 + dt'^2) (Langevin: K (dt + dt')), with one K for all steps and step counts.", "quantifier": "all well-formed chains (even number of sites for the statements on runs), couplings, fields, drives, dampings, unit spins, times, pairs of time steps and step counts", "why_tests_cant": "existence and uniqueness quantify over all curves, and agreement under refinement of the time step over all pairs of steps; a test compares two particular steps on one chain", "anchors": ["src/spinchain.rs:SpinChain::update", "src/spinchain_langevin.rs:SpinChainLangevin::update", "src/spin.rs:Spin::rotate"]}
{"id": "C75", "title": "Work of the drive and the conserved quantity of the rotating frame", "statement": "Along the motion the ring energy changes at the rate 2 pi/tau times the sum over the subsystem of h_extp . S, and the program's total_energy2 follows it within K dt^2. For the rotating drive, couplings equal in x and y and static fields along z, a curve solves the driven equations if and only if, seen from the frame turning with the drive, it solves the undriven equations with the static fields increased by (1,0,0) on the subsystem and (0,0,-2 pi/tau) everywhere; the energy in that frame is the energy minus 2 pi/tau times the total magnetisation along z, it is constant along the motion, and along runs of the program it changes by at most K dt^2. With the noise off the fit modes build exactly these fields (for hfield = hs = 0) and such couplings.", "quantifier": "all well-formed chains, subsystem sizes, couplings, fields, drives, solutions, time steps and step counts", "why_tests_cant": "the work balance holds at every time of every motion and the bound on the drift of the conserved quantity has one constant for all steps; a run shows one drift for one step", "anchors": ["src/spinchain.rs:SpinChain::update", "src/spinchain.rs:SpinChain::h_extp", "src/spinchain.rs:SpinChain::total_energy2", "src/spinchain.rs:SpinChain::m_tot", "src/main.rs:main", "src/spinchain.rs:SpinChain::new"]}
{"id": "C76", "title": "What the fit modes append to their result files", "statement": "After an invocation that completes, each of beta.dat, betat.dat, betat-rot.dat and betat-maglab.dat holds what it held before followed by exactly one line per mode that reports to it, in the order in which the modes ran; the line consists of the values that mode computed from the configuration it was given. In exact arithmetic the line of --rot, --maglab, --fit and --fit-effective is tau, the energy density asked for, an inverse temperature inside the initial bracket, and the means of energy density and magnetisation over 8000 states of a Metropolis path of the whole chain at that temperature; the line of --high-freq the same at the given temperature.", "quantifier": "all number systems, argument lists, starting directories, random draws and configurations; all mode combinations", "why_tests_cant": "the modes share files and configuration and there are 2^22 combinations; that no other mode disturbs the files is a statement about all of them", "anchors": ["src/main.rs:main", "src/obs.rs:find_beta", "src/obs.rs:get_obs"]}
{"id": "C77", "title": "What the Monte-Carlo modes record", "statement": "In exact arithmetic and with fair draws, --monte-carlo and --monte-carlo-magnus complete, leave the configuration unchanged and append to mc_live.dat what the writer got from the threads: for every thread the rows of the states reached after 10^6, 2*10^6, ... steps of one Metropolis path from the chain the thread made, with the static energy (--monte-carlo) or the second-order energy changes (--monte-carlo-magnus); the numbers of rows are at least one per thread and add up to the number of points. --monte-carlo-profile replaces mc_profile.dat by one line per site with the averages over all recorded states of all threads, in whatever order the messages arrive.", "quantifier": "all chains, configurations, thread and point counts below 2^31, fair random draws and message orders", "why_tests_cant": "a million steps per sample on every thread cannot be compared with a specification by running them; the order of messages is up to the scheduler", "anchors": ["src/obs.rs:run_mc", "src/obs.rs:run_mc_magnus", "src/obs.rs:run_mc_profile", "src/obs.rs:profile_in_bg"]}
{"id": "C78", "title": "The Monte-Carlo steps leave the Boltzmann distribution unchanged", "statement": "For each of the three samplers and every observable that is bounded and uniformly continuous in the uniform numbers giving the directions of the spins, the average with the Boltzmann weight of the sampler's energy at the chain's inverse temperature exists as a limit over ever finer grids of directions; averaging instead the value expected after any number of sampler steps gives the same limit. All energies, energy densities and magnetisations the program computes are such observables. For uncoupled spins in a field h along z the limit for each z component is 1/(b h) - coth (b h).", "quantifier": "all chains of at least two sites, fields, couplings, inverse temperatures, observables and numbers of steps; exact arithmetic", "why_tests_cant": "a distribution cannot be compared with a continuum integral by sampling, and a small bias in the acceptance rule hides in the statistical error", "anchors": ["src/spinchain.rs:metropolis_update", "src/spinchain.rs:metropolis_update_maglab", "src/spinchain.rs:metropolis_update_rot_magnus"]}
{"id": "C79", "title": "The Monte-Carlo steps converge to the Boltzmann distribution from every chain", "statement": "From every chain of unit spins the expected value of an observable after j steps differs from its Boltzmann average by at most 2 B (1 - d)^(j / n), where the observable lies between -B and B, the energy between -E and E, and d = (exp (-2 b E) / n)^n; on a grid of N points per draw a further j B / N is allowed.", "quantifier": "all chains of at least two unit spins, samplers, bounds, observables and numbers of steps; exact arithmetic", "why_tests_cant": "convergence from every start is a statement about infinitely many chains and arbitrarily many steps", "anchors": ["src/spinchain.rs:metropolis_update", "src/spinchain.rs:metropolis_update_maglab", "src/spinchain.rs:metropolis_update_rot_magnus"]}
{"id": "C80", "title": "Means over sampled states estimate the Boltzmann average", "statement": "The mean of an observable over m states taken every q steps has a mean square distance from the Boltzmann average of at most 4 B^2 (1 + 2 r) / m, and the probability that it is further away than eta is at most that over eta^2, where r bounds the sum of (1 - d)^(q (t + 1) / n) over t: n / d will always do, and (1 - d)^(q / n) / (1 - (1 - d)^(q / n)) when q >= n. In particular, over all moves a fit can draw, the energy density and the magnetisation it reports (means over 8000 states) are further than eta from their Boltzmann averages with probability at most 4 B^2 (1 + 2 r) / (8000 eta^2).", "quantifier": "all chains of unit spins, samplers, observables, sample counts and gaps; all four observables of the four fit modes; exact arithmetic", "why_tests_cant": "the probability is over all sequences of up to 80 million moves", "anchors": ["src/obs.rs:get_obs", "src/obs.rs:get_obsh", "src/obs.rs:get_obs_rot", "src/obs.rs:get_obs_maglab"]}
{"id": "C81", "title": "What SpinChain::new starts from, averaged over its draws", "statement": "Over all uniform draws of the construction, with L = coth beta - 1/beta: the fraction of draws that give an undefined spin goes to zero; the mean of spin i is L^(i+1) times the fixed start direction (cos 0.01, sin 0.01, 0); the mean of S_i . S_j is L^(j-i); for isotropic couplings the mean of total_energy2 is (-((n-1) L + L^(n-1)) + sum_i L^(i+1) first_dir . B_i) / n with B_i the field on site i; with no fields and beta = solve_beta(e) it is within 0.02 + 2/n of e.", "quantifier": "all sizes below 2^31, temperatures other than beta = 0, static fields, drives, noise values; targets -1 < e <= -0.34; exact arithmetic", "why_tests_cant": "the unit test initialise_energy averages ten chains of the default configuration; the statement is about the mean over all draws for every configuration", "anchors": ["src/spinchain.rs:new", "src/spinchain.rs:solve_beta", "src/spinchain.rs:total_energy2", "src/spinchain_langevin.rs:new"]}
{"id": "C82", "title": "What a command line means", "statement": "A command line is accepted exactly when its words can be read by the grammar of long options, clusters of short options and values, no option but --n-steps occurs twice, and all numbers can be read; then every field of Args has the value its setting stands for. There is at most one reading, every list of settings can be written down, and the order of settings does not matter except among the values of --n-steps. `--name v`, `--name=v`, `-c v`, `-c=v` and `-cv` agree unless v begins with a hyphen and the option does not allow that; then the separate forms are refused, so that -E -0.5 is an error. --n-steps takes one value per occurrence and refuses a list with commas. The options are those of the README's usage text. A completed run passes through the modes of its settings in the fixed order, or the plain simulation if there are none.", "quantifier": "all lists of ASCII words, all functions that read numbers, all directories and random draws, any arithmetic", "why_tests_cant": "there are no tests of the command line; the combinations of options, spellings and values are unbounded", "anchors": ["src/main.rs:Args", "src/main.rs:main", "README.md"]}
{"id": "C83", "title": "The energy a temperature search inverts, and what the search finds", "statement": "The Boltzmann average of the energy is a function of the inverse temperature b that never rises, and falls strictly for b >= 0 unless the energy is constant; its slope is at most 4 M^2 and at least the variance at b = 0 times exp(-4 b M). So each energy in between belongs to exactly one b >= 0. If the estimates a search asks for are within eta of the averages and the target is in reach, the average at the temperature found is within eta + M B / 500 of the target, and for find_beta2 and find_betah that temperature is within 0.0005 + eta n / (exp(-20 M) Var) of the true one. There are random numbers with which the estimates are that good, for every eta > 0. find_beta averages another energy than the one it samples; for uncoupled spins in a field -2 pi / tau < h < 0 that average rises with b and the search, with good estimates, ends at the wrong end of its bracket.", "quantifier": "all ensembles, chains, temperatures, targets, sequences of random numbers; all five searches; exact arithmetic", "why_tests_cant": "averages over all spin directions at all temperatures; all sequences of random numbers", "anchors": ["src/obs.rs:find_beta", "src/obs.rs:find_beta2", "src/obs.rs:find_betah", "src/obs.rs:find_beta_rot", "src/obs.rs:find_beta_maglab", "src/obs.rs:estim_e"]}
{"id": "C84", "title": "A temperature search seldom misses", "statement": "Over all random numbers of the moves of a search: if each estimate inside the bracket is off by more than eta with probability at most P, then the search finds no temperature, or one at which the average is further than eta + L / 2000 from the target, with probability at most 13 P (L bounds the slope of the average). Without disorder P may be 4 B^2 (1 + 2 r) / (1000 eta^2) for the Boltzmann averages, with r as in C80 at b = 5.", "quantifier": "all five searches, all configurations, all moves drawn, in the limit of fine grids of uniform numbers; exact arithmetic", "why_tests_cant": "the probability is over all sequences of up to 160 million moves", "anchors": ["src/obs.rs:find_beta", "src/obs.rs:find_beta2", "src/obs.rs:find_betah", "src/obs.rs:find_beta_rot", "src/obs.rs:find_beta_maglab"]}
{"id": "C85", "title": "Steps and lines of the Langevin and extended runs; how strobing rounds", "statement": "In exact arithmetic a run of --langevin makes twenty million moves and then ceil((t + trel)/dt) steps; its log, written even if logging is off, has a header of six words and then, without strobing, one line of eight numbers per state, beginning with the times -trel, -trel + dt, .... With strobing (trel = 0) the period has as many steps as the whole number nearest tau/dt, and the states after whole periods are logged; a period shorter than half a step panics. The other modes round tau/dt down instead: in binary64, with tau = 0.3 and dt = 0.1, the default simulation takes the period to be two steps long. --ext writes the plain line of the initial state and then one block per step.", "quantifier": "all well-formed chains, noise, random numbers, run lengths", "why_tests_cant": "all run lengths and all noise; the miscounted period appears only for particular pairs (tau, dt)", "anchors": ["src/obs.rs:run_langevin", "src/obs.rs:run_sim", "src/obs.rs:run_ext", "src/spinchain_langevin.rs:log"]}
{"id": "C86", "title": "Rounding: runs in binary64 stay close to the exact run and to the motion", "statement": "If sin and cos are right to 2^-50: a rotation in binary64 of a spin that is a unit vector to 2^-50 about a field of length F for a time dt is within 2^-39 (1 + F dt) of the precession. With couplings at most 1 and field components at most 6, k steps in binary64 and k steps in exact arithmetic of the same driven chain with |h_z| >= 4 end with each spin within exp(4T) (d + k 2^-37 + T (2^-32 + 2^-44 drift)) of its counterpart, where T = k dt, d is the distance at the start and drift = k (|t0| + T + 1) / tau accounts for the rounding of the clock. Without the strong field, but with a motion along which no site's field is shorter than m, the run in binary64 is within K dt^2 plus that of the motion itself, as long as dt is small and the rounding at most m/32. The constant used for pi is within 2^-51.", "quantifier": "all binary64 chains in the stated ranges, all drives, up to 2^50 steps, all maths libraries with that accuracy", "why_tests_cant": "the exact run and the motion cannot be computed; all inputs and any number of steps", "anchors": ["src/spin.rs:rotate", "src/spinchain.rs:rotate_odd", "src/spinchain.rs:rotate_even", "src/spinchain.rs:h_ext", "src/spinchain.rs:update"]}
{"id": "C87", "title": "Rounding: spins keep their length and chains their energy, or a spin is lost for good", "statement": "If sin and cos are right to 2^-50, couplings are at most 1 and field components at most 6, a run in binary64 never fails; after any number of steps each spin is a unit vector to 2^-50 or has a NaN component (it is lost). A lost spin stays lost and takes its neighbours along: after k steps every spin up to k places away is lost, and after n/2 steps the whole ring. For a ring of even size n a step keeps the energy in the field at the middle of the step up to n (2^-34 (4 + 48 dt) + 2^-41 drift) while no spin is lost, whatever the drive; with a field that does not change, k steps keep the energy up to n k 2^-34 (4 + 48 dt). The energy density printed is within n 2^-43 of the energy of the spins per site, or NaN if a spin is lost, so after k steps it is NaN or within k 2^-34 (4 + 48 dt) + n 2^-42 of the value printed at the start. With |h_z| >= 4 and no drive no spin is ever lost. There is a pair that meets the conditions and loses a spin in its first step.", "quantifier": "all binary64 chains in the stated ranges, any number of steps (up to 2^50 when the drive depends on time), all maths libraries with that accuracy", "why_tests_cant": "any number of steps; fields that cancel to the last bits are too rare to hit by sampling", "anchors": ["src/spin.rs:rotate", "src/spinchain.rs:rotate_odd", "src/spinchain.rs:rotate_even", "src/spinchain.rs:update", "src/spinchain.rs:total_energy2"]}
{"id": "C88", "title": "What one mode option does: its numbers, the defaults of the help text, and its files", "statement": "For a command line that asks for one mode: --histogram adds as many lines as asked for, or 8000, to hist_mc.dat and to hist_dyn.dat; --magnus-hist as many, or 8000, to hist_mc_magnus.dat; -d gives as many, or 1000, to the writer of dyn-hist-t-<t>.dat; -l runs with the damping given, or 1, on the system proper at the temperature of -b or of the energy density. In exact arithmetic -s, if the period is a whole number of steps, adds as many lines as asked for, or 1000, to hist-st-t-<t>.dat, the first column being the ends of the periods 31, 32, ...; -n writes one line for each period listed to evt<k>.dat, for the state after k periods, where k is that of --steps or 1000. The files that the help text names for -d and -s, hist_dyn.dat and hist_sj.dat, are not touched.", "quantifier": "all configurations, directories, random numbers, option values", "why_tests_cant": "the default sizes take hours to run; all directories and option values", "anchors": ["src/main.rs:main", "src/obs.rs:gen_hist", "src/obs.rs:gen_hist_magnus", "src/obs.rs:gen_hist_dynamics", "src/obs.rs:gen_single_traj", "src/obs.rs:run_tau"]}
{"id": "C89", "title": "From runs to averages: what -a and -w make of the logs of several invocations", "statement": "In exact arithmetic, after K completed default invocations of the program in a directory without files that <file>*.dat stands for, each of the K*runs logs has one line for each of the times -trel, -trel+dt, ... up to the first that is not below t, and -a writes to avg.dat, for each of these times but the first, the means over all logs of all invocations, column by column (NaN if one is NaN): the first line of a default log is data, but is taken for a header. After Langevin runs, whose logs have a header, the means are there for all times. -w writes the means of x(time) x(0), where x(0) is the line of the same log at time 0, if trel is a whole number of steps; after default runs with trel = 0 it panics, because the line at time 0 is the one that is skipped. Nothing else in the directory changes. Averaging again gives the same avg.dat, unless <file>*.dat stands for avg.dat too.", "quantifier": "all numbers of invocations and runs, all configurations with logging, all directories and random numbers", "why_tests_cant": "any number of invocations, runs and steps; spans several processes that share only the directory and the configuration file", "anchors": ["src/main.rs:main", "src/obs.rs:run_sim", "src/obs.rs:run_langevin", "src/obs.rs:average", "src/obs.rs:two_point_average"]}
{"id": "C90", "title": "In binary64 every spin the program makes is a unit vector up to rounding, or lost for good", "statement": "With binary64 numbers and any maths library that is accurate to 2^-50 in sin and cos and passes NaN on: every spin of a new chain, whatever the configuration and random numbers, is a unit vector up to 2^-50 in its squared length, or has a NaN component (is lost). Monte Carlo moves of all five kinds, in any number and order, put in unit vectors up to 2^-44, never move a lost spin and lose none. Any number of steps of the dynamics after that does not fail, keeps the spins unit vectors up to 2^-44, and up to 2^-50 on the ring once there is a step, or lost, for every configuration with couplings and fields of the size of the default ones. A chain drawn at an inverse temperature whose exponential overflows (above about 709), at inverse temperature 0, or at NaN, has lost every spin; no move and no step brings one back, and nothing panics.", "quantifier": "all maths libraries that meet the conditions, all configurations, random numbers, sequences of moves and numbers of steps", "why_tests_cant": "any number of moves and steps, all random numbers, and all maths libraries that meet the conditions; NaN does not fail a comparison-based assertion loudly", "anchors": ["src/spinchain.rs:new", "src/spinchain.rs:metropolis_update", "src/spinchain.rs:update", "src/spin.rs:rotate", "src/spin.rs:new_from_angles"]}
{"id": "C91", "title": "Langevin chains in binary64 keep unit vectors or lose spins, whatever the noise; at infinite temperature they panic", "statement": "With binary64 numbers and a maths library as in C90: a Langevin chain made from a configuration with couplings and fields of the size of the default ones, with damping between 0 and 1024, a temperature of at most 256 and a time step of at least 2^-100, can take any number of Monte Carlo moves of both kinds and then any number of steps with normal random numbers of at most 32 in size, without a panic. All spins remain unit vectors up to 2^-44 in the squared length, and up to 2^-50 on the ring once there is a step, or are lost (have a NaN component); a lost spin stays lost, and moves lose none. The damping and noise terms at the two end spins, which divide by the time step, cannot blow up the rotation angle beyond what the library covers. At inverse temperature 0 the first step panics in every such chain, because the standard deviation of the noise is not finite.", "quantifier": "all maths libraries that meet the conditions, all such configurations, dampings, random numbers, sequences of moves and numbers of steps", "why_tests_cant": "any number of moves and steps and all random numbers; NaN does not fail a comparison-based assertion loudly", "anchors": ["src/spinchain_langevin.rs:new", "src/spinchain_langevin.rs:metropolis_update", "src/spinchain_langevin.rs:metropolis_update_magnus", "src/spinchain_langevin.rs:update", "src/spinchain_langevin.rs:even_omega"]}
{"id": "C92", "title": "What the default mode writes in binary64: lines of sensible numbers, then perhaps lines with NaN", "statement": "With binary64 numbers and a maths library as in C90, for every configuration with couplings and fields of the size of the default ones and a subsystem of at least two sites, whatever the random numbers: every log file of the default mode begins with lines of 13 numbers, in which the energies per site are at most 30 + 2^-10 in size, the magnetisations per site at most 1 + 2^-16, and the two watched spins are unit vectors up to 2^-44; if from some line on a spin has been lost, every later line has NaN as the energy of the chain, to the end of the file. A chain that has lost a spin when it is made gives a log whose every line has NaN. No line has an infinite energy or magnetisation before, and no log goes back from NaN to numbers.", "quantifier": "all maths libraries that meet the conditions, all such configurations, random numbers, directories, numbers of runs and steps", "why_tests_cant": "any number of steps, sites and runs, and all random numbers and maths libraries that meet the conditions", "anchors": ["src/obs.rs:run_sim", "src/spinchain.rs:log", "src/spinchain.rs:total_energy2", "src/spinchain.rs:system_energy", "src/spinchain.rs:m"]}
{"id": "C93", "title": "Every run starts with twenty million Metropolis moves, and what it records afterwards", "statement": "Whatever kind of numbers the program works with: in the default mode and the mode with the extended log, the log of run i holds the row of the state that exactly 20,000,000 plain Metropolis moves, with the random numbers of run i, make of the new chain, and then, in order, the rows of the states after the 1st, 2nd, ... time step that are to be logged - all of them, or with `strob` those whose time divided by dt, truncated, is a multiple of the truncated tau/dt - up to and including the first step that does not end before the final time. The eight profile files are made from the snapshots taken of such runs at the steps whose time is within dt/5 of 500, 1000, ..., 4000 periods, with the final time set to 4000 periods. The mean energy is the mean of samples of trajectories that start after the same twenty million moves.", "quantifier": "all number systems, configurations, random numbers, directories, orders in which messages arrive, and numbers of runs and steps", "why_tests_cant": "any number of runs and steps, and every kind of number; twenty million moves before the first line", "anchors": ["src/obs.rs:run_sim", "src/obs.rs:run_ext", "src/obs.rs:run_dyn_profile", "src/obs.rs:trajectory_mean_e"]}
{"id": "C94", "title": "What the Langevin mode logs in binary64", "statement": "With the floating-point numbers the program uses, a configuration like the default one (C90), a damping between 0 and 1024, a temperature of at most 256 and noise of at most 32 in size: the log of every run of the Langevin mode is the header followed by at least one row, and the rows come in at most three stretches, in this order. First rows in which the time is a number, the two energies are the same number of at most 30 + 1/1024 in size and the four mean spin components are numbers of at most 1 + 2^-16; then, only if spins outside the subsystem were lost to NaN, rows of which the same holds except for the mean over the whole chain; then, only if a spin of the subsystem was lost, rows in which both energies are NaN. If the subsystem is the whole chain, as it is when the program is called with -l, there is no second stretch. A row has NaN energies exactly if a spin of the subsystem is lost, and a run whose new chain has already lost such a spin consists of such rows only.", "quantifier": "all configurations like the default one, dampings, temperatures, random numbers and noise of the stated sizes, libms accurate as stated, directories, and numbers of runs and steps", "why_tests_cant": "any number of steps and every rounding; twenty million moves before the first row", "anchors": ["src/spinchain_langevin.rs:log", "src/spinchain_langevin.rs:update", "src/obs.rs:run_langevin"]}
{"id": "C95", "title": "What the Monte-Carlo modes record in binary64", "statement": "With the floating-point numbers the program uses and a configuration like the default one (C90), the modes --monte-carlo and --monte-carlo-magnus never panic, and of the lines a thread sends to mc_live.dat either none has NaN or all have NaN as the energy of the chain. Which of the two is decided by the chain the thread drew at the start, before the first Monte-Carlo move: if all its spins are numbers, every line has two energies per site of at most 30 + 1/1024 in size, three mean spin components of at most 1 + 2^-16, and two spins whose squared length is within 2^-44 of 1, after any number of moves; if it has a lost spin, no number of moves repairs it. The lines of all threads together are as many as configured, and what is added to mc_live.dat consists of such lines if only lines that were sent reach the disk.", "quantifier": "all configurations like the default one, uniform random numbers, libms accurate as stated, directories, numbers of threads and points, any of the five samplers", "why_tests_cant": "a million moves before each line, any number of lines, and every rounding", "anchors": ["src/obs.rs:run_mc", "src/obs.rs:run_mc_magnus", "src/spinchain.rs:metropolis_update", "src/spinchain.rs:mc_system_energy"]}
{"id": "C96", "title": "What the averages over binary64 logs contain", "statement": "Averaging with the floating-point numbers the program uses does not spoil a column by rounding: if in some row all files that have the row have, in some column, numbers of at most z/65536 in size (z an integer, the number of files times z below 2^53), the mean written is a number of at most z/65536 in size, not just up to rounding errors. If one of them has NaN there, the mean is NaN. Hence after runs of the default mode (with a configuration as in C90) and then -a, each line of avg.dat has two energies per site of at most 30 + 1/1024 in size and ten mean spin components of at most 1 + 2^-16 if none of the runs that have the line had lost a spin by then, and has NaN as the energy of the chain if one had: one lost spin in one of any number of runs makes the averaged energy NaN.", "quantifier": "all files and directories, numbers of files and rows, binary64 values; for the last sentence all configurations like the default one, uniform random numbers, libms accurate as stated, fewer than 2^30 runs", "why_tests_cant": "every sequence of roundings for any number of files, of which a test averages a few", "anchors": ["src/obs.rs:average", "src/obs.rs:run_sim"]}
{"id": "C97", "title": "The times in the logs depend on the configuration only", "statement": "Whatever kind of numbers the program works with: the first column of every log of the default mode is -trel, followed by those of the times -trel + dt, (-trel + dt) + dt, ... (each rounded as the arithmetic rounds), up to and including the first that is not below t, which are logged: all of them, or with strob those that, divided by dt and truncated, are a multiple of the truncated tau/dt. The same holds of Langevin logs, below a header, with tau/dt rounded to the nearest integer, and of the logs of response runs, which after the line for -trel go on from -t. There is one such list of times for a configuration, so all logs of it have the same number of lines with, bit by bit, the same times, whatever the random numbers. Hence in binary64, after runs of the default mode with a configuration as in C90, -a writes as many lines as the logs have but one: lines of numbers with the bounds of C96 and then, from the time on at which one of the runs has lost a spin, lines with NaN as the energy of the chain and no others.", "quantifier": "all arithmetics, configurations with log on, random numbers, noise, directories and numbers of runs; for the last sentence configurations like the default one, uniform random numbers, libms accurate as stated, fewer than 2^30 runs", "why_tests_cant": "all configurations, random numbers and roundings; any number of lines", "anchors": ["src/obs.rs:run_sim", "src/obs.rs:run_langevin", "src/obs.rs:run_sim_response", "src/obs.rs:average", "src/spinchain.rs:update"]}
{"id": "C98", "title": "-w panics after default runs with no line at time 0", "statement": "Whatever kind of numbers the program works with: if the list of times of C97 has an entry after the first, and none after the first lies within 1e-5 of 0, then -w after runs of the default mode in a directory without logs panics (index out of range in the data of the t = 0 line). In binary64 this is so whenever trel is 0, the step dt is a positive number not below 1e-5, strob is off and t > 0: the line at time 0 is then the first of every log, which two_point_average skips, and no rounding brings a sum of steps below one step. In particular, with the default configuration the default mode completes and -w after it panics, for every libm and all random numbers.", "quantifier": "all arithmetics, configurations with log on, random numbers, libms, numbers of runs, directories without files that look like logs", "why_tests_cant": "all configurations, random numbers and roundings; any number of lines", "anchors": ["src/obs.rs:two_point_average", "src/obs.rs:run_sim", "src/config.rs:Config"]}
{"id": "C99", "title": "What two-point.dat contains in binary64", "statement": "In binary64, after runs of the default mode with a configuration as in C90 in a directory without logs, when one of the times of C97 after the first lies within 1e-5 of 0: -w returns (it neither panics nor needs anything else of the logs), and two-point.dat has one line for each line of a log but the first. These are first lines of means of products with the values at time 0 that are finite numbers, at most 901 for the two energies per site and at most 1 + 1/16384 for the ten spin columns, and then, if one of the chains has lost a spin, lines with NaN in place of the energy of the chain; if all lines of all logs consist of numbers, so do all lines of two-point.dat.", "quantifier": "all configurations like the default one, uniform random numbers, libms accurate as stated, fewer than 2^26 runs, any number of steps", "why_tests_cant": "all configurations, random numbers, libms and roundings; any number of files and lines", "anchors": ["src/obs.rs:two_point_average", "src/obs.rs:run_sim"]}
{"id": "C100", "title": "What the averages over Langevin logs contain in binary64", "statement": "In binary64, after Langevin runs with a configuration, damping and noise as in C91 in a directory without logs, avg.dat as written by -a has one line for each time of C97, the first included: for Langevin logs it is the header that is left out, not the line for the start. These are first lines of finite means, the two energies per site at most 30 + 1/1024 and the three means over the subsystem at most 1 + 2^-16 in size (the mean over the whole chain too, if the subsystem is the whole chain), and then, from the time on at which one of the chains has lost a spin of its subsystem, lines with NaN as both energies and no others.", "quantifier": "all configurations like the default one, dampings, uniform and normal random numbers of bounded size, libms accurate as stated, fewer than 2^30 runs, any number of steps", "why_tests_cant": "all configurations, random numbers, libms and roundings; any number of files and lines", "anchors": ["src/obs.rs:average", "src/obs.rs:run_langevin"]}
