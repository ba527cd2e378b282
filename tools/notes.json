{
 "C01": {
  "note": "Exact arithmetic with NaN; the panic statement holds for every number type."
 },
 "C05": {
  "note": "Binary64, any maths library; also in exact arithmetic. Finding: a zero local field turns a spin into NaN instead of leaving it unchanged."
 },
 "C07": {
  "note": "The degenerate case (rotated direction with x = 0) is shown to give a NaN azimuth in exact arithmetic."
 },
 "C08": {
  "note": "Finding: azimuth of +y with x = +0 is 3pi/2 in binary64."
 },
 "C64": {
  "note": "Finding: the two energy columns of the Langevin log show the same subsystem energy; the subsystem energy is that of an open segment in the logs and of a closed ring in mc_live.dat."
 },
 "C65": {
  "note": "run_ext leaves out site 0 and never reports the last site of the chain."
 },
 "C66": {
  "note": "Statements in exact arithmetic; strobing off for the run (with strobing the lines are thinned as in C53/C54)."
 },
 "C67": {
  "note": "Exact arithmetic, for chains whose construction succeeds with finite values and draws in their ranges."
 },
 "C68": {
  "note": "Exact arithmetic. Ending exactly with the period is refuted for periods of 10 or more (C68_end_refuted, tau = 10.01)."
 },
 "C69": {
  "note": "C69_hist and C69_magnus hold in every number system, for runs that return; the meaning of the test and the conservation of energy in exact arithmetic; C69_nan in binary64."
 },
 "C70": {
  "note": "C70_dynamics in every number system; C70_single, C70_periods in exact arithmetic. Lines at period ends refuted when the period is not a multiple of the step (C70_periods_refuted)."
 },
 "C71": {
  "note": "Exact arithmetic. C71_second and C71_first for at least three sites and a nonzero period; the limits for every state, site and direction."
 },
 "C72": {
  "note": "Exact arithmetic. Even number of sites (with an odd number the last spin does not move, C27). C72_order and C72_step speak of the runs that end in numbers; C72_completes gives a condition under which all runs with short steps do. Existence and uniqueness of X: C74."
 },
 "C73": {
  "note": "Exact arithmetic, draws without effect (no damping, or all zero): the deterministic part of the step. Even number of sites. C73_order and C73_isolated speak of the runs that end in numbers; C73_completes gives a condition under which all runs with short steps do. Existence and uniqueness of X: C74."
 },
 "C74": {
  "note": "Exact arithmetic. The statements on runs speak of the runs that end in numbers (a vanishing field gives NaN, C05) and of an even number of sites; the Langevin statements of noise-free draws."
 },
 "C75": {
  "note": "Exact arithmetic. C75_program and C75_energy_order need an even number of sites and runs that end in numbers; C75_fit_chain needs jvar = hvar = 0 (with noise the couplings differ in x and y and the frame is not exact)."
 },
 "C76": {
  "note": "C76_lines for every number system. C76_fit and C76_high are about exact arithmetic and chains with real contents made by SpinChain::new; the line of --adiabatic is covered by C76_lines with C67 and C68 for its values."
 },
 "C77": {
  "note": "Exact arithmetic; what write_in_bg gets onto the disk from the lines of the threads is the oracle r_file (C46)."
 },
 "C78": {
  "note": "Exact arithmetic. Means over the draws are means over midpoint grids of [0,1], in the limit of fine grids; random numbers are independent and uniform by that definition (trusted: that rand provides such numbers)."
 },
 "C79": {
  "note": "Exact arithmetic. The rate (exp (-2 b E) / n)^n is pessimistic: it proves convergence and is not a practical estimate of the time needed."
 },
 "C80": {
  "note": "Exact arithmetic. With the pessimistic rate of C79 the bound is informative only where b E and n are small (C80_lasting_case: two weakly coupled spins, r = 1/100); the statement for general m gives convergence of the estimates."
 },
 "C81": {
  "note": "Exact arithmetic. Means are over midpoint grids with an even number of points for each uniform draw, in the limit of fine grids. The normal draws of couplings and fields are arbitrary but fixed. The energy statements are for lambda = 1 and jvar = 0; SpinChainLangevin::new gives the same spins (C10_langevin_new)."
 },
 "C82": {
  "note": "clap is not part of the repository: its rules are transcribed in Cli.v and belong to the trusted base. Numbers are read by arbitrary functions. The statements about spellings and refused values are for the first word of the line."
 },
 "C83": {
  "note": "Exact arithmetic. C83_rising is a finding about find_beta alone: its chain has couplings zero, which SpinChain::new makes only when the disorder drawn cancels (1, 1, lambda), and a field along z, which --adiabatic gives for hfield = (-1, 0, h + 2 pi / tau); --fit sets h = -2 pi / tau. C83_good_draws shows that the hypothesis on the estimates can be met by actual draws, for every eta."
 },
 "C84": {
  "note": "Exact arithmetic. The explicit bound of C84_search uses the pessimistic rate of C79 at b = 5 and is below 1 only for very weak energies; C84_union does not depend on it: it turns any bound for single estimates into one for the search. C84_search is for jvar = hvar = 0, where all chains of a search have the same Hamiltonian."
 },
 "C85": {
  "note": "C85_steps, C85_files, C85_periods, C85_short_period and C85_ext are in exact arithmetic; C85_binary64 and C85_langevin64 are binary64 with arbitrary libm functions."
 },
 "C86": {
  "note": "Binary64 beside exact arithmetic; `accurate L` (sin and cos right to 2^-50, values in [-1,1]) is the only assumption on the maths library, and C86_library shows a library that meets it. C86_steps needs |h_z| >= 4, so that no field vanishes; C86_motion instead a lower bound on the fields along the motion. Not covered: the Monte-Carlo moves and the Langevin noise in binary64."
 },
 "C87": {
  "note": "Binary64; `accurate L` as in C86. The bound per step (2^-34) is that of the proof: it covers fields so small that their squares underflow. Odd rings are left out because the splitting itself does not keep their energy (C27). Monte-Carlo moves in binary64: C90. Not covered: Langevin noise in binary64."
 },
 "C88": {
  "note": "Finding: -d and -s do not write the files that --help names for them. What the writer thread gets onto the disk is `r_file` of what it is given (C46)."
 },
 "C89": {
  "note": "Exact arithmetic with NaN. Findings: the first line of default logs is left out of averages; -w panics after default runs with trel = 0; with a file prefix such as \"a\" a second -a averages the first avg.dat in. C89_two_point and C89_two_langevin ask for a dt of at least 1e-5, since the time 0 is found as |t| < 1e-5. Names of logs are as in C51."
 },
 "C90": {
  "note": "Binary64. `proper L` asks of the maths library: `accurate` as in C86, NaN gives NaN, acos gives a number on [-1,1] and a number or NaN elsewhere, atan a number of at most 2 or NaN. Finding: beta = 0 and beta above about 709 give chains of NaN spins without a message; the test at spinchain.rs:1999 works at beta = 1000 because it changes beta after the chain was drawn. Not covered: how likely a chain of finite beta loses spins because of rounding in ln/acos, which depends on the library."
 },
 "C91": {
  "note": "Binary64; `proper L` as in C90. The bound 32 on the normal draws covers what any practical generator gives (a larger draw has probability below 1e-220), but is a hypothesis. Finding: --langevin with beta = 0 panics at the first step. Not covered: the energies and the logs of such runs."
 },
 "C92": {
  "note": "Binary64; `proper L`, `mild_conf` and `plain_draws` as in C90. C92_run and C92_files speak of runs that return; that they do is C63. Bounds are exact for binary64: no error term grows with the number of sites, because the bounds of the partial sums are themselves binary64 numbers. Not covered: the columns other than the energy of the chain once a spin is lost."
 },
 "C93": {
  "note": "About invocations that return; that they do is C45, C58 and C63. The warm-up of the other modes: C50 (`--tau`), C66 (`--response`), C85 (Langevin). Added after mutation B31 (fewer warm-up moves in the default and profile modes) was caught by proof scripts only. What a snapshot and the average of the snapshots are: C15, C45; the samples of a trajectory: C58."
 },
 "C94": {
  "note": "Binary64; `proper L`, `mild_conf`, `mild_bath` and the sizes of random numbers as in C90 and C91. C94_run and C94_files speak of runs that return. Nothing is said of the last column, the boundary term, nor of the columns after the energies once a spin of the subsystem is lost, nor of the mean over the chain once a spin outside is lost."
 },
 "C95": {
  "note": "Binary64; `proper L`, `mild_conf` and the sizes of random numbers as in C90. That the lines reaching the disk were sent is the hypothesis `sent_only` of the last clause; which of them do is left open, as in C46. Not covered: the columns after the first once a spin is lost; --monte-carlo-profile."
 },
 "C96": {
  "note": "Binary64. The hypotheses of C96_files are those of C92_files, an empty directory as far as names of logs go, and an average that returns (it does unless t/dt asks for an impossible capacity, C47). The time column is not bounded: C92 says that times are numbers, not how large they are. Not covered: the columns after the chain's energy in a line with NaN. For logs of different configurations a later line may consist of numbers again, if only logs without NaN are long enough to have it; for the logs of one configuration C97 excludes it."
 },
 "C97": {
  "note": "About invocations that return; that they do is C63. The first four theorems are for every arithmetic and need no axiom; C97_averages has the hypotheses of C96_files. Nothing is said of the time column of avg.dat: in binary64 the mean of equal times need not be that time."
 },
 "C98": {
  "note": "C89_two_panics is the same over exact numbers, for whole sessions of main; here the rounding of the times is covered, for one invocation of the default mode followed by -w (run_two_point). C98_off_beat is for every arithmetic and needs no axiom."
 },
 "C99": {
  "note": "Complements C98: with a line at time 0 after the first, -w works. The hypotheses are those of C96_files with fewer runs (the sum of the products of that many energies is still exact to the bound); the average itself need not be assumed to return. Not covered: the time column, and the columns after the energy in lines with NaN."
 },
 "C100": {
  "note": "About invocations that return, as C96_files; the directory is to be tidy (no two entries for a name) and to have no file that looks like a log. Not covered: the time column, the boundary term of a line, the mean over the chain when the subsystem is smaller than the chain, and the columns after the energies in lines with NaN."
 }
}