#!/usr/bin/env python3
"""Writes ../properties.jsonl.  One entry per property; kept as a script so the
list stays readable and can be appended to."""
import json, os
P = []
def p(id, title, statement, quantifier, why, anchors):
    P.append(dict(id=id, title=title, statement=statement, quantifier=quantifier,
                  why_tests_cant=why, anchors=anchors))

# ---------------------------------------------------------------- parameters
p("C01", "A parameter reads back as it was last set",
  "After par_sets/par_seti/par_setd stores a value for (block,name), par_gets on the same block and name returns exactly that text and par_exist reports it present, whatever was in the database before; the stored comment is the new one if one was given and the old one otherwise.",
  "every database state, block, name, value and comment string",
  "The database is a linked structure grown by arbitrary histories of calls; a test exercises a handful of histories.",
  ["src/par.c:par_sets", "src/par.c:par_gets", "src/par.c:add_par", "src/par.c:find_par"])
p("C02", "Setting one parameter leaves all others alone",
  "Storing (block,name) changes neither the value, the comment, nor the listing position of any other parameter, never creates a second entry for the same block and name, and appends new blocks and names at the end.",
  "every history of set operations and every other (block,name)",
  "Aliasing or duplicate entries show only for particular interleavings of names and blocks.",
  ["src/par.c:add_par", "src/par.c:add_block", "src/par.c:find_block"])
p("C03", "Defaults are recorded once and never override",
  "par_gets_def/geti_def/getd_def returns the existing value if the parameter exists; otherwise it records the default (with the comment \"Default Value\") and returns it, so every later read of that parameter, with any default, yields the same value.",
  "every database state, key, and sequence of default values",
  "The property relates two calls separated by arbitrary other reads.",
  ["src/par.c:par_gets_def", "src/par.c:par_geti_def", "src/par.c:par_getd_def"])
p("C04", "Command-line overrides act on existing parameters only",
  "par_cmdline processes every block/name=value argument after the first in order: the value of an existing parameter is replaced (last one wins, comment kept); an argument naming an unknown block or parameter is a fatal error; arguments without '/' followed later by '=' are ignored; the argument strings are left unmodified.",
  "every database and every argument vector",
  "Argument vectors are unbounded and the code edits them in place while parsing.",
  ["src/par.c:par_cmdline"])
p("C05", "Reading an input file assigns exactly what the file says",
  "For an input made of blank lines, comment lines, '<block>' lines and 'name = value # comment' lines (each under the line-buffer length), par_open yields the database in which every (block,name) holds the last value assigned to it in the file, in order of first appearance; reading stops at the <par_end> line; text before the first block or without '=' is a fatal error.",
  "every such file, with any amount of surrounding white space",
  "Files are unbounded and the parser mutates a buffer character by character.",
  ["src/par.c:par_open", "src/par.c:add_par_line", "src/par.c:line_block_name", "src/par.c:skipwhite", "src/par.c:str_term"])
p("C06", "par_dump then par_open reproduces the database",
  "Dumping the database in the format used inside restart files and reading it back yields the same blocks, parameters, values and comments in the same order.",
  "every database whose entries are printable fields (no '#' or line breaks inside names and values, lines under the buffer length); the exact side conditions, and the entries for which the round trip fails, are part of the result",
  "Failure needs particular combinations of empty values, comments and padding widths.",
  ["src/par.c:par_dump", "src/par.c:par_open"])
p("C07", "Parsing touches no memory outside the line buffer",
  "While parsing any line the parser only reads and writes bytes of the line buffer it was given, up to and including its terminating zero.",
  "every byte string of any length and content placed in the line buffer",
  "Out-of-bounds access depends on rare degenerate lines (empty names, leading '=').",
  ["src/par.c:str_term", "src/par.c:skipwhite", "src/par.c:add_par_line", "src/par.c:line_block_name"])
p("C08", "All processes end up with the parameters of rank 0",
  "After par_dist_mpi every other process holds the same blocks, names, values and comments in the same order as rank 0, provided each broadcast line fits the transfer buffer; otherwise the transfer buffer is overrun.",
  "every database on rank 0 and every number of processes",
  "Depends on line lengths and on all database contents.",
  ["src/par.c:par_dist_mpi"])
# ---------------------------------------------------------------- arrays
p("C09", "Multi-dimensional arrays are disjoint, in-bounds and contiguous",
  "calloc_2d_array/calloc_3d_array return an object in which, for all valid indices, element [i][j] (or [t][r][c]) lies inside the allocated block, distinct index tuples denote non-overlapping storage, elements are laid out contiguously in row-major order, and every element is initially zero.",
  "every extent (including 1) and element size",
  "Needs all index pairs for all extents.",
  ["src/ath_array.c:calloc_2d_array", "src/ath_array.c:calloc_3d_array"])
# ---------------------------------------------------------------- filenames/log
p("C10", "Constructed file names fit their buffer and have the documented form",
  "ath_fname allocates enough bytes for every name it builds, and the result is path/basename[-levL][-domD][.dddd][.id][.ext] with the dump number zero-padded to the requested width.",
  "every path, basename, level, domain, dump number, width, id and extension",
  "The size computation has several independent cases that must agree with the formatting for all lengths.",
  ["src/ath_files.c:ath_fname"])
p("C11", "Different dumps never share a file",
  "With path, basename, level, domain, id and extension fixed, ath_fname gives different names for different dump numbers, so successive dumps never overwrite one another; with fixed dump number, different levels or domains give different names.",
  "every pair of distinct dump numbers (of any number of digits)",
  "Collisions appear only when the number outgrows the padding.",
  ["src/ath_files.c:ath_fname"])
p("C12", "Log output honours the levels and the log file is opened once",
  "A message of level L reaches the output (error) stream exactly when L does not exceed the output (error) threshold; with log files enabled the file is opened on the first write only, every later message is appended to the same file, and if it cannot be opened messages go to stdout/stderr instead without being lost.",
  "every sequence of log calls, threshold changes and file-open outcomes",
  "A history property of a stateful interface.",
  ["src/ath_log.c:ath_perr", "src/ath_log.c:ath_pout", "src/ath_log.c:ath_log_out_open", "src/ath_log.c:ath_log_set_level"])
# ---------------------------------------------------------------- signals, baton
p("C13", "All processes agree on stopping",
  "In every call of ath_sig_act all processes return the same decision and hold the same quit flag; the decision is to stop when any process has a pending terminate/interrupt signal or was asked to quit; a signal delivered to any process before the call is not overlooked.",
  "every number of processes, every assignment of pending signals and quit flags, every instant of signal delivery",
  "Signals are asynchronous; a test cannot place them at every instant.",
  ["src/ath_signal.c:ath_sig_act", "src/ath_signal.c:handler"])
p("C14", "No more than the configured number of processes do I/O at once",
  "Between baton_start(Nb,tag) and baton_stop(Nb,tag) at most Nb processes are inside the regulated section at any time.",
  "every number of processes, every Nb>0 and every interleaving",
  "A safety property over all schedules.",
  ["src/baton.c:baton_start", "src/baton.c:baton_stop"])
p("C15", "The I/O baton never deadlocks and every process gets its turn",
  "As long as some process has not passed baton_stop, some process can take a step; every schedule ends with every process having been inside the regulated section exactly once and no message left undelivered.",
  "every number of processes, every Nb and every schedule",
  "A liveness property over all schedules.",
  ["src/baton.c:baton_start", "src/baton.c:baton_stop"])
# ---------------------------------------------------------------- main loop/output
p("C16", "The run ends exactly at the requested time or step",
  "For a fresh start the main loop never advances the simulation time beyond tlim nor the step count beyond nlim (nlim>=0), and when it leaves the loop without a stop request, time = tlim or nstep = nlim; if every uncapped step is at least some d>0 it does leave the loop.",
  "every sequence of time steps produced by the solver, every tlim and nlim",
  "Quantifies over unbounded runs.",
  ["src/main.c:main", "src/new_dt.c:new_dt"])
p("C17", "Scheduled outputs are neither skipped nor duplicated",
  "Each output block is written on the first step at which time has reached its next output time, at most once per step, with dump numbers that increase by exactly one per write starting from the configured number, and its next output time advances by exactly its dt on every scheduled write; a forced (final) output writes every block.",
  "every sequence of times and every set of output blocks",
  "A property of unbounded step histories and schedules.",
  ["src/output.c:data_output"])
p("C18", "A restart resumes the output schedule where it stopped",
  "The time and dump number stored for every output block in a restart file are the ones in force after the step that wrote it, so a resumed run writes the same sequence of (time, number) pairs as the uninterrupted run.",
  "every schedule and every restart point",
  "Needs every crash/restart point of every run.",
  ["src/output.c:data_output", "src/restart.c:dump_restart", "src/output.c:init_output"])
p("C19", "The output table cannot be overrun",
  "data_output never writes outside its per-output work array, for any number of configured output blocks.",
  "every value of maxout and every number of output blocks",
  "Only inputs with many output blocks exercise it.",
  ["src/output.c:data_output", "src/output.c:init_output"])
# ---------------------------------------------------------------- timestep
p("C20", "The time step respects the CFL limit in every active cell",
  "After new_dt, dt*(|v|+c) <= courno*dx holds in each active direction of each active cell of every Grid on every process, c being the sound (or fast magnetosonic) speed of that cell.",
  "every grid content, dimensionality, number of Grids and processes",
  "Universally quantified over cell contents.",
  ["src/new_dt.c:new_dt"])
p("C21", "The time step at most doubles and lands on the final time",
  "After the first step dt never exceeds twice the previous dt; time+dt never exceeds tlim; all Grids on all processes use the same dt.",
  "every history of time steps",
  "History property.",
  ["src/new_dt.c:new_dt"])
p("C22", "The time step limits particle motion to less than a cell",
  "With particles, dt*|v_par| <= courno*dx in each direction for each particle.",
  "every particle velocity, of either sign",
  "Sign-dependent behaviour over all velocities.",
  ["src/new_dt.c:new_dt"])
# ---------------------------------------------------------------- mesh
p("C23", "Grids tile their Domain exactly",
  "The Grids of a Domain cover every cell of the Domain exactly once: along each axis they are consecutive, non-overlapping, start at the Domain's displacement, sum to the Domain's size, and their sizes differ by at most one with the larger ones first.",
  "every Domain size and every number of Grids per direction",
  "All divisions with and without remainder.",
  ["src/init_mesh.c:init_mesh", "src/init_grid.c:init_grid"])
p("C24", "Automatic decomposition is valid and complete",
  "When automatic decomposition succeeds it uses exactly the requested number of processes, with at least one cell per Grid along each axis; it fails only if no such factorisation exists (barring integer overflow).",
  "every Domain size and process count",
  "Number-theoretic property over all sizes.",
  ["src/init_mesh.c:dom_decomp", "src/init_mesh.c:dom_decomp_2d", "src/init_mesh.c:dom_decomp_3d"])
p("C25", "An accepted refined mesh is properly nested",
  "If init_mesh accepts the <domain> blocks then Domains on the same level neither overlap nor touch, and each refined Domain that overlaps a Domain one level coarser lies inside it, at least nghost/2 coarse cells from each of its edges unless both edges lie on the edge of the root Domain; and every refined Domain lies inside some Domain one level coarser.",
  "every list of domain blocks",
  "All geometric configurations.",
  ["src/init_mesh.c:init_mesh"])
p("C26", "Processes are assigned to Grids evenly and unambiguously",
  "Every process is given the same number of Grids, and never more than one Grid of the same Domain; get_myGridIndex finds that Grid.",
  "every number of levels, Domains, Grids and processes accepted",
  "All configurations.",
  ["src/init_mesh.c:init_mesh", "src/init_mesh.c:get_myGridIndex"])
p("C27", "The identifier used to talk to a parent/child Grid is its rank in that communicator",
  "For every child Grid, the ID recorded for communication with the parent Domain is the rank of its process in the parent/child communicator; distinct processes get distinct IDs.",
  "every assignment of processes to parent and child Grids",
  "Shows only when process numbers and communicator ranks differ.",
  ["src/init_mesh.c:init_mesh"])
p("C28", "Neighbour links are symmetric",
  "If Grid A's right (left) neighbour along an axis is Grid B then B's left (right) neighbour is A, the two are adjacent in cell coordinates, and a missing neighbour is reported exactly at the Domain edge.",
  "every decomposition",
  "All Grids of all decompositions.",
  ["src/init_grid.c:init_grid", "src/init_mesh.c:init_mesh"])
p("C29", "Overlap regions are exact",
  "checkOverlap (checkOverlapTouch) answers yes exactly when the two boxes share a cell (share a cell or touch), and then the returned box contains exactly the common cells.",
  "every pair of boxes",
  "All integer boxes.",
  ["src/init_grid.c:checkOverlap", "src/init_grid.c:checkOverlapTouch"])
p("C30", "Cell indices and positions agree",
  "celli/cellj/cellk applied to any position returns the index of the cell containing it together with the fractional offset in [0,1), and is inverse to cc_pos/fc_pos; adjacent Grids assign the same position to shared cell faces.",
  "every position (including left of the Grid origin), cell size and displacement",
  "Real-valued positions.",
  ["src/cc_pos.c:cc_pos", "src/cc_pos.c:fc_pos", "src/cc_pos.c:celli"])
# ---------------------------------------------------------------- boundary
p("C31", "Periodic boundaries wrap",
  "With periodic boundaries on an axis, after bvals_mhd every ghost cell equals the active cell one period away (including edge and corner ghost cells), and no active cell changes.",
  "every grid size and cell content",
  "All cells of all grid sizes.",
  ["src/bvals_mhd.c:bvals_mhd", "src/bvals_mhd.c:periodic_ix1"])
p("C32", "Reflecting boundaries mirror",
  "With a reflecting boundary every ghost cell equals its mirror image with the normal momentum negated; normal face fields are antisymmetric with a zero on the boundary as coded; active cells are unchanged.",
  "every grid size and content",
  "All cells of all grid sizes.",
  ["src/bvals_mhd.c:reflect_ix1"])
p("C33", "Outflow boundaries copy the last active cell",
  "With outflow boundaries every ghost cell equals the nearest active cell along the normal; active data are unchanged.",
  "every grid size and content",
  "All cells of all grid sizes.",
  ["src/bvals_mhd.c:outflow_ix1"])
p("C34", "Splitting a Domain over processes does not change ghost data",
  "Exchanging boundary data between neighbouring Grids gives every Grid the same ghost values as the undivided Domain would have at those positions.",
  "every decomposition and content",
  "All decompositions.",
  ["src/bvals_mhd.c:pack_ix1", "src/bvals_mhd.c:unpack_ox1", "src/bvals_mhd.c:bvals_mhd"])
# ---------------------------------------------------------------- state conversion
p("C35", "Conserved and primitive variables are inverse to each other",
  "Prim_to_Cons after Cons_to_Prim returns the same conserved state, and conversely, whenever density is positive and the pressure is at least the floor; below the floor the pressure returned is the floor and all other fields are unaffected.",
  "every state with positive density, with and without magnetic field and scalars",
  "Real-valued states.",
  ["src/convert_var.c:Cons1D_to_Prim1D", "src/convert_var.c:Prim1D_to_Cons1D", "src/convert_var.c:Cons_to_Prim", "src/convert_var.c:Prim_to_Cons"])
p("C36", "The fast speed bounds the signal speeds",
  "cfast returns a speed not below the sound speed and the normal Alfven speed, equal to the sound speed without field, and the same from conserved and primitive variables.",
  "every admissible state",
  "Real-valued states.",
  ["src/convert_var.c:cfast", "src/convert_var.c:cfast_prim"])
# ---------------------------------------------------------------- reconstruction/fluxes
p("C37", "Piecewise-linear reconstruction creates no new extrema",
  "The left and right interface values computed in a cell lie between the cell value and the neighbouring cell value on that side; uniform data are reproduced exactly.",
  "every stencil of cell values and every slope handed over by the characteristic projection",
  "Real-valued stencils with many branches.",
  ["src/reconstruction/lr_states_plm.c:lr_states", "src/reconstruction/lr_states_prim2.c:lr_states"])
p("C38", "Numerical fluxes are consistent",
  "With equal left and right states every Riemann solver returns the physical flux of that state.",
  "every admissible state",
  "Real-valued states and wave-speed branches.",
  ["src/rsolvers/hlle.c:fluxes", "src/rsolvers/hllc.c:fluxes", "src/rsolvers/roe.c:fluxes", "src/rsolvers/hlld.c:fluxes"])
p("C39", "Numerical fluxes are upwind in supersonic flow",
  "When all wave speeds are positive (negative) the flux is the physical flux of the left (right) state.",
  "every pair of admissible states with supersonic signal speeds",
  "Real-valued states.",
  ["src/rsolvers/hlle.c:fluxes", "src/rsolvers/hllc.c:fluxes"])
# ---------------------------------------------------------------- integrators
p("C40", "The integrators conserve mass, momentum and energy",
  "Over one step the total of each conserved variable in a Grid changes only by dt times the fluxes through the Grid's faces; with periodic boundaries and no source terms it does not change at all.",
  "every grid size, content and set of interface fluxes",
  "Telescoping over all cells.",
  ["src/integrators/integrate_1d_ctu.c:integrate_1d_ctu", "src/integrators/integrate_2d_ctu.c:integrate_2d_ctu", "src/integrators/integrate_3d_ctu.c:integrate_3d_ctu", "src/integrators/integrate_3d_vl.c:integrate_3d_vl"])
p("C41", "The magnetic field stays divergence free",
  "The constrained-transport update leaves the discrete divergence of the face-centred field of every cell unchanged, for any edge electric fields.",
  "every grid, field, time step and EMF",
  "All cells and arbitrary EMFs.",
  ["src/integrators/integrate_2d_ctu.c:integrate_2d_ctu", "src/integrators/integrate_3d_ctu.c:integrate_3d_ctu", "src/utils.c:compute_div_b"])
# ---------------------------------------------------------------- SMR
p("C42", "Restriction conserves",
  "Restricting fine data to a coarse cell preserves volume integrals of conserved variables and the magnetic flux through coarse faces; the restricted field is divergence free if the fine one is. After a step of both levels, flux and EMF correction leave the coarse Grid as if advanced with one flux per face and one EMF per edge, the averaged fine ones on the overlap: totals change only through the boundary of the Grid, div B does not change and coarse and fine fields still agree.",
  "every fine and coarse content, every flux and EMF, every overlap geometry made at initialisation",
  "Real-valued data.",
  ["src/smr.c:RestrictCorrect"])
p("C43", "Prolongation conserves and keeps bounds",
  "Prolonged fine values average to the coarse value, do not exceed the range of the neighbouring coarse values along each direction, and prolonged face fields carry the coarse flux.",
  "every coarse stencil",
  "Real-valued stencils with limiter branches.",
  ["src/smr.c:ProCon", "src/smr.c:mcd_slope", "src/smr.c:ProFld"])
# ---------------------------------------------------------------- restart
p("C44", "Restarting reproduces the state",
  "Reading a restart file written by dump_restart gives back the time, step, dt and every conserved variable, face field and scalar in the active zones exactly, for every Grid.",
  "every mesh, grid size and content, and every physics configuration",
  "All contents and buffer-boundary alignments.",
  ["src/restart.c:dump_restart", "src/restart.c:restart_grids"])
# ---------------------------------------------------------------- utilities
p("C45", "ath_gcd returns the greatest common divisor",
  "For positive a and b, ath_gcd(a,b) divides both and is divisible by every common divisor.",
  "every pair of positive integers", "Unbounded integers.",
  ["src/utils.c:ath_gcd"])
p("C46", "ath_bswap reverses the bytes of every element",
  "ath_bswap(v,len,cnt) reverses the byte order of each of cnt consecutive elements of len bytes and touches no other byte; applying it twice restores the data.",
  "every buffer, element length and count", "All lengths and counts.",
  ["src/utils.c:ath_bswap"])
p("C47", "Bisection keeps a bracket and finds a root to tolerance",
  "If the function changes sign on [a,b], bisection ends with a point that is an exact zero or within tolerance of a sign change inside [a,b].",
  "every function with a sign change and every tolerance", "All functions.",
  ["src/utils.c:bisection"])
p("C48", "minmax returns the extremes",
  "minmax1/2/3 return values that occur in the data and bound every element.",
  "every array size and content", "All arrays.",
  ["src/utils.c:minmax1", "src/utils.c:minmax2", "src/utils.c:minmax3"])
p("C49", "A field built from a vector potential is divergence free",
  "Face fields computed by vecpot2b1i/2i/3i from any vector potential have zero discrete divergence in every cell.",
  "every vector potential and cell", "All potentials.",
  ["src/utils.c:vecpot2b1i", "src/utils.c:vecpot2b2i", "src/utils.c:vecpot2b3i"])
p("C50", "LU decomposition solves the linear system",
  "ludcmp followed by lubksb returns the solution of A x = b for every nonsingular A; InverseMatrix returns a two-sided inverse.",
  "every matrix size and content for which no pivot vanishes", "All matrices.",
  ["src/utils.c:ludcmp", "src/utils.c:lubksb", "src/utils.c:InverseMatrix"])
# ---------------------------------------------------------------- particles
p("C51", "Particle interpolation weights are a partition of unity",
  "The interpolation weights of a particle sum to one for every position in the grid, in 1D, 2D and 3D, and are non-negative for the linear and TSC schemes; the cells used surround the position; fields that are products of linear (QP: quadratic) functions of the cell positions are interpolated exactly; uniform gas is seen as uniform; with linear and TSC weights the density seen lies between the extremes of the gas.",
  "every particle position", "Real-valued positions.",
  ["src/particles/utils_particle.c:getwei_linear", "src/particles/utils_particle.c:getwei_TSC", "src/particles/utils_particle.c:getwei_QP"])

p("C52", "Every Grid has cells, and enough of them for its neighbours' ghost zones",
  "If init_mesh accepts the mesh, every Grid has at least one cell along each axis, and at least as many as there are ghost zones along axes with neighbours.",
  "every list of domain blocks and every number of processes",
  "All sizes and Grid counts.",
  ["src/init_mesh.c:init_mesh"])

p("C53", "Boundary functions stay inside their arrays",
  "No physical boundary function reads or writes an element outside the allocated cell and face arrays.",
  "every boundary condition, side, axis and grid size",
  "An out-of-bounds access may go unnoticed for the sizes a test uses.",
  ["src/bvals_mhd.c:reflect_ix1", "src/bvals_mhd.c:conduct_ix2", "src/init_grid.c:init_grid"])

p("C54", "Ghost-zone messages have the announced length and fit the buffers",
  "The number of words a process packs for a neighbour equals the count it passes to MPI, equals the count its neighbour expects, and never exceeds the size of the send and receive buffers.",
  "every Grid shape, axis, side, number of scalars and set of Domains",
  "A wrong count shows only for particular shapes and then as silent memory corruption.",
  ["src/bvals_mhd.c:bvals_mhd", "src/bvals_mhd.c:bvals_mhd_init", "src/bvals_mhd.c:pack_ix1"])
p("C55", "The Riemann solvers never divide by zero",
  "For any two states with positive density and pressure every Riemann solver returns a finite flux: no division by zero and no square root of a negative number happens on the way.",
  "every pair of admissible states, normal field, equation of state and adiabatic index",
  "All pairs of states; the dangerous ones are isolated points.",
  ["src/rsolvers/hlle.c:fluxes", "src/rsolvers/force.c:fluxes", "src/rsolvers/roe.c:fluxes", "src/rsolvers/hllc.c:fluxes", "src/rsolvers/hlld.c:fluxes", "src/rsolvers/two_shock.c:fluxes", "src/rsolvers/esystem_roe.c:esys_roe_adb_mhd"])
p("C56", "Roe's linearisation is conservative",
  "The jumps of the waves Roe's solver uses add up to the difference of the two states, and the jumps times the wave speeds add up to the difference of the two physical fluxes; so a single shock, contact or rotation that satisfies the jump conditions gets exactly the flux of its upwind side.",
  "every pair of admissible states",
  "Real-valued states.",
  ["src/rsolvers/roe.c:fluxes", "src/rsolvers/esystem_roe.c:esys_roe_iso_hyd", "src/rsolvers/esystem_roe.c:esys_roe_adb_hyd"])
p("C57", "The two-shock solver finds a state that satisfies the jump conditions",
  "The density and velocity between the two shocks satisfy conservation of mass and momentum across both shocks, and the contact lies between the shocks.",
  "every pair of isothermal states with positive density",
  "Real-valued states.",
  ["src/rsolvers/two_shock.c:fluxes"])
p("C58", "Reconstruction is exact for linear data and has no preferred direction",
  "If every variable is a linear function of position, the second- and third-order left and right interface states both equal the value of that function at the interface; reconstructing the mirror image of a slice gives the mirror image of the result with left and right exchanged.",
  "every linear slice, every scheme of second or third order with limiters; every slice for the mirror symmetry of the componentwise schemes",
  "Real-valued data, arbitrary slopes, arbitrary eigensystems.",
  ["src/reconstruction/lr_states_prim2.c:lr_states", "src/reconstruction/lr_states_plm.c:lr_states", "src/reconstruction/lr_states_ppm.c:lr_states", "src/reconstruction/lr_states_prim3.c:lr_states"])
p("C59", "The eigensystem in the primitive variables diagonalises the equations of motion",
  "The eigenvalues returned are in ascending order, the columns of the right matrix and rows of the left matrix are eigenvectors of the coefficient matrix of the linearised equations in the primitive variables, and the two matrices are inverse to each other, also in the degenerate cases (vanishing transverse or normal field, fast or slow speed equal to the sound speed).",
  "every state with positive density and sound speed, any velocity and magnetic field",
  "Real-valued states with degenerate subsets of measure zero.",
  ["src/reconstruction/esystem_prim.c:esys_prim_iso_hyd", "src/reconstruction/esystem_prim.c:esys_prim_adb_hyd", "src/reconstruction/esystem_prim.c:esys_prim_iso_mhd", "src/reconstruction/esystem_prim.c:esys_prim_adb_mhd"])
p("C60", "Characteristic tracing averages each wave over its own domain of dependence",
  "With the CTU integrator the interface state is the sum over waves of the amplitude of the cell's profile averaged over the part of the cell that wave crosses in dt, times its eigenvector; passive scalars stay between the two adjacent cell values whenever no characteristic crosses more than one cell; a uniform scalar stays uniform.",
  "every slice, time step below the CFL limit, wave pattern, flux type",
  "Real-valued data; waves with speed exactly zero.",
  ["src/reconstruction/lr_states_plm.c:lr_states", "src/reconstruction/lr_states_ppm.c:lr_states", "src/reconstruction/lr_states_prim2.c:lr_states", "src/reconstruction/lr_states_prim3.c:lr_states"])
p("C61", "An integrator's result for a cell depends only on the cells within nghost of it",
  "The values an integration step computes for a cell are a function of the data in the cells at most nghost zones away, the timestep and the cell size: not of the size of the Grid, the position of the cell in it, more distant data or the contents left in the work arrays by earlier calls. So splitting a Domain into Grids with exchanged ghost zones, or running other Grids in between, does not change the result.",
  "every Grid, content, cell, configuration (equation of state, MHD, order, solver, source terms), and previous contents of the work arrays",
  "All pairs of Grids that agree locally, arbitrary stale memory.",
  ["src/integrators/integrate_1d_ctu.c:integrate_1d_ctu", "src/integrators/integrate_1d_vl.c:integrate_1d_vl", "src/integrators/integrate_2d_ctu.c:integrate_2d_ctu", "src/integrators/integrate_2d_vl.c:integrate_2d_vl", "src/integrators/integrate_3d_ctu.c:integrate_3d_ctu", "src/integrators/integrate_3d_vl.c:integrate_3d_vl"])
p("C62", "Energy including potential energy is conserved in a static potential",
  "With StaticGravPot set and no other source, the sum over the Grid of total energy plus density times potential changes in a step only by what crosses the Grid's faces, and not at all with periodic data.",
  "every potential, Grid, content, configuration and number of steps",
  "Arbitrary potentials and data, any number of steps.",
  ["src/integrators/integrate_1d_ctu.c:integrate_1d_ctu", "src/integrators/integrate_1d_vl.c:integrate_1d_vl", "src/integrators/integrate_3d_ctu.c:integrate_3d_ctu", "src/integrators/integrate_3d_vl.c:integrate_3d_vl"])
p("C63", "A uniform state stays uniform",
  "If every cell, ghost zones included, holds the same gas state and the same magnetic field, a step with no source terms leaves every active cell and face exactly as it was, at any speed, field strength, timestep and cell size.",
  "every uniform state, Grid, timestep, configuration and previous contents of the work arrays",
  "All states and configurations.",
  ["src/integrators/integrate_1d_ctu.c:integrate_1d_ctu", "src/integrators/integrate_2d_ctu.c:integrate_2d_ctu", "src/integrators/integrate_2d_vl.c:integrate_2d_vl", "src/integrators/integrate_3d_ctu.c:integrate_3d_ctu", "src/integrators/integrate_3d_vl.c:integrate_3d_vl"])
p("C64", "Resorting the particles loses none and puts them in cell order",
  "After shuffle the particle list is a permutation of what it was, and is ordered by the cell the particles lie in, in the storage order of the grid.",
  "every list of particles and positions",
  "All orderings and lengths.",
  ["src/particles/utils_particle.c:shuffle", "src/particles/utils_particle.c:quicksort_particle", "src/particles/utils_particle.c:compare_gr"])
p("C65", "compute_div_b reports the largest divergence",
  "compute_div_b returns the largest absolute discrete divergence of the face-centred field over the active cells: no cell exceeds it and one attains it, and it is zero exactly if every cell is divergence free.",
  "every Grid and field",
  "All sizes and fields.",
  ["src/utils.c:compute_div_b"])
p("C66", "Quadrature and cell averages are exact for polynomials",
  "qsimp integrates every cubic polynomial exactly, and avg1d/avg2d/avg3d return the exact mean over a cell of every function that is a polynomial of degree at most three in each coordinate.",
  "every polynomial, cell and interval",
  "Real coefficients, positions and sizes.",
  ["src/utils.c:qsimp", "src/utils.c:trapzd", "src/utils.c:avg1d", "src/utils.c:avg2d", "src/utils.c:avg3d"])
p("C67", "Third-order reconstruction is exact for parabolas away from extrema",
  "Where the cell averages are those of a parabola whose slope is steep compared with its curvature, the third-order primitive scheme reproduces the parabola's values at both faces exactly, Koren's limiter up to its regularisation constant, and the parabolic scheme of the scalars up to a term cubic in the curvature.",
  "every parabola, cell and slope ratio allowed by the limiter",
  "Real coefficients.",
  ["src/reconstruction/lr_states_prim3.c:lr_states", "src/reconstruction/lr_states_ppm.c:lr_states", "src/reconstruction/lr_states_p3c.c:lr_states"])
p("C68", "Feedback returns to the gas exactly the momentum the particles took",
  "After a particle step with feedback the feedback summed over all cells equals, for every axis, the sum over the particles of mass times (change of velocity minus dt times the non-drag force at the middle of the path); the dissipated energy added to a cell is not negative.",
  "every list of particles whose stencils lie within the Grid and its ghost zones, interpolation scheme, integrator, gas state, forces",
  "Any number of particles and overlapping stencils.",
  ["src/particles/integrators_particle.c:Integrate_Particles", "src/particles/integrators_particle.c:feedback_corrector", "src/particles/utils_particle.c:distrFB_corr", "src/particles/utils_particle.c:feedback_clear"])
p("C69", "A particle step keeps exactly the particles that are not ghosts",
  "Integrate_Particles removes all ghost particles and no other, keeps type and identity of the rest, updates the counters per type, and moves each particle in the gas of the start of the step, so the result does not depend on the order of the particles.",
  "every list of particles, mix of ghosts, integrator and gas",
  "All interleavings of ghosts and particles; in-place removal with swaps.",
  ["src/particles/integrators_particle.c:Integrate_Particles", "src/particles/integrators_particle.c:Delete_Ghost"])
p("C70", "The implicit particle integrators solve their implicit equations and are unconditionally stable",
  "The semi-implicit integrator's velocity change satisfies dv = dt a(x*, v + dv/2) with x* the predicted midpoint, the fully implicit one's satisfies dv = dt/2 (a(x, v' - dt a(x', v')) + a(x', v')), where a is drag plus Coriolis, tidal and user forces; in uniform gas without other forces both bring the particle closer to the gas velocity whatever the time step, the fully implicit one without overshooting.",
  "every stopping time, time step, rotation rate and shear parameter, with and without FARGO, both orientations of the shearing box",
  "Real-valued parameters; closed-form 2x2 solves with four compile-time variants.",
  ["src/particles/integrators_particle.c:int_par_fulimp", "src/particles/integrators_particle.c:int_par_semimp", "src/particles/integrators_particle.c:Get_Drag", "src/particles/integrators_particle.c:Get_Force"])
p("C71", "A particle is marked as leaving exactly if it is outside its Grid",
  "After a step a particle is marked for removal or exchange exactly if its position is outside the Grid (for outflow boundaries: more than nghost-1 cells outside), along any axis except the orbital one under FARGO; otherwise its status does not change.",
  "every position, Grid, boundary condition and shearing-box variant",
  "Real-valued positions; eight combinations of boundaries.",
  ["src/particles/integrators_particle.c:JudgeCrossing", "src/particles/init_particle.c:grid_limit"])
p("C72", "Parent and child Grids agree on their overlap",
  "For a Grid of a Domain and a Grid of one of its child Domains whose edges are even, either both record an overlap or neither does; if they do, the two records describe the same region (the fine one has twice as many cells along each refined axis and starts at the same place), agree on the lengths of the restriction and prolongation messages, and have the same boundaries marked for flux and EMF correction, with arrays of the extent of the region.",
  "all pairs of Domains, Grids and decompositions, all dimensions, ghost-zone counts and configurations",
  "Each side computes the record separately, in its own units; the cases (touching regions, several Grids on both levels, MHD or not) are unbounded in number.",
  ["src/init_grid.c:init_grid", "src/init_grid.c:checkOverlap", "src/init_grid.c:checkOverlapTouch", "src/init_mesh.c:init_mesh"])
p("C73", "Refinement messages are taken from where they were put",
  "Whatever the order in which the messages of child (or parent) Grids on other processes arrive, each overlap with a message is treated exactly once and with the data its Grid has sent; messages do not overlap in the buffers and fit into them; every non-blocking send is waited for.",
  "every number of overlaps, every set of message lengths (zero included) and every order of arrival",
  "Orders of arrival and combinations of empty messages are unbounded.",
  ["src/smr.c:RestrictCorrect", "src/smr.c:Prolongate", "src/smr.c:SMR_init"])
p("C74", "Thermal conduction moves energy and nothing else",
  "A conduction step changes only the energies of active zones; on periodic Grids the total energy stays the same; the new energy of a cell depends only on the cell and the 26 cells around it (and the fields on the faces between), so a Grid and a part of it give the same.",
  "every Grid in one, two and three dimensions, hydrodynamics and MHD, isotropic and anisotropic coefficients, every timestep and every contents of the scratch arrays",
  "Real-valued states on Grids of any size; stale scratch arrays.",
  ["src/microphysics/conduction.c:conduction", "src/microphysics/conduction.c:HeatFlux_iso", "src/microphysics/conduction.c:HeatFlux_aniso"])
p("C75", "Heat flows from hot to cold, and with a field along the field lines only",
  "A cell at least as hot as all cells that share a face with it is not heated, one at least as cold is not cooled, and where the temperature is uniform nothing changes, even with anisotropic conduction; isotropic conduction moves heat by Fourier's law through each face; with the field along one axis, anisotropic conduction moves heat along that axis by Fourier's law, and none along the others.",
  "every Grid, density, temperature and field, every coefficients and timestep",
  "Anisotropic schemes without the right limiters violate this on rare configurations of temperatures and fields.",
  ["src/microphysics/conduction.c:HeatFlux_iso", "src/microphysics/conduction.c:HeatFlux_aniso", "src/microphysics/conduction.c:limiter4"])
p("C76", "The diffusion timestep keeps conduction from overshooting",
  "With isotropic conduction and the timestep computed by new_dt_diff and new_dt (or a shorter one), the new temperature of a cell lies between the smallest and the largest temperature of the cell and its neighbours before the step.",
  "every Grid, every Courant number, number of dimensions and refinement level",
  "Real-valued data and parameters; overshoot needs particular ratios of density and cell size.",
  ["src/microphysics/new_dt_diff.c:new_dt_diff", "src/microphysics/conduction.c:conduction", "src/new_dt.c:new_dt"])
p("C77", "Viscosity moves momentum and energy and nothing else",
  "A viscous step changes only the momenta and energies of active zones (in a barotropic run only the momenta); on periodic Grids the totals of all conserved quantities stay the same; the new state of a cell depends only on the data up to two cells away.",
  "every Grid in one, two and three dimensions, hydrodynamics and MHD, isotropic and Braginskii coefficients, every timestep and every contents of the scratch arrays",
  "Real-valued states on Grids of any size; stale scratch arrays.",
  ["src/microphysics/viscosity.c:viscosity", "src/microphysics/viscosity.c:ViscStress_iso", "src/microphysics/viscosity.c:ViscStress_aniso"])
p("C78", "Viscosity is the same for observers in uniform relative motion",
  "Adding a constant velocity to the whole Grid (with the momentum and energy that belong to it) and then taking a viscous step gives the same as taking the step first; in particular the work done by the viscous stress goes into the energy.",
  "every Grid, velocity, coefficient and timestep",
  "Any velocity; sign or factor errors in the energy flux are invisible in the rest frame of test problems.",
  ["src/microphysics/viscosity.c:ViscStress_iso", "src/microphysics/viscosity.c:ViscStress_aniso"])
p("C79", "Linear flows are heated at the rate of the dissipation function and not accelerated",
  "Where the density is uniform and the velocity a linear function of position, viscosity does not change the momenta, and increases the energy at the rate of the Navier-Stokes dissipation function (isotropic) or of Braginskii's (with a uniform field); this rate is never negative and zero for rigid rotation.",
  "every velocity gradient, field direction, cell shape and number of dimensions",
  "Nine free gradient components and a direction; factors such as 1/3 and 1/4 in the cross terms.",
  ["src/microphysics/viscosity.c:ViscStress_iso", "src/microphysics/viscosity.c:ViscStress_aniso", "src/microphysics/viscosity.c:limiter4"])
p("C80", "Resistivity moves only the field and the energy, and conserves both",
  "Ohmic, Hall and ambipolar diffusion change the magnetic field and the total energy of active cells and nothing else; they keep the magnetic flux out of every active cell, keep cell-centred fields the averages of face fields, read nothing further than four cells away (and no scratch of earlier calls), leave a uniform field and its gas as they were, and on a periodic Grid keep the total of every conserved variable.",
  "every Grid, field, diffusivities, timestep, number of dimensions, combination of the three terms, scratch contents",
  "The field is free in every cell and the three terms share scratch arrays; the Hall term goes through three sweeps with different index ranges.",
  ["src/microphysics/resistivity.c:resistivity", "src/microphysics/resistivity.c:EField_Ohm", "src/microphysics/resistivity.c:EField_Hall", "src/microphysics/resistivity.c:EField_AD"])
p("C81", "Ohmic and ambipolar diffusion never create magnetic energy",
  "On a periodic Grid, with non-negative diffusivities that may differ from cell to cell, Ohmic diffusion (and ambipolar diffusion in one dimension) does not increase the total magnetic energy, provided the step times the largest diffusivity is at most half the inverse of the sum of 1/dx^2; every step up to the diffusion timestep that the code computes, with Courant number at most one, meets this.",
  "every periodic Grid, field, non-negative diffusivities, number of dimensions, timestep within the limit",
  "An energy estimate over all fields and all diffusivities; a run shows one decaying field.",
  ["src/microphysics/resistivity.c:EField_Ohm", "src/microphysics/resistivity.c:EField_AD", "src/microphysics/new_dt_diff.c:new_dt_diff"])
p("C82", "Resistivity solves Ohm's law exactly for linear and quadratic fields",
  "Where the field is a linear function of position and the coefficients are uniform, the field is advanced by -dt curl E with E = eta_Ohm J + eta_Hall J x B/|B| + eta_AD J_perp taken at the edges of the cell; without the ambipolar term the Hall term adds dt q ((J.grad)B - J div B). Where the field is quadratic, Ohmic diffusion adds exactly dt eta (laplacian B - grad div B). In a linear field Ohmic resistivity raises the energy of a cell by exactly dt eta J^2. Directions that the run does not have contribute nothing.",
  "every linear (quadratic) field, coefficients, cell sizes, timestep, number of dimensions, scratch contents",
  "Averages to edges and the three Hall sweeps have dozens of index offsets; a wrong one changes the order of accuracy without breaking conservation.",
  ["src/microphysics/resistivity.c:resistivity", "src/microphysics/resistivity.c:EField_Ohm", "src/microphysics/resistivity.c:EField_Hall", "src/microphysics/resistivity.c:EField_AD"])
p("C83", "Super-timestepping covers the timestep and stays stable",
  "With super-timestepping the substeps of the diffusion add up exactly to the timestep of the integrators, there are at most twelve, the timestep is lowered only if it exceeds 109.7 times the diffusion limit and never raised, and a quantity decaying at any rate that a single explicit step at the diffusion limit would not amplify is not amplified by the substeps together. (That every substep works with the diffusivities of the cells is false with the Hall term.)",
  "every timestep, diffusion limit, decay rate",
  "The sum and the product of the substeps are identities of Chebyshev polynomials; a test looks at a few ratios in floating point.",
  ["src/new_dt.c:get_N_STS", "src/new_dt.c:new_dt", "src/main.c:main", "src/microphysics/resistivity.c:EField_Hall"])
p("C84", "Particles that leave a Grid reach the right one",
  "After the particle boundary step the particles of the Domain are exactly those of before: each particle that left its Grid is in the Grid its position belongs to, once, moved by a period of the Domain where the boundary is periodic, mirrored with its velocity where it is reflecting, and removed only beyond the outermost cells of an outflow boundary; type and number are kept, and so are the counts per type of every Grid. This holds for any numbers of Grids along the axes and of particles, whatever the order of the particles. (False for a reflecting inner x3 boundary that is not at 0, for a particle exactly on a reflecting outer boundary, and with fewer than seven places for particles.)",
  "every arrangement of Grids, boundary conditions, particle lists and positions up to one Grid away, with and without resorting",
  "The particles pass through packing, messages, unpacking and clean-up along three axes in turn, with copies in several Grids meanwhile; a test follows a few particles through a few faces.",
  ["src/particles/bvals_particle.c:bvals_particle", "src/particles/bvals_particle.c:packing_ix1_particle", "src/particles/bvals_particle.c:unpack_particle", "src/particles/bvals_particle.c:reflect_ix3_particle", "src/particles/bvals_particle.c:update_particle_status", "src/particles/utils_particle.c:Delete_Ghost"])
p("C85", "The history file holds the totals of the whole Domain",
  "Each line of a history file holds the time, the time step and, for each of the columns of its header and in that order, the volume average over all active cells of the Domain of the documented quantity: a uniform quantity is reported as itself, a sum over the box divided by its volume otherwise, whatever the number of Grids and processes; one process per Domain writes it, and user-defined columns follow the built-in ones. (False for a two-dimensional run whose x3 extent is not 1, with SMR when process 0 does not come first in a Domain, and with 30 user columns in the largest configuration.)",
  "every mesh, decomposition, state, configuration (adiabatic, MHD, self-gravity, cylindrical, scalars) and list of enrolled user columns",
  "The line is assembled from loops over cells, a reduction over processes and column counters that depend on compile-time switches; a test looks at one build, one decomposition and one state.",
  ["src/dump_history.c:dump_history", "src/dump_history.c:dump_history_enroll"])
p("C86", "Slices and averages take exactly the cells the range touches",
  "For an output block with coordinate ranges, the data handed to every output format are, along each reduced axis, the arithmetic mean over exactly those cells of the Grid that the range touches (a single coordinate: the one cell containing it), and along the other axes all cells in order; a Grid outside the range contributes nothing, the index searches terminate inside the Grid, and a coordinate inside a Domain is found in exactly one Grid along its axis. (False when a Grid of a three-dimensional run is one cell thick along x3.)",
  "every accepted output block, Grid size, position, cell size and range, in one, two and three dimensions, with and without ghost cells",
  "The index searches are unbounded loops on real coordinates, one pair for each axis in each of nine branches; a test tries a few ranges in one branch.",
  ["src/output.c:OutData1", "src/output.c:OutData2", "src/output.c:OutData3", "src/output.c:init_output"])
p("C87", "Distribution files describe all values of the Domain",
  "A probability-distribution output reports the minimum, maximum, mean, variance, standard deviation, skewness and kurtosis of the values in all cells of the Domain, and a histogram in which every value is counted in exactly the bin that contains it, normalised to integral one, whatever the number of processes and however often it is called. (False of the average deviation with several processes, and of meshes with several Domains: sums are carried over, a larger Domain overruns the arrays, and processes leave the loop.)",
  "every number of processes, every distribution of at least two values to each, and every sequence of outputs of one Domain",
  "Bin indices come from real arithmetic and array sizes from the first call; a test checks one histogram.",
  ["src/output_pdf.c:output_pdf"])
p("C88", "The VTK files of all Grids join to the file of the Domain",
  "The VTK dumps written by all Grids of a Domain, given to join_vtk in any order, are joined to one file with the corner, cell size and number of cells of the Domain in which every number of every data set stands at the place of its cell, x1 running fastest, x3 slowest. (False of three-dimensional runs with Grids one cell thick along x2, and of Grids whose lower edges agree in the seven digits printed.)",
  "every accepted decomposition of a Domain into at least two Grids, every configuration of variables, every state, every order of the files and every correct sort",
  "The Grids have unequal sizes and are found by sorting printed corners; headers are parsed between binary data that may contain any bytes; a test joins one decomposition.",
  ["src/dump_vtk.c:dump_vtk", "vis/vtk/join_vtk.c:init_domain_1d", "vis/vtk/join_vtk.c:sort_domain_1d", "vis/vtk/join_vtk.c:read_write_scalar", "vis/vtk/join_vtk.c:read_write_vector", "vis/vtk/join_vtk.c:write_joined_vtk"])
p("C89", "The shearing sheet boundary holds the sheared image of the other side",
  "In a shearing box the ghost zones at the inner (outer) x1 boundary hold the periodic image of the other side of the Domain displaced along x2 by qshear*Omega_0*Lx*time and moving faster (slower) by qshear*Omega_0*Lx, whatever the decomposition along x2: sums along x2 are preserved, whole cells and linear profiles are exact, second order creates no new extrema, internal energy is unchanged. (False of the cell centred B3 in two dimensions, of shear with the opposite sign, of positivity at third order, and of Grids of no more rows than ghost zones.)",
  "every state, time, decomposition along x2 into Grids of equal size, remap order, number of scalars",
  "The shift wraps around the ring of Grids through several messages whose partner depends on the time; a test sees a few offsets.",
  ["src/bvals_shear.c:ShearingSheet_ix1", "src/bvals_shear.c:ShearingSheet_ox1", "src/bvals_shear.c:RemapFlux"])
p("C90", "Fluxes through the two sheared edges are matched",
  "In a three-dimensional shearing box the fluxes of mass and momentum and the EMF along x2 at the two x1 edges are replaced by averages with the remapped flux of the other edge so that the totals along x2 agree: total mass and momenta change by no boundary flux (M2 by the relative motion of the two sides), and the net vertical magnetic flux is constant.",
  "every flux, time, decomposition along x2, remap order",
  "The two edges are different processes holding fluxes displaced by a fraction of a cell; a test sees agreement up to rounding at a few times.",
  ["src/bvals_shear.c:RemapFlx_ix1", "src/bvals_shear.c:RemapFlx_ox1", "src/integrators/integrate_3d_ctu.c:integrate_3d_ctu", "src/integrators/integrate_3d_vl.c:integrate_3d_vl"])
p("C91", "Orbital advection carries the state with the background shear",
  "With FARGO every orbit is displaced along x2 by -qshear*Omega_0*x1*dt, evaluated where each variable lives, whatever the decomposition; sums along the orbit are preserved, the divergence of the magnetic field of every cell is unchanged, uniform B1 turns into B2 at the rate -qshear*Omega_0, the energy receives exactly the work of the shear, and the run stops exactly when an orbit moves by more whole cells than there are extra ghost zones. (False of the vertical field in two dimensions.)",
  "every state, time step, decomposition along x2 into Grids of equal size, remap order, sign of the displacement",
  "Offsets of whole cells and fractions of both signs are mixed in telescoping sums, and the face fields move with a different displacement than the cells; a test covers one shear rate.",
  ["src/bvals_shear.c:Fargo", "src/bvals_shear.c:RemapFlux", "src/bvals_shear.c:bvals_shear_init"])
p("C92", "The FFT solvers return the potential of the gas",
  "On the root Domain with periodic boundaries the potential of every cell, put together over all Grids, has mean zero and solves the discrete Poisson equation for 4 pi G times the excess of the density over its mean. It is the only such function, so neither the decomposition nor the value of grav_mean_rho changes it. (False in one dimension: with several Grids each solves on its own, and a wrong mean density is not removed.)",
  "every density, Domain size, cell size, decomposition into Grids and constant grav_mean_rho",
  "The solver divides by an eigenvalue that is zero for the mean, mixes Grid and Domain indices in every coefficient and relies on an identity between sines and second differences; a test compares one wave with one known potential.",
  ["src/gravity/selfg_fft.c:selfg_fft_1d", "src/gravity/selfg_fft.c:selfg_fft_2d", "src/gravity/selfg_fft.c:selfg_fft_3d"])
p("C93", "The correction after the new potential makes gravity second order and conservative",
  "After the new potential has been found, the correction changes only momentum and energy of the active cells. Step and correction together give every cell, besides the fluxes of the Riemann solver, the mean of the gravitational forces (divergence of the gravitational stress) of the old and the new potential. With periodic boundaries the total momentum is exactly unchanged whatever the potentials are, and when both potentials solve the Poisson equation the total of gas energy plus gravitational energy (half of density times potential) is exactly unchanged. (The last is false in two dimensions: the total drifts by half of the sum of the change of the potential times the mass that entered through the x2-faces.)",
  "every state, scheme, integrator, time step, Grid size and pair of potentials",
  "The correction repeats ninety differences with slightly different indices and must fit the integrators term by term; a test sees total energy to truncation error only, so a wrong term of second order hides in it.",
  ["src/gravity/selfg.c:selfg_fc", "src/integrators/integrate_1d_ctu.c:integrate_1d_ctu", "src/integrators/integrate_2d_ctu.c:integrate_2d_ctu", "src/integrators/integrate_3d_ctu.c:integrate_3d_ctu", "src/integrators/integrate_3d_vl.c:integrate_3d_vl"])
p("C94", "A table dump has one row per cell with the columns its header names",
  "A table dump of all variables has one row for every cell, in the order of the indices, and the numbers of a row are, in this order and number, the ones the header names: zone indices, cell position, every variable of the build. Read as words separated by blanks, the row has exactly these words. (False in some cases: the header leaves out x2 when there are 2 cells along x2 and x3 when there are 2 or 3 along x3, and two zone indices run together when an index with ghost offset has more digits than the Grid has cells.)",
  "every Grid size, build, state, cell, and format of the numbers that writes one word",
  "Whether columns and names agree depends on Grid size in each direction and on the build; a test looks at one file of one Grid.",
  ["src/dump_tab.c:dump_tab_cons", "src/dump_tab.c:dump_tab_prim"])
p("C95", "A binary dump can be read back with nothing but its header",
  "The first 8 ints and 4 reals of a binary dump give the numbers of cells, variables and scalars; with these alone every cell centre and every variable of every cell is found at a place computed from its indices, with the value it has in the run, and the file ends where the header says. (The last is false with particles when the output does not ask for them: the header announces four particle arrays that are not in the file.)",
  "every Grid size with or without ghost cells, build, state, cell and variable",
  "Places are computed with seven numbers; a test reads one file and compares a few values.",
  ["src/dump_binary.c:dump_binary"])
p("C96", "An image shows every cell at its place with the shade of its value, and the extremes reported are those of all data",
  "In a gray or colour image pixel (row from the top, column) shows cell (nx2-1-row, column); its shade grows with the value from 0 at the lower to 255 at the upper end of the scale, the colour is interpolated in the palette, values outside the scale get the end colours, and every byte is between 0 and 255. Without a given scale the extremes of the data are the ends. At the end of the run the smallest and the largest value put out are reported. (False in some cases: a value far outside a given scale makes the conversion to int undefined; data beyond 10^20 and the first two- or three-dimensional table of several Domains give wrong extremes.)",
  "every size of image, data, scale and palette; every history of outputs",
  "Clipping after a conversion to int, the factor 1+epsilon and the never set last entries of the slope table matter only for particular values; a test sees one picture.",
  ["src/output_pgm.c:output_pgm", "src/output_ppm.c:output_ppm", "src/output_ppm.c:compute_rgb", "src/output_tab.c:output_tab_2d", "src/output.c:data_output_destruct"])
p("C97", "Every ghost zone of the potential has the value its boundary condition prescribes, in any decomposition",
  "Setting the boundary values of the potential leaves the active cells alone. Every ghost zone, corners included, then holds along the last axis in which it is a ghost the mirror image (reflecting), the value one period away (periodic) or the value the three next cells extrapolate to (open), and these conditions determine all ghost zones from the active cells. With open sides a potential at most quadratic along each axis is continued exactly. Divided among Grids in any way, with messages arriving in any order, every Grid gets the values of the undivided Domain and none waits for ever; messages have the announced length and fit in the buffers. (Open sides need three cells per Grid; a side that is periodic only at one end makes a process wait for ever.)",
  "every Grid size, number of ghost zones, combination of conditions, decomposition, order of messages and potential",
  "Six sides, three conditions and three exchange steps give corners whose value depends on the order of the loops, and the open condition reads values written in the same loop; a test compares one potential on one decomposition.",
  ["src/gravity/bvals_grav.c:bvals_grav", "src/gravity/bvals_grav.c:bvals_grav_init"])
p("C98", "The open-boundary Poisson solver returns the potential of the gas surrounded by vacuum in a box twice as large",
  "For every density the open-boundary solver in 3D stores in the active cells the mean-free potential of that density continued by vacuum to a periodic box twice as large in each direction: the eight passes over even and odd wavenumbers of the small box are exactly one solve in the large one. The result does not depend on the decomposition, on the previous potential or, as long as all mass stays inside the Domain, on where in the Domain the mass is. The previous potential is kept and the ghost zones are zeroed. It is not the potential of an isolated mass: in every cell an eighth of the mean density of the Domain is missing from the source.",
  "every density, Domain size, cell size, tiling of the Domain by Grids and previous potential",
  "A wrong phase or half wavenumber changes the result by something that still looks like a potential; a test compares with one analytic profile to a few per cent, which hides the constant error in the source.",
  ["src/gravity/selfg_fft_obc.c:selfg_fft_obc_3d"])
p("C99", "The disk Poisson solvers solve Poisson's equation with the full density in every cell and have no image of the mean mass",
  "With open boundaries in one direction the 1D solver returns, up to a constant and including the first ghost zone on each side, the potential of parallel sheets in vacuum. The 3D solver (periodic in the plane, open perpendicular to it) returns a potential that is periodic in the plane and satisfies the discrete Poisson equation with the full density in every cell, no mean subtracted; averaged over the plane it is the potential of sheets in vacuum. It is exactly the mean-free potential, in a periodic box twice as thick, of the gas and a negative image in which the horizontal mode of wavenumber k is weakened by exp(-kL), L the thickness. It does not depend on the decomposition.",
  "every density, Domain size, cell size, thickness and tiling of the Domain by Grids",
  "The even and odd wavenumbers are two separate transforms with separately computed coefficients; an error in one of them changes the solution by something smooth. A test compares one density with one known solution.",
  ["src/gravity/selfg_fft_disk.c:selfg_fft_disk_1d", "src/gravity/selfg_fft_disk.c:selfg_fft_disk_3d"])
p("C100", "What particles deposit in ghost zones reaches the cell it belongs to, exactly once",
  "Particles deposit momentum, energy and density in the cells of their own Grid and in its ghost zones. After the exchange every active cell of every Grid holds the sum of all that any Grid deposited at the place of that cell, directly, behind a neighbouring Grid, around a periodic edge, or in the mirror of a reflecting edge (with the sign of the normal momentum changed); after the predictor step the ghost zones hold the same for the places they are. The total over the Domain is the total deposited, in periodic Domains without loss. The exchange always completes, the messages have the announced length and fit the buffers, and other fields and cells are not touched.",
  "every deposit, decomposition of the Domain into Grids, combination of reflecting, open, periodic and conducting boundaries, order of arrival of messages, number of ghost zones",
  "Corner and edge deposits pass through up to three exchanges whose index ranges differ; a wrong range loses or doubles momentum only for particles near Grid corners. Tests use one decomposition and look at global sums to some tolerance.",
  ["src/particles/exchange.c:exchange_gpcouple", "src/particles/exchange.c:exchange_gpcouple_init"])
p("C101", "The isothermal exact Riemann solver returns the flux of the exact solution",
  "For every pair of states with positive density the solver returns a flux and never stops the program. The Riemann problem has one solution made of shocks that satisfy the jump conditions and the entropy condition, and of rarefactions that satisfy the equations of gas; the solver decides correctly which of the two waves are shocks, and returns the flux of that solution through x = 0, with transverse momentum and scalars from the side from which the gas blows. With two shocks or two rarefactions the state between the waves is exact; with one of each it comes from an iteration that is always bracketed, returns a density between the two input densities and is within 2^-51 times the ratio of the densities of the exact one when it stops by its tolerance. Equal states give the flux of the gas.",
  "every pair of states, sound speed, number of scalars",
  "The solver has four wave patterns and five places of x = 0 in each; a wrong choice or a wrong sign in one fan shows only for the states that select it. A shock-tube test runs one or two patterns and compares with a plot.",
  ["src/rsolvers/exact.c:fluxes", "src/rsolvers/exact.c:srder", "src/rsolvers/exact.c:rtsafe"])
p("C102", "The multigrid Poisson solver takes the potential to the solution of Poisson's equation",
  "On a Grid without neighbours the multigrid solver puts the potential of the total mass at the origin into every ghost zone, corners included, and keeps the previous potential. With these ghost zones there is exactly one solution of the discrete Poisson equation; a call brings the potential in the active cells no further from it, leaves it as it is when it is already the solution, and repeated calls converge to it. The call always returns. (True with four cells in some direction. With one coarser level a call turns the exact solution into a strictly lower potential in every cell, because the coarse problem starts from the potential and not from zero and is then added to the potential; with sizes such as 20 in each direction the recursion never ends.)",
  "every density, cell size, Grid size, position of the Grid, previous potential and number of calls",
  "A cycle that makes the result worse instead of better is hidden by the relaxation sweeps around it; a test looks at one density after some steps and to a tolerance. Termination depends on the divisors of the sizes.",
  ["src/gravity/selfg_multigrid.c:selfg_multig_3d", "src/gravity/selfg_multigrid.c:multig_3d", "src/gravity/selfg_multigrid.c:Jacobi", "src/gravity/selfg_multigrid.c:Restriction_3d", "src/gravity/selfg_multigrid.c:Prolongation_3d"])
p("C103", "Operator-split cooling follows the cooling curve, keeps everything but the energy, and stays within a tenth of the temperature",
  "With operator-split cooling a call changes only the energy of the active cells: density, momentum, field and scalars stay. Each cell gets the temperature of the implicit scheme for the cooling curve and the heating rate, up to the last step of Newton's method, and never less than 10 K; no temperature changes by more than a tenth. The curve is positive, its power laws join, and the derivative used in Newton's method is its derivative away from the joints of its pieces. The time step becomes no longer than before, than that of other processes and than four fifths of every cooling time, and is the time for which the cells were cooled unless it had to be cut again during the second pass. Gas whose heating balances its cooling is not changed (the time step is cut all the same). All Domains of a Mesh are cooled for the time step finally taken. (The last sentence is false.)",
  "every list of cells with positive density, units, heating rate, time step and number of processes; every Mesh",
  "Eight pieces of the curve, a loop that halves the step, and a second pass that may cut it again: a test runs one density and temperature and compares with a plot. The order of Domains matters only with refinement.",
  ["src/microphysics/cool_solver.c:cooling_solver", "src/microphysics/cool_solver.c:temp_next", "src/microphysics/cool_solver.c:Lam", "src/microphysics/cool_solver.c:dLam", "src/microphysics/integrate_cooling.c:integrate_cooling"])
p("C104", "The random numbers of the problem generators are strictly between 0 and 1, come from the seed alone, and never leave the table",
  "Started with a seed that is zero or negative the generator returns, for any number of calls, numbers strictly between 0 and 1: differences of two multiplicative congruential generators, the first of them shuffled so that no element is used twice. No call reads outside of the shuffle table or overflows, even if long has 32 bits, and the generator does not start over by itself. The numbers depend on the seed alone. (False for seeds far below -2^31, which read outside of the table with a 64-bit long, and for positive seeds, which some problems use for all processes but the first: these all get the same first number.)",
  "every seed, number of calls, width of long and earlier use of the generator",
  "The sequence has more than 10^18 elements; overflow in a product or an index one past the table shows for particular states only. A test draws some thousand numbers from one seed.",
  ["src/prob/hgb.c:ran2", "src/prob/streaming3d_multi.c:ran2"])
p("C105", "The reported error of a run is the mean difference from the solution, over the whole Domain",
  "The error report of a run appends one line: the numbers of cells and, for every conserved variable and scalar, the sum over all active cells of the Domain of the absolute difference from the initial solution times the volume of the cell, divided by the volume of the Domain if asked for, and the root of the sum of the squares of the eight. A difference that is the same everywhere is reported as it is, in Cartesian and in cylindrical coordinates. The line does not depend on how the Domain is divided among processes. (With several processes it is false: the scalars are those of the first process, and every process writes a line, all but the first from numbers never set.)",
  "every gas, solution, Domain, division into Grids, number of scalars, both kinds of error",
  "A test compares one error with one earlier value, usually in serial; scalars of other processes left out change the number, not its look.",
  ["src/utils.c:compute_l1_error"])
p("C106", "The integrator of ordinary differential equations reaches the end exactly, by steps of order five within the tolerance",
  "A step is one of the Runge-Kutta method of Cash and Karp, which has order five, and the error is estimated by the difference from its embedded method of order four. A controlled step is never longer than asked for, goes in the same direction, has an estimated error within the tolerance in every component, and proposes a next step 0.9 to 5 times as long. The driver, if it returns, has gone from the first to the last point exactly, forward or backward, by such steps, none of which leaves the interval; polynomials up to degree five are integrated without error, and an empty interval changes nothing. With bounded slopes it always returns or stops with one of its two messages. Intermediate results can be stored. (The last sentence is false.)",
  "every right-hand side, number of components, interval, tolerance, first and smallest step",
  "Twenty-five constants: a wrong one lowers the order, which a test on one equation sees only as a slightly larger error. Overshooting the end depends on how steps fall.",
  ["src/utils.c:rkck", "src/utils.c:rkqs", "src/utils.c:odeint", "src/utils.c:odeint_lite"])
p("C107", "A VTK file of one variable shows each value where its cell is",
  "An output block with format vtk and one variable writes a file for each Domain that the block asks for, of which the process has a Grid, and which the slice meets, and for no other. The file is complete: as many values as its header announces. Read as structured points, each of its cells has the value of the cell of the Grid at that place, or the mean over the part of the slice's range on the Grid, and lies between the faces of that cell. The minimum and maximum reported at the end grow by just the values written. One-dimensional output is refused. (False for planes across x1 or x2, whose values are placed along the wrong axes, and for files with ghost cells, which are shifted.)",
  "every mesh, Grid, slice, range, variable and choice of level and Domain",
  "A file with values at wrong places opens and looks plausible; the fault depends on which axis is sliced and whether ghost cells are written.",
  ["src/output_vtk.c:output_vtk", "src/output_vtk.c:output_vtk_2d", "src/output_vtk.c:output_vtk_3d", "src/output.c:OutData2", "src/output.c:OutData3"])
p("C108", "Binned particles: sums of their parts, conserved mass, momentum and moments; the particle list is complete",
  "When particles are binned for output, the density and momentum of a cell are the sums, over the particles the output selects, of mass and mass times velocity times the particle's part in the cell, whatever was there before and in whatever order the particles are stored. Summed over the Grid and its ghost zones they give the total mass and momentum of the particles, and the same centre of mass. The velocity shown in a cell lies between those of the particles in it, and is zero where there are none. The particle list announces as many records as follow; there is one for each selected particle, with its position, velocity, kind, number, and the binned density interpolated to it.",
  "every number, place, kind and order of particles, selection, interpolation scheme, Grid",
  "A weight given to the neighbouring cell keeps the total; a total that is right for one particle in a cell's middle is wrong near an edge. The order of particles changes during a run.",
  ["src/particles/output_particle.c:particle_to_grid", "src/particles/output_particle.c:dump_particle_binary", "src/particles/output_particle.c:expr_V1par"])
p("C109", "The particle history: totals, means and scatter of all particles, on however many processes",
  "Each output of the particle history holds the time, the largest binned density and stiffness in the Domain, and, per cell of the Domain, the energy loss, the mass, momentum and kinetic energy along each axis, and the totals of what the user enrolled, over all particles of all processes, each counted once. For each kind of particle it holds the means of position and velocity, their variances, and the means of what the user enrolled; zeros for a kind without particles. How the particles are spread over processes and ordered does not matter. Columns are shown in the order in which they were enrolled; too many stop the program.",
  "every number of processes, particles and cells, every distribution and order, kinds of particles, enrolled functions, size of the Domain",
  "A mean taken per process and then averaged is right when processes hold equally many particles. Copies in ghost zones exist only near boundaries. The number of cells overflows only for very large Domains.",
  ["src/particles/dump_particle_history.c:dump_particle_history", "src/particles/dump_particle_history.c:dump_parhistory_enroll"])
p("C110", "A table of one variable has one row for each cell of its line, plane or volume, with its indices and its value",
  "The table written for a variable has exactly one row for each cell of the line, plane or volume the user asked for, in order, the first index running fastest. A row holds the indices of the cell counted from the first one written, and the value of the variable there, or its mean over the cells that the ranges of reduced axes touch. A Grid outside the range writes no file. The smallest and largest value reported at the end of the run take in those of the file.",
  "every Grid, dimension, slice, size, with and without ghost cells, every variable, number of the file",
  "Transposed indices agree on square planes; the conversion of indices to single precision is exact up to 2^24 cells.",
  ["src/output_tab.c:output_tab", "src/output_tab.c:output_tab_1d", "src/output_tab.c:output_tab_2d", "src/output_tab.c:output_tab_3d"])
if __name__ == "__main__":
    out = os.path.join(os.path.dirname(os.path.abspath(__file__)), "..", "properties.jsonl")
    with open(out, "w") as f:
        for e in P: f.write(json.dumps(e) + "\n")
    print(len(P))
