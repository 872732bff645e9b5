# Formal model of Athena (C version) in Rocq/Coq

Code modelled: `/repo` (PrincetonUniversity/Athena-Cversion at the pinned
commit).  Prover: Coq 8.16.1.  Sources in `rocq/theories`, logical name `Verif`.

## How the model is organised

Per area of the code there are up to three files:

* `XxxModel.v`  – definitions only: Gallina transcriptions of the C functions,
  each with a comment citing file and lines and saying what was simplified;
* `XxxSpec.v` or the top of `XxxProps.v` – the small independent vocabulary in
  which the property is stated (no model helper is needed to read it);
* `XxxProofs.v` / `XxxProps.v` – lemmas; the property theorems themselves, each
  followed by an `Example` that meets its hypotheses and `Print Assumptions`.

Conventions.

* Undefined behaviour of C (out-of-bounds access, use of an uninitialised value,
  division by zero, string overrun) is a separate outcome `UB` of the model, and
  `ath_error` (print and exit) is a separate outcome `Fatal`.  Theorems state
  when these outcomes arise.
* `int` is modelled by `Z` (or `nat` for indices); where overflow can matter the
  model says so in the comment of the definition and the theorem has the bound.
* Operations that only *move* floating-point data (boundary copies, packing,
  restart files, sorting) are modelled over an arbitrary type of cells, so the
  theorems hold bit for bit for IEEE numbers including NaN.
* Operations that *compute* with floating-point data are modelled over the real
  numbers `R` of the Coq standard library: rounding, overflow and NaN are not
  modelled there, and the theorems are about exact arithmetic.
* Concurrency (MPI ranks, signals) is modelled as a transition system whose
  steps interleave arbitrarily.

If the English property is false of the code, the model keeps the code's
behaviour, and the development contains both the strongest true theorem and a
theorem named `..._refuted` exhibiting a witness for the failure.

## Plan per property

| id | modelled | how it is proved |
|----|----------|------------------|
| C01–C03 | database as list of blocks of (name,value,comment), `add_par`, getters, setters, `_def` getters | induction on lists; refinement to a map with insertion order |
| C04 | `par_cmdline` on byte strings with in-place edits | induction on argv and on the string |
| C05 | `par_open` with fgets-style line buffer, `add_par_line`, `line_block_name`, `skipwhite`, `str_term` on buffers of bytes with UB | file grammar in a separate spec; induction on lines |
| C06 | `par_dump` mode 2 as a printer; composition with `par_open` | induction on the database; refuted for empty values with comments |
| C07 | same buffer model, UB outcome | safety by induction over positions; refuted for lines whose first non-blank is `=` |
| C08 | `par_dist_mpi` as message sequence over a bounded line buffer | composition of printer and parser; refuted when a line exceeds MAXLEN |
| C09 | address arithmetic of `calloc_2d_array`/`3d` | lia/nia over Z |
| C10, C11 | `ath_fname` as a function producing bytes plus the allocated length | string length arithmetic, injectivity of padded decimal |
| C12 | `ath_log` state machine | invariant over op lists |
| C13 | `ath_sig_act` for all ranks, signal events interleaved | transition system; lost-signal window refuted |
| C14, C15 | `baton_*` with MPI message channel | transition-system invariant, measure |
| C16, C21 | main loop over an oracle of raw time steps | induction over fuel/histories |
| C17–C19 | `data_output` on a list of outputs | induction over histories |
| C20, C22 | `new_dt` over lists of cells over R | induction over cells, grids, ranks; C22 refuted for negative velocities |
| C23, C28 | `div`-based distribution, displacements, neighbour ids | induction on grid index |
| C24 | `dom_decomp*` over Z | number theory; completeness of the search |
| C25 | Steps 4–5 of `init_mesh` | case analysis with lia; last clause refuted |
| C26, C27 | round-robin rank assignment, communicator construction | induction; C27 refuted by a reachable configuration |
| C29 | overlap functions | lia |
| C30 | `cc_pos`, `celli` over R with C truncation | real arithmetic; refuted left of the origin |
| C31–C34 | boundary functions as loops over array updates | array extensionality over arbitrary cell type |
| C35, C36 | conversion functions over R | field/nra |
| C37, C58 | `lr_states` of all schemes over R | case analysis on MIN/MAX, lra; refuted for LimO3 |
| C59 | `esystem_prim.c` as matrices over R | field identities from the dispersion relation (nsatz), all degenerate cases |
| C60 | tracing steps of `lr_states` | sum over waves, completeness of the eigensystem (C59); refuted for static waves with HLL fluxes and for scalars in `lr_states_prim3.c` |
| C38, C39 | HLLE/HLLC/Roe/HLLD flux functions over R | field, case analysis on speeds |
| C40, C62 | the integrators, stage by stage, over any reconstruction with a 3-cell stencil and any Riemann solver; then every configured combination (`SchemeModel.v`) | each cell changes by a difference of face fluxes; telescoping sums; equal fluxes at both ends from locality |
| C61 | the integrators with explicit contents of the static work arrays | every stage of cell i depends on offsets only; windows by lia |
| C41, C49 | CT update / vector potential curl | telescoping sums, ring |
| C63 | the integrators | locality makes all fluxes of uniform data equal |
| C72 | CGrid/PGrid records of `init_grid.c`, both sides | both folds over the boundaries keep a relation between the two records |
| C73 | posting loops, decoding of the index of `MPI_Waitany`, reading loop with a schedule, sending loops, `SMR_init` | list induction; the schedule is an arbitrary function |
| C74 | `conduction.c` on 1D-3D Grids with the scratch arrays as input | closed form of the fluxes, telescoping sum, data around the cell |
| C75 | the same; `limiter4` | the limited transverse differences vanish at an extremum, so the change is a sum of non-negative multiples of differences |
| C76 | the same with `new_dt_diff.c` and `new_dt.c` | the new temperature is a convex combination; refuted for dense neighbours |
| C77 | `viscosity.c` on 1D-3D Grids with the scratch arrays as input | as C74, for the four fluxes |
| C78 | the same | differences of velocities do not change, the energy flux gains velocity times stress; refuted with both viscosities |
| C79 | the same | closed form of every flux of a linear flow; `limiter4` of four equal slopes |
| C80 | resistivity() with its static arrays as arguments, each sweep one array | faces by CT lemmas; locality window by window; periodic totals by telescoping |
| C81 | as C80 | summation by parts on a periodic lattice; the norm of the discrete curl is at most 4 times the sum of 1/dx^2 |
| C82 | as C80 | every edge field is the polynomial's, plus a constant that cancels in the curl; then field arithmetic |
| C83 | new_dt with STS and the substep loop of main | Poisson kernel summed over the Chebyshev angles; roots of T_N; bounds of T_N inside and outside [-1,1] |
| C84 | bvals_particle with packing, shifting, unpacking, reflection, exchange between all Grids of a Domain, status update and Delete_Ghost | buffers refined to lists, lists to a permutation of one list over all Grids, then one particle through the three sweeps |
| C85 | dump_history, dump_history_enroll: column counters, cell loops, reduction over the processes of a Domain, scaling by the volume | array writes refined to one row function; sums over Grids joined into one sum over the Domain; volume from the coordinate set-up |
| C86 | OutData1/2/3 with their index searches, dimension count of init_output | the searches return the first and last touched cell (induction on fuel shown sufficient); accumulations are sums |
| C87 | output_pdf: allocation, reductions, moments, binning, loop over Domains | each value falls in one bin; sums over processes joined to sums over the Domain; invariant on the kept arrays over calls |
| C88 | dump_vtk (header, data sets), join_vtk (init, sorting, header scanning with fscanf, interleaved copying) | the sort gives the Grids in [k][j][i] order for any sort function; loop invariants on the read position of each file; nested cells of Grids regrouped to cells of the Domain |
| C89 | ShearingSheet_ix1/ox1 (steps 1-9), RemapFlux of both orders | shift over the ring of Grids computed for every offset; remap is local and telescopes; ghost rows of all Grids are one function of the row of the Domain |
| C90 | RemapFlx_ix1/ox1, averaging of edge fluxes in the 3D integrators | sums along x2 of a remap are those of the data, so both averages have the same sum |
| C91 | Fargo (steps 1-7) | fluxes of whole cells and fractions telescope to a displaced remap; constrained transport cancels; ghost rows from the ring |
| C92 | selfg_fft_1d/2d/3d with the transform as an exact sum | the cosine sums are eigenfunctions of the second difference; orthogonality of the waves; summation by parts for uniqueness |
| C93 | selfg_fc without star particles, after the modelled integrators | cell by cell against a stress tensor written from its formula, then telescoping; summation by parts (Green) turns the Poisson equations of the old and the new density into conservation of energy |
| C94 | header, rows and the text of a row of dump_tab | header and row as lists of the same length whose entries are what the name promises; splitting the text at blanks gives the words |
| C95 | all bytes of dump_binary | a reader that knows only the header: offsets computed from it, chunks of the list of bytes |
| C96 | bytes of the images of output_pgm and output_ppm; gmin and gmax of the outputs | place of a pixel in a list of rows, floor inequalities for shades and palette interpolation; folds of MIN and MAX |
| C97 | loops of bvals_grav.c as lists of assignments that may read what earlier ones wrote; exchange between Grids as for C34 | assignments sorted by a lexicographic key, so the final array satisfies every assignment; rows as functions of the active cells; uniqueness by induction on the distance from the edge |
| C98 | the eight passes of selfg_fft_obc.c over Grids that tile the Domain, with the transform of C92 | frequency 2a+off of the doubled box; the sum over a doubled range splits into even and odd, sums of the padded density shrink to the Domain; then C92's solution of the large box; translation by re-indexing sums |
| C99 | selfg_fft_disk.c: the recursion in 1D; in 3D the two transforms and their coefficients over Grids that tile the Domain | 1D and plane averages: Poisson's equation and opposite slopes at the ends determine the potential up to a constant; 3D: as C98 in one direction, the image by inversion of the horizontal transform |
| C100 | exchange_gpcouple: sums and copies of the boundary functions, packing, unpacking by addition, the three axes over all Grids of a Domain (ExchModel) | what is gathered at a coordinate is a sum over all Grids and their reach (ExchSpec), reduced to the at most three near terms (ExchSum); loops as transformations of rows (ExchRow); one axis (ExchStep), then three by linearity (ExchAll); totals by exchanging sums |
| C101 | rsolvers/exact.c, isothermal: fluxes with its four wave patterns, srder, rtsafe with all its iterations (ExactModel) | shocks by jump and Lax conditions, rarefactions by their invariant (ExactSpec); both are one increasing function of the density, so the state between the waves exists and is unique; the two closed forms of the code solve it exactly when accepted, and when both are rejected the function changes sign between the input densities; loop invariant of rtsafe with the mean value theorem; sampling by cases |
| C102 | gravity/selfg_multigrid.c: selfg_multig_3d, multig_3d, Jacobi, Restriction_3d, Prolongation_3d (MgModel) | Poisson's equation with second differences, the ghost cells by the distance of their centres (MgSpec); discrete maximum principle for uniqueness; Jacobi's iteration is monotone, so it converges between a lower and an upper parabola (existence, and convergence from any start); recursion by the halving of sizes; one coarser level: the residual of the exact solution is zero, so the coarse field stays negative and is added |
| C103 | microphysics/cool_solver.c: cooling_solver, temp_next, Lam, dLam; integrate_cooling.c (CoolModel) | temperature, cooling time and the implicit step written down on their own (CoolSpec); induction over halvings, resets and cells; derivative of each piece of the curve; in equilibrium Newton's first step is zero; two Domains in the flat piece of the curve, computed, for the refutation |
| C104 | prob/hgb.c and ten copies: ran2 (RanModel) | the two generators as powers modulo a prime, their difference as a fraction (RanSpec); Schrage's method by division with remainder; invariant: the table holds distinct earlier elements, no element is 0 (Gauss); counterexamples computed |
| C105 | utils.c: compute_l1_error (L1Model) | the norm of each variable as a sum over cells (L1Spec); induction over cells, rows and Grids; sum of radii for the volume in cylindrical coordinates; two cells on two processes for the refutation |
| C106 | utils.c: rkck, rkqs, odeint, odeint_lite (OdeModel) | Runge-Kutta methods from a tableau, Butcher's order conditions over rooted trees, chains of accurate steps (OdeSpec); all 23 ordered trees of at most five vertices by case analysis; induction over retries and steps; geometric decrease of the step for termination |
| C107 | output_vtk.c (VtkOneModel), on OutData2/OutData3 of C86 | a reader of structured points: value and place of a cell of the file (VtkOneSpec); index arithmetic of nested rows; induction over levels and Domains |
| C108 | particles/output_particle.c: particle_to_grid, dump_particle_binary, the velocity expressions (PBinModel) | part of a particle in a cell, sums over selected particles (PBinSpec); induction over the particles for any additive component; moments by the exactness of interpolation (C51); convexity for velocities |
| C109 | particles/dump_particle_history.c: dump_particle_history, dump_parhistory_enroll; the reductions of MPI as sums and maxima over the list of processes (PHistModel) | sums over all particles of the run, mean, variance, largest (PHistSpec); induction over processes and particles; `C109_var_refuted`: columns headed var hold the root of the variance; `C109_large_refuted`: the number of cells is computed in int |
| C110 | output_tab.c: output_tab_1d, output_tab_2d, output_tab_3d (TabOneModel), output_tab (TabMeshModel); (float) of an index as rounding to 24 binary digits | rows list the indices in order with values (TabOneSpec); from C86 and the layout of nested loops; `C110_index_refuted`: equal indices beyond 2^24 |
| C42 | `RestrictCorrect`: the message of the child as a list of doubles, the parent reading it | message = list of averages; every reading loop consumes exactly its part; corrections in closed form; each boundary of the overlap is a corrected face or an edge of the Grid, so the parent is advanced by one flux per face and one EMF per edge |
| C43 | all of `Prolongate`: message of the parent, its reading, `ProCon`, `ProFld`, the order of the boundaries | what a run leaves in each element of the ghost zones (`prolong_get`: the six passes agree where they overlap); then averages, ranges, fluxes and divergence by algebra on one block of fine cells |
| C44 | restart file as a byte stream: parameters, labels, buffered binary arrays over any Real/int/long/short codec, particles; reader with fgets/fread (ResModel) | parser-printer round trip by induction over Grids and levels; second dump gives the same bytes; every proper prefix is rejected |
| C45–C48, C50 | utilities | induction / invariants |
| C51 | weights and the clipped weighted means over R | product of three 1D partitions of unity; sums over the stencil |
| C67 | third-order schemes on averages of a parabola | field, case analysis of the limiters |
| C68, C69 | `Integrate_Particles` with in-place deletion and feedback arrays | permutation by induction; sums over cells commute with sums over particles |
| C70 | the three velocity updates, `Get_Drag`, `Get_Force` | Cramer's rule, field; factors of the uniform case |
| C71 | `JudgeCrossing`, `grid_limit` | case analysis; refuted for outflow in x3 |
| C64 | `quicksort_particle` on an array with explicit swaps | permutation and sortedness by induction on the length |
| C65 | `compute_div_b` loops | invariant of the running maximum |
| C66 | `trapzd`, `qsimp`, nested averages | the first Simpson value is exact, and so are all later ones, so the loop stops with it |
| C55, C57 | same models; the outcome "not a number" is `None` | positivity of every divisor and radicand |
| C56 | eigenvectors of `esystem_roe.c` | field |
| C53, C54 | indices of the boundary functions, message counts of `bvals_mhd` | ranges of loops, products |
| C52 | Steps 5–6 of `init_mesh` | from C23/C24; refuted for explicit `NGrid_x*` |

## Where the code does not satisfy the property

Each line is backed by a `..._refuted` theorem (reachable witness in the model).

* C05/C06/C08: an empty value in front of a comment is mis-read; padded comments grow past the line buffer.
* C07: a line whose first character is `=` makes the parser read before its buffer.
* C10: an empty path reads before the buffer. C11: stale level/domain strings in the dump loops.
* C13: a signal that arrives while `ath_sig_act` runs can be overwritten.
* C14: two successive uses of the baton without a barrier let more than Nb processes in.
* C16: `new_dt` is not called on restart, so the first cycle can step over a lowered `tlim`.
* C18: output times are stored rounded; a block that lags behind, or a kill between dumps, changes the sequence.
* C19: more than `MAXOUT_DEFAULT` outputs overrun `dump_flag`.
* C20: `b = Bc + |Bi - Bc|` is not a bound on the field if `Bc < 0`. C22: signed particle velocities.
* C25: a refined Domain with no parent is accepted. C27: with three levels a world ID is stored where a
  communicator rank is needed. C29: empty boxes. C52: Grids without cells are accepted.
* C30: `celli` truncates towards zero, so positions left of array index 0 are put in the wrong cell.
* C32: with fewer cells than ghost zones, reflecting ghost zones copy other ghost zones. C33: the outer
  normal face field is copied from the last cell's left face, not the nearest face.
* C34: Grids with fewer than nghost cells send ghost zones that are not filled yet (`init_mesh` accepts
  them); with a periodic boundary at one end only, a process waits for a message nobody sends.
* C36: `cfast` does not apply the pressure floor that `Cons1D_to_Prim1D` applies.
* C39/C55: with an adiabatic index near 1 (witness 21/20) the contact speed of HLLC can be below the slowest
  wave speed; the mass flux then has the wrong sign, and for one index in between the flux is 0/0.
  C55: with MHD and an adiabatic index above 2 the Roe-averaged star field squared can be negative: HLLE and Roe give NaN.
* C56: `esystem_roe.c` multiplies the mean transverse field by Y = (dl+dr)/(2 sqrt(dl dr)). With Y the linearised
  flux misses the jump of the normal momentum flux (and of the energy flux) by
  (2-gamma)(Y-1) b.dB (isothermal: (Y-1) b.dB) whenever the densities differ; with Y = 1 it would be exact.
* Seen while reading, not covered by a property: `force.c` uses the left magnetic pressure in the flux of
  the mean state (consistency still holds); `Pflux` of the cylindrical branches of `roe.c`, `hllc.c`, `hlle.c`
  is wrong or unset in isothermal or right-supersonic cases.

* C37: LimO3 (`lr_states_p3c.c`) applies no limiter where the differences are below
  `0.1*dx`: positive densities can give a negative interface density.
* C60: `lr_states_plm.c`/`lr_states_ppm.c` test `ev[n] >= 0` and `ev[n] <= 0`, so with HLL-type
  fluxes a wave of speed exactly 0 is corrected twice (traced with speed `-ev_max`); in a gas
  at rest the interface density leaves the range of its neighbours.
* C60: `lr_states_prim3.c:332,336` index `dW`, `W6` with a stale loop variable: all scalars use
  the slope of the first one.

* C45: `ath_gcd` with a zero argument divides by zero. C46: for element lengths other than 1, 2, 4, 8 `ath_bswap`
  swaps the bytes of the first element `cnt` times instead of those of every element.
* C47: the tolerance of `bisection` is relative to the midpoint: for `f(x) = x` on [-1,2] it runs out of
  iterations and calls `ath_error`.

* C51: `getvalues`/`distrFB_*` index the weights from the first cell inside the array, not from the first cell of the
  stencil: at the lower edge of the ghost zones every cell gets the weight of its left neighbour.
* C70: the explicit particle integrator amplifies the velocity relative to the gas when dt exceeds twice the
  stopping time.
* C71: `init_particle.c:grid_limit` adds instead of subtracts (nghost-1)*dx3 for outflow at the lower x3
  boundary, so active particles there are removed (the upper limit also uses m2 for m3).

* C72: `init_mesh` lets the Grids of a fine Domain have odd numbers of cells; parent and child then disagree on
  the length of the restriction message.

* C42: an overlap one coarse cell wide shifts the message (`C42_one_cell_refuted`); two fine Grids that touch a parent Grid correct the
  EMF of their common edge twice (`C42_touch_twice_refuted`). Observed in the model, without a theorem: a fine Grid that touches a
  parent Grid changes the face-centred field beside the first and last rows without recomputing the cell-centred one (smr.c:528-604);
  Grids that touch only in an edge are not corrected at all.
* C43: the fine energies do not average to the coarse energy, because the kinetic energy is computed from the prolonged momentum
  (`C43_energy_refuted`; the internal energies do, `C43_energy`); in 3D the three limited slopes together take the density below zero
  although it is positive in every coarse cell (`C43_range3_refuted`); in MHD the energy is computed with a cell-centred field that is
  then replaced, so the internal energy can be negative although the coarse one is 1/100 everywhere and the coarse field is
  divergence-free (`C43_pressure_refuted`); a fine face value of exactly zero is taken for "not set" (`C43_zero_refuted`); with five ghost
  cells the child reads more than the parent packs (`C43_odd_refuted`).
* C73: `SMR_init` dimensions the arrays of MPI requests with the largest number of child Grids, but RestrictCorrect (sends) and
  Prolongate (receives) index them by parent Grids; a process with one Grid that has two parent Grids on other processes writes
  beyond the array (`C73_requests_refuted`).
* C44: a restart file without `<par_end>` (empty parameters, cut early) makes `restart_grids` loop for ever
  (`C44_hangs_refuted`); an empty file makes it compare an uninitialised buffer. Results of `fwrite`/`fread` of the arrays are
  ignored; a cut file is noticed only through the next label (`C44_truncated`). `grproperty[].num` counts the particles of the last
  Grid only. The flags for the upper faces are never reset, so they depend on all earlier Grids (`wide_upto`).

* C76: the conduction timestep ignores that the flux is proportional to the mean density of the two cells: next to a much
  denser cell the temperature overshoots and becomes negative (`C76_dense_neighbour_refuted`).
* C78: with both viscosities the anisotropic part assigns the energy flux through x1-faces (`viscosity.c:446`), so the
  isotropic one is lost: not Galilean invariant (`C78_both_refuted`). As written the anisotropic part does not compile with
  MHD (`.x`, `.y`, `.z` are not members of `Real3Vect`); the model reads them as `x1`, `x2`, `x3`.
* C83: `EField_Hall` divides `pG->eta_Hall` by |B| in place at every call, but `get_eta` runs once per timestep: with
  super-timestepping every substep after the first uses a Hall diffusivity divided once more (`C83_hall_refuted`).
* Not modelled, seen while reading: `integrate_diff_destruct` tests `RESISTIVTY` (typo), so the resistivity arrays are never
  freed; `hyper_diffusion` is never called.
* C84: `reflect_ix3_particle` (bvals_particle.c:1537) mirrors with `pG->MinX[2]` instead of `2.0*pG->MinX[2]`: unless the
  boundary is at 0 particles are put at the wrong place or lost (`C84_reflect_x3_refuted`).  A particle exactly on a reflecting outer
  boundary is its own mirror image, which is outside, and is removed (`C84_reflect_edge_refuted`).  `NBUF = (long)(0.15*arrsize)` is 0
  for fewer than seven places, and then the first particle packed is written beyond the send buffer (`C84_buffer_refuted`).
* C85: `dump_history` multiplies by `dx1*dx2*dx3` in every cell but divides by the extent of the axes with more than one cell, so a
  two-dimensional run with x3 extent 2 reports twice the mean (`C85_thickness_refuted`).  `if((myID_Comm_Domain==0) || (myID_Comm_world==0))`
  lets two processes write the same file when process 0 takes part in a Domain without being its first process
  (`C85_two_writers_refuted`).  `scal[NSCAL]` has room for 14 built-in columns but there are 15 with adiabatic MHD, self-gravity and
  cylindrical coordinates: with 30 user columns it is overrun (`C85_overflow_refuted`).
* C86: `OutData2` tests `pgrid->Nx[2] == 1` to recognise a two-dimensional run; a Grid of a three-dimensional run that is one cell thick
  satisfies it too, and the slice is ignored (`C86_thin_refuted`).
* C87: in `output_pdf` `adev` is not reduced over the processes (`C87_average_deviation_refuted`); `if(myID_Comm_Domain != 0) return;` inside
  the loop over Domains makes the next collective call hang (`C87_several_domains_refuted`); `data[]` is allocated for the first Domain only
  (`C87_larger_domain_refuted`); `mean`, `var`, ... are not cleared between Domains (`C87_stale_sums_refuted`).
* C88: `dump_vtk` decides the DIMENSIONS from `Nx[1]==1` before `Nx[2]==1`, so Grids one cell thick along x2 of a 3D run write `n 1 1`
  (`C88_thin_refuted`); `join_vtk` recognises neighbours by corners printed with "%e" (`C88_digits_refuted`).  Along an axis of one cell the
  joined file says two corners where a Grid's own file says one, and it has no new line between data sets (`C88_single_grid`); readers accept both.
* C89: the cell centred B3 of 2D (x-y) runs is not carried (`C89_B3_2d_refuted`); with qshear*Omega_0 < 0 the offset is negative and steps 4/5
  read rows outside the buffer (`C89_backward_refuted`); third order remap can make positive data negative (`C89_third_order_refuted`); the message
  buffer is allocated for NREMAP variables of n rows but step 9 sends NVAR_SHARE variables of nghost rows (`C89_buffer_refuted`).
* C90: `RemapFlx` leaves out the energy and scalar fluxes, and the 2D integrators never call it.
* C91: in 2D `Fargo` moves B3i but not B3c, from which the integrators set B3i again (`C91_B3_2d_refuted`).
* C92: `selfg_fft_1d` solves on each Grid as if it were the whole Domain, so several Grids along x1 get a wrong potential without a message
  (`C92_1d_several_grids_refuted`); it also needs `grav_mean_rho` to be the mean density exactly (`C92_1d_mean_refuted`), which 2D and 3D do not.
* C93: in two dimensions `selfg_fc` line 178 subtracts the new potential from itself (`dphic = phic - pG->Phi[ks][j][i]`; elsewhere it is `Phi_old`).
  Momentum is not affected, but the total energy drifts in every flow along x2 (`C93_energy_2d_drift`, `C93_energy_2d_refuted`).
  The coefficients of the 2D and 3D solvers use the displacement of the Grid in its level without subtracting that of the Domain, so the model
  and the theorems are about the root Domain.

* C94: `dump_tab.c` asks `Nx[1] > 2` and `Nx[2] > 3` for the header but `> 1` for the rows, and the width of a zone index, `(int)(2+log10(nmax))`,
  ignores that indices start at `nghost`: with 9 cells and `nghost = 4` the indices 12 and 12 are printed as `1212`.
* C95: `dump_binary.c` writes `ndata[6] = 1` with PARTICLES even if `out_pargrid` is 0 and no particle data follow.
* C96: `output_pgm.c` line 105 converts to int before it cuts off at 0 and 255; `output_tab.c` lines 199-206 and 275-282 restart the extremes at every
  Grid of file 0; `gmin` starts at `HUGE_NUMBER = 1e20`, which larger data never replace.
* C97: open sides with fewer than three cells read ghost zones that are not set yet (`C97_open_two_cells_refuted`; the code only has a comment); one side
  periodic and the other not, with several Grids along the axis, blocks (`C97_one_sided_periodic_refuted`, as C34).
* C98: the "open" potential is that of a periodic box twice as large with its mean density subtracted: the Laplacian in empty cells is
  -4 pi G times an eighth of the mean density of the Domain, not 0 (`C98_isolated_refuted`, `C98_poisson`).
* C100: `exchange.c:1880` (`reflect_ix1_exchange`) has `ir = 2*pG->js-i-1` where `is` is meant: in one dimension the predictor step reads
  before the array (`C100_mirror_1d_refuted`); in two or three it is right because js equals is.  With Grids of exactly nghost cells the
  ghost zones filled by the predictor miss deposits from beyond the neighbour (`C100_small_grid_refuted`).  A Domain periodic on one
  side only: `periodic_ix*_exchange` does both sides and `periodic_ox*_exchange` nothing (assumed away).
* C101: the iteration of the isothermal exact solver stops when its step is below 2*DBL_EPSILON, an absolute number.  If the densities
  are below it the iteration stops after one step: for left and right densities 16 e and e, and every e up to 2^-55, the density
  between the waves is off by more than an eighth (`C101_thin_gas_refuted`).
* C102: `multig_3d` restricts the potential itself to the coarse grid, solves there with the restricted residual, and adds the result
  to the potential. The coarse grid should start from zero. With one coarser level the exact potential of any gas becomes strictly
  lower in every cell (`C102_selfg_refuted`, `C102_cycle_refuted`). The recursion ends only if halving some size gives 4
  (`C102_recursion`): a cube of 5, 6 or 7 times a power of two cells, for example 20 or 48 or 96, recurses without end
  (`C102_recursion_refuted`). In 1D and 2D the solver stops with an error.
* C103: `integrate_cooling` gives each Domain the time step that the Domains before it left, and does not go back: the first Domain
  is cooled for longer than the time step that the Mesh then takes (`C103_domains_refuted`). Likewise, when a cell in the second
  pass cuts the step, the cells before it keep the longer one (`C103_cells` allows for it). The time step is cut to four fifths of
  the shortest cooling time even for gas in equilibrium (`C103_equilibrium`). With scalars the file refers to `dtoff`, which is
  declared nowhere; one `#ifdef` says `SUBCYCLE` where the others say `SUB_CYCLE`.
* C104: `streaming2d_multi.c`, `streaming3d_multi.c`, `par_strat3d.c` and others start `ran2` with the rank of the process, which is not
  negative: only process 0 initialises the generator, the others work with a table of zeros and all get the same first number
  (`C104_positive_seed_refuted`). A seed far below -2^31 leads out of the table with a 64-bit long (`C104_large_seed_refuted`).
* C105: after MPI_Reduce `compute_l1_error` copies the scalars from `err` instead of `tot_err` (`C105_scalars_refuted`), and tests
  `pD->DomNumber == 0`, which holds on every process of the root Domain, so all of them write a line, all but process 0
  from an array that was never set (`C105_writers_refuted`).
* C106: `odeint` stores intermediate results with indices from 1 to nvar, but its vectors start at 0: with kmax > 0 it reads beyond
  their end (`C106_store_refuted`). Only `odeint_lite`, with kmax = 0, is called in the code. A loop of `rkqs` that does not end is `None`
  in the model and excluded for bounded slopes (`C106_ends`); in floating point it would stop with "Stepsize underflow".
* C107: `output_vtk_2d` always writes its plane along x1 and x2, also when it is one across x1 or x2: all values but those of the first
  row or column are placed outside the Grid (`C107_other_planes_refuted`). With WRITE_GHOST_CELLS the origin is not moved, so every
  value is placed nghost cells too far (`C107_ghost_refuted`).
* C109: in the particle history the columns headed `var` hold the standard deviation (`C109_var_refuted`), and the number of cells of the
  Domain is a product of ints that overflows from 2^31 cells on (`C109_large_refuted`).
* C110: `output_tab.c` converts indices to float: beyond 2^24 cells along an axis different cells get the same index (`C110_index_refuted`).

## Trusted base

* Coq's kernel (8.16.1); `coqchk` is run on the development at the end.
* Axioms. Files without real numbers: `Print Assumptions` says "Closed under the
  global context". Files over `R` (Out, Dt and later numerical files): only
  `ClassicalDedekindReals.sig_forall_dec`, `ClassicalDedekindReals.sig_not_dec` and
  `FunctionalExtensionality.functional_extensionality_dep`, and in some files `Classical_Prop.classic`,
  all of the standard library.
  No axiom is added. `ASSUMPTIONS.md` (written by `tools/assumptions.py`) has what `Print Assumptions` lists for each theorem.
* Faithfulness of the transcription: every definition of a `...Model.v` file cites the
  lines it models and its simplifications.

### Modelled

`par.c` (all but file-system calls), `ath_array.c`, `ath_files.c`, `ath_log.c`,
`ath_signal.c`, `baton.c`, the scheduling part of `output.c`, `new_dt.c` (no special
relativity, no cylindrical coordinates; with super-timestepping), the loop of `main.c`, `init_mesh.c` (levels, nesting, decomposition,
rank assignment, communicators), neighbour links, overlap tests and the CGrid/PGrid records of `init_grid.c`, `smr.c` (all; no shearing box, no FARGO, no radiation),
`cc_pos.c` with the coordinate set-up of `init_mesh.c`/`init_grid.c` (Cartesian),
`bvals_mhd.c` (all boundary functions, packing, unpacking, the three-step exchange and the buffer
size; the model file is generated from the C text by `tools/bvals2v.py`; MHD, adiabatic, any number of scalars,
no special relativity),
`convert_var.c` (Newtonian part), `reconstruction/*` (Cartesian, no special relativity),
`rsolvers/{hlle,force,hllc,roe,esystem_roe,hlld,two_shock}.c` (Cartesian), the isothermal part of `rsolvers/exact.c`, `gravity/selfg_multigrid.c` (3D, one Grid), `microphysics/{cool_solver,integrate_cooling}.c` (no scalars, no subcycling), `ran2` of the problem generators,
`integrators/{integrate_1d_ctu,integrate_1d_vl,integrate_2d_ctu,integrate_2d_vl,integrate_3d_ctu,integrate_3d_vl}.c` (Cartesian, Newtonian; static and self-gravity, cooling,
scalars; no particles, shearing box, H-correction, first-order flux correction), `output_vtk.c` (all but names and text), `utils.c` (`ath_gcd`, `ath_bswap`, `minmax*`, `compute_l1_error`, `rkck`, `rkqs`, `odeint`, `odeint_lite`, `compute_div_b`, `sign_change`, `bisection`, `trapzd`, `qsimp`,
`avg*`, `vecpot2b*`, `ludcmp`, `lubksb`, `InverseMatrix`, `MatrixMult`), `particles/utils_particle.c` (all),
`particles/integrators_particle.c` (all but the predictor feedback and the FARGO shift bookkeeping), `grid_limit` of `particles/init_particle.c`, `particles/output_particle.c` (all but names and header numbers), `particles/dump_particle_history.c` (all but the text of the file), `particles/bvals_particle.c` (all but the shearing box and FARGO), `particles/exchange.c` (`exchange_gpcouple` and its boundary and buffer functions, without the shearing box), `restart.c` (all), `dump_history.c` (no special relativity), `dump_vtk.c` and `vis/vtk/join_vtk.c` (file names and the header text abstracted to its fields; the encoding of a float is any four bytes), `OutData1/2/3` of `output.c`, `output_pdf.c`, `bvals_shear.c` (`ShearingSheet_ix1/ox1`, `RemapFlx_ix1/ox1`, `RemapFlux`, `Fargo`; Grids of equal size along x2), `microphysics/{conduction,viscosity,resistivity,new_dt_diff}.c` (viscosity without FARGO, resistivity without the shearing box, cylindrical coordinates and the hyper-diffusion functions that nothing calls), `eta_standard` of `get_eta.c`, `gravity/selfg_fft.c` (root Domain, no shearing box, no star particles; the transforms are exact sums), `selfg_fc` of `gravity/selfg.c` (no star particles, an energy equation), `dump_tab.c` and `dump_binary.c` (all but names and opening of files), `output_pgm.c` and `output_ppm.c` (the bytes after the header), the extremes in `output_tab.c`, `gravity/bvals_grav.c` (all but the shearing box and `ProlongateLater`), `gravity/selfg_fft_obc.c` (3D), `gravity/selfg_fft_disk.c` (1D and 3D; no shearing box).

### Not modelled

Floating-point rounding (where `R` is used), the MPI library beyond the ordering and
matching rules stated in the models, the operating system, problem generators.
Of the numerics: special relativity (integrators, solvers, conversion, history columns), the shearing box and FARGO
outside the functions of `bvals_shear.c` listed above (source terms in `integrators/*`, `ShearingSheet_grav_*`, `RemapEy`, `RemapJy`, the shearing parts of the particle files), cylindrical coordinates outside
`cc_pos`/`dump_history`/`compute_div_b`, the self-gravity solvers other than `selfg_fft.c`, 3D of `selfg_fft_obc.c`, 1D and 3D of `selfg_fft_disk.c`, `selfg_multigrid.c` without MPI (2D of `gravity/selfg_fft_obc.c` and `gravity/selfg_fft_disk.c`; the source terms inside the integrators are
modelled with a given potential), `fftsrc/*`, the adiabatic part of `rsolvers/exact.c`, H-correction and first-order flux correction,
radiation.  Of the output: the text of the files where the properties above say so, and the other programs under `vis/`.
