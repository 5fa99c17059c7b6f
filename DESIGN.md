# Formal model of dccrg: design

Source: `/repo` (dccrg, header only C++). Everything here is a hand written Gallina model of that
code plus theorems about the model. Nothing is extracted from or linked with the C++.

* `properties.jsonl`: the properties, `MANIFEST.json`: which theorems state which property and
  what is missing, `seeded/LOG.jsonl`: wrong programs that were tried against the theorems.
  There, `theorems_failed` has the proofs that stopped and the theorems whose proofs use them; `theorems_not_reached` has
  theorems about the same property that were not compiled because something before them had stopped.
* `rocq/theories`: `*Model.v` files have definitions only, each with the lines of /repo it models.
  Theorems of property Cnn are called `cnn_...`. Theorems that end in `_refuted` give a case in
  which the code does not do what the property says; those that end in `_partial` leave out a part
  that is named beside them. Examples (`cnn_example`) are cases that meet the hypotheses.
* `mkmanifest.py` collects theorem names and the notes in `status.json` into `MANIFEST.json`.

## Trusted base

* The kernel of Coq 8.16.1 (and `coqchk`).
* `Print Assumptions` lists nothing for any theorem named in `MANIFEST.json`: each is "Closed under
  the global context". No axioms of Coq's library are used. (`coqchk` names the parameters of
  `Coq.ssr.ssrunder`, which are part of a library module that is loaded but not used.)
* The reading of the C++ by hand. Every definition cites the lines that it models. The model was
  written from the text of the code, which was never compiled or run.
* The statements: what a theorem says in terms of the model's observable functions is what the
  English property says. Specifications are in terms of geometry, sets and histories of calls and
  not of the helper functions of the code.
* What the environment of the code does: see below.

## What is modelled

| files | code | properties |
|---|---|---|
| `U64`, `MapModel` with `MapSpec`, `MapProofs`, `MapFamily`, `MapProps` | dccrg_mapping.hpp, dccrg_length.hpp: ids, levels, indices, parents, children, with wrapping 64 bit arithmetic | C01-C06 |
| `DblModel`, `DblProps` | limits of length and refinement level, computed in double precision by the code | C07-C09 |
| `HoodModel`, `HoodProps` | neighborhoods, topology, offsets to indices | C11-C13 |
| `MeshModel` with `MeshSpec`, `MeshBase`, `MeshWalk`, `MeshFind`, `MeshKids`, `MeshItem`, `MeshTo`, `MeshFace`, `MeshNear`, `MeshLookup`, `MeshCheck` | find_neighbors_of, find_neighbors_to, face neighbors, is_neighbor, get_existing_cell, find_cells | C14-C16, C48, C49, C51 |
| `Sets`, `RefineModel` with `RefineGeo`, `RefineInv`, `RefineSpread`, `RefineNear`, `RefineMerge`, `RefineFold`, `RefineExec`, `RefineStop`, `RefineReqs` | requests and stop_refining on all processes | C18-C27 |
| `BalanceModel` with `Create`, `Balance`, `BalProps` | creation of cells, pins, weights, load balancing | C29-C32, C50 |
| `SfcModel` with `SfcCreate`, `SfcProps` | creation of cells along a space filling curve (USE_SFC) | C78 |
| `ReqReturns` | return values of refine_completely, unrefine_completely, dont_refine, dont_unrefine | C79 |
| `History`, `HistProps`, `CommitProps`, `LoadCells`, `HistExamples` | all sequences of these calls; load_cells | C17-C32, C50 |
| `CommModel` with `CommInv`, `CommProps`, `CommViews`, `CommMore`, `CommExamples` | lists of all neighborhoods, process boundaries, copies of remote neighbors, get_cells, iterators | C17, C33-C38, C52-C54 |
| `Async`, `CommAsync`, `TransferAsync`, `Mpi` | order of messages; dccrg_mpi_support.hpp | C34, C41, C66 |
| `FileModel`, `FileProps`, `FileAccept`, `SaveModel`, `SaveProps`, `SaveLoad`, `SaveExamples` | file format, saving and loading | C10, C39, C40, C55, C56 |
| `GeoModel` with `GeoBase`, `GeoProps`, `GeoStretch`, `GeoExamples` | the three geometries | C42-C45, C57 |
| `ConfigModel`, `ConfigProps` | settings, initialize, hierarchical partitioning | C46, C47, C58, C59 |
| `ZoltanModel`, `ZoltanProps` | functions through which Zoltan reads the grid | C60 |
| `CopyProps` | copy construction | C61 |
| `DebugModel`, `DebugProps`, `DebugCommit`, `DebugCommitProps`, `DebugBalance` | checks compiled with DEBUG | C62 |
| `DebugRequests` | requests in programs compiled with DEBUG | C67 |
| `Adapt`, `AdaptCases` | commits as a function of the set of requests | C68 |
| `FloatBase`, `FloatDiv`, `FloatGeo`, `FloatCell`, `FloatProps`, `FloatStretch` | the geometries in 64 bit floating point numbers, when nothing is rounded | C70 |
| `Queries` | lists of all cells, owners, weights and announced moves | C71 |
| `Stages`, `StageProps`, `StageUpdate` | transfers of parts of the data, load balancing in stages | C72 |
| `ProgramModel`, `ProgramProps`, `ProgramCases` | programs for all processes together: computation from neighbors, adaptation by criteria, housekeeping | C69 |
| `AtModel`, `AtProps` | calls that take a coordinate | C63 |
| `VtkModel`, `VtkProps` | write_vtk_file | C64 |
| `Overlap`, `OverlapProps` | start and wait calls of updates with computation in between | C65 |
| `Rounds`, `GameSpec`, `GameModel`, `GameProps`, `GameRun` | the game of life programs in /repo/examples | C73 |
| `ConvertModel`, `ConvertProps`, `ConvertRun` | examples/dc2vtk.cpp, and what it shows of saved games | C74 |
| `AdvectModel`, `AdvectGeo`, `AdvectSum`, `AdvectRegroup`, `AdvectProps`, `AdvectCode`, `AdvectStep`, `AdvectFace`, `AdvectRun` | the finite volume solver in tests/advection, in exact rational arithmetic | C75 |
| `AdapterModel`, `AdapterDiff`, `AdapterSets`, `AdapterProps`, `AdapterCases` | check_for_adaptation and the requests of adapt_grid in tests/advection/adapter.hpp | C80 |
| `LifeModel`, `LifeRing`, `LifeGeo`, `LifeProps`, `LifeCases` | get_live_neighbors of tests/game_of_life/solve.hpp on all processes, with the changes of refine.hpp and load balancing in between | C81 |
| `ZoltanParams` | set_load_balancing_method, the options part of initialize_zoltan, set_partitioning_option, the options in copies | C82, C59 |
| `IterModel`, `IterProps`, `IterRun` | cached iterators: data pointers and additional items, and the calls that make them anew | C76 |
| `PoissonModel`, `PoissonRef`, `PoissonCache`, `PoissonProps`, `PoissonGeo`, `PoissonRun`, `PoissonCases` | the Poisson solver in tests/poisson on all processes, in exact rational arithmetic | C77 |
| `ParticleModel`, `ParticleProps`, `ParticleRun`, `ParticleCases` | the particle program in tests/particles, one process at a time | C83 |
| `SerialModel`, `SerialProps` | the serial Poisson solver in tests/poisson, in exact rational arithmetic | C84 |
| `SerialRing` | the parallel solver on a joined row of cells has the equation of the serial one | C84 |
| `SerialOffset` | offset_solution and get_p_norm of tests/poisson/poisson1d.cpp; powers are parameters | C84 |
| `SaveCut` | files that end in their list of cells | C40 |
| `DatatypeModel`, `DatatypeProps` | which get_mpi_datatype is called; the C++ rules for choosing an overload and the answers of BOOST_TTI are part of the model and trusted | C85 |

### Outcomes

`outcome` is `Done a`, `Threw` (an exception, abort or exit) or `NoFuel`. Loops whose end is not
obvious have fuel; theorems say that the outcome is `Done`, so there is always enough. Reads outside
of arrays of the geometries are the outcome `Outside`.

### Histories

`reachable` (History.v) and `xreachable` (CommModel.v) are all states after initialize and any
sequence of calls: requests, commits, pins, weights, writes of data, load balancing in one or
several steps, load_cells, additions and removals of neighborhoods, allocation and update of copies
of remote neighbors, copies of the grid. Calls of one process and collective calls are in one
sequence. That calls of different processes between collective calls can be put in a sequence is
assumed: they only change their own process.

### Conditions on grids (`grid_ok`)

* the ids of all possible cells fit in 64 bits (`wf`; C07-C09 are about whether the code ensures it),
* the length of the default neighborhood is below 2^32 (it is an unsigned int),
* in non-periodic dimensions the length of the grid plus the largest offset is below 2^64 indices
  (`hood_fits`; C13 shows what happens otherwise),
* at least one and fewer than 2^31 processes (comm_size is an int).

Offsets of neighborhoods and distances are integers without bounds, in the code they are `int`
and `uint64_t`.

### Containers

Sets and maps are lists without repetitions. The order of the list is the order of iteration, which
is arbitrary in `std::unordered_*`: the states of the histories have some order and the theorems do
not depend on it. Iterators and pointers are cell ids, so use of invalidated pointers cannot be
seen in the model (C53 and C62 are about which cells cached iterators contain), except in C76, where data
pointers kept in iterators are cells in one of the four containers of cell data.

### MPI

Collectives are functions of the contributions of all ranks. Point to point messages are delivered
by source, destination and tag in the order they were sent. That any other interleaving gives the
same result and that none blocks is proved for Some_Reduce, for sequences of updates, load balancing
transfers and commits in any mixture (`Async.v`, `TransferAsync.v`, C66), and for updates that overlap
with computation (`Overlap.v`, C65). Transfers copy whole cells except in `Stages.v`, where what a
message makes of the receiver's data is any function (C72). Not modelled: errors returned by MPI, tags beyond the upper limit of MPI
(the code aborts), allocation failures.

### Zoltan

An arbitrary answer: for every process a list of imports and a list of exports that agree with each
other and with the current owners (`answers_ok`). Its int counters do not overflow, weights are
opaque numbers (their conversion to float is not modelled).

### Files

A file is a function from offsets to bytes. Reads past its end succeed and leave the rest of the
buffer unchanged, as in the code, which ignores the number of items read. The byte order is a
parameter. Bytes are any integers in the theorems on cell data. User datatypes are a number of items, the size of
an item and whether the type is a named one; named types whose extent differs from their size are
not modelled, nor 2^31 or more cells on one process.

### Geometry

The geometry functions are written once over abstract arithmetic. Theorems are about the instance
with exact rational numbers plus NaN (division by zero is NaN): no rounding, overflow or infinities.
The instance with 64 bit floating point numbers (Coq's SpecFloat, without fused multiply and add) is
used to refute claims that rounding breaks, and C70 proves them for that instance when starts, lengths
and coordinates are multiples of a power of two.

### The advection solver

Numbers are exact rationals. In C75 the requested changes are any function of what a cell sees;
max_diff and check_for_adaptation are C80, and `c80_is_step` shows that what they request is such a step. Time steps, adaptation and load balancing are steps of the programs
of C69; that calculate_fluxes and apply_fluxes on each process amount to such a step is `c75_code`, in which
the copies of remote cells have the owners' density, velocity and lengths (not their flux).

### The game of life with refined cells

`LifeModel` has the lists data[1] ... data[8] of live neighbors, changed in place cell by cell as in solve.hpp, on every
process; grid[c] of own cells and copies are what C34 says they are after each update. The order of get_cells() is any order.
abort() and null pointers are the outcome None of `life_turn`. Positions of level 0 cells on the board and the rules are in `LifeGeo`
(`around_once`, `turn`), without reference to the code.

### The Poisson solver

Numbers are exact rationals and the power functions of get_residual are any functions (`pw`, `root`). Each
process is a memory from cells to data; transfers are `exchange`, which `c77_transfer_is_exchange` shows to be what
update_copies_of_remote_neighbors does with the data of Poisson_Cell::get_mpi_datatype. `PoissonRef.v` is a solver
without processes with which the model is proved to agree. Lengths of cells are any positive numbers. `PoissonAgain.v`
has the member cell_info that calls with cache_is_up_to_date reuse (`solve_flag`, `failsafe_flag`) and all sequences of
calls and writes of the user between them (`used_with`); pointers in cell_info are ids of cells, valid while the grid is
unchanged (C76). The reference solver (reference_poisson_solve.hpp) is in `SerialModel.v`: a vector is a function of indices below its
size, loops run in the order of the code. Output is left out;
convergence is not covered.

### The particle program

Particles are values of any type. Their motion, get_real_coordinate and get_existing_cell are any functions of particles,
where get_real_coordinate does nothing the second time. number_of_particles has no limit (unsigned int in the code).
A null pointer that is used ends the run (`None`). propagate_particles runs on one process with its own memory.
The transfers are updates of a part of the data: first the number, then, after resize(), the particles; a message longer
than the resized copy is an error, and resize() is taken together with the second update. Only copies of cells that own
cells see receive data. save(), the random start and vtk files are left out.

### Space filling curves

`SfcModel.v` is the branch of create_level_0_cells compiled with USE_SFC. The curve is a function from positions
to cells that visits every level 0 cell once (`space_filling`); an index outside of the cached range and an invalid
range are errors. `reach` and `xreach` start from both distributions, so every theorem on reachable states is about
builds with and without USE_SFC.

## What is not modelled

* Builds with DCCRG_NO_LB; with USE_SFC the library of curves itself (sfc++.hpp).
* Zoltan and Zoltan_Copy, MPI itself, the file system.
* DEBUG checks of Zoltan's answers when Zoltan fails (8581-8603).
* get_remote_neighbors_of/to (3230-3330), which do not compile when instantiated.
* Additional cell items and neighbor items given as template parameters by the user change nothing but
  themselves: what they calculate is a function of the grid (C76); order and interplay of several items are
  not modelled.
* Copying of grids that have user neighborhoods, as part of histories (C61 shows what is copied).
* Lifetime of pointers, exceptions of allocation, thread safety.
