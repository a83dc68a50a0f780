# Formal model of opm-upscaling: design

## Method

Every part of the code is modelled as a small total Gallina function (or a
relation when the environment, e.g. an MPI schedule or a solver outcome, is
arbitrary). Files in `rocq/theories` are organised per area `X`:

* `X_Model.v`  the model: definitions only, each citing the file and lines in
  `/repo` it models, and the simplifications made;
* `X_Spec.v`   the independent specification used in the statements (small,
  does not mention the model's helpers);
* `X_Proofs.v` lemmas;
* `X_Props.v`  only the property theorems, each closed by `exact lemma`,
  followed by `Print Assumptions`, and examples showing the hypotheses are met.

Theorem names start with the property id (`C07_...`). Suffix `_partial` marks
a theorem weaker than the property; suffix `_refuted` marks a proof that the
faithful model violates the property (a finding about the code).

## Numbers

* Indices, counts, sizes: `nat` or `Z`, unbounded; where C++ `int` limits
  matter (INT_MAX cap in `EulerUpstream::transportSolve`) they are explicit.
* `double`: exact real numbers (`R` of the Coq standard library). Rounding,
  overflow to infinity and NaN are not modelled. A division whose divisor the
  code does not protect is either guarded by an explicit hypothesis in the
  theorem or, where the finding is about it, modelled by `option` with `None`
  for a zero divisor.
* Code that only copies or compares values is modelled polymorphically.

## Undefined behaviour

Out-of-range access is `None` (never a default value) in models where memory
safety is part of the property. Loops without a syntactic bound use fuel with
a distinct out-of-fuel result, which the theorem excludes.

## Trusted base

* The Coq 8.16.1 kernel. The development is also checked with `coqchk`.
* Axioms of the standard library only. Each property theorem is followed by
  `Print Assumptions`; what it lists is given theorem by theorem in the
  appendix at the end of this file. Only these occur:
  `ClassicalDedekindReals.sig_forall_dec`, `ClassicalDedekindReals.sig_not_dec`,
  `FunctionalExtensionality.functional_extensionality_dep` (all three come with
  the real numbers), and `Classical_Prop.classic` where a lemma of the
  standard library's real analysis uses it. Theorems about integer, list and
  polymorphic code are closed under the global context. No axiom, parameter,
  functor or module type is declared in the development.
* The reading of the C++ source into Gallina. There is no extraction and the
  code is not run. Every definition in a `*_Model.v` file cites the lines it
  models.
* The contracts of code outside the repository. They appear as arguments
  (oracles) of the model, quantified over in the theorems, with hypotheses
  where a theorem needs more than the type:
  * BLAS routines: modelled by the values their documentation promises
    (`gemm`, `syrk`, `trmm_left`, `trmm_right`, `gemv` in `Matx_Model.v`);
    LAPACK factorisations by `lapack_ok`, `inverts`;
  * dune-istl linear solvers and preconditioners: arbitrary functions, or
    functions that solve the system, as stated by each theorem;
  * dune grids: a grid is the list of its cells with their faces, in the order
    of iteration; geometry (volumes, centroids, normals, Jacobians) is data;
  * `MonotCubicInterpolator`, `NonuniformTableLinear` (opm-common): a curve is
    an arbitrary function with its end points (`curve`, `jrock`); insertion
    and the search for the largest gap are modelled by their documentation;
  * the root finder (`bracketZero`, `RegulaFalsi`), the pressure solver, the
    single phase upscaling used by the drivers, the eigenvalue routine
    (`eigen_ok`), `std::sort` (`sorts`: a sorted permutation), quadrature
    rules, the random generator, single precision rounding, the deck parser
    and `EclipseGridInspector`: arbitrary functions with the stated contract;
  * MPI: messages between two processes arrive in order; a send may be
    buffered or wait for the receive; every such schedule is covered;
  * TBB: any tree of range splits and any order of the pieces;
  * the C heap: any outcome of any allocation.

## What is modelled

| area | files of `/repo` |
|------|------------------|
| Chop, Drv | `opm/upscaling/CornerpointChopper.hpp`; `examples/cpchop.cpp`, `cpregularize.cpp`, `cpchop_depthtrend.cpp`, `exp_variogram.cpp` |
| Color | `opm/elasticity/meshcolorizer.cpp/.hpp`, `logutils.hpp` |
| Bound, Upb | `opm/porsol/common/BoundaryConditions.hpp`, `BoundaryPeriodicity.*`, `PeriodicHelpers.hpp`, `setupBoundaryConditions.hpp`; `opm/upscaling/UpscalerBase_impl.hpp` |
| Relp, Mpi | `opm/upscaling/RelPermUtils.cpp` with its MPI exchange |
| Cap, Visc, Perm, Avg | `examples/upscale_cap.cpp`, `upscale_cond.cpp`, `upscale_relpermvisc.cpp`, `upscale_perm.cpp`, `upscale_avg.cpp`, `grdecldips.cpp` |
| Steady, Icap | `opm/upscaling/SteadyStateUpscalerImplicit_impl.hpp`, `SteadyStateUpscalerManagerImplicit.hpp`; `opm/porsol/euler/ImplicitCapillarity_impl.hpp`, `opm/core/transport/implicit/NormSupport.hpp` |
| Euler | `opm/porsol/euler/EulerUpstream_impl.hpp`, `EulerUpstreamResidual_impl.hpp`, `CflCalculator.hpp`, `MatchSaturatedVolumeFunctor.hpp` |
| Newton, Impl, Ieul, Tsrc | `opm/core/transport/implicit/*`, `opm/porsol/euler/EulerUpstreamImplicit_impl.hpp`, `opm/porsol/common/BCRSMatrixBlockAssembler.hpp` |
| Matx | `opm/porsol/common/Matrix.hpp`, `MatrixInverse.hpp`, `opm/core/utility/Average.hpp` |
| Mim | `opm/porsol/mimetic/MimeticIPEvaluator.hpp`, `MimeticIPAnisoRelpermEvaluator.hpp` |
| Hnum, Hyb | `opm/porsol/mimetic/IncompFlowSolverHybrid.hpp`, the numbering part of `GridInterfaceEuler.hpp` |
| Rprop, Fluid | `opm/porsol/common/ReservoirProperty*`, `Rock_impl.hpp`, `RockJfunc.hpp`, `RockAnisotropicRelperm.hpp`, `SimulatorUtilities.hpp` |
| Smat, Asm, Shape, Elast, Mort, Bgrid, Eups, Mload | `opm/elasticity/*` and the material and wave speed part of `examples/upscale_elasticity.cpp` |
| Ssd | `examples/upscale_steadystate_implicit.cpp` up to the tables |
| Rpd | `examples/upscale_relperm.cpp`: command line, curves, result table, ECLIPSE files |
| Sim | `opm/porsol/common/SimulatorBase.hpp`, `setupGridAndProps.hpp`, `opm/upscaling/initCPGrid.cpp`, `examples/SimulatorTester*.hpp`, `tests/compareUpscaling.cpp` |
| Eld | `examples/upscale_elasticity.cpp` (command line, grid set-up, choice of solvers, load cases), `LinSolParams`, `setupSolvers`, `solve`, `elasticity_preconditioners.*` (subdomains, what the classes are made from) |
| Lsv | `IncompFlowSolverHybrid.hpp` (the state kept between `init` and `solve` calls, the choice of linear solver, preconditioner reuse, starting vector), the calls of `upscaleEffectivePerm` |
| Tens | `UpscalerBase_impl.hpp` `upscaleEffectivePerm` as a whole: boundary set-up, flow solver, flux post-processing, average velocities and pressure drop length composed on one grid (topology and geometry) |
| Rpc | `RelPermUtils.cpp` from the pressure points to the curves: `upscaleSinglePhasePermeability`, the loop of `upscalePermeability`, `getRelPerm`, composed with the models Relp (cell permeabilities), Tens (upscaling) and Visc (curves); `ReservoirPropertyTracerFluid::phaseMobilities` |
| Ssk | `SteadyStateUpscalerImplicit_impl.hpp` and `SteadyStateUpscaler_impl.hpp` `upscaleSteadyState` from the steady state to the relative permeability tensors (limits on mobilities, `ReservoirPropertyFixedMobility`, `upscaleEffectivePerm` of Tens, `inverse3x3`, `matprod`), the loop of the explicit variant, the loops of `SteadyStateUpscalerManager.hpp` |
| Ska | the same calculation for anisotropic relative permeabilities: mobility tensors of `ReservoirPropertyCapillaryAnisotropicRelperm` (model Fluid), their limits, `ReservoirPropertyFixedMobility` and `ReservoirPropertyTracerFluid` `phaseMobility` for matrices, the inner product of `MimeticIPAnisoRelpermEvaluator.hpp` (model Mim) inside `upscaleEffectivePerm` |
| Elm | no new code: comparison of the upscaled stiffness (model Elast) for different materials on the same grid |
| Dump | `writeECLData.cpp` `writeECLData` (headers reduced to the items that vary), `SimulatorUtilities.hpp` `getCellPressure`, the restart output in `SteadyStateUpscalerImplicit_impl.hpp` (file name, time, date, fields); opening a unified file for a step is modelled as documented in opm-common |
| Grd | `CornerpointChopper.hpp` `writeGrdecl`, `subDeck`, `outputField`, `addDoubleKeyword_`, `addIntKeyword_`, and `chop` with its field filters; number formats are arguments, a deck is a list of keywords with raw data and dimensions |
| Chr | `CornerpointChopper.hpp` `chop` on a chopper that has been used before: contents of the members between calls and after exceptions |
| Bcp | `setupBoundaryConditions.hpp` `setupBoundaryConditions`: choice of the conditions from parameters (all branches) |
| Hdr | `cpchop.cpp`: the names above the columns of the result table |
| Tbl | `upscale_cond.cpp`, `upscale_relpermvisc.cpp`: the names above the columns of the result tables |

Simplifications that apply everywhere: numbers are exact reals; console
output, timing and file formatting are left out unless a property is about
them; debug assertions are compiled out (their failure is not modelled, except
where said); `exit()` and exceptions are the outcome `Throw`.

## Not modelled

* dune grid construction and geometry, dune-istl solvers and AMG set-up, BLAS
  and LAPACK internals, the deck parser, interpolation inside opm-common;
* floating point rounding, overflow, infinities and NaN propagation (a division
  by zero is a distinct outcome instead);
* VTK output (`writeVtkOutput`), timing, logs;
* `computeInOutFlows` and `calc_frac_flow` of `SteadyStateUpscaler_impl.hpp`
  (they do not compile), the transport and pressure solves inside the explicit
  steady state loop (an oracle that may depend on all earlier steps);
* `chopFlatEndpoints`/`shrinkFlatAreas` of opm-common as called by
  `upscale_relpermvisc.cpp:1149-1160`;
* `benchmarks/`, `tests/` (except `compareUpscaling.cpp`) and the test drivers in
  `examples/` (`mimetic_*_test.cpp`, `known_answer_test.cpp`).

## Findings

Places where the code does not do what its interface suggests. The theorems
describe the behaviour of the code as it is; the properties are worded so that
they are true of it.

Time stepping and transport

* `EulerUpstream::transportSolve` with `minimum_small_steps` 0 takes no step at all when the CFL limit asks for none, and reports success.
* When `EulerUpstream::transportSolve` throws after eleven attempts, the caller's saturation is the state left by the rejected step of the last attempt, not the one passed in (C46).
* The upstream choice with gravity is only guaranteed for one of the phases when the total flux is negative (C49).
* A second `initObj` appends to the list of cell iterators; the serial loop still works but a split range can run past the end (C50). The TBB residual updates both cells of a face without synchronisation.
* `ImplicitTransport::solve`: `max_it = 0` never terminates; the accepted state may be one the line search has refused (flag 3); a failed implicit solve returns the partial state; `max_repeats_` is uninitialised unless `init(param)` is used.
* Implicit transport: the periodic capillary flux is not conservative when the one-sided transmissibilities of the partners differ; self connections are counted twice; the buffers have one entry per half face, so the number of faces must not exceed the number of half faces (C62); the face visited last decides the face flux; a debug assertion fails for one-cell-wide periodic grids.
* `transport_source.c`: after a partially failed `realloc` the structure keeps dangling pointers.
* `init_stepsize` and `max_stepsize` defaults are multiplied by the unit again at every `initImpl` that omits them; so is `stepsize_` in `SimulatorBase`.
* `ImplicitCapillarity`: both phases immobile gives 0/0; the saturations returned belong to the last functor evaluation, not to the root; flow-pressure conditions are reused for the capillary pressure; an empty grid dereferences `min_element` of nothing.

Linear algebra

* `inverse3x3` fails for invertible matrices with a zero last pivot; `symmetricUpdate(A,B)` is only right for diagonal `A`; `inverse2x2` uses an operator `FullMatrix` does not have; `orthogonalizeColumns` has static buffers (not thread safe).
* The mimetic inner product for tensor mobilities is not symmetric, and the hybrid solver silently symmetrises it.
* `IncompFlowSolverHybrid`: `enumerateGridDof` reads out of bounds when the visiting order is not the index order; the AMG variants with `same_matrix` skip the regularisation (and dereference a null preconditioner on the first solve); regularising an empty grid is undefined.
* `matrixops.cpp`: `diagonal(N)` is a zero matrix; fixed-size patterns are overrun.

Properties and fluids

* `writeSintefLegacyFormat` throws after the uniform initialisation; SATNUM 0 gives rock type -1.
* `RockJfunc`: a single leading `-` line is swallowed as a comment; an empty table is undefined behaviour; an incomplete last row is dropped; a file of comments without a final newline throws; `readRocks` loops for ever at the end of the file; without rocks the inverse capillary pressure is constantly 0; the anisotropic capillary CFL factor is the constant of its initialisation; a J-scaled rock used by no cell divides by a zero porosity.

Elasticity

* `ASMHandler`: cyclic constraints recurse for ever; `maxeqn` is not reset by a second `initForAssembly`; `expandSolution` ignores constant offsets and fixed non-zero masters; products of coefficients below 1e-8 are dropped; the guard against constraining a fixed dof is bypassed by fixing the node later.
* Shape functions: the one-dimensional P1 set reads out of bounds, the gradient of the cardinal functions always divides by zero, the tensor gradient returns nothing, `legendre` of degree 0 writes outside its table.
* Materials: the density of transversely isotropic, anisotropic and orthotropic materials is dropped; nu = 0.5 is accepted and then gives a zero matrix; lambda = 0 gives 0/0; the matrices of diagonal orthotropic and 2D isotropic materials keep stale entries; the inverse of `OrthotropicSym` asserts; the driver calls `waveSpeeds` with unswapped order and density 1.
* Mortar: `applyscaleadd` does not scale `B*lambda`; the Uzawa solver ignores the multiplier part of the load; the dense multiplier matrix is undefined for M > N; `op.pre` is called twice.
* `BoundaryGrid`: `uniform` never sets one coordinate of its second vertex; quads with a box area below 1e-7 are dropped; `Q4inv` has no lower bound check and returns the last root even when it lies outside; `cubicSolve` uses the single precision `1.f/3`, returns non-roots with one real root, NaN or no root for some signs, and absolute tolerances; `HexGeometry::center` calls an undeclared function; `volume` is right for rectangles only.
* `ElasticityUpscale`: `renumber` is undefined for a single multiplier element; the top row is not identified with the bottom row for n2 = 2; the interior nodes of the last element collapse for n1 > 2; the mortar assembly omits MPC weights; the bounding box starts at +-1e5; too few pillars index out of range; a node of the maximal plane that is not found on the opposite face fails an assertion.
* Material loading: `upscaledRho` starts at -1 and is never set with a rock list but read by the driver; `uniform` with inactive cells indexes out of range; SATNUM 0 is undefined; the PERMX/PORO fallback is unchecked; volumes are summed in single precision; Emin is capped at 1e10; other materials are cast to `Isotropic` when scaling; `uniform` with one rock uses volume 1.

Drivers

* `upscale_avg`: the total volume includes cells below the cut-off while the sums do not; it prints `actnum[0]`, `actnum[1]` even for one cell; `-opt` as the last argument dereferences NULL (also in the other drivers). `grdecldips` without a listed cell divides by zero.
* `cpregularize` always throws after its first chop, ignores `imin`, and its last block is inside out when `imax` lies below its start. `cpchop`: rows are misaligned after late failures, net porosities are never filled without upscaling, capillary limits are never reset, the non-random window starts at 0, a window larger than the box is undefined. `cpchop_depthtrend` starts at z = 0 and aborts when the window is not larger than the top of the grid; a non-positive resolution loops for ever.
* `upscale_cap`, `upscale_cond`: only zero permeabilities are replaced in `upscale_cond`; a jump larger than the tabulation bound never terminates; Swir = Swor gives an empty table; cells with volume below 1e-10 count in the pore volume but not in the water volume; one interpolation point is 0/0; with MPI a process upscales also the points it does not own.
* `upscale_relpermvisc`: the z curve of flow ratios is made of y values, so the saturation is (x+2y)/3; the anisotropic header lists the wrong files; end points and contrast use the x curves only; SATNUM is required, so the ROCKTYPE branch is unreachable; one point is 0/0; a zero pore volume is not refused; anisotropic curves are not checked against each other; PERMY and PERMZ are not truncated; the printed table ends after the first zero saturation.
* `upscale_perm`: an unknown option is skipped silently, so that an option name can be taken as the grid file; `-bc fl` computes the linear result on the unclipped grid of the fixed conditions while `-bc l` uses a clipped one; the porosity with `p` is that of the clipped grid; unknown letters are ignored.
* `upscale_steadystate_implicit`: the upscaled relative permeabilities are stored in two tables that are never printed; a rock list with too few lines is read for ever; a line of blanks counts as a rock without a file name; upper end points are not checked; the block meant as `else` of `if (start_from_cl)` (360-362) runs always, without effect as long as the sizes agree; a deck whose rock numbers are all 0 divides by a zero pore volume.
* `upscale_relperm`: one interpolation point gives the table without interpolation although a comment says "1 or higher"; the extra row of `krow?swirr` is written for oil and water too although the help says it has effect for gas and oil only; an output name without extension in a directory with a dot (`../results/out`) puts the ECLIPSE files elsewhere (`.-X.SWOF`); an option without value at the end is a null pointer; any word starting with f, l or p is accepted as boundary condition.
* Simulator framework: `SimulatorBase::initControl` multiplies the step size by a day again in every call without the parameter; `resize` in `initSources` keeps the rates of an earlier `init` for the flow solver while the transport solver forgets them; overlapping boxes give the two solvers different rates; with both boxes the indices passed to `SparseVector::addElement` need not increase; numbers of a saturation file are read up to the first text, so a correct count followed by anything else is accepted; `initCPGrid` ignores `clip_z`; `compareUpscaling` accepts two zeros whatever the tolerances (0/0).
- `upscale_elasticity`: the method is compared with `mpc`, `mortar`, `none` only; the spellings `MPC` and `Mortar` of the usage text leave `p.method` uninitialised (C182). The multiplier preconditioner is read from `linsolver_mortarpre`, the usage text documents `mortar_precond`.
- `upscale_elasticity`: coordinates are read as integers and only the x coordinates are tested: with xmin, xmax given, missing y and z coordinates stay -1 (C183).
- `upscale_elasticity`: the aspect ratio heuristic announces the two level preconditioner, but the class was fixed in `main` before; AMG is used (C183, C184).
- `setupSolvers`: the set-up of a Schwarz preconditioner for the multiplier block overwrites `copy`, so all threads share one AMG object that is meant to be copied for each (C184). With a coupling matrix without columns, `pc[0]` is accessed out of range (C184).
- `Schwarz::setup2`: uses the direction of the slave for the masters of a constraint; right only for constraints within one direction (C185).
- `solve`: an `ISTLError` of the linear solver is printed and swallowed; the elasticity matrix then silently has a row from the unfinished vector (C186).
- `IncompFlowSolverHybrid`: `init` and `clear` keep `precond_`, so a `same_matrix` solve after a new `init` uses the preconditioner of the old problem (C187). A `same_matrix` solve with another `linsolver_type` than the last multigrid solve throws `bad_cast` (C187).
- `IncompFlowSolverHybrid`, `upscaleEffectivePerm`: with periodic conditions directions 2 and 3 are solved with the singular matrix, preconditioned with the regularised one (C188, C190). The fluxes of an exact solution are not affected (C189).
- `upscaleEffectivePerm` with fixed conditions: the tensor is diagonal by construction, so for a rotated anisotropic rock it differs from the rock tensor even when the rock is uniform (C195); with periodic conditions a uniform rock is returned exactly (C194).
- `upscaleEffectivePerm` with linear conditions: the average velocities are read off the two sides normal to each axis, not off the cells, so the energy argument that makes the periodic tensor symmetric (C191) does not apply; only uniform rocks and scaling are covered (C198).
- `RelPermUtils`: the lower limit of the single-phase permeabilities (`minSinglePhasePerm`) is computed from PERMX only; with anisotropic input a cell can get a single-phase permeability below its phase permeability, and the upscaled relative permeability exceeds one (100 in the example of C199) although all input curves stay below one.
- `SteadyStateUpscaler` (explicit): the default `sat_change_threshold` is 0 and the test is strict, so the loop never stops early, even when nothing changes (C205).
- `SteadyStateUpscaler` (explicit): `calc_frac_flow` is not a template and uses undeclared names, and its test of `isPeriodic` is inverted; `outflow` is not initialised before it is summed up. `computeInOutFlows` therefore cannot be used (read, not modelled).
- `2d_hack` with periodic conditions: the single-phase tensor has a zero third row and column (C192), so `inverse3x3` divides by zero for every grid and rock and steady state upscaling gives no relative permeabilities (C204).
- Steady state upscaling with anisotropic relative permeabilities: C206-C208 need diagonal cell permeabilities. For a rotated cell permeability the product of mobility and permeability is not symmetric, and neither is the matrix of the cell (C113), so the flow solver runs outside what it is written for.
- `output_ecl` of the implicit steady state upscaler: `int(ecl_time)` is undefined behaviour once the converged steps cover 2^31 seconds (68 years), while `max_stepsize` is 10000 years by default (C213). The restart date is also 26 years from the limit of a 32-bit `total_seconds()` (depends on the Boost version, not modelled).
- `output_ecl`: the file name contains the character code of the direction (120, 121, 122) instead of x, y, z, since `std::to_string` is applied to a `char` (C212). Saturations and pressure drops that agree in six decimals share a file.
- `output_ecl`: PRESSURE is written in Pascal although the header says METRIC, and it is that of the flow solution computed before the loop, hence the same in all steps (C212). The start date in the header moves by up to one second from step to step (C212).
- `output_ecl`: the file is not emptied at the start of a run; if the first call fails, steps of an earlier run with lower numbers stay in it (C212).
- `CornerPointChopper::subDeck` (and the file of `writeGrdecl`, which has no unit keyword) labels raw values as METRIC; COORD and ZCORN of a FIELD or LAB deck are off by 1/0.3048 or 100 (C216). Numbers are written with 16 significant digits, one less than needed to read a double back exactly (not modelled: the number format is an argument).
- `CornerPointChopper`: when `chop` throws (empty depth interval), dimensions and COORD are already those of the failed block while everything else is from the last successful chop (C218). For inverted boxes (C01) a used chopper returns values of earlier blocks instead of the fill value, so C217 needs imin < imax and jmin < jmax.
- `setupBoundaryConditions`: the table is resized but not cleared for side and region conditions, so conditions of an earlier set-up stay on the other sides (C219); `pressure_drop_direction` is not checked: a value other than 0, 1, 2 writes outside the arrays for fixed and periodic conditions (C220).
- `upscale_relpermvisc -interpolate`: line 1627 evaluates `WaterSaturationVsFractionalFlow` (saturation as a function of flow ratio) at saturations instead of the inverse `FractionalFlowVsWaterSaturation`, so the column v_w/v_o contains saturations (C223).

## Plan per property

| id | property | model and proof |
|----|----------|-----------------|
| C01 | Shoebox verification rejects every box outside the grid | decision procedure modelled as a boolean function; iff with the stated conjunction |
| C02 | Chopped cell takes its properties from the right source cell | triple loop modelled as writes into arrays; closed form proved for every index |
| C03 | Chopping never reads or writes outside an array and leaves no unset entry | arrays as lists, out-of-range access is None; the run is proved to be Some with the closed form |
| C04 | Chopped depths are the clamped source depths | same model as C02 |
| C05 | Layer selection keeps every layer that meets the box | fold over layers; invariant on kmin/kmax |
| C06 | Chopped COORD pillars end at the clipped depth only without clipping | refutation by a concrete witness, and the positive theorem when no clipping happens |
| C07 | Mesh colouring visits every active cell exactly once | strip-size computation and group filling modelled; partition lemma over strips lifted to cells |
| C08 | Threads working on the same colour never touch a common node | strips of equal colour are separated by a strip of the other colour of width >=1; proved on logical indices for logically Cartesian node sharing |
| C09 | Strip construction terminates with legal strips | fuel-indexed loop with fuel shown sufficient |
| C10 | Progress logger chunks partition the work | offset list closed form |
| C11 | Every boundary face is assigned exactly one side of the bounding box, or the call fails | list model of the collection loop |
| C12 | Periodic pairing is symmetric | invariant over the matching loop under uniqueness; refutation witness without it |
| C13 | A geometric partner is always found if one exists | completeness of the fallback full scan |
| C14 | Boundary-condition tables always have one entry per boundary id | state machine, invariant by induction over operations |
| C15 | Periodic setup prescribes exactly the requested pressure drop | decision model; per-side case theorem |
| C16 | Fixed setup prescribes pdrop on one side, zero on the opposite side and no flow elsewhere | state machine |
| C17 | Linear setup interpolates the pressure between the two ends | real arithmetic |
| C18 | Linear setup keeps the partner table of the previous setup | refutation by witness on the state machine |
| C19 | Prescribed side flux is distributed without loss | induction on the face list |
| C20 | Boundary condition type can only be changed between compatible kinds | state machine induction |
| C21 | Upscaled porosity is a volume-weighted mean | weighted mean lemma |
| C22 | Net porosity and net-to-gross are consistent | weighted mean lemma with the zero guard |
| C23 | Critical saturations are pore-volume-weighted means | weighted mean lemma |
| C24 | Upscaled permeability reproduces a homogeneous medium | face-list model with oracle flow solver |
| C25 | Average velocity counts each inflow and outflow face once | theorem for ids in 1..6 and refutation for id 0 |
| C26 | Corner depth addressing is in range and distinct | bijection proof over Z with div/mod |
| C27 | Voigt packing is a bijection | case analysis on the finite index, universally quantified entries |
| C28 | Every saturation point is computed by exactly one MPI process and loads are balanced | counting lemma on residues |
| C29 | Collecting results over MPI is schedule independent and cannot deadlock | small-step message-passing model; progress and confluence by invariant |
| C30 | Phase permeability contrast is bounded | max fold and clamp lemma |
| C31 | Anisotropic sweep fails exactly on active cells without rock | access-trace model, refutation and the positive theorem without region 0 |
| C32 | Water saturation range and upscaled saturation are pore-volume means of cell values | weighted mean lemma |
| C33 | Gravity offset of a cell is looked up for that cell exactly on fully active numbering | theorem for fully active grids and refutation otherwise |
| C34 | Capillary pressure range with gravity covers all cells exactly for opposite extreme offsets | order theorem on folds; documents the sign convention |
| C35 | Curve admissibility test accepts exactly the intended curves | decision model, iff |
| C36 | Steady-state iteration always stops and reports truthfully | loop with oracle solver; induction on iterations |
| C37 | Initial saturations respect the cell limits | clamp lemma, refutation for narrow ranges |
| C38 | Both-phase saturation expansion and destriping are inverse | list induction |
| C39 | Phase flows on a boundary side add up to the total flow | two-pass fold model |
| C40 | Saturation and pressure-drop sweeps hit both end points and are monotone | real arithmetic with exp/ln |
| C41 | A failed steady-state run never seeds the next one | fold over outcomes; history characterisation |
| C42 | Relative permeability output determines every tensor component but one | non-injectivity witness; proof that it is injective on symmetric tensors |
| C43 | Control file round trip | token-stream model |
| C44 | Explicit sub-steps add up to the requested time | Z/real model incl. ceil and INT_MAX cap |
| C45 | Every retry restarts from the original saturation | retry loop with failing-step oracle |
| C46 | After a failed explicit transport solve the saturation is that of the last attempt's rejected step | refutation on the same model |
| C47 | Accepted saturations lie in the tolerated range | list lemma |
| C48 | The explicit residual conserves the fluid globally | face-table fold; antisymmetry + visit-once lemma |
| C49 | Upstream cells are chosen consistently with the phase flux direction | real case analysis |
| C50 | Block iteration over cells covers every cell once | induction on split trees |
| C51 | The CFL time is a lower bound over cells | min-fold lemma |
| C52 | Saturation matching functor is zero exactly at conserved volume | sum lemma |
| C53 | The Newton solve always stops within its iteration limits | fuelled loop with oracle; fuel bound proved |
| C54 | What a Newton solve's success flag says about the returned state | refutation plus theorem for the residual criteria when the last trial is accepted |
| C55 | Implicit retry loop restarts from the original saturation and always stops | retry loop model |
| C56 | Local contribution buffer is addressed in bounds and without overlap | interval arithmetic |
| C57 | Every assembled Jacobian entry exists in the sparsity pattern | list inclusion |
| C58 | The assembled residual is the cell balance | fold + antisymmetry |
| C59 | The assembled Jacobian is the derivative of the assembled residual | derivable_pt_lim in Coq reals |
| C60 | Implicit upwinding is consistent | case analysis |
| C61 | Saturations stay in range and sum to one after a step | clamp lemma |
| C62 | Model parameter storage segments do not overlap | interval arithmetic |
| C63 | Source list append keeps earlier entries | heap model with allocation oracle; refinement to a list; refutation for use-after-free |
| C64 | The mimetic inverse inner product is symmetric and exact for linear pressure | matrix algebra over reals with big sums |
| C65 | The mimetic inverse inner product is positive definite | sum of squares decomposition |
| C66 | Pressure solve conserves mass in every cell for any contact pressures | static condensation identity |
| C67 | A solution of the assembled system has continuous fluxes and satisfies the boundary conditions | row-sum identity of the assembled operator |
| C68 | A solution of the assembled periodic system has the prescribed jump and matching fluxes | row-sum identity with the pair indirection |
| C69 | The assembled flow matrix is symmetric and positive definite, so the flow field is unique | symmetry of every elementary update |
| C70 | Face degrees of freedom are numbered bijectively | two-pass enumeration model |
| C71 | Post-processed fluxes are exactly antisymmetric | two-pass fold |
| C72 | Every matrix entry the flow assembly touches is in the allocated pattern | inclusion of index sets |
| C73 | Permeability tensors are symmetric and bounded below | decision model over keyword sets |
| C74 | Incomplete permeability input is rejected | finite decision, proved by computation for all subsets |
| C75 | Cell properties are read from the cell's own global index | list model |
| C76 | Closed-form 2x2 and 3x3 inverses are inverses | field identities, refutation with division by zero as an error value |
| C77 | J-function capillary pressure and its inverse agree | real arithmetic with table oracle |
| C78 | Capillary pressure of a cell follows its rock; the default inverse is constant | refutation |
| C79 | Arithmetic, geometric and harmonic averages are ordered | nra/sqrt |
| C80 | Fractional flow is a monotone fraction for default fluid curves | real arithmetic |
| C81 | CFL factors bound the sampled slopes of the flow functions | constant-function theorem (finding) |
| C82 | Cell velocity is exact for uniform flow | linear algebra on face lists |
| C83 | Dense matrix storage and arithmetic | index bijection, sum identities |
| C84 | Equations are numbered without gaps or duplicates | fold invariant |
| C85 | Constraint chains resolve to independent masters | well-founded resolution by rank; semantic preservation |
| C86 | A cyclic constraint set makes the resolver loop | no fuel suffices theorem |
| C87 | Assembly equals congruence with the constraint transformation | bilinear form identity |
| C88 | Expanded solutions satisfy the constraints | theorem for homogeneous constraints; refutation otherwise |
| C89 | Isotropic stiffness and compliance are inverse, symmetric and positive definite | field identities and quadratic form bounds |
| C90 | Elastic parameter conversions agree | field identities, error value for division by zero |
| C91 | Anisotropic input is permuted consistently | quadratic form identity |
| C92 | Which entries of a material matrix depend on the previously used matrix | refutation and positive theorem for the others |
| C93 | Element shape functions form a nodal partition of unity | ring identities, derivable_pt_lim |
| C94 | The gradient of cardinal functions is never defined | division-by-zero outcome for every input (finding); the value routine is proved cardinal |
| C95 | Element stiffness is symmetric, positive semidefinite and blind to rigid motion | sums over nodes |
| C96 | Sparse matrix helpers compute what they say | matrices as partial maps |
| C97 | Saddle point operator and Uzawa solver are consistent | abstract linear algebra over functions nat->R |
| C98 | Boundary quads sample and invert bilinear maps | real algebra; refutation for the unset coordinate of the corner node |
| C99 | Quadratic and cubic root finders return roots | real algebra with sqrt/trig |
| C100 | Mortar multiplier numbering is periodic and gap free | loop invariant |
| C101 | Materials of a grid, their volume fractions and the density | fold lemma; refutation |
| C102 | Bounding box search works for any coordinates | theorem within the range, refutation outside |
| C103 | Isotropic wave speeds do not depend on direction | trigonometric identity and eigenvector equations |
| C104 | Wave speeds solve the Christoffel equation of a matrix in Voigt order | refutation with an orthotropic matrix |
| C105 | Regularised coarse blocks partition the fine grid | closed form of the two loops |
| C106 | Grid statistics are ordered means | weighted AM-GM-HM via ln/exp convexity |
| C107 | Region based conditions affect exactly the faces inside the region | state machine, induction on the id list |
| C108 | Model thickness is the distance between mean top and mean bottom | fold invariant over cells and corners |
| C109 | Relative permeability input check rejects exactly bad data and repairs the rest as documented | pointwise characterisation of the fold |
| C110 | Steady-state mobilities have bounded contrast | fold invariant for the maximum |
| C111 | Reported upscaled saturation is the pore volume mean | fold invariant, weighted mean bounds |
| C112 | Transmissibilities and gravity fluxes of the implicit model | enumeration of half faces, fold invariants |
| C113 | The inner product for tensor mobilities | as for the scalar evaluator |
| C114 | A flow problem without prescribed pressure is regularised correctly | Hyb model: kernel of the assembled matrix is the constants; regularise doubles S_[0][0] |
| C115 | The flow solver reproduces linear pressure exactly | Hyb and Mim models together: exactness of the inner product, uniqueness of the flow field |
| C116 | The legacy permeability file determines the permeability of every cell | Rprop model: list of the written lines |
| C117 | Rock files are read row by row after their comment header | Fluid model: character lists and token lists, induction |
| C118 | Constraints are ordered consistently | mpc_less as code; lexicographic products of strict weak orders. |
| C119 | Boundary conditions accumulate | update_fixed, add_mpc, add_master on association lists. |
| C120 | Higher order shape functions interpolate polynomials | card_eval, tp_eval, pn_set, leg_table, lobatto_newton; roots of polynomials; Bonnet recursion. |
| C121 | The upscaled elastic stiffness is symmetric, nonnegative and below the volume average | assemble, average_stress, extract_values; energy form; Fredholm alternative for semidefinite systems. |
| C122 | Assembling the elastic problem depends on nothing assembled before | assemble over the handler of Asm_Model; invariant over histories. |
| C123 | Materials are created from parameters and files as documented | create_params, create_file. |
| C124 | Chunked loops visit every task exactly once | log_groups: closed form of the offsets, concatenation of ranges. |
| C125 | Schur operator and block preconditioner of the mortar solver | sparse products as sums over stored entries; block vectors. |
| C126 | Corner pickers order four vertices | std::sort as an oracle returning any sorted permutation. |
| C127 | Geometry of a boundary quad | real algebra, loop induction for Newton's method. |
| C128 | Corners are fixed and opposite faces tied | induction over vertices and faces; sort oracle. |
| C129 | Boundary faces are reconstructed | loop invariants; sort oracle. |
| C130 | Mortar coupling matrix has the stated entries | pattern coverage invariant, closed form of the entries. |
| C131 | Mortar element matrices are the quadrature of basis products | loop invariant and partition of unity. |
| C132 | Elastic moduli are converted correctly and auxetic materials refused | real algebra, least element of a list. |
| C133 | Rock lists assign materials and volume fractions | loop invariant, rounding error induction. |
| C134 | Statistics per rock type partition the grid | tally invariant over the cells; partition of sums by type. |
| C135 | Dip averages cover exactly the cells above the volume limit | closed form of the loop. |
| C136 | Random subsample windows lie in the requested box | case analysis on the generator ranges. |
| C137 | Rows of the subsample table belong to one subsample | every statement adds one entry per column or fails; invariant over the subsamples; Forall2 between subsamples and columns. |
| C138 | Subsample end points are pore volume averages within the rocks' limits | closed form of the sums; invariant on the limits. |
| C139 | Rock shares of a subsample are fractions that add up to one | tally invariant with growing rows. |
| C140 | Depth trend windows | induction on the number of windows; Archimedean bound. |
| C141 | Variogram pairs | mapM over the pairs. |
| C142 | Capillary mobility of a cell | algebra of the series mobility; matrix products over the model of the column-major matrices; LAPACK inversion by contract. |
| C143 | Capillary pressure problem | instance of the residual model; sums over face terms. |
| C144 | Saturation after an implicit capillary step | refinement to the relaxed state; linear sums; oracles for the pressure solver and the root finder. |
| C145 | Vector norms | induction on the vector; Cauchy-Schwarz. |
| C146 | Upscaled relative permeability from phase permeability | matrix algebra over the model of inverse3x3. |
| C147 | Time parameters of the implicit upscaler | induction on the sequence of initialisations. |
| C148 | Command line and rock files of the upscaling programs | induction on the argument list; the case analysis is shown complete. |
| C149 | Check of the grid input | induction over the cells. |
| C150 | Capillary pressure limits and saturation end points | fold invariant over the cells; weighted means. |
| C151 | Tabulation of saturation against capillary pressure | loop invariant; potential argument on the halved intervals. |
| C152 | Saturations of the model and of its rock types | fold invariant over the cells; regrouping of sums by rock type. |
| C153 | Table written by upscale_cap | arithmetic progression; contract of the interpolator. |
| C154 | Archie resistivity of the cells | monotonicity of powers; map over the cells. |
| C155 | Resistivity table on several processes | instance of the message passing model; invariant over schedules. |
| C156 | Grid input of the viscous limit upscaler | induction over the cells; iff, with the rejecting direction. |
| C157 | Rock files of the viscous limit upscaler | induction over the rock types; both directions. |
| C158 | End points and pore volumes of the viscous limit upscaler | fold invariant over the cells. |
| C159 | Flow ratio tables | explicit sums; monotonicity of quotients. |
| C160 | Saturation at a flow ratio | regrouping of sums by rock type; reuse of the tabulation invariant. |
| C161 | Phase permeabilities of the cells | fold invariant; maximum of a list. |
| C162 | Viscous limit upscaling on several processes | invariant over the transition system of the sends and receives. |
| C163 | Relative permeabilities and the table of the viscous limit upscaler | matrix algebra; induction over the rows. |
| C164 | Setup of the implicit transport solver | induction over the visited half faces with an invariant on the lists built. |
| C165 | Face fluxes and sources of the implicit transport solver | sums over half faces regrouped by cell; two half faces of a face have opposite orientation. |
| C166 | Periodic half faces of the implicit transport solver | two-phase loop: reads happen before writes, periodic faces are pairwise distinct. |
| C167 | Command line of upscale_perm | induction over the pairs of arguments; exhaustive case analysis. |
| C168 | Choice of boundary conditions | induction over the string. |
| C169 | Results of upscale_perm | case analysis over the flags with the object state tracked through setBoundaryConditionType. |
| C170 | Saturation range of the steady state program | invariant of the loop over the cells, scattered sum, bounds of weighted means. |
| C171 | Input of the steady state program | induction over the lines and characters. |
| C172 | Runs and tables of the steady state program | induction over the series of runs; invariant of nested table updates. |
| C173 | Command line of upscale_relperm | induction over the options. |
| C174 | Curves of upscale_relperm | induction over the files; case analysis of directions and phases. |
| C175 | Result table of upscale_relperm | induction over the rows; position in a concatenation of equal blocks; contract of monotone interpolation. |
| C176 | Files written by upscale_relperm | induction over strings and rows. |
| C177 | Control parameters and initial saturation of a simulator | case analysis; induction over the calls. |
| C178 | Sources in boxes | induction over the cells with an invariant on rates, entries and total. |
| C179 | Run of a simulator | induction over the steps. |
| C180 | Grid and properties of a simulator | case analysis. |
| C181 | Comparison of result files | induction over the values. |
| C182 | Parameters of the elasticity program | case analysis; induction over the name. |
| C183 | Coordinates, cells and preconditioner derived from the grid | real arithmetic. |
| C184 | Set-up of the linear solvers | case analysis on the parameters using the augmented matrix of C97. |
| C185 | Subdomains of the Schwarz method | induction over cells, nodes and directions; the pattern of C87. |
| C186 | The load cases of the program | case analysis and induction over the cases. |
| C187 | Preconditioner used by a solve of the flow solver | an invariant of the object over the history. |
| C188 | System handed to the iterative solver | the assembled system of C66-C72, its stored pattern and positive diagonal. |
| C189 | Outcome of a flow solve | uniqueness of the fluxes of the regularised and the singular system. |
| C190 | Reuse of the matrix by the upscaling | equality of the kinds stored by the set-up in two directions; the matrix as a function of the kinds. |
| C191 | Upscaled permeability is symmetric | the tensor as an energy inner product of the three flow fields: summation by parts over the cells, with continuity of the fluxes and the periodic jumps. |
| C192 | Upscaled permeability is positive definite | the quadratic form of the tensor is the energy of a flow field; a field without energy has no pressure drop. |
| C193 | Bounds on the upscaled permeability | the two variational principles of the discrete problem: comparison with linear pressures and with uniform fluxes. |
| C194 | Uniform rock is upscaled to itself | the bounds coincide. |
| C195 | Fixed conditions give a positive diagonal tensor | the variational principles with Dirichlet and no-flow sides. |
| C196 | Upscaled permeability is monotone and scales | energies of the flow of one rock compared in the minimum principle of the other. |
| C197 | Upscaling returns a tensor unless a solve fails | totality of each step, carried through the three directions with the structure shared by them. |
| C198 | Linear conditions reproduce a uniform rock and scale | linear pressures solve the discrete problem of a uniform rock, and the fluxes of a discrete problem are unique; the flow of the scaled rock is the scaled flow. |
| C199 | Upscaled relative permeabilities lie between zero and one | the phase permeabilities of the cells lie below the single-phase ones because of the two lower limits, and the upscaled tensor is monotone in the cell permeabilities (C196); the counterexample is one anisotropic cell. |
| C200 | Upscaled relative permeabilities follow the curves of the rocks | the limits applied to the cell permeabilities are monotone and so is the upscaled tensor (C196). |
| C201 | A relative permeability that is the same in all cells is returned | the phase permeability field is a multiple of the single-phase one, and so are the tensors (C196); the inverse of the single-phase tensor exists because it is positive definite. |
| C202 | Steady state relative permeabilities lie between those of the cells | the limited mobilities of the cells lie between the bounds divided by the viscosity, the effective tensor is monotone in them (C196), and the tensor times the single-phase permeability is the viscosity times the effective tensor because inverse3x3 inverts. |
| C203 | Steady state relative permeabilities follow those of the cells | the limits are monotone in the whole field and so is the effective tensor (C196). |
| C204 | A uniform relative permeability is returned by steady state upscaling | both bounds coincide (C202); with periodic conditions the two symmetric forms agree and the inverse of the single-phase tensor cancels. |
| C205 | The explicit steady state loop ends at the first small change, and runs are chained | induction on the steps and on the lists of the manager. |
| C206 | Steady state relative permeabilities with anisotropic curves lie between those of the cells and directions | the inner product for tensor mobilities is the mimetic one for the product of mobility and permeability, which is diagonal; it is monotone in each diagonal entry, so the effective tensor is monotone in the mobilities (C196), and the limited mobilities lie between the bounds divided by the viscosity. |
| C207 | Steady state relative permeabilities with anisotropic curves follow those of the cells | the limits, taken from the largest mobility of all cells and axes, are monotone in the whole field and so is the effective tensor (C196). |
| C208 | Uniform anisotropic relative permeabilities are returned by steady state upscaling | both bounds coincide (C206); for the uniform rock the arithmetic and harmonic bounds coincide (C195), the periodic tensor is the uniform one (C194), and the inverse of the single-phase tensor cancels. |
| C209 | Stiffer materials give a stiffer elastic block | the six solutions give the minimum of the energy over the displacements that the constraints allow; the displacements of one set are allowed for the other one, and the energies are ordered point by point. Applied in both directions and polarised for the scaling. |
| C210 | Lower bound of the upscaled stiffness and exactness for one material | at each quadrature point 2 e.y - y.Ky <= e.Ce for inverse matrices C and K; the mean of the total strain is the applied strain, so integration gives the dual form of the bound, and y = H x the bound itself. For one material the mixed term of the energy vanishes. A vanishing energy would make the applied strain orthogonal to everything. |
| C211 | Contents of a restart report step | induction over the solution and over the file. |
| C212 | Restart file of an implicit steady state run | the loop with output is related to the loop without; invariant: file = kept steps followed by the steps of the calls made so far; monotonicity of the converged time. |
| C213 | Restart output ends the run after 2^31 seconds | refutation of 'output does not disturb the run': a one-cell solver moving back and forth by 0.005 doubles the step twelve times before it can be steady, so the thirteenth call alone covers more than 2^31 seconds. |
| C214 | The chopped file and the sub-deck agree | induction over the values of a field: splitting the text at blanks gives back the values; invariant for the width of the current line: index modulo values per line. |
| C215 | Contents of the sub-deck | C02 for each field, and membership in the sub-deck for each keyword. |
| C216 | Units of the sub-deck | comparison of the SI factors; worked example in FIELD units. |
| C217 | A chopper can be used again | the vectors are only resized, so entries of earlier blocks stay until they are overwritten; every index of COORD, of ZCORN and of the cell map is written, so the result does not depend on the contents before (writes at all indices); invariant: fields that the deck does not have stay empty. |
| C218 | State after a failed chop | evaluation of chop up to the check. |
| C219 | Boundary conditions of a simulation | relation between parameters and the requested conditions; evaluation; counterexample to a reset of the table. |
| C220 | Boundary conditions for upscaling or a block, from parameters | evaluation with the lemmas of the table operations and of C107. |
| C221 | Columns of the subsample table stand under their names | header as the list of its words; relation between names and results; case analysis on the options. |
| C222 | Tensor elements stand under their names in the tables of upscale_cond and upscale_relpermvisc | lines of names as lists; relation between names and tensor elements; composition with the row theorems of C155 and C163. |
| C223 | Flow ratios printed by upscale_relpermvisc belong to the printed saturations only without interpolation | rows of the report theorems of C163; refutation by a strictly increasing curve and two flow ratios. |

## Appendix: Print Assumptions, theorem by theorem

R stands for `ClassicalDedekindReals.sig_forall_dec`,
`ClassicalDedekindReals.sig_not_dec` and
`FunctionalExtensionality.functional_extensionality_dep`.

`functional_extensionality_dep`, `sig_forall_dec` (438 theorems): C85_terminates, C85_result, C86_iff, C86_diverges, C87_starts, C87_pattern, C87_assembled, C87_symmetric, C87_energy, C88_values, C88_constraint, C88_homogeneous, C118_less, C118_same_slave, C119_fix, C119_add, C119_masters, C106_volumes, C106_porosity, C106_net, C106_mean, C106_net_porosity, C134_report, C134_sums, C134_refused, C135_dips, C98_uniform, C98_second_corner, C98_layer, C98_pos, C98_pos_affine, C99_depressed, C127_corners, C127_global, C127_derivative, C127_local, C127_local_affine, C107_region, C149_cap, C149_cap_rejects, C149_cond, C149_cond_rejects, C151_values, C151_resolution, C151_terminates, C151_jump, C151_empty, C151_single_pressure, C153_grid, C154_parameters, C154_water, C155_points, C155_one_point, C155_rows, C01_verify_shoebox, C01_inverted_box_refuted, C02_cell_source, C03_chop_total, C03_pillars, C04_chop_zcorn, C05_chop_layers, C06_pillar_end_refuted, C06_pillar_end_unclipped, C105_depths, C105_never_finishes, C136_random, C138_end_points, C138_bounds, C139_volumes, C139_bounds, C140_rows, C140_endless, C140_deep, C89_inverse, C89_stiffness, C89_compliance, C89_range, C89_zero_modulus, C89_plane, C90_bulk_shear, C90_lame, C90_lame_zero, C90_young_poisson, C90_velocities, C90_range, C91_file, C91_transverse, C91_parameters, C91_energy, C92_isotropic, C92_symmetric, C92_diagonal, C92_diagonal_inverse, C92_plane, C92_plane_refused, C92_plane_orthotropic, C95_strain, C95_rigid, C95_entries, C95_symmetric, C95_energy, C95_semidefinite, C95_kernel, C104_unique, C121_exists, C121_symmetric, C121_bounds, C121_energy, C121_unique, C121_cleared, C122_assembled, C123_isotropic, C123_sizes, C123_diagonal, C123_orthotropic, C123_file, C123_keyword, C123_fluid, C123_no_file, C123_no_density, C44_step_count, C44_zero_cfl, C45_retries, C45_terminates, C46_failed_state, C46_unchanged_refuted, C47_small_step, C49_upstream, C49_negative_refuted, C49_switched_off_refuted, C51_velocity, C51_velocity_throws, C51_gravity, C51_gravity_flux, C51_capillary, C51_time, C52_zero, C52_value, C52_monotone, C102_box, C102_far, C128_plane, C128_line, C128_point, C128_corners, C128_fix_line, C128_weights, C129_slaves, C129_masters, C130_entries, C130_unit_masters, C130_weights_ignored, C80_fraction, C80_monotone, C80_default, C80_derivatives, C80_anisotropic, C80_velocities, C81_anisotropic_default, C81_anisotropic_rocks, C82_estimate, C82_partition, C82_uniform, C82_simple, C82_simple_uniform, C117_table, C117_anisotropic_table, C72_structure, C66_conservation, C66_solve, C66_unknown_solver, C67_equations, C68_periodic, C69_symmetric, C69_semidefinite, C114_flag, C114_dirichlet, C71_post, C142_value, C142_undefined, C142_tensor, C142_diagonal, C144_start_range, C145_maximum, C145_sum, C145_max_is_norm, C145_sum_is_norm, C146_relperm, C147_repeated, C147_after_given, C164_lists, C164_mirrored, C164_one_cell_wide_refuted, C165_fluxes, C165_sources, C165_balance, C166_halves, C56_cell_buffer, C57_pattern, C57_in_bounds, C58_residual, C58_conservation, C58_periodic_refuted, C58_self_refuted, C59_jacobian, C59_stored, C60_upwind, C61_finish, C61_iteration, C61_start, C112_transmissibility, C112_series, C112_gravity, C76_inverse2x2, C76_inverse3x3, C76_invertible_refuted, C76_matprod, C83_equal, C83_trace, C83_prod_vector, C83_prod, C83_mat_mul_add, C83_vec_mul_add, C83_vec_mul_add_c, C83_symmetric_update, C83_congruence, C83_congruence_refuted, C64_formula, C64_symmetric, C64_exact, C64_hydrostatic, C64_gravity, C64_dynamic, C65_semidefinite, C65_definite, C113_formula, C113_exact, C113_forms, C101_grid, C101_only_if, C101_uniform, C132_given, C132_lame, C132_bulk, C132_permeability, C132_missing, C132_scaled, C132_not_scaled, C133_single, C133_cyclic, C133_regions, C133_only_if, C133_scaled, C133_not_scaled, C133_isotropic_only, C133_names, C133_exact, C97_apply, C97_scaled, C97_scaled_iff, C97_uzawa, C125_operator, C125_matrix, C125_diagonal, C125_block, C29_collect, C53_stops, C53_zero_limit_refuted, C54_flags, C54_accepted_refuted, C55_retries, C55_terminates, C55_unchanged_refuted, C169_results, C169_no_grid, C169_failure, C169_linear_alone_refuted, C169_program, C35_check_curve, C35_zero_end, C35_findings_refuted, C108_thickness, C108_finite, C109_sanity, C73_tensor, C73_positive, C73_absent, C73_uniform, C74_accepts, C74_kind, C75_fields, C116_legacy, C93_nodal, C93_reproduces, C93_increment, C94_gradient, C94_product_gradient, C120_nodal, C120_reproduces, C120_plane, C120_space, C120_legendre, C120_grid_small, C120_grid_large, C96_from_dense, C96_axpy, C96_print, C170_range, C170_bounds, C170_upper_unchecked_refuted, C171_rock_list, C37_limits, C39_flows, C39_total, C39_throws, C40_saturations, C41_seeding, C42_all_components_refuted, C110_mobilities, C111_last_saturation, C21_porosity, C22_net, C23_critical, C25_velocity, C156_cells, C158_limits, C158_no_rock, C159_saturations, C159_ratio, C159_range, C159_isotropic_range, C159_table, C159_isotropic, C159_anisotropic, C159_z_ignored, C159_all_stones, C160_water, C160_values, C160_within, C160_monotone, C160_tabulation, C161_cells, C161_contrast, C161_single, C161_monotone, C162_collect, C162_point, C162_ranks, C162_master, C163_product, C163_recovers, C163_diagonal, C163_multiple, C163_columns, C163_critical, C163_helper, C163_cut, C163_cut_all, C163_table, C163_interpolated, C163_nothing, C217_reuse, C218_failed, C212_start, C182_defaults, C182_smoother, C183_box_refuted, C186_rows, C182_given, C183_cells, C186_row, C182_steps, C183_cells_defined, C186_solved, C182_type, C185_subdomains, C182_pre, C185_cover, C182_mortarpre, C183_box, C184_shared_refuted, C185_skew_refuted, C209_order, C209_scaled, C210_lower, C210_harmonic, C210_positive, C210_uniform, C215_contents, C216_units, C216_field_refuted, C221_row, C187_history, C187_first_refuted, C189_success, C190_values, C187_class_refuted, C188_system, C189_failure, C199_total_mobility, C175_plain, C176_program, C175_interpolated, C176_unchecked, C176_extra_row, C177_init, C178_density, C179_steps, C180_rocks, C180_same_grid, C177_repeated, C178_rates, C178_overlap_refuted, C179_finished, C180_cartesian, C180_format, C181_same, C178_consistent, C178_stale_refuted, C179_failed, C180_rejected, C180_clip_refuted, C181_symmetric, C178_order, C178_order_refuted, C180_eclipse, C180_outcome, C181_accepted, C205_loop, C205_all_steps, C222_visc, C193_mimetic, C196_mimetic, C223_plain, C223_interpolated, C223_bounded, C223_ratio_refuted, C222_visc_single.

R (151 theorems): C127_integration, C127_volume, C11_sides, C12_pairing, C12_symmetry_refuted, C13_complete, C15_periodic, C15_illegal_type, C16_fixed, C17_linear, C18_keeps_partners, C18_no_stale_partner_refuted, C19_side_flux, C150_limits, C150_no_rock, C151_relperm, C152_values, C152_balance, C152_within, C152_monotone, C152_cond, C152_same, C153_raw, C153_interpolated, C153_one_point, C153_empty, C141_rows, C141_refused, C141_inside, C141_lost, C103_speeds, C104_speeds, C104_report, C104_order, C104_absent, C48_residual, C48_once, C48_wall, C49_flux, C131_entries, C131_total, C131_inside, C77_formula, C77_derivative, C77_decreasing, C77_range, C77_inverse_formula, C77_roundtrip, C78_dispatch, C78_roundtrip, C78_no_rocks, C78_pressures, C81_default, C81_rocks, C69_definite, C69_unique, C114_regularised, C115_patch, C115_regularised, C143_sources, C143_closed, C143_no_capillary, C143_switched_off, C144_step, C144_volume, C144_conserved, C144_in_range, C144_undefined, C145_euclid, C145_euclid_is_norm, C145_equivalent, C79_ordered, C79_symmetric, C79_same, C79_not_positive, C113_symmetric_refuted, C30_phase_tensors, C30_contrast, C30_single_phase, C30_single_aniso_refuted, C31_no_rock, C32_saturation, C32_accepts, C33_offsets, C34_pc_range, C36_steady, C24_homogeneous, C219_sides, C219_no_stale_side_refuted, C220_types, C220_direction, C220_fixed, C220_region, C213_overflow, C212_file, C213_default_refuted, C183_zcells, C183_heuristic, C187_stale_refuted, C188_start, C187_runs, C189_solution, C190_upscaling, C199_fixed, C199_aniso_refuted, C200_periodic, C200_periodic_pressure, C201_periodic, C199_shape, C199_periodic, C200_fixed, C200_fixed_pressure, C201_fixed, C201_exist, C206_fixed, C206_implicit, C207_fixed, C208_uniform, C208_exist, C206_periodic, C206_explicit, C207_periodic, C208_rock, C202_fixed, C202_implicit, C203_fixed, C204_uniform, C204_plane, C202_periodic, C202_explicit, C203_periodic, C204_exist, C204_plane_refuted, C191_symmetric, C192_positive, C193_lower, C194_plane, C196_periodic, C196_fixed_scaling, C198_finite, C192_plane, C195_diagonal, C196_fixed, C198_uniform, C192_nonneg, C193_upper, C194_uniform, C195_bounds, C196_periodic_scaling, C197_total, C198_scaling.

Closed under the global context (114 theorems): C84_numbers, C84_bijective, C84_again, C98_extract, C148_accepted, C148_unknown_option, C148_dangling_option, C148_missing_files, C148_cases, C148_file_each, C148_one_file, C148_wrong_number, C155_elements, C07_partition, C08_race_free, C09_strips, C10_chunks, C105_table, C105_partition, C105_cut, C91_short, C50_blocks, C50_reinit_serial, C50_reinit_refuted, C100_nodes, C100_single, C130_few_pillars, C117_header, C117_header_unterminated, C117_header_cases, C117_documented_header_refuted, C117_rows, C117_rows_malformed, C117_table_empty, C117_specs, C117_specs_short, C70_numbering, C70_in_order, C70_order_refuted, C70_interface, C70_same, C70_sane, C164_assertions, C62_storage, C62_faces_refuted, C112_half_faces, C83_index, C124_partition, C167_options, C167_unknown, C167_dangling, C167_none, C167_nodash, C167_complete, C168_flags, C168_total, C26_zcorn, C27_voigt, C27_order, C28_distribution, C28_counts, C120_legendre_zero, C171_direction, C171_conditions, C171_first_word, C171_rock_numbers, C171_rock_count, C38_destripe, C42_row, C42_columns, C43_missing_row, C63_create, C63_append, C63_history, C63_read, C63_wrong_phases, C63_clear, C63_destroy, C63_out_of_memory, C20_set_type, C20_history, C157_isotropic, C157_anisotropic, C211_insert, C212_name, C183_class_refuted, C182_method, C182_method_refuted, C182_vtu, C183_class, C186_mesh, C214_same, C215_names, C221_wanted, C221_rocks, C221_differ, C173_fluids, C173_unknown_option, C174_curves, C176_names, C173_conditions, C173_dangling_option, C174_files, C176_distinct, C173_accepted, C173_missing_files, C174_not_inverted, C175_header, C176_directory_refuted, C181_numbers, C205_manager, C222_cond_names, C222_visc_names, C191_unique.

R and `Classical_Prop.classic` (51 theorems): C106_permeability, C106_formula, C106_thin_cells, C134_means, C98_inverse, C98_inverse_convex, C98_outside, C98_overwritten, C98_find, C98_find_convex, C99_quadratic, C99_quadratic_near, C99_quadratic_none, C99_linear, C99_constant, C99_cubic_three, C99_cubic_double, C99_cubic_one, C99_cubic_nan, C99_cubic_missed, C99_single_precision, C99_bilinear, C99_bilinear_residual, C154_mud, C154_archie, C154_dry, C154_bounds, C154_wetter, C154_cells, C154_cutoff, C155_ranks, C155_master, C137_defined, C137_entries, C137_printed, C137_ntg_unfilled, C137_shifted_refuted, C137_chopped, C138_limits, C138_pressures, C128_periodic, C128_strong, C128_position, C171_stops, C171_hangs, C172_runs, C172_program, C40_pressures, C40_single, C222_cond, C222_cond_single.

`sig_forall_dec` (52 theorems): C126_pickers, C14_tables, C14_partners, C136_fixed, C136_undefined, C142_fixed, C143_conditions, C147_given, C83_read, C83_write, C83_assign, C83_add, C83_scale, C83_zero, C83_eye, C97_direct, C97_uzawa_load, C125_matrix_short, C125_prepare, C55_water_saturation, C116_uniform, C93_one_dimension, C96_augment, C96_augment_symmetric, C96_diagonal, C96_extract_diagonal, C96_extract_diagonal_missing, C96_extract_block, C96_save, C172_tables, C38_expand, C38_inverse, C43_round_trip, C43_lossless, C162_process, C219_unique, C211_pressures, C211_write, C184_columns, C184_size, C184_columns_refuted, C184_operator, C184_undefined, C184_threads, C186_solver, C183_coordinates, C184_shared, C186_failure, C214_lines, C177_control, C177_uniform, C177_file.
